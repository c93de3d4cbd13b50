(** The tables of variable names of the parser over the node manager: mkVar, mkTempVar,
    declareVar, rename and the queries about them (src/op_parser.cpp, src/base_parser.cpp,
    src/dag.cpp). *)
From Verif Require Import Base KindModel SortModel TermModel LexModel ParseModel DagModel.
Open Scope Z_scope.

(** include/parser.h:152-161: node_manager, var_names, temp_var_names, temp_var_counter and
    sort_key_map.  A node is its index in the manager, a sort pointer is a number (as in
    DagModel.v); None in the sort table is a null pointer.  The tables are
    std::unordered_map: the order in which the queries list their entries is not specified,
    and the theorems do not depend on it. *)
Record tabs := Tabs { tb_h : heap; tb_var : smap nat; tb_tmp : smap nat; tb_ctr : Z; tb_srt : smap (option nat) }.
Definition set_h h t := Tabs h (tb_var t) (tb_tmp t) (tb_ctr t) (tb_srt t).
(** base_parser.cpp:36-70: a new parser *)
Definition tabs0 (h : heap) : tabs := Tabs h [] [] 0 [].

(** src/dag.cpp:926-941 NodeManager::getIndex.  Its -1 for a node that is not managed is
    modelled as UB: it is stored and later used to subscript the vector of nodes. *)
Fixpoint index_scan (fuel : nat) (h : heap) (c : entry) (ci : nat) (l : heap) (i : nat) : res nat :=
  match l with
  | [] => UB
  | x :: l' =>
      if keq (nd_kind (e_node x)) (nd_kind (e_node c)) && (e_hash x =? e_hash c) then
        if Nat.eqb i ci then Ok i
        else r <- equiv fuel h [] i ci ;; if fst r then Ok i else index_scan fuel h c ci l' (S i)
      else index_scan fuel h c ci l' (S i)
  end.
Definition getIndex (h : heap) (i : nat) : res nat :=
  match nth_error h i with Some c => index_scan (S (length h)) h c i h 0 | None => UB end.
(** src/dag.cpp:923-925 NodeManager::getNode: an unchecked subscript *)
Definition getNode (h : heap) (i : nat) : res nat := if Nat.ltb i (length h) then Ok i else UB.

Section N.
Context (hstr : str -> Z) (sstr : nat -> str).

(** src/op_parser.cpp:710-720 mkVar(sort, name); 727-775 mkVarBool, mkVarInt, mkVarReal,
    mkVarStr, mkVarReg and mkVarRoundingMode are this with their sort.  A null sort is
    dereferenced by the hash of the new node (dag.h:912). *)
Definition mkVar (s : option nat) (n : str) (t : tabs) : res (nat * tabs) :=
  match mget n (tb_var t) with
  | Some i => j <- getNode (tb_h t) i ;; Ok (j, t)
  | None =>
      match s with
      | None => UB
      | Some s =>
          r <- insertNode hstr sstr (tb_h t) (Node s NT_VAR n []) ;;
          i <- getIndex (snd r) (fst r) ;;
          Ok (fst r, Tabs (snd r) (mins n i (tb_var t)) (tb_tmp t) (tb_ctr t) (tb_srt t))
      end
  end.
(** src/op_parser.cpp:571-573 declareVar(name, sort name): operator[] inserts a null pointer
    for a name that is not in the table *)
Definition declareVar (n s : str) (t : tabs) : res (nat * tabs) :=
  match mget s (tb_srt t) with
  | Some p => mkVar p n t
  | None => mkVar None n (Tabs (tb_h t) (tb_var t) (tb_tmp t) (tb_ctr t) (mset s None (tb_srt t)))
  end.
Definition temp_name (z : Z) : str := L "temp_" ++ Idec z.
(** src/op_parser.cpp:700-709 mkTempVar *)
Definition mkTempVar (s : nat) (t : tabs) : res (nat * tabs) :=
  let n := temp_name (tb_ctr t) in
  match mget n (tb_tmp t) with
  | Some _ => Exit
  | None =>
      r <- insertNode hstr sstr (tb_h t) (Node s NT_TEMP_VAR n []) ;;
      i <- getIndex (snd r) (fst r) ;;
      Ok (fst r, Tabs (snd r) (tb_var t) (mins n i (tb_tmp t)) (u64 (tb_ctr t + 1)) (tb_srt t))
  end.
(** every other constructor: dag.cpp:1031-1035 createNode *)
Definition mkNode (n : node) (t : tabs) : res (nat * tabs) :=
  r <- insertNode hstr sstr (tb_h t) n ;; Ok (fst r, set_h (snd r) t).

(** the name of an entry replaced, its hash kept: dag.h:710-714, 906-909 *)
Definition rename_entry (n : str) (e : entry) : entry :=
  Entry (Node (nd_sort (e_node e)) (nd_kind (e_node e)) n (nd_ch (e_node e))) (e_hash e) (e_chash e).
Fixpoint upd_nth {A} (i : nat) (f : A -> A) (l : list A) : list A :=
  match l, i with
  | [], _ => []
  | x :: l', O => f x :: l'
  | x :: l', S i' => x :: upd_nth i' f l'
  end.
(** operator[] read: a missing key is inserted with 0 *)
Definition at_or_zero (k : str) (m : smap nat) : nat * smap nat :=
  match mget k m with Some i => (i, m) | None => (O, (k, O) :: m) end.
(** src/base_parser.cpp:2798-2812 rename (release build: the assertion that it is a variable
    is off) *)
Definition rename (i : nat) (n : str) (t : tabs) : res (nat * tabs) :=
  match nth_error (tb_h t) i with
  | None => UB
  | Some e =>
      let old := nd_name (e_node e) in
      let h := upd_nth i (rename_entry n) (tb_h t) in
      if keq (nd_kind (e_node e)) NT_TEMP_VAR then
        let q := at_or_zero old (tb_tmp t) in
        Ok (i, Tabs h (tb_var t) (mset n (fst q) (snd q)) (tb_ctr t) (tb_srt t))
      else
        let q := at_or_zero old (tb_var t) in
        Ok (i, Tabs h (mset n (fst q) (snd q)) (tb_tmp t) (tb_ctr t) (tb_srt t))
  end.

(** a history of calls *)
Inductive ncall := NVar (s : nat) (n : str) | NTemp (s : nat) | NNode (n : node).
Definition do_call (o : ncall) (t : tabs) : res (nat * tabs) :=
  match o with NVar s n => mkVar (Some s) n t | NTemp s => mkTempVar s t | NNode n => mkNode n t end.
Fixpoint calls (l : list ncall) (t : tabs) : res (list nat * tabs) :=
  match l with
  | [] => Ok ([], t)
  | o :: l' => r <- do_call o t ;; q <- calls l' (snd r) ;; Ok (fst r :: fst q, snd q)
  end.
End N.

(** ** the queries *)
(** base_parser.cpp:2624-2626 *)
Definition isDeclaredVariable (n : str) (t : tabs) : bool := match mget n (tb_var t) with Some _ => true | None => false end.
(** base_parser.cpp:267-275; None is NULL_NODE *)
Definition getVariable (n : str) (t : tabs) : res (option nat) :=
  match mget n (tb_var t) with
  | Some i => j <- getNode (tb_h t) i ;; Ok (Some j)
  | None =>
      match mget n (tb_tmp t) with
      | Some i => j <- getNode (tb_h t) i ;; Ok (Some j)
      | None => Ok None
      end
  end.
(** base_parser.cpp:260-266 *)
Definition getDeclaredVariables (t : tabs) : res (list nat) := mapM (fun q => getNode (tb_h t) (snd q)) (tb_var t).
(** base_parser.cpp:250-259 *)
Definition getVariables (t : tabs) : res (list nat) :=
  a <- mapM (fun q => getNode (tb_h t) (snd q)) (tb_var t) ;;
  b <- mapM (fun q => getNode (tb_h t) (snd q)) (tb_tmp t) ;; Ok (a ++ b).
