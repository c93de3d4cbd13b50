(** The node manager: hash-consing of DAG nodes (include/dag.h, src/dag.cpp). *)
From Verif Require Import Base KindModel SortModel.

(** include/dag.h:70-83: the fields of DAGNode that decide identity.  A pointer to a
    managed node is its index; a pointer to a sort is a natural number.  The numeric
    [value] cache and the use counter take no part in hashing or comparison. *)
Record node := Node { nd_sort : nat; nd_kind : kind; nd_name : str; nd_ch : list nat }.

(** A managed node together with its cached hash code and children_hash
    (dag.h:79-80; computed once, dag.h:86-98 and 906-932). *)
Record entry := Entry { e_node : node; e_hash : Z; e_chash : str }.
Definition heap := list entry.

(** hash codes of the children: each child is dereferenced *)
Definition child_hash (h : heap) (i : nat) : res Z :=
  match nth_error h i with Some e => Ok (e_hash e) | None => UB end.

(** dag.h:86-98: children_hash *)
Definition children_hash (hs : list Z) : str :=
  match hs with [] => [] | _ => Idec (fold_left mixh hs 0) end.

(** dag.h:906-932: hashCode().  [hstr] is std::hash<std::string>, [sstr] the text of a sort. *)
Definition hashCode (hstr : str -> Z) (sstr : nat -> str) (n : node) (ch : str) : Z :=
  let s1 := mixh 0 (hstr (sstr (nd_sort n))) in
  let s2 := mixh s1 (Z.of_N (kind_ix (nd_kind n))) in
  let s3 := mixh s2 (match nd_name n with [] => 0 | _ => hstr (nd_name n) end) in
  let s4 := mixh s3 (zlen (nd_ch n)) in
  let s5 := mixh s4 (match ch with [] => 0 | _ => hstr ch end) in
  mixh s5 0.

Definition mkEntry (hstr : str -> Z) (sstr : nat -> str) (h : heap) (n : node) : res entry :=
  hs <- mapM (child_hash h) (nd_ch n) ;;
  let c := children_hash hs in
  Ok (Entry n (hashCode hstr sstr n c) c).

Definition visited_t := list (nat * nat).
Definition in_visited (v : visited_t) (i j : nat) : bool :=
  existsb (fun p => Nat.eqb (fst p) i && Nat.eqb (snd p) j) v.

(** dag.h:956-997: isEquivalentTo(other, visited); [i] is this, [j] is other. *)
Fixpoint equiv (fuel : nat) (h : heap) (v : visited_t) (i j : nat) : res (bool * visited_t) :=
  match fuel with
  | O => NoFuel
  | S fuel' =>
    if Nat.eqb i j then Ok (true, v)
    else match nth_error h i, nth_error h j with
    | Some a, Some b =>
        let na := e_node a in let nb := e_node b in
        if negb (keq (nd_kind na) (nd_kind nb)) || negb (Nat.eqb (length (nd_ch na)) (length (nd_ch nb)))
           || negb (Nat.eqb (nd_sort na) (nd_sort nb)) then Ok (false, v)
        else if negb (seq_str (nd_name na) (nd_name nb)) then Ok (false, v)
        else if (match e_chash a with [] => false | _ => true end)
                && (match e_chash b with [] => false | _ => true end)
                && negb (seq_str (e_chash a) (e_chash b)) then Ok (false, v)
        else if in_visited v i j then Ok (true, v)
        else (fix loop (xs ys : list nat) (v : visited_t) : res (bool * visited_t) :=
                match xs, ys with
                | x :: xs', y :: ys' =>
                    r <- equiv fuel' h v x y ;;
                    if fst r then loop xs' ys' (snd r) else Ok (false, snd r)
                | _, _ => Ok (true, v)
                end) (nd_ch na) (nd_ch nb) ((i, j) :: v)
    | _, _ => UB
    end
  end.

(** src/dag.cpp:959-1000: insertNodeToBucket.  The bucket of (kind, hash) is scanned in
    insertion order; as nodes and bucket entries are appended together
    (dag.cpp:995-996), it is the sublist of the heap with that kind and hash.
    [h1] is the heap with the candidate appended, so that the candidate, too, has a
    pointer; the candidate is never pointer-equal to a managed node. *)
Fixpoint bucket_scan (fuel : nat) (h1 : heap) (c : entry) (ci : nat) (l : heap) (i : nat)
  : res (option nat) :=
  match l with
  | [] => Ok None
  | x :: l' =>
      let nx := e_node x in let nc := e_node c in
      if keq (nd_kind nx) (nd_kind nc) && (e_hash x =? e_hash c)
         && Nat.eqb (length (nd_ch nx)) (length (nd_ch nc)) && seq_str (nd_name nx) (nd_name nc)
      then r <- equiv fuel h1 [] i ci ;;
           if fst r then Ok (Some i) else bucket_scan fuel h1 c ci l' (S i)
      else bucket_scan fuel h1 c ci l' (S i)
  end.
Definition insertNode (hstr : str -> Z) (sstr : nat -> str) (h : heap) (n : node)
  : res (nat * heap) :=
  c <- mkEntry hstr sstr h n ;;
  r <- bucket_scan (S (S (length h))) (h ++ [c]) c (length h) h 0 ;;
  match r with
  | Some i => Ok (i, h)
  | None => Ok (length h, h ++ [c])
  end.

(** dag.cpp:1031-1035 createNode(sort, kind, name, children); the other overloads build a
    node without children and insert it the same way. *)
Fixpoint runNodes (hstr : str -> Z) (sstr : nat -> str) (h : heap) (ns : list node)
  : res (list nat * heap) :=
  match ns with
  | [] => Ok ([], h)
  | n :: ns' =>
      r <- insertNode hstr sstr h n ;;
      q <- runNodes hstr sstr (snd r) ns' ;; Ok (fst r :: fst q, snd q)
  end.

(** dag.h:1078-1102 and dag.cpp:1002-1029: the static nodes, inserted by the constructor.
    Sort pointers are numbered as in the sort manager ([smgr0]). *)
Definition static_nodes : list node :=
  [ Node 0 NT_NULL (L "NULL") []; Node 1 NT_UNKNOWN (L "unknown") [];
    Node 0 NT_ERROR (L "error") []; Node 2 NT_CONST_TRUE (L "true") [];
    Node 2 NT_CONST_FALSE (L "false") []; Node 4 NT_CONST_E (L "e") [];
    Node 4 NT_CONST_PI (L "pi") []; Node 9 NT_NAN (L "NaN") [];
    Node 0 NT_ERROR (L "EPSILON") []; Node 9 NT_POS_EPSILON (L "+EPSILON") [];
    Node 9 NT_NEG_EPSILON (L "-EPSILON") []; Node 7 NT_INFINITY (L "INF") [];
    Node 7 NT_POS_INFINITY (L "+INF") []; Node 7 NT_NEG_INFINITY (L "-INF") [];
    Node 3 NT_INFINITY (L "INF") []; Node 3 NT_POS_INFINITY (L "+INF") [];
    Node 3 NT_NEG_INFINITY (L "-INF") []; Node 4 NT_INFINITY (L "INF") [];
    Node 4 NT_POS_INFINITY (L "+INF") []; Node 4 NT_NEG_INFINITY (L "-INF") [] ].
Definition manager0 (hstr : str -> Z) (sstr : nat -> str) : res heap :=
  r <- runNodes hstr sstr [] static_nodes ;; Ok (snd r).
