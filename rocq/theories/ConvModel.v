(** Conversions of src/conv_parser.cpp: negation normal form. *)
From Verif Require Import Base KindModel SortModel TermModel BVModel SimpModel OpModel.
Open Scope Z_scope.

(** conv_parser.cpp:1491-1590 Parser::toNNF(expr, is_not).  Let nodes never reach it: the
    parser builds NT_LET_CHAIN only, so the isLet branch (1500-1504) is left out.
    getChild on a missing child is undefined behaviour. *)
Fixpoint nnf (c : cfg) (t : term) (neg : bool) {struct t} : res term :=
  let lit (t : term) := if neg then mkNot c t else Ok t in
  match t with
  | T k s n ch =>
      let all := (fix go (l : list term) : res (list term) :=
                    match l with
                    | [] => Ok []
                    | x :: l' => b <- nnf c x neg ;; bs <- go l' ;; Ok (b :: bs)
                    end) in
      if isCBool t || isVBool t then lit t
      else
        match k with
        | NT_NOT => match ch with a :: _ => nnf c a (negb neg) | [] => UB end
        | NT_AND => bs <- all ch ;; if neg then mkOr c bs else mkAnd c bs
        | NT_OR => bs <- all ch ;; if neg then mkAnd c bs else mkOr c bs
        | NT_IMPLIES =>
            match ch with
            | a :: b :: _ =>
                if neg then x <- nnf c a false ;; y <- nnf c b true ;; mkAnd c [x; y]
                else x <- nnf c a true ;; y <- nnf c b false ;; mkOr c [x; y]
            | _ => UB
            end
        | NT_ITE =>
            match ch with
            | a :: b :: tl =>
                if sis SK_BOOL b then
                  match tl with
                  | d :: _ =>
                      x <- nnf c a false ;; y <- nnf c b neg ;; u <- mkAnd c [x; y] ;;
                      x' <- nnf c a true ;; z <- nnf c d neg ;; v <- mkAnd c [x'; z] ;;
                      mkOr c [u; v]
                  | [] => UB
                  end
                else lit t
            | _ => UB
            end
        | _ => lit t
        end
  end.
(** conv_parser.cpp:1593-1600 Parser::toNNF(expr); [nnf_map] only caches results of the
    same call and the constructors are deterministic, so it is left out *)
Definition toNNF (c : cfg) (t : term) : res term := nnf c t false.
(** conv_parser.cpp:1470-1489 Parser::toNNF(exprs): the NNF of the conjunction *)
Definition toNNFs (c : cfg) (ts : list term) : res term :=
  t <- mkAnd c ts ;; toNNF c t.

(** ** Memoised bottom-up rewriting

    replaceAtoms (conv_parser.cpp:218-253), replaceNodes (255-292), splitOp (1609-1673)
    and binarizeOp (1726-1872) share one shape.  [visited] is an association list. *)
Definition memo := list (term * term).
Fixpoint mfind (t : term) (V : memo) : option term :=
  match V with
  | [] => None
  | (a, b) :: V' => if teq t a then Some b else mfind t V'
  end.
(** What is done at a node that is not descended into: the result, whether it counts as a
    change, whether the result is stored in [visited], and the lemmas emitted. *)
Record act := Act { a_res : term; a_chg : bool; a_memo : bool; a_lem : list term }.
(** Result: the new term, the out-parameter is_changed (false on entry), [visited], lemmas.
    A hit in [visited] leaves is_changed false. *)
Fixpoint walk (c : cfg) (sel : term -> option (res act)) (t : term) (V : memo) {struct t}
  : res (term * bool * memo * list term) :=
  match mfind t V with
  | Some u => Ok (u, false, V, [])
  | None =>
      match sel t with
      | Some r => a <- r ;;
                  Ok (a_res a, a_chg a, if a_memo a then (t, a_res a) :: V else V, a_lem a)
      | None =>
          match t with
          | T k s n ch =>
              q <- (fix go (l : list term) (V : memo) : res (list term * bool * memo * list term) :=
                      match l with
                      | [] => Ok ([], false, V, [])
                      | x :: l' =>
                          p <- walk c sel x V ;;
                          let '(u, b, V1, ls) := p in
                          p' <- go l' V1 ;;
                          let '(us, b', V2, ls') := p' in
                          Ok (u :: us, b || b', V2, ls ++ ls')
                      end) ch V ;;
              let '(us, b, V', ls) := q in
              if b : bool then u <- mkOper c s k us ;; Ok (u, true, (t, u) :: V', ls)
              else Ok (t, false, (t, t) :: V', ls)
          end
      end
  end.
(** conv_parser.cpp:255-292 replaceNodes(expr, node_map) *)
Definition sel_nodes (m : memo) (t : term) : option (res act) :=
  match mfind t m with Some u => Some (Ok (Act u true true [])) | None => None end.
Definition replaceNodes (c : cfg) (m : memo) (t : term) : res term :=
  p <- walk c (sel_nodes m) t [] ;;
  let '(u, b, _, _) := p in Ok (if b : bool then u else t).
(** conv_parser.cpp:218-253 replaceAtoms(expr, atom_map): isAtom may read a missing child *)
Definition sel_atoms (m : memo) (t : term) : option (res act) :=
  match isAtom t with
  | Ok true => sel_nodes m t
  | Ok false => None
  | Throw e => Some (Throw e) | Exit => Some Exit | Abort => Some Abort
  | UB => Some UB | NoFuel => Some NoFuel
  end.
Definition replaceAtoms (c : cfg) (m : memo) (t : term) : res term :=
  p <- walk c (sel_atoms m) t [] ;;
  let '(u, b, _, _) := p in Ok (if b : bool then u else t).

(** conv_parser.cpp:1602-1673 splitOp(expr, op_set): the lemmas are those of getSplitLemmas *)
Definition split2 (c : cfg) (t : term) (ka kb : kind) : res act :=
  q <- child01 t ;;
  let '(l, r) := q in
  let mk k := if keq k NT_EQ then mkEq c l r else mkCmp c k l r in
  x <- mk ka ;; y <- mk kb ;;
  nx <- mkNot c x ;; ny <- mkNot c y ;; lem <- mkOr c [nx; ny] ;;
  u <- mkOr c [x; y] ;;
  Ok (Act u true false [lem]).
Definition sel_split (c : cfg) (ops : list kind) (t : term) : option (res act) :=
  if kin (t_kind t) ops then
    Some (if isk NT_LT t || isk NT_GT t || isEq t then Ok (Act t false false [])
          else if isk NT_GE t then split2 c t NT_GT NT_EQ
          else if isk NT_LE t then split2 c t NT_LT NT_EQ
          else if isDistinct t then split2 c t NT_LT NT_GT
          else Ok (Act t false false []))
  else None.
Definition splitOp (c : cfg) (ops : list kind) (t : term) : res (term * list term) :=
  p <- walk c (sel_split c ops) t [] ;;
  let '(u, _, _, ls) := p in Ok (u, ls).

(** conv_parser.cpp:1714-1872 binarizeOp(expr, op_set) *)
Fixpoint pairs_next (f : term -> term -> res term) (l : list term) : res (list term) :=
  match l with
  | a :: ((b :: _) as tl) => x <- f a b ;; xs <- pairs_next f tl ;; Ok (x :: xs)
  | _ => Ok []
  end.
Fixpoint pairs_all (f : term -> term -> res term) (l : list term) : res (list term) :=
  match l with
  | a :: tl => xs <- mapM (f a) tl ;; ys <- pairs_all f tl ;; Ok (xs ++ ys)
  | [] => Ok []
  end.
Definition sel_bin (c : cfg) (ops : list kind) (t : term) : option (res act) :=
  if kin (t_kind t) ops then
    let big (r : res (list term)) :=
      Some (if Nat.ltb 2 (length (t_ch t)) then xs <- r ;; u <- mkAnd c xs ;; Ok (Act u true true [])
            else Ok (Act t false true [])) in
    if isEq t then big (pairs_next (fun a b => mkEqV c [a; b]) (t_ch t))
    else if isDistinct t then big (pairs_all (fun a b => mkDistinctV c [a; b]) (t_ch t))
    else if kin (t_kind t) arith_comp_kinds then
      big (pairs_next (fun a b => mkCmpV c (t_kind t) [a; b]) (t_ch t))
    else None
  else None.
Definition binarizeOp (c : cfg) (ops : list kind) (t : term) : res term :=
  p <- walk c (sel_bin c ops) t [] ;;
  let '(u, _, _, _) := p in Ok u.
(** conv_parser.cpp:1874-1885: the default set *)
Definition bin_ops : list kind := eq_kinds ++ distinct_kinds ++ [NT_GE; NT_LE; NT_GT; NT_LT].

(** conv_parser.cpp:1680-1712 remove(expr, nodes): None is NULL_NODE.  A removal below a
    child leaves is_changed false, so the parent keeps its old child. *)
Fixpoint remove (c : cfg) (ns : list term) (t : term) (V : memo) {struct t} : res (option term * memo) :=
  match mfind t V with
  | Some u => Ok (Some u, V)
  | None =>
      if existsb (teq t) ns then Ok (None, V)
      else
        match t with
        | T k s n ch =>
            q <- (fix go (l : list term) (V : memo) : res (list term * bool * memo) :=
                    match l with
                    | [] => Ok ([], false, V)
                    | x :: l' =>
                        p <- remove c ns x V ;;
                        p' <- go l' (snd p) ;;
                        let '(us, b, V2) := p' in
                        match fst p with
                        | Some u => Ok (u :: us, b, V2)
                        | None => Ok (us, true, V2)
                        end
                    end) ch V ;;
            let '(us, b, V') := q in
            if b : bool then u <- mkOper c s k us ;; Ok (Some u, (t, u) :: V')
            else Ok (Some t, (t, t) :: V')
        end
  end.

(** conv_parser.cpp:1888-1912 hasSomeKinds: depth-first search with a visited set; the
    set only avoids repeated work *)
Fixpoint hasSomeKinds (ks : list kind) (t : term) : bool :=
  match t with T k _ _ ch => kin k ks || existsb (hasSomeKinds ks) ch end.
