(** Normalisation of arithmetic comparisons: src/base_parser.cpp:2168-2320.

    The traversal is a stack with a table of results.  The nodes are hash-consed and the result
    of a node depends on the node alone, so it is written as a recursion.  Both maps are one
    here: each node has its result and whether it changed.
    NT_LET is never built by the library (the parser builds NT_LET_CHAIN); such a node runs out
    of fuel. *)
From Verif Require Import Base KindModel SortModel TermModel SimpModel OpModel ArrSimpModel.

(** base_parser.cpp:2343-2362 getZero, for the numeric sorts *)
Definition getZero (s : sort) : res term :=
  if s_is SK_INT s || s_is SK_INTOREAL s then Ok (mkConstInt 0)
  else if s_is SK_REAL s then Ok real0
  else NoFuel.
(** base_parser.cpp:2201, 2285 *)
Definition norm_leaf (t : term) : bool := isConst t || isVar t || isArithTerm t || isErr t.
(** base_parser.cpp:2207-2229; more than two children: the others are not looked at (the
    assertion is off in a release build) *)
Definition normComp (c : cfg) (t : term) (vs : list (term * bool)) : res (term * bool) :=
  condAssert (c_dbg c) (Nat.eqb (length (t_ch t)) 2) ;;;
  match vs with
  | (l, cl) :: (r, cr) :: _ =>
      if negb (isConst r) then
        d <- mkOper c (t_sort l) NT_SUB [l; r] ;;
        z <- getZero (t_sort l) ;;
        u <- mkOper c boolS (t_kind t) [d; z] ;; Ok (u, true)
      else if cl || cr then u <- mkOper c (t_sort t) (t_kind t) [l; r] ;; Ok (u, true)
      else Ok (t, false)
  | _ => UB
  end.
(** base_parser.cpp:2231-2282 *)
Definition normOther (c : cfg) (ptr : list term -> list term) (t : term) (vs : list (term * bool)) : res (term * bool) :=
  let us := map fst vs in
  let ch := existsb snd vs in
  u <- (if ch then
          if kin (t_kind t) [NT_UF_APPLY; NT_FUNC_APPLY; NT_FUNC_REC_APPLY] || isArray t then Ok (T (t_kind t) (t_sort t) (t_name t) us)
          else mkOper c (t_sort t) (t_kind t) us
        else Ok t) ;;
  q <- (if kin (t_kind u) [NT_SELECT; NT_STORE] then
          w <- simplifyArray c ptr u ;; Ok (if teq w u then (u, ch) else (w, true))
        else Ok (u, ch)) ;;
  let (w, ch') := (q : term * bool) in
  if isEq w then
    s <- (match t_ch w with
          | [a; b] => simp c (t_kind w) [a; b]
          | _ :: _ :: _ :: _ => simp c (t_kind w) us
          | _ => Ok UNKNOWN
          end) ;;
    Ok (if isUnknown s then (w, ch') else (s, true))
  else Ok (w, ch').
Definition norm_list (f : term -> res (term * bool)) : list term -> res (list (term * bool)) :=
  fix go (l : list term) : res (list (term * bool)) :=
    match l with [] => Ok [] | x :: l' => o <- f x ;; q <- go l' ;; Ok (o :: q) end.
(** base_parser.cpp:2174-2314 *)
Fixpoint norm (c : cfg) (ptr : list term -> list term) (t : term) : res (term * bool) :=
  match t with
  | T k s n ch =>
      if norm_leaf (T k s n ch) then Ok (T k s n ch, false)
      else if keq k NT_LET then NoFuel
      else
        vs <- norm_list (norm c ptr) ch ;;
        ac <- isArithComp (T k s n ch) ;;
        if ac then normComp c (T k s n ch) vs else normOther c ptr (T k s n ch) vs
  end.
(** base_parser.cpp:2168-2171 *)
Definition arithNormalize (c : cfg) (ptr : list term -> list term) (t : term) : res term :=
  o <- norm c ptr t ;; Ok (fst o).
