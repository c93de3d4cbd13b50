(** Term constructors of src/op_parser.cpp. *)
From Verif Require Import Base KindModel SortModel TermModel BVModel SimpModel.
Open Scope Z_scope.

(** op_parser.cpp:50-71 *)
Definition isCommutative (k : kind) : bool :=
  kin k [NT_ADD; NT_MUL; NT_AND; NT_IAND; NT_OR; NT_XOR; NT_BV_ADD; NT_BV_MUL; NT_BV_AND;
         NT_BV_OR; NT_BV_XOR; NT_EQ; NT_DISTINCT; NT_MAX; NT_MIN].
(** op_parser.cpp:226-235 mkInternalOper *)
Definition mkInternal (c : cfg) (s : sort) (k : kind) (ps : list term) : term :=
  T k s (kindToString k) (if isCommutative k then c_sort c ps else ps).
(** op_parser.cpp:172-225 mkOper (the overloads for 1-3 arguments simplify first and then
    call the vector version, which simplifies again with the same result) *)
Definition mkOper (c : cfg) (s : sort) (k : kind) (ps : list term) : res term :=
  r <- simp c k ps ;;
  Ok (if isUnknown r then mkInternal c s k ps else r).

(** op_parser.cpp:73-81 *)
Definition canExempt (a b : sort) : bool :=
  let n s := s_is SK_INT s || s_is SK_REAL s in n a && n b.
(** sort check before a binary operation: equal sorts or both numeric *)
Definition compat (a b : sort) : res bool :=
  e <- sort_eq a b ;; Ok (e || canExempt a b).
(** sort check against the common sort (None: nullptr, no check) *)
Definition check_sort (s : option sort) (p : term) : res bool :=
  match s with None => Ok true | Some s => compat (t_sort p) s end.

Definition isBoolParam := sis SK_BOOL.

(** op_parser.cpp:1744-1807: mkLe, mkLt, mkGe, mkGt on two arguments *)
Definition refl_val (k : kind) : bool :=
  kin k [NT_LE; NT_GE; NT_BV_ULE; NT_BV_UGE; NT_BV_SLE; NT_BV_SGE; NT_STR_LE; NT_STR_GE].
Definition mkCmp (c : cfg) (k : kind) (l r : term) : res term :=
  e <- sort_eq (t_sort l) (t_sort r) ;;
  if e then (if teq l r then mkB (refl_val k) else mkOper c boolS k [l; r])
  else if canExempt (t_sort l) (t_sort r) then mkOper c boolS k [l; r] else Exit.
(** op_parser.cpp:2773-2924: mkBvUlt .. mkBvSge *)
Definition mkBvCmp (c : cfg) (k : kind) (l r : term) : res term :=
  if negb (sis SK_BV l) || negb (sis SK_BV r) then Exit
  else if negb (keq k NT_BV_ULT) && isCBV l && isCBV r then
    b <- bvComp (c_dbg c) (t_name l) (t_name r) (bvcmp_of k) ;; mkB b
  else if teq l r then mkB (refl_val k)
  else mkOper c boolS k [l; r].
(** op_parser.cpp:3281-3331: mkFpLe .. mkFpGt *)
Definition mkFpCmp (c : cfg) (k : kind) (l r : term) : res term :=
  if negb (sis SK_FP l) || negb (sis SK_FP r) then Exit else mkOper c boolS k [l; r].
(** op_parser.cpp:3916-3972: mkStrLt .. mkStrGe *)
Definition mkStrCmp (c : cfg) (k : kind) (l r : term) : res term :=
  if negb (sis SK_STR l) || negb (sis SK_STR r) then Exit
  else if teq l r then mkB (refl_val k)
  else mkOper c boolS k [l; r].

(** the parameter loops of mkEq and mkDistinct on vectors (op_parser.cpp:430-447, 531-550):
    sort check, drop the parameters satisfying [drop] *)
Fixpoint eq_params (s : option sort) (drop : term -> bool) (ps : list term) : res (list term) :=
  match ps with
  | [] => Ok []
  | p :: ps' =>
      ok <- check_sort s p ;;
      if ok then qs <- eq_params s drop ps' ;; Ok (if drop p then qs else p :: qs)
      else Exit
  end.
(** op_parser.cpp:522-568: mkDistinct on a vector (also for two parameters).  An error
    parameter is returned unless an ill-sorted one comes before it. *)
Fixpoint first_err (s : option sort) (ps : list term) : res (option term) :=
  match ps with
  | [] => Ok None
  | p :: ps' =>
      if isErr p then Ok (Some p)
      else ok <- check_sort s p ;; if ok then first_err s ps' else Exit
  end.
Definition mkDistinctV (c : cfg) (ps : list term) : res term :=
  if Nat.ltb (length ps) 2 then Exit
  else
    s <- getSort ps ;;
    fe <- first_err s ps ;;
    match fe with
    | Some p => Ok p
    | None =>
        qs <- eq_params s isFalse ps ;;
        match qs with
        | [] => Ok FALSE
        | [q] => Ok q
        | _ => if Nat.ltb 100 (length qs) then Ok (T NT_DISTINCT boolS (L "distinct") qs)
               else mkOper c boolS NT_DISTINCT qs
        end
    end.
(** op_parser.cpp:417-466: mkEq on a vector; [eq2] is mkEq on two arguments *)
Definition mkEqV_ (eq2 : term -> term -> res term) (c : cfg) (ps : list term) : res term :=
  if Nat.ltb (length ps) 2 then Exit
  else
    s <- getSort ps ;;
    match ps with
    | [l; r] => eq2 l r
    | _ =>
        qs <- eq_params s isTrue ps ;;
        match qs with
        | [] => Ok TRUE
        | [q] => Ok q
        | _ => if Nat.ltb 100 (length qs) then Ok (T NT_EQ boolS (L "eq") qs)
               else mkOper c boolS NT_EQ qs
        end
    end.

(** children 0 and 1; getChild on a missing child is undefined *)
Definition child01 (t : term) : res (term * term) :=
  match t_ch t with a :: b :: _ => Ok (a, b) | _ => UB end.

(** mkNot (op_parser.cpp:821-856), negateComp (4353-4470) and mkEq on two arguments
    (372-416) call each other on smaller terms; [fuel] bounds the depth. *)
Fixpoint mkNotF (fuel : nat) (c : cfg) (p : term) {struct fuel} : res term :=
  match fuel with
  | O => NoFuel
  | S f =>
      if negb (isBoolParam p) then Exit
      else if isNot p then condAssert (c_dbg c) (Nat.eqb (length (t_ch p)) 1) ;;; child0 p
      else if isTrue p then Ok FALSE
      else if isFalse p then Ok TRUE
      else
        ac <- isArithComp p ;;
        if ac || isBVComp p || isStrComp p then negF f c p
        else mkOper c boolS NT_NOT [p]
  end
with negF (fuel : nat) (c : cfg) (p : term) {struct fuel} : res term :=
  match fuel with
  | O => NoFuel
  | S f =>
      if isErr p then Ok p
      else if isEq p then mkDistinctV c (t_ch p)
      else if isDistinct p then mkEqV_ (mkEqF f c) c (t_ch p)
      else
        let cmp (mk : cfg -> kind -> term -> term -> res term) (k : kind) :=
          q <- child01 p ;; mk c k (fst q) (snd q) in
        match t_kind p with
        | NT_LT => cmp mkCmp NT_GE | NT_LE => cmp mkCmp NT_GT
        | NT_GT => cmp mkCmp NT_LE | NT_GE => cmp mkCmp NT_LT
        | NT_BV_ULT => cmp mkBvCmp NT_BV_UGE | NT_BV_ULE => cmp mkBvCmp NT_BV_UGT
        | NT_BV_UGT => cmp mkBvCmp NT_BV_ULE | NT_BV_UGE => cmp mkBvCmp NT_BV_ULT
        | NT_BV_SLT => cmp mkBvCmp NT_BV_SGE | NT_BV_SLE => cmp mkBvCmp NT_BV_SGT
        | NT_BV_SGT => cmp mkBvCmp NT_BV_SLE | NT_BV_SGE => cmp mkBvCmp NT_BV_SLT
        | NT_FP_GT => cmp mkFpCmp NT_FP_LE | NT_FP_LT => cmp mkFpCmp NT_FP_GE
        | NT_FP_GE => cmp mkFpCmp NT_FP_LT | NT_FP_LE => cmp mkFpCmp NT_FP_GT
        | NT_FP_EQ => mkOper c boolS NT_NOT [p]
        | NT_STR_LT => cmp mkStrCmp NT_STR_GE | NT_STR_LE => cmp mkStrCmp NT_STR_GT
        | NT_STR_GT => cmp mkStrCmp NT_STR_LE | NT_STR_GE => cmp mkStrCmp NT_STR_LT
        | _ => mkNotF f c p
        end
  end
with mkEqF (fuel : nat) (c : cfg) (l r : term) {struct fuel} : res term :=
  match fuel with
  | O => NoFuel
  | S f =>
      ok <- compat (t_sort l) (t_sort r) ;;
      if negb ok then Exit
      else if isTrue l && isTrue r then Ok TRUE
      else if isFalse l && isFalse r then Ok TRUE
      else if isTrue l && isFalse r then Ok FALSE
      else if isFalse l && isTrue r then Ok FALSE
      else if isTrue l then Ok r
      else if isFalse l then mkNotF f c r
      else if isTrue r then Ok l
      else if isFalse r then mkNotF f c l
      else if isNot l && isNot r then
        condAssert (c_dbg c) (Nat.eqb (length (t_ch l)) 1) ;;;
        condAssert (c_dbg c) (Nat.eqb (length (t_ch r)) 1) ;;;
        a <- child0 l ;; b <- child0 r ;; mkEqF f c a b
      else mkOper c boolS NT_EQ [l; r]
  end.
Fixpoint tsize (t : term) : nat := match t with T _ _ _ ch => S (fold_right (fun x a => tsize x + a)%nat O ch) end.
(** enough for every call (OpProofs.v) *)
Definition not_fuel (p : term) : nat := 3 * tsize p + 3.
Definition mkNot (c : cfg) (p : term) : res term := mkNotF (not_fuel p) c p.
Definition negateComp (c : cfg) (p : term) : res term := negF (S (not_fuel p)) c p.
Definition mkEq (c : cfg) (l r : term) : res term := mkEqF (3 * (tsize l + tsize r) + 4) c l r.
Definition mkEqV (c : cfg) (ps : list term) : res term := mkEqV_ (mkEq c) c ps.

(** op_parser.cpp:470-521: mkDistinct on two arguments *)
Fixpoint mkDistinctF (fuel : nat) (c : cfg) (l r : term) : res term :=
  match fuel with
  | O => NoFuel
  | S f =>
      ok <- compat (t_sort l) (t_sort r) ;;
      if negb ok then Exit
      else if isTrue l && isTrue r then Ok FALSE
      else if isFalse l && isFalse r then Ok FALSE
      else if isTrue l && isFalse r then Ok TRUE
      else if isFalse l && isTrue r then Ok TRUE
      else if isTrue l then mkNot c r
      else if isFalse l then Ok r
      else if isTrue r then mkNot c l
      else if isFalse r then Ok l
      else if isNot l && isNot r then
        condAssert (c_dbg c) (Nat.eqb (length (t_ch l)) 1) ;;;
        condAssert (c_dbg c) (Nat.eqb (length (t_ch r)) 1) ;;;
        a <- child0 l ;; b <- child0 r ;; mkDistinctF f c a b
      else if isNot l then a <- child0 l ;; mkDistinctF f c a r
      else if isNot r then b <- child0 r ;; mkDistinctF f c l b
      else mkOper c boolS NT_DISTINCT [l; r]
  end.
Definition mkDistinct (c : cfg) (l r : term) : res term :=
  mkDistinctF (tsize l + tsize r + 1) c l r.

(** op_parser.cpp:4472-4500 flipComp *)
Definition flipComp (c : cfg) (p : term) : res term :=
  if isErr p then Ok p
  else if isEq p || isDistinct p then Ok p
  else
    ac <- isArithComp p ;;
    if ac || isBVCompOp p || isFPComp p || isStrComp p then
      q <- child01 p ;; mkOper c boolS (t_kind p) [snd q; fst q]
    else Ok p.

(** std::unordered_set-based removal of duplicates (op_parser.cpp:903-913) *)
Fixpoint dedup (seen ps : list term) : list term :=
  match ps with
  | [] => []
  | p :: ps' => if existsb (teq p) seen then dedup seen ps' else p :: dedup (p :: seen) ps'
  end.
(** the loop of mkAnd/mkOr (op_parser.cpp:882-901, 951-970): [unit] is skipped, [zero]
    ends it; inl is an early result *)
Fixpoint bool_loop (unit zero : term -> bool) (zr : term) (ps : list term) : res (term + list term) :=
  match ps with
  | [] => Ok (inr [])
  | p :: ps' =>
      if negb (isBoolParam p) then Exit
      else if isErr p then Ok (inl p)
      else if unit p then bool_loop unit zero zr ps'
      else if zero p then Ok (inl zr)
      else o <- bool_loop unit zero zr ps' ;;
           Ok (match o with inl t => inl t | inr qs => inr (p :: qs) end)
  end.
Definition mkJunction (c : cfg) (k : kind) (ps : list term) : res term :=
  let conj := keq k NT_AND in
  match ps with
  | [] => Ok (if conj then TRUE else FALSE)
  | [p] => Ok p
  | _ =>
      o <- bool_loop (if conj then isTrue else isFalse) (if conj then isFalse else isTrue)
             (if conj then FALSE else TRUE) ps ;;
      match o with
      | inl t => Ok t
      | inr qs =>
          match dedup [] qs with
          | [] => Ok (if conj then TRUE else FALSE)
          | [q] => Ok q
          | qs' => mkOper c boolS k qs'
          end
      end
  end.
(** op_parser.cpp:866-928 mkAnd, 935-994 mkOr *)
Definition mkAnd (c : cfg) := mkJunction c NT_AND.
Definition mkOr (c : cfg) := mkJunction c NT_OR.

(** op_parser.cpp:1001-1038 mkImplies: the loop over all but the last parameter *)
Fixpoint imp_loop (ps : list term) : term + list term :=
  match ps with
  | [] => inr []
  | p :: ps' => if isErr p then inl p else if isFalse p then inl TRUE
                else if isTrue p then imp_loop ps'
                else match imp_loop ps' with inl t => inl t | inr qs => inr (p :: qs) end
  end.
Definition mkImplies (c : cfg) (ps : list term) : res term :=
  if Nat.ltb (length ps) 2 then Exit
  else
    let b := last ps UNKNOWN in
    match imp_loop (removelast ps) with
    | inl t => Ok t
    | inr qs => if isErr b then Ok b
                else match qs with [] => Ok b | _ => mkOper c boolS NT_IMPLIES (qs ++ [b]) end
    end.
(** op_parser.cpp:1044-1075 mkXor *)
Fixpoint xor_loop (ps : list term) : term + list term :=
  match ps with
  | [] => inr []
  | p :: ps' => if isErr p then inl p else if isFalse p then xor_loop ps'
                else match xor_loop ps' with inl t => inl t | inr qs => inr (p :: qs) end
  end.
Definition mkXor (c : cfg) (ps : list term) : res term :=
  match ps with
  | [] => Ok FALSE
  | [p] => Ok p
  | _ => match xor_loop ps with
         | inl t => Ok t
         | inr [] => Ok FALSE
         | inr [q] => Ok q
         | inr qs => mkOper c boolS NT_XOR qs
         end
  end.
(** op_parser.cpp:1080-1095 mkIte *)
Definition mkIte (c : cfg) (b l r : term) : res term :=
  if isErr b then Ok b else if isErr l then Ok l else if isErr r then Ok r
  else mkOper c (t_sort l) NT_ITE [b; l; r].

(** ** arithmetic *)
(** the sort used when getSort gave nullptr (op_parser.cpp:1152-1163 etc.) *)
Definition theory_sort (c : cfg) (s : option sort) : res sort :=
  match s with
  | Some s => Ok s
  | None => if c_real c then Ok realS else if c_int c then Ok intS else Exit
  end.
(** mkConstReal(double): std::to_string gives six decimals *)
Definition real0 : term := mkConstReal (L "0.000000").
Definition real1 : term := mkConstReal (L "1.000000").
(** op_parser.cpp:1110-1165 mkAdd *)
Fixpoint add_loop (c : cfg) (s : option sort) (ps : list term) : res (term + list term) :=
  match ps with
  | [] => Ok (inr [])
  | p :: ps' =>
      if isErr p then Ok (inl p)
      else
        ok <- check_sort s p ;;
        if negb ok then Exit
        else
          z <- isZero c p ;;
          o <- add_loop c s ps' ;;
          Ok (match o with inl t => inl t | inr qs => inr (if z then qs else p :: qs) end)
  end.
Definition mkAdd (c : cfg) (ps : list term) : res term :=
  match ps with
  | [] => Exit
  | [p] => Ok p
  | _ =>
      s <- getSort ps ;;
      o <- add_loop c s ps ;;
      match o with
      | inl t => Ok t
      | inr [] => if c_real c then Ok real0 else if c_int c then Ok (mkConstInt 0) else Exit
      | inr [q] => Ok q
      | inr qs => s' <- theory_sort c s ;; mkOper c s' NT_ADD qs
      end
  end.
(** op_parser.cpp:1176-1255 mkMul: a zero factor ends the loop only in a logic whose name
    has an I or an R; otherwise it is skipped *)
Fixpoint mul_loop (c : cfg) (s : option sort) (ps : list term) : res (term + list term) :=
  match ps with
  | [] => Ok (inr [])
  | p :: ps' =>
      if isErr p then Ok (inl p)
      else
        ok <- check_sort s p ;;
        if negb ok then Exit
        else
          z <- isZero c p ;;
          if z then
            if c_int c then Ok (inl (mkConstInt 0))
            else if c_real c then Ok (inl real0)
            else mul_loop c s ps'
          else
            u <- isOne c p ;;
            o <- mul_loop c s ps' ;;
            Ok (match o with inl t => inl t | inr qs => inr (if u then qs else p :: qs) end)
  end.
Definition mkMul (c : cfg) (ps : list term) : res term :=
  match ps with
  | [p] => Ok p
  | _ =>
      condAssert (c_dbg c) (Nat.leb 2 (length ps)) ;;;
      s <- getSort ps ;;
      o <- mul_loop c s ps ;;
      match o with
      | inl t => Ok t
      | inr [] => if c_int c then Ok (mkConstInt 1) else if c_real c then Ok real1 else Exit
      | inr [q] => Ok q
      | inr [a; b] =>
          s' <- theory_sort c s ;;
          if isCInt a && isCInt b then
            x <- toInt c a ;; y <- toInt c b ;; Ok (mkConstInt (x * y))
          else if isCReal a && isCReal b then realop c NT_MUL [a; b]
          else mkOper c s' NT_MUL [a; b]
      | inr qs => s' <- theory_sort c s ;; mkOper c s' NT_MUL qs
      end
  end.
(** op_parser.cpp:1325-1380 mkSub *)
Fixpoint sub_check (s : option sort) (ps : list term) : res (option term) :=
  match ps with
  | [] => Ok None
  | p :: ps' => if isErr p then Ok (Some p)
                else ok <- check_sort s p ;; if ok then sub_check s ps' else Exit
  end.
Definition mkSub (c : cfg) (ps : list term) : res term :=
  match ps with
  | [] => Exit
  | [p] => mkNeg c p
  | _ =>
      s <- getSort ps ;;
      o <- sub_check s ps ;;
      match o with
      | Some t => Ok t
      | None =>
          s' <- theory_sort c s ;;
          match ps with
          | [a; b] =>
              if (s_is SK_INT s' || s_is SK_INTOREAL s') && isCInt a && isCInt b then
                x <- toInt c a ;; y <- toInt c b ;; Ok (mkConstInt (x - y))
              else if s_is SK_REAL s' && isCReal a && isCReal b then realop c NT_SUB [a; b]
              else
                za <- isZero c a ;;
                if za then mkNeg c b
                else zb <- isZero c b ;; if zb then Ok a else mkOper c s' NT_SUB ps
          | _ => mkOper c s' NT_SUB ps
          end
      end
  end.
(** op_parser.cpp:1808-1935: mkLe, mkLt, mkGe, mkGt on a vector: conjunction of the
    comparisons of neighbours *)
Fixpoint cmp_pairs (c : cfg) (k : kind) (s : option sort) (ps : list term) : res (term + list term) :=
  match ps with
  | a :: ((b :: _) as tl) =>
      if isErr a then Ok (inl a)
      else
        ok <- check_sort s a ;;
        if negb ok then Exit
        else
          t <- mkCmp c k a b ;;
          if isErr t then Ok (inl t)
          else o <- cmp_pairs c k s tl ;;
               Ok (match o with inl x => inl x | inr qs => inr (t :: qs) end)
  | _ => Ok (inr [])
  end.
Definition mkCmpV (c : cfg) (k : kind) (ps : list term) : res term :=
  if Nat.ltb (length ps) 2 then Exit
  else
    s <- getSort ps ;;
    match ps with
    | [l; r] => mkCmp c k l r
    | _ => o <- cmp_pairs c k s ps ;;
           match o with inl t => Ok t | inr qs => mkAnd c qs end
    end.
