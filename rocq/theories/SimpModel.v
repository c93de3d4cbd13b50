(** Constant folding: Parser::simp_oper (src/simp_parser.cpp:45-1839). *)
From Coq Require Import QArith Qround.
From Verif Require Import Base KindModel SortModel TermModel BVModel UtilModel ArrayModel.
Open Scope Z_scope.

(** What the folding depends on besides its arguments.
    - [c_dbg]: condAssert compiled in;
    - [c_float], [c_keepdiv]: options->evaluate_use_floating, keep_division_if_not_divisible;
    - [c_int], [c_real]: options->isIntTheory(), isRealTheory() (options.h:185-190);
    - [c_rv]: the MPFR value of a numeric constant at the evaluation precision
      (Parser::toReal, base_parser.cpp:295-307); [c_r2i]: its conversion to Integer;
    - [c_rs k qs]: the text of the MPFR result of a real operation (mkConstReal of it);
      MPFR rounding itself is modelled in NumModel.v;
    - [c_hash]: node hash codes; [c_sort]: the order sortParams gives to arguments. *)
Record cfg := Cfg {
  c_dbg : bool; c_float : bool; c_keepdiv : bool; c_int : bool; c_real : bool;
  c_rv : term -> Q; c_r2i : term -> Z; c_rs : kind -> list Q -> str;
  c_hash : term -> Z; c_sort : list term -> list term }.

Definition unk : res term := Ok UNKNOWN.
Definition mkB (b : bool) : res term := Ok (if b then TRUE else FALSE).

(** op_parser.cpp:617-631: mkConstInt *)
Definition mkConstInt (z : Z) : term := T NT_CONST intorealS (Idec z) [].
(** op_parser.cpp:638-649: mkConstReal(const Real&), mkConstReal(const Integer&): the text *)
Definition mkConstReal (s : str) : term := T NT_CONST realS s [].
(** op_parser.cpp:653-662: mkConstStr *)
Definition mkConstStr (v : str) : res term :=
  if (2 <=? zlen v) && aeq (hd nul v) dq && aeq (last v nul) dq then
    c <- substr v 1 (zlen v - 2) ;;
    Ok (T NT_CONST strS (quote (escapeString (unescapeString c))) [])
  else Ok (T NT_CONST strS v []).
(** op_parser.cpp:663-675: mkConstBv; the sort is createBVSort(width) (C18_bv_width) *)
Definition mkConstBv (c : cfg) (v : str) (w : Z) : res term :=
  b <- natToBv_str (c_dbg c) v w ;; Ok (T NT_CONST (bvS w) b []).
(** sort.h:164-167 getBitWidth *)
Definition width (t : term) : res Z := child_arity (t_sort t) 0.

(** base_parser.cpp:308-318 toInt with ensureNumberValue (334-356): a text that isInt
    accepts but Integer rejects ends the program; a text that is no number counts as 0. *)
Definition toInt (c : cfg) (t : term) : res Z :=
  if isConst t && isInt (t_name t) then
    match Integer_of_str (t_name t) with
    | Throw _ => Exit
    | Ok z => condAssert (c_dbg c) (isCInt t) ;;; Ok z
    | r => r
    end
  else if isConst t && isReal (t_name t) then condAssert (c_dbg c) (isCInt t) ;;; Ok (c_r2i c t)
  else condAssert (c_dbg c) (isCInt t) ;;; Ok 0.
(** number.cpp:597-599 HighPrecisionReal::toInt of an integral value: mpfr_get_si, which stops at the ends of long,
    and the conversion of its result to int, which keeps 32 bits *)
Definition realToInt (z : Z) : Z :=
  (Z.min (Z.max z (-9223372036854775808)) 9223372036854775807 + 2147483648) mod 4294967296 - 2147483648.
(** base_parser.cpp:319-333 isZero, isOne *)
Definition isZero (c : cfg) (t : term) : res bool :=
  if isCRoot t then Ok false
  else if isCReal t then Ok (Qeq_bool (c_rv c t) 0)
  else if isCInt t then z <- toInt c t ;; Ok (z =? 0)
  else Ok false.
Definition isOne (c : cfg) (t : term) : res bool :=
  if isCReal t then Ok (Qeq_bool (c_rv c t) 1)
  else if isCInt t then z <- toInt c t ;; Ok (z =? 1)
  else Ok false.

(** toReal(p).f() as a constant *)
Definition realop (c : cfg) (k : kind) (l : list term) : res term :=
  Ok (mkConstReal (c_rs c k (map (c_rv c) l))).
Definition isNumC (t : term) : bool := isCInt t || isCReal t.

(** simp_parser.cpp:102-523: the functions evaluated in floating point only *)
Definition float1_kinds : list kind :=
  [NT_SQRT; NT_SAFESQRT; NT_EXP; NT_LN; NT_LG; NT_LB; NT_SIN; NT_COS; NT_SEC; NT_CSC; NT_TAN;
   NT_COT; NT_ASIN; NT_ACOS; NT_ASEC; NT_ACSC; NT_ATAN; NT_ACOT; NT_SINH; NT_COSH; NT_TANH;
   NT_SECH; NT_CSCH; NT_COTH; NT_ASINH; NT_ACOSH; NT_ATANH; NT_ASECH; NT_ACSCH; NT_ACOTH].
(** simp_parser.cpp:748-790: n-ary operators applied to one argument *)
Definition nary1_kinds : list kind :=
  [NT_EQ; NT_EQ_BOOL; NT_EQ_OTHER; NT_DISTINCT; NT_DISTINCT_BOOL; NT_DISTINCT_OTHER; NT_AND; NT_OR;
   NT_IMPLIES; NT_XOR; NT_ADD; NT_MUL; NT_IAND; NT_SUB; NT_BV_AND; NT_BV_OR; NT_BV_XOR; NT_BV_NAND;
   NT_BV_NOR; NT_BV_XNOR; NT_BV_ADD; NT_BV_SUB; NT_BV_MUL; NT_BV_SADDO; NT_BV_UADDO; NT_BV_SMULO;
   NT_BV_UMULO; NT_BV_CONCAT; NT_FP_ADD; NT_FP_SUB; NT_FP_MUL; NT_FP_MIN; NT_FP_MAX; NT_STR_CONCAT;
   NT_REG_CONCAT; NT_REG_UNION; NT_REG_INTER; NT_REG_DIFF; NT_MAX; NT_MIN].

(** simp_parser.cpp:45-797: one argument *)
Definition simp1 (c : cfg) (k : kind) (p : term) : res term :=
  let int1 (f : Z -> res term) := z <- toInt c p ;; f z in
  let str1 (f : str -> res str) := s <- f (t_name p) ;; mkConstStr s in
  let bv1 (f : str -> res str) := s <- f (t_name p) ;; w <- width p ;; mkConstBv c s w in
  if kin k float1_kinds then
    (if isNumC p && c_float c then realop c k [p] else unk)
  else if kin k nary1_kinds then Ok p
  else
  match k with
  | NT_NOT => if isTrue p then Ok FALSE else if isFalse p then Ok TRUE else unk
  | NT_NEG => if isCInt p then int1 (fun z => Ok (mkConstInt (- z)))
              else if isCReal p then realop c k [p] else unk
  | NT_ABS => if isCInt p then int1 (fun z => Ok (if z <? 0 then mkConstInt (- z) else p))
              else if isCReal p
              then (if Qle_bool 0 (c_rv c p) then Ok p else realop c NT_NEG [p]) else unk
  | NT_CEIL | NT_FLOOR | NT_ROUND | NT_TO_INT =>
      if isCInt p then Ok p else if isCReal p then realop c k [p] else unk
  | NT_TO_REAL => if isCInt p then int1 (fun z => Ok (mkConstReal (Idec z)))
                  else if isCReal p then Ok p else unk
  | NT_IS_INT => if isCInt p then Ok TRUE else if isCReal p then Ok FALSE else unk
  | NT_IS_PRIME => if isCInt p
                   then int1 (fun z => b <- isPrime (Z.to_nat z) z ;; mkB b)
                   else Exit
  | NT_IS_EVEN => if isCInt p then int1 (fun z => b <- isEven z ;; mkB b) else Exit
  | NT_IS_ODD => if isCInt p then int1 (fun z => b <- isOdd z ;; mkB b) else Exit
  | NT_FACT => if isCInt p then
                 int1 (fun z => if z <? 0 then Exit else if z =? 0 then Ok (mkConstInt 1)
                                else Ok (mkConstInt (mfactorial z)))
               else Exit
  | NT_BV_NOT => if isCBV p then bv1 (bvNot (c_dbg c)) else unk
  | NT_BV_NEG => if isCBV p then bv1 (bvNeg (c_dbg c)) else unk
  | NT_STR_LEN => if isCStr p then Ok (mkConstInt (zlen (t_name p))) else unk
  | NT_STR_TO_LOWER => if isCStr p then str1 strToLower else unk
  | NT_STR_TO_UPPER => if isCStr p then str1 strToUpper else unk
  | NT_STR_REV => if isCStr p then str1 strRev else unk
  | NT_STR_IS_DIGIT => if isCStr p then mkB (isInt (t_name p)) else unk
  | NT_STR_FROM_INT => if isCInt p then mkConstStr (t_name p) else unk
  (* stoi throws out_of_range beyond int; Integer_of_str stands for it below *)
  | NT_STR_TO_INT => if isCStr p then
                       (if isInt (t_name p) then z <- Integer_of_str (t_name p) ;; Ok (mkConstInt z)
                        else Exit)
                     else unk
  | NT_STR_TO_CODE => if isCStr p then
                        match t_name p with
                        | [ch] => Ok (mkConstInt (if Nat.ltb (code ch) 128 then Z.of_nat (code ch)
                                                  else Z.of_nat (code ch) - 256))
                        | _ => Exit
                        end
                      else unk
  | NT_STR_FROM_CODE => if isCInt p then
                          int1 (fun z => if (0 <=? z) && (z <=? 127)
                                         then mkConstStr [ascii_of_nat (Z.to_nat z)] else Exit)
                        else unk
  | NT_BV_TO_NAT => if isCBV p then z <- bvToNat (c_dbg c) (t_name p) ;; Ok (mkConstInt z) else unk
  | NT_BV_TO_INT => if isCBV p then z <- bvToInt (c_dbg c) (t_name p) ;; Ok (mkConstInt z) else unk
  | NT_POW2 => if isCInt p then int1 (fun z => Ok (mkConstInt (mpow 2 z))) else unk
  | _ => unk
  end.

(** op_parser.cpp:1385-1388 mkNeg = mkOper(sort, NT_NEG, p) (172-181, 200-235) *)
Definition mkNeg (c : cfg) (p : term) : res term :=
  r <- simp1 c NT_NEG p ;;
  Ok (if isUnknown r then T NT_NEG (t_sort p) (kindToString NT_NEG) [p] else r).

(** simp_parser.cpp:38-43 canPerformArithmeticOp *)
Definition arithOk (l r : term) : bool := negb (isCRoot l) && negb (isCRoot r).

(** op_parser.cpp:82-107 getSort(params); None is nullptr *)
Definition getSort (ps : list term) : res (option sort) :=
  match ps with
  | [] => UB
  | p :: _ =>
      if numS p then Ok (Some (if existsb (sis SK_REAL) ps then realS else intS))
      else Ok (option_map t_sort (find (fun x => negb (isConst x)) ps))
  end.

Definition bvcmp_of (k : kind) : bvcmp :=
  match k with
  | NT_BV_ULT => CUlt | NT_BV_ULE => CUle | NT_BV_UGT => CUgt | NT_BV_UGE => CUge
  | NT_BV_SLT => CSlt | NT_BV_SLE => CSle | NT_BV_SGT => CSgt | NT_BV_SGE => CSge
  | NT_EQ_OTHER => CEq | NT_DISTINCT_OTHER => CDistinct
  | _ => COther
  end.
(** std::string comparison: operator< *)
Fixpoint slt (a b : str) : bool :=
  match a, b with
  | [], _ :: _ => true
  | x :: a', y :: b' => if aeq x y then slt a' b' else Nat.ltb (code x) (code y)
  | _, [] => false
  end.
(** Integer operator& (mpz_and, two's complement) is Z.land. *)

(** depth of the recursion on array bases: see areArraysEqual *)
Definition arr_fuel : nat := 3.

(** simp_parser.cpp:798-1511: two arguments *)
Definition simp2 (c : cfg) (k : kind) (l r : term) : res term :=
  let d := c_dbg c in
  let ints := isCInt l && isCInt r in
  let reals := isCReal l && isCReal r in
  let mixed := reals || (isCInt l && isCReal r) || (isCReal l && isCInt r) in
  let strs := isCStr l && isCStr r in
  let bvs := isCBV l && isCBV r in
  let int2 (f : Z -> Z -> res term) := a <- toInt c l ;; b <- toInt c r ;; f a b in
  let rcmp (f : Q -> Q -> bool) := mkB (f (c_rv c l) (c_rv c r)) in
  let bvop (f : bool -> str -> str -> res str) (wd : res Z) :=
    s <- f d (t_name l) (t_name r) ;; w <- wd ;; mkConstBv c s w in
  (* the branch "r->isCBV() && isZero(r)" *)
  let bvdiv (z : res term) (f : bool -> str -> str -> res str) (wd : res Z) :=
    b <- (if isCBV r then isZero c r else Ok false) ;;
    if b then z else if bvs then bvop f wd else unk in
  match k with
  | NT_EQ | NT_EQ_BOOL | NT_EQ_OTHER =>
      if ints then int2 (fun a b => mkB (a =? b))
      else if mixed then rcmp Qeq_bool
      else if bvs then mkB (seq_str (t_name l) (t_name r))
      else if strs then mkB (seq_str (t_name l) (t_name r))
      else if isArray l && isArray r then
        e <- areArraysEqual arr_fuel (c_hash c) l r ;;
        if e then Ok TRUE
        else vl <- arrayContainsVar l ;; vr <- arrayContainsVar r ;;
             if vl || vr then unk else Ok FALSE
      else unk
  | NT_POW | NT_LOG | NT_ATAN2 =>
      if arithOk l r && (ints || mixed) && c_float c then realop c k [l; r] else unk
  | NT_DIV_INT =>
      if negb (arithOk l r) then unk
      else if ints then int2 (fun a b => q <- Idiv a b ;; Ok (mkConstInt q))
      else if mixed && c_float c then (* .floor().toInt() *)
           Ok (mkConstInt (realToInt (Qfloor (c_rv c (mkConstReal (c_rs c k [c_rv c l; c_rv c r]))))))
      else unk
  | NT_DIV_REAL =>
      if negb (arithOk l r) then unk
      else if ints || mixed then
        if c_keepdiv c then
          (* (toReal(l)/toReal(r)).isInteger() *)
          let q := mkConstReal (c_rs c k [c_rv c l; c_rv c r]) in
          if Qeq_bool (c_rv c q) (inject_Z (c_r2i c q)) then Ok (mkConstInt (realToInt (c_r2i c q))) else unk
        else if c_float c then realop c k [l; r] else unk
      else unk
  | NT_MOD =>
      if arithOk l r && ints then int2 (fun a b => q <- Imod a b ;; Ok (mkConstInt q)) else unk
  | NT_LE =>
      if negb (arithOk l r) then unk
      else if ints then int2 (fun a b => mkB (a <=? b))
      else if mixed then rcmp Qle_bool else unk
  | NT_LT =>
      if negb (arithOk l r) then unk
      else if ints then int2 (fun a b => mkB (a <? b))
      else if mixed && c_float c then rcmp (fun a b => negb (Qle_bool b a)) else unk
  | NT_GE =>
      if negb (arithOk l r) then unk
      else if ints then int2 (fun a b => mkB (b <=? a))
      else if mixed && c_float c then rcmp (fun a b => Qle_bool b a) else unk
  | NT_GT =>
      if negb (arithOk l r) then unk
      else if ints then int2 (fun a b => mkB (b <? a))
      else if reals && c_float c then rcmp (fun a b => negb (Qle_bool a b)) else unk
  | NT_IS_DIVISIBLE =>
      if ints then int2 (fun a b => m <- Imod a b ;; mkB (m =? 0)) else Exit
  | NT_GCD =>
      if ints then int2 (fun a b => g <- mgcd (S (Z.abs_nat b)) a b ;; Ok (mkConstInt g)) else Exit
  | NT_LCM =>
      if ints then int2 (fun a b => g <- mlcm (S (Z.abs_nat b)) a b ;; Ok (mkConstInt g)) else Exit
  | NT_BV_UDIV =>
      bvdiv (w <- width l ;; o <- mkstr w c1 ;; mkConstBv c (hashb ++ o) w) bvUdiv (width l)
  | NT_BV_SDIV =>
      bvdiv (pos <- (if isCBV l then z <- bvToInt d (t_name l) ;; Ok (0 <=? z) else Ok false) ;;
             w <- width l ;;
             if pos : bool then o <- mkstr w c1 ;; mkConstBv c (hashb ++ o) w
             else o <- mkstr (u64 (w - 1)) c0 ;; mkConstBv c (hashb ++ o ++ [c1]) w)
            bvSdiv (width l)
  | NT_BV_UREM => bvdiv (Ok l) bvUrem (width l)
  | NT_BV_SREM => bvdiv (Ok l) bvSrem (width r)
  | NT_BV_UMOD => bvdiv (Ok l) bvUmod (width l)
  | NT_BV_SMOD => bvdiv (Ok l) bvSmod (width r)
  | NT_BV_SHL => bvdiv (Ok l) bvShl (width l)
  | NT_BV_LSHR => bvdiv (Ok l) bvLshr (width l)
  | NT_BV_ASHR => bvdiv (Ok l) bvAshr (width l)
  | NT_BV_ULT | NT_BV_ULE | NT_BV_UGT | NT_BV_UGE | NT_BV_SLT | NT_BV_SLE | NT_BV_SGT | NT_BV_SGE
  | NT_BV_COMP =>
      if bvs then b <- bvComp d (t_name l) (t_name r) (bvcmp_of k) ;; mkB b else unk
  | NT_NAT_TO_BV =>
      if ints then int2 (fun a b => s <- natToBv a b ;; w <- toULong b ;; mkConstBv c s w) else unk
  | NT_INT_TO_BV =>
      if ints then int2 (fun a b => s <- intToBv d a b ;; w <- toULong b ;; mkConstBv c s w) else unk
  | NT_STR_PREFIXOF => if strs then b <- strPrefixof (t_name l) (t_name r) ;; mkB b else unk
  | NT_STR_SUFFIXOF => if strs then b <- strSuffixof (t_name l) (t_name r) ;; mkB b else unk
  | NT_STR_CHARAT => if isCStr l && isCInt r
                     then i <- toInt c r ;; s <- strCharAt (t_name l) i ;; mkConstStr s else unk
  | NT_STR_LT => if strs then mkB (slt (t_name l) (t_name r)) else unk
  | NT_STR_LE => if strs then mkB (negb (slt (t_name r) (t_name l))) else unk
  | NT_STR_GT => if strs then mkB (slt (t_name r) (t_name l)) else unk
  | NT_STR_GE => if strs then mkB (negb (slt (t_name l) (t_name r))) else unk
  | NT_STR_CONTAINS => if strs then b <- strContains (t_name l) (t_name r) ;; mkB b else unk
  | NT_DISTINCT | NT_DISTINCT_BOOL | NT_DISTINCT_OTHER =>
      if ints then int2 (fun a b => mkB (negb (a =? b)))
      else if reals then rcmp (fun a b => negb (Qeq_bool a b))
      else if bvs then mkB (negb (seq_str (t_name l) (t_name r)))
      else if strs then mkB (negb (seq_str (t_name l) (t_name r)))
      else unk
  | NT_AND => if isFalse l || isFalse r then Ok FALSE
              else if isTrue l && isTrue r then Ok TRUE else unk
  | NT_OR => if isTrue l || isTrue r then Ok TRUE
             else if isFalse l && isFalse r then Ok FALSE else unk
  | NT_IMPLIES => if isTrue l && isFalse r then Ok FALSE
                  else if isFalse l || isTrue r then Ok TRUE else unk
  | NT_XOR => if isTrue l && isTrue r then Ok FALSE
              else if isFalse l && isFalse r then Ok FALSE
              else if isTrue l && isFalse r then Ok TRUE
              else if isFalse l && isTrue r then Ok TRUE else unk
  | NT_ADD => if negb (arithOk l r) then unk
              else if ints then int2 (fun a b => Ok (mkConstInt (a + b)))
              else if reals then realop c k [l; r] else unk
  | NT_MUL => if negb (arithOk l r) then unk
              else if ints then int2 (fun a b => Ok (mkConstInt (a * b)))
              else if reals then realop c k [l; r] else unk
  | NT_IAND => if ints then int2 (fun a b => Ok (mkConstInt (Z.land a b))) else unk
  | NT_SUB => if negb (arithOk l r) then unk
              else if ints then int2 (fun a b => Ok (mkConstInt (a - b)))
              else if reals then realop c k [l; r]
              else zl <- isZero c l ;;
                   if zl then mkNeg c r
                   else zr <- isZero c r ;; if zr then Ok l else unk
  | NT_BV_AND => if bvs then bvop bvAnd (width l) else unk
  | NT_BV_OR => if bvs then bvop bvOr (width l) else unk
  | NT_BV_XOR => if bvs then bvop bvXor (width l) else unk
  | NT_BV_NAND => if bvs then bvop bvNand (width l) else unk
  | NT_BV_NOR => if bvs then bvop bvNor (width l) else unk
  | NT_BV_XNOR => if bvs then bvop bvXnor (width l) else unk
  | NT_BV_ADD => if bvs then bvop bvAdd (width l) else unk
  | NT_BV_SUB => if bvs then bvop bvSub (width l) else unk
  | NT_BV_MUL => if bvs then bvop bvMul (width l) else unk
  | NT_BV_CONCAT => if bvs then bvop bvConcat (a <- width l ;; b <- width r ;; Ok (u64 (a + b))) else unk
  | NT_STR_CONCAT =>
      if strs then
        (* back() and front() of an empty string are undefined *)
        match t_name l, t_name r with
        | [], _ | _, [] => UB
        | a :: a', b :: b' =>
            if aeq (last (a :: a') nul) dq && aeq b dq
            then mkConstStr (removelast (a :: a') ++ b')
            else mkConstStr ((a :: a') ++ (b :: b'))
        end
      else unk
  | NT_MAX | NT_MIN =>
      s <- getSort [l; r] ;;
      if isConst l && isConst r then
        match s with
        | None => UB
        | Some s =>
            if s_is SK_REAL s then realop c k [l; r]
            else if s_is SK_INT s then
              int2 (fun a b => Ok (mkConstInt (if keq k NT_MAX then (if a <? b then b else a)
                                               else (if b <? a then b else a))))
            else unk
        end
      else unk
  | _ => unk
  end.

(** operators folded from the left (simp_parser.cpp:1636-1660, 1785-1805) *)
Definition leftfold_kinds : list kind :=
  [NT_AND; NT_OR; NT_XOR; NT_ADD; NT_MUL; NT_IAND; NT_SUB; NT_BV_AND; NT_BV_OR; NT_BV_XOR;
   NT_BV_NAND; NT_BV_NOR; NT_BV_XNOR; NT_BV_ADD; NT_BV_SUB; NT_BV_MUL; NT_BV_CONCAT;
   NT_STR_CONCAT; NT_MAX; NT_MIN].
Definition is_eqk (k : kind) : bool := kin k eq_kinds.
Definition is_disk (k : kind) : bool := kin k distinct_kinds.

(** simp_parser.cpp:1512-1680: three arguments *)
Definition simp3 (c : cfg) (k : kind) (l m r : term) : res term :=
  let ints := isCInt l && isCInt m && isCInt r in
  let reals := isCReal l && isCReal m && isCReal r in
  let int3 (f : Z -> Z -> Z -> bool) :=
    x <- toInt c l ;; y <- toInt c m ;; z <- toInt c r ;; mkB (f x y z) in
  let rl := c_rv c l in let rm := c_rv c m in let rr := c_rv c r in
  if is_eqk k then
    if ints then int3 (fun x y z => (x =? y) && (y =? z))
    else if reals then mkB (Qeq_bool rl rm && Qeq_bool rm rr)
    else if isArray l && isArray m && isArray r then
      e <- areArraysEqual arr_fuel (c_hash c) l m ;;
      if e : bool then e' <- areArraysEqual arr_fuel (c_hash c) m r ;; mkB e' else Ok FALSE
    else
      a <- simp2 c NT_EQ l m ;;
      if isTrue a then b <- simp2 c NT_EQ m r ;; (if isTrue b then Ok TRUE else unk) else unk
  else if is_disk k then
    if ints then int3 (fun x y z => negb (x =? y) && negb (x =? z) && negb (y =? z))
    else if reals then mkB (negb (Qeq_bool rl rm) && negb (Qeq_bool rl rr) && negb (Qeq_bool rm rr))
    else
      a <- simp2 c NT_DISTINCT l m ;;
      if isTrue a then
        b <- simp2 c NT_DISTINCT l r ;;
        if isTrue b then
          e <- simp2 c NT_DISTINCT m r ;; if isTrue e then Ok TRUE else unk
        else unk
      else unk
  else if kin k (NT_IMPLIES :: leftfold_kinds) then
    a <- simp2 c k l m ;; simp2 c k a r
  else
  match k with
  | NT_ITE => if isTrue l then Ok m else if isFalse l then Ok r else unk
  | NT_STR_SUBSTR =>
      if isCStr l && isCInt m && isCInt r then
        i <- toInt c m ;; j <- toInt c r ;; s <- strSubstr (t_name l) i j ;; mkConstStr s
      else unk
  | NT_STR_INDEXOF =>
      if isCStr l && isCStr m && isCInt r then
        i <- toInt c r ;; z <- strIndexof (t_name l) (t_name m) i ;; Ok (mkConstInt z)
      else unk
  | NT_STR_UPDATE =>
      if isCStr l && isCInt m && isCStr r then
        i <- toInt c m ;; s <- strUpdate (t_name l) i (t_name r) ;; mkConstStr s
      else unk
  | NT_STR_REPLACE =>
      if isCStr l && isCStr m && isCStr r then
        s <- strReplace (t_name l) (t_name m) (t_name r) ;; mkConstStr s
      else unk
  | NT_STR_REPLACE_ALL =>
      if isCStr l && isCStr m && isCStr r then
        s <- strReplaceAll (length (t_name l)) (t_name l) (t_name m) (t_name r) ;; mkConstStr s
      else unk
  | NT_BV_EXTRACT =>
      if isCBV l && isCInt m && isCInt r then
        i <- toInt c m ;; j <- toInt c r ;;
        s <- bvExtract (c_dbg c) (t_name l) i j ;; w <- toULong (i - j + 1) ;; mkConstBv c s w
      else unk
  | _ => unk
  end.

(** simp_parser.cpp:1681-1839: four or more arguments.  [p0] is the first constant. *)
Fixpoint eq_rest (c : cfg) (k : kind) (p0 : term) (ps : list term) : res (option (list term)) :=
  match ps with
  | [] => Ok (Some [])
  | p :: ps' =>
      r <- simp2 c k p0 p ;;
      if isUnknown r then
        o <- eq_rest c k p0 ps' ;; Ok (option_map (cons p) o)
      else if isTrue r then eq_rest c k p0 ps'
      else if isFalse r then Ok None
      else eq_rest c k p0 ps'
  end.
Fixpoint eq_scan (c : cfg) (k : kind) (p0 : term) (skip : nat) (ps : list term) : res (option (list term)) :=
  match ps with
  | [] => Ok (Some [])
  | p :: ps' =>
      match skip with
      | O => (* this is the constant itself *) eq_rest c k p0 ps'
      | S n =>
          r <- simp2 c k p0 p ;;
          if isUnknown r then
            o <- eq_scan c k p0 n ps' ;; Ok (option_map (cons p) o)
          else if isTrue r then eq_scan c k p0 n ps'
          else if isFalse r then Ok None
          else eq_scan c k p0 n ps'
      end
  end.
Fixpoint first_const (ps : list term) (i : nat) : option (nat * term) :=
  match ps with
  | [] => None
  | p :: ps' => if isConst p then Some (i, p) else first_const ps' (S i)
  end.
(** the EQ case; [fuel] bounds the recursion on strictly shorter vectors (line 1747) *)
Fixpoint simp_eq (fuel : nat) (c : cfg) (k : kind) (ps : list term) : res term :=
  match fuel with
  | O => NoFuel
  | S f =>
      match first_const ps 0 with
      | None => unk
      | Some (i, p0) =>
          o <- eq_scan c k p0 i ps ;;
          match o with
          | None => Ok FALSE
          | Some [] => Ok TRUE
          | Some [q] => simp2 c k q p0
          | Some qs =>
              if Nat.eqb (length qs) (length ps - 1) then unk
              else simp_eq f c k (qs ++ [p0])
          end
      end
  end.
(** pairs, line 1760-1771 *)
Fixpoint dis_row (c : cfg) (k : kind) (p : term) (ps : list term) (u : bool) : res (option bool) :=
  match ps with
  | [] => Ok (Some u)
  | q :: ps' =>
      r <- simp2 c k p q ;;
      if isUnknown r then dis_row c k p ps' true
      else if isFalse r then Ok None else dis_row c k p ps' u
  end.
Fixpoint dis_all (c : cfg) (k : kind) (ps : list term) (u : bool) : res (option bool) :=
  match ps with
  | [] => Ok (Some u)
  | p :: ps' =>
      o <- dis_row c k p ps' u ;;
      match o with None => Ok None | Some u' => dis_all c k ps' u' end
  end.
Fixpoint imp_scan (ps : list term) (is_const : bool) : res term :=
  match ps with
  | [] => (* unreachable: the vector is not empty *) if is_const then Ok FALSE else unk
  | [p] => if isTrue p then Ok TRUE
           else if is_const && isFalse p then Ok FALSE else unk
  | p :: ps' => if isFalse p then Ok TRUE
                else imp_scan ps' (is_const && isTrue p)
  end.
Fixpoint fold_simp (c : cfg) (k : kind) (acc : term) (ps : list term) : res term :=
  match ps with
  | [] => Ok acc
  | p :: ps' =>
      r <- simp2 c k acc p ;;
      if isUnknown r then unk else fold_simp c k r ps'
  end.
Definition simpN (c : cfg) (k : kind) (ps : list term) : res term :=
  if is_eqk k then simp_eq (S (length ps)) c k ps
  else if is_disk k then
    o <- dis_all c k ps false ;;
    match o with None => Ok FALSE | Some true => unk | Some false => Ok TRUE end
  else if keq k NT_IMPLIES then imp_scan ps true
  else if kin k leftfold_kinds then
    match ps with [] => UB | p :: ps' => fold_simp c k p ps' end
  else unk.

(** dispatch on the number of arguments, op_parser.cpp:205-223 *)
Definition simp (c : cfg) (k : kind) (ps : list term) : res term :=
  match ps with
  | [] => Exit
  | [p] => simp1 c k p
  | [l; r] => simp2 c k l r
  | [l; m; r] => simp3 c k l m r
  | _ => simpN c k ps
  end.
