(** The typed constructors of src/op_parser.cpp that parseOper reaches for the theory
    operators (arithmetic functions, bit-vectors, floating point, arrays, strings, regular
    expressions), and their dispatch (src/expr_parser.cpp:798-1428).  It instantiates the
    parameter [x_oper] of ParseModel.v.

    err_all, err_param_mis and err_unkwn_sym end the program (exit(0)): [Exit].  The sort of a
    node is never null here (getSort() of a node created by the parser). *)
From Verif Require Import Base KindModel SortModel TermModel BVModel SimpModel OpModel ArrSimpModel.
Open Scope Z_scope.

(** op_parser.cpp:36-43 isIntParam .. isArrayParam; PNum is the test isInt || isReal of
    mkAbs, PRm getSort()->isRoundingMode() *)
Inductive chk := PInt | PReal | PNum | PBv | PFp | PStr | PReg | PRm | PAny.
Definition isIntParam (t : term) : bool := sis SK_INT t || sis SK_INTOREAL t.
Definition isRealParam (t : term) : bool := sis SK_REAL t || sis SK_INTOREAL t.
Definition okp (k : chk) (t : term) : bool :=
  match k with
  | PInt => isIntParam t | PReal => isRealParam t | PNum => isIntParam t || isRealParam t
  | PBv => sis SK_BV t | PFp => sis SK_FP t | PStr => sis SK_STR t | PReg => sis SK_REG t
  | PRm => sis SK_ROUNDING_MODE t | PAny => true
  end.

(** ** constructors of fixed arity: tests, then mkOper *)
(** the sort given to mkOper: a fixed one, or the sort of an argument *)
Inductive outS := Fix (s : sort) | Arg (i : nat).
(** [r_err]: the constructor starts with "if some argument isErr return l->isErr() ? l : r" *)
Record row := Row { r_err : bool; r_chk : list chk; r_out : outS }.
Definition un (p : chk) (o : outS) := Row false [p] o.
Definition bin (p q : chk) (o : outS) := Row false [p; q] o.
Definition tri (e : bool) (p q r : chk) (o : outS) := Row e [p; q; r] o.

(** The lines of each constructor are given on the right. *)
Definition ctor (k : kind) : option row :=
  match k with
  | NT_POW2 => Some (un PAny (Arg 0))                                      (* 1309-1312 *)
  | NT_POW => Some (bin PAny PAny (Arg 0))                                 (* 1313-1315 *)
  | NT_MOD => Some (bin PInt PInt (Fix intS))                              (* 1456-1463 *)
  | NT_ABS | NT_SQRT | NT_SAFESQRT | NT_CEIL => Some (un PNum (Arg 0))     (* 1468-1506 *)
  | NT_FLOOR | NT_ROUND => Some (un PAny (Fix intS))                       (* 1510-1520 *)
  | NT_EXP | NT_LN | NT_LB | NT_LG | NT_SIN | NT_COS | NT_SEC | NT_CSC | NT_TAN | NT_COT
  | NT_ASIN | NT_ACOS | NT_ASEC | NT_ACSC | NT_ATAN | NT_ACOT | NT_SINH | NT_COSH | NT_TANH
  | NT_SECH | NT_CSCH | NT_ASINH | NT_ACOSH | NT_ATANH | NT_ASECH | NT_ACSCH | NT_ACOTH =>
      Some (un PAny (Fix realS))                                           (* 1525-1549, 1568-1732 *)
  | NT_ATAN2 => Some (bin PAny PAny (Fix realS))                           (* 1736-1739 *)
  | NT_TO_INT => Some (un PReal (Fix intS))                                (* 1940-1947 *)
  | NT_TO_REAL => Some (un PInt (Fix realS))                               (* 1951-1958 *)
  | NT_IS_INT => Some (un PReal (Fix boolS))                               (* 1963-1970 *)
  | NT_IS_DIVISIBLE => Some (bin PInt PInt (Fix boolS))                    (* 1974-1981 *)
  | NT_IS_PRIME | NT_IS_EVEN | NT_IS_ODD => Some (un PInt (Fix boolS))     (* 1985-2014 *)
  | NT_GCD | NT_LCM => Some (bin PInt PInt (Fix intS))                     (* 2120-2138 *)
  | NT_FACT => Some (un PInt (Fix intS))                                   (* 2142-2149 *)
  | NT_BV_NOT => Some (un PBv (Arg 0))                                     (* 2154-2161 *)
  | NT_BV_NEG => Some (un PAny (Arg 0))                                    (* 2431-2434 *)
  | NT_BV_COMP => Some (bin PBv PBv (Fix (bvS 1)))                         (* 2418-2427 *)
  | NT_BV_UDIV | NT_BV_UREM | NT_BV_SDIV | NT_BV_SREM | NT_BV_SMOD | NT_BV_SHL | NT_BV_LSHR
  | NT_BV_ASHR => Some (bin PBv PBv (Arg 0))                               (* 2561-2656 *)
  | NT_BV_TO_NAT => Some (un PBv (Fix intS))                               (* 2928-2936 *)
  | NT_BV_TO_INT => Some (un PBv (Fix intS))                               (* 2952-2959 *)
  | NT_FP_ABS | NT_FP_NEG => Some (un PFp (Arg 0))                         (* 3101-3121 *)
  | NT_FP_REM => Some (bin PFp PFp (Arg 0))                                (* 3125-3133 *)
  | NT_FP_TO_REAL => Some (un PFp (Fix realS))                             (* 3379-3387 *)
  | NT_FP_IS_NORMAL | NT_FP_IS_SUBNORMAL | NT_FP_IS_ZERO | NT_FP_IS_INF | NT_FP_IS_NAN
  | NT_FP_IS_NEG | NT_FP_IS_POS => Some (un PFp (Fix boolS))               (* 3515-3593 *)
  | NT_STR_LEN => Some (un PStr (Fix intS))                                (* 3642-3650 *)
  | NT_STR_SUBSTR => Some (tri true PStr PInt PInt (Arg 0))                (* 3680-3688 *)
  | NT_STR_PREFIXOF | NT_STR_SUFFIXOF => Some (bin PStr PStr (Fix boolS))  (* 3692-3712 *)
  | NT_STR_INDEXOF => Some (tri true PStr PStr PInt (Fix intS))            (* 3716-3724 *)
  | NT_STR_CHARAT => Some (bin PStr PInt (Fix strS))                       (* 3728-3736 *)
  | NT_STR_UPDATE => Some (tri true PStr PInt PStr (Arg 0))                (* 3740-3748 *)
  | NT_STR_REPLACE => Some (tri true PStr PStr PStr (Arg 0))               (* 3752-3760 *)
  | NT_STR_REPLACE_ALL => Some (tri false PStr PStr PStr (Arg 0))          (* 3764-3778 *)
  | NT_STR_REPLACE_REG | NT_STR_REPLACE_REG_ALL => Some (tri true PStr PReg PStr (Arg 0)) (* 3782-3801 *)
  | NT_STR_INDEXOF_REG => Some (Row true [PStr; PReg] (Fix intS))          (* 3806-3813 *)
  | NT_STR_TO_LOWER | NT_STR_TO_UPPER | NT_STR_REV => Some (un PStr (Fix strS)) (* 3818-3850 *)
  | NT_STR_SPLIT => Some (bin PStr PStr (Fix (arrayS intS strS)))          (* 3854-3860 *)
  | NT_STR_SPLIT_AT | NT_STR_SPLIT_REST => Some (tri false PStr PStr PInt (Fix strS)) (* 3861-3874 *)
  | NT_STR_NUM_SPLITS => Some (bin PStr PStr (Fix intS))                   (* 3875-3881 *)
  | NT_STR_SPLIT_AT_RE | NT_STR_SPLIT_REST_RE => Some (tri false PStr PReg PInt (Fix strS)) (* 3885-3901 *)
  | NT_STR_NUM_SPLITS_RE => Some (bin PStr PReg (Fix intS))                (* 3905-3911 *)
  | NT_STR_IN_REG => Some (bin PStr PReg (Fix boolS))                      (* 3977-3987 *)
  | NT_STR_CONTAINS => Some (bin PStr PStr (Fix boolS))                    (* 3991-3999 *)
  | NT_STR_IS_DIGIT => Some (un PStr (Fix boolS))                          (* 4003-4011 *)
  | NT_STR_FROM_INT => Some (un PInt (Fix strS))                           (* 4013-4021 *)
  | NT_STR_TO_INT => Some (un PStr (Fix intS))                             (* 4025-4033 *)
  | NT_STR_TO_REG => Some (un PStr (Fix regS))                             (* 4037-4045 *)
  | NT_STR_TO_CODE => Some (un PStr (Fix intS))                            (* 4049-4057 *)
  | NT_STR_FROM_CODE => Some (un PInt (Fix strS))                          (* 4061-4069 *)
  | NT_REG_STAR | NT_REG_PLUS | NT_REG_OPT => Some (un PReg (Fix regS))    (* 4172-4204 *)
  | NT_REG_RANGE => Some (bin PStr PStr (Fix regS))                        (* 4208-4216 *)
  | NT_REG_REPEAT => Some (bin PReg PInt (Fix regS))                       (* 4220-4229 *)
  | NT_REG_LOOP => Some (tri true PReg PInt PInt (Fix regS))               (* 4233-4241 *)
  | NT_REG_COMPLEMENT => Some (un PReg (Fix regS))                         (* 4245-4253 *)
  | _ => None
  end.

Fixpoint allok (cs : list chk) (ps : list term) : bool :=
  match cs, ps with
  | c :: cs', p :: ps' => okp c p && allok cs' ps'
  | _, _ => true
  end.
Definition out_sort (o : outS) (ps : list term) : sort :=
  match o with Fix s => s | Arg i => t_sort (nth i ps NULLT) end.
(** the common shape; "l->isErr() ? l : r" returns the second argument even if only the
    third is an error *)
Definition mk_row (c : cfg) (k : kind) (w : row) (ps : list term) : res term :=
  if r_err w && existsb isErr ps then Ok (if isErr (nth 0 ps NULLT) then nth 0 ps NULLT else nth 1 ps NULLT)
  else if allok (r_chk w) ps then mkOper c (out_sort (r_out w) ps) k ps else Exit.

(** ** arithmetic *)
(** op_parser.cpp:1392-1404 mkDivInt, 1427-1439 mkDivReal of two arguments *)
Definition mkDiv2 (c : cfg) (k : kind) (p : chk) (s : sort) (l r : term) : res term :=
  if (negb (okp p l) || negb (okp p r)) && negb (canExempt (t_sort l) (t_sort r)) then Exit
  else mkOper c s k [l; r].
Definition mkDivInt (c : cfg) := mkDiv2 c NT_DIV_INT PInt intS.
Definition mkDivReal (c : cfg) := mkDiv2 c NT_DIV_REAL PReal realS.
(** op_parser.cpp:1405-1417 and 1440-1452: the overloads on a vector, called by users of the API only *)
Definition mkDivV (c : cfg) (k : kind) (p : chk) (s : sort) (ps : list term) : res term :=
  match ps with
  | [] | [_] => Exit
  | [l; r] => mkDiv2 c k p s l r
  | _ => mkOper c s k ps
  end.
(** op_parser.cpp:1553-1564 mkLog *)
Definition mkLog (c : cfg) (l r : term) : res term :=
  ok <- compat (t_sort l) (t_sort r) ;; if ok then mkOper c realS NT_LOG [l; r] else Exit.
(** op_parser.cpp:1264-1308 mkIand; [sub_check] is the parameter loop *)
Definition mkIand (c : cfg) (ps : list term) : res term :=
  match ps with
  | [p] => Ok p
  | _ =>
      condAssert (c_dbg c) (Nat.leb 2 (length ps)) ;;;
      s <- getSort ps ;;
      e <- sub_check s ps ;;
      match e with
      | Some p => Ok p
      | None =>
          s' <- theory_sort c s ;;
          match ps with
          | [l; r] => if isCInt l && isCInt r
                      then a <- toInt c l ;; b <- toInt c r ;; Ok (mkConstInt (Z.land a b))
                      else mkOper c s' NT_IAND ps
          | _ => mkOper c s' NT_IAND ps
          end
      end
  end.
(** op_parser.cpp:4294-4349 mkMax, mkMin (called by users of the API only): the loop stops
    before the last parameter, which is dropped *)
Definition mkMaxMin (c : cfg) (k : kind) (ps : list term) : res term :=
  match ps with
  | [] => Exit
  | [p] => Ok p
  | _ =>
      s <- getSort ps ;;
      e <- sub_check s (removelast ps) ;;
      match e with
      | Some p => Ok p
      | None => match s with
                | Some s => mkOper c s k (removelast ps)
                | None => (* nullptr *) mkOper c nullS k (removelast ps)
                end
      end
  end.

(** ** bit-vectors *)
(** op_parser.cpp:2165-2172 and the other binary overloads up to 2527 *)
Definition bv_bin (c : cfg) (k : kind) (l r : term) : res term :=
  if sis SK_BV l && sis SK_BV r then mkOper c (t_sort l) k [l; r] else Exit.
(** the parameter loop of the vector overloads: an error parameter is returned, an ill-sorted
    one ends the program (not tested if all parameters are constants) *)
Fixpoint nary_loop (p : chk) (tested : bool) (ps : list term) : res (option term) :=
  match ps with
  | [] => Ok None
  | t :: ps' => if isErr t then Ok (Some t)
                else if tested && negb (okp p t) then Exit else nary_loop p tested ps'
  end.
Definition issome {A} (o : option A) : bool := match o with Some _ => true | None => false end.
Definition sort_or (o : option sort) (ps : list term) : sort :=
  match o with Some s => s | None => t_sort (hd NULLT ps) end.
(** op_parser.cpp:2173-2203 mkBvAnd, 2218-2249, 2258-2288, 2300-2330, 2342-2372, 2384-2414,
    2446-2475, 2487-2516, 2528-2557; [e] is the result for no parameters *)
Definition bv_nary (c : cfg) (k : kind) (e : res term) (ps : list term) : res term :=
  match ps with
  | [] => e
  | [p] => Ok p
  | [l; r] => bv_bin c k l r
  | _ =>
      s <- getSort ps ;;
      o <- nary_loop PBv (issome s) ps ;;
      match o with Some p => Ok p | None => mkOper c (sort_or s ps) k ps end
  end.
Definition bv_empty (k : kind) : res term :=
  match k with
  | NT_BV_AND | NT_BV_NOR => Ok TRUE
  | NT_BV_OR | NT_BV_XOR | NT_BV_NAND | NT_BV_XNOR => Ok FALSE
  | _ => Exit
  end.
(** op_parser.cpp:2660-2684 mkBvConcat *)
Fixpoint concat_loop (w : Z) (ps : list term) : res (term + Z) :=
  match ps with
  | [] => Ok (inr w)
  | t :: ps' => if isErr t then Ok (inl t)
                else if negb (sis SK_BV t) then Exit
                else v <- width t ;; concat_loop (u64 (w + v)) ps'
  end.
Definition mkBvConcat (c : cfg) (ps : list term) : res term :=
  match ps with
  | [] => Exit
  | [p] => Ok p
  | _ => o <- concat_loop 0 ps ;;
         match o with inl t => Ok t | inr w => mkOper c (bvS w) NT_BV_CONCAT ps end
  end.
(** op_parser.cpp:2688-2698 mkBvExtract *)
Definition mkBvExtract (c : cfg) (l r s : term) : res term :=
  if isErr l || isErr r || isErr s then Ok (if isErr l then l else r)
  else if sis SK_BV l && isIntParam r && isIntParam s then
    i <- toInt c r ;; i' <- toULong i ;; j <- toInt c s ;; j' <- toULong j ;;
    mkOper c (bvS (u64 (i' - j' + 1))) NT_BV_EXTRACT [l; r; s]
  else Exit.
(** op_parser.cpp:2702-2768: mkBvRepeat, mkBvZeroExt, mkBvSignExt, mkBvRotateLeft, mkBvRotateRight *)
Definition mkBvIndexed (c : cfg) (k : kind) (l r : term) : res term :=
  if sis SK_BV l && isIntParam r then
    w <- (match k with
          | NT_BV_REPEAT => v <- width l ;; n <- toInt c r ;; m <- toULong n ;; Ok (u64 (v * m))
          | NT_BV_ZERO_EXT | NT_BV_SIGN_EXT => n <- toInt c r ;; toULong n
          | _ => width l
          end) ;;
    mkOper c (bvS w) k [l; r]
  else Exit.
(** op_parser.cpp:2940-2948 mkNatToBv, 2963-2971 mkIntToBv *)
Definition mkToBv (c : cfg) (k : kind) (p size : term) : res term :=
  if isIntParam p && isIntParam size then
    n <- toInt c size ;; w <- toULong n ;; mkOper c (bvS w) k [p; size]
  else Exit.

(** ** floating point *)
(** op_parser.cpp:2977-3097 mkFpAdd, mkFpSub, mkFpMul, mkFpDiv *)
Definition mkFpArith (c : cfg) (k : kind) (ps : list term) : res term :=
  match ps with
  | [m; a; b] =>
      if existsb isErr ps then Ok (if isErr m then m else if isErr a then a else b)
      else if negb (sis SK_ROUNDING_MODE m) then Exit
      else if negb (sis SK_FP a) || negb (sis SK_FP b) then Exit
      else e <- sort_eq (t_sort a) (t_sort b) ;;
           if e then mkOper c (t_sort a) k ps else Exit
  | _ => Exit
  end.
(** op_parser.cpp:3137-3168 mkFpFma *)
Definition mkFpFma (c : cfg) (ps : list term) : res term :=
  match ps with
  | [m; a; b; d] =>
      if negb (sis SK_ROUNDING_MODE m) then Exit
      else
        o <- nary_loop PFp true [a; b; d] ;;
        match o with
        | Some t => Ok t
        | None =>
            e <- sort_eq (t_sort b) (t_sort a) ;;
            if negb e then Exit
            else e' <- sort_eq (t_sort d) (t_sort a) ;;
                 if e' : bool then mkOper c (t_sort a) NT_FP_FMA ps else Exit
        end
  | _ => Exit
  end.
(** op_parser.cpp:3172-3218: mkFpSqrt and mkFpRoundToIntegral, with and without rounding mode
    (whose sort is not tested) *)
Definition mkFpRm (c : cfg) (k : kind) (ps : list term) : res term :=
  match ps with
  | [p] => if sis SK_FP p then mkOper c (t_sort p) k [p] else Exit
  | [m; p] => if isErr m || isErr p then Ok (if isErr m then m else p)
              else if sis SK_FP p then mkOper c (t_sort p) k [m; p] else Exit
  | _ => Exit
  end.
(** op_parser.cpp:3222-3276 mkFpMin, mkFpMax *)
Definition mkFpMinMax (c : cfg) (k : kind) (ps : list term) : res term :=
  match ps with
  | [] => Exit
  | [p] => Ok p
  | _ =>
      s <- getSort ps ;;
      o <- nary_loop PFp (issome s) ps ;;
      match o with Some p => Ok p | None => mkOper c (sort_or s ps) k ps end
  end.
(** expr_parser.cpp:1157-1206: comparisons of more than two arguments *)
Fixpoint fp_chain (c : cfg) (k : kind) (ps : list term) : res (list term) :=
  match ps with
  | a :: ((b :: _) as tl) => t <- mkFpCmp c k a b ;; ts <- fp_chain c k tl ;; Ok (t :: ts)
  | _ => Ok []
  end.
Definition mkFpCmps (c : cfg) (k : kind) (ps : list term) : res term :=
  condAssert (c_dbg c) (Nat.leb 2 (length ps)) ;;;
  match ps with
  | [a; b] => mkFpCmp c k a b
  | _ => ts <- fp_chain c k ps ;; mkAnd c ts
  end.
(** op_parser.cpp:3349-3378 mkFpToUbv, mkFpToSbv (the branch on two bit-vector constants is not
    reached: the second argument is a floating point term) *)
Definition mkFpToBv (c : cfg) (k : kind) (m p size : term) : res term :=
  if sis SK_ROUNDING_MODE m && sis SK_FP p && isIntParam size then
    n <- toInt c size ;; w <- toULong n ;; mkOper c (bvS w) k [m; p; size]
  else Exit.
(** the two widths of mkToFp and mkToFpUnsigned: any constant passes the test *)
Definition fp_widths (c : cfg) (eb sb : term) : res sort :=
  a <- toInt c eb ;; a' <- toULong a ;; b <- toInt c sb ;; b' <- toULong b ;;
  Ok (fpS (L "FP") a' b').
Definition first_of (ps : list term) : term := match find isErr ps with Some t => t | None => NULLT end.
(** op_parser.cpp:3395-3427 mkToFp with rounding mode *)
Definition mkToFp4 (c : cfg) (eb sb m p : term) : res term :=
  if existsb isErr [eb; sb; m; p] then Ok (first_of [eb; sb; m; p])
  else if negb (isConst eb) || negb (isConst sb) || negb (sis SK_ROUNDING_MODE m) then Exit
  else s <- fp_widths c eb sb ;;
       if isRealParam p || sis SK_BV p || sis SK_FP p
       then mkOper c s NT_FP_TO_FP [eb; sb; m; p] else Exit.
(** op_parser.cpp:3429-3454 mkToFp without rounding mode *)
Definition mkToFp3 (c : cfg) (eb sb p : term) : res term :=
  if existsb isErr [eb; sb; p] then Ok (first_of [eb; sb; p])
  else if negb (isConst eb) || negb (isConst sb) then Exit
  else s <- fp_widths c eb sb ;;
       if sis SK_BV p then mkOper c s NT_FP_TO_FP [eb; sb; p] else Exit.
(** op_parser.cpp:3458-3486 mkToFpUnsigned *)
Definition mkToFpUnsigned (c : cfg) (eb sb m p : term) : res term :=
  if existsb isErr [eb; sb; m; p] then Ok (first_of [eb; sb; m; p])
  else if negb (isConst eb) || negb (isConst sb) then Exit
  else s <- fp_widths c eb sb ;;
       if sis SK_ROUNDING_MODE m && sis SK_BV p
       then mkOper c s NT_FP_TO_FP_UNSIGNED [eb; sb; m; p] else Exit.

(** ** strings and regular expressions *)
(** op_parser.cpp:3654-3676 mkStrConcat, 4084-4152 mkRegConcat, mkRegUnion, mkRegInter *)
Definition seq_nary (c : cfg) (k : kind) (p : chk) (s : sort) (ps : list term) : res term :=
  match ps with
  | [] => Exit
  | [t] => Ok t
  | _ => o <- nary_loop p true ps ;;
         match o with Some t => Ok t | None => mkOper c s k ps end
  end.
(** op_parser.cpp:4156-4168 mkRegDiff *)
Definition mkRegDiff (c : cfg) (ps : list term) : res term :=
  match ps with
  | [l; r] => if isErr l || isErr r then Ok (if isErr l then l else r)
              else if sis SK_REG l && sis SK_REG r then mkOper c regS NT_REG_DIFF [l; r] else Exit
  | _ => Exit
  end.

(** ** dispatch *)
(** condAssert(params.size() == n), then params[0] .. params[n-1]: in a release build surplus
    parameters are ignored and missing ones are read out of bounds *)
Fixpoint take_args (n : nat) (ps : list term) : res (list term) :=
  match n, ps with
  | O, _ => Ok []
  | S n', p :: ps' => qs <- take_args n' ps' ;; Ok (p :: qs)
  | S _, [] => UB
  end.
Definition args (c : cfg) (n : nat) (ps : list term) : res (list term) :=
  condAssert (c_dbg c) (Nat.eqb (length ps) n) ;;; take_args n ps.
(** index arguments and operands of an indexed operator *)
Definition fargs (c : cfg) (n m : nat) (fa ps : list term) : res (list term * list term) :=
  condAssert (c_dbg c) (Nat.eqb (length fa) n) ;;;
  condAssert (c_dbg c) (Nat.eqb (length ps) m) ;;;
  qs <- take_args m ps ;; gs <- take_args n fa ;; Ok (gs, qs).
Definition call2 (f : term -> term -> res term) (ps : list term) : res term :=
  match ps with [a; b] => f a b | _ => UB end.
Definition call3 (f : term -> term -> term -> res term) (ps : list term) : res term :=
  match ps with [a; b; d] => f a b d | _ => UB end.

(** expr_parser.cpp:798-1428: the kinds left open by ParseModel.oper_kind.  NT_COTH,
    NT_BV_UMOD, the overflow predicates and the remaining kinds have no case: the default
    branch ends the program. *)
Definition theory_oper (c : cfg) (ptr : list term -> list term) (k : kind) (fa ps : list term) : res term :=
  match k with
  | NT_IAND => mkIand c ps
  | NT_DIV_INT => a <- args c 2 ps ;; call2 (mkDivInt c) a
  | NT_DIV_REAL => a <- args c 2 ps ;; call2 (mkDivReal c) a
  | NT_LOG => match ps with
              | [p] => mk_row c NT_LN (un PAny (Fix realS)) [p]
              | [l; r] => mkLog c l r
              | _ => Exit
              end
  | NT_BV_AND | NT_BV_OR | NT_BV_XOR | NT_BV_NAND | NT_BV_NOR | NT_BV_XNOR | NT_BV_ADD | NT_BV_SUB
  | NT_BV_MUL => bv_nary c k (bv_empty k) ps
  | NT_BV_CONCAT => mkBvConcat c ps
  | NT_NAT_TO_BV => a <- args c 2 ps ;; call2 (mkToBv c k) a
  | NT_INT_TO_BV => a <- fargs c 1 1 fa ps ;; call2 (mkToBv c k) (snd a ++ fst a)
  | NT_BV_EXTRACT => a <- fargs c 2 1 fa ps ;; call3 (mkBvExtract c) (snd a ++ fst a)
  | NT_BV_REPEAT | NT_BV_ZERO_EXT | NT_BV_SIGN_EXT | NT_BV_ROTATE_LEFT | NT_BV_ROTATE_RIGHT =>
      a <- fargs c 1 1 fa ps ;; call2 (mkBvIndexed c k) (snd a ++ fst a)
  | NT_FP_ADD | NT_FP_SUB | NT_FP_MUL | NT_FP_DIV => mkFpArith c k ps
  | NT_FP_FMA => condAssert (c_dbg c) (Nat.eqb (length ps) 3) ;;; mkFpFma c ps
  | NT_FP_SQRT | NT_FP_ROUND_TO_INTEGRAL => mkFpRm c k ps
  | NT_FP_MIN | NT_FP_MAX => condAssert (c_dbg c) (Nat.eqb (length ps) 2) ;;; mkFpMinMax c k ps
  | NT_FP_LE | NT_FP_LT | NT_FP_GE | NT_FP_GT | NT_FP_EQ => mkFpCmps c k ps
  | NT_FP_TO_UBV | NT_FP_TO_SBV =>
      a <- fargs c 1 2 fa ps ;; call3 (mkFpToBv c k) (snd a ++ fst a)
  | NT_FP_TO_FP =>
      match fa, ps with
      | [eb; sb], [m; p] => mkToFp4 c eb sb m p
      | [eb; sb], [p] => mkToFp3 c eb sb p
      | [_; _], _ => Exit
      | _, [a; b; d] => mkToFp3 c a b d
      | _, _ => Exit
      end
  | NT_FP_TO_FP_UNSIGNED =>
      match fa, ps with
      | [a; b], [p; q] => mkToFpUnsigned c p q a b
      | _, _ => Exit
      end
  | NT_SELECT => a <- args c 2 ps ;; call2 (mkSelect c ptr) a
  | NT_STORE => a <- args c 3 ps ;; call3 (mkStore c ptr) a
  | NT_STR_CONCAT => seq_nary c k PStr strS ps
  | NT_REG_CONCAT | NT_REG_UNION | NT_REG_INTER => seq_nary c k PReg regS ps
  | NT_REG_DIFF => mkRegDiff c ps
  | NT_REG_LOOP =>
      condAssert (c_dbg c) (Nat.eqb (length ps) 1) ;;;
      condAssert (c_dbg c) (Nat.eqb (length fa) 2) ;;;
      qs <- take_args 1 ps ;; gs <- take_args 2 fa ;;
      match ctor k with Some w => mk_row c k w (qs ++ gs) | None => Exit end
  | _ => match ctor k with
         | Some w => a <- args c (length (r_chk w)) ps ;; mk_row c k w a
         | None => Exit
         end
  end.
