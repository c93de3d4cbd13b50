(** DAG nodes as terms, and the node predicates of include/dag.h.

    Nodes are hash-consed (DagModel.v; property C17): within one manager, two pointers
    are equal exactly when the trees they unfold to are equal.  The rest of the model
    therefore works on trees, and pointer comparison is structural equality [teq].
    The [value] cache of a constant is a function of its name (base_parser.cpp:334-356)
    and is recomputed where it is used. *)
From Verif Require Import Base KindModel SortModel.

Inductive term := T (k : kind) (s : sort) (nm : str) (ch : list term).
Definition t_kind (t : term) : kind := let (k, _, _, _) := t in k.
Definition t_sort (t : term) : sort := let (_, s, _, _) := t in s.
Definition t_name (t : term) : str := let (_, _, n, _) := t in n.
Definition t_ch (t : term) : list term := let (_, _, _, c) := t in c.

(** structural equality (pointer equality of managed nodes) *)
Fixpoint sort_same (a b : sort) : bool :=
  match a, b with
  | Srt k n r c, Srt k' n' r' c' =>
      skeq k k' && seq_str n n' && (r =? r') &&
      (fix go (l m : list sort) : bool :=
         match l, m with
         | [], [] => true
         | x :: l', y :: m' => sort_same x y && go l' m'
         | _, _ => false
         end) c c'
  end.
Fixpoint teq (a b : term) : bool :=
  match a, b with
  | T k s n c, T k' s' n' c' =>
      keq k k' && sort_same s s' && seq_str n n' &&
      (fix go (l m : list term) : bool :=
         match l, m with
         | [], [] => true
         | x :: l', y :: m' => teq x y && go l' m'
         | _, _ => false
         end) c c'
  end.

Definition kin (k : kind) (l : list kind) : bool := existsb (keq k) l.
Definition isk (k : kind) (t : term) : bool := keq (t_kind t) k.
Definition sis (k : skind) (t : term) : bool := s_is k (t_sort t).
(** getChild(0): operator[] on an empty vector is undefined *)
Definition child0 (t : term) : res term :=
  match t_ch t with c :: _ => Ok c | [] => UB end.

(** dag.h:283-311 *)
Definition isErr := isk NT_ERROR.
Definition isUnknown := isk NT_UNKNOWN.
Definition isTrue (t : term) := isk NT_CONST_TRUE t && sis SK_BOOL t.
Definition isFalse (t : term) := isk NT_CONST_FALSE t && sis SK_BOOL t.
Definition isCBool (t : term) := isTrue t || isFalse t.
Definition const_kinds : list kind :=
  [NT_CONST; NT_CONST_TRUE; NT_CONST_FALSE; NT_CONST_PI; NT_CONST_E; NT_INFINITY; NT_POS_INFINITY;
   NT_NEG_INFINITY; NT_NAN; NT_EPSILON; NT_POS_EPSILON; NT_NEG_EPSILON; NT_ROOT_OF_WITH_INTERVAL;
   NT_ROOT_OBJ; NT_REAL_ALGEBRAIC_NUMBER].
Definition isConst (t : term) := kin (t_kind t) const_kinds.
Definition isCInt (t : term) := isConst t && (sis SK_INT t || sis SK_INTOREAL t).
Definition isCReal (t : term) := isConst t && (sis SK_REAL t || sis SK_INTOREAL t).
Definition isCBV (t : term) := isConst t && sis SK_BV t.
Definition isCFP (t : term) := isConst t && sis SK_FP t.
Definition isCStr (t : term) := isConst t && sis SK_STR t.
Definition isCRoot (t : term) := isk NT_ROOT_OBJ t || isk NT_ROOT_OF_WITH_INTERVAL t.

(** dag.h:314-326 *)
Definition var_kinds : list kind :=
  [NT_VAR; NT_TEMP_VAR; NT_QUANT_VAR; NT_LET_BIND_VAR; NT_PLACEHOLDER_VAR].
Definition isVar (t : term) := kin (t_kind t) var_kinds.
Definition isV (k : skind) (t : term) := isVar t && sis k t.
Definition isVBool := isV SK_BOOL.
Definition isLiteral (t : term) : res bool :=
  if isVBool t then Ok true
  else if isk NT_NOT t then (c <- child0 t ;; Ok (isVBool c || isCBool t)) else Ok (isCBool t).

(** dag.h:329-353 *)
Definition eq_kinds := [NT_EQ; NT_EQ_BOOL; NT_EQ_OTHER].
Definition distinct_kinds := [NT_DISTINCT; NT_DISTINCT_BOOL; NT_DISTINCT_OTHER].
Definition isEq (t : term) := kin (t_kind t) eq_kinds.
Definition isDistinct (t : term) := kin (t_kind t) distinct_kinds.
Definition isNot := isk NT_NOT.
Definition isUF := isk NT_UF_APPLY.
Definition isArray (t : term) := sis SK_ARRAY t.

(** dag.h:359-423: arithmetic terms and comparisons *)
Definition arith_kinds : list kind :=
  [NT_ADD; NT_SUB; NT_MUL; NT_NEG; NT_DIV_INT; NT_DIV_REAL; NT_MOD; NT_ABS; NT_CEIL; NT_FLOOR;
   NT_ROUND; NT_TO_REAL; NT_TO_INT; NT_IAND; NT_POW2; NT_POW; NT_SQRT; NT_SAFESQRT;
   NT_EXP; NT_LOG; NT_LN; NT_LB; NT_LG; NT_SIN; NT_COS; NT_SEC; NT_CSC; NT_TAN; NT_COT; NT_ASIN;
   NT_ACOS; NT_ASEC; NT_ACSC; NT_ATAN; NT_ACOT; NT_SINH; NT_COSH; NT_TANH; NT_SECH; NT_CSCH;
   NT_COTH; NT_ASINH; NT_ACOSH; NT_ATANH; NT_ASECH; NT_ACSCH; NT_ACOTH; NT_ATAN2].
Definition numS (t : term) := sis SK_INT t || sis SK_REAL t || sis SK_INTOREAL t.
Definition isArithTerm (t : term) : bool :=
  kin (t_kind t) arith_kinds || (isVar t && (sis SK_INT t || sis SK_REAL t))
  || (isConst t && numS t)
  || (kin (t_kind t) [NT_ITE; NT_MAX; NT_MIN; NT_UF_APPLY] && numS t).
Definition arith_comp_kinds := [NT_LE; NT_LT; NT_GE; NT_GT].
Definition isArithComp (t : term) : res bool :=
  if isEq t || isDistinct t then
    c <- child0 t ;; Ok (isArithTerm c || kin (t_kind t) arith_comp_kinds)
  else Ok (kin (t_kind t) arith_comp_kinds).
Definition arith_prop_kinds := [NT_IS_INT; NT_IS_DIVISIBLE; NT_IS_PRIME; NT_IS_EVEN; NT_IS_ODD].
Definition isArithAtom (t : term) : res bool :=
  b <- isArithComp t ;; Ok (b || kin (t_kind t) arith_prop_kinds).

(** dag.h:463-525: bit-vectors *)
Definition isBVComp := isk NT_BV_COMP.
Definition bv_op_kinds : list kind :=
  [NT_BV_NOT; NT_BV_AND; NT_BV_OR; NT_BV_XOR; NT_BV_NAND; NT_BV_NOR; NT_BV_XNOR; NT_BV_ADD;
   NT_BV_SUB; NT_BV_MUL; NT_BV_UDIV; NT_BV_UREM; NT_BV_SDIV; NT_BV_SREM; NT_BV_SMOD; NT_BV_SHL;
   NT_BV_LSHR; NT_BV_ASHR; NT_BV_CONCAT; NT_BV_EXTRACT; NT_BV_REPEAT; NT_BV_ZERO_EXT;
   NT_BV_SIGN_EXT; NT_BV_ROTATE_LEFT; NT_BV_ROTATE_RIGHT].
Definition isBVTerm (t : term) : bool :=
  kin (t_kind t) bv_op_kinds || isV SK_BV t || isCBV t
  || (kin (t_kind t) [NT_ITE; NT_MAX; NT_MIN; NT_UF_APPLY] && sis SK_BV t).
Definition bv_comp_kinds :=
  [NT_BV_ULT; NT_BV_ULE; NT_BV_UGT; NT_BV_UGE; NT_BV_SLT; NT_BV_SLE; NT_BV_SGT; NT_BV_SGE].
Definition isBVCompOp (t : term) : bool :=
  (match t_ch t with c :: _ => (isEq t || isDistinct t) && isBVTerm c | [] => false end)
  || kin (t_kind t) bv_comp_kinds.

(** dag.h:527-579: floating point *)
Definition fp_op_kinds : list kind :=
  [NT_FP_ADD; NT_FP_SUB; NT_FP_MUL; NT_FP_DIV; NT_FP_ABS; NT_FP_NEG; NT_FP_REM; NT_FP_FMA;
   NT_FP_SQRT; NT_FP_ROUND_TO_INTEGRAL; NT_FP_MIN; NT_FP_MAX].
Definition fp_conv_kinds :=
  [NT_FP_TO_UBV; NT_FP_TO_SBV; NT_FP_TO_REAL; NT_FP_TO_FP; NT_FP_TO_FP_UNSIGNED].
Definition isFPTerm (t : term) : bool :=
  kin (t_kind t) fp_op_kinds || isV SK_FP t || isCFP t
  || (kin (t_kind t) ([NT_ITE; NT_MAX; NT_MIN; NT_UF_APPLY] ++ fp_conv_kinds) && sis SK_FP t).
Definition fp_comp_kinds := [NT_FP_LE; NT_FP_LT; NT_FP_GE; NT_FP_GT; NT_FP_EQ].
Definition isFPComp (t : term) : bool :=
  (match t_ch t with c :: _ => (isEq t || isDistinct t) && isFPTerm c | [] => false end)
  || kin (t_kind t) fp_comp_kinds.
Definition fp_prop_kinds :=
  [NT_FP_IS_NORMAL; NT_FP_IS_SUBNORMAL; NT_FP_IS_ZERO; NT_FP_IS_INF; NT_FP_IS_NAN; NT_FP_IS_NEG;
   NT_FP_IS_POS].

(** dag.h:588-626: strings *)
Definition str_op_kinds : list kind :=
  [NT_STR_LEN; NT_STR_CONCAT; NT_STR_SUBSTR; NT_STR_PREFIXOF; NT_STR_SUFFIXOF; NT_STR_INDEXOF;
   NT_STR_CHARAT; NT_STR_UPDATE; NT_STR_REPLACE; NT_STR_REPLACE_ALL; NT_STR_TO_LOWER;
   NT_STR_TO_UPPER; NT_STR_REV; NT_STR_SPLIT; NT_STR_SPLIT_AT; NT_STR_SPLIT_REST;
   NT_STR_NUM_SPLITS; NT_STR_SPLIT_AT_RE; NT_STR_SPLIT_REST_RE; NT_STR_NUM_SPLITS_RE].
Definition isStrOp (t : term) : bool :=
  kin (t_kind t) str_op_kinds || (isUF t && sis SK_STR t).
Definition isStrEq (t : term) : bool :=
  isEq t && match t_ch t with
            | c :: _ :: _ => isV SK_STR c || isCStr c || isStrOp c
            | _ => false
            end.
Definition str_comp_kinds := [NT_STR_LT; NT_STR_LE; NT_STR_GT; NT_STR_GE].
Definition isStrComp (t : term) : bool := kin (t_kind t) str_comp_kinds || isStrEq t.
Definition str_prop_kinds := [NT_STR_IN_REG; NT_STR_CONTAINS; NT_STR_IS_DIGIT].

(** dag.h:650-653: isAtom *)
Definition isAtom (t : term) : res bool :=
  a <- isArithAtom t ;;
  Ok (a || isBVCompOp t || isFPComp t || kin (t_kind t) fp_prop_kinds
      || isStrComp t || kin (t_kind t) str_prop_kinds || (isUF t && sis SK_BOOL t)).

(** static nodes (dag.h:1078-1102) *)
Definition TRUE : term := T NT_CONST_TRUE boolS (L "true") [].
Definition FALSE : term := T NT_CONST_FALSE boolS (L "false") [].
Definition UNKNOWN : term := T NT_UNKNOWN unknownS (L "unknown") [].
Definition NULLT : term := T NT_NULL nullS (L "NULL") [].
