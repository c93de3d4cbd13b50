(** Model of OpDispatcher (include/op_dispatcher.h): a table from node kinds to handlers that is filled by a sequence of
    registrations.  A handler is a function pointer that gets the node and a context it may change; a null pointer is [None].
    Simplified: the result type is any type, a missing result is [None] (Result{} in the code). *)
From Verif Require Import Base KindModel SortModel TermModel.

Section D.
Context {R C : Type}.
Definition handler := term -> C -> res (R * C).
(** op_dispatcher.h:178-182: the arrays table_ and has_ and the pointer fallback_; a null function pointer is [None] *)
Record dispatcher := Disp { d_table : kind -> option handler; d_has : kind -> bool; d_else : option handler }.
(** 61: the constructor *)
Definition empty : dispatcher := Disp (fun _ => None) (fun _ => false) None.
Definition put {A} (k : kind) (v : A) (f : kind -> A) : kind -> A := fun k' => if keq k' k then v else f k'.
(** 64-71; every kind of a node is below NUM_KINDS *)
Definition on (k : kind) (h : option handler) (d : dispatcher) : dispatcher :=
  Disp (put k h (d_table d)) (put k (match h with Some _ => true | None => false end) (d_has d)) (d_else d).
(** 74-77 *)
Definition otherwise (h : option handler) (d : dispatcher) : dispatcher := Disp (d_table d) (d_has d) h.
(** 79-82 *)
Definition has (d : dispatcher) (k : kind) : bool := d_has d k.
(** 88-106; calling a null pointer is undefined behaviour; [dbg]: assertions compiled in *)
Definition dispatch (dbg : bool) (d : dispatcher) (t : term) (c : C) : res (option R * C) :=
  if d_has d (t_kind t) then
    match d_table d (t_kind t) with Some h => r <- h t c ;; Ok (Some (fst r), snd r) | None => UB end
  else match d_else d with
       | Some h => r <- h t c ;; Ok (Some (fst r), snd r)
       | None => condAssert dbg false ;;; Ok (None, c)
       end.
(** a sequence of calls on one dispatcher *)
Inductive call := On (k : kind) (h : option handler) | Otherwise (h : option handler).
Definition do (d : dispatcher) (x : call) : dispatcher := match x with On k h => on k h d | Otherwise h => otherwise h d end.
Definition build (l : list call) : dispatcher := fold_left do l empty.
End D.
Arguments dispatcher : clear implicits.
Arguments handler : clear implicits.
Arguments call : clear implicits.

(** 118-173: the methods onAND, onOR, ..: one for each of these kinds, calling [on] with it *)
Definition sugar_kinds : list kind :=
  [NT_AND; NT_OR; NT_NOT; NT_IMPLIES; NT_XOR; NT_EQ; NT_DISTINCT; NT_ITE; NT_ADD; NT_SUB; NT_MUL; NT_IAND;
   NT_POW2; NT_POW; NT_DIV_INT; NT_DIV_REAL; NT_MOD; NT_ABS; NT_SQRT; NT_SAFESQRT; NT_CEIL; NT_FLOOR;
   NT_ROUND; NT_EXP; NT_LN; NT_LG; NT_LB; NT_LOG; NT_SIN; NT_COS; NT_TAN; NT_COT; NT_SEC; NT_CSC; NT_ASIN;
   NT_ACOS; NT_ATAN; NT_ACOT; NT_ASEC; NT_ACSC; NT_ATAN2; NT_SINH; NT_COSH; NT_TANH; NT_SECH; NT_CSCH;
   NT_COTH; NT_ASINH; NT_ACOSH; NT_ATANH; NT_ASECH; NT_ACSCH; NT_ACOTH; NT_LE; NT_LT; NT_GE; NT_GT;
   NT_TO_REAL; NT_TO_INT; NT_IS_INT; NT_IS_DIVISIBLE; NT_IS_PRIME; NT_IS_EVEN; NT_IS_ODD; NT_GCD; NT_LCM;
   NT_FACT; NT_BV_NOT; NT_BV_NEG; NT_BV_AND; NT_BV_OR; NT_BV_XOR; NT_BV_NAND; NT_BV_NOR; NT_BV_XNOR;
   NT_BV_COMP; NT_BV_ADD; NT_BV_SUB; NT_BV_MUL; NT_BV_UDIV; NT_BV_UREM; NT_BV_SDIV; NT_BV_SREM; NT_BV_UMOD;
   NT_BV_SMOD; NT_BV_SHL; NT_BV_LSHR; NT_BV_ASHR; NT_BV_ULT; NT_BV_ULE; NT_BV_UGT; NT_BV_UGE; NT_BV_SLT;
   NT_BV_SLE; NT_BV_SGT; NT_BV_SGE; NT_BV_CONCAT; NT_BV_TO_NAT; NT_NAT_TO_BV; NT_BV_TO_INT; NT_INT_TO_BV;
   NT_BV_EXTRACT; NT_BV_REPEAT; NT_BV_ZERO_EXT; NT_BV_SIGN_EXT; NT_BV_ROTATE_LEFT; NT_BV_ROTATE_RIGHT;
   NT_FP_ABS; NT_FP_NEG; NT_FP_ADD; NT_FP_SUB; NT_FP_MUL; NT_FP_DIV; NT_FP_FMA; NT_FP_SQRT; NT_FP_REM;
   NT_FP_ROUND_TO_INTEGRAL; NT_FP_MIN; NT_FP_MAX; NT_FP_LE; NT_FP_LT; NT_FP_GE; NT_FP_GT; NT_FP_EQ;
   NT_FP_TO_UBV; NT_FP_TO_SBV; NT_FP_TO_REAL; NT_FP_TO_FP; NT_FP_TO_FP_UNSIGNED; NT_FP_IS_NORMAL;
   NT_FP_IS_SUBNORMAL; NT_FP_IS_ZERO; NT_FP_IS_INF; NT_FP_IS_NAN; NT_FP_IS_NEG; NT_FP_IS_POS; NT_SELECT;
   NT_STORE; NT_STR_LEN; NT_STR_CONCAT; NT_STR_SUBSTR; NT_STR_PREFIXOF; NT_STR_SUFFIXOF; NT_STR_INDEXOF;
   NT_STR_CHARAT; NT_STR_UPDATE; NT_STR_REPLACE; NT_STR_REPLACE_ALL; NT_STR_REPLACE_REG;
   NT_STR_REPLACE_REG_ALL; NT_STR_INDEXOF_REG; NT_STR_TO_LOWER; NT_STR_TO_UPPER; NT_STR_REV; NT_STR_SPLIT;
   NT_STR_SPLIT_AT; NT_STR_SPLIT_REST; NT_STR_NUM_SPLITS; NT_STR_SPLIT_AT_RE; NT_STR_SPLIT_REST_RE;
   NT_STR_NUM_SPLITS_RE; NT_STR_LT; NT_STR_LE; NT_STR_GT; NT_STR_GE; NT_STR_IN_REG; NT_STR_CONTAINS;
   NT_STR_IS_DIGIT; NT_STR_FROM_INT; NT_STR_TO_INT; NT_STR_TO_REG; NT_STR_TO_CODE; NT_STR_FROM_CODE;
   NT_REG_CONCAT; NT_REG_UNION; NT_REG_INTER; NT_REG_DIFF; NT_REG_STAR; NT_REG_PLUS; NT_REG_OPT;
   NT_REG_RANGE; NT_REG_REPEAT; NT_REG_LOOP; NT_REG_COMPLEMENT; NT_ROOT_OBJ; NT_ROOT_OF_WITH_INTERVAL].
