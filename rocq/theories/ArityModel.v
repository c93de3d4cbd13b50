(** Parser::getArity. *)
From Verif Require Import Base KindModel.
Open Scope Z_scope.

(** op_parser.cpp:4501-4746 getArity: the number of children of a node of a kind, -1 for any
    number; the kinds the switch does not list fall under default, -1 *)
Definition getArity (k : kind) : Z :=
  match k with
  | NT_NULL | NT_CONST | NT_VAR | NT_TEMP_VAR | NT_CONST_TRUE | NT_CONST_FALSE | NT_CONST_PI |
    NT_CONST_E | NT_INFINITY | NT_POS_INFINITY | NT_NEG_INFINITY | NT_NAN | NT_EPSILON |
    NT_POS_EPSILON | NT_NEG_EPSILON | NT_REG_NONE | NT_REG_ALL | NT_REG_ALLCHAR | NT_QUANT_VAR => 0
  | NT_CONST_ARRAY | NT_NOT | NT_NEG | NT_ABS | NT_SQRT | NT_SAFESQRT | NT_CEIL | NT_FLOOR |
    NT_ROUND | NT_EXP | NT_LN | NT_LG | NT_LB | NT_SIN | NT_COS | NT_SEC | NT_CSC | NT_TAN |
    NT_COT | NT_ASIN | NT_ACOS | NT_ASEC | NT_ACSC | NT_ATAN | NT_ACOT | NT_SINH | NT_COSH |
    NT_TANH | NT_SECH | NT_CSCH | NT_COTH | NT_ASINH | NT_ACOSH | NT_ATANH | NT_ASECH |
    NT_ACSCH | NT_ACOTH | NT_TO_INT | NT_TO_REAL | NT_IS_INT | NT_IS_PRIME | NT_IS_EVEN |
    NT_IS_ODD | NT_FACT | NT_BV_NOT | NT_BV_NEG | NT_BV_NEGO | NT_FP_ABS | NT_FP_NEG |
    NT_FP_IS_NORMAL | NT_FP_IS_SUBNORMAL | NT_FP_IS_ZERO | NT_FP_IS_INF | NT_FP_IS_NAN |
    NT_FP_IS_NEG | NT_FP_IS_POS | NT_FP_TO_REAL | NT_STR_LEN | NT_STR_TO_LOWER |
    NT_STR_TO_UPPER | NT_STR_REV | NT_STR_IS_DIGIT | NT_STR_FROM_INT | NT_STR_TO_INT |
    NT_STR_TO_REG | NT_STR_TO_CODE | NT_STR_FROM_CODE | NT_REG_STAR | NT_REG_PLUS | NT_REG_OPT
    | NT_REG_COMPLEMENT | NT_BV_TO_NAT | NT_BV_TO_INT | NT_POW2 => 1
  | NT_POW | NT_DIV_INT | NT_DIV_REAL | NT_MOD | NT_LOG | NT_ATAN2 | NT_LE | NT_LT | NT_GE | NT_GT
    | NT_IS_DIVISIBLE | NT_GCD | NT_LCM | NT_BV_UDIV | NT_BV_SDIV | NT_BV_UREM | NT_BV_SREM |
    NT_BV_UMOD | NT_BV_SMOD | NT_BV_SDIVO | NT_BV_UDIVO | NT_BV_SREMO | NT_BV_UREMO |
    NT_BV_SMODO | NT_BV_UMODO | NT_BV_SHL | NT_BV_LSHR | NT_BV_ASHR | NT_BV_COMP | NT_BV_ULT |
    NT_BV_ULE | NT_BV_UGT | NT_BV_UGE | NT_BV_SLT | NT_BV_SLE | NT_BV_SGT | NT_BV_SGE |
    NT_NAT_TO_BV | NT_INT_TO_BV | NT_FP_REM | NT_FP_SQRT | NT_FP_ROUND_TO_INTEGRAL | NT_FP_LE |
    NT_FP_LT | NT_FP_GE | NT_FP_GT | NT_FP_EQ | NT_SELECT | NT_STR_PREFIXOF | NT_STR_SUFFIXOF |
    NT_STR_CHARAT | NT_STR_SPLIT | NT_STR_LT | NT_STR_LE | NT_STR_GT | NT_STR_GE |
    NT_STR_IN_REG | NT_STR_CONTAINS | NT_STR_NUM_SPLITS_RE | NT_REG_RANGE | NT_REG_REPEAT |
    NT_BV_REPEAT | NT_BV_ZERO_EXT | NT_BV_SIGN_EXT | NT_BV_ROTATE_LEFT | NT_BV_ROTATE_RIGHT => 2
  | NT_ITE | NT_FP_ADD | NT_FP_SUB | NT_FP_MUL | NT_FP_DIV | NT_FP_TO_UBV | NT_FP_TO_SBV | NT_STORE
    | NT_STR_SUBSTR | NT_STR_INDEXOF | NT_STR_UPDATE | NT_STR_REPLACE | NT_STR_REPLACE_ALL |
    NT_STR_SPLIT_AT | NT_STR_SPLIT_REST | NT_STR_SPLIT_AT_RE | NT_STR_SPLIT_REST_RE |
    NT_STR_REPLACE_REG | NT_STR_REPLACE_REG_ALL | NT_STR_INDEXOF_REG | NT_REG_LOOP |
    NT_BV_EXTRACT => 3
  | NT_FP_FMA | NT_FP_TO_FP => 4
  | _ => -1
  end.
