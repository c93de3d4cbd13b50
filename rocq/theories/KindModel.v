(** Node kinds and the tables of kind.h / kind.cpp.
    Generated from the source text; one constructor or row per line of it. *)
From Verif Require Import Base.

(** include/kind.h:39-146: enum class NODE_KIND, in declaration order. *)
Inductive kind :=
 | NT_UNKNOWN | NT_ERROR | NT_NULL | NT_CONST | NT_VAR | NT_CONST_TRUE | NT_CONST_FALSE
 | NT_TEMP_VAR | NT_CONST_ARRAY | NT_PLACEHOLDER_VAR | NT_AND | NT_OR | NT_NOT | NT_IMPLIES
 | NT_XOR | NT_EQ | NT_DISTINCT | NT_ITE | NT_ADD | NT_NEG | NT_SUB | NT_MUL | NT_IAND
 | NT_POW2 | NT_POW | NT_DIV_INT | NT_DIV_REAL | NT_MOD | NT_ABS | NT_SQRT | NT_SAFESQRT
 | NT_CEIL | NT_FLOOR | NT_ROUND | NT_EXP | NT_LN | NT_LG | NT_LB | NT_LOG | NT_SIN | NT_COS
 | NT_TAN | NT_COT | NT_SEC | NT_CSC | NT_ASIN | NT_ACOS | NT_ATAN | NT_ACOT | NT_ASEC
 | NT_ACSC | NT_SINH | NT_COSH | NT_TANH | NT_ASECH | NT_ACSCH | NT_ACOTH | NT_ATAN2
 | NT_ASINH | NT_ACOSH | NT_ATANH | NT_SECH | NT_CSCH | NT_COTH | NT_LE | NT_LT | NT_GE
 | NT_GT | NT_TO_INT | NT_TO_REAL | NT_IS_INT | NT_IS_DIVISIBLE | NT_IS_PRIME | NT_IS_EVEN
 | NT_IS_ODD | NT_GCD | NT_LCM | NT_FACT | NT_BV_NOT | NT_BV_NEG | NT_BV_AND | NT_BV_OR
 | NT_BV_XOR | NT_BV_NAND | NT_BV_NOR | NT_BV_XNOR | NT_BV_COMP | NT_BV_ADD | NT_BV_SUB
 | NT_BV_MUL | NT_BV_UDIV | NT_BV_SDIV | NT_BV_UREM | NT_BV_SREM | NT_BV_UMOD | NT_BV_SMOD
 | NT_BV_SHL | NT_BV_LSHR | NT_BV_ASHR | NT_BV_ULT | NT_BV_ULE | NT_BV_UGT | NT_BV_UGE
 | NT_BV_SLT | NT_BV_SLE | NT_BV_SGT | NT_BV_SGE | NT_BV_CONCAT | NT_BV_TO_NAT | NT_NAT_TO_BV
 | NT_BV_TO_INT | NT_INT_TO_BV | NT_BV_EXTRACT | NT_BV_REPEAT | NT_BV_ZERO_EXT
 | NT_BV_SIGN_EXT | NT_BV_ROTATE_LEFT | NT_BV_ROTATE_RIGHT | NT_FP_ADD | NT_FP_SUB
 | NT_FP_MUL | NT_FP_DIV | NT_FP_ABS | NT_FP_NEG | NT_FP_REM | NT_FP_FMA | NT_FP_SQRT
 | NT_FP_ROUND_TO_INTEGRAL | NT_FP_MIN | NT_FP_MAX | NT_FP_LE | NT_FP_LT | NT_FP_GE
 | NT_FP_GT | NT_FP_EQ | NT_FP_TO_UBV | NT_FP_TO_SBV | NT_FP_TO_REAL | NT_FP_TO_FP
 | NT_FP_TO_FP_UNSIGNED | NT_FP_IS_NORMAL | NT_FP_IS_SUBNORMAL | NT_FP_IS_ZERO | NT_FP_IS_INF
 | NT_FP_IS_NAN | NT_FP_IS_NEG | NT_FP_IS_POS | NT_SELECT | NT_STORE | NT_STR_LEN
 | NT_STR_CONCAT | NT_STR_SUBSTR | NT_STR_INDEXOF | NT_STR_CHARAT | NT_STR_UPDATE
 | NT_STR_REPLACE | NT_STR_REPLACE_ALL | NT_STR_REPLACE_REG | NT_STR_REPLACE_REG_ALL
 | NT_STR_INDEXOF_REG | NT_STR_TO_LOWER | NT_STR_TO_UPPER | NT_STR_REV | NT_STR_SPLIT
 | NT_STR_SPLIT_AT | NT_STR_SPLIT_REST | NT_STR_NUM_SPLITS | NT_STR_SPLIT_AT_RE
 | NT_STR_SPLIT_REST_RE | NT_STR_NUM_SPLITS_RE | NT_STR_LT | NT_STR_LE | NT_STR_GT
 | NT_STR_GE | NT_STR_IN_REG | NT_STR_CONTAINS | NT_STR_IS_DIGIT | NT_STR_PREFIXOF
 | NT_STR_SUFFIXOF | NT_STR_FROM_INT | NT_STR_TO_INT | NT_STR_TO_REG | NT_STR_TO_CODE
 | NT_STR_FROM_CODE | NT_REG_CONCAT | NT_REG_UNION | NT_REG_INTER | NT_REG_DIFF | NT_REG_STAR
 | NT_REG_PLUS | NT_REG_OPT | NT_REG_RANGE | NT_REG_REPEAT | NT_REG_COMPLEMENT | NT_REG_LOOP
 | NT_FUNC_APPLY | NT_FUNC_DEC | NT_FUNC_DEF | NT_FUNC_REC | NT_FUNC_REC_APPLY | NT_BV_NEGO
 | NT_BV_UADDO | NT_BV_SADDO | NT_BV_UMULO | NT_BV_SMULO | NT_BV_UDIVO | NT_BV_SDIVO
 | NT_BV_UREMO | NT_BV_SREMO | NT_BV_UMODO | NT_BV_SMODO | NT_EQ_BOOL | NT_EQ_OTHER
 | NT_DISTINCT_BOOL | NT_DISTINCT_OTHER | NT_UF_APPLY | NT_CONST_PI | NT_CONST_E
 | NT_INFINITY | NT_NAN | NT_EPSILON | NT_POS_INFINITY | NT_NEG_INFINITY | NT_POS_EPSILON
 | NT_NEG_EPSILON | NT_REG_NONE | NT_REG_ALL | NT_REG_ALLCHAR | NT_MAX | NT_MIN | NT_LET
 | NT_LET_CHAIN | NT_LET_BIND_VAR | NT_LET_BIND_VAR_LIST | NT_FORALL | NT_EXISTS
 | NT_QUANT_VAR | NT_FUNC_PARAM | NT_ROOT_OBJ | NT_ROOT_OF_WITH_INTERVAL
 | NT_REAL_ALGEBRAIC_NUMBER.

(** the enumerators in order *)
Definition all_kinds : list kind := [
  NT_UNKNOWN; NT_ERROR; NT_NULL; NT_CONST; NT_VAR; NT_CONST_TRUE; NT_CONST_FALSE;
  NT_TEMP_VAR; NT_CONST_ARRAY; NT_PLACEHOLDER_VAR; NT_AND; NT_OR; NT_NOT; NT_IMPLIES;
  NT_XOR; NT_EQ; NT_DISTINCT; NT_ITE; NT_ADD; NT_NEG; NT_SUB; NT_MUL; NT_IAND; NT_POW2;
  NT_POW; NT_DIV_INT; NT_DIV_REAL; NT_MOD; NT_ABS; NT_SQRT; NT_SAFESQRT; NT_CEIL; NT_FLOOR;
  NT_ROUND; NT_EXP; NT_LN; NT_LG; NT_LB; NT_LOG; NT_SIN; NT_COS; NT_TAN; NT_COT; NT_SEC;
  NT_CSC; NT_ASIN; NT_ACOS; NT_ATAN; NT_ACOT; NT_ASEC; NT_ACSC; NT_SINH; NT_COSH; NT_TANH;
  NT_ASECH; NT_ACSCH; NT_ACOTH; NT_ATAN2; NT_ASINH; NT_ACOSH; NT_ATANH; NT_SECH; NT_CSCH;
  NT_COTH; NT_LE; NT_LT; NT_GE; NT_GT; NT_TO_INT; NT_TO_REAL; NT_IS_INT; NT_IS_DIVISIBLE;
  NT_IS_PRIME; NT_IS_EVEN; NT_IS_ODD; NT_GCD; NT_LCM; NT_FACT; NT_BV_NOT; NT_BV_NEG;
  NT_BV_AND; NT_BV_OR; NT_BV_XOR; NT_BV_NAND; NT_BV_NOR; NT_BV_XNOR; NT_BV_COMP; NT_BV_ADD;
  NT_BV_SUB; NT_BV_MUL; NT_BV_UDIV; NT_BV_SDIV; NT_BV_UREM; NT_BV_SREM; NT_BV_UMOD;
  NT_BV_SMOD; NT_BV_SHL; NT_BV_LSHR; NT_BV_ASHR; NT_BV_ULT; NT_BV_ULE; NT_BV_UGT; NT_BV_UGE;
  NT_BV_SLT; NT_BV_SLE; NT_BV_SGT; NT_BV_SGE; NT_BV_CONCAT; NT_BV_TO_NAT; NT_NAT_TO_BV;
  NT_BV_TO_INT; NT_INT_TO_BV; NT_BV_EXTRACT; NT_BV_REPEAT; NT_BV_ZERO_EXT; NT_BV_SIGN_EXT;
  NT_BV_ROTATE_LEFT; NT_BV_ROTATE_RIGHT; NT_FP_ADD; NT_FP_SUB; NT_FP_MUL; NT_FP_DIV;
  NT_FP_ABS; NT_FP_NEG; NT_FP_REM; NT_FP_FMA; NT_FP_SQRT; NT_FP_ROUND_TO_INTEGRAL;
  NT_FP_MIN; NT_FP_MAX; NT_FP_LE; NT_FP_LT; NT_FP_GE; NT_FP_GT; NT_FP_EQ; NT_FP_TO_UBV;
  NT_FP_TO_SBV; NT_FP_TO_REAL; NT_FP_TO_FP; NT_FP_TO_FP_UNSIGNED; NT_FP_IS_NORMAL;
  NT_FP_IS_SUBNORMAL; NT_FP_IS_ZERO; NT_FP_IS_INF; NT_FP_IS_NAN; NT_FP_IS_NEG; NT_FP_IS_POS;
  NT_SELECT; NT_STORE; NT_STR_LEN; NT_STR_CONCAT; NT_STR_SUBSTR; NT_STR_INDEXOF;
  NT_STR_CHARAT; NT_STR_UPDATE; NT_STR_REPLACE; NT_STR_REPLACE_ALL; NT_STR_REPLACE_REG;
  NT_STR_REPLACE_REG_ALL; NT_STR_INDEXOF_REG; NT_STR_TO_LOWER; NT_STR_TO_UPPER; NT_STR_REV;
  NT_STR_SPLIT; NT_STR_SPLIT_AT; NT_STR_SPLIT_REST; NT_STR_NUM_SPLITS; NT_STR_SPLIT_AT_RE;
  NT_STR_SPLIT_REST_RE; NT_STR_NUM_SPLITS_RE; NT_STR_LT; NT_STR_LE; NT_STR_GT; NT_STR_GE;
  NT_STR_IN_REG; NT_STR_CONTAINS; NT_STR_IS_DIGIT; NT_STR_PREFIXOF; NT_STR_SUFFIXOF;
  NT_STR_FROM_INT; NT_STR_TO_INT; NT_STR_TO_REG; NT_STR_TO_CODE; NT_STR_FROM_CODE;
  NT_REG_CONCAT; NT_REG_UNION; NT_REG_INTER; NT_REG_DIFF; NT_REG_STAR; NT_REG_PLUS;
  NT_REG_OPT; NT_REG_RANGE; NT_REG_REPEAT; NT_REG_COMPLEMENT; NT_REG_LOOP; NT_FUNC_APPLY;
  NT_FUNC_DEC; NT_FUNC_DEF; NT_FUNC_REC; NT_FUNC_REC_APPLY; NT_BV_NEGO; NT_BV_UADDO;
  NT_BV_SADDO; NT_BV_UMULO; NT_BV_SMULO; NT_BV_UDIVO; NT_BV_SDIVO; NT_BV_UREMO; NT_BV_SREMO;
  NT_BV_UMODO; NT_BV_SMODO; NT_EQ_BOOL; NT_EQ_OTHER; NT_DISTINCT_BOOL; NT_DISTINCT_OTHER;
  NT_UF_APPLY; NT_CONST_PI; NT_CONST_E; NT_INFINITY; NT_NAN; NT_EPSILON; NT_POS_INFINITY;
  NT_NEG_INFINITY; NT_POS_EPSILON; NT_NEG_EPSILON; NT_REG_NONE; NT_REG_ALL; NT_REG_ALLCHAR;
  NT_MAX; NT_MIN; NT_LET; NT_LET_CHAIN; NT_LET_BIND_VAR; NT_LET_BIND_VAR_LIST; NT_FORALL;
  NT_EXISTS; NT_QUANT_VAR; NT_FUNC_PARAM; NT_ROOT_OBJ; NT_ROOT_OF_WITH_INTERVAL;
  NT_REAL_ALGEBRAIC_NUMBER].

(** static_cast<size_t>(kind): the enumerator's value *)
Definition kind_ix (k : kind) : N :=
  match k with
  | NT_UNKNOWN => 0 | NT_ERROR => 1 | NT_NULL => 2 | NT_CONST => 3 | NT_VAR => 4 
  | NT_CONST_TRUE => 5 | NT_CONST_FALSE => 6 | NT_TEMP_VAR => 7 | NT_CONST_ARRAY => 8 
  | NT_PLACEHOLDER_VAR => 9 | NT_AND => 10 | NT_OR => 11 | NT_NOT => 12 | NT_IMPLIES => 13 
  | NT_XOR => 14 | NT_EQ => 15 | NT_DISTINCT => 16 | NT_ITE => 17 | NT_ADD => 18 
  | NT_NEG => 19 | NT_SUB => 20 | NT_MUL => 21 | NT_IAND => 22 | NT_POW2 => 23 | NT_POW => 24 
  | NT_DIV_INT => 25 | NT_DIV_REAL => 26 | NT_MOD => 27 | NT_ABS => 28 | NT_SQRT => 29 
  | NT_SAFESQRT => 30 | NT_CEIL => 31 | NT_FLOOR => 32 | NT_ROUND => 33 | NT_EXP => 34 
  | NT_LN => 35 | NT_LG => 36 | NT_LB => 37 | NT_LOG => 38 | NT_SIN => 39 | NT_COS => 40 
  | NT_TAN => 41 | NT_COT => 42 | NT_SEC => 43 | NT_CSC => 44 | NT_ASIN => 45 | NT_ACOS => 46 
  | NT_ATAN => 47 | NT_ACOT => 48 | NT_ASEC => 49 | NT_ACSC => 50 | NT_SINH => 51 
  | NT_COSH => 52 | NT_TANH => 53 | NT_ASECH => 54 | NT_ACSCH => 55 | NT_ACOTH => 56 
  | NT_ATAN2 => 57 | NT_ASINH => 58 | NT_ACOSH => 59 | NT_ATANH => 60 | NT_SECH => 61 
  | NT_CSCH => 62 | NT_COTH => 63 | NT_LE => 64 | NT_LT => 65 | NT_GE => 66 | NT_GT => 67 
  | NT_TO_INT => 68 | NT_TO_REAL => 69 | NT_IS_INT => 70 | NT_IS_DIVISIBLE => 71 
  | NT_IS_PRIME => 72 | NT_IS_EVEN => 73 | NT_IS_ODD => 74 | NT_GCD => 75 | NT_LCM => 76 
  | NT_FACT => 77 | NT_BV_NOT => 78 | NT_BV_NEG => 79 | NT_BV_AND => 80 | NT_BV_OR => 81 
  | NT_BV_XOR => 82 | NT_BV_NAND => 83 | NT_BV_NOR => 84 | NT_BV_XNOR => 85 | NT_BV_COMP => 86 
  | NT_BV_ADD => 87 | NT_BV_SUB => 88 | NT_BV_MUL => 89 | NT_BV_UDIV => 90 | NT_BV_SDIV => 91 
  | NT_BV_UREM => 92 | NT_BV_SREM => 93 | NT_BV_UMOD => 94 | NT_BV_SMOD => 95 
  | NT_BV_SHL => 96 | NT_BV_LSHR => 97 | NT_BV_ASHR => 98 | NT_BV_ULT => 99 | NT_BV_ULE => 100 
  | NT_BV_UGT => 101 | NT_BV_UGE => 102 | NT_BV_SLT => 103 | NT_BV_SLE => 104 
  | NT_BV_SGT => 105 | NT_BV_SGE => 106 | NT_BV_CONCAT => 107 | NT_BV_TO_NAT => 108 
  | NT_NAT_TO_BV => 109 | NT_BV_TO_INT => 110 | NT_INT_TO_BV => 111 | NT_BV_EXTRACT => 112 
  | NT_BV_REPEAT => 113 | NT_BV_ZERO_EXT => 114 | NT_BV_SIGN_EXT => 115 
  | NT_BV_ROTATE_LEFT => 116 | NT_BV_ROTATE_RIGHT => 117 | NT_FP_ADD => 118 | NT_FP_SUB => 119 
  | NT_FP_MUL => 120 | NT_FP_DIV => 121 | NT_FP_ABS => 122 | NT_FP_NEG => 123 
  | NT_FP_REM => 124 | NT_FP_FMA => 125 | NT_FP_SQRT => 126 | NT_FP_ROUND_TO_INTEGRAL => 127 
  | NT_FP_MIN => 128 | NT_FP_MAX => 129 | NT_FP_LE => 130 | NT_FP_LT => 131 | NT_FP_GE => 132 
  | NT_FP_GT => 133 | NT_FP_EQ => 134 | NT_FP_TO_UBV => 135 | NT_FP_TO_SBV => 136 
  | NT_FP_TO_REAL => 137 | NT_FP_TO_FP => 138 | NT_FP_TO_FP_UNSIGNED => 139 
  | NT_FP_IS_NORMAL => 140 | NT_FP_IS_SUBNORMAL => 141 | NT_FP_IS_ZERO => 142 
  | NT_FP_IS_INF => 143 | NT_FP_IS_NAN => 144 | NT_FP_IS_NEG => 145 | NT_FP_IS_POS => 146 
  | NT_SELECT => 147 | NT_STORE => 148 | NT_STR_LEN => 149 | NT_STR_CONCAT => 150 
  | NT_STR_SUBSTR => 151 | NT_STR_INDEXOF => 152 | NT_STR_CHARAT => 153 | NT_STR_UPDATE => 154 
  | NT_STR_REPLACE => 155 | NT_STR_REPLACE_ALL => 156 | NT_STR_REPLACE_REG => 157 
  | NT_STR_REPLACE_REG_ALL => 158 | NT_STR_INDEXOF_REG => 159 | NT_STR_TO_LOWER => 160 
  | NT_STR_TO_UPPER => 161 | NT_STR_REV => 162 | NT_STR_SPLIT => 163 | NT_STR_SPLIT_AT => 164 
  | NT_STR_SPLIT_REST => 165 | NT_STR_NUM_SPLITS => 166 | NT_STR_SPLIT_AT_RE => 167 
  | NT_STR_SPLIT_REST_RE => 168 | NT_STR_NUM_SPLITS_RE => 169 | NT_STR_LT => 170 
  | NT_STR_LE => 171 | NT_STR_GT => 172 | NT_STR_GE => 173 | NT_STR_IN_REG => 174 
  | NT_STR_CONTAINS => 175 | NT_STR_IS_DIGIT => 176 | NT_STR_PREFIXOF => 177 
  | NT_STR_SUFFIXOF => 178 | NT_STR_FROM_INT => 179 | NT_STR_TO_INT => 180 
  | NT_STR_TO_REG => 181 | NT_STR_TO_CODE => 182 | NT_STR_FROM_CODE => 183 
  | NT_REG_CONCAT => 184 | NT_REG_UNION => 185 | NT_REG_INTER => 186 | NT_REG_DIFF => 187 
  | NT_REG_STAR => 188 | NT_REG_PLUS => 189 | NT_REG_OPT => 190 | NT_REG_RANGE => 191 
  | NT_REG_REPEAT => 192 | NT_REG_COMPLEMENT => 193 | NT_REG_LOOP => 194 | NT_FUNC_APPLY => 195 
  | NT_FUNC_DEC => 196 | NT_FUNC_DEF => 197 | NT_FUNC_REC => 198 | NT_FUNC_REC_APPLY => 199 
  | NT_BV_NEGO => 200 | NT_BV_UADDO => 201 | NT_BV_SADDO => 202 | NT_BV_UMULO => 203 
  | NT_BV_SMULO => 204 | NT_BV_UDIVO => 205 | NT_BV_SDIVO => 206 | NT_BV_UREMO => 207 
  | NT_BV_SREMO => 208 | NT_BV_UMODO => 209 | NT_BV_SMODO => 210 | NT_EQ_BOOL => 211 
  | NT_EQ_OTHER => 212 | NT_DISTINCT_BOOL => 213 | NT_DISTINCT_OTHER => 214 
  | NT_UF_APPLY => 215 | NT_CONST_PI => 216 | NT_CONST_E => 217 | NT_INFINITY => 218 
  | NT_NAN => 219 | NT_EPSILON => 220 | NT_POS_INFINITY => 221 | NT_NEG_INFINITY => 222 
  | NT_POS_EPSILON => 223 | NT_NEG_EPSILON => 224 | NT_REG_NONE => 225 | NT_REG_ALL => 226 
  | NT_REG_ALLCHAR => 227 | NT_MAX => 228 | NT_MIN => 229 | NT_LET => 230 | NT_LET_CHAIN => 231 
  | NT_LET_BIND_VAR => 232 | NT_LET_BIND_VAR_LIST => 233 | NT_FORALL => 234 | NT_EXISTS => 235 
  | NT_QUANT_VAR => 236 | NT_FUNC_PARAM => 237 | NT_ROOT_OBJ => 238 
  | NT_ROOT_OF_WITH_INTERVAL => 239 | NT_REAL_ALGEBRAIC_NUMBER => 240 end%N.

Definition keq (a b : kind) : bool := N.eqb (kind_ix a) (kind_ix b).

(** src/kind.cpp:33-549 *)
Definition kindToString (k : kind) : str :=
  match k with
  | NT_UNKNOWN => L "UNKNOWN_KIND"
  | NT_ERROR => L "ERROR"
  | NT_NULL => L "NULL"
  | NT_CONST_TRUE => L "true"
  | NT_CONST_FALSE => L "false"
  | NT_CONST_ARRAY => L "const_array"
  | NT_PLACEHOLDER_VAR => L "placeholder_var"
  | NT_EQ => L "="
  | NT_DISTINCT => L "distinct"
  | NT_EQ_BOOL => L "="
  | NT_EQ_OTHER => L "="
  | NT_DISTINCT_BOOL => L "distinct"
  | NT_DISTINCT_OTHER => L "distinct"
  | NT_CONST => L "CONST"
  | NT_VAR => L "VAR"
  | NT_TEMP_VAR => L "TEMP_VAR"
  | NT_NOT => L "not"
  | NT_AND => L "and"
  | NT_OR => L "or"
  | NT_IMPLIES => L "=>"
  | NT_XOR => L "xor"
  | NT_UF_APPLY => L "UF_APPLY"
  | NT_ADD => L "+"
  | NT_MUL => L "*"
  | NT_IAND => L "iand"
  | NT_POW2 => L "pow2"
  | NT_POW => L "^"
  | NT_SUB => L "-"
  | NT_NEG => L "-"
  | NT_DIV_INT => L "div"
  | NT_DIV_REAL => L "/"
  | NT_MOD => L "mod"
  | NT_ABS => L "abs"
  | NT_SQRT => L "sqrt"
  | NT_SAFESQRT => L "safesqrt"
  | NT_CEIL => L "ceil"
  | NT_FLOOR => L "floor"
  | NT_ROUND => L "round"
  | NT_EXP => L "exp"
  | NT_LOG => L "log"
  | NT_LN => L "ln"
  | NT_LG => L "lg"
  | NT_LB => L "lb"
  | NT_SIN => L "sin"
  | NT_COS => L "cos"
  | NT_SEC => L "sec"
  | NT_CSC => L "csc"
  | NT_TAN => L "tan"
  | NT_COT => L "cot"
  | NT_ASIN => L "asin"
  | NT_ACOS => L "acos"
  | NT_ASEC => L "asec"
  | NT_ACSC => L "acsc"
  | NT_ATAN => L "atan"
  | NT_ACOT => L "acot"
  | NT_SINH => L "sinh"
  | NT_COSH => L "cosh"
  | NT_TANH => L "tanh"
  | NT_SECH => L "sech"
  | NT_CSCH => L "csch"
  | NT_COTH => L "coth"
  | NT_ASINH => L "asinh"
  | NT_ACOSH => L "acosh"
  | NT_ATANH => L "atanh"
  | NT_ASECH => L "asech"
  | NT_ACSCH => L "acsch"
  | NT_ACOTH => L "acoth"
  | NT_ATAN2 => L "atan2"
  | NT_LE => L "<="
  | NT_LT => L "<"
  | NT_GE => L ">="
  | NT_GT => L ">"
  | NT_TO_INT => L "to_int"
  | NT_TO_REAL => L "to_real"
  | NT_IS_INT => L "is_int"
  | NT_IS_DIVISIBLE => L "is_divisible"
  | NT_IS_PRIME => L "is_prime"
  | NT_IS_EVEN => L "is_even"
  | NT_IS_ODD => L "is_odd"
  | NT_CONST_PI => L "pi"
  | NT_CONST_E => L "e"
  | NT_INFINITY => L "inf"
  | NT_POS_INFINITY => L "+inf"
  | NT_NEG_INFINITY => L "-inf"
  | NT_NAN => L "NaN"
  | NT_EPSILON => L "epsilon"
  | NT_POS_EPSILON => L "+epsilon"
  | NT_NEG_EPSILON => L "-epsilon"
  | NT_GCD => L "gcd"
  | NT_LCM => L "lcm"
  | NT_FACT => L "factorial"
  | NT_BV_NOT => L "bvnot"
  | NT_BV_AND => L "bvand"
  | NT_BV_OR => L "bvor"
  | NT_BV_XOR => L "bvxor"
  | NT_BV_NAND => L "bvnand"
  | NT_BV_NOR => L "bvnor"
  | NT_BV_XNOR => L "bvxnor"
  | NT_BV_COMP => L "bvcomp"
  | NT_BV_NEG => L "bvneg"
  | NT_BV_ADD => L "bvadd"
  | NT_BV_SUB => L "bvsub"
  | NT_BV_MUL => L "bvmul"
  | NT_BV_UDIV => L "bvudiv"
  | NT_BV_SDIV => L "bvsdiv"
  | NT_BV_UREM => L "bvurem"
  | NT_BV_SREM => L "bvsrem"
  | NT_BV_UMOD => L "bvumod"
  | NT_BV_SMOD => L "bvsmod"
  | NT_BV_NEGO => L "bvnego"
  | NT_BV_SADDO => L "bvsaddo"
  | NT_BV_UADDO => L "bvuaddo"
  | NT_BV_SMULO => L "bvsmulo"
  | NT_BV_UMULO => L "bvumulo"
  | NT_BV_SDIVO => L "bvsdivo"
  | NT_BV_UDIVO => L "bvudivo"
  | NT_BV_SREMO => L "bvsremo"
  | NT_BV_UREMO => L "bvuremo"
  | NT_BV_SMODO => L "bvsmodo"
  | NT_BV_UMODO => L "bvumodo"
  | NT_BV_SHL => L "bvshl"
  | NT_BV_LSHR => L "bvlshr"
  | NT_BV_ASHR => L "bvashr"
  | NT_BV_CONCAT => L "concat"
  | NT_BV_EXTRACT => L "extract"
  | NT_BV_REPEAT => L "repeat"
  | NT_BV_ZERO_EXT => L "zero_extend"
  | NT_BV_SIGN_EXT => L "sign_extend"
  | NT_BV_ROTATE_LEFT => L "rotate_left"
  | NT_BV_ROTATE_RIGHT => L "rotate_right"
  | NT_BV_ULT => L "bvult"
  | NT_BV_ULE => L "bvule"
  | NT_BV_UGT => L "bvugt"
  | NT_BV_UGE => L "bvuge"
  | NT_BV_SLT => L "bvslt"
  | NT_BV_SLE => L "bvsle"
  | NT_BV_SGT => L "bvsgt"
  | NT_BV_SGE => L "bvsge"
  | NT_BV_TO_NAT => L "bv2nat"
  | NT_NAT_TO_BV => L "nat2bv"
  | NT_FP_ADD => L "fp.add"
  | NT_FP_SUB => L "fp.sub"
  | NT_FP_MUL => L "fp.mul"
  | NT_FP_DIV => L "fp.div"
  | NT_FP_ABS => L "fp.abs"
  | NT_FP_NEG => L "fp.neg"
  | NT_FP_REM => L "fp.rem"
  | NT_FP_FMA => L "fp.fma"
  | NT_FP_SQRT => L "fp.sqrt"
  | NT_FP_ROUND_TO_INTEGRAL => L "fp.roundToIntegral"
  | NT_FP_MIN => L "fp.min"
  | NT_FP_MAX => L "fp.max"
  | NT_FP_LE => L "fp.leq"
  | NT_FP_LT => L "fp.lt"
  | NT_FP_GE => L "fp.geq"
  | NT_FP_GT => L "fp.gt"
  | NT_FP_EQ => L "fp.eq"
  | NT_FP_TO_UBV => L "fp.to_ubv"
  | NT_FP_TO_SBV => L "fp.to_sbv"
  | NT_FP_TO_REAL => L "fp.to_real"
  | NT_FP_TO_FP => L "to_fp"
  | NT_FP_TO_FP_UNSIGNED => L "to_fp_unsigned"
  | NT_FP_IS_NORMAL => L "fp.isNormal"
  | NT_FP_IS_SUBNORMAL => L "fp.isSubnormal"
  | NT_FP_IS_ZERO => L "fp.isZero"
  | NT_FP_IS_INF => L "fp.isInfinite"
  | NT_FP_IS_NAN => L "fp.isNaN"
  | NT_FP_IS_NEG => L "fp.isNegative"
  | NT_FP_IS_POS => L "fp.isPositive"
  | NT_SELECT => L "select"
  | NT_STORE => L "store"
  | NT_STR_LEN => L "str.len"
  | NT_STR_CONCAT => L "str.++"
  | NT_STR_SUBSTR => L "str.substr"
  | NT_STR_PREFIXOF => L "str.prefixof"
  | NT_STR_SUFFIXOF => L "str.suffixof"
  | NT_STR_INDEXOF => L "str.indexof"
  | NT_STR_CHARAT => L "str.at"
  | NT_STR_UPDATE => L "str.update"
  | NT_STR_REPLACE => L "str.replace"
  | NT_STR_REPLACE_ALL => L "str.replace_all"
  | NT_STR_TO_LOWER => L "str.to_lower"
  | NT_STR_TO_UPPER => L "str.to_upper"
  | NT_STR_REV => L "str.rev"
  | NT_STR_SPLIT => L "str.split"
  | NT_STR_SPLIT_AT => L "str.split_at"
  | NT_STR_SPLIT_REST => L "str.split_rest"
  | NT_STR_NUM_SPLITS => L "str.num_splits"
  | NT_STR_SPLIT_AT_RE => L "str.split_at_re"
  | NT_STR_SPLIT_REST_RE => L "str.split_rest_re"
  | NT_STR_NUM_SPLITS_RE => L "str.num_splits_re"
  | NT_STR_LT => L "str.<"
  | NT_STR_LE => L "str.<="
  | NT_STR_GT => L "str.>"
  | NT_STR_GE => L "str.>="
  | NT_STR_IN_REG => L "str.in_re"
  | NT_STR_CONTAINS => L "str.contains"
  | NT_STR_IS_DIGIT => L "str.is_digit"
  | NT_STR_FROM_INT => L "str.from_int"
  | NT_STR_TO_INT => L "str.to_int"
  | NT_STR_TO_REG => L "str.to_re"
  | NT_STR_TO_CODE => L "str.to_code"
  | NT_STR_FROM_CODE => L "str.from_code"
  | NT_REG_NONE => L "re.none"
  | NT_REG_ALL => L "re.all"
  | NT_REG_ALLCHAR => L "re.allchar"
  | NT_REG_CONCAT => L "re.++"
  | NT_REG_UNION => L "re.union"
  | NT_REG_INTER => L "re.inter"
  | NT_REG_DIFF => L "re.diff"
  | NT_REG_STAR => L "re.*"
  | NT_REG_PLUS => L "re.+"
  | NT_REG_OPT => L "re.opt"
  | NT_REG_RANGE => L "re.range"
  | NT_REG_REPEAT => L "re.^"
  | NT_REG_LOOP => L "re.loop"
  | NT_REG_COMPLEMENT => L "re.comp"
  | NT_STR_REPLACE_REG => L "str.replace_re"
  | NT_STR_REPLACE_REG_ALL => L "str.replace_re_all"
  | NT_STR_INDEXOF_REG => L "str.indexof"
  | NT_MAX => L "max"
  | NT_MIN => L "min"
  | NT_LET => L "let"
  | NT_LET_CHAIN => L "let_chain"
  | NT_LET_BIND_VAR => L "let_bind_var"
  | NT_LET_BIND_VAR_LIST => L "let_bind_var_list"
  | NT_ITE => L "ite"
  | NT_FORALL => L "forall"
  | NT_EXISTS => L "exists"
  | NT_QUANT_VAR => L "quant_var"
  | NT_FUNC_DEC => L "func_dec"
  | NT_FUNC_DEF => L "func_def"
  | NT_FUNC_PARAM => L "func_param"
  | NT_FUNC_APPLY => L "func_apply"
  | NT_FUNC_REC => L "func_rec"
  | NT_FUNC_REC_APPLY => L "func_rec_apply"
  | _ => L "UNKNOWN_KIND"
  end.

(** src/kind.cpp:550-615 *)
Definition getNegatedKind (k : kind) : kind :=
  match k with
  | NT_EQ => NT_DISTINCT
  | NT_DISTINCT => NT_EQ
  | NT_EQ_BOOL => NT_DISTINCT_BOOL
  | NT_DISTINCT_BOOL => NT_EQ_BOOL
  | NT_EQ_OTHER => NT_DISTINCT_OTHER
  | NT_DISTINCT_OTHER => NT_EQ_OTHER
  | NT_LE => NT_GT
  | NT_LT => NT_GE
  | NT_GE => NT_LT
  | NT_GT => NT_LE
  | NT_BV_ULT => NT_BV_UGE
  | NT_BV_UGT => NT_BV_ULE
  | NT_BV_ULE => NT_BV_UGT
  | NT_BV_UGE => NT_BV_ULT
  | NT_BV_SLT => NT_BV_SGE
  | NT_BV_SGT => NT_BV_SLE
  | NT_BV_SLE => NT_BV_SGT
  | NT_BV_SGE => NT_BV_SLT
  | NT_FP_LE => NT_FP_GT
  | NT_FP_LT => NT_FP_GE
  | NT_FP_GE => NT_FP_LT
  | NT_FP_GT => NT_FP_LE
  | NT_FP_EQ => NT_UNKNOWN
  | NT_STR_LT => NT_STR_GE
  | NT_STR_GT => NT_STR_LE
  | NT_STR_LE => NT_STR_GT
  | NT_STR_GE => NT_STR_LT
  | _ => NT_UNKNOWN
  end.

(** src/kind.cpp:616-698 *)
Definition getFlipKind (k : kind) : kind :=
  match k with
  | NT_EQ => NT_EQ
  | NT_DISTINCT => NT_DISTINCT
  | NT_EQ_BOOL => NT_EQ_BOOL
  | NT_DISTINCT_BOOL => NT_DISTINCT_BOOL
  | NT_EQ_OTHER => NT_EQ_OTHER
  | NT_DISTINCT_OTHER => NT_DISTINCT_OTHER
  | NT_LE => NT_GE
  | NT_LT => NT_GT
  | NT_GE => NT_LE
  | NT_GT => NT_LT
  | NT_ADD => NT_SUB
  | NT_SUB => NT_ADD
  | NT_DIV_INT => NT_MUL
  | NT_DIV_REAL => NT_MUL
  | NT_BV_SUB => NT_BV_ADD
  | NT_BV_ADD => NT_BV_SUB
  | NT_BV_UDIV => NT_BV_MUL
  | NT_BV_SDIV => NT_BV_MUL
  | NT_BV_ULT => NT_BV_UGT
  | NT_BV_UGT => NT_BV_ULT
  | NT_BV_ULE => NT_BV_UGE
  | NT_BV_UGE => NT_BV_ULE
  | NT_BV_SLT => NT_BV_SGE
  | NT_BV_SGT => NT_BV_SLT
  | NT_BV_SLE => NT_BV_SGE
  | NT_BV_SGE => NT_BV_SLE
  | NT_FP_ADD => NT_FP_SUB
  | NT_FP_SUB => NT_FP_ADD
  | NT_FP_MUL => NT_FP_DIV
  | NT_FP_DIV => NT_FP_MUL
  | NT_FP_LE => NT_FP_GE
  | NT_FP_LT => NT_FP_GT
  | NT_FP_GE => NT_FP_LE
  | NT_FP_GT => NT_FP_LT
  | NT_STR_LT => NT_STR_GT
  | NT_STR_GT => NT_STR_LT
  | NT_STR_LE => NT_STR_GE
  | NT_STR_GE => NT_STR_LE
  | _ => NT_UNKNOWN
  end.

(** include/kind.h:180-407: oper_key_map.  An unordered_map built from an
    initializer list keeps the first of two rows with the same key. *)
Definition oper_key_map : list (string * kind) := [
  ("and"%string, NT_AND);
  ("or"%string, NT_OR);
  ("not"%string, NT_NOT);
  ("=>"%string, NT_IMPLIES);
  ("xor"%string, NT_XOR);
  ("="%string, NT_EQ);
  ("=="%string, NT_EQ);
  ("<->"%string, NT_EQ);
  ("iff"%string, NT_EQ);
  ("<=>"%string, NT_EQ);
  ("distinct"%string, NT_DISTINCT);
  ("!="%string, NT_DISTINCT);
  ("<>"%string, NT_DISTINCT);
  ("ite"%string, NT_ITE);
  ("+"%string, NT_ADD);
  ("-"%string, NT_SUB);
  ("*"%string, NT_MUL);
  ("iand"%string, NT_IAND);
  ("pow2"%string, NT_POW2);
  ("pow"%string, NT_POW);
  ("**"%string, NT_POW);
  ("^"%string, NT_POW);
  ("div"%string, NT_DIV_INT);
  ("/"%string, NT_DIV_REAL);
  ("%"%string, NT_MOD);
  ("mod"%string, NT_MOD);
  ("abs"%string, NT_ABS);
  ("sqrt"%string, NT_SQRT);
  ("safesqrt"%string, NT_SAFESQRT);
  ("safeSqrt"%string, NT_SAFESQRT);
  ("ceil"%string, NT_CEIL);
  ("floor"%string, NT_FLOOR);
  ("round"%string, NT_ROUND);
  ("exp"%string, NT_EXP);
  ("ln"%string, NT_LN);
  ("loge"%string, NT_LN);
  ("lg"%string, NT_LG);
  ("log10"%string, NT_LG);
  ("lb"%string, NT_LB);
  ("log2"%string, NT_LB);
  ("log"%string, NT_LOG);
  ("sin"%string, NT_SIN);
  ("cos"%string, NT_COS);
  ("tan"%string, NT_TAN);
  ("sec"%string, NT_SEC);
  ("csc"%string, NT_CSC);
  ("cot"%string, NT_COT);
  ("asin"%string, NT_ASIN);
  ("arcsin"%string, NT_ASIN);
  ("acos"%string, NT_ACOS);
  ("arccos"%string, NT_ACOS);
  ("atan"%string, NT_ATAN);
  ("arctan"%string, NT_ATAN);
  ("asec"%string, NT_ASEC);
  ("arcsec"%string, NT_ASEC);
  ("acsc"%string, NT_ACSC);
  ("arccsc"%string, NT_ACSC);
  ("acot"%string, NT_ACOT);
  ("arccot"%string, NT_ACOT);
  ("atan2"%string, NT_ATAN2);
  ("arctan2"%string, NT_ATAN2);
  ("sinh"%string, NT_SINH);
  ("cosh"%string, NT_COSH);
  ("tanh"%string, NT_TANH);
  ("sech"%string, NT_SECH);
  ("csch"%string, NT_CSCH);
  ("coth"%string, NT_COTH);
  ("asinh"%string, NT_ASINH);
  ("arcsinh"%string, NT_ASINH);
  ("acosh"%string, NT_ACOSH);
  ("arccosh"%string, NT_ACOSH);
  ("atanh"%string, NT_ATANH);
  ("arctanh"%string, NT_ATANH);
  ("asech"%string, NT_ASECH);
  ("arcsec"%string, NT_ASECH);
  ("asech"%string, NT_ASECH);
  ("arcsec"%string, NT_ASECH);
  ("acsch"%string, NT_ACSCH);
  ("arccsch"%string, NT_ACSCH);
  ("acoth"%string, NT_ACOTH);
  ("arccoth"%string, NT_ACOTH);
  ("<="%string, NT_LE);
  ("<"%string, NT_LT);
  (">="%string, NT_GE);
  (">"%string, NT_GT);
  ("to_real"%string, NT_TO_REAL);
  ("to_int"%string, NT_TO_INT);
  ("is_int"%string, NT_IS_INT);
  ("is_divisible"%string, NT_IS_DIVISIBLE);
  ("is_prime"%string, NT_IS_PRIME);
  ("is_even"%string, NT_IS_EVEN);
  ("is_odd"%string, NT_IS_ODD);
  ("gcd"%string, NT_GCD);
  ("lcm"%string, NT_LCM);
  ("factorial"%string, NT_FACT);
  ("bvnot"%string, NT_BV_NOT);
  ("bvneg"%string, NT_BV_NEG);
  ("bvand"%string, NT_BV_AND);
  ("bvor"%string, NT_BV_OR);
  ("bvxor"%string, NT_BV_XOR);
  ("bvnand"%string, NT_BV_NAND);
  ("bvnor"%string, NT_BV_NOR);
  ("bvxnor"%string, NT_BV_XNOR);
  ("bvcomp"%string, NT_BV_COMP);
  ("bvadd"%string, NT_BV_ADD);
  ("bvsub"%string, NT_BV_SUB);
  ("bvmul"%string, NT_BV_MUL);
  ("bvudiv"%string, NT_BV_UDIV);
  ("bvurem"%string, NT_BV_UREM);
  ("bvsdiv"%string, NT_BV_SDIV);
  ("bvsrem"%string, NT_BV_SREM);
  ("bvumod"%string, NT_BV_UMOD);
  ("bvsmod"%string, NT_BV_SMOD);
  ("bvshl"%string, NT_BV_SHL);
  ("bvlshr"%string, NT_BV_LSHR);
  ("bvashr"%string, NT_BV_ASHR);
  ("bvult"%string, NT_BV_ULT);
  ("bvule"%string, NT_BV_ULE);
  ("bvugt"%string, NT_BV_UGT);
  ("bvuge"%string, NT_BV_UGE);
  ("bvslt"%string, NT_BV_SLT);
  ("bvsle"%string, NT_BV_SLE);
  ("bvsgt"%string, NT_BV_SGT);
  ("bvsge"%string, NT_BV_SGE);
  ("concat"%string, NT_BV_CONCAT);
  ("bv2nat"%string, NT_BV_TO_NAT);
  ("nat2bv"%string, NT_NAT_TO_BV);
  ("bv2int"%string, NT_BV_TO_INT);
  ("int2bv"%string, NT_INT_TO_BV);
  ("extract"%string, NT_BV_EXTRACT);
  ("repeat"%string, NT_BV_REPEAT);
  ("zero_extend"%string, NT_BV_ZERO_EXT);
  ("sign_extend"%string, NT_BV_SIGN_EXT);
  ("rotate_left"%string, NT_BV_ROTATE_LEFT);
  ("rotate_right"%string, NT_BV_ROTATE_RIGHT);
  ("fp.abs"%string, NT_FP_ABS);
  ("fp.neg"%string, NT_FP_NEG);
  ("fp.add"%string, NT_FP_ADD);
  ("fp.sub"%string, NT_FP_SUB);
  ("fp.mul"%string, NT_FP_MUL);
  ("fp.div"%string, NT_FP_DIV);
  ("fp.fma"%string, NT_FP_FMA);
  ("fp.sqrt"%string, NT_FP_SQRT);
  ("fp.rem"%string, NT_FP_REM);
  ("fp.roundToIntegral"%string, NT_FP_ROUND_TO_INTEGRAL);
  ("fp.min"%string, NT_FP_MIN);
  ("fp.max"%string, NT_FP_MAX);
  ("fp.le"%string, NT_FP_LE);
  ("fp.leq"%string, NT_FP_LE);
  ("fp.lt"%string, NT_FP_LT);
  ("fp.ge"%string, NT_FP_GE);
  ("fp.geq"%string, NT_FP_GE);
  ("fp.gt"%string, NT_FP_GT);
  ("fp.eq"%string, NT_FP_EQ);
  ("fp.="%string, NT_FP_EQ);
  ("fp.=="%string, NT_FP_EQ);
  ("fp.to_ubv"%string, NT_FP_TO_UBV);
  ("fp.toUbv"%string, NT_FP_TO_UBV);
  ("fp.to_sbv"%string, NT_FP_TO_SBV);
  ("fp.toSbv"%string, NT_FP_TO_SBV);
  ("fp.to_real"%string, NT_FP_TO_REAL);
  ("to_fp"%string, NT_FP_TO_FP);
  ("to_fp_unsigned"%string, NT_FP_TO_FP_UNSIGNED);
  ("fp.isNormal"%string, NT_FP_IS_NORMAL);
  ("fp.isSubnormal"%string, NT_FP_IS_SUBNORMAL);
  ("fp.isZero"%string, NT_FP_IS_ZERO);
  ("fp.isInf"%string, NT_FP_IS_INF);
  ("fp.isInfinite"%string, NT_FP_IS_INF);
  ("fp.isNan"%string, NT_FP_IS_NAN);
  ("fp.isNaN"%string, NT_FP_IS_NAN);
  ("fp.isNeg"%string, NT_FP_IS_NEG);
  ("fp.isNegative"%string, NT_FP_IS_NEG);
  ("fp.isPos"%string, NT_FP_IS_POS);
  ("fp.isPositive"%string, NT_FP_IS_POS);
  ("select"%string, NT_SELECT);
  ("store"%string, NT_STORE);
  ("str.len"%string, NT_STR_LEN);
  ("str.++"%string, NT_STR_CONCAT);
  ("str.substr"%string, NT_STR_SUBSTR);
  ("str.prefixof"%string, NT_STR_PREFIXOF);
  ("str.suffixof"%string, NT_STR_SUFFIXOF);
  ("str.indexof"%string, NT_STR_INDEXOF);
  ("str.at"%string, NT_STR_CHARAT);
  ("str.update"%string, NT_STR_UPDATE);
  ("str.replace"%string, NT_STR_REPLACE);
  ("str.replace_all"%string, NT_STR_REPLACE_ALL);
  ("str.replace_re"%string, NT_STR_REPLACE_REG);
  ("str.replace_re_all"%string, NT_STR_REPLACE_REG_ALL);
  ("str.indexof_re"%string, NT_STR_INDEXOF_REG);
  ("str.to_lower"%string, NT_STR_TO_LOWER);
  ("str.to_upper"%string, NT_STR_TO_UPPER);
  ("str.rev"%string, NT_STR_REV);
  ("str.split"%string, NT_STR_SPLIT);
  ("str.split_at"%string, NT_STR_SPLIT_AT);
  ("str.split_rest"%string, NT_STR_SPLIT_REST);
  ("str.num_splits"%string, NT_STR_NUM_SPLITS);
  ("str.split_at_re"%string, NT_STR_SPLIT_AT_RE);
  ("str.split_rest_re"%string, NT_STR_SPLIT_REST_RE);
  ("str.num_splits_re"%string, NT_STR_NUM_SPLITS_RE);
  ("str.<"%string, NT_STR_LT);
  ("str.<="%string, NT_STR_LE);
  ("str.>"%string, NT_STR_GT);
  ("str.>="%string, NT_STR_GE);
  ("str.in_re"%string, NT_STR_IN_REG);
  ("str.contains"%string, NT_STR_CONTAINS);
  ("str.is_digit"%string, NT_STR_IS_DIGIT);
  ("str.from_int"%string, NT_STR_FROM_INT);
  ("str.to_int"%string, NT_STR_TO_INT);
  ("str.to_re"%string, NT_STR_TO_REG);
  ("str.to_code"%string, NT_STR_TO_CODE);
  ("str.from_code"%string, NT_STR_FROM_CODE);
  ("re.++"%string, NT_REG_CONCAT);
  ("re.union"%string, NT_REG_UNION);
  ("re.inter"%string, NT_REG_INTER);
  ("re.diff"%string, NT_REG_DIFF);
  ("re.*"%string, NT_REG_STAR);
  ("re.+"%string, NT_REG_PLUS);
  ("re.?"%string, NT_REG_OPT);
  ("re.opt"%string, NT_REG_OPT);
  ("re.range"%string, NT_REG_RANGE);
  ("re.^"%string, NT_REG_REPEAT);
  ("re.repeat"%string, NT_REG_REPEAT);
  ("re.loop"%string, NT_REG_LOOP);
  ("re.comp"%string, NT_REG_COMPLEMENT);
  ("root-obj"%string, NT_ROOT_OBJ);
  ("root-of-with-interval"%string, NT_ROOT_OF_WITH_INTERVAL)].

(** src/kind.cpp:700-706: getOperKind *)
Fixpoint assoc_str (s : str) (m : list (string * kind)) : option kind :=
  match m with
  | [] => None
  | (k, v) :: m' => if seq_str (L k) s then Some v else assoc_str s m'
  end.
Definition getOperKind (s : str) : kind :=
  match assoc_str s oper_key_map with Some k => k | None => NT_UNKNOWN end.
