(** Specification vocabulary for kinds, sorts and nodes. *)
From Verif Require Import Base KindModel SortModel DagModel Sem.

(** A comparison of two values by kind: what the kind says about them. *)
Definition rel2 (k : kind) (a b : value) (r : bool) : Prop := op_sem k [a; b] = Some (VBool r).

(** Comparison kinds other than floating point. *)
Definition cmp_kinds : list kind :=
  [NT_EQ; NT_DISTINCT; NT_EQ_BOOL; NT_DISTINCT_BOOL; NT_EQ_OTHER; NT_DISTINCT_OTHER;
   NT_LE; NT_LT; NT_GE; NT_GT;
   NT_BV_ULT; NT_BV_UGT; NT_BV_ULE; NT_BV_UGE; NT_BV_SLT; NT_BV_SGT; NT_BV_SLE; NT_BV_SGE;
   NT_STR_LT; NT_STR_GT; NT_STR_LE; NT_STR_GE].
Definition fp_cmp_kinds : list kind := [NT_FP_LE; NT_FP_LT; NT_FP_GE; NT_FP_GT].
Definition notNaN (v : value) : Prop := fpval v <> FNaN.

