(** Vocabulary for the theorems about evaluation under a model (C39). *)
From Coq Require Import QArith Qcanon.
From Verif Require Import Base KindModel SortModel TermModel BVSpec Sem SimpModel OpSpec TypedSpec TraverseModel EvalModel.
Open Scope Z_scope.

(** Boolean, integer and bit-vector terms *)
Inductive ety := EB | EI | EV (w : nat).
(** the constants of a type, as the library builds them *)
Inductive islit : ety -> term -> Prop :=
| L_true : islit EB TRUE
| L_false : islit EB FALSE
| L_int z : islit EI (mkConstInt z)
| L_bv w v : (0 < w)%nat -> fits w -> islit (EV w) (T NT_CONST (bvS (Z.of_nat w)) (lit w v) []).
(** the type of a variable (a Real variable may be given an integer value) *)
Definition vty (r : ety) (s : sort) : Prop :=
  match r with
  | EB => s = boolS
  | EI => s = intS \/ s = realS
  | EV w => s = bvS (Z.of_nat w)
  end.
(** operators with their argument types.  Left out because evaluation gets them wrong or does
    not treat them: n-ary implication, div, int2bv, bv2int, concatenation, bit-vector
    subtraction and division, extraction, extension, rotation (see PropsEval.v), and the
    operators that constant folding gets wrong. *)
Inductive esig : kind -> ety -> list ety -> Prop :=
| E_not : esig NT_NOT EB [EB]
| E_conn k n : In k [NT_AND; NT_OR; NT_XOR] -> (2 <= n)%nat -> esig k EB (repeat EB n)
| E_imp : esig NT_IMPLIES EB [EB; EB]
| E_ite r : esig NT_ITE r [EB; r; r]
| E_eq k r n : In k [NT_EQ; NT_DISTINCT] -> (2 <= n)%nat -> esig k EB (repeat r n)
| E_cmp k : In k arith_comp_kinds -> esig k EB [EI; EI]
| E_arith k n : In k [NT_ADD; NT_MUL; NT_IAND; NT_SUB] -> (2 <= n)%nat -> esig k EI (repeat EI n)
| E_int1 k : In k [NT_NEG; NT_ABS; NT_CEIL; NT_FLOOR; NT_ROUND; NT_TO_INT] -> esig k EI [EI]
| E_prop k : In k [NT_IS_INT; NT_IS_EVEN; NT_IS_ODD] -> esig k EB [EI]
| E_bv1 k w : In k [NT_BV_NOT; NT_BV_NEG] -> esig k (EV w) [EV w]
| E_bvn k w n : In k [NT_BV_AND; NT_BV_OR; NT_BV_XOR; NT_BV_NAND; NT_BV_NOR; NT_BV_XNOR; NT_BV_ADD; NT_BV_MUL] ->
    (2 <= n)%nat -> esig k (EV w) (repeat (EV w) n)
| E_bvcmp k w : In k bv_comp_kinds -> esig k EB [EV w; EV w]
| E_bvnat w : esig NT_BV_TO_NAT EI [EV w].
(** well-sorted terms in which no application has only constant arguments (the constructors
    fold those) *)
Inductive et : ety -> term -> Prop :=
| T_var k s n r : In k [NT_VAR; NT_TEMP_VAR; NT_QUANT_VAR; NT_PLACEHOLDER_VAR] -> vty r s -> et r (T k s n [])
| T_lit r v : islit r v -> et r v
| T_app k s n r rs ch : esig k r rs -> Forall2 et rs ch -> Exists (fun x => isConst x = false) ch -> et r (T k s n ch).

(** the model gives every variable of the term a constant of its type *)
Definition assigns (m : model) (t : term) : Prop :=
  forall x r, subterm x t -> isVar x = true -> et r x -> exists v, m_get x m = Ok v /\ islit r v.
(** the environment gives the variables of the term the values they have in the model *)
Definition agrees (I : interp) (e : env) (m : model) (t : term) : Prop :=
  forall x v, subterm x t -> isVar x = true -> m_get x m = Ok v -> isUnknown v = false -> eval I e x = eval I e v.

(** ** partial assignments
    Boolean and arithmetic terms; the operators left out are the ones whose constructors are
    wrong on them (C19_not_nary_refuted, C20_eq_nary_true_refuted, C20_distinct_nary_false_refuted:
    exclusive or, equality of Booleans, distinct). *)
Inductive psig : kind -> cl -> list cl -> Prop :=
| P_not : psig NT_NOT CB [CB]
| P_conn k n : In k [NT_AND; NT_OR] -> (2 <= n)%nat -> psig k CB (repeat CB n)
| P_imp : psig NT_IMPLIES CB [CB; CB]
| P_ite r : r <> CL -> psig NT_ITE r [CB; r; r]
| P_eq r n : r = CI \/ r = CR -> (2 <= n)%nat -> psig NT_EQ CB (repeat r n)
| P_cmp k : In k arith_comp_kinds -> psig k CB [CR; CR]
| P_arith k r n : In k [NT_ADD; NT_MUL; NT_SUB] -> r = CI \/ r = CR -> (2 <= n)%nat -> psig k r (repeat r n)
| P_neg r : r = CI \/ r = CR -> psig NT_NEG r [r].
Inductive pt : cl -> term -> Prop :=
| Q_var k s n r : is_leaf_var k = true -> vsort r s -> pt r (T k s n [])
| Q_true : pt CB TRUE
| Q_false : pt CB FALSE
| Q_int s z : s = intS \/ s = intorealS -> pt CI (T NT_CONST s (Idec z) [])
| Q_app k s n r rs ch : psig k r rs -> rsort r s -> Forall2 pt rs ch -> pt r (T k s n ch)
| Q_uf s n r rs ch : ch <> [] -> ~ In CL rs -> vsort r s -> Forall2 wt rs ch -> pt r (T NT_UF_APPLY s n ch)
| Q_sub t : pt CI t -> pt CR t.
(** the model gives each variable nothing, or a well-sorted term of its sort *)
Definition sorted_model (m : model) (t : term) : Prop :=
  forall x r v, subterm x t -> isVar x = true -> wt r x -> m_get x m = Ok v -> isUnknown v = false -> wt r v.
