(** Vocabulary for the theorems about the normalisation of comparisons (C41). *)
From Coq Require Import QArith Qcanon.
From Verif Require Import Base KindModel SortModel TermModel Sem SimpModel OpModel OpSpec TypedSpec.
Open Scope Z_scope.

(** a numeric argument: a well-sorted term that is not a (kept) let, its variable, a
    parameter of a function definition or a bv2nat, which the code does not take for arithmetic terms *)
Definition arith_arg (t : term) : Prop := wt CR t /\ ~ In (t_kind t) [NT_LET_CHAIN; NT_LET_BIND_VAR; NT_FUNC_PARAM; NT_BV_TO_NAT].
(** Boolean terms: connectives over comparisons with two arguments *)
Inductive nt : term -> Prop :=
| N_var k n : is_leaf_var k = true -> nt (T k boolS n [])
| N_true : nt TRUE
| N_false : nt FALSE
| N_not n p : nt p -> nt (T NT_NOT boolS n [p])
| N_conn k n ps : In k [NT_AND; NT_OR; NT_XOR; NT_DISTINCT] -> (2 <= length ps)%nat -> Forall nt ps -> nt (T k boolS n ps)
| N_imp n ps : (2 <= length ps)%nat -> length ps <> 3%nat -> Forall nt ps -> nt (T NT_IMPLIES boolS n ps)
| N_iff n a b : nt a -> nt b -> nt (T NT_EQ boolS n [a; b])
| N_ite n a b d : nt a -> nt b -> nt d -> nt (T NT_ITE boolS n [a; b; d])
| N_uf n ps : ps <> [] -> Forall nt ps -> nt (T NT_UF_APPLY boolS n ps)
| N_cmp k n a b : In k (NT_EQ :: NT_DISTINCT :: arith_comp_kinds) -> arith_arg a -> arith_arg b -> nt (T k boolS n [a; b]).

(** normalised: below the connectives, one side of each comparison is a constant, the right one
    in inequalities *)
Inductive normalised : term -> Prop :=
| F_leaf k s n : normalised (T k s n [])
| F_le k s n a b : In k arith_comp_kinds -> isConst b = true -> normalised (T k s n [a; b])
| F_eq k s n a b : In k [NT_EQ; NT_DISTINCT] -> isConst a = true \/ isConst b = true -> normalised (T k s n [a; b])
| F_conn k s n ps : In k [NT_NOT; NT_AND; NT_OR; NT_XOR; NT_IMPLIES; NT_EQ; NT_DISTINCT; NT_ITE; NT_UF_APPLY] ->
    Forall (fun p => normalised p /\ t_sort p = boolS) ps -> normalised (T k s n ps).
