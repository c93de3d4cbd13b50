(** C92: powers with an infinite exponent. *)
From Coq Require Import QArith Lia ZifyBool.
From Verif Require Import Base NumModel RoundModel FunModel IopModel.
Open Scope Z_scope.

(** the closed interval of two integers *)
Definition zi (x y : Z) : interval := Itv (NI x) (NI y) true true.
Ltac dec_ifs := repeat match goal with |- context [if ?b then _ else _] => let E := fresh in destruct b eqn:E end.
(** bases above 1: the power is infinite, resp. between 0 and the least positive real; bases from 0 to 1: between 0 and 1, resp. from 1
    (from infinity when there is only 0); a base below 0: an error *)
Theorem C92_pow_infinite_partial M x y : x <= y ->
  (1 < x -> i_pow M (zi x y) posInf = Ok (Itv posInf posInf false false) /\
            i_pow M (zi x y) (NR (Inf true)) = Ok (Itv (NI 0) (n_above M (NI 0)) false false)) /\
  (x = 0 -> y = 1 -> i_pow M (zi x y) posInf = Ok (zi 0 1)) /\
  (0 <= x -> y = 1 -> i_pow M (zi x y) (NR (Inf true)) = Ok (Itv (NI 1) posInf true false)) /\
  (x = 0 -> y = 0 -> i_pow M (zi x y) (NR (Inf true)) = Ok (Itv posInf posInf false false)) /\
  (x < 0 -> i_pow M (zi x y) posInf = Throw DomainError /\ i_pow M (zi x y) (NR (Inf true)) = Throw DomainError).
Proof.
  intros L. unfold i_pow.
  assert (E : isEmptyI rn128 (zi x y) = false) by (unfold zi, isEmptyI, n_gt, n_le, n_eq; cbn [lo hi lc rc negb orb]; lia).
  rewrite E. cbn [n_isInf n_isNegInf posInf]. unfold i_powInf, zi, n_gt, n_ge, n_lt, n_le, n_eq. cbn [lo hi negb].
  repeat match goal with |- _ /\ _ => split end; intros;
  repeat match goal with H : _ /\ _ |- _ => destruct H end; try split; dec_ifs; try reflexivity; try lia; subst; try reflexivity; try lia.
Qed.
Print Assumptions C92_pow_infinite_partial.
Example C92_pow_infinite_case M : i_pow M (zi (-2) 3) posInf = Throw DomainError /\ i_pow M (zi 2 3) posInf = Ok (Itv posInf posInf false false).
Proof. split; reflexivity. Qed.
(** the powers of 0 are 0 and those of 2 tend to 0 with the exponent to minus infinity; the result leaves 0 out.  The result for [1,1]
    is that for [0,0] *)
Theorem C92_pow_infinite_refuted M : exists b, i_pow M (zi 0 0) posInf = Ok b /\ i_pow M (zi 2 2) (NR (Inf true)) = Ok b /\ i_pow M (zi 1 1) posInf = Ok b /\
  containsI rn128 b (NI 0) = false.
Proof. exists (Itv (NI 0) (n_above M (NI 0)) false false). repeat split. Qed.
Print Assumptions C92_pow_infinite_refuted.
