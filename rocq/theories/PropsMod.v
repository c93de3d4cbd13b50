(** C38: Interval::mod. *)
From Coq Require Import QArith Qround Qabs ZArith List Bool Lia.
From Verif Require Import Base NumModel RoundModel NumSpec NumProofs NumMore PropsNum.
Open Scope Z_scope.
Local Notation R := rn128.

(** the integers of an interval with integer bounds *)
Lemma zmem p q c d x : member (Itv (NI p) (NI q) c d) (inject_Z x) <-> (if c then p <= x else p < x) /\ (if d then x <= q else x < q).
Proof.
  unfold member, above, below. cbn [lo hi lc rc val]. unfold leX, ltX, eqX.
  destruct c, d; rewrite <- ?Zlt_Qlt, ?inject_Z_injective; (split; intros (A & B); split; lia).
Qed.
Lemma not_empty p q c d x : member (Itv (NI p) (NI q) c d) (inject_Z x) -> isEmptyI R (Itv (NI p) (NI q) c d) = false.
Proof.
  intros M. apply zmem in M. unfold isEmptyI, n_gt. cbn [lo hi lc rc n_le n_eq]. destruct (Z.leb_spec p q); [|destruct c, d; lia]. cbn [negb orb].
  destruct (Z.eqb_spec p q); [|reflexivity]. destruct c, d; try reflexivity; lia.
Qed.
(** x mod v for a non-negative interval with integer bounds and a positive constant: in the result, which has
    no integers but possible remainders *)
Theorem C38_mod_const_partial p q c d v x : 0 <= p -> 0 < v -> c = true \/ p <= v - 1 -> member (Itv (NI p) (NI q) c d) (inject_Z x) ->
  exists u, i_modN R (Itv (NI p) (NI q) c d) (NI v) = Ok u /\ member u (inject_Z (x mod v)) /\ forall y, member u (inject_Z y) -> 0 <= y < v.
Proof.
  intros Hp Hv Hc M. pose proof (not_empty p q c d x M) as E. apply zmem in M. unfold i_modN. rewrite E. cbn [n_eq n_lt n_abs n_sub lo hi lc rc]. unfold n_gt. cbn [n_le].
  destruct (Z.eqb_spec v 0); [lia|]. destruct (Z.ltb_spec v 0); [lia|]. rewrite Z.abs_eq by lia. pose proof (Z.mod_pos_bound x v Hv) as B. assert (X : 0 <= x) by (destruct c; lia).
  pose proof (Z.mod_le x v X Hv) as B'. eexists. split; [reflexivity|].
  destruct (Z.leb_spec (v - 1) q); cbn [negb].
  - destruct (Z.ltb_spec (v - 1) p).
    + destruct Hc as [ -> | ?]; [|lia]. split; [apply zmem; lia|]. intros y Y. apply zmem in Y. lia.
    + split; [apply zmem; lia|]. intros y Y. apply zmem in Y. lia.
  - split; [apply zmem; destruct d; lia|]. intros y Y. apply zmem in Y. destruct d; lia.
Qed.
(** mod of two intervals: the divisor may be negative, not zero *)
Theorem C38_mod_partial p q c d p' q' c' d' x y : 0 <= p -> ~ member (Itv (NI p') (NI q') c' d') 0 ->
  member (Itv (NI p) (NI q) c d) (inject_Z x) -> member (Itv (NI p') (NI q') c' d') (inject_Z y) ->
  exists u, i_mod R (Itv (NI p) (NI q) c d) (Itv (NI p') (NI q') c' d') = Ok u /\ member u (inject_Z (x mod Z.abs y)) /\
    forall z, member u (inject_Z z) -> 0 <= z < Z.max (Z.abs p') (Z.abs q').
Proof.
  intros Hp H0 M M'. pose proof (not_empty _ _ _ _ _ M) as E. pose proof (not_empty _ _ _ _ _ M') as E'. apply zmem in M. apply zmem in M'.
  assert (N0 : ~ ((if c' then p' <= 0 else p' < 0) /\ (if d' then 0 <= q' else 0 < q'))) by (intros K; apply H0; apply (zmem p' q' c' d' 0); exact K). clear H0.
  assert (Y0 : y <> 0) by (intros ->; tauto).
  unfold i_mod. rewrite E, E'. cbn [orb].
  assert (Z0 : has0 (R) (Itv (NI p') (NI q') c' d') = false).
  { unfold has0, n_gt. cbn [lo hi lc rc n_lt n_le n_eq]. destruct (Z.ltb_spec p' 0), (Z.leb_spec q' 0), (Z.eqb_spec p' 0), (Z.eqb_spec q' 0), c', d'; cbn; try reflexivity; exfalso; try lia; apply N0; lia. }
  rewrite Z0. cbn [lo hi lc rc n_abs]. pose proof (Z.mod_pos_bound x (Z.abs y) ltac:(lia)) as B. assert (X : 0 <= x) by (destruct c; lia).
  pose proof (Z.mod_le x (Z.abs y) X ltac:(lia)) as B'.
  assert (U : n_max R (NI (Z.abs p')) (NI (Z.abs q')) = NI (Z.max (Z.abs p') (Z.abs q'))).
  { unfold n_max. cbn [n_lt]. destruct (Z.ltb_spec (Z.abs p') (Z.abs q')); f_equal; lia. }
  rewrite U. cbn [n_sub n_lt]. assert (W : Z.abs y <= Z.max (Z.abs p') (Z.abs q')) by (destruct c', d'; lia).
  eexists. split; [reflexivity|]. destruct (Z.ltb_spec q (Z.max (Z.abs p') (Z.abs q') - 1)).
  - split; [apply zmem; destruct d; lia|]. intros z K. apply zmem in K. destruct d; lia.
  - split; [apply zmem; lia|]. intros z K. apply zmem in K. lia.
Qed.
Example C38_mod_case : exists u, i_mod R (iv 5 9) (iv (-4) (-2)) = Ok u /\ member u (inject_Z (7 mod 4)) /\ forall z, member u (inject_Z z) -> 0 <= z < 4.
Proof. refine (C38_mod_partial 5 9 true true (-4) (-2) true true 7 (-4) _ _ _ _); [lia|intros K; apply (zmem (-4) (-2) true true 0) in K; lia|apply zmem; lia|apply zmem; lia]. Qed.
(** an open lower end makes the upper end of the result open: a remainder is lost *)
Theorem C38_mod_refuted : let a := Itv (NI 4) (NI 7) false true in member a 5 /\ exists u, i_modN R a (NI 3) = Ok u /\ ~ member u (inject_Z (5 mod 3)).
Proof. split; [apply (zmem 4 7 false true 5); lia|]. eexists. split; [vm_compute; reflexivity|]. intros K. apply (zmem 0 2 true false (5 mod 3)) in K. change (5 mod 3) with 2 in K. lia. Qed.
Print Assumptions C38_mod_const_partial.
Print Assumptions C38_mod_partial.
Print Assumptions C38_mod_refuted.
