(** The number of MPFR for pi, at 128 bits, is below pi; so the interval the library uses for "every angle" does not
    contain pi itself. *)
From Coq Require Import Reals QArith Qreals Qround Qabs ZArith List Bool Lia Lra Machin.
From Verif Require Import Base KindModel NumModel RoundModel NumSpec NumProofs NumMore FunModel FunSpec FunProofs FunProofs2 FunProofs3 FunProofs4 FunProofs5 FunProofs6 PropsNum PropsFun IopModel PropsIop PropsPow Atan2Model PropsAtan2.
Open Scope R_scope.
Local Notation r := rn128.
Local Notation PI := Rtrigo1.PI.

(** ** pi to 128 bits, by Machin's series *)
Definition odd_ (n : nat) : positive := match (2 * Z.of_nat n + 1)%Z with Zpos p => p | _ => 1%positive end.
Definition tq (n : nat) : Q := (2 * (1 # (3 ^ odd_ n * odd_ n)) + (1 # (7 ^ odd_ n * odd_ n)))%Q.
Fixpoint sq_ (n : nat) : Q :=
  match n with O => Qred (tq 0) | S m => Qred (sq_ m + (if Nat.even (S m) then tq (S m) else - tq (S m))) end.
Lemma odd_Z n : Zpos (odd_ n) = Z.of_nat (2 * n + 1).
Proof. unfold odd_. destruct (2 * Z.of_nat n + 1)%Z eqn:E; lia. Qed.
Lemma term_Q (b : positive) n : Q2R (1 # (b ^ odd_ n * odd_ n)) = Ratan_seq (/ IZR (Zpos b)) n.
Proof.
  unfold Ratan_seq, Q2R. cbn [Qnum Qden]. rewrite Pos2Z.inj_mul, Pos2Z.inj_pow, odd_Z, mult_IZR, <- pow_IZR, <- INR_IZR_INZ, pow_inv.
  field. split; [apply pow_nonzero; apply IZR_neq; lia|apply not_0_INR; lia].
Qed.
Lemma tq_R n : Q2R (tq n) = PI_2_3_7_tg n.
Proof. unfold tq, PI_2_3_7_tg. rewrite Q2R_plus, Q2R_mult, !term_Q. replace (Q2R 2) with 2 by (unfold Q2R; cbn; lra). reflexivity. Qed.
Lemma sign_R n : (-1) ^ n = if Nat.even n then 1 else -1.
Proof.
  induction n as [|n IH]; [reflexivity|]. rewrite Nat.even_succ, <- Nat.negb_even. cbn [pow]. rewrite IH. destruct (Nat.even n); cbn [negb]; lra.
Qed.
Lemma sq_R n : Q2R (sq_ n) = sum_f_R0 (tg_alt PI_2_3_7_tg) n.
Proof.
  induction n as [|n IH].
  - cbn [sq_ sum_f_R0]. rewrite (Qeq_eqR _ _ (Qred_correct _)), tq_R. unfold tg_alt. cbn [pow]. lra.
  - cbn [sum_f_R0]. rewrite <- IH. change (sq_ (S n)) with (Qred (sq_ n + (if Nat.even (S n) then tq (S n) else - tq (S n)))).
    rewrite (Qeq_eqR _ _ (Qred_correct _)), Q2R_plus. unfold tg_alt. rewrite sign_R, <- tq_R. destruct (Nat.even (S n)); [lra|]. rewrite Q2R_opp. lra.
Qed.
Lemma pi_sums : Q2R (sq_ 45) <= PI / 4 <= Q2R (sq_ 44).
Proof. rewrite !sq_R. exact (PI_2_3_7_ineq 22). Qed.
(** the 128 leading bits *)
Definition k_pi : Z := 267257146016241686964920093290467695825.
Lemma pi_bits : Q2R (inject_Z k_pi * p2 (-126)) < PI < Q2R (inject_Z (2 * k_pi + 1) * p2 (-127)).
Proof.
  pose proof pi_sums as (L & H). assert (E4 : Q2R (1 # 4) = / 4) by (unfold Q2R; cbn; lra).
  assert (A : Q2R (inject_Z k_pi * p2 (-126) * (1 # 4)) < Q2R (sq_ 45)) by (apply Qlt_Rlt; vm_compute; reflexivity).
  assert (B : Q2R (sq_ 44) < Q2R (inject_Z (2 * k_pi + 1) * p2 (-127) * (1 # 4))) by (apply Qlt_Rlt; vm_compute; reflexivity).
  rewrite (Q2R_mult _ (1 # 4)), E4 in A. rewrite (Q2R_mult _ (1 # 4)), E4 in B. lra.
Qed.
Lemma repr_kpi : repr 128 (inject_Z k_pi * p2 (-126)).
Proof. exists k_pi, (-126)%Z. split; [vm_compute; discriminate|reflexivity]. Qed.
(** correct rounding of pi to 128 bits gives exactly this number, which is below pi *)
Theorem C70_pi M : correct M -> Q2R (m_pi M) = IZR 267257146016241686964920093290467695825 / 2 ^ 126 /\ Q2R (m_pi M) < PI.
Proof.
  intros C. pose proof (ok_pi M C) as (R1 & N). pose proof pi_bits as (L & H). pose proof (N _ repr_kpi) as X.
  assert (E1 : Q2R (inject_Z k_pi * p2 (-126)) = IZR k_pi / 2 ^ 126).
  { rewrite Q2R_mult, Q2R_Z. unfold Rdiv. f_equal. unfold Q2R, p2. cbn -[IZR pow]. rewrite Rmult_1_l. f_equal. rewrite (pow_IZR 2 126). reflexivity. }
  assert (E2 : Q2R (inject_Z (2 * k_pi + 1) * p2 (-127)) = Q2R (inject_Z k_pi * p2 (-126)) + Q2R (p2 (-127))).
  { rewrite !Q2R_mult, !Q2R_Z, plus_IZR, mult_IZR. replace (Q2R (p2 (-126))) with (2 * Q2R (p2 (-127))); [ring|].
    replace 2 with (Q2R 2) by (unfold Q2R; cbn; lra). rewrite <- Q2R_mult. apply Qeq_eqR. reflexivity. }
  assert (P : 0 < Q2R (p2 (-127))) by (replace 0 with (Q2R 0) by (unfold Q2R; cbn; lra); apply Qlt_Rlt; reflexivity).
  assert (G : (p2 1 <= m_pi M)%Q).
  { apply Rle_Qle. replace (Q2R (p2 1)) with 2 by (unfold Q2R; cbn; lra). pose proof (pi_around M C) as (_ & q & V & B). cbn in V. injection V as <-. replace (Q2R 3) with 3 in B by (unfold Q2R; cbn; lra). lra. }
  destruct (on_grid (m_pi M) 1 R1 G) as (j & Ej). change (1 - 127)%Z with (-126)%Z in Ej. pose proof (Qeq_eqR _ _ Ej) as EJ.
  assert (EV : forall z, Q2R (inject_Z z * p2 (-126)) = IZR z * (2 * Q2R (p2 (-127)))).
  { intros z. rewrite Q2R_mult, Q2R_Z. f_equal. replace 2 with (Q2R 2) by (unfold Q2R; cbn; lra). rewrite <- Q2R_mult. apply Qeq_eqR. reflexivity. }
  rewrite E2 in H. rewrite EV in EJ. rewrite (EV k_pi) in *. 
  set (u := Q2R (p2 (-127))) in *. set (m := Q2R (m_pi M)) in *. clearbody u m.
  assert (J : j = k_pi).
  { assert (K : IZR k_pi * (2 * u) - 2 * u < IZR j * (2 * u) < IZR k_pi * (2 * u) + 2 * u).
    { unfold Rabs in X. repeat match type of X with context [Rcase_abs ?e] => destruct (Rcase_abs e) end; lra. }
    assert (K1 : IZR (k_pi - 1) < IZR j) by (rewrite minus_IZR; apply (Rmult_lt_reg_r (2 * u)); lra).
    assert (K2 : IZR j < IZR (k_pi + 1)) by (rewrite plus_IZR; apply (Rmult_lt_reg_r (2 * u)); lra).
    apply lt_IZR in K1, K2. lia. }
  rewrite J in EJ. split; [|lra]. rewrite EJ. exact E1.
Qed.
Print Assumptions C70_pi.
(** so the interval that stands for all angles does not contain the angle of the negative half axis *)
Theorem C92_atan2_full_refuted M A : correct M ->
  let a := iv (-1) 1 in let b := iv (-1) 1 in
  i_atan2N M A a (NI (-1)) = Ok (Itv (npi M) (n_pi M) true true) /\ i_atan2 M A a b = Ok (Itv (npi M) (n_pi M) true true) /\
  memberR a 0 /\ memberR b (-1) /\ angle 0 (-1) = PI /\ ~ memberR (Itv (npi M) (n_pi M) true true) PI.
Proof.
  intros C. cbn zeta. destruct (C70_pi M C) as (_ & L). split; [reflexivity|]. split; [reflexivity|].
  split; [split; cbn; unfold Q2R; cbn; lra|]. split; [split; cbn; unfold Q2R; cbn; lra|]. split; [apply angle_half; lra|].
  intros (_ & H). cbn in H. lra.
Qed.
Print Assumptions C92_atan2_full_refuted.
