From Coq Require Import ZifyBool ZifyNat.
From Verif Require Import Base BVModel BVSpec BVProofs BVProofs2.
Ltac Zify.zify_post_hook ::= Z.div_mod_to_equations.

(** ** signed operations *)
Lemma pow2_half w : (0 < w)%nat -> 2 ^ Z.of_nat w = 2 * 2 ^ (Z.of_nat w - 1).
Proof.
  intros H. replace (Z.of_nat w - 1) with (Z.of_nat (w - 1)) by lia.
  rewrite <- pow2_S. do 2 f_equal. lia.
Qed.
Lemma half_pos w : (0 < w)%nat -> 0 < 2 ^ (Z.of_nat w - 1).
Proof. intros H. apply Z.pow_pos_nonneg; lia. Qed.
Lemma sv_bound w a : (0 < w)%nat -> - 2 ^ (Z.of_nat w - 1) <= sv w a < 2 ^ (Z.of_nat w - 1).
Proof.
  intros H. unfold sv, msb. pose proof (uv_bound w a) as B.
  rewrite (pow2_half w H) in *. destruct (Z.leb_spec (2 ^ (Z.of_nat w - 1)) (uv w a)); lia.
Qed.
Lemma msb_sv w a : (0 < w)%nat -> msb w a = (sv w a <? 0).
Proof.
  intros H. unfold sv. pose proof (uv_bound w a) as B. unfold msb.
  pose proof (pow2_half w H). pose proof (half_pos w H).
  destruct (Z.leb_spec (2 ^ (Z.of_nat w - 1)) (uv w a)); lia.
Qed.
Lemma uv_idem w a : uv w (uv w a) = uv w a.
Proof. unfold uv. apply Z.mod_mod. pose proof (pow2_pos w). lia. Qed.
Lemma msb_uv w a : msb w (uv w a) = msb w a.
Proof. unfold msb. now rewrite uv_idem. Qed.
Lemma sv_uv w a : sv w (uv w a) = sv w a.
Proof. unfold sv. now rewrite msb_uv, uv_idem. Qed.
Lemma uv_small w x : 0 <= x < 2 ^ Z.of_nat w -> uv w x = x.
Proof. intros H. unfold uv. apply Z.mod_small. exact H. Qed.
Lemma uv_sv_eq w a : uv w a = if sv w a <? 0 then sv w a + 2 ^ Z.of_nat w else sv w a.
Proof.
  unfold sv. pose proof (uv_bound w a). destruct (msb w a).
  - destruct (Z.ltb_spec (uv w a - 2 ^ Z.of_nat w) 0); lia.
  - destruct (Z.ltb_spec (uv w a) 0); lia.
Qed.
Lemma sv_mod w a : uv w (sv w a) = uv w a.
Proof.
  unfold sv. destruct (msb w a); [|apply uv_idem]. unfold uv at 1.
  rewrite <- (Z.mod_add _ 1) by (pose proof (pow2_pos w); lia).
  replace (uv w a - 2 ^ Z.of_nat w + 1 * 2 ^ Z.of_nat w) with (uv w a) by lia. apply uv_idem.
Qed.
Lemma negS_neg w a : (0 < w)%nat -> sv w a < 0 -> negS w (uv w a) = - sv w a.
Proof.
  intros Hw H. unfold negS. pose proof (sv_bound w a Hw). pose proof (pow2_half w Hw). pose proof (half_pos w Hw).
  rewrite (uv_sv_eq w a). destruct (Z.ltb_spec (sv w a) 0); [|lia].
  unfold uv. rewrite <- (Z.mod_add _ 1) by (pose proof (pow2_pos w); lia).
  rewrite Z.mod_small; lia.
Qed.
Lemma uv_nonneg w a : 0 <= sv w a -> uv w a = sv w a.
Proof. intros H. rewrite uv_sv_eq. destruct (Z.ltb_spec (sv w a) 0); lia. Qed.
Lemma sv0_uv0 w a : (0 < w)%nat -> (sv w a = 0 <-> uv w a = 0).
Proof.
  intros H. pose proof (uv_bound w a). rewrite (uv_sv_eq w a) in *.
  pose proof (sv_bound w a H). pose proof (pow2_half w H). pose proof (half_pos w H).
  destruct (Z.ltb_spec (sv w a) 0); lia.
Qed.

Lemma truncDiv_ok a b : b <> 0 -> truncDiv a b = Ok (Z.quot a b).
Proof.
  intros H. unfold truncDiv, Idiv.
  destruct (Z.ltb_spec a 0), (Z.ltb_spec b 0); cbn [xorb];
    match goal with |- context [?x =? 0] => destruct (Z.eqb_spec x 0) as [?|_]; [lia|] end;
    cbn [bind]; f_equal.
  - now rewrite Z.quot_opp_opp by lia.
  - rewrite Z.quot_opp_l by lia. lia.
  - rewrite Z.quot_opp_r by lia. lia.
Qed.

Section signed.
Context (d : bool) (w : nat) (a b : Z) (Hw : (0 < w)%nat) (Hf : fits w).
Local Notation A := (sv w a).
Local Notation B := (sv w b).
Local Notation P := (2 ^ Z.of_nat w).

Lemma zlen_n : u64 (zlen (lit w a) - 2) = Z.of_nat w.
Proof. pose proof (fits_two64 w Hf). rewrite zlen_lit, u64_id by lia. lia. Qed.

Lemma quot_bound : B <> 0 -> Z.abs (Z.quot A B) <= Z.abs A.
Proof.
  intros H. rewrite <- Z.quot_abs by assumption. rewrite Z.quot_div_nonneg by lia.
  apply Z.div_le_upper_bound; nia.
Qed.
Lemma sdivS_nz : B <> 0 -> sdivS w (uv w a) (uv w b) = uv w (Z.quot A B).
Proof.
  intros H. unfold sdivS. rewrite !msb_uv, !msb_sv by assumption.
  pose proof (sv_bound w a Hw). pose proof (sv_bound w b Hw).
  pose proof (pow2_half w Hw). pose proof (half_pos w Hw).
  pose proof (quot_bound H) as Q.
  assert (U : forall x y, 0 <= x -> 0 < y -> udivS w x y = x / y).
  { intros x y Hx Hy. unfold udivS. destruct (Z.eqb_spec y 0); [lia|reflexivity]. }
  destruct (Z.ltb_spec A 0), (Z.ltb_spec B 0).
  - rewrite !negS_neg by assumption. rewrite U by lia.
    rewrite <- Z.quot_opp_opp in * by lia. rewrite Z.quot_div_nonneg in * by lia.
    assert (0 <= - A / - B) by (apply Z.div_pos; lia).
    rewrite uv_small by lia. reflexivity.
  - rewrite negS_neg, uv_nonneg by lia. rewrite U by lia. unfold negS. f_equal.
    rewrite <- Z.quot_div_nonneg by lia. rewrite Z.quot_opp_l by lia. lia.
  - rewrite negS_neg, uv_nonneg by lia. rewrite U by lia. unfold negS. f_equal.
    rewrite <- Z.quot_div_nonneg by lia. rewrite Z.quot_opp_r by lia. lia.
  - rewrite !uv_nonneg by lia. rewrite U by lia. rewrite Z.quot_div_nonneg in * by lia.
    assert (0 <= A / B) by (apply Z.div_pos; lia).
    rewrite uv_small by lia. reflexivity.
Qed.
Lemma bvSdiv_nz : uv w b <> 0 ->
  bvSdiv d (lit w a) (lit w b) = Ok (lit w (sdivS w (uv w a) (uv w b))).
Proof.
  intros H. assert (HB : B <> 0) by (rewrite sv0_uv0; assumption).
  unfold bvSdiv. rewrite zlen_n, !bvToInt_ok by assumption. cbn [bind].
  destruct (Z.eqb_spec B 0); [contradiction|]. rewrite sdivS_nz by assumption. rewrite lit_uv.
  pose proof (fits_two64 w Hf). rewrite u64_id by lia. unfold Ishl. rewrite Z.mul_1_l.
  destruct (Z.eqb_spec A (- 2 ^ (Z.of_nat w - 1))) as [E1|E1];
  destruct (Z.eqb_spec B (-1)) as [E2|E2]; cbn [andb].
  - rewrite intToBv_ok by assumption. f_equal. apply lit_cong.
    rewrite E1, E2. change (-1) with (- (1)). rewrite Z.quot_opp_opp by lia. rewrite Z.quot_1_r.
    rewrite <- (Z.mod_add _ 1) by (pose proof (pow2_pos w); lia).
    pose proof (pow2_half w Hw). f_equal. lia.
  - rewrite truncDiv_ok by assumption. cbn [bind]. now rewrite intToBv_ok.
  - rewrite truncDiv_ok by assumption. cbn [bind]. now rewrite intToBv_ok.
  - rewrite truncDiv_ok by assumption. cbn [bind]. now rewrite intToBv_ok.
Qed.
Lemma bvSdiv_z : uv w b = 0 ->
  bvSdiv d (lit w a) (lit w b) =
  Ok (lit w (if Nat.eqb w 1 then 1 else if msb w a then 1 else a)).
Proof.
  intros H. assert (HB : B = 0) by (rewrite sv0_uv0; assumption).
  unfold bvSdiv. rewrite zlen_n, !bvToInt_ok by assumption. cbn [bind].
  destruct (Z.eqb_spec B 0); [|contradiction].
  destruct (Z.eqb_spec (Z.of_nat w) 1), (Nat.eqb_spec w 1); try lia.
  - subst w. reflexivity.
  - rewrite msb_sv by assumption. destruct (A <? 0).
    + now rewrite intToBv_ok.
    + rewrite intToBv_ok by assumption. f_equal. apply lit_cong. apply sv_mod.
Qed.
Lemma sremS_nz : B <> 0 -> sremS w (uv w a) (uv w b) = uv w (Z.rem A B).
Proof.
  intros H. unfold sremS. rewrite !msb_uv, !msb_sv by assumption.
  pose proof (sv_bound w a Hw). pose proof (sv_bound w b Hw).
  pose proof (pow2_half w Hw). pose proof (half_pos w Hw).
  assert (U : forall x y, 0 <= x -> 0 < y -> uremS w x y = Z.rem x y).
  { intros x y Hx Hy. unfold uremS. rewrite Z.rem_mod_nonneg by lia.
    destruct (Z.eqb_spec y 0); [lia|reflexivity]. }
  assert (Rb : forall x y, 0 <= x -> 0 < y -> 0 <= Z.rem x y < y) by (intros; apply Z.rem_bound_pos; lia).
  destruct (Z.ltb_spec A 0), (Z.ltb_spec B 0).
  - rewrite !negS_neg by assumption. rewrite U by lia. unfold negS. f_equal.
    rewrite Z.rem_opp_opp by lia. lia.
  - rewrite negS_neg, uv_nonneg by lia. rewrite U by lia. unfold negS. f_equal.
    rewrite Z.rem_opp_l by lia. lia.
  - rewrite negS_neg, uv_nonneg by lia. rewrite U by lia.
    rewrite Z.rem_opp_r by lia. specialize (Rb A (-B) ltac:(lia) ltac:(lia)).
    rewrite Z.rem_opp_r in Rb by lia. rewrite uv_small; lia.
  - rewrite !uv_nonneg by lia. rewrite U by lia. specialize (Rb A B ltac:(lia) ltac:(lia)).
    rewrite uv_small; lia.
Qed.
Lemma bvSrem_ok : bvSrem d (lit w a) (lit w b) = Ok (lit w (sremS w (uv w a) (uv w b))).
Proof.
  unfold bvSrem. rewrite zlen_n, !bvToInt_ok by assumption. cbn [bind].
  destruct (Z.eqb_spec B 0) as [E|E].
  - apply sv0_uv0 in E; [|assumption]. rewrite E. f_equal.
    unfold sremS. assert (M : msb w 0 = false).
    { rewrite msb_sv by assumption. assert (sv w 0 = 0) as ->; [|reflexivity].
      apply sv0_uv0; [assumption|]. unfold uv. apply Z.mod_0_l. pose proof (pow2_pos w). lia. }
    rewrite M. unfold uremS. simpl. rewrite msb_uv. destruct (msb w a).
    + unfold negS. rewrite lit_uv. apply lit_cong. unfold uv.
      pose proof (pow2_pos w).
      assert (forall x, (- (x mod P)) mod P = (- x) mod P) as G.
      { intros x. rewrite <- Z.sub_0_l, Zminus_mod_idemp_r. now rewrite Z.sub_0_l. }
      rewrite G, Z.opp_involutive, Z.mod_mod by lia. reflexivity.
    + symmetry. apply lit_uv.
  - rewrite truncDiv_ok by assumption. cbn [bind]. rewrite intToBv_ok by assumption.
    rewrite sremS_nz by assumption. rewrite lit_uv. do 2 f_equal.
    pose proof (Z.quot_rem A B E). lia.
Qed.
End signed.
