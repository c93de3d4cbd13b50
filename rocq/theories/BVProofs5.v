(** Refutation lemmas and corollaries for the bit-vector properties. *)
From Coq Require Import ZifyBool ZifyNat.
From Verif Require Import Base BVModel BVSpec BVProofs BVProofs2 BVProofs3 BVProofs4.
Ltac Zify.zify_post_hook ::= Z.div_mod_to_equations.

Lemma lit_eq_iff w a b : lit w a = lit w b <-> uv w a = uv w b.
Proof. split; [apply lit_inj|apply lit_cong]. Qed.
Lemma Ok_lit_neq w a b : uv w a <> uv w b -> @Ok str (lit w a) <> Ok (lit w b).
Proof. intros H E. apply H. apply lit_inj. congruence. Qed.

(* a xor 2a = 0 only for a = 0 (mod 2^w) *)
Lemma lxor_double_zero w : forall a, uv w (Z.lxor a (2 * a)) = 0 -> uv w a = 0.
Proof.
  induction w as [|w IH]; intros a H.
  - unfold uv. simpl. apply Z.mod_1_r.
  - rewrite uv_S in *. pose proof (uv_bound w (Z.lxor a (2 * a))). pose proof (pow2_pos w).
    assert (Hx0 : uv w (Z.lxor a (2 * a)) = 0) by (destruct (Z.testbit (Z.lxor a (2 * a)) _); cbn [Z.b2z] in *; lia).
    pose proof (IH a Hx0) as Hz. rewrite Hz.
    assert (Hb : Z.testbit (Z.lxor a (2 * a)) (Z.of_nat w) = false).
    { destruct (Z.testbit (Z.lxor a (2 * a)) _); cbn [Z.b2z] in *; [lia|reflexivity]. }
    rewrite Z.lxor_spec in Hb.
    assert (Hb2 : Z.testbit (2 * a) (Z.of_nat w) = false).
    { destruct w as [|w]; [change (Z.of_nat 0) with 0; rewrite Z.bit0_odd, Z.odd_mul; reflexivity|].
      replace (Z.of_nat (S w)) with (Z.succ (Z.of_nat w)) by lia. rewrite Z.testbit_even_succ by lia.
      rewrite <- (Z.mod_pow2_bits_low a (Z.of_nat (S w))) by lia. fold (uv (S w) a). rewrite Hz.
      apply Z.bits_0. }
    rewrite Hb2 in Hb. rewrite Bool.xorb_false_r in Hb. rewrite Hb. simpl. lia.
Qed.
Lemma bvSub_self_wrong d w a : fits w -> uv w a <> 0 ->
  bvSub d (lit w a) (lit w a) <> Ok (lit w (a - a)).
Proof.
  intros Hf Ha. rewrite bvSub_self by assumption. apply Ok_lit_neq.
  rewrite Z.sub_diag. intros E. apply Ha. apply lxor_double_zero. rewrite E.
  unfold uv. apply Z.mod_0_l. pose proof (pow2_pos w). lia.
Qed.
Lemma bvSub_zero_wrong d w a : fits w -> uv w a <> 0 ->
  bvSub d (lit w a) (lit w 0) <> Ok (lit w (a - 0)).
Proof.
  intros Hf Ha. rewrite bvSub_zero by assumption. apply Ok_lit_neq. rewrite Z.sub_0_r.
  intros E. apply Ha. rewrite <- E. unfold uv. apply Z.mod_0_l. pose proof (pow2_pos w). lia.
Qed.
Lemma bvUdiv_iff d w a b : fits w -> uv w b <> 0 ->
  (bvUdiv d (lit w a) (lit w b) = Ok (lit w (udivS w (uv w a) (uv w b))) <-> uv w a < 2 * uv w b).
Proof.
  intros Hf Hb. rewrite bvUdiv_nz by assumption. unfold udivS.
  destruct (Z.eqb_spec (uv w b) 0); [contradiction|].
  pose proof (uv_bound w a) as Ba. pose proof (uv_bound w b) as Bb.
  assert (Hq : 0 <= uv w a / uv w b < 2 ^ Z.of_nat w).
  { split; [apply Z.div_pos; lia|]. apply Z.div_lt_upper_bound; nia. }
  assert (Hr : uv w (if uv w b <=? uv w a then 1 else 0) = if uv w b <=? uv w a then 1 else 0).
  { apply uv_small. destruct (uv w b <=? uv w a); lia. }
  transitivity (uv w (if uv w b <=? uv w a then 1 else 0) = uv w (uv w a / uv w b)).
  { split; [intros E; apply lit_inj; congruence|intros E; f_equal; now apply lit_cong]. }
  rewrite Hr, (uv_small w (_ / _)) by assumption.
  destruct (Z.leb_spec (uv w b) (uv w a)); split; intros H1.
  - assert (uv w a = uv w b * 1 + uv w a mod uv w b) by (rewrite H1; apply Z.div_mod; lia).
    pose proof (Z.mod_pos_bound (uv w a) (uv w b) ltac:(lia)). lia.
  - apply Z.div_unique with (r := uv w a - uv w b); lia.
  - lia.
  - symmetry. apply Z.div_small. lia.
Qed.
Lemma bvUdiv_zero d w a b : fits w -> uv w b = 0 ->
  bvUdiv d (lit w a) (lit w b) = Ok (lit w (udivS w (uv w a) (uv w b))).
Proof. intros. rewrite bvUdiv_z by assumption. unfold udivS. now rewrite H0. Qed.
Lemma bvUrem_zero d w a b : uv w b = 0 ->
  bvUrem d (lit w a) (lit w b) = Ok (lit w (uremS w (uv w a) (uv w b))).
Proof. intros. rewrite bvUrem_z by assumption. unfold uremS. rewrite H. simpl. now rewrite lit_uv. Qed.
Lemma bvUrem_small_wrong d w a b : fits w -> 0 < uv w a < uv w b ->
  bvUrem d (lit w a) (lit w b) <> Ok (lit w (uremS w (uv w a) (uv w b))).
Proof.
  intros Hf H. rewrite bvUrem_nz by (assumption || lia). destruct (Z.leb_spec (uv w b) (uv w a)); [lia|].
  apply Ok_lit_neq. unfold uremS. destruct (Z.eqb_spec (uv w b) 0); [lia|].
  rewrite Z.mod_small, uv_idem by lia. intros E. assert (uv w a = 0); [|lia].
  rewrite <- E. unfold uv. apply Z.mod_0_l. pose proof (pow2_pos w). lia.
Qed.
Lemma sdivS_z w a : (0 < w)%nat -> sdivS w (uv w a) 0 = if msb w a then 1 else 2 ^ Z.of_nat w - 1.
Proof.
  intros Hw. unfold sdivS. rewrite msb_uv.
  assert (M : msb w 0 = false).
  { unfold msb, uv. rewrite Z.mod_0_l by (pose proof (pow2_pos w); lia).
    pose proof (half_pos w Hw). lia. }
  rewrite M. unfold udivS. simpl. destruct (msb w a); [|reflexivity].
  unfold negS, uv. pose proof (pow2_half w Hw). pose proof (half_pos w Hw).
  replace (- (2 ^ Z.of_nat w - 1)) with (1 + (-1) * 2 ^ Z.of_nat w) by lia.
  rewrite Z.mod_add by lia. apply Z.mod_small. lia.
Qed.
(** exactly when bvsdiv folds correctly *)
Lemma bvSdiv_iff d w a b : (0 < w)%nat -> fits w ->
  (bvSdiv d (lit w a) (lit w b) = Ok (lit w (sdivS w (uv w a) (uv w b)))
   <-> (uv w b <> 0 \/ msb w a = true \/ w = 1%nat)).
Proof.
  intros Hw Hf. destruct (Z.eq_dec (uv w b) 0) as [E|E].
  2:{ split; [now left|]. intros _. now apply bvSdiv_nz. }
  rewrite bvSdiv_z by assumption. rewrite E, sdivS_z by assumption.
  destruct (Nat.eqb_spec w 1) as [->|N].
  - split; [auto|]. intros _. destruct (msb 1 a); reflexivity.
  - destruct (msb w a) eqn:M; [split; auto|]. split.
    + intros H. exfalso. assert (H2 : lit w a = lit w (2 ^ Z.of_nat w - 1)) by congruence.
      apply lit_inj in H2. fold (uv w a) in H2. pose proof (pow2_pos w).
      rewrite (Z.mod_small (2 ^ Z.of_nat w - 1)) in H2 by lia.
      unfold msb in M. rewrite H2 in M. pose proof (pow2_half w Hw).
      assert (2 <= 2 ^ (Z.of_nat w - 1)).
      { change 2 with (2 ^ 1) at 1. apply Z.pow_le_mono_r; lia. }
      lia.
    + intros [?|[?|?]]; [contradiction|discriminate|contradiction].
Qed.

(** shifts: amounts 0 and 1 *)
Lemma over_small w : (0 < w)%nat -> over_str w 1 = Ok (lit (2 - w) 0) \/ (1 < w)%nat.
Proof.
  intros H. destruct (Nat.eqb_spec w 1) as [->|]; [left; reflexivity|right; lia].
Qed.
Lemma bvLshr_small d w a n : (0 < w)%nat -> fits w -> uv w n <= 1 ->
  bvLshr d (lit w a) (lit w n) = Ok (lit w (lshrS w (uv w a) (uv w n))).
Proof.
  intros Hw Hf H. rewrite bvLshr_exact by assumption. rewrite dec_small by assumption.
  pose proof (uv_bound w n). destruct (Z.leb_spec two64 (uv w n)); [unfold two64 in *; lia|].
  destruct (Z.leb_spec (Z.of_nat w) (uv w n)); [|reflexivity].
  assert (w = 1%nat) by lia. subst w. replace (uv 1 n) with 1 by lia.
  unfold over_str. simpl. f_equal. apply lit_cong.
  unfold lshrS. pose proof (uv_bound 1 a). change (2 ^ Z.of_nat 1) with 2 in *. rewrite Z.pow_1_r.
  rewrite (Z.div_small (uv 1 a)) by lia. reflexivity.
Qed.
Lemma bvAshr_small d w a n : (0 < w)%nat -> fits w -> uv w n <= 1 ->
  bvAshr d (lit w a) (lit w n) = Ok (lit w (ashrS w (uv w a) (uv w n))).
Proof.
  intros Hw Hf H. rewrite bvAshr_exact by assumption. rewrite dec_small by assumption.
  pose proof (uv_bound w n). destruct (Z.leb_spec two64 (uv w n)); [unfold two64 in *; lia|reflexivity].
Qed.
Lemma bvAshr_over d w a n : (0 < w)%nat -> fits w -> Z.of_nat w <= uv w n -> dec_of_bin w n < two64 ->
  bvAshr d (lit w a) (lit w n) = Ok (lit w (ashrS w (uv w a) (uv w n))).
Proof.
  intros Hw Hf H H2. rewrite bvAshr_exact by assumption. pose proof (dec_ge w n).
  destruct (Z.leb_spec two64 (dec_of_bin w n)); [lia|]. do 2 f_equal.
  unfold ashrS. rewrite sv_uv. f_equal. pose proof (sv_bound w a Hw).
  assert (G : forall s, Z.of_nat w <= s -> sv w a / 2 ^ s = if sv w a <? 0 then -1 else 0).
  { intros s Hs. assert (2 ^ (Z.of_nat w - 1) <= 2 ^ s) by (apply Z.pow_le_mono_r; lia).
    destruct (Z.ltb_spec (sv w a) 0).
    - symmetry. apply Z.div_unique with (r := sv w a + 2 ^ s); lia.
    - apply Z.div_small. lia. }
  rewrite !G by lia. reflexivity.
Qed.
Lemma bvShl_zero d w a n : (0 < w)%nat -> fits w -> uv w n = 0 ->
  bvShl d (lit w a) (lit w n) = Ok (lit w (shlS w (uv w a) (uv w n))).
Proof.
  intros Hw Hf H. rewrite bvShl_exact by assumption. rewrite dec_small by lia. rewrite H.
  unfold two64. simpl. destruct (Z.leb_spec (Z.of_nat w) 0); [lia|].
  rewrite Z.pow_0_r, Z.div_1_r, Z.mul_1_r. unfold shlS. rewrite Z.pow_0_r, Z.mul_1_r, uv_idem, lit_uv.
  reflexivity.
Qed.
(** shifting left by one clears the last bit instead, at every width above one *)
Lemma bvShl_one d w a n : (1 < w)%nat -> fits w -> uv w n = 1 ->
  bvShl d (lit w a) (lit w n) = Ok (lit w (a - a mod 2)).
Proof.
  intros Hw Hf H. rewrite bvShl_exact by (auto; lia). rewrite dec_small by lia. rewrite H.
  unfold two64. simpl. destruct (Z.leb_spec (Z.of_nat w) 1); [lia|].
  rewrite Z.pow_1_r. do 2 f_equal. lia.
Qed.
Lemma bvShl_one_wrong d w : (1 < w)%nat -> fits w ->
  bvShl d (lit w 1) (lit w 1) <> Ok (lit w (shlS w (uv w 1) (uv w 1))).
Proof.
  intros Hw Hf. assert (4 <= 2 ^ Z.of_nat w).
  { change 4 with (2 ^ 2). apply Z.pow_le_mono_r; lia. }
  assert (U : uv w 1 = 1) by (apply uv_small; lia).
  rewrite bvShl_one by assumption. apply Ok_lit_neq. unfold shlS. rewrite U.
  change (1 - 1 mod 2) with 0. change (1 * 2 ^ 1) with 2.
  rewrite uv_idem, (uv_small w 2), (uv_small w 0) by lia. lia.
Qed.
Lemma dec_two w : (2 <= w)%nat -> dec_of_bin w 2 = 10.
Proof.
  intros H. replace w with ((w - 2) + 2)%nat by lia. induction (w - 2)%nat as [|k IH].
  - reflexivity.
  - cbn [plus dec_of_bin]. rewrite IH. rewrite Z.bits_above_log2; [reflexivity|lia|].
    change (Z.log2 2) with 1. lia.
Qed.
Lemma lshr_two_wrong d w : (3 <= w)%nat -> fits w -> 
  bvLshr d (lit w 4) (lit w 2) <> Ok (lit w (lshrS w (uv w 4) (uv w 2))).
Proof.
  intros Hw Hf. assert (8 <= 2 ^ Z.of_nat w).
  { change 8 with (2 ^ 3). apply Z.pow_le_mono_r; lia. }
  assert (U4 : uv w 4 = 4) by (apply uv_small; lia). assert (U2 : uv w 2 = 2) by (apply uv_small; lia).
  rewrite bvLshr_exact by (auto; lia). rewrite dec_two by lia. rewrite U4, U2.
  unfold two64. simpl. destruct (Z.leb_spec (Z.of_nat w) 10).
  - unfold over_str, str_max. destruct (Z.ltb_spec 9223372036854775807 (10 - Z.of_nat w)); [lia|].
    intros E. assert (E2 : length (lit (Z.to_nat (10 - Z.of_nat w + 1)) 0) = length (lit w (lshrS w 4 2))) by congruence.
    rewrite !lit_length in E2. lia.
  - apply Ok_lit_neq. unfold lshrS. change (4 / 2 ^ 10) with 0. change (4 / 2 ^ 2) with 1.
    rewrite !uv_small by lia. lia.
Qed.
Lemma ashr_two_wrong d w : (4 <= w)%nat -> fits w ->
  bvAshr d (lit w 4) (lit w 2) <> Ok (lit w (ashrS w (uv w 4) (uv w 2))).
Proof.
  intros Hw Hf. assert (16 <= 2 ^ Z.of_nat w).
  { change 16 with (2 ^ 4). apply Z.pow_le_mono_r; lia. }
  assert (8 <= 2 ^ (Z.of_nat w - 1)).
  { change 8 with (2 ^ 3). apply Z.pow_le_mono_r; lia. }
  assert (U4 : uv w 4 = 4) by (apply uv_small; lia). assert (U2 : uv w 2 = 2) by (apply uv_small; lia).
  assert (S4 : sv w 4 = 4). { unfold sv, msb. rewrite U4. destruct (Z.leb_spec (2 ^ (Z.of_nat w - 1)) 4); lia. }
  rewrite bvAshr_exact by (auto; lia). rewrite dec_two by lia. rewrite U4, U2.
  unfold two64. simpl. apply Ok_lit_neq. unfold ashrS. rewrite S4.
  change (4 / 2 ^ 10) with 0. change (4 / 2 ^ 2) with 1.
  rewrite !uv_idem, !uv_small by lia. lia.
Qed.

(** converting back and forth *)
Lemma bv_nat_round d w v : fits w -> 0 <= v < 2 ^ Z.of_nat w ->
  exists s, natToBv v (Z.of_nat w) = Ok s /\ bvToNat d s = Ok v.
Proof.
  intros Hf Hv. exists (lit w v). split; [now apply (natToBv_ok w w)|].
  rewrite bvToNat_ok. f_equal. now apply uv_small.
Qed.
Lemma bv_int_round d w v : (0 < w)%nat -> fits w -> - 2 ^ (Z.of_nat w - 1) <= v < 2 ^ (Z.of_nat w - 1) ->
  exists s, intToBv d v (Z.of_nat w) = Ok s /\ bvToInt d s = Ok v.
Proof.
  intros Hw Hf Hv. exists (lit w v). split; [now apply intToBv_ok|].
  rewrite bvToInt_ok by assumption. f_equal.
  pose proof (pow2_half w Hw). pose proof (half_pos w Hw).
  unfold sv, msb. destruct (Z.ltb_spec v 0).
  - assert (uv w v = v + 2 ^ Z.of_nat w).
    { unfold uv. symmetry. apply Z.mod_unique with (q := -1); lia. }
    destruct (Z.leb_spec (2 ^ (Z.of_nat w - 1)) (uv w v)); lia.
  - rewrite uv_small by lia. destruct (Z.leb_spec (2 ^ (Z.of_nat w - 1)) v); lia.
Qed.

(** bvsub folds correctly only on two zero operands *)
Lemma sub_loop_iff w : forall a b,
  sub_loop (rdig w a) (rdig w b) false = rdig w (a - b) -> uv w a = 0 /\ uv w b = 0.
Proof.
  induction w as [|w IH]; intros a b H.
  - unfold uv. simpl. now rewrite !Z.mod_1_r.
  - rewrite !rdig_S in H. cbn [sub_loop] in H. rewrite !aeq_ch0, !aeq_ch1, Z.odd_sub in H.
    destruct (Z.odd a) eqn:Oa, (Z.odd b) eqn:Ob; cbn in H; try discriminate H.
    injection H as H. pose proof (odd_mod a) as Ma. pose proof (odd_mod b) as Mb.
    rewrite Oa in Ma. rewrite Ob in Mb. cbn in Ma, Mb.
    replace ((a - b) / 2) with (a / 2 - b / 2) in H by lia.
    apply IH in H. destruct H as [Ha Hb]. unfold uv in *.
    rewrite !mod_pow_S. rewrite Ha, Hb, <- Ma, <- Mb. lia.
Qed.
Lemma bvSub_iff d w a b : fits w ->
  (bvSub d (lit w a) (lit w b) = Ok (lit w (a - b)) <-> uv w a = 0 /\ uv w b = 0).
Proof.
  intros Hf. split.
  - intros H. unfold bvSub in H. rewrite !has_b_lit, !condAssert_true in H. cbn [bind] in H.
    rewrite !digits_of_lit in H by assumption. cbn [bind] in H.
    rewrite !dig_length, Nat.max_id, !pad_dig, !rev_dig, lit_dig in H.
    assert (E : rev (sub_loop (rdig w a) (rdig w b) false) = dig w (a - b)).
    { apply (app_inv_head hashb). congruence. }
    apply sub_loop_iff. rewrite <- (rev_involutive (sub_loop _ _ _)), E. apply rev_dig.
  - intros [Ha Hb].
    assert (Ea : lit w a = lit w 0) by (apply lit_cong; fold (uv w a); rewrite Ha; unfold uv; rewrite Z.mod_0_l; pose proof (pow2_pos w); lia).
    assert (Eb : lit w b = lit w 0) by (apply lit_cong; fold (uv w b); rewrite Hb; unfold uv; rewrite Z.mod_0_l; pose proof (pow2_pos w); lia).
    rewrite Ea, Eb, bvSub_zero by assumption. f_equal. apply lit_cong.
    unfold uv in *. rewrite (Zminus_mod a b), Ha, Hb. reflexivity.
Qed.
Lemma bvUrem_iff d w a b : fits w -> uv w b <> 0 -> uv w a < 2 * uv w b ->
  (bvUrem d (lit w a) (lit w b) = Ok (lit w (uremS w (uv w a) (uv w b))) <-> uv w a = 0).
Proof.
  intros Hf Hb H2. pose proof (uv_bound w a) as Ba. pose proof (uv_bound w b) as Bb.
  rewrite bvUrem_nz by assumption. unfold uremS. destruct (Z.eqb_spec (uv w b) 0) as [?|_]; [contradiction|].
  destruct (Z.leb_spec (uv w b) (uv w a)).
  - replace (uv w a mod uv w b) with (uv w a - uv w b).
    2:{ apply Z.mod_unique with (q := 1); lia. }
    assert (E : lit w (uv w a - uv w b) = lit w (a - b)).
    { apply lit_cong. unfold uv. now rewrite <- Zminus_mod. }
    rewrite E, bvSub_iff by assumption. lia.
  - rewrite Z.mod_small by lia. split.
    + intros E. assert (E2 : lit w 0 = lit w (uv w a)) by congruence.
      apply lit_inj in E2. rewrite Z.mod_0_l in E2 by lia. fold (uv w (uv w a)) in E2. rewrite uv_idem in E2. lia.
    + intros ->. reflexivity.
Qed.
