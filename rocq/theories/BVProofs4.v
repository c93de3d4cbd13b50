From Coq Require Import ZifyBool ZifyNat.
From Verif Require Import Base BVModel BVSpec BVProofs BVProofs2 BVProofs3.
Ltac Zify.zify_post_hook ::= Z.div_mod_to_equations.

(** ** smod *)
Lemma mathMod_ok a p : 0 < p -> mathMod a p = Ok (a mod p).
Proof.
  intros H. unfold mathMod, Imod. destruct (Z.eqb_spec p 0); [lia|]. cbn [bind]. f_equal.
  pose proof (Z.rem_bound_abs a p ltac:(lia)). pose proof (Z.quot_rem a p ltac:(lia)) as Q.
  destruct (Z.ltb_spec 0 p); [|lia].
  destruct (Z.ltb_spec (Z.rem a p) 0).
  - apply Z.mod_unique with (q := Z.quot a p - 1); lia.
  - apply Z.mod_unique with (q := Z.quot a p); lia.
Qed.
Lemma mod_neg_r a b : b <> 0 -> a mod (- b) <> 0 -> a mod b = a mod (- b) + b.
Proof.
  intros H1 H2. pose proof (Z.mod_opp_r_nz a (- b) ltac:(lia) H2) as E.
  rewrite Z.opp_involutive in E. rewrite E. ring.
Qed.
Section smod.
Context (d : bool) (w : nat) (a b : Z) (Hw : (0 < w)%nat) (Hf : fits w).
Local Notation A := (sv w a).
Local Notation B := (sv w b).
Local Notation P := (2 ^ Z.of_nat w).
Lemma uv_add_idem x y : uv w (uv w x + y) = uv w (x + y).
Proof. unfold uv. apply Zplus_mod_idemp_l. Qed.
Lemma uv_add_idem_r x y : uv w (x + uv w y) = uv w (x + y).
Proof. unfold uv. apply Zplus_mod_idemp_r. Qed.
Lemma uv_sv_add x : uv w (x + uv w b) = uv w (x + B).
Proof. rewrite <- (sv_mod w b). apply uv_add_idem_r. Qed.
Lemma smodS_nz : B <> 0 -> smodS w (uv w a) (uv w b) = uv w (A mod B).
Proof.
  intros H. unfold smodS. rewrite !msb_uv, !msb_sv by assumption.
  pose proof (sv_bound w a Hw). pose proof (sv_bound w b Hw).
  pose proof (pow2_half w Hw). pose proof (half_pos w Hw).
  assert (EA : (if A <? 0 then negS w (uv w a) else uv w a) = Z.abs A).
  { destruct (Z.ltb_spec A 0); [rewrite negS_neg by assumption|rewrite uv_nonneg by lia]; lia. }
  assert (EB : (if B <? 0 then negS w (uv w b) else uv w b) = Z.abs B).
  { destruct (Z.ltb_spec B 0); [rewrite negS_neg by assumption|rewrite uv_nonneg by lia]; lia. }
  rewrite EA, EB. unfold uremS. destruct (Z.eqb_spec (Z.abs B) 0); [lia|].
  pose proof (Z.mod_pos_bound (Z.abs A) (Z.abs B) ltac:(lia)) as Bd.
  destruct (Z.ltb_spec A 0), (Z.ltb_spec B 0).
  - rewrite !Z.abs_neq in * by lia. rewrite Z.mod_opp_opp in * by lia.
    destruct (Z.eqb_spec (- (A mod B)) 0) as [E|E].
    + rewrite E. replace (A mod B) with 0 by lia. unfold uv. rewrite Z.mod_0_l; lia.
    + unfold negS. now rewrite Z.opp_involutive.
  - rewrite (Z.abs_neq A), (Z.abs_eq B) in * by lia.
    destruct (Z.eqb_spec (- A mod B) 0) as [E|E].
    + rewrite E. replace A with (- - A) by lia. rewrite (Z.mod_opp_l_z (- A)) by (lia || assumption).
      unfold uv. rewrite Z.mod_0_l; lia.
    + rewrite uv_sv_add. unfold negS. rewrite uv_add_idem.
      replace A with (- - A) at 2 by lia. rewrite (Z.mod_opp_l_nz (- A)) by (lia || assumption). f_equal. lia.
  - rewrite (Z.abs_eq A), (Z.abs_neq B) in * by lia.
    destruct (Z.eqb_spec (A mod - B) 0) as [E|E].
    + rewrite E. replace B with (- - B) by lia. rewrite (Z.mod_opp_r_z _ (- B)) by (lia || assumption).
      unfold uv. rewrite Z.mod_0_l; lia.
    + rewrite uv_sv_add. replace B with (- - B) at 3 by lia.
      rewrite (Z.mod_opp_r_nz _ (- B)) by (lia || assumption). f_equal. lia.
  - rewrite !Z.abs_eq in * by lia.
    destruct (Z.eqb_spec (A mod B) 0) as [E|E].
    + rewrite E. unfold uv. rewrite Z.mod_0_l; lia.
    + rewrite uv_small; lia.
Qed.
Lemma smodS_z : uv w b = 0 -> smodS w (uv w a) (uv w b) = uv w a.
Proof.
  intros H. rewrite H. unfold smodS. rewrite !msb_uv.
  assert (M : msb w 0 = false).
  { rewrite msb_sv by assumption. assert (sv w 0 = 0) as ->; [|reflexivity].
    apply sv0_uv0; [assumption|]. unfold uv. apply Z.mod_0_l. pose proof (pow2_pos w). lia. }
  rewrite M. unfold uremS. rewrite Z.eqb_refl. rewrite msb_sv by assumption.
  destruct (Z.ltb_spec A 0) as [HA|HA].
  - rewrite negS_neg by assumption. destruct (Z.eqb_spec (- A) 0); [lia|].
    rewrite Z.add_0_r. unfold negS. rewrite Z.opp_involutive, uv_idem. apply sv_mod.
  - destruct (Z.eqb_spec (uv w a) 0); reflexivity.
Qed.
(** exactly when the fold is right *)
Lemma bvSmod_iff :
  bvSmod d (lit w a) (lit w b) = Ok (lit w (smodS w (uv w a) (uv w b))) <->
  (uv w b = 0 \/ 0 <= A \/ A mod B = 0 \/ (0 < B /\ 2 * (A mod B) = B)).
Proof.
  unfold bvSmod. rewrite zlen_n, !bvToInt_ok by assumption. cbn [bind].
  destruct (Z.eqb_spec B 0) as [E|E].
  { apply sv0_uv0 in E; [|assumption]. rewrite smodS_z by assumption.
    rewrite lit_uv. split; intros; [now left|reflexivity]. }
  assert (uv w b <> 0) by (rewrite <- sv0_uv0; assumption).
  assert (Ea : (if 0 <? B then B else - B) = Z.abs B) by (destruct (Z.ltb_spec 0 B); lia).
  rewrite Ea, mathMod_ok by lia. cbn [bind]. rewrite smodS_nz by assumption. rewrite lit_uv.
  pose proof (sv_bound w a Hw). pose proof (sv_bound w b Hw).
  pose proof (pow2_half w Hw). pose proof (half_pos w Hw).
  pose proof (Z.mod_pos_bound A (Z.abs B) ltac:(lia)) as Bd.
  assert (EQ : forall x, intToBv d x (Z.of_nat w) = Ok (lit w (A mod B)) <-> uv w x = uv w (A mod B)).
  { intros x. rewrite intToBv_ok by assumption. split.
    - intros E'. apply lit_inj. congruence.
    - intros E'. f_equal. now apply lit_cong. }
  assert (UD : forall x y, uv w x = uv w y -> - P < x - y < P -> x = y).
  { clear. intros x y E' R. unfold uv in E'. pose proof (pow2_pos w) as Hp.
    pose proof (Z.div_mod x P ltac:(lia)) as D1. pose proof (Z.div_mod y P ltac:(lia)) as D2.
    assert (D3 : x - y = P * (x / P - y / P)) by (rewrite Z.mul_sub_distr_l; lia).
    assert (x / P - y / P = 0) by nia. nia. }
  destruct (Z.eqb_spec (A mod Z.abs B) 0) as [M|M].
  { rewrite EQ. assert (A mod B = 0).
    { destruct (Z.ltb_spec B 0).
      - rewrite Z.abs_neq in M by lia. replace B with (- - B) by lia. now rewrite (Z.mod_opp_r_z _ (- B)) by (lia || assumption).
      - now rewrite Z.abs_eq in M by lia. }
    rewrite H4. split; auto. }
  destruct (Z.ltb_spec 0 A), (Z.ltb_spec 0 B), (Z.ltb_spec A 0), (Z.ltb_spec B 0); try lia;
    cbn [andb orb]; try (assert (A = 0) as HA0 by lia; rewrite HA0, Z.mod_0_l in M; lia); rewrite EQ.
  - rewrite Z.abs_eq by lia. split; [intros; right; left; lia|reflexivity].
  - (* A > 0, B < 0 *)
    rewrite Z.abs_neq in * by lia.
    rewrite (mod_neg_r A B) by assumption.
    split; [intros; right; left; lia|]. intros _. f_equal. lia.
  - (* A < 0, B > 0 *)
    rewrite Z.abs_eq in * by lia. split.
    + intros E'. apply UD in E'; [|lia]. right; right; right. lia.
    + intros [?|[?|[?|[? ?]]]]; try contradiction; try lia. f_equal. lia.
  - (* A < 0, B < 0 *)
    rewrite Z.abs_neq in * by lia.
    assert (E2 : A mod B = A mod - B + B) by (apply mod_neg_r; assumption).
    rewrite E2. split.
    + intros E'. apply UD in E'; [|lia]. lia.
    + intros [?|[?|[?|[? ?]]]]; try contradiction; lia.
Qed.
End smod.

(** ** shifts *)
Lemma ch_code b : isdigit (ch b) = true /\ isspace (ch b) = false /\ aeq (ch b) nul = false
  /\ aeq (ch b) "-"%char = false /\ digit_val (ch b) = Z.b2z b.
Proof. destruct b; repeat split; reflexivity. Qed.
Lemma mpz_digits_dig w n : forall acc,
  mpz_digits (dig w n) acc = Ok (acc * 10 ^ Z.of_nat w + dec_of_bin w n).
Proof.
  induction w as [|w IH]; intros acc.
  - simpl. rewrite Z.pow_0_r. f_equal. lia.
  - rewrite dig_S_msb. cbn [mpz_digits dec_of_bin].
    destruct (ch_code (Z.testbit n (Z.of_nat w))) as (E1 & E2 & E3 & _ & E5).
    rewrite E1, E2, E3, E5, IH. f_equal.
    replace (Z.of_nat (S w)) with (Z.succ (Z.of_nat w)) by lia. rewrite Z.pow_succ_r by lia.
    destruct (Z.testbit n (Z.of_nat w)); cbn [Z.b2z]; ring.
Qed.
Lemma Integer_of_dig w n : (0 < w)%nat -> Integer_of_str (dig w n) = Ok (dec_of_bin w n).
Proof.
  intros H. destruct w as [|w]; [lia|].
  unfold Integer_of_str.
  destruct (ch_code (Z.testbit n (Z.of_nat w))) as (E1 & E2 & E3 & E4 & E5).
  assert (Es : skip_space (dig (S w) n) = dig (S w) n).
  { rewrite dig_S_msb. cbn [skip_space]. now rewrite E2. }
  rewrite Es. rewrite dig_S_msb at 1. rewrite E4. rewrite <- dig_S_msb.
  unfold mpz_unsigned. rewrite dig_S_msb at 1. rewrite E1, mpz_digits_dig. f_equal.
Qed.
Lemma dec_nonneg w n : 0 <= dec_of_bin w n.
Proof.
  induction w as [|w IH]; simpl; [lia|].
  pose proof (Z.pow_nonneg 10 (Z.of_nat w) ltac:(lia)). destruct (Z.testbit _ _); lia.
Qed.
Lemma uv_S w n : uv (S w) n = Z.b2z (Z.testbit n (Z.of_nat w)) * 2 ^ Z.of_nat w + uv w n.
Proof. unfold uv. rewrite <- !hv_dig, dig_S_msb, hv_cons, dig_length, bv1_ch. reflexivity. Qed.
Lemma dec_ge w n : uv w n <= dec_of_bin w n.
Proof.
  induction w as [|w IH].
  - unfold uv. simpl. rewrite Z.mod_1_r. lia.
  - rewrite uv_S. cbn [dec_of_bin].
    assert (2 ^ Z.of_nat w <= 10 ^ Z.of_nat w) by (apply Z.pow_le_mono_l; lia).
    destruct (Z.testbit _ _); cbn [Z.b2z]; lia.
Qed.
Lemma dec_small w n : uv w n <= 1 -> dec_of_bin w n = uv w n.
Proof.
  induction w as [|w IH]; intros H.
  - unfold uv. simpl. rewrite Z.mod_1_r. lia.
  - rewrite uv_S in *. cbn [dec_of_bin]. pose proof (uv_bound w n). pose proof (pow2_pos w).
    destruct (Z.testbit _ _); cbn [Z.b2z] in *.
    + destruct w as [|w]; [|rewrite pow2_S in *; pose proof (pow2_pos w); lia].
      unfold uv in *. simpl in *. rewrite Z.mod_1_r in *. lia.
    + rewrite IH; lia.
Qed.
Lemma dec_big w n : 2 <= uv w n -> 10 <= dec_of_bin w n.
Proof.
  induction w as [|w IH]; intros H.
  - unfold uv in H. simpl in H. rewrite Z.mod_1_r in H. lia.
  - rewrite uv_S in *. cbn [dec_of_bin]. pose proof (dec_nonneg w n).
    destruct (Z.testbit _ _); cbn [Z.b2z] in *; [|apply IH; lia].
    destruct w as [|w]; [unfold uv in *; simpl in *; rewrite Z.mod_1_r in *; lia|].
    replace (Z.of_nat (S w)) with (Z.succ (Z.of_nat w)) by lia. rewrite Z.pow_succ_r by lia.
    pose proof (Z.pow_pos_nonneg 10 (Z.of_nat w)). lia.
Qed.
Lemma shift_amount_ok w n : (0 < w)%nat -> fits w ->
  shift_amount (lit w n) =
  if two64 <=? dec_of_bin w n then Throw OverflowError else Ok (dec_of_bin w n).
Proof.
  intros Hw Hf. unfold shift_amount. fold (digits_of (lit w n)).
  rewrite digits_of_lit by assumption. cbn [bind]. rewrite Integer_of_dig by assumption. cbn [bind].
  unfold toULong. pose proof (dec_nonneg w n). destruct (Z.ltb_spec (dec_of_bin w n) 0); [lia|].
  reflexivity.
Qed.
Lemma substr_first w a s : (s <= w)%nat -> fits w ->
  substr (lit w a) 2 (u64 (zlen (lit w a) - 2 - Z.of_nat s)) = Ok (dig (w - s) (a / 2 ^ Z.of_nat s)).
Proof.
  intros H Hf. pose proof (fits_two64 w Hf). rewrite zlen_lit, u64_id by lia.
  rewrite substr_lit by lia. f_equal. simpl skipn.
  replace (Z.to_nat (Z.min (Z.of_nat w + 2 - 2 - Z.of_nat s) (Z.of_nat w + 2 - 2))) with (w - s)%nat by lia.
  pose proof (firstn_dig (w - s) s a) as E. now replace (w - s + s)%nat with w in E by lia.
Qed.
Lemma dig_sign k a n : (forall i, (n <= i < k + n)%nat -> Z.testbit a (Z.of_nat i) = Z.testbit a (Z.of_nat n)) ->
  dig (k + n) a = repeat (ch (Z.testbit a (Z.of_nat n))) k ++ dig n a.
Proof.
  induction k as [|k IH]; intros H; [reflexivity|].
  cbn [plus repeat app]. rewrite dig_S_msb. rewrite H by lia. f_equal. apply IH. intros; apply H; lia.
Qed.

(** all three shifts, exactly, in terms of the decimal misreading [s] of the amount *)
Definition over_str (w : nat) (s : Z) : res str :=
  if str_max <? s - Z.of_nat w then Throw LengthError
  else Ok (lit (Z.to_nat (s - Z.of_nat w + 1)) 0).
Lemma over_ok w a s : fits w -> Z.of_nat w <= s < two64 ->
  (z <- mkstr (u64 (s - zlen (lit w a) + 2)) c0 ;; Ok (hashb ++ [c0] ++ z)) = over_str w s.
Proof.
  intros Hf H. rewrite zlen_lit. replace (s - (Z.of_nat w + 2) + 2) with (s - Z.of_nat w) by lia.
  rewrite u64_id by lia. unfold mkstr, over_str.
  destruct (Z.ltb_spec str_max (s - Z.of_nat w)); [reflexivity|]. cbn [bind].
  rewrite lit_dig. do 2 f_equal.
  replace (Z.to_nat (s - Z.of_nat w + 1)) with (S (Z.to_nat (s - Z.of_nat w))) by lia.
  rewrite dig_0. reflexivity.
Qed.
Section shifts.
Context (d : bool) (w : nat) (a n : Z) (Hw : (0 < w)%nat) (Hf : fits w).
Local Notation s := (dec_of_bin w n).
Lemma bvShl_exact : bvShl d (lit w a) (lit w n) =
  if two64 <=? s then Throw OverflowError
  else if Z.of_nat w <=? s then over_str w s
  else Ok (lit w (a / 2 ^ s * 2 ^ s)).
Proof.
  pose proof (fits_two64 w Hf) as F. unfold bvShl. bvstart. rewrite shift_amount_ok by assumption.
  destruct (Z.leb_spec two64 s) as [|Hs]; [reflexivity|]. cbn [bind].
  rewrite zlen_n by assumption. pose proof (dec_nonneg w n).
  destruct (Z.leb_spec (Z.of_nat w) s).
  - apply over_ok; [assumption|lia].
  - replace s with (Z.of_nat (Z.to_nat s)) by lia. set (k := Z.to_nat s) in *.
    rewrite substr_first by (auto; lia). cbn [bind].
    rewrite mkstr_ok by (unfold fits, str_max in *; lia). cbn [bind].
    rewrite lit_dig. do 2 f_equal.
    pose proof (dig_app (w - k) k (a / 2 ^ Z.of_nat k * 2 ^ Z.of_nat k)) as E.
    replace (w - k + k)%nat with w in E by lia. rewrite E.
    pose proof (pow2_pos k). rewrite Z.div_mul by lia. f_equal.
    rewrite <- dig_0. apply dig_cong. rewrite Z.mod_mul, Z.mod_0_l by lia. reflexivity.
Qed.
Lemma bvLshr_exact : bvLshr d (lit w a) (lit w n) =
  if two64 <=? s then Throw OverflowError
  else if Z.of_nat w <=? s then over_str w s
  else Ok (lit w (lshrS w (uv w a) s)).
Proof.
  pose proof (fits_two64 w Hf) as F. unfold bvLshr. bvstart. rewrite shift_amount_ok by assumption.
  destruct (Z.leb_spec two64 s) as [|Hs]; [reflexivity|]. cbn [bind].
  rewrite zlen_n by assumption. pose proof (dec_nonneg w n).
  destruct (Z.leb_spec (Z.of_nat w) s).
  - apply over_ok; [assumption|lia].
  - replace s with (Z.of_nat (Z.to_nat s)) by lia. set (k := Z.to_nat s) in *.
    rewrite mkstr_ok by (unfold fits, str_max in *; lia). cbn [bind].
    rewrite <- (lit_uv w a). rewrite substr_first by (auto; lia). cbn [bind].
    rewrite lit_dig. do 2 f_equal. unfold lshrS.
    pose proof (uv_bound w a) as B. pose proof (pow2_pos k).
    pose proof (dig_pad k (w - k) (uv w a / 2 ^ Z.of_nat k)) as E.
    replace (k + (w - k))%nat with w in E by lia. symmetry. apply E.
    split; [apply Z.div_pos; lia|]. apply Z.div_lt_upper_bound; [lia|].
    rewrite <- Z.pow_add_r by lia. replace (Z.of_nat k + Z.of_nat (w - k)) with (Z.of_nat w) by lia. lia.
Qed.
Lemma sv_testbit i : (i < w)%nat -> Z.testbit (sv w a) (Z.of_nat i) = Z.testbit a (Z.of_nat i).
Proof.
  intros H. rewrite <- (Z.mod_pow2_bits_low (sv w a) (Z.of_nat w)) by lia.
  fold (uv w (sv w a)). rewrite sv_mod. unfold uv. now rewrite Z.mod_pow2_bits_low by lia.
Qed.
Lemma sv_testbit_high i : (w - 1 <= i)%nat -> Z.testbit (sv w a) (Z.of_nat i) = Z.testbit a (Z.of_nat (w - 1)).
Proof.
  intros H. rewrite <- msb_testbit, msb_sv by assumption.
  pose proof (sv_bound w a Hw) as B.
  assert (Hp : 2 ^ (Z.of_nat w - 1) <= 2 ^ Z.of_nat i) by (apply Z.pow_le_mono_r; lia).
  rewrite Z.testbit_odd, Z.shiftr_div_pow2 by lia.
  destruct (Z.ltb_spec (sv w a) 0).
  - replace (sv w a / 2 ^ Z.of_nat i) with (-1); [reflexivity|].
    apply Z.div_unique with (r := sv w a + 2 ^ Z.of_nat i); lia.
  - rewrite Z.div_small by lia. reflexivity.
Qed.
Lemma bvAshr_exact : bvAshr d (lit w a) (lit w n) =
  if two64 <=? s then Throw OverflowError
  else Ok (lit w (ashrS w (uv w a) s)).
Proof.
  pose proof (fits_two64 w Hf) as F. unfold bvAshr. bvstart. rewrite shift_amount_ok by assumption.
  destruct (Z.leb_spec two64 s) as [|Hs]; [reflexivity|]. cbn [bind].
  rewrite at_lit2 by assumption. cbn [bind].
  rewrite zlen_n by assumption. pose proof (dec_nonneg w n).
  unfold ashrS. rewrite lit_uv, sv_uv.
  destruct (Z.leb_spec (Z.of_nat w) s) as [Hws|Hws].
  - rewrite mkstr_ok by (unfold fits, str_max in *; lia). cbn [bind]. rewrite lit_dig. do 2 f_equal.
    assert (E : sv w a / 2 ^ s = if Z.testbit a (Z.of_nat (w - 1)) then -1 else 0).
    { rewrite <- msb_testbit, msb_sv by assumption. pose proof (sv_bound w a Hw).
      assert (2 ^ (Z.of_nat w - 1) <= 2 ^ s) by (apply Z.pow_le_mono_r; lia).
      destruct (Z.ltb_spec (sv w a) 0).
      - symmetry. apply Z.div_unique with (r := sv w a + 2 ^ s); lia.
      - apply Z.div_small. lia. }
    rewrite E. destruct (Z.testbit a (Z.of_nat (w - 1))); [rewrite dig_m1|rewrite dig_0]; reflexivity.
  - replace s with (Z.of_nat (Z.to_nat s)) by lia. set (k := Z.to_nat s) in *.
    rewrite mkstr_ok by (unfold fits, str_max in *; lia). cbn [bind].
    rewrite substr_first by (auto; lia). cbn [bind].
    rewrite lit_dig. do 2 f_equal.
    pose proof (dig_app k (w - k) (sv w a / 2 ^ Z.of_nat k)) as E.
    replace (k + (w - k))%nat with w in E by lia. rewrite E. f_equal.
    + rewrite Z.div_div by (pose proof (pow2_pos k); pose proof (pow2_pos (w - k)); lia).
      rewrite <- Z.pow_add_r by lia.
      replace (Z.of_nat k + Z.of_nat (w - k)) with (Z.of_nat w) by lia.
      assert (E2 : sv w a / 2 ^ Z.of_nat w = if Z.testbit a (Z.of_nat (w - 1)) then -1 else 0).
      { rewrite <- msb_testbit, msb_sv by assumption. pose proof (sv_bound w a Hw).
        assert (2 ^ (Z.of_nat w - 1) <= 2 ^ Z.of_nat w) by (apply Z.pow_le_mono_r; lia).
        destruct (Z.ltb_spec (sv w a) 0).
        - symmetry. apply Z.div_unique with (r := sv w a + 2 ^ Z.of_nat w); lia.
        - apply Z.div_small. lia. }
      rewrite E2. destruct (Z.testbit a (Z.of_nat (w - 1))); [rewrite dig_m1|rewrite dig_0]; reflexivity.
    + apply dig_ext. intros i Hi. rewrite !Z.div_pow2_bits by lia.
      rewrite <- Nat2Z.inj_add. symmetry. apply sv_testbit. lia.
Qed.
End shifts.

(** ** structural operations *)
Lemma bvConcat_ok d w1 w2 a b : fits w1 -> fits w2 ->
  bvConcat d (lit w1 a) (lit w2 b) = Ok (lit (w1 + w2) (a * 2 ^ Z.of_nat w2 + uv w2 b)).
Proof.
  intros H1 H2. unfold bvConcat. bvstart. rewrite !digits_of_lit by assumption. cbn [bind].
  rewrite lit_dig, dig_app. pose proof (pow2_pos w2). pose proof (uv_bound w2 b).
  rewrite Z.add_comm, Z.div_add, Z.div_small, Z.add_0_l by lia. do 3 f_equal.
  apply dig_cong. rewrite Z.mod_add by lia. unfold uv. rewrite Z.mod_mod; lia.
Qed.
Lemma bvExtract_ok d w a i j : fits w -> (j <= i < w)%nat ->
  bvExtract d (lit w a) (Z.of_nat i) (Z.of_nat j) = Ok (lit (i - j + 1) (a / 2 ^ Z.of_nat j)).
Proof.
  intros Hf H. pose proof (fits_two64 w Hf). unfold bvExtract. bvstart.
  replace (Z.of_nat j <=? Z.of_nat i) with true by lia. rewrite condAssert_true. cbn [bind].
  rewrite !toULong_ok by lia. cbn [bind]. rewrite zlen_lit.
  rewrite (u64_id (Z.of_nat w + 2 - 2)) by lia.
  rewrite !u64_id by lia. rewrite substr_lit by lia. cbn [bind]. rewrite lit_dig. do 2 f_equal.
  replace (Z.to_nat (2 + (Z.of_nat w + 2 - 2 - 1 - Z.of_nat i) - 2)) with (w - 1 - i)%nat by lia.
  assert (E : skipn (w - 1 - i) (dig w a) = dig ((i - j + 1) + j) a).
  { pose proof (skipn_dig (w - 1 - i) (i - j + 1 + j) a) as E.
    now replace (w - 1 - i + (i - j + 1 + j))%nat with w in E by lia. }
  rewrite E.
  match goal with |- firstn ?k _ = _ => replace k with (i - j + 1)%nat by lia end.
  apply firstn_dig.
Qed.
(** index at least two beyond the width: substr throws *)
Lemma bvExtract_far w a i j : fits w -> Z.of_nat w + 1 < i < two64 - 1 -> 0 <= j <= i ->
  bvExtract false (lit w a) i j = Throw OutOfRange.
Proof.
  intros Hf Hi Hj. pose proof (fits_two64 w Hf). unfold bvExtract. cbn [condAssert bind].
  rewrite !toULong_ok by lia. cbn [bind]. rewrite zlen_lit, (u64_id (Z.of_nat w + 2 - 2)) by lia.
  assert (E : u64 (2 + (Z.of_nat w + 2 - 2 - 1 - i)) = two64 + (Z.of_nat w + 1 - i)).
  { unfold u64. symmetry. apply Z.mod_unique with (q := -1); lia. }
  rewrite E. unfold substr. rewrite zlen_lit.
  destruct (Z.ltb_spec (Z.of_nat w + 2) (two64 + (Z.of_nat w + 1 - i))); [reflexivity|].
  unfold fits, two64 in *. lia.
Qed.
Lemma bvZeroExtend_ok d w a k : fits w -> fits k ->
  bvZeroExtend d (lit w a) (Z.of_nat k) = Ok (lit (k + w) (uv w a)).
Proof.
  intros Hf Hk. pose proof (fits_two64 k Hk). unfold bvZeroExtend. bvstart.
  rewrite toULong_ok by lia. cbn [bind]. rewrite mkstr_ok by (unfold fits, str_max in *; lia).
  cbn [bind]. rewrite digits_of_lit by assumption. cbn [bind]. rewrite lit_dig.
  rewrite dig_pad by apply uv_bound. do 3 f_equal. apply dig_cong.
  unfold uv. rewrite Z.mod_mod; [reflexivity|]. pose proof (pow2_pos w). lia.
Qed.
Lemma bvSignExtend_ok d w a k : (0 < w)%nat -> fits w -> fits k ->
  bvSignExtend d (lit w a) (Z.of_nat k) = Ok (lit (k + w) (sv w a)).
Proof.
  intros Hw Hf Hk. pose proof (fits_two64 k Hk). unfold bvSignExtend. bvstart.
  rewrite toULong_ok by lia. cbn [bind]. rewrite at_lit2 by assumption. cbn [bind].
  rewrite mkstr_ok by (unfold fits, str_max in *; lia).
  cbn [bind]. rewrite digits_of_lit by assumption. cbn [bind]. rewrite lit_dig. do 2 f_equal.
  rewrite dig_sign.
  - rewrite sv_testbit_high by lia. f_equal. apply dig_ext. intros i Hi.
    symmetry. now apply sv_testbit.
  - intros i Hi. rewrite !sv_testbit_high by lia. reflexivity.
Qed.
Lemma bvRepeat_ok d w a k : fits w -> fits k ->
  bvRepeat d (lit w a) (Z.of_nat k) = Ok (lit (k * w) (repS k w a)).
Proof.
  intros Hf Hk. pose proof (fits_two64 k Hk). unfold bvRepeat. bvstart.
  rewrite toULong_ok by lia. cbn [bind].
  assert (E : (if Z.of_nat k =? 0 then Ok [] else digits_of (lit w a)) = Ok (if Nat.eqb k 0 then [] else dig w a)).
  { rewrite digits_of_lit by assumption. destruct k; reflexivity. }
  rewrite E. cbn [bind]. rewrite Nat2Z.id, lit_dig. do 2 f_equal.
  assert (G : concat (repeat (dig w a) k) = dig (k * w) (repS k w a)).
  { clear. induction k as [|k IH]; [reflexivity|].
    assert (C : concat (repeat (dig w a) (S k)) = concat (repeat (dig w a) k) ++ dig w a).
    { clear. induction k as [|k IH]; simpl; [now rewrite app_nil_r|]. simpl in IH.
      rewrite IH at 1. now rewrite app_assoc. }
    rewrite C, IH. cbn [repS]. replace (S k * w)%nat with (k * w + w)%nat by lia.
    rewrite dig_app. pose proof (pow2_pos w). pose proof (uv_bound w a).
    rewrite Z.add_comm, Z.div_add, Z.div_small, Z.add_0_l by lia. f_equal.
    apply dig_cong. rewrite Z.mod_add by lia. unfold uv. rewrite Z.mod_mod; lia. }
  destruct k; [reflexivity|]. exact G.
Qed.

(** ** rotation *)
Section rot.
Context (d : bool) (w : nat) (a : Z) (k : nat) (Hw : (0 < w)%nat) (Hf : fits w) (Hk : (k <= w)%nat).
Local Notation u := (uv w a).
Lemma Imod_w n : Imod n (u64 (zlen (lit w a) - 2)) = Ok (Z.rem n (Z.of_nat w)).
Proof. rewrite zlen_n by assumption. unfold Imod. destruct (Z.eqb_spec (Z.of_nat w) 0); [lia|reflexivity]. Qed.
Lemma rot_dig m x : (m <= w)%nat -> 0 <= x < 2 ^ Z.of_nat w ->
  dig (w - m) x ++ dig m (x / 2 ^ Z.of_nat (w - m)) =
  dig w (x * 2 ^ Z.of_nat m + x / 2 ^ Z.of_nat (w - m)).
Proof.
  intros Hm Hx. pose proof (dig_app (w - m) m (x * 2 ^ Z.of_nat m + x / 2 ^ Z.of_nat (w - m))) as E.
  replace (w - m + m)%nat with w in E by lia. rewrite E.
  pose proof (pow2_pos m). pose proof (pow2_pos (w - m)).
  assert (0 <= x / 2 ^ Z.of_nat (w - m) < 2 ^ Z.of_nat m).
  { split; [apply Z.div_pos; lia|]. apply Z.div_lt_upper_bound; [lia|].
    rewrite <- Z.pow_add_r by lia. replace (Z.of_nat (w - m) + Z.of_nat m) with (Z.of_nat w) by lia. lia. }
  f_equal.
  - rewrite Z.add_comm, Z.div_add, Z.div_small by lia. now rewrite Z.add_0_l.
  - apply dig_cong. rewrite Z.add_comm, Z.mod_add by lia. reflexivity.
Qed.
Lemma kmod : Z.of_nat k mod Z.of_nat w = if Nat.eqb k w then 0 else Z.of_nat k.
Proof.
  destruct (Nat.eqb_spec k w) as [->|].
  - apply Z.mod_same. lia.
  - apply Z.mod_small. lia.
Qed.
Lemma skipn_d m x : (m <= w)%nat -> skipn m (dig w x) = dig (w - m) x.
Proof. intros H. pose proof (skipn_dig m (w - m) x) as E. now replace (m + (w - m))%nat with w in E by lia. Qed.
Lemma firstn_d m x : (m <= w)%nat -> firstn m (dig w x) = dig m (x / 2 ^ Z.of_nat (w - m)).
Proof. intros H. pose proof (firstn_dig m (w - m) x) as E. now replace (m + (w - m))%nat with w in E by lia. Qed.
Lemma bvRotateLeft_ok : bvRotateLeft d (lit w a) (Z.of_nat k) = Ok (lit w (rotlS w u (Z.of_nat k))).
Proof.
  pose proof (fits_two64 w Hf). unfold bvRotateLeft. bvstart. rewrite Imod_w. cbn [bind].
  rewrite toULong_ok by lia. cbn [bind]. rewrite !zlen_lit, !u64_id by (unfold fits, two64 in *; lia).
  rewrite <- (lit_uv w a).
  rewrite !substr_lit by lia. cbn [bind]. rewrite lit_dig. do 2 f_equal.
  match goal with |- firstn ?x _ ++ firstn ?y _ = _ => replace x with (w - k)%nat by lia; replace y with k by lia end.
  replace (Z.to_nat (2 + Z.of_nat k - 2)) with k by lia. replace (Z.to_nat (2 - 2)) with O by lia.
  simpl skipn at 2. rewrite skipn_d, firstn_d by assumption.
  rewrite firstn_all2 by (rewrite dig_length; lia).
  pose proof (uv_bound w a) as B. rewrite rot_dig by assumption.
  unfold rotlS. rewrite kmod. unfold uv at 3. rewrite dig_mod.
  destruct (Nat.eqb_spec k w) as [E|E].
  - rewrite E. rewrite Nat.sub_diag. simpl Z.of_nat. rewrite Z.pow_0_r, Z.div_1_r, Z.mul_1_r, Z.sub_0_r.
    apply dig_cong. rewrite Z.add_comm, Z.mod_add by lia.
    rewrite Z.div_small by lia. now rewrite Z.add_0_r.
  - do 2 f_equal. replace (Z.of_nat (w - k)) with (Z.of_nat w - Z.of_nat k) by lia. reflexivity.
Qed.
Lemma bvRotateRight_ok : bvRotateRight d (lit w a) (Z.of_nat k) = Ok (lit w (rotrS w u (Z.of_nat k))).
Proof.
  pose proof (fits_two64 w Hf). unfold bvRotateRight. bvstart. rewrite Imod_w. cbn [bind].
  rewrite toULong_ok by lia. cbn [bind]. rewrite !zlen_lit, !u64_id by (unfold fits, two64 in *; lia).
  rewrite <- (lit_uv w a).
  rewrite !substr_lit by lia. cbn [bind]. rewrite lit_dig. do 2 f_equal.
  match goal with |- firstn ?x (skipn ?z _) ++ firstn ?y (skipn ?t _) = _ =>
    replace x with k by lia; replace y with (w - k)%nat by lia;
    replace z with (w - k)%nat by lia; replace t with O by lia end.
  simpl skipn at 2. rewrite skipn_d, firstn_d by lia.
  replace (w - (w - k))%nat with k by lia.
  rewrite firstn_all2 by (rewrite dig_length; lia).
  pose proof (uv_bound w a) as B.
  pose proof (rot_dig (w - k) u ltac:(lia) B) as R. replace (w - (w - k))%nat with k in R by lia.
  rewrite R. unfold rotrS. rewrite kmod. unfold uv at 3. rewrite dig_mod.
  destruct (Nat.eqb_spec k w) as [E|E].
  - rewrite E. rewrite Nat.sub_diag. simpl Z.of_nat. rewrite Z.pow_0_r, Z.div_1_r, Z.mul_1_r, Z.sub_0_r.
    apply dig_cong. rewrite Z.mod_add by lia. rewrite Z.div_small by lia. now rewrite Z.add_0_r.
  - rewrite Z.add_comm. do 2 f_equal. replace (Z.of_nat (w - k)) with (Z.of_nat w - Z.of_nat k) by lia. reflexivity.
Qed.
End rot.
Lemma bvRotateLeft_far d w a n : (0 < w)%nat -> fits w -> Z.of_nat w < n < two64 - 2 ->
  bvRotateLeft d (lit w a) n = Throw OutOfRange.
Proof.
  intros Hw Hf Hn. pose proof (fits_two64 w Hf). unfold bvRotateLeft. bvstart.
  rewrite (Imod_w w a O Hw Hf ltac:(lia)). cbn [bind]. rewrite toULong_ok by lia. cbn [bind].
  rewrite (u64_id (2 + n)) by lia. unfold substr at 1. rewrite zlen_lit.
  destruct (Z.ltb_spec (Z.of_nat w + 2) (2 + n)); [reflexivity|lia].
Qed.

(** ** hexadecimal *)
Lemma hex_digit_val c : hex_digit c =
  match hexval c with
  | Some v => Some (Z.testbit v 3, Z.testbit v 2, Z.testbit v 1, Z.testbit v 0)
  | None => None
  end.
Proof. destruct c as [[] [] [] [] [] [] [] []]; vm_compute; reflexivity. Qed.
Lemma hexval_bound c v : hexval c = Some v -> 0 <= v < 16.
Proof.
  unfold hexval. set (n := Z.of_nat (nat_of_ascii c)).
  destruct (Z.leb_spec 48 n), (Z.leb_spec n 57); cbn [andb]; [injection 1; lia| | |];
  destruct (Z.leb_spec 65 n), (Z.leb_spec n 70); cbn [andb]; try (injection 1; lia);
  destruct (Z.leb_spec 97 n), (Z.leb_spec n 102); cbn [andb]; try (injection 1; lia); discriminate.
Qed.
Lemma hexToBv_go d s : forall w acc r v, hexnum_from acc s = Some v ->
  0 <= acc -> r = hashb ++ dig w acc ->
  foldM (fun r c => match hex_digit c with
                    | Some (a, b, x, y) => Ok (r ++ [bit a; bit b; bit x; bit y])
                    | None => condAssert d false ;;; Ok r
                    end) r s = Ok (hashb ++ dig (w + 4 * length s) v).
Proof.
  induction s as [|c s IH]; intros w acc r v H Ha Hr; cbn [hexnum_from foldM] in *.
  - injection H as <-. rewrite Hr. do 3 f_equal. simpl. lia.
  - rewrite hex_digit_val. destruct (hexval c) as [x|] eqn:Hx; [|discriminate].
    apply hexval_bound in Hx. cbn [bind].
    rewrite (IH (w + 4)%nat (acc * 16 + x) _ v H); [|lia|].
    + do 3 f_equal. simpl. lia.
    + rewrite Hr. rewrite <- app_assoc. f_equal.
      rewrite dig_app. replace (2 ^ Z.of_nat 4) with 16 by reflexivity.
      replace ((acc * 16 + x) / 16) with acc by lia. f_equal.
      rewrite !dig_S_msb. unfold dig. cbn [seq rev map].
      assert (T : forall i, 0 <= i < 4 -> Z.testbit (acc * 16 + x) i = Z.testbit x i).
      { intros i Hi. rewrite <- (Z.mod_pow2_bits_low (acc * 16 + x) 4) by lia.
        replace ((acc * 16 + x) mod 2 ^ 4) with x; [reflexivity|]. change (2 ^ 4) with 16. lia. }
      simpl Z.of_nat. rewrite !T by lia. reflexivity.
Qed.
Lemma hexToBv_ok d s v : hexnum s = Some v -> hexToBv d s = Ok (lit (4 * length s) v).
Proof. intros H. unfold hexToBv. apply (hexToBv_go d s O 0); auto. lia. Qed.
