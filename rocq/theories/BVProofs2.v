From Coq Require Import ZifyBool ZifyNat.
From Verif Require Import Base BVModel BVSpec BVProofs.
Ltac Zify.zify_post_hook ::= Z.div_mod_to_equations.

(** ** conversions *)
Lemma aeq_spec a b : aeq a b = true <-> a = b.
Proof. apply Ascii.eqb_eq. Qed.
Lemma seq_str_spec a : forall b, seq_str a b = true <-> a = b.
Proof.
  induction a as [|x a IH]; intros [|y b]; simpl; split; intros H; try discriminate; try reflexivity.
  - apply andb_true_iff in H as [H1 H2]. apply aeq_spec in H1. apply IH in H2. congruence.
  - injection H as -> ->. apply andb_true_iff. split; [now apply aeq_spec|now apply IH].
Qed.
Lemma foldM_at {S} (g : S -> ascii -> S) s : forall n k acc, (k + n = length s)%nat ->
  foldM (fun r i => a <- at_ s i ;; Ok (g r a)) acc (seq k n) = Ok (fold_left g (skipn k s) acc).
Proof.
  induction n as [|n IH]; intros k acc H; simpl.
  - rewrite skipn_all2 by lia. reflexivity.
  - unfold at_ at 1. destruct (Nat.ltb_spec k (length s)); [|lia]. cbn [bind].
    rewrite IH by lia. f_equal.
    assert (E : skipn k s = nth k s nul :: skipn (Datatypes.S k) s).
    { clear -H0. revert s H0. induction k as [|k IH]; intros [|c s] H0; simpl in *; try lia; auto.
      apply IH. lia. }
    rewrite E. reflexivity.
Qed.
Lemma foldM_ext {A S} (f g : S -> A -> res S) l : (forall s a, f s a = g s a) ->
  forall s, foldM f s l = foldM g s l.
Proof. intros H. induction l as [|a l IH]; intros s; simpl; [reflexivity|]. rewrite H.
  destruct (g s a); simpl; auto. Qed.
Lemma bvToNat_ok d w v : bvToNat d (lit w v) = Ok (uv w v).
Proof.
  unfold bvToNat. bvstart. rewrite lit_length.
  rewrite (foldM_at (fun r a => r * 2 + bv1 a)) by (rewrite lit_length; lia).
  f_equal. rewrite lit_dig. simpl skipn. apply hv_dig.
Qed.
Lemma uv_bound w v : 0 <= uv w v < 2 ^ Z.of_nat w.
Proof. apply Z.mod_pos_bound. apply pow2_pos. Qed.
Lemma msb_testbit w v : (0 < w)%nat -> msb w v = Z.testbit v (Z.of_nat (w - 1)).
Proof.
  intros H. unfold msb. pose proof (uv_bound w v) as B.
  rewrite <- (Z.mod_pow2_bits_low v (Z.of_nat w)) by lia. fold (uv w v).
  rewrite Z.testbit_odd, Z.shiftr_div_pow2 by lia.
  replace (Z.of_nat w - 1) with (Z.of_nat (w - 1)) by lia.
  assert (P : 2 ^ Z.of_nat w = 2 * 2 ^ Z.of_nat (w - 1)).
  { rewrite <- pow2_S. do 2 f_equal. lia. }
  pose proof (pow2_pos (w - 1)) as Q. set (p := 2 ^ Z.of_nat (w - 1)) in *.
  destruct (Z.leb_spec p (uv w v)) as [L1|L1].
  - replace (uv w v / p) with 1; [reflexivity|].
    apply Z.div_unique with (r := uv w v - p); lia.
  - rewrite Z.div_small by lia. reflexivity.
Qed.
Lemma at_lit2 w v : (0 < w)%nat -> at_ (lit w v) 2 = Ok (ch (Z.testbit v (Z.of_nat (w - 1)))).
Proof.
  intros H. pose proof (at_lit w v 0 H) as E.
  replace (w - 1 - 0)%nat with (w - 1)%nat in E by lia. exact E.
Qed.
Lemma bvToInt_ok d w v : (0 < w)%nat -> fits w -> bvToInt d (lit w v) = Ok (sv w v).
Proof.
  intros Hw Hf. pose proof (fits_two64 w Hf).
  unfold bvToInt. bvstart. rewrite lit_length.
  rewrite (foldM_ext _ (fun r i => a <- at_ (lit w v) i ;; Ok (r * 2 + bv1 a))).
  2:{ intros s a. unfold Ishl. rewrite Z.pow_1_r. reflexivity. }
  rewrite (foldM_at (fun r a => r * 2 + bv1 a)) by (rewrite lit_length; lia).
  cbn [bind]. rewrite at_lit2 by lia. cbn [bind]. rewrite aeq_ch1.
  rewrite zlen_lit, u64_id by lia.
  unfold sv. rewrite msb_testbit by lia.
  replace (fold_left _ _ _) with (uv w v) by (symmetry; apply hv_dig).
  unfold Ishl. replace (Z.of_nat w + 2 - 2) with (Z.of_nat w) by lia.
  destruct (Z.testbit _ _); f_equal; lia.
Qed.

(** digits of concatenations *)
Lemma dig_app k n v : dig (k + n) v = dig k (v / 2 ^ Z.of_nat n) ++ dig n v.
Proof.
  induction k as [|k IH]; [reflexivity|].
  cbn [plus]. rewrite !dig_S_msb, IH. cbn [app]. f_equal.
  rewrite Z.div_pow2_bits by lia. do 2 f_equal. lia.
Qed.
Lemma dig_0 k : dig k 0 = repeat c0 k.
Proof. induction k as [|k IH]; [reflexivity|]. rewrite dig_S_msb, IH, Z.bits_0. reflexivity. Qed.
Lemma dig_m1 k : dig k (-1) = repeat c1 k.
Proof. induction k as [|k IH]; [reflexivity|]. rewrite dig_S_msb, IH, Z.bits_m1 by lia. reflexivity. Qed.
Lemma dig_pad k n v : 0 <= v < 2 ^ Z.of_nat n -> dig (k + n) v = repeat c0 k ++ dig n v.
Proof. intros H. rewrite dig_app, Z.div_small by lia. now rewrite dig_0. Qed.
Lemma firstn_dig k n v : firstn k (dig (k + n) v) = dig k (v / 2 ^ Z.of_nat n).
Proof.
  rewrite dig_app. rewrite firstn_app, dig_length, Nat.sub_diag. simpl.
  rewrite app_nil_r. apply firstn_all2. rewrite dig_length. lia.
Qed.
Lemma skipn_dig k n v : skipn k (dig (k + n) v) = dig n v.
Proof.
  rewrite dig_app, skipn_app, dig_length, Nat.sub_diag. simpl.
  rewrite skipn_all2 by (rewrite dig_length; lia). reflexivity.
Qed.

Lemma pbits_dig p : exists n, (1 <= n)%nat /\ pbits p = dig n (Zpos p) /\ Zpos p < 2 ^ Z.of_nat n
   /\ 2 ^ Z.of_nat (n - 1) <= Zpos p.
Proof.
  induction p as [p IH|p IH|].
  - destruct IH as (n & Hn & E & B & Bl). exists (S n). cbn [pbits]. rewrite E, dig_S_lsb, pow2_S.
    replace (Z.pos p~1 / 2) with (Z.pos p) by lia. repeat split; [lia|lia|].
    replace (S n - 1)%nat with (S (n - 1)) by lia. rewrite pow2_S. lia.
  - destruct IH as (n & Hn & E & B & Bl). exists (S n). cbn [pbits]. rewrite E, dig_S_lsb, pow2_S.
    replace (Z.pos p~0 / 2) with (Z.pos p) by lia. repeat split; [lia|lia|].
    replace (S n - 1)%nat with (S (n - 1)) by lia. rewrite pow2_S. lia.
  - exists 1%nat. repeat split; simpl; lia.
Qed.
Lemma Ibin_dig m : 0 <= m -> exists n, (1 <= n)%nat /\ Ibin m = dig n m /\ m < 2 ^ Z.of_nat n
  /\ (n = 1%nat \/ 2 ^ Z.of_nat (n - 1) <= m).
Proof.
  intros H. destruct m as [|p|p]; [|destruct (pbits_dig p) as (n & A & B & C & D); exists n; auto|lia].
  exists 1%nat. repeat split; [lia|now left].
Qed.
Lemma mkstr_ok n c : Z.of_nat n <= str_max -> mkstr (Z.of_nat n) c = Ok (repeat c n).
Proof.
  intros H. unfold mkstr. destruct (Z.ltb_spec str_max (Z.of_nat n)); [lia|].
  now rewrite Nat2Z.id.
Qed.
Lemma toULong_ok i : 0 <= i < two64 -> toULong i = Ok i.
Proof. intros H. unfold toULong. destruct (Z.ltb_spec i 0), (Z.leb_spec two64 i); simpl; auto; lia. Qed.
Lemma zlen_dig w v : zlen (dig w v) = Z.of_nat w.
Proof. unfold zlen. now rewrite dig_length. Qed.
Lemma substr_last w k v : (k <= w)%nat -> substr (dig w v) (Z.of_nat (w - k)) (Z.of_nat k) = Ok (dig k v).
Proof.
  intros H. unfold substr. rewrite zlen_dig. destruct (Z.ltb_spec (Z.of_nat w) (Z.of_nat (w - k))); [lia|].
  rewrite Nat2Z.id.
  assert (E : skipn (w - k) (dig w v) = dig k v).
  { pose proof (skipn_dig (w - k) k v) as E. now replace (w - k + k)%nat with w in E by lia. }
  rewrite E. rewrite firstn_all2; [reflexivity|]. rewrite dig_length. lia.
Qed.

Lemma intToBv_ok d w i : (0 < w)%nat -> fits w -> intToBv d i (Z.of_nat w) = Ok (lit w i).
Proof.
  intros Hw Hf. pose proof (fits_two64 w Hf) as H64. unfold intToBv.
  rewrite toULong_ok by lia. cbn [bind].
  replace (0 <? Z.of_nat w) with true by lia. rewrite condAssert_true. cbn [bind].
  unfold Ishl. rewrite Z.mul_1_l. unfold Imod. pose proof (pow2_pos w) as P.
  destruct (Z.eqb_spec (2 ^ Z.of_nat w) 0) as [?|_]; [lia|]. cbn [bind].
  assert (E : (if Z.rem i (2 ^ Z.of_nat w) <? 0 then Z.rem i (2 ^ Z.of_nat w) + 2 ^ Z.of_nat w
               else Z.rem i (2 ^ Z.of_nat w)) = uv w i).
  { unfold uv. set (p := 2 ^ Z.of_nat w) in *.
    pose proof (Z.rem_bound_abs i p ltac:(lia)). pose proof (Z.quot_rem i p ltac:(lia)) as Q.
    destruct (Z.ltb_spec (Z.rem i p) 0).
    - apply Z.mod_unique with (q := Z.quot i p - 1); lia.
    - apply Z.mod_unique with (q := Z.quot i p); lia. }
  rewrite E. pose proof (uv_bound w i) as B.
  destruct (Ibin_dig (uv w i) ltac:(lia)) as (n & Hn & En & Bn & Mn). rewrite En, zlen_dig.
  assert (Hnw : (n <= w)%nat).
  { destruct Mn as [->|Mn]; [lia|].
    destruct (Nat.leb_spec n w); [assumption|exfalso].
    assert (2 ^ Z.of_nat w <= 2 ^ Z.of_nat (n - 1)) by (apply Z.pow_le_mono_r; lia). lia. }
  rewrite <- lit_uv, lit_dig.
  destruct (Z.ltb_spec (Z.of_nat n) (Z.of_nat w)).
  - replace (Z.of_nat w - Z.of_nat n) with (Z.of_nat (w - n)) by lia.
    rewrite mkstr_ok by (unfold fits, str_max in *; lia). cbn [bind].
    rewrite <- dig_pad by lia. do 3 f_equal. lia.
  - destruct (Z.ltb_spec (Z.of_nat w) (Z.of_nat n)); [lia|].
    replace n with w by lia. reflexivity.
Qed.
Lemma natToBv_ok w k i : 0 <= i < 2 ^ Z.of_nat k -> fits k -> fits w ->
  natToBv i (Z.of_nat w) = Ok (lit w i).
Proof.
  intros Hi Hk Hf. pose proof (fits_two64 w Hf). pose proof (fits_two64 k Hk). unfold natToBv.
  destruct (Ibin_dig i ltac:(lia)) as (n & Hn & En & Bn & Mn). rewrite En, zlen_dig.
  rewrite toULong_ok by lia. cbn [bind]. rewrite lit_dig.
  assert (Hnk : (n <= S k)%nat).
  { destruct Mn as [->|Mn]; [lia|].
    destruct (Nat.leb_spec n (S k)); [assumption|exfalso].
    assert (2 ^ Z.of_nat k <= 2 ^ Z.of_nat (n - 1)) by (apply Z.pow_le_mono_r; lia). lia. }
  destruct (Z.ltb_spec (Z.of_nat n) (Z.of_nat w)).
  - rewrite u64_id by lia. replace (Z.of_nat w - Z.of_nat n) with (Z.of_nat (w - n)) by lia.
    rewrite mkstr_ok by (unfold fits, str_max in *; lia). cbn [bind].
    rewrite <- dig_pad by lia. do 3 f_equal. lia.
  - rewrite u64_id by lia. replace (Z.of_nat n - Z.of_nat w) with (Z.of_nat (n - w)) by lia.
    rewrite substr_last by lia. reflexivity.
Qed.

(** ** comparison *)
Definition cmpS (w : nat) (k : bvcmp) (a b : Z) : bool :=
  match k with
  | CEq => uv w a =? uv w b | CDistinct => negb (uv w a =? uv w b)
  | CUlt => uv w a <? uv w b | CUle => uv w a <=? uv w b
  | CUgt => uv w b <? uv w a | CUge => uv w b <=? uv w a
  | CSlt => sv w a <? sv w b | CSle => sv w a <=? sv w b
  | CSgt => sv w b <? sv w a | CSge => sv w b <=? sv w a
  | COther => false
  end.
Lemma seq_lit w a b : seq_str (lit w a) (lit w b) = (uv w a =? uv w b).
Proof.
  apply eq_true_iff_eq. rewrite seq_str_spec, Z.eqb_eq. split.
  - apply lit_inj.
  - apply lit_cong.
Qed.
Lemma bvComp_ok d w k a b : (0 < w)%nat -> fits w ->
  bvComp d (lit w a) (lit w b) k = Ok (cmpS w k a b).
Proof.
  intros Hw Hf. unfold bvComp. bvstart.
  destruct k; rewrite ?seq_lit, ?bvToNat_ok, ?bvToInt_ok by assumption; cbn [bind cmpS];
    rewrite ?Z.gtb_ltb, ?Z.geb_leb; reflexivity.
Qed.

(** ** subtraction *)
Lemma sub_loop_zero w : forall a, sub_loop (rdig w a) (rdig w 0) false = rdig w 0.
Proof.
  induction w as [|w IH]; intros a; [reflexivity|].
  rewrite !rdig_S. change (Z.odd 0) with false. change (0 / 2) with 0.
  cbn [sub_loop]. rewrite !aeq_ch0, !aeq_ch1. cbn [negb].
  destruct (Z.odd a); cbn [negb andb]; now rewrite IH.
Qed.
Lemma sub_loop_self w : forall a c, sub_loop (rdig w a) (rdig w a) c = rdig w (Z.lxor a (2 * a + Z.b2z c)).
Proof.
  induction w as [|w IH]; intros a c; [reflexivity|].
  rewrite !rdig_S. cbn [sub_loop]. rewrite !aeq_ch0, !aeq_ch1.
  assert (Hd : Z.lxor a (2 * a + Z.b2z c) / 2 = Z.lxor (a / 2) (2 * (a / 2) + Z.b2z (Z.odd a))).
  { rewrite <- !Z.div2_div, !Z.div2_spec, Z.shiftr_lxor. f_equal.
    rewrite <- !Z.div2_spec, !Z.div2_div. pose proof (odd_mod a). destruct c; simpl Z.b2z; lia. }
  assert (Ho : Z.odd (Z.lxor a (2 * a + Z.b2z c)) = xorb (Z.odd a) c).
  { rewrite <- !Z.bit0_odd, Z.lxor_spec. f_equal. rewrite Z.bit0_odd, Z.odd_add, Z.odd_mul.
    now destruct c. }
  rewrite Ho, Hd.
  destruct (Z.odd a), c; cbn [negb andb xorb Z.b2z]; rewrite IH; reflexivity.
Qed.
Lemma bvSub_zero d w a : fits w -> bvSub d (lit w a) (lit w 0) = Ok (lit w 0).
Proof.
  intros H. unfold bvSub. bvstart. rewrite !digits_of_lit by assumption. cbn [bind].
  now rewrite !dig_length, Nat.max_id, !pad_dig, !rev_dig, sub_loop_zero, rev_rdig, lit_dig.
Qed.
Lemma bvSub_self d w a : fits w -> bvSub d (lit w a) (lit w a) = Ok (lit w (Z.lxor a (2 * a))).
Proof.
  intros H. unfold bvSub. bvstart. rewrite !digits_of_lit by assumption. cbn [bind].
  rewrite !dig_length, Nat.max_id, !pad_dig, !rev_dig, sub_loop_self, rev_rdig, lit_dig.
  cbn [Z.b2z]. now rewrite Z.add_0_r.
Qed.
Lemma sub_loop_bits w : forall a b c, exists v, sub_loop (rdig w a) (rdig w b) c = rdig w v.
Proof.
  induction w as [|w IH]; intros a b c; [exists 0; reflexivity|].
  rewrite !rdig_S. cbn [sub_loop].
  assert (G : forall x c', exists v, bit x :: sub_loop (rdig w (a / 2)) (rdig w (b / 2)) c' = rdig (S w) v).
  { intros x c'. destruct (IH (a / 2) (b / 2) c') as [v Hv]. exists (v * 2 + Z.b2z x).
    rewrite rdig_S, Hv. f_equal.
    - rewrite Z.odd_add, Z.odd_mul, Bool.andb_false_r. now destruct x.
    - f_equal. destruct x; simpl Z.b2z; lia. }
  rewrite !aeq_ch0, !aeq_ch1. destruct (Z.odd a), (Z.odd b); cbn [negb andb]; apply G.
Qed.
Lemma bvSub_wf d w a b : fits w -> exists v, bvSub d (lit w a) (lit w b) = Ok (lit w v).
Proof.
  intros H. unfold bvSub. bvstart. rewrite !digits_of_lit by assumption. cbn [bind].
  rewrite !dig_length, Nat.max_id, !pad_dig, !rev_dig.
  destruct (sub_loop_bits w a b false) as [v Hv]. exists v. now rewrite Hv, rev_rdig, lit_dig.
Qed.

(** ** unsigned division *)
Lemma lex_ge_ok w : forall a b, lex_ge (dig w a) (dig w b) = (uv w b <=? uv w a).
Proof.
  induction w as [|w IH]; intros a b.
  - unfold uv. simpl. rewrite !Z.mod_1_r. reflexivity.
  - rewrite !dig_S_msb. cbn [lex_ge]. rewrite IH.
    assert (G : forall v, uv (S w) v = Z.b2z (Z.testbit v (Z.of_nat w)) * 2 ^ Z.of_nat w + uv w v).
    { intros v. unfold uv. rewrite <- !hv_dig, dig_S_msb, hv_cons, dig_length, bv1_ch. reflexivity. }
    rewrite !G. pose proof (uv_bound w a). pose proof (uv_bound w b).
    destruct (Z.testbit a _), (Z.testbit b _); cbn [Z.b2z ch];
      repeat match goal with |- context [Nat.ltb ?x ?y] => let r := eval vm_compute in (Nat.ltb x y) in
         change (Nat.ltb x y) with r end; cbn iota; lia.
Qed.
Lemma no_one_lit w v : no_one (lit w v) = (uv w v =? 0).
Proof.
  unfold no_one. rewrite lit_dig. change (skipn 2 (hashb ++ dig w v)) with (dig w v).
  unfold uv. revert v. induction w as [|w IH]; intros v.
  - simpl. rewrite Z.mod_1_r. reflexivity.
  - rewrite dig_S_lsb, forallb_app, IH. cbn [forallb]. rewrite aeq_ch1, mod_pow_S.
    pose proof (odd_mod v). pose proof (Z.mod_pos_bound (v / 2) (2 ^ Z.of_nat w) (pow2_pos w)).
    destruct (Z.odd v); cbn [Z.b2z negb andb] in *; lia.
Qed.
Lemma div_loop_ok d w a b : fits w -> forall bits rem k,
  dig w a = rem ++ bits -> k = length rem ->
  forall bit0 bits', bits = bit0 :: bits' ->
  div_loop d bits (dig w b) (repeat c0 k) rem =
  Ok (repeat c0 (w - 1) ++ [bit (uv w b <=? uv w a)]).
Proof.
  intros Hf. induction bits as [|x bits IH]; intros rem k E Hk b0 bits' Eb; [discriminate|].
  cbn [div_loop]. rewrite dig_length.
  assert (Hl : w = (length rem + S (length bits))%nat).
  { rewrite <- (dig_length w a), E, app_length. reflexivity. }
  rewrite app_length. cbn [length].
  destruct bits as [|y bits].
  - simpl in Hl. destruct (Nat.ltb_spec (length rem + 1) w); [lia|].
    destruct (Nat.eqb_spec (length rem + 1) w); [|lia]. cbn [negb].
    rewrite <- E, lex_ge_ok. replace k with (w - 1)%nat by lia.
    destruct (uv w b <=? uv w a).
    + destruct (bvSub_wf d w a b Hf) as [v Hv]. rewrite <- !lit_dig, Hv. cbn [bind].
      rewrite substr2_lit by assumption. cbn [bind div_loop]. reflexivity.
    + reflexivity.
  - cbn [length] in Hl. destruct (Nat.ltb_spec (length rem + 1) w); [|lia].
    assert (Er : repeat c0 k ++ [c0] = repeat c0 (S k)) by (cbn [repeat]; induction k as [|k' IHk] in |- *; simpl; [reflexivity|now rewrite IHk]).
    rewrite Er.
    eapply IH; [|rewrite app_length; simpl; lia|reflexivity].
    rewrite <- app_assoc. exact E.
Qed.
Lemma bvUdiv_nz d w a b : fits w -> uv w b <> 0 ->
  bvUdiv d (lit w a) (lit w b) = Ok (lit w (if uv w b <=? uv w a then 1 else 0)).
Proof.
  intros Hf Hb. unfold bvUdiv. bvstart. rewrite no_one_lit.
  destruct (Z.eqb_spec (uv w b) 0); [contradiction|].
  rewrite !digits_of_lit by assumption. cbn [bind].
  rewrite !dig_length, Nat.max_id, !pad_dig, <- lit_dig, no_one_lit.
  destruct (Z.eqb_spec (uv w b) 0); [contradiction|].
  assert (Hw : (0 < w)%nat). { destruct w; [|lia]. exfalso. apply Hb. unfold uv. simpl. apply Z.mod_1_r. }
  destruct w as [|w]; [lia|].
  pose proof (div_loop_ok d (S w) a b Hf (dig (S w) a) [] O eq_refl eq_refl _ _ (dig_S_msb w a)) as E.
  cbn [repeat] in E. rewrite E.
  cbn [bind]. rewrite lit_dig. do 2 f_equal. replace (S w - 1)%nat with w by lia.
  rewrite dig_S_lsb. replace ((if uv (S w) b <=? uv (S w) a then 1 else 0) / 2) with 0
    by (destruct (uv (S w) b <=? uv (S w) a); lia).
  rewrite dig_0. f_equal. destruct (uv (S w) b <=? uv (S w) a); reflexivity.
Qed.
Lemma bvUdiv_z d w a b : fits w -> uv w b = 0 ->
  bvUdiv d (lit w a) (lit w b) = Ok (lit w (2 ^ Z.of_nat w - 1)).
Proof.
  intros Hf Hb. pose proof (fits_two64 w Hf). unfold bvUdiv. bvstart. rewrite no_one_lit.
  destruct (Z.eqb_spec (uv w b) 0); [|contradiction].
  rewrite zlen_lit, u64_id by lia. replace (Z.of_nat w + 2 - 2) with (Z.of_nat w) by lia.
  rewrite mkstr_ok by (unfold fits, str_max in *; lia). cbn [bind].
  rewrite lit_dig. do 2 f_equal. rewrite <- dig_m1. apply dig_cong.
  replace (2 ^ Z.of_nat w - 1) with (-1 + 1 * 2 ^ Z.of_nat w) by lia.
  rewrite Z.mod_add; [reflexivity|]. pose proof (pow2_pos w). lia.
Qed.
Lemma bvUrem_z d w a b : uv w b = 0 -> bvUrem d (lit w a) (lit w b) = Ok (lit w a).
Proof.
  intros Hb. unfold bvUrem. bvstart. rewrite no_one_lit.
  destruct (Z.eqb_spec (uv w b) 0); [reflexivity|contradiction].
Qed.
Lemma bvUrem_nz d w a b : fits w -> uv w b <> 0 ->
  bvUrem d (lit w a) (lit w b) =
  if uv w b <=? uv w a then bvSub d (lit w a) (lit w b) else Ok (lit w 0).
Proof.
  intros Hf Hb. unfold bvUrem. bvstart. rewrite no_one_lit.
  destruct (Z.eqb_spec (uv w b) 0); [contradiction|].
  rewrite bvUdiv_nz by assumption. cbn [bind].
  assert (Hw : (0 < w)%nat). { destruct w; [|lia]. exfalso. apply Hb. unfold uv. simpl. apply Z.mod_1_r. }
  rewrite bvMul_ok by assumption. cbn [bind].
  destruct (uv w b <=? uv w a).
  - now rewrite Z.mul_1_l.
  - rewrite Z.mul_0_l. now apply bvSub_zero.
Qed.
