From Coq Require Import ZifyBool ZifyNat Znumtheory.
From Verif Require Import Base BVModel BVSpec.
Ltac Zify.zify_post_hook ::= Z.div_mod_to_equations.
Arguments Z.mul : simpl never.
Arguments Z.add : simpl never.
Arguments Z.sub : simpl never.
Arguments Z.pow : simpl never.
Arguments Z.div : simpl never.
Arguments Z.modulo : simpl never.

(** ** digits *)
Definition ch (b : bool) : ascii := if b then "1"%char else "0"%char.
Definition dig (w : nat) (v : Z) : str :=
  map (fun i => ch (Z.testbit v (Z.of_nat i))) (rev (seq 0 w)).
Definition rdig (w : nat) (v : Z) : str :=
  map (fun i => ch (Z.testbit v (Z.of_nat i))) (seq 0 w).

Lemma lit_dig w v : lit w v = hashb ++ dig w v.
Proof. reflexivity. Qed.
Lemma rev_dig w v : rev (dig w v) = rdig w v.
Proof. unfold dig, rdig. now rewrite map_rev, rev_involutive. Qed.
Lemma rev_rdig w v : rev (rdig w v) = dig w v.
Proof. unfold dig, rdig. now rewrite map_rev. Qed.
Lemma dig_length w v : length (dig w v) = w.
Proof. unfold dig. now rewrite map_length, rev_length, seq_length. Qed.
Lemma lit_length w v : length (lit w v) = (w + 2)%nat.
Proof. rewrite lit_dig, app_length, dig_length. simpl. lia. Qed.
Lemma has_b_lit w v : has_b (lit w v) = true.
Proof. reflexivity. Qed.
Lemma condAssert_true d : condAssert d true = Ok tt.
Proof. now destruct d. Qed.
Lemma bit_ch b : bit b = ch b. Proof. reflexivity. Qed.

Lemma testbit_S v i : Z.testbit v (Z.of_nat (S i)) = Z.testbit (v / 2) (Z.of_nat i).
Proof.
  replace (Z.of_nat (S i)) with (Z.of_nat i + 1) by lia.
  rewrite <- Z.div2_div. rewrite Z.div2_spec, Z.shiftr_spec; [reflexivity|lia].
Qed.
Lemma rdig_S w v : rdig (S w) v = ch (Z.odd v) :: rdig w (v / 2).
Proof.
  unfold rdig. simpl seq. rewrite map_cons. f_equal.
  rewrite <- seq_shift, map_map. apply map_ext. intros i. now rewrite testbit_S.
Qed.
Lemma dig_S_lsb w v : dig (S w) v = dig w (v / 2) ++ [ch (Z.odd v)].
Proof. rewrite <- rev_rdig, rdig_S. simpl. now rewrite rev_rdig. Qed.
Lemma dig_S_msb w v : dig (S w) v = ch (Z.testbit v (Z.of_nat w)) :: dig w v.
Proof. unfold dig. rewrite seq_S, rev_app_distr. reflexivity. Qed.

Lemma dig_ext w a b :
  (forall i, (i < w)%nat -> Z.testbit a (Z.of_nat i) = Z.testbit b (Z.of_nat i)) ->
  dig w a = dig w b.
Proof.
  intros H. unfold dig. apply map_ext_in. intros i Hi.
  apply in_rev in Hi. apply in_seq in Hi. rewrite H by lia. reflexivity.
Qed.
Lemma dig_mod w v : dig w (v mod 2 ^ Z.of_nat w) = dig w v.
Proof. apply dig_ext. intros i Hi. apply Z.mod_pow2_bits_low. lia. Qed.
Lemma dig_cong w a b : a mod 2 ^ Z.of_nat w = b mod 2 ^ Z.of_nat w -> dig w a = dig w b.
Proof. intros H. rewrite <- (dig_mod w a), H. apply dig_mod. Qed.
Lemma lit_cong w a b : a mod 2 ^ Z.of_nat w = b mod 2 ^ Z.of_nat w -> lit w a = lit w b.
Proof. intros H. rewrite !lit_dig. f_equal. now apply dig_cong. Qed.
Lemma lit_uv w a : lit w (uv w a) = lit w a.
Proof. apply lit_cong. unfold uv. rewrite Z.mod_mod; lia. Qed.

(** horner value of a digit string *)
Definition bv1 (c : ascii) : Z := if aeq c c1 then 1 else 0.
Definition hv (s : str) : Z := fold_left (fun r c => r * 2 + bv1 c) s 0.
Lemma hv_app s c : hv (s ++ [c]) = hv s * 2 + bv1 c.
Proof. unfold hv. now rewrite fold_left_app. Qed.
Lemma bv1_ch b : bv1 (ch b) = Z.b2z b. Proof. now destruct b. Qed.

Lemma pow2_pos n : 0 < 2 ^ Z.of_nat n.
Proof. apply Z.pow_pos_nonneg; lia. Qed.
Lemma pow2_S n : 2 ^ Z.of_nat (S n) = 2 * 2 ^ Z.of_nat n.
Proof. rewrite Nat2Z.inj_succ, Z.pow_succ_r; lia. Qed.

Lemma odd_mod v : Z.b2z (Z.odd v) = v mod 2.
Proof. rewrite <- Z.bit0_odd, Z.bit0_mod. reflexivity. Qed.

Lemma mod_pow_S v w : v mod 2 ^ Z.of_nat (S w) = (v / 2) mod 2 ^ Z.of_nat w * 2 + v mod 2.
Proof.
  rewrite pow2_S. rewrite Z.rem_mul_r by (pose proof (pow2_pos w); lia). lia.
Qed.
Lemma hv_dig w v : hv (dig w v) = v mod 2 ^ Z.of_nat w.
Proof.
  revert v. induction w as [|w IH]; intros v.
  - simpl. rewrite Z.mod_1_r. reflexivity.
  - rewrite dig_S_lsb, hv_app, IH, bv1_ch, odd_mod, mod_pow_S. reflexivity.
Qed.
Lemma lit_inj w a b : lit w a = lit w b -> a mod 2 ^ Z.of_nat w = b mod 2 ^ Z.of_nat w.
Proof.
  rewrite !lit_dig. intros H. apply app_inv_head in H.
  rewrite <- !hv_dig. now rewrite H.
Qed.
Lemma dig_inj_len w w' a b : dig w a = dig w' b -> w = w'.
Proof. intros H. rewrite <- (dig_length w a), H. apply dig_length. Qed.

(** ** the index loops *)
Lemma dig_idx w v : dig w v = map (fun i => ch (Z.testbit v (Z.of_nat (w - 1 - i)))) (seq 0 w).
Proof.
  induction w as [|w IH]; [reflexivity|].
  rewrite dig_S_msb, IH. simpl seq. rewrite map_cons. f_equal.
  - do 2 f_equal. lia.
  - rewrite <- seq_shift, map_map. apply map_ext. intros i. do 3 f_equal. lia.
Qed.
Lemma nth_dig w v i : (i < w)%nat -> nth i (dig w v) nul = ch (Z.testbit v (Z.of_nat (w - 1 - i))).
Proof.
  intros H. rewrite dig_idx.
  set (f := fun i => _).
  rewrite nth_indep with (d' := f O) by (rewrite map_length, seq_length; lia).
  rewrite (map_nth f). unfold f. rewrite seq_nth by lia. reflexivity.
Qed.
Lemma at_lit w v i : (i < w)%nat ->
  at_ (lit w v) (2 + i) = Ok (ch (Z.testbit v (Z.of_nat (w - 1 - i)))).
Proof.
  intros H. unfold at_. rewrite lit_length.
  destruct (Nat.ltb_spec (2 + i) (w + 2)); [|lia].
  rewrite lit_dig. change (2 + i)%nat with (length hashb + i)%nat.
  rewrite app_nth2_plus. now rewrite nth_dig.
Qed.
Lemma foldM_snoc (body : nat -> res ascii) g l : forall acc,
  (forall i, In i l -> body i = Ok (g i)) ->
  foldM (fun r i => c <- body i ;; Ok (r ++ [c])) acc l = Ok (acc ++ map g l).
Proof.
  induction l as [|i l IH]; intros acc H; simpl.
  - now rewrite app_nil_r.
  - rewrite H by now left. simpl. rewrite IH by (intros; apply H; now right).
    now rewrite <- app_assoc.
Qed.
Lemma loop2_lit w v body g :
  (forall i, (i < w)%nat -> body (2 + i)%nat = Ok (g i)) ->
  loop2 (lit w v) body = Ok (hashb ++ map g (seq 0 w)).
Proof.
  intros H. unfold loop2. rewrite lit_length.
  replace (w + 2 - 2)%nat with w by lia.
  rewrite (foldM_snoc body (fun i => g (i - 2)%nat)).
  - do 2 f_equal. rewrite <- !seq_shift, !map_map. apply map_ext. intros i. f_equal. lia.
  - intros i Hi. apply in_seq in Hi. rewrite <- (H (i - 2)%nat) by lia. f_equal. lia.
Qed.

Ltac bvstart := rewrite ?has_b_lit, ?condAssert_true; cbn [bind].
Ltac bitwise :=
  bvstart;
  match goal with |- loop2 _ ?body = Ok (lit ?w ?v) =>
    rewrite (loop2_lit _ _ body (fun i => ch (Z.testbit v (Z.of_nat (w - 1 - i)))));
    [ rewrite lit_dig, dig_idx; reflexivity
    | let i := fresh "i" in let Hi := fresh "Hi" in intros i Hi;
      rewrite !at_lit by assumption; cbn [bind];
      rewrite ?Z.lnot_spec, ?Z.land_spec, ?Z.lor_spec, ?Z.lxor_spec by lia;
      rewrite ?Z.lnot_spec, ?Z.land_spec, ?Z.lor_spec, ?Z.lxor_spec by lia;
      repeat match goal with |- context [Z.testbit ?x ?k] => destruct (Z.testbit x k) end;
      reflexivity ]
  end.

Lemma bvNot_ok d w a : bvNot d (lit w a) = Ok (lit w (Z.lnot a)).
Proof. unfold bvNot. bitwise. Qed.
Lemma bvAnd_ok d w a b : bvAnd d (lit w a) (lit w b) = Ok (lit w (Z.land a b)).
Proof. unfold bvAnd. bitwise. Qed.
Lemma bvOr_ok d w a b : bvOr d (lit w a) (lit w b) = Ok (lit w (Z.lor a b)).
Proof. unfold bvOr. bitwise. Qed.
Lemma bvXor_ok d w a b : bvXor d (lit w a) (lit w b) = Ok (lit w (Z.lxor a b)).
Proof. unfold bvXor. bitwise. Qed.
Lemma bvNand_ok d w a b : bvNand d (lit w a) (lit w b) = Ok (lit w (Z.lnot (Z.land a b))).
Proof. unfold bvNand. bitwise. Qed.
Lemma bvNor_ok d w a b : bvNor d (lit w a) (lit w b) = Ok (lit w (Z.lnot (Z.lor a b))).
Proof. unfold bvNor. bitwise. Qed.
Lemma bvXnor_ok d w a b : bvXnor d (lit w a) (lit w b) = Ok (lit w (Z.lnot (Z.lxor a b))).
Proof. unfold bvXnor. bitwise. Qed.

(** ** substr on literals *)
Lemma zlen_lit w v : zlen (lit w v) = Z.of_nat w + 2.
Proof. unfold zlen. rewrite lit_length. lia. Qed.
Lemma u64_id x : 0 <= x < two64 -> u64 x = x.
Proof. intros H. unfold u64. apply Z.mod_small. exact H. Qed.
Lemma fits_two64 w : fits w -> Z.of_nat w + 2 < two64.
Proof. unfold fits, two64. lia. Qed.
Lemma substr_lit w v p n :
  2 <= p <= Z.of_nat w + 2 ->
  substr (lit w v) p n =
  Ok (firstn (Z.to_nat (Z.min n (Z.of_nat w + 2 - p))) (skipn (Z.to_nat (p - 2)) (dig w v))).
Proof.
  intros H. unfold substr. rewrite zlen_lit.
  destruct (Z.ltb_spec (Z.of_nat w + 2) p); [lia|]. do 2 f_equal.
  replace (Z.to_nat p) with (2 + Z.to_nat (p - 2))%nat by lia.
  reflexivity.
Qed.
Lemma digits_of_lit w v : fits w -> digits_of (lit w v) = Ok (dig w v).
Proof.
  intros H. pose proof (fits_two64 w H). unfold digits_of. rewrite zlen_lit.
  rewrite u64_id by lia. rewrite substr_lit by lia. simpl skipn.
  rewrite firstn_all2; [reflexivity|]. rewrite dig_length. lia.
Qed.
Lemma substr2_lit w v : fits w -> substr (lit w v) 2 npos = Ok (dig w v).
Proof.
  intros H. pose proof (fits_two64 w H). rewrite substr_lit by lia. simpl skipn.
  rewrite firstn_all2; [reflexivity|]. rewrite dig_length. unfold npos. lia.
Qed.
Lemma pad_dig w v : pad_to w (dig w v) = dig w v.
Proof. unfold pad_to. rewrite dig_length, Nat.sub_diag. reflexivity. Qed.

(** ** add *)
Lemma aeq_ch0 b : aeq (ch b) c0 = negb b. Proof. now destruct b. Qed.
Lemma aeq_ch1 b : aeq (ch b) c1 = b. Proof. now destruct b. Qed.
Lemma odd_add3 a b c : Z.odd (a + b + Z.b2z c) = xorb (xorb (Z.odd a) (Z.odd b)) c.
Proof. rewrite !Z.odd_add. now destruct c. Qed.
Lemma add_loop_ok w : forall a b c,
  add_loop (rdig w a) (rdig w b) c = rdig w (a + b + Z.b2z c).
Proof.
  induction w as [|w IH]; intros a b c; [reflexivity|].
  rewrite !rdig_S. cbn [add_loop]. rewrite !aeq_ch0, !aeq_ch1.
  rewrite odd_add3.
  pose proof (odd_mod a) as Ha. pose proof (odd_mod b) as Hb.
  destruct (Z.odd a), (Z.odd b), c; cbn [negb andb xorb Z.b2z] in *;
    rewrite IH; f_equal; f_equal; cbn [Z.b2z]; lia.
Qed.
Lemma bvAdd_ok d w a b : fits w -> bvAdd d (lit w a) (lit w b) = Ok (lit w (a + b)).
Proof.
  intros H. unfold bvAdd. bvstart. rewrite !digits_of_lit by assumption. cbn [bind].
  rewrite !dig_length, Nat.max_id, !pad_dig, !rev_dig.
  rewrite add_loop_ok, rev_rdig, lit_dig. cbn [Z.b2z]. now rewrite Z.add_0_r.
Qed.

(** ** neg *)
Lemma neg_carry_ok w : forall v, neg_carry (rdig w v) = rdig w (v + 1).
Proof.
  induction w as [|w IH]; intros v; [reflexivity|].
  rewrite !rdig_S. cbn [neg_carry]. rewrite aeq_ch0.
  pose proof (odd_mod v) as Hv. pose proof (odd_mod (v + 1)) as Hv1.
  rewrite Z.odd_add in *. change (Z.odd 1) with true in *.
  destruct (Z.odd v); cbn [negb xorb Z.b2z] in *.
  - rewrite IH. f_equal. f_equal. lia.
  - f_equal. f_equal. lia.
Qed.
Lemma map_flip_dig w v : map flip (dig w v) = dig w (Z.lnot v).
Proof.
  unfold dig. rewrite map_map. apply map_ext. intros i.
  rewrite Z.lnot_spec by lia. now destruct (Z.testbit v (Z.of_nat i)).
Qed.
Lemma bvNeg_ok d w a : bvNeg d (lit w a) = Ok (lit w (- a)).
Proof.
  unfold bvNeg. bvstart. rewrite !lit_dig.
  change (firstn 2 (hashb ++ dig w a)) with hashb.
  change (skipn 2 (hashb ++ dig w a)) with (dig w a).
  rewrite map_flip_dig.
  change (firstn 2 (hashb ++ dig w (Z.lnot a))) with hashb.
  change (skipn 2 (hashb ++ dig w (Z.lnot a))) with (dig w (Z.lnot a)).
  rewrite rev_dig, neg_carry_ok, rev_rdig. do 3 f_equal.
  unfold Z.lnot. lia.
Qed.

(** ** mul *)
Definition zv (l : list Z) : Z := fold_left (fun r x => r * 2 + x) l 0.
Lemma fold_horner l : forall a,
  fold_left (fun r x => r * 2 + x) l a = a * 2 ^ Z.of_nat (length l) + zv l.
Proof.
  unfold zv. induction l as [|x l IH]; intros a.
  - simpl. rewrite Z.pow_0_r. lia.
  - cbn [fold_left length]. rewrite IH. rewrite (IH (0 * 2 + x)). rewrite pow2_S. lia.
Qed.
Lemma zv_cons x l : zv (x :: l) = x * 2 ^ Z.of_nat (length l) + zv l.
Proof. unfold zv at 1. cbn [fold_left]. rewrite fold_horner. lia. Qed.
Lemma zv_app l1 l2 : zv (l1 ++ l2) = zv l1 * 2 ^ Z.of_nat (length l2) + zv l2.
Proof. unfold zv at 1. rewrite fold_left_app. rewrite fold_horner. reflexivity. Qed.

Lemma upd_add_length l : forall k d, length (upd_add l k d) = length l.
Proof. induction l as [|x l IH]; intros [|k] d; simpl; auto. Qed.
Lemma set_nth_length l : forall k d, length (set_nth l k d) = length l.
Proof. induction l as [|x l IH]; intros [|k] d; simpl; auto. Qed.
Lemma upd_add_zv l : forall k d, (k < length l)%nat ->
  zv (upd_add l k d) = zv l + d * 2 ^ Z.of_nat (length l - 1 - k).
Proof.
  induction l as [|x l IH]; intros k d H; [simpl in H; lia|].
  destruct k as [|k]; cbn [upd_add].
  - rewrite !zv_cons. cbn [length]. replace (S (length l) - 1 - 0)%nat with (length l) by lia. lia.
  - simpl in H. rewrite !zv_cons, upd_add_length, IH by lia. cbn [length].
    replace (S (length l) - 1 - S k)%nat with (length l - 1 - k)%nat by lia. lia.
Qed.
Lemma set_nth_upd l : forall k v, set_nth l k v = upd_add l k (v - nth k l 0).
Proof.
  induction l as [|x l IH]; intros [|k] v; simpl; try reflexivity.
  - f_equal. lia.
  - f_equal. apply IH.
Qed.
Lemma nth_upd_add l : forall k j d, (k < length l)%nat ->
  nth j (upd_add l k d) 0 = nth j l 0 + (if Nat.eqb j k then d else 0).
Proof.
  induction l as [|x l IH]; intros k j d H; [simpl in H; lia|].
  destruct k as [|k]; destruct j as [|j]; cbn [upd_add nth Nat.eqb]; try lia.
  apply IH. simpl in H. lia.
Qed.

Fixpoint sumn (f : nat -> Z) (n : nat) : Z :=
  match n with O => 0 | S n' => sumn f n' + f n' end.
Lemma sumn_ext f g n : (forall i, (i < n)%nat -> f i = g i) -> sumn f n = sumn g n.
Proof. induction n as [|n IH]; intros H; simpl; [reflexivity|]. rewrite IH, H; auto. Qed.
Lemma sumn_scale f n c : sumn (fun i => c * f i) n = c * sumn f n.
Proof. induction n as [|n IH]; simpl; lia. Qed.
Lemma sumn_shift f n : sumn f (S n) = f O + sumn (fun i => f (S i)) n.
Proof. induction n as [|n IH]; [simpl; lia|]. simpl in *. lia. Qed.

Lemma hv_cons c s : hv (c :: s) = bv1 c * 2 ^ Z.of_nat (length s) + hv s.
Proof.
  assert (H: forall s, hv s = zv (map bv1 s)).
  { intros s0. unfold hv, zv. generalize 0.
    induction s0 as [|x s0 IH]; intros a; simpl; auto. }
  rewrite !H. simpl map. rewrite zv_cons, map_length. reflexivity.
Qed.
Lemma hv_sum s : hv s = sumn (fun j => bv1 (nth j s nul) * 2 ^ Z.of_nat (length s - 1 - j)) (length s).
Proof.
  induction s as [|c s IH]; [reflexivity|].
  rewrite hv_cons, IH. cbn [length]. rewrite sumn_shift.
  replace (S (length s) - 1 - 0)%nat with (length s) by lia. f_equal.
  apply sumn_ext. intros i Hi. cbn [nth]. do 3 f_equal. lia.
Qed.

Lemma mul_inner_ok bin1 n i : (1 <= i <= n)%nat -> forall j r, (j <= n)%nat ->
  length r = (n * 2)%nat ->
  length (mul_inner bin1 i j r) = (n * 2)%nat /\
  zv (mul_inner bin1 i j r) =
    zv r + 2 ^ Z.of_nat (n - i) * sumn (fun k => bv1 (nth k bin1 nul) * 2 ^ Z.of_nat (n - 1 - k)) j.
Proof.
  intros Hi. induction j as [|j IH]; intros r Hj Hr; cbn [mul_inner sumn].
  - split; [assumption|lia].
  - assert (Hb : bv1 (nth j bin1 nul) = if aeq (nth j bin1 nul) c1 then 1 else 0) by reflexivity.
    rewrite Hb; clear Hb. destruct (aeq (nth j bin1 nul) c1).
    + assert (Hk : (i - 1 + (S j - 1) + 1 < length r)%nat) by lia.
      destruct (IH (upd_add r (i - 1 + (S j - 1) + 1) 1)) as [E1 E2];
        [lia|now rewrite upd_add_length|]. split; [assumption|].
      rewrite E2, upd_add_zv by assumption. rewrite Hr.
      replace (n * 2 - 1 - (i - 1 + (S j - 1) + 1))%nat with ((n - i) + (n - 1 - j))%nat by lia.
      rewrite Nat2Z.inj_add, Z.pow_add_r by lia. ring.
    + destruct (IH r) as [E1 E2]; [lia|assumption|]. split; [assumption|]. rewrite E2. lia.
Qed.
Lemma mul_outer_ok bin1 bin2 n : length bin1 = n -> forall i r, (i <= n)%nat ->
  length r = (n * 2)%nat ->
  length (mul_outer bin1 bin2 n i r) = (n * 2)%nat /\
  zv (mul_outer bin1 bin2 n i r) =
    zv r + hv bin1 * sumn (fun k => bv1 (nth k bin2 nul) * 2 ^ Z.of_nat (n - 1 - k)) i.
Proof.
  intros Hl. induction i as [|i IH]; intros r Hi Hr; cbn [mul_outer sumn].
  - split; [assumption|lia].
  - assert (Hb : bv1 (nth i bin2 nul) = if aeq (nth i bin2 nul) c1 then 1 else 0) by reflexivity.
    rewrite Hb; clear Hb. destruct (aeq (nth i bin2 nul) c1).
    + destruct (mul_inner_ok bin1 n (S i) ltac:(lia) n r ltac:(lia) Hr) as [E1 E2].
      destruct (IH (mul_inner bin1 (S i) n r)) as [F1 F2]; [lia|assumption|].
      split; [assumption|]. rewrite F2, E2.
      rewrite (hv_sum bin1), Hl. replace (n - 1 - i)%nat with (n - S i)%nat by lia. ring.
    + destruct (IH r) as [F1 F2]; [lia|assumption|]. split; [assumption|]. rewrite F2. lia.
Qed.
(* all entries stay non-negative *)
Lemma upd_add_nonneg l k d : (forall j, 0 <= nth j l 0) -> 0 <= d ->
  forall j, 0 <= nth j (upd_add l k d) 0.
Proof.
  intros H Hd j. destruct (Nat.ltb_spec k (length l)).
  - rewrite nth_upd_add by assumption. specialize (H j). destruct (Nat.eqb j k); lia.
  - replace (upd_add l k d) with l; [apply H|].
    clear -H0. revert k H0. induction l as [|x l IH]; intros [|k] Hk; simpl in *; try reflexivity; try lia.
    f_equal. apply IH. lia.
Qed.
Lemma mul_inner_nonneg bin1 i : forall j r, (forall k, 0 <= nth k r 0) ->
  forall k, 0 <= nth k (mul_inner bin1 i j r) 0.
Proof.
  induction j as [|j IH]; intros r H k; cbn [mul_inner]; [apply H|].
  apply IH. destruct (aeq _ _); [|exact H]. intros k'. apply upd_add_nonneg; [exact H|lia].
Qed.
Lemma mul_outer_nonneg bin1 bin2 n : forall i r, (forall k, 0 <= nth k r 0) ->
  forall k, 0 <= nth k (mul_outer bin1 bin2 n i r) 0.
Proof.
  induction i as [|i IH]; intros r H k; cbn [mul_outer]; [apply H|].
  apply IH. destruct (aeq _ _); [|exact H]. now apply mul_inner_nonneg.
Qed.
Lemma mul_carry_ok : forall k r, (k < length r)%nat ->
  (forall j, 0 <= nth j r 0) -> (forall j, (k < j)%nat -> nth j r 0 <= 1) ->
  length (mul_carry k r) = length r /\ zv (mul_carry k r) = zv r /\
  (forall j, 0 <= nth j (mul_carry k r) 0) /\
  (forall j, (0 < j)%nat -> nth j (mul_carry k r) 0 <= 1).
Proof.
  induction k as [|k IH]; intros r Hk Hnn Hle; cbn [mul_carry].
  - repeat split; auto.
  - set (v := nth (S k) r 0). pose proof (Hnn (S k)) as Hv. fold v in Hv.
    destruct (Z.leb_spec 2 v) as [H2|H2].
    + rewrite set_nth_upd.
      rewrite nth_upd_add by lia. replace (Nat.eqb (S k) k) with false by (symmetry; apply Nat.eqb_neq; lia).
      fold v. rewrite Z.add_0_r.
      rewrite Z.quot_div_nonneg, Z.rem_mod_nonneg by lia.
      set (r' := upd_add (upd_add r k (v / 2)) (S k) (v mod 2 - v)).
      assert (Hn : forall j, nth j r' 0 = nth j r 0 + (if Nat.eqb j k then v / 2 else 0)
                              + (if Nat.eqb j (S k) then v mod 2 - v else 0)).
      { intros j. unfold r'. rewrite nth_upd_add by (rewrite upd_add_length; lia).
        rewrite nth_upd_add by lia. reflexivity. }
      destruct (IH r') as (E1 & E2 & E3 & E4).
      * unfold r'. rewrite !upd_add_length. lia.
      * intros j. rewrite Hn. specialize (Hnn j). fold v.
        destruct (Nat.eqb_spec j k) as [Ej|Ej], (Nat.eqb_spec j (S k)) as [Fj|Fj]; try lia.
        rewrite Fj in *. fold v. pose proof (Z.mod_pos_bound v 2). lia.
      * intros j Hj. rewrite Hn.
        destruct (Nat.eqb_spec j k) as [Ej|Ej], (Nat.eqb_spec j (S k)) as [Fj|Fj]; try lia.
        -- rewrite Fj in *. fold v. pose proof (Z.mod_pos_bound v 2). lia.
        -- specialize (Hle j). lia.
      * repeat split; auto.
        -- rewrite E1. unfold r'. now rewrite !upd_add_length.
        -- rewrite E2. unfold r'. rewrite upd_add_zv by (rewrite upd_add_length; lia).
           rewrite upd_add_length, upd_add_zv by lia.
           replace (length r - 1 - k)%nat with (S (length r - 1 - S k)) by lia.
           rewrite pow2_S.
           set (P := 2 ^ Z.of_nat (length r - 1 - S k)).
           rewrite (Z.div_mod v 2) at 3 by lia. lia.
    + apply IH; [lia|assumption|]. intros j Hj.
      destruct (Nat.eq_dec j (S k)) as [->|]; [fold v; lia|]. apply Hle. lia.
Qed.

Lemma bits01_dig l : Forall (fun x => 0 <= x <= 1) l ->
  map (fun v => bit (negb (v =? 0))) l = dig (length l) (zv l).
Proof.
  intros H. assert (G : forall l, Forall (fun x => 0 <= x <= 1) l -> 0 <= zv l < 2 ^ Z.of_nat (length l)).
  { clear. intros l H. induction H as [|x l Hx H IH].
    - unfold zv. simpl. rewrite Z.pow_0_r. lia.
    - rewrite zv_cons. cbn [length]. rewrite pow2_S. nia. }
  induction H as [|x l Hx H IH]; [reflexivity|].
  cbn [map length]. rewrite dig_S_msb, zv_cons. specialize (G l H).
  f_equal.
  - rewrite <- (Z.add_0_l (Z.of_nat (length l))) at 2.
    replace (x * 2 ^ Z.of_nat (length l) + zv l) with (zv l + x * 2 ^ Z.of_nat (length l)) by lia.
    assert (Z.testbit (zv l + x * 2 ^ Z.of_nat (length l)) (Z.of_nat (length l)) = Z.odd x) as Hb.
    { rewrite Z.testbit_odd, Z.shiftr_div_pow2 by lia.
      rewrite Z.div_add by (pose proof (pow2_pos (length l)); lia).
      rewrite Z.div_small by lia. reflexivity. }
    rewrite Z.add_0_l, Hb. assert (x = 0 \/ x = 1) as [->| ->] by lia; reflexivity.
  - rewrite IH. apply dig_cong. rewrite Z.add_comm, Z.mod_add by (pose proof (pow2_pos (length l)); lia).
    reflexivity.
Qed.
Lemma bvMul_ok d w a b : (0 < w)%nat -> fits w -> bvMul d (lit w a) (lit w b) = Ok (lit w (a * b)).
Proof.
  intros Hw H. unfold bvMul. bvstart. rewrite !substr2_lit by assumption. cbn [bind].
  rewrite !dig_length, Nat.max_id, !pad_dig.
  destruct (Nat.eqb_spec w 0); [lia|].
  assert (Hz : zv (repeat 0 (w * 2)) = 0).
  { generalize (w * 2)%nat. intros k. induction k; [reflexivity|]. cbn [repeat].
    rewrite zv_cons. lia. }
  assert (Hz0 : forall k, 0 <= nth k (repeat 0 (w * 2)) 0).
  { intros k. rewrite nth_repeat. lia. }
  destruct (mul_outer_ok (dig w a) (dig w b) w (dig_length _ _) w (repeat 0 (w * 2)) ltac:(lia)
              (repeat_length _ _)) as [E1 E2].
  pose proof (mul_outer_nonneg (dig w a) (dig w b) w w _ Hz0) as E3.
  set (r := mul_outer _ _ _ _ _) in *.
  destruct (mul_carry_ok (w * 2 - 1) r) as (F1 & F2 & F3 & F4).
  { lia. } { exact E3. }
  { intros j Hj. rewrite nth_overflow by lia. lia. }
  set (r' := mul_carry _ _) in *.
  rewrite lit_dig. do 2 f_equal.
  assert (Hlen : length (skipn (w * 2 - w) r') = w) by (rewrite skipn_length; lia).
  rewrite bits01_dig.
  - rewrite Hlen. apply dig_cong.
    assert (zv r' = zv (firstn (w * 2 - w) r') * 2 ^ Z.of_nat w + zv (skipn (w * 2 - w) r')) as Hs.
    { rewrite <- (firstn_skipn (w * 2 - w) r') at 1. rewrite zv_app, Hlen. reflexivity. }
    rewrite <- (Z.mod_add (zv (skipn (w * 2 - w) r')) (zv (firstn (w * 2 - w) r')))
      by (pose proof (pow2_pos w); lia).
    rewrite Z.add_comm, <- Hs, F2, E2, Hz, Z.add_0_l.
    pose proof (hv_sum (dig w b)) as Hb. rewrite dig_length in Hb.
    rewrite <- Hb. rewrite !hv_dig.
    rewrite <- Z.mul_mod by (pose proof (pow2_pos w); lia). reflexivity.
  - apply Forall_forall. intros x Hx. apply In_nth with (d := 0) in Hx.
    destruct Hx as (j & Hj & <-).
    assert (Hn : nth j (skipn (w * 2 - w) r') 0 = nth ((w * 2 - w) + j) r' 0).
    { rewrite <- (firstn_skipn (w * 2 - w) r') at 2.
      rewrite app_nth2; rewrite firstn_length_le by lia; [f_equal; lia|lia]. }
    rewrite Hn. split; [apply F3|apply F4; lia].
Qed.
