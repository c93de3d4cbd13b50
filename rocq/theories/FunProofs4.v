(** Proofs about the elementary functions: part 4, positive integer powers of intervals with integer or
    infinite bounds (of any size). *)
From Coq Require Import Reals QArith Qreals Qround Qabs ZArith List Bool Lia Lra.
From Verif Require Import Base NumModel RoundModel NumSpec NumProofs NumMore FunModel FunSpec FunProofs FunProofs2 FunProofs3.
Open Scope R_scope.

(** ** powers of reals *)
Lemma pow_pos_lt k x y : 0 <= x -> x < y -> x ^ S k < y ^ S k.
Proof.
  intros P L. induction k as [|k IH]; [rewrite !pow_1; exact L|]. rewrite (tech_pow_Rmult x), (tech_pow_Rmult y) || idtac.
  change (x ^ S (S k)) with (x * x ^ S k). change (y ^ S (S k)) with (y * y ^ S k). pose proof (pow_le x (S k) P). apply Rle_lt_trans with (y * x ^ S k); [apply Rmult_le_compat_r; lra|apply Rmult_lt_compat_l; lra].
Qed.
Lemma pow_pos_le k x y : 0 <= x -> x <= y -> x ^ k <= y ^ k. Proof. intros P L. apply pow_incr. lra. Qed.
Lemma pow_neg_even k x : Nat.even k = true -> (- x) ^ k = x ^ k.
Proof. intros E. apply Nat.even_spec in E. destruct E as (m & ->). rewrite !pow_mult. f_equal. ring. Qed.
Lemma pow_neg_odd k x : Nat.even k = false -> (- x) ^ k = - x ^ k.
Proof.
  intros E. assert (O : Nat.odd k = true) by (unfold Nat.odd; now rewrite E). apply Nat.odd_spec in O. destruct O as (m & ->). rewrite Nat.add_1_r. cbn [pow]. rewrite (pow_neg_even (2 * m)); [ring|]. apply Nat.even_spec. now exists m.
Qed.
Lemma pow_abs_even k x : Nat.even k = true -> x ^ k = Rabs x ^ k.
Proof. intros E. unfold Rabs. destruct (Rcase_abs x); [symmetry; now apply pow_neg_even|reflexivity]. Qed.
Lemma pow_odd_lt k x y : Nat.even k = false -> x < y -> x ^ k < y ^ k.
Proof.
  intros E L. destruct k as [|k]; [discriminate|]. destruct (Rle_lt_dec 0 x) as [P|P]; [now apply pow_pos_lt|]. destruct (Rle_lt_dec y 0) as [Q|Q].
  - pose proof (pow_pos_lt k (- y) (- x) ltac:(lra) ltac:(lra)) as X. rewrite !pow_neg_odd in X by exact E. lra.
  - pose proof (pow_pos_lt k 0 y ltac:(lra) Q) as X. rewrite pow_i in X by lia. pose proof (pow_pos_lt k 0 (- x) ltac:(lra) ltac:(lra)) as Y. rewrite pow_i, pow_neg_odd in Y by (exact E || lia). lra.
Qed.
Lemma pow_odd_le k x y : Nat.even k = false -> x <= y -> x ^ k <= y ^ k.
Proof. intros E [L| ->]; [left; now apply pow_odd_lt|right; reflexivity]. Qed.

(** ** bounds *)
Section E.
Context (M : mpfr) (n : Z) (Hn : (0 < n <= 2147483647)%Z).
Notation k := (Z.to_nat n).
Notation r := rn128.
Notation p m := (n_pow M m (NI n)).
Lemma powI z : p (NI z) = NI (z ^ n).
Proof. unfold n_pow. replace ((0 <=? n) && (n <? 2 ^ 64))%Z with true; [reflexivity|]. symmetry. apply andb_true_iff. split; [apply Z.leb_le; lia|apply Z.ltb_lt; lia]. Qed.
Lemma powR z : IZR (z ^ n) = IZR z ^ k. Proof. rewrite pow_IZR. now rewrite Z2Nat.id by lia. Qed.
Lemma rn_n : (r (inject_Z n) == inject_Z n)%Q. Proof. apply rn_exact; [lia|]. apply reprZ. lia. Qed.
Lemma powInf s : p (NR (Inf s)) = NR (Inf (s && Z.odd n)).
Proof.
  assert (E0 : Qeq_bool (r (inject_Z n)) 0 = false).
  { destruct (Qeq_bool (r (inject_Z n)) 0) eqn:E; [|reflexivity]. apply Qeq_bool_iff in E. rewrite rn_n in E. change 0%Q with (inject_Z 0) in E. apply (proj1 (inj_eq _ _)) in E. lia. }
  assert (E1 : qlt 0 (r (inject_Z n)) = true). { destruct (qlt_spec 0 (r (inject_Z n))) as [|K]; [reflexivity|]. exfalso. apply K. rewrite rn_n. change 0%Q with (inject_Z 0). rewrite <- Zlt_Qlt. lia. }
  assert (E2 : Qfloor (r (inject_Z n)) = n) by (rewrite rn_n; apply Qfloor_Z).
  unfold n_pow. cbn [toReal h_pow]. rewrite E0, E1. unfold qodd. rewrite E2. replace (Qeq_bool (r (inject_Z n)) (inject_Z n)) with true by (symmetry; apply Qeq_bool_iff; apply rn_n). reflexivity.
Qed.
Lemma even_nat : Nat.even k = Z.even n.
Proof.
  destruct (Z.even n) eqn:E.
  - apply Z.even_spec in E. destruct E as (m & E). apply Nat.even_spec. exists (Z.to_nat m). lia.
  - apply not_true_iff_false. intros K. apply Nat.even_spec in K. destruct K as (m & K). assert (n = 2 * Z.of_nat m)%Z as X by lia. rewrite X, Z.even_mul in E. discriminate.
Qed.
Lemma kS : exists m, k = S m. Proof. exists (pred k). lia. Qed.
Lemma low_pos m c x : whole m -> n_ge r m (NI 0) = true -> (forall s, m <> NR (Inf s)) -> lowR (val m) c x -> lowR (val (p m)) c (x ^ k).
Proof.
  intros W G NI' L. destruct m as [z|[|s|q]]; try contradiction; [|now elim (NI' s)]. rewrite powI. cbn [val lowR] in *. rewrite Q2R_Z, powR in *. cbn in G. apply negb_true_iff, Z.ltb_ge in G. apply IZR_le in G.
  destruct kS as (m & ->). destruct c; [now apply pow_pos_le|now apply pow_pos_lt].
Qed.
Lemma high_pos m c x : whole m -> 0 <= x -> highR (val m) c x -> highR (val (p m)) c (x ^ k).
Proof.
  intros W P H. destruct m as [z|[|s|q]]; try contradiction.
  - rewrite powI. cbn [val highR] in *. rewrite Q2R_Z, powR in *. destruct kS as (m & ->). destruct c; [now apply pow_pos_le|now apply pow_pos_lt].
  - rewrite powInf. cbn [val highR] in *. subst s. reflexivity.
Qed.
Lemma low_odd m c x : Z.even n = false -> whole m -> lowR (val m) c x -> lowR (val (p m)) c (x ^ k).
Proof.
  intros E W L. rewrite <- even_nat in E. destruct m as [z|[|s|q]]; try contradiction.
  - rewrite powI. cbn [val lowR] in *. rewrite Q2R_Z, powR in *. destruct c; [now apply pow_odd_le|now apply pow_odd_lt].
  - rewrite powInf. cbn [val lowR] in *. subst s. cbn. rewrite <- Z.negb_even. rewrite <- even_nat, E. reflexivity.
Qed.
Lemma high_odd m c x : Z.even n = false -> whole m -> highR (val m) c x -> highR (val (p m)) c (x ^ k).
Proof.
  intros E W L. rewrite <- even_nat in E. destruct m as [z|[|s|q]]; try contradiction.
  - rewrite powI. cbn [val highR] in *. rewrite Q2R_Z, powR in *. destruct c; [now apply pow_odd_le|now apply pow_odd_lt].
  - rewrite powInf. cbn [val highR] in *. subst s. reflexivity.
Qed.
(** negative bounds of an even power *)
Lemma low_even m c x : Z.even n = true -> whole m -> n_le r m (NI 0) = true -> (forall s, m <> NR (Inf s)) -> highR (val m) c x -> lowR (val (p m)) c (x ^ k).
Proof.
  intros E W G NI' L. rewrite <- even_nat in E. destruct m as [z|[|s|q]]; try contradiction; [|now elim (NI' s)]. rewrite powI. cbn [val lowR highR] in *. rewrite Q2R_Z, powR in *. cbn in G. apply Z.leb_le, IZR_le in G.
  rewrite <- (pow_neg_even k (IZR z) E), <- (pow_neg_even k x E). destruct kS as (m & ->). destruct c; [apply pow_pos_le; lra|apply pow_pos_lt; lra].
Qed.
Lemma high_even m c x : Z.even n = true -> whole m -> x <= 0 -> lowR (val m) c x -> highR (val (p m)) c (x ^ k).
Proof.
  intros E W P H. destruct m as [z|[|s|q]]; try contradiction.
  - rewrite <- even_nat in E. rewrite powI. cbn [val lowR highR] in *. rewrite Q2R_Z, powR in *. rewrite <- (pow_neg_even k (IZR z) E), <- (pow_neg_even k x E). destruct kS as (m & ->). destruct c; [apply pow_pos_le; lra|apply pow_pos_lt; lra].
  - rewrite powInf. cbn [val highR lowR] in *. subst s. cbn. rewrite <- Z.negb_even, E. reflexivity.
Qed.
Lemma whole_open a x : whole (lo a) -> whole (hi a) -> iwf a -> memberR a x -> isEmptyI r a = false.
Proof.
  intros A B (W1 & W2) (L & H). unfold isEmptyI. destruct (lo a) as [l|[|s|q]]; try contradiction; destruct (hi a) as [h|[|t|q]]; try contradiction; cbn [val] in *.
  - unfold n_gt; cbn [n_le n_eq]. cbn [lowR highR] in *. rewrite !Q2R_Z in *. assert (X : (l <= h)%Z) by (apply le_IZR; destruct (lc a), (rc a); lra). apply Z.leb_le in X. rewrite X. cbn [negb orb].
    destruct (l =? h)%Z eqn:E; [|reflexivity]. apply Z.eqb_eq in E. subst h. destruct (lc a), (rc a); cbn; try reflexivity; exfalso; lra.
  - destruct W2 as (-> & _). reflexivity.
  - destruct W1 as (-> & _). reflexivity.
  - destruct W1 as (-> & _), W2 as (-> & _). reflexivity.
Qed.
Lemma powZ_enc a x : whole (lo a) -> whole (hi a) -> iwf a -> memberR a x ->
  ~ (exists z, lo a = NI (- z) /\ hi a = NI z /\ (0 < z)%Z /\ lc a = true /\ rc a = false /\ Z.even n = true) ->
  exists b, i_powN M a (NI n) = Ok b /\ memberR b (x ^ k).
Proof.
  intros A B W Mx Ex. unfold i_powN. rewrite (whole_open a x A B W Mx). cbn [n_isInteger toInteger]. unfold toInt.
  replace ((2147483647 <? n) || (n <? -2147483648))%Z with false by (symmetry; apply orb_false_iff; split; apply Z.ltb_ge; lia). cbn [bind]. unfold i_powZ.
  replace (n =? 0)%Z with false by (symmetry; apply Z.eqb_neq; lia). replace (0 <? n)%Z with true by (symmetry; apply Z.ltb_lt; lia).
  destruct W as (W1 & W2), Mx as (L & H). destruct (Z.even n) eqn:Ev; [|eexists; split; [reflexivity|]; split; cbn [lo hi lc rc]; [now apply low_odd|now apply high_odd]].
  destruct (n_ge r (lo a) (NI 0)) eqn:G; [|destruct (n_le r (hi a) (NI 0)) eqn:G2].
  - eexists. split; [reflexivity|]. assert (NInf : forall s, lo a <> NR (Inf s)). { intros s E. rewrite E in *. cbn [val] in W1. destruct W1 as (-> & _). discriminate G. }
    assert (P : 0 <= x). { destruct (lo a) as [l|[|s|q]]; try contradiction; [|now elim (NInf s)]. cbn in G. apply negb_true_iff, Z.ltb_ge, IZR_le in G. cbn [val lowR] in L. rewrite Q2R_Z in L. destruct (lc a); lra. }
    split; cbn [lo hi lc rc]; [now apply low_pos|now apply high_pos].
  - eexists. split; [reflexivity|]. assert (NInf : forall s, hi a <> NR (Inf s)). { intros s E. rewrite E in *. cbn [val] in W2. destruct W2 as (-> & _). discriminate G2. }
    assert (P : x <= 0). { destruct (hi a) as [h|[|s|q]]; try contradiction; [|now elim (NInf s)]. cbn in G2. apply Z.leb_le, IZR_le in G2. cbn [val highR] in H. rewrite Q2R_Z in H. destruct (rc a); lra. }
    split; cbn [lo hi lc rc]; [now apply low_even|now apply high_even].
  - eexists. split; [reflexivity|]. split; cbn [lo hi lc rc]; [cbn [val lowR]; rewrite Q2R_Z; rewrite <- even_nat in Ev; rewrite (pow_abs_even k x Ev); apply pow_le, Rabs_pos|].
    rewrite <- even_nat in Ev. rewrite (pow_abs_even k x Ev). destruct (lo a) as [l|[|s|q]] eqn:El; try contradiction; destruct (hi a) as [h|[|t|q]] eqn:Eh; try contradiction; cbn [val] in *.
    + cbn in G, G2. apply negb_false_iff, Z.ltb_lt in G. apply Z.leb_gt in G2. cbn [n_abs]. rewrite !powI. cbn [lowR highR] in *. rewrite !Q2R_Z in *. unfold n_max, n_gt. cbn [n_lt n_le].
      assert (Al : Z.abs l = (- l)%Z) by lia. assert (Ah : Z.abs h = h) by lia. rewrite Al, Ah.
      assert (Pl : IZR l < 0) by now apply IZR_lt. assert (Ph : 0 < IZR h) by now apply IZR_lt.
      assert (Cmp : forall u v, (0 <= u < v)%Z -> (u ^ n < v ^ n)%Z) by (intros u v Huv; apply Z.pow_lt_mono_l; lia).
      assert (Evz : Z.even n = true) by (rewrite <- even_nat; exact Ev). destruct kS as (m & Ek). rewrite Ek in *.
      destruct (Z.lt_trichotomy (- l) h) as [T|[T|T]].
      * pose proof (Cmp (- l) h ltac:(lia))%Z as X. apply Z.ltb_lt in X. rewrite X. replace (- l <=? h)%Z with true by (symmetry; apply Z.leb_le; lia). cbn [negb val highR]. rewrite Q2R_Z, powR, Ek. apply IZR_lt in T. rewrite opp_IZR in T.
        assert (K : rc a = true -> Rabs x <= IZR h) by (intros _; apply Rabs_le; destruct (lc a), (rc a); lra). destruct (rc a); [apply pow_pos_le; [apply Rabs_pos|auto]|]. apply pow_pos_lt; [apply Rabs_pos|]. apply Rabs_def1; destruct (lc a); lra.
      * rewrite T. replace (h ^ n <? h ^ n)%Z with false by (symmetry; apply Z.ltb_irrefl). replace (h <=? h)%Z with true by (symmetry; apply Z.leb_le; lia). cbn [negb val highR]. rewrite Q2R_Z, powR, Ek.
        assert (El' : l = (- h)%Z) by lia. subst l. rewrite opp_IZR in L. destruct (rc a) eqn:Erc.
        -- apply pow_pos_le; [apply Rabs_pos|]. apply Rabs_le. destruct (lc a); lra.
        -- destruct (lc a) eqn:Elc; [exfalso; apply Ex; exists h; repeat split; auto|]. apply pow_pos_lt; [apply Rabs_pos|]. apply Rabs_def1; lra.
      * pose proof (Cmp h (- l) ltac:(lia))%Z as X. replace ((- l) ^ n <? h ^ n)%Z with false by (symmetry; apply Z.ltb_ge; lia). replace (- l <=? h)%Z with false by (symmetry; apply Z.leb_gt; lia). cbn [negb val highR]. rewrite Q2R_Z, powR, Ek. apply IZR_lt in T. rewrite opp_IZR in T |- *.
        destruct (lc a); [apply pow_pos_le; [apply Rabs_pos|apply Rabs_le; destruct (rc a); lra]|apply pow_pos_lt; [apply Rabs_pos|apply Rabs_def1; destruct (rc a); lra]].
    + destruct W2 as (-> & E). cbn [n_abs xabs]. rewrite powI, powInf. cbn [andb]. unfold n_max. cbn [n_lt toReal xlt negb]. reflexivity.
    + destruct W1 as (-> & E). cbn [n_abs xabs]. rewrite powI, powInf. cbn [andb]. unfold n_max. cbn [n_lt toReal xlt]. reflexivity.
    + destruct W1 as (-> & _), W2 as (-> & _). cbn [n_abs xabs]. rewrite powInf. reflexivity.
Qed.
End E.
