(** Proofs about the elementary functions: part 3, errors, pow2 and integer powers. *)
From Coq Require Import Reals QArith Qreals Qround Qabs ZArith List Bool Lia Lra.
From Verif Require Import Base NumModel RoundModel NumSpec NumProofs NumMore FunModel FunSpec FunProofs FunProofs2.
Open Scope R_scope.

(** ** errors *)
Lemma high_down h c x y : highR h c x -> y <= x -> highR h c y.
Proof. destruct h as [|s|q]; cbn; auto. destruct c; lra. Qed.
Lemma low_up h c x y : lowR h c x -> x <= y -> lowR h c y.
Proof. destruct h as [|s|q]; cbn; auto. destruct c; lra. Qed.
Lemma below_exists a x z : iwf a -> memberR a x -> (match val (lo a) with Fin q => Q2R q < z | Inf s => s = true | Nan => False end) -> exists y, memberR a y /\ y < z.
Proof.
  intros (W & _) (L & H) K. destruct (Rlt_le_dec x z) as [X|X]; [exists x; repeat split; assumption|].
  destruct (val (lo a)) as [|s|q] eqn:V; [contradiction| |].
  - exists (z - 1). split; [|lra]. split; [rewrite V; exact K|]. eapply high_down; [exact H|lra].
  - exists ((Q2R q + z) / 2). split; [|lra]. split; [rewrite V; cbn; destruct (lc a); lra|]. eapply high_down; [exact H|lra].
Qed.
Lemma above_exists a x z : iwf a -> memberR a x -> (match val (hi a) with Fin q => z < Q2R q | Inf s => s = false | Nan => False end) -> exists y, memberR a y /\ z < y.
Proof.
  intros (_ & W) (L & H) K. destruct (Rlt_le_dec z x) as [X|X]; [exists x; repeat split; assumption|].
  destruct (val (hi a)) as [|s|q] eqn:V; [contradiction| |].
  - exists (z + 1). split; [|lra]. split; [|rewrite V; exact K]. eapply low_up; [exact L|lra].
  - exists ((Q2R q + z) / 2). split; [|lra]. split; [|rewrite V; cbn; destruct (rc a); lra]. eapply low_up; [exact L|lra].
Qed.
Section E.
Context (M : mpfr) (C : correct M).
Notation r := rn128.
Lemma asin_throws a x : usable a -> memberR a x -> (i_asin M a = Throw DomainError <-> exists y, memberR a y /\ ~ -1 <= y <= 1).
Proof.
  intros U Mx. split.
  - unfold i_asin. rewrite (member_open a x U Mx). destruct U as (A & B & W). destruct (n_lt r (lo a) (NI (-1)) || n_gt r (hi a) (NI 1)) eqn:E.
    + intros _. apply orb_true_iff in E. destruct E as [E|E].
      * rewrite (lt_I (lo a) (-1) A ltac:(lia)) in E. destruct (below_exists a x (-1) W Mx E) as (y & Hy & K). exists y. split; [exact Hy|lra].
      * rewrite (gt_I (hi a) 1 B ltac:(lia)) in E. destruct (above_exists a x 1 W Mx E) as (y & Hy & K). exists y. split; [exact Hy|lra].
    + intros X. exfalso. destruct (asin_enc M C a x (conj A (conj B W)) Mx) as [Y|(b & Y & _)].
      * unfold i_asin in Y. rewrite (member_open a x (conj A (conj B W)) Mx), E in Y. unfold i_mono in *. rewrite (member_open a x (conj A (conj B W)) Mx) in *.
        apply orb_false_iff in E. destruct E as (E1 & E2). rewrite (not_true_iff _ _ (lt_I (lo a) (-1) A ltac:(lia))) in E1. rewrite (not_true_iff _ _ (gt_I (hi a) 1 B ltac:(lia))) in E2.
        destruct W as (W1 & W2), Mx as (L & H). destruct (val (lo a)) as [|s|p] eqn:Vl; [contradiction|destruct W1 as (-> & _); now elim E1|]. destruct (val (hi a)) as [|s|q] eqn:Vh; [contradiction|destruct W2 as (-> & _); now elim E2|].
        pose proof (lowR_le _ _ _ _ eq_refl L). pose proof (highR_le _ _ _ _ eq_refl H).
        destruct (n_fun_fin M C F_asin (lo a) p A Vl) as (u & Eu & _); [cbn; lra|]. destruct (n_fun_fin M C F_asin (hi a) q B Vh) as (v & Ev & _); [cbn; lra|]. rewrite Eu, Ev in X. discriminate X.
      * unfold i_asin in Y. rewrite (member_open a x (conj A (conj B W)) Mx), E in Y. congruence.
  - intros (y & Hy & K). destruct (asin_enc M C a y U Hy) as [T|(b & _ & _ & Z)]; [exact T|contradiction].
Qed.
Lemma acosh_throws a x : usable a -> memberR a x -> (i_acosh M a = Throw DomainError <-> exists y, memberR a y /\ ~ 1 <= y).
Proof.
  intros U Mx. split.
  - unfold i_acosh. rewrite (member_open a x U Mx). destruct U as (A & B & W). destruct (n_lt r (lo a) (NI 1)) eqn:E.
    + intros _. rewrite (lt_I (lo a) 1 A ltac:(lia)) in E. destruct (below_exists a x 1 W Mx E) as (y & Hy & K). exists y. split; [exact Hy|lra].
    + intros X. exfalso. unfold i_mono in *. rewrite (member_open a x (conj A (conj B W)) Mx) in *. rewrite (not_true_iff _ _ (lt_I (lo a) 1 A ltac:(lia))) in E.
      destruct W as (W1 & W2), Mx as (L & H). destruct (val (lo a)) as [|s|p] eqn:Vl; [contradiction|destruct W1 as (-> & _); now elim E|]. pose proof (lowR_le _ _ _ _ eq_refl L).
      destruct (n_fun_fin M C F_acosh (lo a) p A Vl) as (u & Eu & _); [cbn; lra|]. rewrite Eu in X. cbn [bind] in X.
      destruct (val (hi a)) as [|s|q] eqn:Vh; [contradiction| |].
      * destruct W2 as (-> & _). rewrite (n_fun_inf M F_acosh (hi a) false B Vh eq_refl) in X. discriminate X.
      * pose proof (highR_le _ _ _ _ eq_refl H). destruct (n_fun_fin M C F_acosh (hi a) q B Vh) as (v & Ev & _); [cbn; lra|]. rewrite Ev in X. discriminate X.
  - intros (y & Hy & K). destruct (acosh_enc M C a y U Hy) as [T|(b & _ & _ & Z)]; [exact T|contradiction].
Qed.
(** atanh answers when the interval keeps away from -1 and 1 *)
Lemma atanh_answers a x p q : usable a -> memberR a x -> -1 < p -> q < 1 -> (forall y, memberR a y -> p <= y <= q) -> exists b, i_atanh M a = Ok b.
Proof.
  intros U Mx P Q S. unfold i_atanh, i_mono. rewrite (member_open a x U Mx). destruct U as (A & B & W).
  assert (E1 : n_le r (lo a) (NI (-1)) = false).
  { apply (not_true_iff _ _ (le_I (lo a) (-1) A ltac:(lia))). intros K. destruct (below_exists a x p W Mx) as (y & Hy & Ky); [|specialize (S y Hy); lra].
    destruct (val (lo a)); auto. cbn in K. lra. }
  assert (E2 : n_ge r (hi a) (NI 1) = false).
  { apply (not_true_iff _ _ (ge_I (hi a) 1 B ltac:(lia))). intros K. destruct (above_exists a x q W Mx) as (y & Hy & Ky); [|specialize (S y Hy); lra].
    destruct (val (hi a)); auto. cbn in K. lra. }
  rewrite E1, E2. cbn [orb]. rewrite (not_true_iff _ _ (le_I (lo a) (-1) A ltac:(lia))) in E1. rewrite (not_true_iff _ _ (ge_I (hi a) 1 B ltac:(lia))) in E2.
  destruct W as (W1 & W2), Mx as (L & H). destruct (val (lo a)) as [|s|u] eqn:Vl; [contradiction|destruct W1 as (-> & _); now elim E1|]. destruct (val (hi a)) as [|s|v] eqn:Vh; [contradiction|destruct W2 as (-> & _); now elim E2|].
  pose proof (lowR_le _ _ _ _ eq_refl L). pose proof (highR_le _ _ _ _ eq_refl H).
  destruct (n_fun_fin M C F_atanh (lo a) u A Vl) as (u' & -> & _); [cbn; lra|]. destruct (n_fun_fin M C F_atanh (hi a) v B Vh) as (v' & -> & _); [cbn; lra|]. cbn [bind]. eauto.
Qed.

(** ** powers of two *)
Lemma p2_R z : Q2R (p2 z) = Rpower 2 (IZR z).
Proof.
  assert (P : forall n, (0 <= n)%Z -> Q2R (p2 n) = Rpower 2 (IZR n)).
  { intros n Hn. rewrite (Qeq_eqR _ _ (p2_Z n Hn)), Q2R_Z. rewrite <- (Z2Nat.id n) at 2 by exact Hn. rewrite <- INR_IZR_INZ, Rpower_pow by lra.
    rewrite <- (Z2Nat.id n) at 1 by exact Hn. rewrite <- pow_IZR. reflexivity. }
  destruct (Z.le_gt_cases 0 z) as [H|H]; [now apply P|]. pose proof (Qeq_eqR _ _ (p2_opp z)) as E. rewrite Q2R_mult, (P (- z)%Z) in E by lia.
  rewrite opp_IZR, Rpower_Ropp in E. assert (0 < Rpower 2 (IZR z)) by apply exp_pos. replace (Q2R 1) with 1 in E by (unfold Q2R; cbn; lra).
  apply Rmult_eq_reg_r with (/ Rpower 2 (IZR z)); [rewrite E; field; lra|]. apply Rinv_neq_0_compat. lra.
Qed.
Lemma repr_p2 z : repr 128 (p2 z).
Proof. exists 1%Z, z. split; [apply Z.le_trans with (2 ^ 0)%Z; [cbn; lia|apply Z.pow_le_mono_r; lia]|]. change (inject_Z 1) with 1%Q. ring. Qed.
Lemma rpow_mono x y : x <= y -> Rpower 2 x <= Rpower 2 y. Proof. apply le_of_lt. apply Rpower_lt. lra. Qed.
Lemma two_real : exists t, toReal r (NI 2) = Fin t /\ repr 128 t /\ Q2R t = 2 /\ qlt 0 t = true.
Proof.
  destruct (held_real (NI 2) (inject_Z 2)) as (t & T & Rt & E); [apply held_I; lia|reflexivity|]. rewrite Q2R_Z in E. exists t. repeat split; auto.
  destruct (qlt_spec 0 t) as [|K]; [reflexivity|]. exfalso. apply K. apply Rlt_Qlt. rewrite E. unfold Q2R. cbn. lra.
Qed.
Lemma pow_real n e q : n = NI 2 -> toReal r e = Fin q -> repr 128 q -> exists y, h_pow M (toReal r n) (toReal r e) = Fin y /\ nearest y (Rpower 2 (Q2R q)).
Proof.
  intros -> E Rq. destruct two_real as (t & -> & Rt & Et & Pt). rewrite E. cbn [h_pow]. rewrite Pt. eexists. split; [reflexivity|]. rewrite <- Et. apply (ok_pow M C); auto. destruct (qlt_spec 0 t); congruence.
Qed.
(** an integral exponent: exact *)
Lemma pow2_int z : repr 128 (inject_Z z) -> exists q, val (n_pow M (NI 2) (NI z)) = Fin q /\ Q2R q = Rpower 2 (IZR z).
Proof.
  intros Rz. unfold n_pow. destruct ((0 <=? z) && (z <? 2 ^ 64))%Z eqn:E.
  - apply andb_true_iff in E. destruct E as (E & _). apply Z.leb_le in E. exists (inject_Z (2 ^ z)). split; [reflexivity|]. rewrite <- p2_R. symmetry. apply Qeq_eqR. now apply p2_Z.
  - assert (Et : toReal r (NI z) = Fin (r (inject_Z z))) by reflexivity. destruct (pow_real (NI 2) (NI z) _ eq_refl Et) as (y & -> & N); [apply rn_repr; lia|].
    exists y. split; [reflexivity|]. assert (X : Q2R (r (inject_Z z)) = IZR z) by (rewrite <- Q2R_Z; apply Qeq_eqR; apply rn_exact; [lia|exact Rz]). rewrite X in N.
    rewrite <- p2_R in N |- *. pose proof (nearest_ge _ _ _ N (repr_p2 z) (Rle_refl _)). pose proof (nearest_le _ _ _ N (repr_p2 z) (Rle_refl _)). lra.
Qed.
Lemma integer_val n q : held n -> val n = Fin q -> n_isInteger n = true -> repr 128 (inject_Z (toInteger n)) /\ IZR (toInteger n) = Q2R q.
Proof.
  intros H V I. destruct n as [z|x]; cbn in V.
  - injection V as <-. cbn [toInteger]. split; [now apply reprZ|]. now rewrite Q2R_Z.
  - subst x. cbn [toInteger xint n_isInteger xisint] in *. apply Qeq_bool_iff in I. rewrite (Qeven_Z _ _ I). split; [eapply repr_eq; [exact I|exact H]|]. rewrite <- Q2R_Z. symmetry. now apply Qeq_eqR.
Qed.
Lemma noninteger n q : val n = Fin q -> n_isInteger n = false -> toReal r n = Fin q /\ n_pow M (NI 2) n = NR (h_pow M (toReal r (NI 2)) (toReal r n)).
Proof. destruct n as [z|x]; cbn [val n_isInteger]; [discriminate|]. intros -> _. split; reflexivity. Qed.
Lemma pow2_enc a x : usable a -> memberR a x -> exists b, i_pow2 M false a = Ok b /\ memberR b (Rpower 2 x).
Proof.
  intros U Mx. unfold i_pow2. rewrite (member_open a x U Mx). destruct U as (A & B & W1 & W2), Mx as (L & H).
  set (lp := if n_isPosInf (lo a) then _ else _). set (hp := if n_isPosInf (hi a) then _ else _).
  assert (XL : lowR (val (fst lp)) (snd lp) (Rpower 2 x)).
  { unfold lp. destruct (val (lo a)) as [|s|q] eqn:V; [contradiction| |].
    - destruct W1 as (-> & _). assert (E1 : n_isPosInf (lo a) = false) by (apply (not_true_iff _ _ (posInf_iff _)); congruence). rewrite E1, (proj2 (negInf_iff _) V). cbn [fst snd]. rewrite vI. cbn [lowR]. rewrite Q2R_Z. apply exp_pos.
    - assert (E1 : n_isPosInf (lo a) = false) by (apply (not_true_iff _ _ (posInf_iff _)); congruence). assert (E2 : n_isNegInf (lo a) = false) by (apply (not_true_iff _ _ (negInf_iff _)); congruence). rewrite E1, E2.
      destruct (n_isInteger (lo a)) eqn:EI; cbn [fst snd].
      + destruct (integer_val (lo a) q A V EI) as (Rz & Ez). destruct (pow2_int _ Rz) as (y & -> & Ey). rewrite Ez in Ey. cbn in L. cbn [lowR]. rewrite Ey. destruct (lc a); [now apply rpow_mono|now apply Rpower_lt; lra].
      + destruct (noninteger (lo a) q V EI) as (T & ->). destruct (pow_real (NI 2) (lo a) q eq_refl T) as (y & -> & N); [destruct (held_real _ _ A V) as (q' & T' & R' & _); congruence|].
        eapply low_mono; [apply below_ok; [exact C|exact N]|]. apply rpow_mono. eapply lowR_le; [reflexivity|exact L]. }
  assert (XH : highR (val (fst hp)) (snd hp) (Rpower 2 x)).
  { unfold hp. destruct (val (hi a)) as [|s|q] eqn:V; [contradiction| |].
    - destruct W2 as (-> & _). rewrite (proj2 (posInf_iff _) V). reflexivity.
    - assert (E1 : n_isPosInf (hi a) = false) by (apply (not_true_iff _ _ (posInf_iff _)); congruence). assert (E2 : n_isNegInf (hi a) = false) by (apply (not_true_iff _ _ (negInf_iff _)); congruence). rewrite E1, E2.
      destruct (n_isInteger (hi a)) eqn:EI; cbn [fst snd].
      + destruct (integer_val (hi a) q B V EI) as (Rz & Ez). destruct (pow2_int _ Rz) as (y & -> & Ey). rewrite Ez in Ey. cbn in H. cbn [highR]. rewrite Ey. destruct (rc a); [now apply rpow_mono|now apply Rpower_lt; lra].
      + destruct (noninteger (hi a) q V EI) as (T & ->). destruct (pow_real (NI 2) (hi a) q eq_refl T) as (y & -> & N); [destruct (held_real _ _ B V) as (q' & T' & R' & _); congruence|].
        eapply high_mono; [apply above_ok; [exact C|exact N]|]. apply rpow_mono. eapply highR_le; [reflexivity|exact H]. }
  clearbody lp hp. destruct lp as (l & c), hp as (h & d). cbn [fst snd condAssert bind] in *. eexists. split; [reflexivity|]. split; assumption.
Qed.
End E.
