(** C92: atan2 of intervals. *)
From Coq Require Import Reals QArith Qreals Qround Qabs ZArith List Bool Lia Lra.
From Verif Require Import Base NumModel RoundModel NumSpec NumProofs NumMore FunModel FunSpec FunProofs FunProofs2 FunProofs3 FunProofs4 FunProofs5 FunProofs6 PropsNum PropsFun IopModel PropsIop PropsPow Atan2Model.
Open Scope R_scope.
Local Notation r := rn128.
Local Notation PI := Rtrigo1.PI.

(** the angle of the point (x, y) *)
Definition angle (y x : R) : R :=
  if Rlt_dec 0 x then atan (y / x)
  else if Rlt_dec x 0 then (if Rle_dec 0 y then atan (y / x) + PI else atan (y / x) - PI)
  else if Rlt_dec 0 y then PI / 2 else if Rlt_dec y 0 then - PI / 2 else 0.
(** it is the polar angle *)
Lemma pos_case y x : 0 < x -> x = sqrt (x * x + y * y) * cos (atan (y / x)) /\ y = sqrt (x * x + y * y) * sin (atan (y / x)).
Proof.
  intros H. rewrite cos_atan, sin_atan.
  assert (K : x * x + y * y = (x * x) * (1 + (y / x)²)) by (unfold Rsqr; field; lra).
  assert (P : 0 < 1 + (y / x)²) by (pose proof (Rle_0_sqr (y / x)); lra).
  assert (S0 : 0 < sqrt (1 + (y / x)²)) by now apply sqrt_lt_R0.
  rewrite K, sqrt_mult by nra. rewrite sqrt_square by lra. split; field; lra.
Qed.
Lemma sin_plus_PI t : sin (t + PI) = - sin t. Proof. apply neg_sin. Qed.
Lemma sin_minus_PI t : sin (t - PI) = - sin t.
Proof. rewrite sin_minus, cos_PI, sin_PI. ring. Qed.
Lemma cos_plus_PI t : cos (t + PI) = - cos t. Proof. apply neg_cos. Qed.
Lemma cos_minus_PI t : cos (t - PI) = - cos t.
Proof. rewrite cos_minus, cos_PI, sin_PI. ring. Qed.
Theorem C92_angle y x : x <> 0 \/ y <> 0 ->
  - PI < angle y x <= PI /\ x = sqrt (x * x + y * y) * cos (angle y x) /\ y = sqrt (x * x + y * y) * sin (angle y x).
Proof.
  intros N. pose proof PI_RGT_0 as P. pose proof (atan_bound (y / x)) as B. unfold angle.
  destruct (Rlt_dec 0 x) as [X|X].
  { split; [lra|]. now apply pos_case. }
  destruct (Rlt_dec x 0) as [Y|Y].
  - destruct (pos_case (- y) (- x) ltac:(lra)) as [E1 E2]. replace (- y / - x) with (y / x) in * by (field; lra).
    replace (- x * - x + - y * - y) with (x * x + y * y) in * by ring.
    destruct (Rle_dec 0 y) as [Z|Z].
    + split; [|rewrite cos_plus_PI, sin_plus_PI; lra].
      split; [lra|]. assert (atan (y / x) <= 0); [|lra]. rewrite <- atan_0.
      assert (y / x <= 0) by (apply Rmult_le_reg_r with (- x); [lra|]; replace (y / x * - x) with (- y) by (field; lra); lra).
      apply le_of_lt; [apply atan_increasing|assumption].
    + split; [|rewrite cos_minus_PI, sin_minus_PI; lra].
      split; [|lra]. assert (0 < atan (y / x)); [|lra]. rewrite <- atan_0. apply atan_increasing.
      apply Rmult_lt_reg_r with (- x); [lra|]. replace (y / x * - x) with (- y) by (field; lra). lra.
  - assert (x = 0) by lra. subst x. replace (0 * 0 + y * y) with (y * y) by ring.
    destruct (Rlt_dec 0 y) as [Z|Z]; [|destruct (Rlt_dec y 0) as [Z'|Z']; [|lra]].
    + rewrite cos_PI2, sin_PI2, sqrt_square by lra. lra.
    + replace (- PI / 2) with (- (PI / 2)) by lra. rewrite cos_neg, sin_neg, cos_PI2, sin_PI2. replace (y * y) with (- y * - y) by ring. rewrite sqrt_square by lra. lra.
Qed.
Print Assumptions C92_angle.

(** ** assumptions on mpfr_atan2: correct rounding; the angle of the negative half axis is rounded as mpfr_const_pi is *)
Record correct2 (M : mpfr) (A : mpfr2) : Prop := {
  ok_at : forall b a, repr 128 b -> repr 128 a -> nearest (m2_at A b a) (angle (Q2R b) (Q2R a));
  ok_half : forall b a, (b == 0)%Q -> (a < 0)%Q -> (m2_at A b a == m_pi M)%Q;
  ok_q1 : nearest (m2_q1 A) (PI / 4);
  ok_q3 : nearest (m2_q3 A) (3 * PI / 4) }.
Definition A0 : mpfr2 := Mpfr2 (fun b a => if Qeq_bool b 0 && qlt a 0 then rndR PI else rndR (angle (Q2R b) (Q2R a))) (rndR (PI / 4)) (rndR (3 * PI / 4)).
Lemma angle_half y x : y = 0 -> x < 0 -> angle y x = PI.
Proof.
  intros -> H. unfold angle. destruct (Rlt_dec 0 x); [lra|]. destruct (Rlt_dec x 0); [|lra]. destruct (Rle_dec 0 0); [|lra].
  unfold Rdiv. rewrite Rmult_0_l, atan_0. lra.
Qed.
Theorem C92_atan2_exists : correct2 M0 A0.
Proof.
  constructor; cbn [A0 m2_at m2_q1 m2_q3]; try apply rndR_nearest.
  - intros b a Hb Ha. destruct (Qeq_bool b 0 && qlt a 0) eqn:E; [|apply rndR_nearest].
    apply andb_true_iff in E. destruct E as [E1 E2]. apply Qeq_bool_eq in E1.
    assert (X : Q2R a < 0). { unfold qlt in E2. apply negb_true_iff in E2. destruct (Qlt_le_dec a 0) as [L|L]; [apply Qlt_Rlt in L; unfold Q2R in L at 2; cbn in L; lra|]. apply Qle_bool_iff in L. congruence. }
    rewrite angle_half; [apply rndR_nearest| |exact X]. rewrite (Qeq_eqR _ _ E1). unfold Q2R. cbn. lra.
  - intros b a Hb Ha. assert (E1 : Qeq_bool b 0 = true) by now apply Qeq_bool_iff. assert (E2 : qlt a 0 = true).
    { unfold qlt. apply negb_true_iff. destruct (Qle_bool 0 a) eqn:E; [|reflexivity]. apply Qle_bool_iff in E. exfalso. apply (Qlt_not_le _ _ Ha E). }
    rewrite E1, E2. cbn. reflexivity.
Qed.

(** ** monotonicity *)
Lemma angle_pos y x : 0 < x -> angle y x = atan (y / x).
Proof. intros H. unfold angle. destruct (Rlt_dec 0 x); [reflexivity|lra]. Qed.
Lemma angle_2 y x : x < 0 -> 0 <= y -> angle y x = atan (y / x) + PI.
Proof. intros H K. unfold angle. destruct (Rlt_dec 0 x); [lra|]. destruct (Rlt_dec x 0); [|lra]. destruct (Rle_dec 0 y); [reflexivity|lra]. Qed.
Lemma angle_3 y x : x < 0 -> y < 0 -> angle y x = atan (y / x) - PI.
Proof. intros H K. unfold angle. destruct (Rlt_dec 0 x); [lra|]. destruct (Rlt_dec x 0); [|lra]. destruct (Rle_dec 0 y); [lra|reflexivity]. Qed.
Lemma atan_le x y : x <= y -> atan x <= atan y. Proof. apply le_of_lt. apply atan_increasing. Qed.
Lemma div_le_pos y y' x : 0 < x -> y <= y' -> y / x <= y' / x.
Proof. intros H K. apply Rmult_le_compat_r; [left; now apply Rinv_0_lt_compat|exact K]. Qed.
Lemma div_le_neg y y' x : x < 0 -> y <= y' -> y' / x <= y / x.
Proof. intros H K. replace (y' / x) with (- y' / - x) by (field; lra). replace (y / x) with (- y / - x) by (field; lra). apply div_le_pos; lra. Qed.
Lemma angle_right y x : 0 <= x -> - (PI / 2) <= angle y x <= PI / 2.
Proof.
  intros H. pose proof PI_RGT_0. destruct (Rle_lt_or_eq_dec 0 x H) as [K| <-].
  - rewrite angle_pos by exact K. pose proof (atan_bound (y / x)). lra.
  - unfold angle. destruct (Rlt_dec 0 0); [lra|]. destruct (Rlt_dec 0 y), (Rlt_dec y 0); lra.
Qed.
Lemma angle_inc y y' x : 0 <= x -> y <= y' -> angle y x <= angle y' x.
Proof.
  intros H K. pose proof PI_RGT_0. destruct (Rle_lt_or_eq_dec 0 x H) as [L| <-].
  - rewrite !angle_pos by exact L. apply atan_le. now apply div_le_pos.
  - unfold angle. destruct (Rlt_dec 0 0); [lra|]. destruct (Rlt_dec 0 y), (Rlt_dec y 0), (Rlt_dec 0 y'), (Rlt_dec y' 0); lra.
Qed.
Lemma angle_top y x : x < 0 -> 0 <= y -> PI / 2 <= angle y x <= PI.
Proof.
  intros H K. rewrite angle_2 by assumption. pose proof (atan_bound (y / x)). split; [lra|].
  assert (y / x <= 0) by (replace 0 with (0 / x) by (field; lra); now apply div_le_neg). pose proof (atan_le _ _ H1) as X. rewrite atan_0 in X. lra.
Qed.
Lemma angle_bottom y x : x < 0 -> y < 0 -> - PI < angle y x <= - (PI / 2).
Proof.
  intros H K. rewrite angle_3 by assumption. pose proof (atan_bound (y / x)). split; [|lra].
  assert (0 < y / x) by (replace (y / x) with (- y / - x) by (field; lra); apply Rdiv_lt_0_compat; lra). pose proof (atan_increasing _ _ H1) as X. rewrite atan_0 in X. lra.
Qed.
Lemma angle_dec y y' x : x < 0 -> 0 <= y \/ y' < 0 -> y <= y' -> angle y' x <= angle y x.
Proof.
  intros H [K|K] L.
  - rewrite !angle_2 by lra. apply Rplus_le_compat_r, atan_le. now apply div_le_neg.
  - rewrite !angle_3 by lra. apply Rplus_le_compat_r, atan_le. now apply div_le_neg.
Qed.
Lemma angle_range y x : - PI < angle y x <= PI.
Proof.
  pose proof PI_RGT_0. destruct (Rle_dec 0 x) as [X|X]; [pose proof (angle_right y x X); lra|].
  destruct (Rle_dec 0 y) as [Y|Y]; [pose proof (angle_top y x ltac:(lra) Y); lra|pose proof (angle_bottom y x ltac:(lra) ltac:(lra)); lra].
Qed.
Lemma angle_PI y x : angle y x = PI -> x < 0 /\ y = 0.
Proof.
  intros E. pose proof PI_RGT_0. destruct (Rle_dec 0 x) as [X|X]; [pose proof (angle_right y x X); lra|]. split; [lra|].
  destruct (Rle_dec 0 y) as [Y|Y]; [|pose proof (angle_bottom y x ltac:(lra) ltac:(lra)); lra].
  destruct (Req_dec y 0) as [K|K]; [exact K|]. rewrite angle_2 in E by lra.
  assert (L : y / x < 0). { replace (y / x) with (- (y / - x)) by (field; lra). assert (0 < y / - x) by (apply Rdiv_lt_0_compat; lra). lra. }
  apply atan_increasing in L. rewrite atan_0 in L. lra.
Qed.

(** ** rounding *)
Lemma nearest_mono l v l' v' : nearest l v -> nearest l' v' -> v < v' -> Q2R l <= Q2R l'.
Proof.
  intros (R1 & N1) (R2 & N2) H. apply Rnot_lt_le. intros K. pose proof (N1 _ R2) as X. pose proof (N2 _ R1) as Y.
  unfold Rabs in X, Y. repeat match type of X with context [Rcase_abs ?e] => destruct (Rcase_abs e) end;
  repeat match type of Y with context [Rcase_abs ?e] => destruct (Rcase_abs e) end; lra.
Qed.
Lemma nearest_eq l l' v : Q2R l = Q2R l' -> repr 128 l' -> nearest l v -> nearest l' v.
Proof. intros E R' (R1 & N). split; [exact R'|]. intros y Hy. rewrite <- E. now apply N. Qed.
Section A.
Context (M : mpfr) (A : mpfr2) (C : correct M) (C2 : correct2 M A).
(** a value and its rounding *)
Definition rounded (l : Q) (w : R) : Prop :=
  nearest l w /\ - PI <= w <= PI /\ (w = PI -> Q2R l = Q2R (m_pi M)) /\ (w = - PI -> Q2R l = - Q2R (m_pi M)).
Lemma pi_val : exists p, n_pi M = NR (Fin p) /\ nearest p PI /\ p = m_pi M.
Proof. exists (m_pi M). repeat split; apply (ok_pi M C). Qed.
Lemma not_low l w : rounded l w -> n_lt r (NR (Fin l)) (npi M) = false.
Proof.
  intros (N & B & _ & E). pose proof (nearest_opp _ _ (ok_pi M C)) as P.
  assert (K : Q2R (- m_pi M) <= Q2R l).
  { destruct (Req_dec w (- PI)) as [->|D]; [rewrite E by reflexivity; rewrite Q2R_opp; lra|]. apply (nearest_mono _ _ _ _ P N). lra. }
  apply (not_true_iff _ _ (n_lt_R (NR (Fin l)) (NR (Fin (- m_pi M))) (proj1 N) (proj1 P))). cbn. lra.
Qed.
Lemma not_high l w : rounded l w -> n_gt r (NR (Fin l)) (n_pi M) = false.
Proof.
  intros (N & B & E & _). pose proof (ok_pi M C) as P.
  assert (K : Q2R l <= Q2R (m_pi M)).
  { destruct (Req_dec w PI) as [->|D]; [rewrite E by reflexivity; lra|]. apply (nearest_mono _ _ _ _ N P). lra. }
  apply (not_true_iff _ _ (n_gt_R (NR (Fin l)) (NR (Fin (m_pi M))) (proj1 N) (proj1 P))). cbn. lra.
Qed.
Lemma widen_eq l h w1 w2 : rounded l w1 -> rounded h w2 -> widen M (NR (Fin l)) (NR (Fin h)) = Itv (NR (Fin (m_below M l))) (NR (Fin (m_above M h))) false false.
Proof. intros H1 H2. unfold widen. rewrite (not_low l w1 H1), (not_high h w2 H2). reflexivity. Qed.
(** [l] rounds [w] and is no greater than a rounding of [w'] *)
Lemma under l w l' w' : nearest l w -> nearest l' w' -> Q2R l <= Q2R l' -> Q2R (m_below M l) < w /\ Q2R (m_below M l) < w'.
Proof.
  intros N N' L. pose proof (nearest_bracket M l w C N) as B. split; [lra|].
  destruct (Rlt_le_dec w' w) as [K|K]; [|lra]. pose proof (nearest_mono _ _ _ _ N' N K) as X.
  assert (E : Q2R l' = Q2R l) by lra. apply (nearest_bracket M l w' C). exact (nearest_eq l' l w' E (proj1 N) N').
Qed.
Lemma over l w l' w' : nearest l w -> nearest l' w' -> Q2R l' <= Q2R l -> w < Q2R (m_above M l) /\ w' < Q2R (m_above M l).
Proof.
  intros N N' L. pose proof (nearest_bracket M l w C N) as B. split; [lra|].
  destruct (Rlt_le_dec w w') as [K|K]; [|lra]. pose proof (nearest_mono _ _ _ _ N N' K) as X.
  assert (E : Q2R l' = Q2R l) by lra. apply (nearest_bracket M l w' C). exact (nearest_eq l' l w' E (proj1 N) N').
Qed.
(** the angle at a bound, or its limit if the bound is infinite *)
Definition at_bound (n : number) (x w : R) : Prop :=
  match val n with Fin p => w = angle (Q2R p) x | Inf s => w = if s then - (PI / 2) else PI / 2 | Nan => False end.
Lemma at_val n x q : held n -> held x -> val x = Fin q -> exists l w, n_atan2 M A n x = NR (Fin l) /\ rounded l w /\ at_bound n (Q2R q) w.
Proof.
  intros Hn Hx Vx. destruct (held_real x q Hx Vx) as (x' & Tx & Rx & Ex). unfold n_atan2, at_bound. rewrite Tx. pose proof PI_RGT_0 as P0.
  destruct (val n) as [|s|p] eqn:V; [now elim (held_nn n Hn)| |].
  - rewrite (held_inf n s Hn V). cbn [h_atan2]. eexists. exists (if s then - (PI / 2) else PI / 2). split; [reflexivity|]. split; [|reflexivity].
    destruct s; cbn [sgn]; (split; [|split; [lra|split; intros; lra]]); [apply nearest_opp|]; apply (ok_atanInf M C).
  - destruct (held_real n p Hn V) as (p' & Tp & Rp & Ep). rewrite Tp. cbn [h_atan2]. eexists. exists (angle (Q2R p) (Q2R q)).
    split; [reflexivity|]. split; [|reflexivity]. rewrite <- Ep, <- Ex. pose proof (angle_range (Q2R p') (Q2R x')) as AR. split; [|split; [lra|split; [|intros; lra]]].
    + now apply (ok_at M A C2).
    + intros E. apply angle_PI in E. destruct E as [E1 E2]. apply Qeq_eqR. apply (ok_half M A C2).
      * apply eqR_Qeq. rewrite E2. unfold Q2R. cbn. lra.
      * apply Rlt_Qlt. unfold Q2R at 2. cbn. lra.
Qed.
Lemma widened l h w1 w2 v : rounded l w1 -> rounded h w2 -> (w1 <= v <= w2 \/ w2 <= v <= w1) ->
  memberR (if n_gt r (NR (Fin l)) (NR (Fin h)) then widen M (NR (Fin h)) (NR (Fin l)) else widen M (NR (Fin l)) (NR (Fin h))) v.
Proof.
  intros H1 H2 B. destruct (n_gt r (NR (Fin l)) (NR (Fin h))) eqn:G.
  - apply (n_gt_R (NR (Fin l)) (NR (Fin h)) (proj1 (proj1 H1)) (proj1 (proj1 H2))) in G. cbn in G.
    rewrite (widen_eq h l w2 w1 H2 H1). pose proof (under h w2 l w1 (proj1 H2) (proj1 H1) ltac:(lra)). pose proof (over l w1 h w2 (proj1 H1) (proj1 H2) ltac:(lra)).
    split; cbn; lra.
  - apply (not_true_iff _ _ (n_gt_R (NR (Fin l)) (NR (Fin h)) (proj1 (proj1 H1)) (proj1 (proj1 H2)))) in G. cbn in G.
    rewrite (widen_eq l h w1 w2 H1 H2). pose proof (under l w1 h w2 (proj1 H1) (proj1 H2) ltac:(lra)). pose proof (over h w2 l w1 (proj1 H2) (proj1 H1) ltac:(lra)).
    split; cbn; lra.
Qed.
End A.

(** ** atan2 of an interval and a number *)
(** every member's angle with a fixed abscissa is in the result, if the abscissa is not negative or the members are
    all non-negative or all below a negative number (see the refutations below) *)
Theorem C92_atan2_number_partial M A a x q : correct M -> correct2 M A -> usable a -> held x -> val x = Fin q ->
  0 <= Q2R q \/ (forall y, memberR a y -> 0 <= y) \/ (exists p, p < 0 /\ forall y, memberR a y -> y <= p) ->
  encloses (fun a => i_atan2N M A a x) (fun y => angle y (Q2R q)) a.
Proof.
  intros C C2 U Hx Vx D. apply (all_enc _ _ a U); [intros E; unfold i_atan2N; now rewrite E|].
  intros y Hy. unfold i_atan2N. rewrite (member_open a y U Hy). destruct U as (A1 & A2 & W). pose proof W as (W1 & W2).
  replace (n_isNaN x) with false by (destruct x as [z|[|s|z]]; try reflexivity; elim Hx). cbn [orb].
  assert (X : n_lt r (lo a) (NI 0) && n_gt r (hi a) (NI 0) && n_lt r x (NI 0) = false).
  { destruct (n_lt r (lo a) (NI 0)) eqn:E1; [|reflexivity]. destruct (n_gt r (hi a) (NI 0)) eqn:E2; [|reflexivity]. cbn [andb].
    apply (lt_I _ 0 A1 ltac:(lia)) in E1. apply (gt_I _ 0 A2 ltac:(lia)) in E2.
    apply (not_true_iff _ _ (lt_I x 0 Hx ltac:(lia))). rewrite Vx. intros Q0.
    destruct (below_exists a y 0 W Hy E1) as (y1 & M1 & L1). destruct (above_exists a y 0 W Hy E2) as (y2 & M2 & L2).
    destruct D as [D|[D|(p & D0 & D)]]; [lra|specialize (D y1 M1); lra|specialize (D y2 M2); lra]. }
  rewrite X. destruct (at_val M A C C2 (lo a) x q A1 Hx Vx) as (l & w1 & E1 & R1 & B1). destruct (at_val M A C C2 (hi a) x q A2 Hx Vx) as (h & w2 & E2 & R2 & B2).
  rewrite E1, E2. eexists. split; [reflexivity|]. apply (widened M C l h w1 w2 _ R1 R2). unfold at_bound in B1, B2. pose proof Hy as (L & H).
  destruct (Rle_dec 0 (Q2R q)) as [Q0|Q0].
  { left. pose proof (angle_right y (Q2R q) Q0) as AR. split.
    - destruct (val (lo a)) as [|s|p] eqn:V; [elim L| |].
      + cbn in L. subst s. rewrite B1. lra.
      + rewrite B1. apply angle_inc; [exact Q0|]. exact (lowR_le _ _ _ p eq_refl L).
    - destruct (val (hi a)) as [|s|p] eqn:V; [elim H| |].
      + cbn in H. subst s. rewrite B2. lra.
      + rewrite B2. apply angle_inc; [exact Q0|]. exact (highR_le _ _ _ p eq_refl H). }
  assert (Q1 : Q2R q < 0) by lra. right. destruct D as [D|[D|(p0 & D0 & D)]]; [lra| |].
  - assert (LO : exists p, val (lo a) = Fin p /\ 0 <= Q2R p).
    { destruct (val (lo a)) as [|s|p] eqn:V; [elim L| |].
      - cbn in L. subst s. destruct (below_exists a y 0 W Hy ltac:(rewrite V; reflexivity)) as (y1 & M1 & L1). specialize (D y1 M1). lra.
      - exists p. split; [reflexivity|]. apply Rnot_lt_le. intros K. destruct (below_exists a y 0 W Hy ltac:(rewrite V; exact K)) as (y1 & M1 & L1). specialize (D y1 M1). lra. }
    destruct LO as (p & V & P). rewrite V in B1, L. apply (lowR_le _ _ _ p eq_refl) in L. split.
    + destruct (val (hi a)) as [|s|p'] eqn:V'; [elim H| |].
      * cbn in H. subst s. rewrite B2. apply (angle_top y (Q2R q) Q1). now apply D.
      * rewrite B2. apply (angle_dec y (Q2R p') (Q2R q) Q1); [left; now apply D|]. exact (highR_le _ _ _ p' eq_refl H).
    + rewrite B1. apply (angle_dec (Q2R p) y (Q2R q) Q1); [now left|exact L].
  - assert (HI : exists p, val (hi a) = Fin p /\ Q2R p <= p0).
    { destruct (val (hi a)) as [|s|p] eqn:V; [elim H| |].
      - cbn in H. subst s. destruct (above_exists a y p0 W Hy ltac:(rewrite V; reflexivity)) as (y1 & M1 & L1). specialize (D y1 M1). lra.
      - exists p. split; [reflexivity|]. apply Rnot_lt_le. intros K. destruct (above_exists a y p0 W Hy ltac:(rewrite V; exact K)) as (y1 & M1 & L1). specialize (D y1 M1). lra. }
    destruct HI as (p & V & P). rewrite V in B2, H. apply (highR_le _ _ _ p eq_refl) in H. split.
    + rewrite B2. apply (angle_dec y (Q2R p) (Q2R q) Q1); [right; lra|exact H].
    + destruct (val (lo a)) as [|s|p'] eqn:V'; [elim L| |].
      * cbn in L. subst s. rewrite B1. apply (angle_bottom y (Q2R q) Q1). specialize (D y Hy). lra.
      * rewrite B1. apply (angle_dec (Q2R p') y (Q2R q) Q1); [right; specialize (D y Hy); lra|]. exact (lowR_le _ _ _ p' eq_refl L).
Qed.
Print Assumptions C92_atan2_number_partial.

(** members that reach 0 from below next to a negative abscissa: angles between -pi and the lowest one are lost.
    The neighbours of MPFR are much closer than the 1/4 used here *)
Definition close_below (M : mpfr) : Prop := forall q, -4 <= Q2R q <= 0 -> Q2R q - 1 / 4 <= Q2R (m_below M q).
Definition M1 : mpfr :=
  Mpfr (m_fun M0) (m_pow M0) (m_pi M0) (m_atanInf M0)
    (fun q => if Qle_bool (-4) q && Qle_bool q 0 then (inject_Z (Qceiling (8 * q) - 1) * (1 # 8))%Q else m_below M0 q) (m_above M0) (m_max M0).
Lemma Q8 z : Q2R (inject_Z z * (1 # 8)) = IZR z / 8. Proof. rewrite Q2R_mult, Q2R_Z. unfold Q2R. cbn. lra. Qed.
Lemma ceil8 q : 8 * Q2R q <= IZR (Qceiling (8 * q)) < 8 * Q2R q + 1.
Proof.
  pose proof (Qle_ceiling (8 * q)) as A. pose proof (Qceiling_lt (8 * q)) as B. apply Qle_Rle in A. apply Qlt_Rlt in B.
  rewrite Q2R_mult, Q2R_Z in *. replace (Q2R 8) with 8 in * by (unfold Q2R; cbn; lra). rewrite minus_IZR in B. lra.
Qed.
Lemma M1_correct : correct M1 /\ close_below M1.
Proof.
  pose proof M0_correct as C. split.
  - constructor; cbn [M1 m_fun m_pow m_pi m_atanInf m_below m_above]; try apply C.
    intros q Hq. destruct (Qle_bool (-4) q && Qle_bool q 0) eqn:E; [|now apply C].
    apply andb_true_iff in E. destruct E as [E1 E2]. apply Qle_bool_iff in E1, E2. apply Qle_Rle in E1, E2.
    replace (Q2R (-4)) with (-4) in E1 by (unfold Q2R; cbn; lra). replace (Q2R 0) with 0 in E2 by (unfold Q2R; cbn; lra).
    pose proof (ceil8 q) as K. set (z := Qceiling (8 * q)) in *. split.
    + exists (z - 1)%Z, (-3)%Z. split; [|reflexivity].
      assert (-33 < z)%Z by (apply lt_IZR; lra). assert (z < 2)%Z by (apply lt_IZR; lra). lia.
    + apply Rlt_Qlt. rewrite Q8, minus_IZR. lra.
  - intros q [H1 H2]. cbn [M1 m_below].
    replace (Qle_bool (-4) q) with true by (symmetry; apply Qle_bool_iff, Rle_Qle; unfold Q2R at 1; cbn; lra).
    replace (Qle_bool q 0) with true by (symmetry; apply Qle_bool_iff, Rle_Qle; unfold Q2R at 2; cbn; lra).
    cbn [andb]. pose proof (ceil8 q). rewrite Q8, minus_IZR. lra.
Qed.
Lemma atan_1 : atan 1 = PI / 4.
Proof. rewrite <- tan_PI4. apply atan_tan. pose proof PI_RGT_0. lra. Qed.
Theorem C92_atan2_number_refuted M A (c : bool) : correct M -> correct2 M A -> close_below M ->
  let a := Itv (NI (-1)) (NI 0) true c in
  exists b y, i_atan2N M A a (NI (-1)) = Ok b /\ memberR a y /\ ~ memberR b (angle y (-1)).
Proof.
  intros C C2 CB. cbn zeta. set (a := Itv (NI (-1)) (NI 0) true c). pose proof PI2_3_2 as P3. pose proof PI_4 as P4.
  assert (T0 : 0 < tan (1 / 4)) by (apply tan_gt_0; lra).
  assert (T1 : tan (1 / 4) < 1) by (apply Rlt_le_trans with (tan (PI / 4)); [apply tan_increasing; lra|rewrite tan_PI4; lra]).
  assert (Hy : memberR a (- tan (1 / 4))).
  { split; cbn; unfold Q2R; cbn; [lra|]. destruct c; lra. }
  destruct (at_val M A C C2 (NI (-1)) (NI (-1)) (inject_Z (-1)) ltac:(cbn; lia) ltac:(cbn; lia) eq_refl) as (l & w1 & E1 & R1 & B1).
  destruct (at_val M A C C2 (NI 0) (NI (-1)) (inject_Z (-1)) ltac:(cbn; lia) ltac:(cbn; lia) eq_refl) as (h & w2 & E2 & R2 & B2).
  cbn [at_bound val] in B1, B2. unfold at_bound in B1, B2. cbn [val] in B1, B2.
  assert (Z1 : Q2R (inject_Z (-1)) = -1) by (rewrite Q2R_Z; reflexivity). assert (Z0 : Q2R (inject_Z 0) = 0) by (rewrite Q2R_Z; reflexivity). rewrite ?Z1, ?Z0 in B1. rewrite ?Z1, ?Z0 in B2.
  rewrite (angle_half 0 (-1)) in B2 by lra. rewrite (angle_3 (-1) (-1)) in B1 by lra. replace (-1 / -1) with 1 in B1 by lra. rewrite atan_1 in B1.
  destruct R1 as (N1 & R1). destruct R2 as (N2 & R2).
  assert (L1 : Q2R l <= -2) by (replace (-2) with (Q2R (inject_Z (-2))) by (rewrite Q2R_Z; reflexivity); apply (nearest_le l w1); [exact N1|apply reprZ; lia|rewrite Q2R_Z; lra]).
  assert (L2 : -3 <= Q2R l) by (replace (-3) with (Q2R (inject_Z (-3))) by (rewrite Q2R_Z; reflexivity); apply (nearest_ge l w1); [exact N1|apply reprZ; lia|rewrite Q2R_Z; lra]).
  assert (L3 : w1 - 1 / 16 <= Q2R l).
  { destruct (archimed (16 * w1)) as [U1 U2]. set (k := up (16 * w1)) in *.
    assert (K1 : (-49 < k)%Z) by (apply lt_IZR; lra). assert (K2 : (k < 2)%Z) by (apply lt_IZR; lra).
    assert (RZ : repr 128 (inject_Z k * p2 (-4))) by (exists k, (-4)%Z; split; [lia|reflexivity]).
    pose proof (proj2 N1 _ RZ) as X. assert (EV : Q2R (inject_Z k * p2 (-4)) = IZR k / 16) by (rewrite Q2R_mult, Q2R_Z; unfold Q2R; cbn; lra).
    rewrite EV in X. unfold Rabs in X. repeat match type of X with context [Rcase_abs ?e] => destruct (Rcase_abs e) end; lra. }
  assert (H0 : 3 <= Q2R h) by (replace 3 with (Q2R (inject_Z 3)) by (rewrite Q2R_Z; reflexivity); apply (nearest_ge h w2); [exact N2|apply reprZ; lia|rewrite Q2R_Z; lra]).
  exists (Itv (NR (Fin (m_below M l))) (NR (Fin (m_above M h))) false false), (- tan (1 / 4)). split; [|split; [exact Hy|]].
  - unfold i_atan2N, a. cbn [lo hi]. rewrite E1, E2.
    replace (isEmptyI r (Itv (NI (-1)) (NI 0) true c)) with false by reflexivity. cbn [n_isNaN orb].
    replace (n_gt r (NI 0) (NI 0)) with false by reflexivity. rewrite andb_false_r. cbn [andb].
    replace (n_gt r (NR (Fin l)) (NR (Fin h))) with false.
    + f_equal. apply (widen_eq M C l h w1 w2); split; assumption.
    + symmetry. apply (not_true_iff _ _ (n_gt_R (NR (Fin l)) (NR (Fin h)) (proj1 N1) (proj1 N2))). cbn. lra.
  - intros (X & _). cbn in X. rewrite angle_3 in X by lra. replace (- tan (1 / 4) / -1) with (tan (1 / 4)) in X by lra.
    rewrite atan_tan in X by lra. specialize (CB l ltac:(lra)). lra.
Qed.
Print Assumptions C92_atan2_number_refuted.
(** non-vacuity: the hypotheses of both theorems are met; atan2 of [1,2] and 0 contains pi/2 *)
Example atan2_ex : (exists M A, correct M /\ correct2 M A /\ close_below M) /\
  exists b, i_atan2N M0 A0 (iv 1 2) (NI 0) = Ok b /\ memberR b (PI / 2).
Proof.
  split.
  - exists M1, A0. destruct M1_correct as [X Y]. split; [exact X|]. split; [|exact Y]. pose proof C92_atan2_exists as Z. constructor; [apply (ok_at _ _ Z)|exact (ok_half _ _ Z)|apply (ok_q1 _ _ Z)|apply (ok_q3 _ _ Z)].
  - destruct (C92_atan2_number_partial M0 A0 (iv 1 2) (NI 0) (inject_Z 0) M0_correct C92_atan2_exists) as (b & E & H).
    + repeat split; cbn; lia || exact I.
    + cbn. lia.
    + reflexivity.
    + left. rewrite Q2R_Z. lra.
    + exists b. split; [exact E|]. specialize (H 1). rewrite Q2R_Z in H. replace (PI / 2) with (angle 1 0); [apply H; split; cbn; unfold Q2R; cbn; lra|].
      unfold angle. destruct (Rlt_dec 0 0); [lra|]. destruct (Rlt_dec 0 1); [reflexivity|lra].
Qed.
