(** Proofs about the elementary functions: part 1, the functions whose bounds are moved outwards. *)
From Coq Require Import Reals QArith Qreals Qround Qabs ZArith List Bool Lia Lra.
From Verif Require Import Base NumModel RoundModel NumSpec NumProofs NumMore FunModel FunSpec.
Open Scope R_scope.

Lemma Q2R_lt a b : (a < b)%Q <-> Q2R a < Q2R b. Proof. split; [apply Qlt_Rlt|apply Rlt_Qlt]. Qed.
Lemma Q2R_Z z : Q2R (inject_Z z) = IZR z. Proof. unfold Q2R, inject_Z. cbn. field. Qed.
Lemma nearest_bracket M q v : correct M -> nearest q v -> Q2R (m_below M q) < v < Q2R (m_above M q).
Proof.
  intros C (H & N). destruct (ok_below M C q H) as (B1 & B2). destruct (ok_above M C q H) as (A1 & A2). apply Qlt_Rlt in A2, B2. split.
  - apply Rnot_le_lt. intros K. pose proof (N _ B1) as X. rewrite !Rabs_pos_eq in X by lra. lra.
  - apply Rnot_le_lt. intros K. pose proof (N _ A1) as X. rewrite <- (Rabs_Ropp (Q2R q - v)), <- (Rabs_Ropp (Q2R (m_above M q) - v)), !Rabs_pos_eq in X by lra. lra.
Qed.
Lemma nearest_opp q v : nearest q v -> nearest (- q) (- v).
Proof.
  intros (H & N). split; [apply repr_opp; [lia|assumption]|]. intros y Hy. pose proof (N (- y)%Q (repr_opp 128 ltac:(lia) y Hy)) as X. rewrite Q2R_opp in *.
  replace (- Q2R q - - v) with (- (Q2R q - v)) by ring. replace (Q2R y - - v) with (- (- Q2R y - v)) by ring. now rewrite !Rabs_Ropp.
Qed.
Lemma nearest_self q : repr 128 q -> nearest q (Q2R q).
Proof. intros H. split; [exact H|]. intros y _. unfold Rminus. rewrite Rplus_opp_r, Rabs_R0. apply Rabs_pos. Qed.
(** between representable bounds, so is the nearest number *)
Lemma nearest_ge q v y : nearest q v -> repr 128 y -> Q2R y <= v -> Q2R y <= Q2R q.
Proof. intros (_ & N) Hy L. apply Rnot_lt_le. intros K. pose proof (N y Hy) as X. rewrite <- (Rabs_Ropp (Q2R q - v)), <- (Rabs_Ropp (Q2R y - v)), !Rabs_pos_eq in X by lra. lra. Qed.
Lemma nearest_le q v y : nearest q v -> repr 128 y -> v <= Q2R y -> Q2R q <= Q2R y.
Proof. intros (_ & N) Hy L. apply Rnot_lt_le. intros K. pose proof (N y Hy) as X. rewrite !Rabs_pos_eq in X by lra. lra. Qed.

Lemma reprZ z : (Z.abs z <= 2 ^ 128)%Z -> repr 128 (inject_Z z). Proof. intros H. apply repr_Z. exact H. Qed.
Lemma held_fits n : held n -> fits n.
Proof. destruct n as [z|[|s|q]]; cbn; auto; discriminate. Qed.
Lemma held_real n q : held n -> val n = Fin q -> exists q', toReal rn128 n = Fin q' /\ repr 128 q' /\ Q2R q' = Q2R q.
Proof.
  destruct n as [z|x]; intros H E; cbn [val] in E.
  - injection E as <-. exists (rn128 (inject_Z z)). split; [reflexivity|]. split; [apply rn_repr; lia|]. apply Qeq_eqR. apply rn_exact; [lia|]. now apply reprZ.
  - subst x. exists q. auto.
Qed.
Lemma held_inf n s : held n -> val n = Inf s -> toReal rn128 n = Inf s.
Proof. destruct n as [z|x]; intros H E; cbn in *; [discriminate|exact E]. Qed.
Lemma held_nn n : held n -> val n <> Nan. Proof. intros H. apply fits_nn. now apply held_fits. Qed.
Lemma held_I z : (Z.abs z <= 2 ^ 128)%Z -> held (NI z). Proof. auto. Qed.
#[global] Hint Resolve held_fits : held.

(** ** comparisons with small integers *)
Definition ltR (a b : xr) : Prop := match a, b with Fin x, Fin y => Q2R x < Q2R y | Inf true, Inf false | Inf true, Fin _ | Fin _, Inf false => True | _, _ => False end.
Definition leR (a b : xr) : Prop := match a, b with Fin x, Fin y => Q2R x <= Q2R y | Nan, _ | _, Nan => False | Inf s, Inf t => s = true \/ t = false | Inf s, Fin _ => s = true | Fin _, Inf t => t = false end.
Lemma ltX_R a b : ltX a b <-> ltR a b. Proof. destruct a as [|[]|x], b as [|[]|y]; cbn; try tauto. apply Q2R_lt. Qed.
Lemma leX_R a b : leX a b <-> leR a b.
Proof.
  unfold leX. destruct a as [|[]|x], b as [|[]|y]; cbn; try (intuition congruence). split.
  - intros [H|H]; [apply Qlt_Rlt in H; lra|apply Qeq_eqR in H; lra].
  - intros H. apply Rle_Qle in H. apply Qle_lteq in H. exact H.
Qed.
Lemma n_lt_R a b : held a -> held b -> n_lt rn128 a b = true <-> ltR (val a) (val b).
Proof. intros A B. rewrite fits_lt by auto with held. rewrite xlt_iff. apply ltX_R. Qed.
Lemma n_le_R a b : held a -> held b -> n_le rn128 a b = true <-> leR (val a) (val b).
Proof. intros A B. rewrite fits_le by auto with held. rewrite xle_iff. apply leX_R. Qed.
Lemma n_gt_R a b : held a -> held b -> n_gt rn128 a b = true <-> ltR (val b) (val a).
Proof. intros A B. rewrite (Pgt rn128 fits fits_nn fits_lt fits_eq fits_le) by auto with held. rewrite xlt_iff. apply ltX_R. Qed.
Lemma n_ge_R a b : held a -> held b -> n_ge rn128 a b = true <-> leR (val b) (val a).
Proof. intros A B. rewrite (Pge rn128 fits fits_nn fits_lt fits_eq fits_le) by auto with held. rewrite xle_iff. apply leX_R. Qed.
Lemma not_true_iff (b : bool) (P : Prop) : (b = true <-> P) -> b = false <-> ~ P. Proof. destruct b; intuition congruence. Qed.

Lemma member_open a x : usable a -> memberR a x -> isEmptyI rn128 a = false.
Proof.
  intros (A & B & W) (L & H). unfold isEmptyI. apply orb_false_iff. split.
  - apply (not_true_iff _ _ (n_gt_R _ _ A B)). destruct (val (lo a)) as [|[]|p], (val (hi a)) as [|[]|q]; cbn in *; try tauto; try discriminate; destruct (lc a), (rc a); lra.
  - destruct (n_eq rn128 (lo a) (hi a)) eqn:E; [|reflexivity]. rewrite fits_eq in E by auto with held. apply xeq_iff in E. destruct W as (W1 & W2).
    destruct (val (lo a)) as [|s|p], (val (hi a)) as [|t|q]; cbn in E, L, H, W1, W2; try contradiction; [destruct W1, W2; congruence|].
    apply Qeq_eqR in E. destruct (lc a), (rc a); cbn; try reflexivity; lra.
Qed.

(** ** one bound *)
Section B.
Context (M : mpfr) (C : correct M).
(** the lower bound of the result is below the value [v] at every point of the interval *)
Definition lowOK (n : number) (v : R) := lowR (val n) false v.
Definition highOK (n : number) (v : R) := highR (val n) false v.
Lemma h_outside_false f q : in_domain f (Q2R q) -> h_outside f (Fin q) = false.
Proof.
  assert (O : Q2R 0 = 0) by (unfold Q2R; cbn; lra). assert (P1 : Q2R 1 = 1) by (unfold Q2R; cbn; lra). assert (N1 : Q2R (-1) = -1) by (unfold Q2R; cbn; lra).
  assert (LT : forall a b, Q2R b <= Q2R a -> xlt (Fin a) (Fin b) = false) by (intros a b K; apply (not_true_iff _ _ (xlt_iff _ _)); cbn; intros X; apply Qlt_Rlt in X; lra).
  assert (LE : forall a b, Q2R b < Q2R a -> xle (Fin a) (Fin b) = false) by (intros a b K; apply (not_true_iff _ _ (xle_iff _ _)); intros X; apply leX_R in X; cbn in X; lra).
  intros D. destruct f; cbn [in_domain h_outside] in *; auto; try (apply LT; lra); try (apply LE; lra); apply orb_false_iff; split; try (apply LT; lra); try (apply LE; lra).
Qed.
Lemma n_fun_fin f n q : held n -> val n = Fin q -> in_domain f (Q2R q) ->
  exists y, n_fun M f n = Ok (NR (Fin y)) /\ nearest y (real_fun f (Q2R q)).
Proof.
  intros H V D. destruct (held_real n q H V) as (q' & T & R' & E). exists (m_fun M f q'). unfold n_fun, h_fun. rewrite T.
  rewrite <- E in D |- *. rewrite h_outside_false by exact D. cbn [bind]. split; [reflexivity|]. now apply (ok_fun M C).
Qed.
Lemma n_fun_inf f n s : held n -> val n = Inf s -> h_outside f (Inf s) = false -> n_fun M f n = Ok (NR (h_inf M f s)).
Proof. intros H V D. unfold n_fun, h_fun. rewrite (held_inf n s H V), D. reflexivity. Qed.
Lemma below_ok y v : nearest y v -> lowOK (n_below M (NR (Fin y))) v.
Proof. intros N. cbn. now apply nearest_bracket. Qed.
Lemma above_ok y v : nearest y v -> highOK (n_above M (NR (Fin y))) v.
Proof. intros N. cbn. now apply nearest_bracket. Qed.
Lemma low_mono n v w : lowOK n v -> v <= w -> lowOK n w.
Proof. unfold lowOK. destruct (val n); cbn; auto. lra. Qed.
Lemma high_mono n v w : highOK n v -> w <= v -> highOK n w.
Proof. unfold highOK. destruct (val n); cbn; auto. lra. Qed.
Lemma lowR_le l c x : forall q, l = Fin q -> lowR l c x -> Q2R q <= x. Proof. intros q -> H. cbn in H. destruct c; lra. Qed.
Lemma highR_le l c x : forall q, l = Fin q -> highR l c x -> x <= Q2R q. Proof. intros q -> H. cbn in H. destruct c; lra. Qed.

(** *** the increasing functions *)
Definition increasing (f : rfun) := forall x y, in_domain f x -> in_domain f y -> x <= y -> real_fun f x <= real_fun f y.
Lemma low_fin f n c x q : increasing f -> held n -> val n = Fin q -> in_domain f (Q2R q) -> in_domain f x -> lowR (val n) c x ->
  exists v, n_fun M f n = Ok v /\ lowOK (n_below M v) (real_fun f x).
Proof.
  intros I H V D Dx L. destruct (n_fun_fin f n q H V D) as (y & -> & N). eexists. split; [reflexivity|].
  eapply low_mono; [apply below_ok, N|]. apply I; auto. eapply lowR_le; eassumption.
Qed.
Lemma high_fin f n c x q : increasing f -> held n -> val n = Fin q -> in_domain f (Q2R q) -> in_domain f x -> highR (val n) c x ->
  exists v, n_fun M f n = Ok v /\ highOK (n_above M v) (real_fun f x).
Proof.
  intros I H V D Dx L. destruct (n_fun_fin f n q H V D) as (y & -> & N). eexists. split; [reflexivity|].
  eapply high_mono; [apply above_ok, N|]. apply I; auto. eapply highR_le; eassumption.
Qed.
End B.

(** ** which functions increase *)
Lemma le_of_lt (g : R -> R) x y : (x < y -> g x < g y) -> x <= y -> g x <= g y.
Proof. intros H [L|E]; [left; auto|right; now rewrite E]. Qed.
Lemma inc_exp : increasing F_exp. Proof. intros x y _ _. apply le_of_lt. apply exp_increasing. Qed.
Lemma inc_ln : increasing F_ln. Proof. intros x y Dx Dy. apply le_of_lt. now apply ln_increasing. Qed.
Lemma ln_pos b : 1 < b -> 0 < ln b. Proof. intros H. rewrite <- ln_1. apply ln_increasing; lra. Qed.
Lemma inc_lnb b x y : 1 < b -> 0 < x -> x <= y -> ln x / ln b <= ln y / ln b.
Proof.
  intros B X L. apply Rmult_le_compat_r; [left; apply Rinv_0_lt_compat; now apply ln_pos|]. revert L. apply le_of_lt. now apply ln_increasing.
Qed.
Lemma inc_lg : increasing F_lg. Proof. intros x y Dx Dy L. apply inc_lnb; cbn in *; lra. Qed.
Lemma inc_lb : increasing F_lb. Proof. intros x y Dx Dy L. apply inc_lnb; cbn in *; lra. Qed.
Lemma inc_sqrt : increasing F_sqrt. Proof. intros x y Dx Dy L. cbn in *. now apply sqrt_le_1. Qed.
Lemma inc_atan : increasing F_atan. Proof. intros x y _ _. apply le_of_lt. apply atan_increasing. Qed.
Lemma inc_sinh : increasing F_sinh. Proof. intros x y _ _. apply le_of_lt. apply sinh_lt. Qed.
Lemma inc_asinh : increasing F_asinh. Proof. intros x y _ _. apply arcsinh_le. Qed.
Lemma inc_asin : increasing F_asin.
Proof.
  intros x y Dx Dy L. cbn [real_fun in_domain] in *. apply Rnot_lt_le. intros K. pose proof (asin_bound x). pose proof (asin_bound y).
  assert (X : sin (asin y) < sin (asin x)) by (apply sin_increasing_1; lra). rewrite !sin_asin in X by lra. lra.
Qed.
Lemma tanh_form x : tanh x = 1 - 2 / (exp (2 * x) + 1).
Proof.
  unfold tanh, sinh, cosh. pose proof (exp_pos x) as P. pose proof (exp_pos (- x)) as N. replace (2 * x) with (x + x) by ring. rewrite exp_plus.
  assert (E : exp x * exp (- x) = 1) by (rewrite <- exp_plus, Rplus_opp_r; apply exp_0).
  apply Rmult_eq_reg_r with ((exp x + exp (- x)) * (exp x * exp x + 1)); [|apply Rgt_not_eq, Rmult_gt_0_compat; nra]. field_simplify; [|nra|lra]. nra.
Qed.
Lemma tanh_bound x : -1 < tanh x < 1.
Proof.
  rewrite tanh_form. pose proof (exp_pos (2 * x)) as P. assert (0 < / (exp (2 * x) + 1) < 1).
  { split; [apply Rinv_0_lt_compat; lra|]. rewrite <- Rinv_1. apply Rinv_lt_contravar; lra. } unfold Rdiv. lra.
Qed.
Lemma inc_tanh : increasing F_tanh.
Proof.
  intros x y _ _ L. cbn [real_fun]. rewrite !tanh_form. pose proof (exp_pos (2 * x)) as P. assert (E : exp (2 * x) <= exp (2 * y)). { assert (L2 : 2 * x <= 2 * y) by lra. revert L2. apply le_of_lt. apply exp_increasing. }
  assert (/ (exp (2 * y) + 1) <= / (exp (2 * x) + 1)) by (apply Rinv_le_contravar; lra). unfold Rdiv. lra.
Qed.
Lemma inc_acosh : increasing F_acosh.
Proof.
  intros x y Dx Dy L. cbn [real_fun in_domain] in *. pose proof (sqrt_pos (x * x - 1)) as S. assert (sqrt (x * x - 1) <= sqrt (y * y - 1)) by (apply sqrt_le_1; nra).
  assert (K : x + sqrt (x * x - 1) <= y + sqrt (y * y - 1)) by lra. revert K. apply le_of_lt. apply ln_increasing. lra.
Qed.
Lemma inc_atanh : increasing F_atanh.
Proof.
  intros x y Dx Dy L. cbn [real_fun in_domain] in *. assert (K : (1 + x) / (1 - x) <= (1 + y) / (1 - y)).
  { assert (/ (1 - x) <= / (1 - y)) by (apply Rinv_le_contravar; lra). assert (0 < / (1 - x)) by (apply Rinv_0_lt_compat; lra). unfold Rdiv. apply Rmult_le_compat; lra. }
  assert (P : 0 < (1 + x) / (1 - x)) by (apply Rdiv_lt_0_compat; lra). apply Rmult_le_compat_r; [lra|]. revert K. apply le_of_lt. now apply ln_increasing.
Qed.
Lemma ln_nonpos_lim v : lowOK negInf v. Proof. reflexivity. Qed.

(** ** the methods *)
Section E.
Context (M : mpfr) (C : correct M).
Notation r := rn128.
Lemma member_mk l h v : lowOK l v -> highOK h v -> memberR (Itv l h false false) v. Proof. split; assumption. Qed.

(** the common part of atan, sinh, tanh, asinh, asin, acosh, atanh *)
Lemma mono_enc f a x : increasing f -> usable a -> memberR a x -> in_domain f x ->
  (forall q, val (lo a) = Fin q -> in_domain f (Q2R q)) -> (forall q, val (hi a) = Fin q -> in_domain f (Q2R q)) ->
  (val (lo a) = Inf true -> h_outside f (Inf true) = false /\ lowOK (n_below M (NR (h_inf M f true))) (real_fun f x)) ->
  (val (hi a) = Inf false -> h_outside f (Inf false) = false /\ highOK (n_above M (NR (h_inf M f false))) (real_fun f x)) ->
  exists b, i_mono M f a = Ok b /\ memberR b (real_fun f x).
Proof.
  intros Inc U Mx Dx Dl Dh Il Ih. unfold i_mono. rewrite (member_open a x U Mx). destruct U as (A & B & W), Mx as (L & H), W as (W1 & W2).
  assert (XL : exists v, n_fun M f (lo a) = Ok v /\ lowOK (n_below M v) (real_fun f x)).
  { destruct (val (lo a)) as [|s|q] eqn:V; [contradiction| |].
    - destruct W1 as (-> & _). destruct (Il eq_refl) as (O & K). rewrite (n_fun_inf M f (lo a) true A V O). eauto.
    - apply (low_fin M C f (lo a) (lc a) x q); auto. now rewrite V. }
  assert (XH : exists v, n_fun M f (hi a) = Ok v /\ highOK (n_above M v) (real_fun f x)).
  { destruct (val (hi a)) as [|s|q] eqn:V; [contradiction| |].
    - destruct W2 as (-> & _). destruct (Ih eq_refl) as (O & K). rewrite (n_fun_inf M f (hi a) false B V O). eauto.
    - apply (high_fin M C f (hi a) (rc a) x q); auto. now rewrite V. }
  destruct XL as (u & -> & X1), XH as (v & -> & X2). cbn [bind]. eexists. split; [reflexivity|]. now apply member_mk.
Qed.
Lemma atan_enc a x : usable a -> memberR a x -> exists b, i_atan M a = Ok b /\ memberR b (atan x).
Proof.
  intros U Mx. apply (mono_enc F_atan a x inc_atan U Mx); cbn; auto; intros _; (split; [reflexivity|]); pose proof (atan_bound x); pose proof (ok_atanInf M C) as P.
  - apply nearest_opp in P. apply (nearest_bracket M _ _ C) in P. unfold lowOK. cbn. lra.
  - apply (nearest_bracket M _ _ C) in P. unfold highOK. cbn. lra.
Qed.
Lemma sinh_enc a x : usable a -> memberR a x -> exists b, i_sinh M a = Ok b /\ memberR b (sinh x).
Proof. intros U Mx. apply (mono_enc F_sinh a x inc_sinh U Mx); cbn; auto; intros _; (split; reflexivity). Qed.
Lemma asinh_enc a x : usable a -> memberR a x -> exists b, i_asinh M a = Ok b /\ memberR b (arcsinh x).
Proof. intros U Mx. apply (mono_enc F_asinh a x inc_asinh U Mx); cbn; auto; intros _; (split; reflexivity). Qed.
Lemma repr1 : repr 128 1. Proof. apply (reprZ 1). lia. Qed.
Lemma tanh_enc a x : usable a -> memberR a x -> exists b, i_tanh M a = Ok b /\ memberR b (tanh x).
Proof.
  intros U Mx. pose proof (tanh_bound x) as T. apply (mono_enc F_tanh a x inc_tanh U Mx); cbn; auto; intros _; (split; [reflexivity|]).
  - pose proof (ok_below M C (-1) (repr_opp 128 ltac:(lia) 1 repr1)) as (_ & K). apply Qlt_Rlt in K. unfold lowOK. cbn. assert (Q2R (-1) = -1) by (unfold Q2R; cbn; lra). lra.
  - pose proof (ok_above M C 1 repr1) as (_ & K). apply Qlt_Rlt in K. unfold highOK. cbn. assert (Q2R 1 = 1) by (unfold Q2R; cbn; lra). lra.
Qed.
End E.
