(** C70: the elementary functions of intervals and numbers.  [correct M]: the MPFR routines round correctly and
    their neighbours are below and above; a proof that such routines exist is [C70_mpfr_exists]. *)
From Coq Require Import Reals QArith Qreals Qround Qabs ZArith Znumtheory Zpow_facts List Bool Lia Lra.
From Verif Require Import Base NumModel RoundModel NumSpec NumProofs NumMore FunModel FunSpec FunProofs FunProofs2 FunProofs3 FunProofs4 FunProofs5 FunProofs6.
Open Scope R_scope.

(** [op] returns an interval that contains [g x] for every member [x] of [a] *)
Definition encloses (op : interval -> res interval) (g : R -> R) (a : interval) : Prop :=
  exists b, op a = Ok b /\ forall x, memberR a x -> memberR b (g x).

Lemma mem_ex a : usable a -> isEmptyI rn128 a = false -> exists x, memberR a x.
Proof.
  intros U E. apply (emp_f rn128 fits fits_nn fits_lt fits_eq fits_le a (usable_PI a U)) in E. destruct E as (q & Hq). exists (Q2R q). now apply member_R.
Qed.
Lemma all_enc op g a : usable a -> (isEmptyI rn128 a = true -> op a = Ok EmptyI) ->
  (forall x, memberR a x -> exists b, op a = Ok b /\ memberR b (g x)) -> encloses op g a.
Proof.
  intros U E H. destruct (isEmptyI rn128 a) eqn:K.
  - exists EmptyI. split; [now apply E|]. intros x Hx. rewrite (member_open a x U Hx) in K. discriminate.
  - destruct (mem_ex a U K) as (x0 & H0). destruct (H x0 H0) as (b & Eb & _). exists b. split; [exact Eb|]. intros x Hx. destruct (H x Hx) as (b' & Eb' & Hb). congruence.
Qed.
Ltac emp := let E := fresh in intros E; unfold i_atan, i_sinh, i_tanh, i_asinh, i_mono, i_exp, i_cosh, i_log, i_pow2; rewrite E; reflexivity.

(** there is an arithmetic that rounds correctly, so the hypothesis [correct M] of the theorems below can be met *)
Theorem C70_mpfr_exists : exists M, correct M.
Proof. exists M0. exact M0_correct. Qed.

(** exp, cosh, sinh, tanh, atan, asinh, and 2^x: every interval gets an enclosure *)
Theorem C70_everywhere M a : correct M -> usable a ->
  encloses (i_exp M) exp a /\ encloses (i_cosh M) cosh a /\ encloses (i_sinh M) sinh a /\ encloses (i_tanh M) tanh a /\
  encloses (i_atan M) atan a /\ encloses (i_asinh M) arcsinh a /\ encloses (i_pow2 M false) (Rpower 2) a.
Proof.
  intros C U. repeat split; apply (all_enc _ _ a U); try emp; intros x Hx.
  - now apply exp_enc. - now apply cosh_enc. - now apply sinh_enc. - now apply tanh_enc. - now apply atan_enc. - now apply asinh_enc. - now apply pow2_enc.
Qed.
(** ln, lg, lb: always an interval, that contains the logarithm of every positive member *)
Theorem C70_log M a : correct M -> usable a -> (exists x, memberR a x /\ 0 < x) ->
  exists b1 b2 b3, i_ln M a = Ok b1 /\ i_lg M a = Ok b2 /\ i_lb M a = Ok b3 /\
  forall x, memberR a x -> 0 < x -> memberR b1 (ln x) /\ memberR b2 (ln x / ln 10) /\ memberR b3 (ln x / ln 2).
Proof.
  intros C U (y & My & Py).
  destruct (log_enc M C F_ln a y) as (b1 & E1 & _); auto. destruct (log_enc M C F_lg a y) as (b2 & E2 & _); auto. destruct (log_enc M C F_lb a y) as (b3 & E3 & _); auto.
  exists b1, b2, b3. repeat (split; [assumption|]). intros x Mx Px.
  destruct (log_enc M C F_ln a x) as (c1 & F1 & G1); auto. destruct (log_enc M C F_lg a x) as (c2 & F2 & G2); auto. destruct (log_enc M C F_lb a x) as (c3 & F3 & G3); auto.
  rewrite F1 in E1. rewrite F2 in E2. rewrite F3 in E3. injection E1 as <-. injection E2 as <-. injection E3 as <-. auto.
Qed.
(** an interval without a positive member has no logarithms *)
Theorem C70_log_none M f a : usable a -> (forall x, memberR a x -> x <= 0) -> i_log M f a = Ok EmptyI.
Proof.
  intros U N. unfold i_log. destruct (isEmptyI rn128 a) eqn:E; [reflexivity|]. destruct (mem_ex a U E) as (x0 & H0). destruct U as (A & B & W).
  destruct (n_le rn128 (hi a) (NI 0)) eqn:K; [reflexivity|]. exfalso. apply (not_true_iff _ _ (le_I (hi a) 0 B ltac:(lia))) in K.
  destruct (above_exists a x0 0 W H0) as (y & Hy & Py).
  - destruct W as (_ & W2). destruct (val (hi a)) as [|s|q]; [contradiction|now destruct W2|]. lra.
  - specialize (N y Hy). lra.
Qed.
(** the logarithm to a base that is not positive, or is 1, is an error *)
Theorem C70_log_base M a z x : usable a -> memberR a x -> (z <= 0 \/ z = 1)%Z -> (Z.abs z <= 2 ^ 128)%Z -> i_logN M a (NI z) = Throw DomainError.
Proof.
  intros U Mx Hz B. unfold i_logN. rewrite (member_open a x U Mx). destruct Hz as [Hz| ->]; [|reflexivity]. cbn [n_le]. apply Z.leb_le in Hz. now rewrite Hz.
Qed.
(** asin and acosh: an enclosure if all members are in the domain, std::domain_error otherwise *)
Theorem C70_asin M a : correct M -> usable a ->
  ((forall x, memberR a x -> -1 <= x <= 1) -> encloses (i_asin M) asin a) /\
  ((exists x, memberR a x /\ ~ -1 <= x <= 1) -> i_asin M a = Throw DomainError).
Proof.
  intros C U. split.
  - intros D. apply (all_enc _ _ a U); [intros E; unfold i_asin; now rewrite E|]. intros x Hx. destruct (asin_enc M C a x U Hx) as [T|(b & E & K & _)]; [|eauto].
    apply (asin_throws M C a x U Hx) in T. destruct T as (y & Hy & N). now elim N; apply D.
  - intros (x & Hx & N). apply (asin_throws M C a x U Hx). eauto.
Qed.
Theorem C70_acosh M a : correct M -> usable a ->
  ((forall x, memberR a x -> 1 <= x) -> encloses (i_acosh M) (fun x => ln (x + sqrt (x * x - 1))) a) /\
  ((exists x, memberR a x /\ x < 1) -> i_acosh M a = Throw DomainError).
Proof.
  intros C U. split.
  - intros D. apply (all_enc _ _ a U); [intros E; unfold i_acosh; now rewrite E|]. intros x Hx. destruct (acosh_enc M C a x U Hx) as [T|(b & E & K & _)]; [|eauto].
    apply (acosh_throws M C a x U Hx) in T. destruct T as (y & Hy & N). elim N. now apply D.
  - intros (x & Hx & N). apply (acosh_throws M C a x U Hx). exists x. split; [exact Hx|lra].
Qed.
(** atanh: an enclosure if the members keep away from -1 and 1 (see [C70_atanh_refuted]); otherwise an error *)
Theorem C70_atanh_partial M a : correct M -> usable a ->
  ((exists p q, -1 < p /\ q < 1 /\ forall x, memberR a x -> p <= x <= q) -> encloses (i_atanh M) (fun x => ln ((1 + x) / (1 - x)) / 2) a) /\
  ((exists x, memberR a x /\ ~ -1 < x < 1) -> i_atanh M a = Throw DomainError).
Proof.
  intros C U. split.
  - intros (p & q & P & Q & S). apply (all_enc _ _ a U); [intros E; unfold i_atanh; now rewrite E|]. intros x Hx. destruct (atanh_answers M C a x p q U Hx P Q S) as (b & Eb). destruct (atanh_enc M C a x U Hx) as [T|(b' & E & K & _)]; [congruence|eauto].
  - intros (x & Hx & N). destruct (atanh_enc M C a x U Hx) as [T|(b & _ & _ & K)]; [exact T|contradiction].
Qed.
(** sqrt and safeSqrt: an enclosure of the roots of the members that have one, if some member is positive
    (see [C70_sqrt_refuted]) *)
Theorem C70_sqrt_partial M a : correct M -> usable a -> (exists x, memberR a x /\ 0 < x) ->
  exists b1 b2, i_sqrt M a = Ok b1 /\ i_safeSqrt M a = Ok b2 /\ forall x, memberR a x -> 0 <= x -> memberR b1 (sqrt x) /\ memberR b2 (sqrt x).
Proof.
  intros C U (y & My & Py). assert (W : exists y, memberR a y /\ 0 < y) by eauto.
  destruct (root_enc M C (n_sqrt M) a y (or_introl eq_refl) U My ltac:(lra) W) as (b1 & E1 & _). destruct (root_enc M C (n_safeSqrt M) a y (or_intror eq_refl) U My ltac:(lra) W) as (b2 & E2 & _).
  exists b1, b2. split; [exact E1|]. split; [exact E2|]. intros x Mx Px.
  destruct (root_enc M C (n_sqrt M) a x (or_introl eq_refl) U Mx Px W) as (c1 & F1 & G1). destruct (root_enc M C (n_safeSqrt M) a x (or_intror eq_refl) U Mx Px W) as (c2 & F2 & G2).
  unfold i_sqrt, i_safeSqrt in *. rewrite F1 in E1. rewrite F2 in E2. injection E1 as <-. injection E2 as <-. auto.
Qed.
(** powers with a non-negative integer exponent, of intervals whose bounds are integers or infinite; the one
    exception is [C70_pow_refuted].  Exponents beyond int are an error *)
Theorem C70_pow_partial M a n : whole (lo a) -> whole (hi a) -> iwf a -> (0 <= n <= 2147483647)%Z ->
  ~ (exists z, lo a = NI (- z) /\ hi a = NI z /\ (0 < z)%Z /\ lc a = true /\ rc a = false /\ Z.even n = true) ->
  (exists x, memberR a x) -> encloses (fun a => i_powN M a (NI n)) (fun x => x ^ Z.to_nat n) a.
Proof.
  intros A B W Hn Ex (x0 & H0). destruct (Z.eq_dec n 0) as [->|N0].
  - exists oneI. split; [unfold i_powN; rewrite (whole_open a x0 A B W H0); reflexivity|]. intros x _. cbn. split; cbn; unfold Q2R; cbn; lra.
  - assert (Hn' : (0 < n <= 2147483647)%Z) by lia. destruct (powZ_enc M n Hn' a x0 A B W H0 Ex) as (b & E & _). exists b. split; [exact E|]. intros x Hx. destruct (powZ_enc M n Hn' a x A B W Hx Ex) as (b' & E' & K). congruence.
Qed.
Theorem C70_pow_overflow M a n x : usable a -> memberR a x -> (n < -2147483648 \/ 2147483647 < n)%Z -> i_powN M a (NI n) = Throw OverflowError.
Proof.
  intros U Mx Hn. unfold i_powN. rewrite (member_open a x U Mx). cbn [n_isInteger toInteger]. unfold toInt.
  replace ((2147483647 <? n) || (n <? -2147483648))%Z with true; [reflexivity|]. symmetry. apply orb_true_iff. rewrite !Z.ltb_lt. lia.
Qed.
(** negative powers of an interval that reaches 0 are an error *)
Theorem C70_pow_negative M a n : usable a -> memberR a 0 -> (-2147483648 <= n < 0)%Z -> i_powN M a (NI n) = Throw DomainError.
Proof.
  intros U Mx Hn. unfold i_powN. rewrite (member_open a 0 U Mx). cbn [n_isInteger toInteger]. unfold toInt.
  replace ((2147483647 <? n) || (n <? -2147483648))%Z with false by (symmetry; apply orb_false_iff; rewrite !Z.ltb_ge; lia). cbn [bind]. unfold i_powZ.
  replace (n =? 0)%Z with false by (symmetry; apply Z.eqb_neq; lia). replace (0 <? n)%Z with false by (symmetry; apply Z.ltb_ge; lia).
  destruct U as (A & B & W1 & W2), Mx as (L & H).
  assert (E1 : n_le rn128 (lo a) (NI 0) = true). { apply (le_I (lo a) 0 A ltac:(lia)). destruct (val (lo a)) as [|s|p] eqn:V; [contradiction|exact L|]. exact (lowR_le _ _ _ _ eq_refl L). }
  assert (E2 : n_ge rn128 (hi a) (NI 0) = true). { apply (ge_I (hi a) 0 B ltac:(lia)). destruct (val (hi a)) as [|s|p] eqn:V; [contradiction|exact H|]. exact (highR_le _ _ _ _ eq_refl H). }
  now rewrite E1, E2.
Qed.
(** the enclosures are tight: the bounds are MPFR's neighbours of the correctly rounded values at the bounds *)
Definition tight (M : mpfr) (op : interval -> res interval) (g : R -> R) (a : interval) (p q : Q) : Prop :=
  exists y z, nearest y (g (Q2R p)) /\ nearest z (g (Q2R q)) /\ op a = Ok (Itv (NR (Fin (m_below M y))) (NR (Fin (m_above M z))) false false).
Theorem C70_tight M a x p q : correct M -> usable a -> memberR a x -> val (lo a) = Fin p -> val (hi a) = Fin q ->
  tight M (i_exp M) exp a p q /\ tight M (i_sinh M) sinh a p q /\ tight M (i_tanh M) tanh a p q /\ tight M (i_atan M) atan a p q /\ tight M (i_asinh M) arcsinh a p q /\
  (0 < Q2R p -> tight M (i_ln M) ln a p q /\ tight M (i_lg M) (fun x => ln x / ln 10) a p q /\ tight M (i_lb M) (fun x => ln x / ln 2) a p q).
Proof.
  intros C U Mx Vl Vh. split; [exact (exp_bounds M a x p q C U Mx Vl Vh)|]. split; [exact (mono_bounds M F_sinh a x p q C U Mx Vl Vh I I)|]. split; [exact (mono_bounds M F_tanh a x p q C U Mx Vl Vh I I)|]. split; [exact (mono_bounds M F_atan a x p q C U Mx Vl Vh I I)|]. split; [exact (mono_bounds M F_asinh a x p q C U Mx Vl Vh I I)|].
  intros P. split; [|split]; [exact (log_bounds M F_ln a x p q (or_introl eq_refl) C U Mx Vl Vh P)|exact (log_bounds M F_lg a x p q (or_intror (or_introl eq_refl)) C U Mx Vl Vh P)|exact (log_bounds M F_lb a x p q (or_intror (or_intror eq_refl)) C U Mx Vl Vh P)].
Qed.
(** sin and cos of an interval that is unbounded or at least 8 wide are [-1, 1], which contains every value *)
Theorem C70_wide_partial M a x : correct M -> usable a -> memberR a x ->
  ((exists s, val (lo a) = Inf s) \/ (exists s, val (hi a) = Inf s) \/ (exists p q, val (lo a) = Fin p /\ val (hi a) = Fin q /\ Q2R p + 8 <= Q2R q)) ->
  i_sin M a = Ok (Itv (NI (-1)) (NI 1) true true) /\ i_cos M a = Ok (Itv (NI (-1)) (NI 1) true true) /\
  forall y, memberR (Itv (NI (-1)) (NI 1) true true) (sin y) /\ memberR (Itv (NI (-1)) (NI 1) true true) (cos y).
Proof.
  intros C U Mx W. split; [|split].
  - unfold i_sin. destruct (half_pi M C) as (c & -> & _). cbn [bind].
    assert (X : exists t, n_div rn128 (n_mul rn128 (NI 3) (n_pi M)) (NI 2) = Ok t) by (eexists; reflexivity). destruct X as (t & ->). cbn [bind]. now apply (wave_wide M _ _ _ a x).
  - unfold i_cos. now apply (wave_wide M _ _ _ a x).
  - intros y. pose proof (SIN_bound y). pose proof (COS_bound y). split; split; cbn; unfold Q2R; cbn; lra.
Qed.
(** an interval without members is mapped to the empty interval by every function, whatever the exponent or base *)
Theorem C70_empty M dbg a : usable a -> (forall x, ~ memberR a x) ->
  (forall f, In f [i_exp M; i_ln M; i_lg M; i_lb M; i_sqrt M; i_safeSqrt M; i_sin M; i_cos M; i_tan M; i_cot M dbg; i_sec M dbg; i_csc M dbg; i_asin M; i_acos M; i_atan M;
    i_acot M; i_asec M dbg; i_acsc M dbg; i_sinh M; i_cosh M; i_tanh M; i_coth M; i_sech M dbg; i_csch M dbg; i_asinh M; i_acosh M; i_atanh M; i_acoth M dbg; i_asech M dbg; i_acsch M dbg; i_pow2 M dbg] ->
    f a = Ok EmptyI) /\ (forall e, i_powN M a e = Ok EmptyI) /\ (forall b, i_logN M a b = Ok EmptyI) /\ (forall x, ~ memberR EmptyI x).
Proof.
  intros U N. pose proof (no_member a U N) as E. split; [|split; [|split]].
  - intros f Hf. cbn [In] in Hf. repeat (destruct Hf as [<-|Hf]); try contradiction; unfold i_exp, i_ln, i_lg, i_lb, i_log, i_sqrt, i_safeSqrt, i_root, i_sin, i_cos, i_wave, i_tan, i_cot, i_sec, i_csc, recip, i_asin, i_acos, i_atan,
      i_acot, i_asec, i_acsc, i_sinh, i_cosh, i_tanh, i_coth, i_sech, i_csch, i_asinh, i_acosh, i_atanh, i_acoth, i_asech, i_acsch, i_pow2, i_mono; try (rewrite E; reflexivity).
  - intros e. unfold i_powN. now rewrite E.
  - intros b. unfold i_logN. now rewrite E.
  - intros x (L & H). cbn in L, H. unfold Q2R in L, H. cbn in L, H. lra.
Qed.

(** ** where the code breaks the property *)
Local Notation pt z := (Itv (NI z) (NI z) true true).
Lemma pt_mem z : memberR (pt z) (IZR z). Proof. split; cbn [lo hi lc rc val lowR highR]; rewrite Q2R_Z; lra. Qed.
(** sqrt of [0, 0] is empty: the root of 0 is lost *)
Theorem C70_sqrt_refuted M : usable (pt 0) /\ memberR (pt 0) 0 /\ i_sqrt M (pt 0) = Ok EmptyI /\ i_safeSqrt M (pt 0) = Ok EmptyI /\ ~ memberR EmptyI (sqrt 0).
Proof.
  split; [split; [cbn; lia|split; [cbn; lia|split; exact I]]|]. split; [apply pt_mem|]. split; [reflexivity|]. split; [reflexivity|]. intros (L & H). cbn in L, H. unfold Q2R in L, H. cbn in L, H. lra.
Qed.
(** atanh of the open interval (-1, 1), whose members are all in the domain, is an error *)
Theorem C70_atanh_refuted M : usable (Itv (NI (-1)) (NI 1) false false) /\ (forall x, memberR (Itv (NI (-1)) (NI 1) false false) x <-> -1 < x < 1) /\
  i_atanh M (Itv (NI (-1)) (NI 1) false false) = Throw DomainError.
Proof.
  split; [split; [cbn; lia|split; [cbn; lia|split; exact I]]|]. split; [|reflexivity]. intros x. unfold memberR. cbn. unfold Q2R. cbn. split; intros; lra.
Qed.
(** sin of (0, 3): the maximum 1, reached at pi/2, is not in the result, whose upper bound 1 is open *)
Theorem C70_sin_refuted M : correct M ->
  exists b, i_sin M (Itv (NI 0) (NI 3) false false) = Ok b /\ memberR (Itv (NI 0) (NI 3) false false) (Rtrigo1.PI / 2) /\ ~ memberR b (sin (Rtrigo1.PI / 2)).
Proof. apply sin_open. Qed.
(** tan of [1, 2]: the pole at pi/2 is overlooked, so large values are missing *)
Theorem C70_tan_refuted M : correct M ->
  exists b v, i_tan M (pt 1) <> Throw DomainError /\ i_tan M (Itv (NI 1) (NI 2) true true) = Ok b /\ memberR (Itv (NI 1) (NI 2) true true) v /\ cos v <> 0 /\ ~ memberR b (tan v).
Proof.
  intros C. destruct (tan_pole M C) as (b & v & H). exists b, v. split; [|exact H].
  unfold i_tan. change (isEmptyI rn128 (pt 1)) with false. destruct (half_pi M C) as (c & -> & _). cbn [bind lo hi n_isInf orb]. intros X.
  assert (N : exists n, normpi M (NR (Fin (rn128 c))) (NI 1) = Ok n).
  { unfold normpi. assert (D : exists d, n_div rn128 (NI 1) (n_pi M) = Ok d) by (unfold n_div, n_pi; cbn; eauto). destruct D as (d & ->). cbn [bind]. eauto. }
  destruct N as (n & En). rewrite En in X. cbn [bind] in X. destruct (_ || _) in X; [discriminate|].
  assert (T : exists y, n_fun M F_tan (NI 1) = Ok y) by (eexists; reflexivity). destruct T as (y & Ey). rewrite Ey in X. cbn [bind] in X. destruct (n_gt rn128 y y) in X; discriminate.
Qed.
(** acot and coth do not move the bounds outwards: at a point they give the open interval (v, v), which is empty *)
Theorem C70_acot_coth_refuted M : correct M ->
  (exists v, i_acot M (pt 1) = Ok (Itv v v false false)) /\ (exists v, i_coth M (pt 1) = Ok (Itv v v false false)) /\ (forall v x, ~ memberR (Itv v v false false) x).
Proof.
  intros C. split; [|split].
  - unfold i_acot. change (isEmptyI rn128 (pt 1)) with false. destruct (half_pi M C) as (c & -> & _). cbn [bind lo hi]. assert (T : exists y, n_fun M F_atan (NI 1) = Ok y) by (eexists; reflexivity). destruct T as (y & ->). cbn [bind]. eauto.
  - unfold i_coth. change (isEmptyI rn128 (pt 1)) with false. change (n_le rn128 (lo (pt 1)) (NI 0) && n_ge rn128 (hi (pt 1)) (NI 0)) with false. cbn [lo hi].
    assert (T : exists y, n_fun M F_tanh (NI 1) = Ok (NR (Fin y))) by (eexists; reflexivity). destruct T as (y & ->). cbn [bind]. assert (D : exists d, n_div rn128 (NI 1) (NR (Fin y)) = Ok d) by (unfold n_div; cbn; eauto). destruct D as (d & ->). cbn [bind]. eauto.
  - intros v x (L & H). cbn [lo hi lc rc] in *. destruct (val v) as [|s|q]; cbn in L, H; [contradiction|congruence|lra].
Qed.
(** Number::asech returns tanh: asech 1 = 0, but the result at 1 is at least 1/2 *)
Theorem C70_asech_refuted M : correct M -> exists q, n_asech M (NI 1) = Ok (NR (Fin q)) /\ 1 / 2 <= Q2R q.
Proof.
  intros C. unfold n_asech. destruct (n_fun_fin M C F_tanh (NI 1) (inject_Z 1) ltac:(cbn; lia) eq_refl I) as (y & E & N). exists y. split; [exact E|].
  assert (R2 : repr 128 (1 # 2)) by (exists 1%Z, (-1)%Z; split; [lia|reflexivity]). assert (Q2 : Q2R (1 # 2) = 1 / 2) by (unfold Q2R; cbn; lra). rewrite <- Q2.
  apply (nearest_ge y (tanh 1)); [|exact R2|].
  - change (nearest y (real_fun F_tanh (Q2R (inject_Z 1)))) in N. rewrite Q2R_Z in N. exact N.
  - rewrite Q2, tanh_form. pose proof (exp_ineq1 (2 * 1) ltac:(lra)) as X. assert (Y : 2 / (exp (2 * 1) + 1) <= 1 / 2); [|lra].
    apply (Rmult_le_reg_r (exp (2 * 1) + 1)); [lra|]. unfold Rdiv. rewrite Rmult_assoc, Rinv_l by lra. lra.
Qed.
(** [-1, 1) squared is [0, 1): the square of -1 is missing *)
Theorem C70_pow_refuted M : i_powN M (Itv (NI (-1)) (NI 1) true false) (NI 2) = Ok (Itv (NI 0) (NI 1) true false) /\
  memberR (Itv (NI (-1)) (NI 1) true false) (-1) /\ ~ memberR (Itv (NI 0) (NI 1) true false) ((-1) ^ 2).
Proof. split; [reflexivity|]. split; [split; cbn; unfold Q2R; cbn; lra|]. intros (_ & H). cbn in H. unfold Q2R in H. cbn in H. lra. Qed.
(** [3, 3] to the power -1 is one 128-bit number: not a third *)
Theorem C70_pow_inverse_refuted M : correct M ->
  exists b, i_powN M (pt 3) (NI (-1)) = Ok b /\ memberR (pt 3) 3 /\ ~ memberR b (/ 3).
Proof.
  intros C. assert (E : i_powN M (pt 3) (NI (-1)) = Ok (Itv (n_pow M (NI 3) (NI (-1))) (n_pow M (NI 3) (NI (-1))) true true)) by reflexivity.
  rewrite E. eexists. split; [reflexivity|]. split; [apply pt_mem|].
  assert (P : exists a b, n_pow M (NI 3) (NI (-1)) = NR (Fin (m_pow M a b)) /\ repr 128 a /\ repr 128 b /\ (0 < a)%Q).
  { exists (rn128 (inject_Z 3)), (rn128 (inject_Z (-1))). split; [reflexivity|]. split; [apply rn_repr; lia|]. split; [apply rn_repr; lia|]. reflexivity. }
  destruct P as (a & b & -> & Ra & Rb & Pa). destruct (ok_pow M C a b Ra Rb Pa) as ((m & e & _ & Em) & _).
  intros (L & H). cbn in L, H. assert (X : Q2R (m_pow M a b) = / 3) by lra. apply Qeq_eqR in Em. rewrite X in Em.
  assert (Z3 : (inject_Z m * p2 e == 1 # 3)%Q). { apply eqR_Qeq. rewrite <- Em. unfold Q2R. cbn. lra. }
  destruct (Z.le_ge_cases 0 e) as [He|He].
  - assert (Ee : (p2 e == inject_Z (2 ^ e))%Q) by (now apply p2_Z). rewrite Ee, <- inject_Z_mult in Z3. unfold Qeq in Z3. cbn in Z3. lia.
  - assert (Ee : (p2 e * inject_Z (2 ^ (- e)) == 1)%Q).
    { assert (K : (p2 (- e) == inject_Z (2 ^ (- e)))%Q) by (apply p2_Z; lia). rewrite <- K. rewrite <- p2_add. replace (e + - e)%Z with 0%Z by lia. reflexivity. }
    assert (K : (inject_Z (3 * m) == inject_Z (2 ^ (- e)))%Q).
    { transitivity (inject_Z 3 * (inject_Z m * p2 e) * inject_Z (2 ^ (- e)))%Q; [|rewrite Z3; assert (T3 : (inject_Z 3 * (1 # 3) == 1)%Q) by reflexivity; rewrite T3; ring]. rewrite inject_Z_mult. rewrite <- (Qmult_1_r (inject_Z 3 * inject_Z m)), <- Ee. ring. }
    apply (proj1 (inject_Z_injective _ _)) in K. assert (D : (3 | 2 ^ (- e))%Z) by (exists m; rewrite <- K; ring).
    apply Zpow_facts.prime_power_prime in D; [discriminate D| | |]; try lia; [apply Znumtheory.prime_3|apply Znumtheory.prime_2].
Qed.
(** [1, +oo) to the power 1/2 is (+oo, +oo), which is empty *)
Theorem C70_root_refuted M : let a := Itv (NI 1) (NR (Inf false)) true false in
  usable a /\ memberR a 4 /\ i_powN M a (NR (Fin (1 # 2))) = Ok (Itv (NR (Inf false)) (NR (Inf false)) false false) /\ ~ memberR (Itv (NR (Inf false)) (NR (Inf false)) false false) 2.
Proof.
  split; [split; [cbn; lia|split; [exact I|split; [exact I|split; reflexivity]]]|]. split; [split; [cbn; unfold Q2R; cbn; lra|reflexivity]|]. split; [reflexivity|]. intros (L & _). discriminate L.
Qed.

(** ** non-vacuity *)
Definition a70 : interval := Itv (NI 0) (NI 1) true true.
Example a70_usable : usable a70. Proof. split; [cbn; lia|]. split; [cbn; lia|]. split; exact I. Qed.
Example e70_atan : exists b, i_atan M0 a70 = Ok b /\ memberR b (atan 1) /\ memberR b (atan 0).
Proof.
  destruct (C70_everywhere M0 a70 M0_correct a70_usable) as (_ & _ & _ & _ & (b & E & H) & _). exists b. split; [exact E|]. split; apply H; split; cbn; unfold Q2R; cbn; lra.
Qed.
Example e70_log : exists x, memberR a70 x /\ 0 < x. Proof. exists 1. split; [split; cbn; unfold Q2R; cbn; lra|lra]. Qed.
Example e70_asin : forall x, memberR a70 x -> -1 <= x <= 1. Proof. intros x (L & H). cbn in L, H. unfold Q2R in L, H. cbn in L, H. lra. Qed.
Example e70_pow : i_powN M0 (Itv (NI (-3)) (NI 2) true true) (NI 2) = Ok (Itv (NI 0) (NI 9) true true). Proof. reflexivity. Qed.
Example e70_wide : usable (Itv (NI 0) (NR (Inf false)) true false) /\ memberR (Itv (NI 0) (NR (Inf false)) true false) 1.
Proof. split; [split; [cbn; lia|split; [exact I|split; [exact I|split; reflexivity]]]|]. split; [cbn; unfold Q2R; cbn; lra|reflexivity]. Qed.

Print Assumptions C70_mpfr_exists.
Print Assumptions C70_everywhere.
Print Assumptions C70_log.
Print Assumptions C70_log_none.
Print Assumptions C70_log_base.
Print Assumptions C70_asin.
Print Assumptions C70_acosh.
Print Assumptions C70_atanh_partial.
Print Assumptions C70_sqrt_partial.
Print Assumptions C70_pow_partial.
Print Assumptions C70_pow_overflow.
Print Assumptions C70_pow_negative.
Print Assumptions C70_tight.
Print Assumptions C70_wide_partial.
Print Assumptions C70_empty.
Print Assumptions C70_sqrt_refuted.
Print Assumptions C70_atanh_refuted.
Print Assumptions C70_sin_refuted.
Print Assumptions C70_tan_refuted.
Print Assumptions C70_acot_coth_refuted.
Print Assumptions C70_asech_refuted.
Print Assumptions C70_pow_refuted.
Print Assumptions C70_pow_inverse_refuted.
Print Assumptions C70_root_refuted.
