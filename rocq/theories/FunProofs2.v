(** Proofs about the elementary functions: part 2, the functions with a domain, cosh and powers. *)
From Coq Require Import Reals QArith Qreals Qround Qabs ZArith List Bool Lia Lra.
From Verif Require Import Base NumModel RoundModel NumSpec NumProofs NumMore FunModel FunSpec FunProofs.
Open Scope R_scope.

Section E.
Context (M : mpfr) (C : correct M).
Notation r := rn128.
Ltac hI := apply held_I; lia.
Lemma vI z : val (NI z) = Fin (inject_Z z). Proof. reflexivity. Qed.
(** comparison of a bound with an integer *)
Lemma le_I n z : held n -> (Z.abs z <= 2 ^ 128)%Z -> n_le r n (NI z) = true <-> match val n with Fin q => Q2R q <= IZR z | Inf s => s = true | Nan => False end.
Proof. intros H K. rewrite (n_le_R n (NI z) H (held_I z K)), vI. destruct (val n); cbn [leR]; rewrite ?Q2R_Z; tauto. Qed.
Lemma lt_I n z : held n -> (Z.abs z <= 2 ^ 128)%Z -> n_lt r n (NI z) = true <-> match val n with Fin q => Q2R q < IZR z | Inf s => s = true | Nan => False end.
Proof. intros H K. rewrite (n_lt_R n (NI z) H (held_I z K)), vI. destruct (val n) as [|[]|]; cbn [ltR]; rewrite ?Q2R_Z; intuition discriminate. Qed.
Lemma ge_I n z : held n -> (Z.abs z <= 2 ^ 128)%Z -> n_ge r n (NI z) = true <-> match val n with Fin q => IZR z <= Q2R q | Inf s => s = false | Nan => False end.
Proof. intros H K. rewrite (n_ge_R n (NI z) H (held_I z K)), vI. destruct (val n); cbn [leR]; rewrite ?Q2R_Z; tauto. Qed.
Lemma gt_I n z : held n -> (Z.abs z <= 2 ^ 128)%Z -> n_gt r n (NI z) = true <-> match val n with Fin q => IZR z < Q2R q | Inf s => s = false | Nan => False end.
Proof. intros H K. rewrite (n_gt_R n (NI z) H (held_I z K)), vI. destruct (val n) as [|[]|]; cbn [ltR]; rewrite ?Q2R_Z; intuition discriminate. Qed.
Lemma posInf_iff n : n_isPosInf n = true <-> val n = Inf false.
Proof. destruct n as [z|[|[]|q]]; cbn; split; congruence. Qed.
Lemma negInf_iff n : n_isNegInf n = true <-> val n = Inf true.
Proof. destruct n as [z|[|[]|q]]; cbn; split; congruence. Qed.
Ltac bcase := match goal with |- context [if ?b then _ else _] => destruct b eqn:? end.

Lemma asin_enc a x : usable a -> memberR a x ->
  (i_asin M a = Throw DomainError \/ (exists b, i_asin M a = Ok b /\ memberR b (asin x) /\ -1 <= x <= 1)).
Proof.
  intros U Mx. unfold i_asin. rewrite (member_open a x U Mx). destruct U as (A & B & W). destruct (n_lt r (lo a) (NI (-1)) || n_gt r (hi a) (NI 1)) eqn:E; [now left|right].
  apply orb_false_iff in E. destruct E as (E1 & E2). rewrite (not_true_iff _ _ (lt_I (lo a) (-1) A ltac:(lia))) in E1. rewrite (not_true_iff _ _ (gt_I (hi a) 1 B ltac:(lia))) in E2.
  destruct W as (W1 & W2). destruct (val (lo a)) as [|s|p] eqn:Vl; [contradiction|destruct W1 as (-> & _); now elim E1|]. destruct (val (hi a)) as [|s|q] eqn:Vh; [contradiction|destruct W2 as (-> & _); now elim E2|].
  destruct Mx as (L & H). pose proof (lowR_le _ _ _ _ Vl L) as L'. pose proof (highR_le _ _ _ _ Vh H) as H'.
  destruct (mono_enc M C F_asin a x inc_asin) as (b & E & K).
  - split; [exact A|]. split; [exact B|]. split; [rewrite Vl|rewrite Vh]; exact I.
  - now split.
  - cbn. lra.
  - rewrite Vl. intros q0 X. injection X as <-. cbn. lra.
  - rewrite Vh. intros q0 X. injection X as <-. cbn. lra.
  - rewrite Vl. discriminate.
  - rewrite Vh. discriminate.
  - exists b. split; [exact E|]. split; [exact K|lra].
Qed.
Lemma acosh_enc a x : usable a -> memberR a x ->
  (i_acosh M a = Throw DomainError \/ (exists b, i_acosh M a = Ok b /\ memberR b (real_fun F_acosh x) /\ 1 <= x)).
Proof.
  intros U Mx. unfold i_acosh. rewrite (member_open a x U Mx). destruct U as (A & B & W). destruct (n_lt r (lo a) (NI 1)) eqn:E1; [now left|right].
  rewrite (not_true_iff _ _ (lt_I (lo a) 1 A ltac:(lia))) in E1.
  destruct W as (W1 & W2). destruct (val (lo a)) as [|s|p] eqn:Vl; [contradiction|destruct W1 as (-> & _); now elim E1|].
  destruct Mx as (L & H). pose proof (lowR_le _ _ _ _ Vl L) as L'.
  destruct (mono_enc M C F_acosh a x inc_acosh) as (b & E & K).
  - split; [exact A|]. split; [exact B|]. split; [rewrite Vl|]; [exact I|exact W2].
  - now split.
  - cbn. lra.
  - rewrite Vl. intros q0 X. injection X as <-. cbn. lra.
  - intros q0 X. pose proof (highR_le _ _ _ _ X H). cbn. lra.
  - rewrite Vl. discriminate.
  - intros _. split; reflexivity.
  - exists b. split; [exact E|]. split; [exact K|lra].
Qed.
Lemma atanh_enc a x : usable a -> memberR a x ->
  (i_atanh M a = Throw DomainError \/ (exists b, i_atanh M a = Ok b /\ memberR b (real_fun F_atanh x) /\ -1 < x < 1)).
Proof.
  intros U Mx. unfold i_atanh. rewrite (member_open a x U Mx). destruct U as (A & B & W). destruct (n_le r (lo a) (NI (-1)) || n_ge r (hi a) (NI 1)) eqn:E; [now left|right].
  apply orb_false_iff in E. destruct E as (E1 & E2). rewrite (not_true_iff _ _ (le_I (lo a) (-1) A ltac:(lia))) in E1. rewrite (not_true_iff _ _ (ge_I (hi a) 1 B ltac:(lia))) in E2.
  destruct W as (W1 & W2). destruct (val (lo a)) as [|s|p] eqn:Vl; [contradiction|destruct W1 as (-> & _); now elim E1|]. destruct (val (hi a)) as [|s|q] eqn:Vh; [contradiction|destruct W2 as (-> & _); now elim E2|].
  destruct Mx as (L & H). pose proof (lowR_le _ _ _ _ Vl L) as L'. pose proof (highR_le _ _ _ _ Vh H) as H'.
  destruct (mono_enc M C F_atanh a x inc_atanh) as (b & E & K).
  - split; [exact A|]. split; [exact B|]. split; [rewrite Vl|rewrite Vh]; exact I.
  - now split.
  - cbn. lra.
  - rewrite Vl. intros q0 X. injection X as <-. cbn. lra.
  - rewrite Vh. intros q0 X. injection X as <-. cbn. lra.
  - rewrite Vl. discriminate.
  - rewrite Vh. discriminate.
  - exists b. split; [exact E|]. split; [exact K|lra].
Qed.
(** *** logarithms *)
Lemma log_enc f a x : f = F_ln \/ f = F_lg \/ f = F_lb -> usable a -> memberR a x -> 0 < x -> exists b, i_log M f a = Ok b /\ memberR b (real_fun f x).
Proof.
  intros Hf U Mx Px. assert (Inc : increasing f) by (destruct Hf as [->|[->| ->]]; [apply inc_ln|apply inc_lg|apply inc_lb]).
  assert (D : forall y, in_domain f y <-> 0 < y) by (intros y; destruct Hf as [->|[->| ->]]; cbn; tauto).
  unfold i_log. rewrite (member_open a x U Mx). destruct U as (A & B & W1 & W2), Mx as (L & H).
  assert (E0 : n_le r (hi a) (NI 0) = false).
  { apply (not_true_iff _ _ (le_I (hi a) 0 B ltac:(lia))). intros X. destruct (val (hi a)) as [|s|q] eqn:V; [exact X|cbn in H; congruence|]. pose proof (highR_le _ _ _ _ eq_refl H). lra. }
  rewrite E0.
  assert (XL : exists l, (if n_le r (lo a) (NI 0) then Ok negInf else if n_isPosInf (lo a) then Ok posInf else v <- n_fun M f (lo a) ;; Ok (n_below M v)) = Ok l /\ lowOK l (real_fun f x)).
  { destruct (n_le r (lo a) (NI 0)) eqn:E1; [exists negInf; split; reflexivity|]. rewrite (not_true_iff _ _ (le_I (lo a) 0 A ltac:(lia))) in E1.
    destruct (val (lo a)) as [|s|q] eqn:V; [contradiction|destruct W1 as (-> & _); now elim E1|].
    assert (NP : n_isPosInf (lo a) = false) by (apply (not_true_iff _ _ (posInf_iff _)); rewrite V; discriminate). rewrite NP.
    destruct (low_fin M C f (lo a) (lc a) x q Inc A V) as (v & -> & K); [apply D; lra|now apply D|now rewrite V|]. cbn [bind]. eauto. }
  assert (XH : exists h, (if n_isPosInf (hi a) then Ok posInf else v <- n_fun M f (hi a) ;; Ok (n_above M v)) = Ok h /\ highOK h (real_fun f x)).
  { destruct (n_isPosInf (hi a)) eqn:E1; [exists posInf; split; reflexivity|]. rewrite (not_true_iff _ _ (posInf_iff _)) in E1.
    destruct (val (hi a)) as [|s|q] eqn:V; [contradiction|destruct W2 as (-> & _); now elim E1|]. pose proof (highR_le _ _ _ _ eq_refl H).
    destruct (high_fin M C f (hi a) (rc a) x q Inc B V) as (v & -> & K); [apply D; lra|now apply D|now rewrite V|]. cbn [bind]. eauto. }
  destruct XL as (l & -> & X1), XH as (h & -> & X2). cbn [bind]. eexists. split; [reflexivity|]. now apply member_mk.
Qed.
Lemma exp_enc a x : usable a -> memberR a x -> exists b, i_exp M a = Ok b /\ memberR b (exp x).
Proof.
  intros U Mx. unfold i_exp. rewrite (member_open a x U Mx). destruct U as (A & B & W1 & W2), Mx as (L & H).
  assert (XL : exists l, (if n_isNegInf (lo a) then Ok (NI 0) else if n_isPosInf (lo a) then Ok posInf else v <- n_fun M F_exp (lo a) ;; Ok (n_below M v)) = Ok l /\ lowOK l (exp x)).
  { destruct (n_isNegInf (lo a)) eqn:E1; [exists (NI 0); split; [reflexivity|]; unfold lowOK; rewrite vI; cbn [lowR]; rewrite Q2R_Z; apply exp_pos|]. rewrite (not_true_iff _ _ (negInf_iff _)) in E1.
    destruct (val (lo a)) as [|s|q] eqn:V; [contradiction|destruct W1 as (-> & _); now elim E1|].
    assert (NP : n_isPosInf (lo a) = false) by (apply (not_true_iff _ _ (posInf_iff _)); rewrite V; discriminate). rewrite NP.
    destruct (low_fin M C F_exp (lo a) (lc a) x q inc_exp A V) as (v & -> & K); [exact I|exact I|now rewrite V|]. cbn [bind]. eauto. }
  assert (XH : exists h, (if n_isNegInf (hi a) then Ok (NI 0) else if n_isPosInf (hi a) then Ok posInf else v <- n_fun M F_exp (hi a) ;; Ok (n_above M v)) = Ok h /\ highOK h (exp x)).
  { assert (NN : n_isNegInf (hi a) = false) by (apply (not_true_iff _ _ (negInf_iff _)); intros V; rewrite V in H; cbn in H; discriminate). rewrite NN.
    destruct (n_isPosInf (hi a)) eqn:E1; [exists posInf; split; reflexivity|]. rewrite (not_true_iff _ _ (posInf_iff _)) in E1.
    destruct (val (hi a)) as [|s|q] eqn:V; [contradiction|destruct W2 as (-> & _); now elim E1|].
    destruct (high_fin M C F_exp (hi a) (rc a) x q inc_exp B V) as (v & -> & K); [exact I|exact I|now rewrite V|]. cbn [bind]. eauto. }
  destruct XL as (l & -> & X1), XH as (h & -> & X2). cbn [bind]. eexists. split; [reflexivity|]. now apply member_mk.
Qed.
(** *** square roots *)
Lemma sqrtZ z : (0 <= z)%Z -> IZR (Z.sqrt z) <= sqrt (IZR z) < IZR (Z.sqrt z + 1).
Proof.
  intros H. pose proof (Z.sqrt_spec z H) as (S1 & S2). pose proof (Z.sqrt_nonneg z) as P. unfold Z.succ in S2.
  assert (K : IZR (Z.sqrt z) = sqrt (IZR (Z.sqrt z) * IZR (Z.sqrt z))) by (symmetry; apply sqrt_square; now apply IZR_le).
  assert (K' : IZR (Z.sqrt z + 1) = sqrt (IZR (Z.sqrt z + 1) * IZR (Z.sqrt z + 1))) by (symmetry; apply sqrt_square; apply IZR_le; lia).
  rewrite K, K'. rewrite <- !mult_IZR. split.
  - apply sqrt_le_1; [apply IZR_le; nia|apply IZR_le; lia|apply IZR_le; lia].
  - apply sqrt_lt_1; [apply IZR_le; lia|apply IZR_le; nia|apply IZR_lt; lia].
Qed.
Lemma sq_bound sq n q : sq = n_sqrt M \/ sq = n_safeSqrt M -> held n -> val n = Fin q -> 0 <= Q2R q ->
  exists v, sq n = Ok v /\ lowOK (n_below M v) (sqrt (Q2R q)) /\ highOK (n_above M v) (sqrt (Q2R q)).
Proof.
  intros Hs H V P. destruct n as [z|x].
  - cbn in V. injection V as <-. rewrite Q2R_Z in *. assert (Pz : (0 <= z)%Z) by (now apply le_IZR). exists (NI (Z.sqrt z)). split.
    + destruct Hs as [->| ->]; cbn [n_sqrt n_safeSqrt]; replace (z <? 0)%Z with false by (symmetry; apply Z.ltb_ge; lia); reflexivity.
    + destruct (sqrtZ z Pz) as (S1 & S2). unfold lowOK, highOK. cbn [n_below n_above val lowR highR]. rewrite !Q2R_Z, minus_IZR. split; [lra|exact S2].
  - cbn in V. subst x. destruct (n_fun_fin M C F_sqrt (NR (Fin q)) q H eq_refl P) as (y & E & N). exists (NR (Fin y)). split.
    + destruct Hs as [->| ->]; cbn [n_sqrt n_safeSqrt]; [exact E|].
      assert (X : xlt (Fin q) (Fin 0) = false). { apply (not_true_iff _ _ (xlt_iff _ _)). cbn. intros K. apply Qlt_Rlt in K. unfold Q2R at 2 in K. cbn in K. lra. } rewrite X. exact E.
    + split; [now apply below_ok|now apply above_ok].
Qed.
Lemma root_enc sq a x : sq = n_sqrt M \/ sq = n_safeSqrt M -> usable a -> memberR a x -> 0 <= x -> (exists y, memberR a y /\ 0 < y) ->
  exists b, i_root M sq a = Ok b /\ memberR b (sqrt x).
Proof.
  intros Hs U Mx Px (y & My & Py). unfold i_root. rewrite (member_open a x U Mx). destruct U as (A & B & W1 & W2), Mx as (L & H).
  assert (E0 : n_le r (hi a) (NI 0) = false).
  { apply (not_true_iff _ _ (le_I (hi a) 0 B ltac:(lia))). intros X. destruct My as (_ & Hy). destruct (val (hi a)) as [|s|q] eqn:V; [exact X|cbn in H; congruence|]. pose proof (highR_le _ _ _ _ eq_refl Hy). lra. }
  rewrite !E0.
  assert (XL : exists l, (if n_le r (lo a) (NI 0) then Ok (NI 0, true) else if n_isPosInf (lo a) then Ok (posInf, false) else v <- sq (lo a) ;; Ok (n_below M v, false)) = Ok l /\ lowR (val (fst l)) (snd l) (sqrt x)).
  { destruct (n_le r (lo a) (NI 0)) eqn:E1; [exists (NI 0, true); split; [reflexivity|]; cbn [fst snd]; rewrite vI; cbn [lowR]; rewrite Q2R_Z; apply sqrt_pos|]. rewrite (not_true_iff _ _ (le_I (lo a) 0 A ltac:(lia))) in E1.
    destruct (val (lo a)) as [|s|q] eqn:V; [contradiction|destruct W1 as (-> & _); now elim E1|].
    assert (NP : n_isPosInf (lo a) = false) by (apply (not_true_iff _ _ (posInf_iff _)); rewrite V; discriminate). rewrite NP.
    destruct (sq_bound sq (lo a) q Hs A V ltac:(lra)) as (v & -> & K & _). cbn [bind]. eexists. split; [reflexivity|]. cbn [fst snd]. apply (low_mono _ _ (sqrt x)) in K; [exact K|].
    apply (inc_sqrt (Q2R q) x); cbn; try lra. eapply lowR_le; [reflexivity|exact L]. }
  assert (XH : exists h, (if n_isPosInf (hi a) then Ok (posInf, false) else v <- sq (hi a) ;; Ok (n_above M v, false)) = Ok h /\ highR (val (fst h)) (snd h) (sqrt x)).
  { destruct (n_isPosInf (hi a)) eqn:E1; [exists (posInf, false); split; reflexivity|]. rewrite (not_true_iff _ _ (posInf_iff _)) in E1.
    destruct (val (hi a)) as [|s|q] eqn:V; [contradiction|destruct W2 as (-> & _); now elim E1|]. pose proof (highR_le _ _ _ _ eq_refl H).
    destruct (sq_bound sq (hi a) q Hs B V ltac:(lra)) as (v & -> & _ & K). cbn [bind]. eexists. split; [reflexivity|]. cbn [fst snd]. apply (high_mono _ _ (sqrt x)) in K; [exact K|].
    apply (inc_sqrt x (Q2R q)); cbn; lra. }
  destruct XL as (l & -> & X1), XH as (h & -> & X2). cbn [bind]. eexists. split; [reflexivity|]. now split.
Qed.
(** *** cosh *)
Lemma cosh_even x : cosh (- x) = cosh x. Proof. unfold cosh. rewrite Ropp_involutive. lra. Qed.
Lemma cosh_inc x y : 0 <= x -> x <= y -> cosh x <= cosh y.
Proof.
  intros P L. unfold cosh. rewrite !exp_Ropp. assert (E : exp x <= exp y) by (revert L; apply le_of_lt; apply exp_increasing). assert (1 <= exp x) by (destruct P as [P| <-]; [pose proof (exp_ineq1_le x); lra|rewrite exp_0; lra]).
  assert (X : / exp x - / exp y <= exp y - exp x); [|lra].
  assert (Y : / exp x - / exp y = (exp y - exp x) * (/ exp x * / exp y)) by (field; lra). rewrite Y.
  assert (/ exp x <= 1) by (rewrite <- Rinv_1; apply Rinv_le_contravar; lra). assert (/ exp y <= 1) by (rewrite <- Rinv_1; apply Rinv_le_contravar; lra).
  assert (0 < / exp x) by (apply Rinv_0_lt_compat; lra). assert (0 < / exp y) by (apply Rinv_0_lt_compat; lra).
  assert (UV : / exp x * / exp y <= 1) by (rewrite <- (Rmult_1_r 1); apply Rmult_le_compat; lra). rewrite <- (Rmult_1_r (exp y - exp x)) at 2. apply Rmult_le_compat_l; lra.
Qed.
Lemma cosh_ge1 x : 1 <= cosh x.
Proof.
  assert (K : forall y, 0 <= y -> 1 <= cosh y). { intros y H. pose proof (cosh_inc 0 y ltac:(lra) H) as X. rewrite cosh_0 in X. exact X. }
  destruct (Rle_lt_dec 0 x) as [H|H]; [auto|]. rewrite <- cosh_even. apply K. lra.
Qed.
Lemma held_below y : repr 128 y -> held (n_below M (NR (Fin y))). Proof. intros H. cbn. apply (ok_below M C y H). Qed.
(** the value at a bound: infinite or nearest *)
Definition cosh_at (n v : number) : Prop :=
  match val n with Fin q => exists y, v = NR (Fin y) /\ nearest y (cosh (Q2R q)) | Inf _ => v = posInf | Nan => False end.
Lemma cosh_val n : held n -> exists v, n_fun M F_cosh n = Ok v /\ cosh_at n v.
Proof.
  intros H. unfold cosh_at. destruct (val n) as [|s|q] eqn:V; [now elim (held_nn n H)| |].
  - rewrite (n_fun_inf M F_cosh n s H V eq_refl). destruct s; (eexists; split; reflexivity).
  - destruct (n_fun_fin M C F_cosh n q H V I) as (y & E & N). rewrite E. eauto.
Qed.
Lemma cosh_between_ok low high x p : held low -> held high -> val low = Fin p -> cosh (Q2R p) <= cosh x ->
  (match val high with Fin q => cosh x <= cosh (Q2R q) | Inf _ => True | Nan => False end) -> exists b, cosh_between M low high = Ok b /\ memberR b (cosh x).
Proof.
  intros A B Vl Kl Kh. unfold cosh_between. destruct (cosh_val low A) as (v & -> & Cv). destruct (cosh_val high B) as (w & -> & Cw). cbn [bind].
  unfold cosh_at in *. rewrite Vl in Cv. destruct Cv as (y & -> & N).
  assert (XH : highOK (n_above M w) (cosh x)). { destruct (val high) as [|s|q]; [contradiction|subst w; reflexivity|]. destruct Cw as (z & -> & N'). eapply high_mono; [apply above_ok; [exact C|exact N']|exact Kh]. }
  assert (XL : lowOK (n_below M (NR (Fin y))) (cosh x)) by (eapply low_mono; [apply below_ok; [exact C|exact N]|exact Kl]).
  destruct (n_lt r (n_below M (NR (Fin y))) (NI 1)) eqn:E; eexists; (split; [reflexivity|]); [|now apply member_mk].
  split; cbn [lo hi lc rc]; [|exact XH]. rewrite vI. cbn [lowR]. rewrite Q2R_Z. apply cosh_ge1.
Qed.
Lemma cosh_enc a x : usable a -> memberR a x -> exists b, i_cosh M a = Ok b /\ memberR b (cosh x).
Proof.
  intros U Mx. unfold i_cosh. rewrite (member_open a x U Mx). destruct U as (A & B & W1 & W2), Mx as (L & H).
  destruct (n_ge r (lo a) (NI 0)) eqn:E1; [|destruct (n_le r (hi a) (NI 0)) eqn:E2].
  - rewrite (ge_I (lo a) 0 A ltac:(lia)) in E1. destruct (val (lo a)) as [|s|p] eqn:Vl; [contradiction|destruct W1 as (-> & _); discriminate|]. pose proof (lowR_le _ _ _ _ eq_refl L).
    apply (cosh_between_ok (lo a) (hi a) x p A B Vl); [apply cosh_inc; lra|]. destruct (val (hi a)) as [|s|q] eqn:Vh; [contradiction|exact I|]. pose proof (highR_le _ _ _ _ eq_refl H). apply cosh_inc; lra.
  - rewrite (le_I (hi a) 0 B ltac:(lia)) in E2. destruct (val (hi a)) as [|s|p] eqn:Vh; [contradiction|destruct W2 as (-> & _); discriminate|]. pose proof (highR_le _ _ _ _ eq_refl H).
    rewrite <- (cosh_even x). apply (cosh_between_ok (hi a) (lo a) (- x) p B A Vh); [rewrite <- (cosh_even (Q2R p)); apply cosh_inc; lra|]. destruct (val (lo a)) as [|s|q] eqn:Vl; [contradiction|exact I|]. pose proof (lowR_le _ _ _ _ eq_refl L). rewrite <- (cosh_even (Q2R q)). apply cosh_inc; lra.
  - destruct (cosh_val (lo a) A) as (v & -> & Cv). destruct (cosh_val (hi a) B) as (w & -> & Cw). cbn [bind]. eexists. split; [reflexivity|].
    split; cbn [lo hi lc rc]; [rewrite vI; cbn [lowR]; rewrite Q2R_Z; apply cosh_ge1|]. unfold cosh_at in *.
    assert (Hv : held v). { destruct (val (lo a)); [contradiction|subst v; exact I|]. destruct Cv as (y & -> & N). apply N. }
    assert (Hw : held w). { destruct (val (hi a)); [contradiction|subst w; exact I|]. destruct Cw as (y & -> & N). apply N. }
    assert (Cmp : n_lt r v w = true <-> ltR (val v) (val w)) by (apply n_lt_R; assumption).
    unfold n_max.
    assert (G : forall u, (u = v \/ u = w) -> leR (val v) (val u) -> leR (val w) (val u) -> highR (val (n_above M u)) false (cosh x)).
    { intros u Hu Lv Lw.
      assert (Gen : forall n z, held n -> cosh_at n z -> (match val n with Fin q => cosh x <= cosh (Q2R q) | _ => True end) -> leR (val z) (val u) -> highR (val (n_above M u)) false (cosh x)).
      { intros n z Hn Cz K Lz. unfold cosh_at in Cz. destruct (val n) as [|s|q]; [contradiction| |].
        - subst z. cbn in Lz. assert (Eu : u = posInf). { destruct Hu as [->| ->]; [destruct (val (lo a)); [contradiction|exact Cv|destruct Cv as (y & -> & _); cbn in Lz; discriminate]|destruct (val (hi a)); [contradiction|exact Cw|destruct Cw as (y & -> & _); cbn in Lz; discriminate]]. } rewrite Eu. reflexivity.
        - destruct Cz as (y & -> & N). destruct (val u) as [|t|qu] eqn:Vu; [cbn in Lz; contradiction| |].
          + cbn in Lz. subst t. destruct u as [zz|[|[]|]]; cbn in Vu; try discriminate. reflexivity.
          + assert (Eu : u = NR (Fin qu)). { destruct Hu as [->| ->]; [destruct (val (lo a)); [contradiction|subst v; discriminate|destruct Cv as (y' & -> & _)]|destruct (val (hi a)); [contradiction|subst w; discriminate|destruct Cw as (y' & -> & _)]]; cbn in Vu; injection Vu as <-; reflexivity. }
            rewrite Eu. cbn. cbn in Lz. assert (Ru : repr 128 qu) by (rewrite Eu in Hu; destruct Hu as [<-|<-]; assumption).
            pose proof (nearest_bracket M _ _ C N) as (_ & Br). destruct (ok_above M C qu Ru) as (Ra & La). apply Qlt_Rlt in La.
            (* the successor of qu is representable and above y, so it is above the exact value *)
            apply Rnot_le_lt. intros Bad. pose proof (nearest_ge _ _ _ N Ra) as X. assert (Q2R (m_above M qu) <= cosh (Q2R q)) as Y by lra. specialize (X Y). lra. }
      destruct (Rle_lt_dec 0 x) as [P|P].
      - apply (Gen (hi a) w B Cw); [|exact Lw]. destruct (val (hi a)) as [|s|q]; [exact I|exact I|]. pose proof (highR_le _ _ _ _ eq_refl H). apply cosh_inc; lra.
      - apply (Gen (lo a) v A Cv); [|exact Lv]. destruct (val (lo a)) as [|s|q]; [exact I|exact I|]. pose proof (lowR_le _ _ _ _ eq_refl L). rewrite <- (cosh_even x), <- (cosh_even (Q2R q)). apply cosh_inc; lra. }
    assert (Nv : val v <> Nan) by now apply held_nn. assert (Nw : val w <> Nan) by now apply held_nn.
    destruct (n_lt r v w); apply G; auto.
    + pose proof (proj1 Cmp eq_refl) as E. destruct (val v) as [|[]|], (val w) as [|[]|]; cbn in *; auto; try tauto; lra.
    + destruct (val w) as [|[]|]; cbn; auto; lra.
    + destruct (val v) as [|[]|]; cbn; auto; lra.
    + pose proof (proj1 (not_true_iff _ _ Cmp) eq_refl) as E. destruct (val v) as [|[]|], (val w) as [|[]|]; cbn in *; auto; try tauto; lra.
Qed.
End E.
