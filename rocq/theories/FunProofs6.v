(** Proofs about the elementary functions: part 6, empty intervals, the exact bounds, wide intervals of sin and
    cos, and the counterexamples. *)
From Coq Require Import Reals QArith Qreals Qround Qabs ZArith List Bool Lia Lra.
From Verif Require Import Base NumModel RoundModel NumSpec NumProofs NumMore FunModel FunSpec FunProofs FunProofs2 FunProofs3 FunProofs4 FunProofs5.
Open Scope R_scope.
Notation rPI := Rtrigo1.PI.

Lemma Q2R_le a b : (a <= b)%Q <-> Q2R a <= Q2R b. Proof. split; [apply Qle_Rle|apply Rle_Qle]. Qed.
Lemma member_R a q : member a q <-> memberR a (Q2R q).
Proof.
  unfold member, memberR, above, below. destruct (val (lo a)) as [|[]|l], (val (hi a)) as [|[]|h], (lc a), (rc a); rewrite ?leX_R, ?ltX_R; cbn; intuition (congruence || lra).
Qed.
Lemma usable_PI a : usable a -> PI fits a.
Proof. intros (A & B & W). split; [now apply held_fits|]. split; [now apply held_fits|exact W]. Qed.
Lemma no_member a : usable a -> (forall x, ~ memberR a x) -> isEmptyI rn128 a = true.
Proof.
  intros U N. apply (emp_t rn128 fits fits_nn fits_lt fits_eq fits_le a (usable_PI a U)). intros (q & Hq). apply (N (Q2R q)). now apply member_R.
Qed.
(** ** the bounds are the neighbours of the correctly rounded values *)
Lemma mono_bounds M f a x p q : correct M -> usable a -> memberR a x -> val (lo a) = Fin p -> val (hi a) = Fin q -> in_domain f (Q2R p) -> in_domain f (Q2R q) ->
  exists y z, nearest y (real_fun f (Q2R p)) /\ nearest z (real_fun f (Q2R q)) /\ i_mono M f a = Ok (Itv (NR (Fin (m_below M y))) (NR (Fin (m_above M z))) false false).
Proof.
  intros C U Mx Vl Vh Dl Dh. unfold i_mono. rewrite (member_open a x U Mx). destruct U as (A & B & _).
  destruct (n_fun_fin M C f (lo a) p A Vl Dl) as (y & -> & N). destruct (n_fun_fin M C f (hi a) q B Vh Dh) as (z & -> & N'). cbn [bind]. exists y, z. auto.
Qed.
Lemma exp_bounds M a x p q : correct M -> usable a -> memberR a x -> val (lo a) = Fin p -> val (hi a) = Fin q ->
  exists y z, nearest y (exp (Q2R p)) /\ nearest z (exp (Q2R q)) /\ i_exp M a = Ok (Itv (NR (Fin (m_below M y))) (NR (Fin (m_above M z))) false false).
Proof.
  intros C U Mx Vl Vh. unfold i_exp. rewrite (member_open a x U Mx). destruct U as (A & B & _).
  assert (E1 : n_isNegInf (lo a) = false) by (apply (not_true_iff _ _ (negInf_iff _)); congruence). assert (E2 : n_isPosInf (lo a) = false) by (apply (not_true_iff _ _ (posInf_iff _)); congruence).
  assert (E3 : n_isNegInf (hi a) = false) by (apply (not_true_iff _ _ (negInf_iff _)); congruence). assert (E4 : n_isPosInf (hi a) = false) by (apply (not_true_iff _ _ (posInf_iff _)); congruence). rewrite E1, E2, E3, E4.
  destruct (n_fun_fin M C F_exp (lo a) p A Vl I) as (y & -> & N). destruct (n_fun_fin M C F_exp (hi a) q B Vh I) as (z & -> & N'). cbn [bind]. exists y, z. auto.
Qed.
Lemma log_bounds M f a x p q : f = F_ln \/ f = F_lg \/ f = F_lb -> correct M -> usable a -> memberR a x -> val (lo a) = Fin p -> val (hi a) = Fin q -> 0 < Q2R p ->
  exists y z, nearest y (real_fun f (Q2R p)) /\ nearest z (real_fun f (Q2R q)) /\ i_log M f a = Ok (Itv (NR (Fin (m_below M y))) (NR (Fin (m_above M z))) false false).
Proof.
  intros Hf C U Mx Vl Vh P. unfold i_log. rewrite (member_open a x U Mx). destruct U as (A & B & _), Mx as (L & H).
  rewrite Vl in L. rewrite Vh in H. pose proof (lowR_le _ _ _ _ eq_refl L). pose proof (highR_le _ _ _ _ eq_refl H).
  assert (E0 : n_le rn128 (hi a) (NI 0) = false) by (apply (not_true_iff _ _ (le_I (hi a) 0 B ltac:(lia))); rewrite Vh; lra).
  assert (E1 : n_le rn128 (lo a) (NI 0) = false) by (apply (not_true_iff _ _ (le_I (lo a) 0 A ltac:(lia))); rewrite Vl; lra). assert (E2 : n_isPosInf (lo a) = false) by (apply (not_true_iff _ _ (posInf_iff _)); congruence).
  assert (E4 : n_isPosInf (hi a) = false) by (apply (not_true_iff _ _ (posInf_iff _)); congruence). rewrite E0, E1, E2, E4.
  assert (D : forall y, 0 < y -> in_domain f y) by (intros y Hy; destruct Hf as [->|[->| ->]]; exact Hy).
  destruct (n_fun_fin M C f (lo a) p A Vl) as (y & -> & N); [now apply D|]. destruct (n_fun_fin M C f (hi a) q B Vh) as (z & -> & N'); [apply D; lra|]. cbn [bind]. exists y, z. auto.
Qed.
(** ** sin and cos of intervals that are wide or infinite *)
Lemma e0 : Q2R 0 = 0. Proof. unfold Q2R. cbn. lra. Qed.
Lemma eZ z : Q2R (inject_Z z) = IZR z. Proof. apply Q2R_Z. Qed.
Lemma twopi M : correct M -> around (n_mul rn128 (NI 2) (n_pi M)) 6 8 /\ real (n_mul rn128 (NI 2) (n_pi M)).
Proof.
  intros C. split; [|eexists; reflexivity]. assert (Rp : real (n_pi M)) by (eexists; reflexivity).
  apply (around_mul (NI 2) (n_pi M) (inject_Z 2) (inject_Z 2) 3 4); [now right|apply around_I; lia|now apply pi_around|apply (reprZ 6); lia|apply (reprZ 8); lia|].
  intros x y Hx Hy. rewrite !Q2R_Z in Hx. replace (Q2R 3) with 3 in Hy by (unfold Q2R; cbn; lra). replace (Q2R 4) with 4 in Hy by (unfold Q2R; cbn; lra).
  replace (Q2R 6) with 6 by (unfold Q2R; cbn; lra). replace (Q2R 8) with 8 by (unfold Q2R; cbn; lra). assert (x = 2) by lra. subst x. lra.
Qed.
Lemma wave_wide M f u v a x : correct M -> usable a -> memberR a x ->
  ((exists s, val (lo a) = Inf s) \/ (exists s, val (hi a) = Inf s) \/ (exists p q, val (lo a) = Fin p /\ val (hi a) = Fin q /\ Q2R p + 8 <= Q2R q)) ->
  i_wave M f u v a = Ok (Itv (NI (-1)) (NI 1) true true).
Proof.
  intros C U Mx W. unfold i_wave. rewrite (member_open a x U Mx). destruct U as (A & B & _).
  assert (Infs : forall n s, val n = Inf s -> n_isInf n = true) by (intros [z|[|t|y]] s; cbn; congruence).
  destruct W as [(s & V)|[(s & V)|(p & q & Vl & Vh & K)]].
  - rewrite (Infs _ _ V). reflexivity.
  - rewrite (Infs _ _ V), orb_true_r. reflexivity.
  - destruct (n_isInf (lo a) || n_isInf (hi a)); [reflexivity|].
    destruct (twopi M C) as (T & (t & Et)). rewrite Et in *. destruct T as (_ & tq & Vt & Bt). cbn [val] in Vt. subst t.
    assert (S : exists s, toReal rn128 (n_sub rn128 (hi a) (lo a)) = Fin s /\ 8 <= Q2R s).
    { assert (R8 : repr 128 8) by (apply (reprZ 8); lia). assert (E8 : Q2R 8 = 8) by (unfold Q2R; cbn; lra).
      assert (G : forall d, 8 <= Q2R d -> 8 <= Q2R (rn128 d)). { intros d Hd. rewrite <- E8 in Hd |- *. apply Rle_Qle in Hd. rewrite <- (Qeq_eqR _ _ (rn_exact 128 ltac:(lia) 8 R8)). apply Qle_Rle. apply rn_mono; [lia|exact Hd]. }
      destruct (held_real _ _ A Vl) as (p' & Tp & _ & Ep). destruct (held_real _ _ B Vh) as (q' & Tq & _ & Eq).
      assert (X : n_sub rn128 (hi a) (lo a) = NR (Fin (rn128 (q' - p'))) \/ exists z z', hi a = NI z /\ lo a = NI z' /\ n_sub rn128 (hi a) (lo a) = NI (z - z')).
      { destruct (hi a) as [z|y], (lo a) as [z'|y']; [right; eauto| | |]; left; unfold n_sub; rewrite Tp, Tq; reflexivity. }
      destruct X as [->|(z & z' & E1 & E2 & ->)].
      - eexists. split; [reflexivity|]. apply G. rewrite Q2R_minus. lra.
      - eexists. split; [reflexivity|]. apply G. rewrite E1 in Vh. rewrite E2 in Vl. cbn in Vh, Vl. injection Vh as <-. injection Vl as <-. rewrite Q2R_Z, minus_IZR. rewrite !Q2R_Z in K. lra. }
    destruct S as (s & Es & Ks). assert (G : n_ge rn128 (n_sub rn128 (hi a) (lo a)) (NR (Fin tq)) = true).
    { unfold n_ge, n_lt. replace (match n_sub rn128 (hi a) (lo a) with NI x0 => xlt (toReal rn128 (n_sub rn128 (hi a) (lo a))) (toReal rn128 (NR (Fin tq))) | NR _ => xlt (toReal rn128 (n_sub rn128 (hi a) (lo a))) (toReal rn128 (NR (Fin tq))) end) with (xlt (Fin s) (Fin tq)).
      - apply negb_true_iff. apply (not_true_iff _ _ (xlt_iff _ _)). cbn. intros Z. apply Qlt_Rlt in Z. replace (Q2R 8) with 8 in Bt by (unfold Q2R; cbn; lra). lra.
      - rewrite <- Es. destruct (n_sub rn128 (hi a) (lo a)); reflexivity. }
    rewrite G. reflexivity.
Qed.
(** ** tan over a pole *)
Lemma half_pi M : correct M -> exists c, n_div rn128 (n_pi M) (NI 2) = Ok (NR (Fin (rn128 c))) /\ around (NR (Fin (rn128 c))) (3 # 2) 2.
Proof.
  intros C. apply (around_div (n_pi M) (NI 2) 3 4 (inject_Z 2) (inject_Z 2)); [left; eexists; reflexivity|now apply pi_around|apply around_I; lia| | | |].
  - exists 3%Z, (-1)%Z. split; [lia|reflexivity].
  - apply (reprZ 2). lia.
  - rewrite Q2R_Z. lra.
  - intros x y Hx Hy. rewrite !Q2R_Z in Hy. assert (y = 2) by lra. subst y. unfold Q2R in *. cbn in *. lra.
Qed.
Lemma tan_pole M : correct M -> exists b v, i_tan M (Itv (NI 1) (NI 2) true true) = Ok b /\ memberR (Itv (NI 1) (NI 2) true true) v /\ cos v <> 0 /\ ~ memberR b (tan v).
Proof.
  intros C. assert (Q3 : Q2R 3 = 3) by (unfold Q2R; cbn; lra). assert (Q32 : Q2R (3 # 2) = 3 / 2) by (unfold Q2R; cbn; lra). assert (Q22 : Q2R 2 = 2) by (unfold Q2R; cbn; lra).
  assert (Q4 : Q2R 4 = 4) by (unfold Q2R; cbn; lra).
  unfold i_tan. change (isEmptyI rn128 (Itv (NI 1) (NI 2) true true)) with false. cbn [lo hi lc rc].
  destruct (half_pi M C) as (c & -> & Hp). cbn [bind n_isInf orb]. set (ph := NR (Fin (rn128 c))) in *. pose proof (pi_around M C) as Pi. assert (Rp : real (n_pi M)) by (eexists; reflexivity).
  assert (N1 : exists n, normpi M ph (NI 1) = Ok n /\ around n (inject_Z 1) (inject_Z 1)).
  { unfold normpi. destruct (remainder (NI 1) (n_pi M) 1 3 4) as (q & -> & Ar & Rr); auto; try lia; try (apply reprZ; lia); try (apply (reprZ 3); lia); try (apply (reprZ 4); lia); try lra. cbn [bind]. set (n := n_sub rn128 (NI 1) _) in *.
    destruct (cmp_ge n (n_neg ph) _ _ _ _ Ar (around_neg _ _ _ Hp)) as (-> & _); [rewrite Q2R_opp, Q2R_Z; lra|]. destruct (cmp_lt n ph _ _ _ _ Ar Hp) as (_ & _ & _ & ->); [rewrite Q2R_Z; lra|]. eauto. }
  assert (N2 : exists n, normpi M ph (NI 2) = Ok n /\ around n (inject_Z (-2)) (inject_Z (-1))).
  { unfold normpi. destruct (remainder (NI 2) (n_pi M) 2 3 4) as (q & -> & Ar & Rr); auto; try lia; try (apply reprZ; lia); try (apply (reprZ 3); lia); try (apply (reprZ 4); lia); try lra. cbn [bind]. set (n := n_sub rn128 (NI 2) _) in *.
    destruct (cmp_ge n (n_neg ph) _ _ _ _ Ar (around_neg _ _ _ Hp)) as (-> & _); [rewrite Q2R_opp, Q2R_Z; lra|]. destruct (cmp_ge n ph _ _ _ _ Ar Hp) as (_ & ->); [rewrite Q2R_Z; lra|]. eexists. split; [reflexivity|].
    clearbody n. destruct Rr as (y & ->). change (n_subA rn128 (NR y) (n_pi M)) with (n_sub rn128 (NR y) (n_pi M)).
    apply (around_sub (NR y) (n_pi M) _ _ _ _ _ _ (or_intror Rp) Ar Pi); [apply reprZ; lia|apply reprZ; lia| |]; rewrite !Q2R_Z, ?Q3, ?Q4; lra. }
  destruct N1 as (l & -> & Al), N2 as (h & -> & Ah). cbn [bind].
  destruct (cmp_lt (n_neg ph) l _ _ _ _ (around_neg _ _ _ Hp) Al) as (_ & _ & _ & _); [rewrite Q2R_opp, Q2R_Z; lra|].
  assert (E1 : n_le rn128 l (n_neg ph) = false).
  { destruct Al as (Hl & ql & Vl & Bl), (around_neg _ _ _ Hp) as (Hq & qp & Vp & Bp). apply (not_true_iff _ _ (n_le_R _ _ Hl Hq)). rewrite Vl, Vp. cbn. rewrite !Q2R_opp, ?Q2R_Z in *. lra. }
  destruct (cmp_lt h ph _ _ _ _ Ah Hp) as (_ & _ & _ & E2); [rewrite Q2R_Z; lra|]. rewrite E1, E2, andb_false_r. cbn [andb orb].
  assert (T : forall z, exists y, n_fun M F_tan (NI z) = Ok (NR (Fin y))) by (intros z; eexists; reflexivity). destruct (T 1%Z) as (y1 & ->). destruct (T 2%Z) as (y2 & ->). cbn [bind].
  set (pr := if n_gt rn128 (NR (Fin y1)) (NR (Fin y2)) then _ else _). assert (Pr : exists u v, pr = (NR (Fin u), NR (Fin v))) by (unfold pr; destruct (n_gt rn128 _ _); eauto). clearbody pr. destruct Pr as (u & w & ->).
  set (B := Q2R (m_above M w)). exists (Itv (n_below M (NR (Fin u))) (n_above M (NR (Fin w))) false false), (atan (Rmax B (tan 1))). split; [reflexivity|].
  pose proof PI2_3_2 as P1. pose proof PI_4 as P2. set (t := Rmax B (tan 1)). pose proof (atan_bound t) as Bd.
  assert (Lv : 1 <= atan t). { assert (X : atan (tan 1) = 1) by (apply atan_tan; lra). rewrite <- X. apply (inc_atan (tan 1) t I I). apply Rmax_r. }
  split; [split; cbn; unfold Q2R; cbn; lra|]. split; [apply Rgt_not_eq; apply cos_gt_0; lra|].
  intros (_ & Hb). cbn in Hb. rewrite tan_atan in Hb. fold B in Hb. pose proof (Rmax_l B (tan 1)). fold t in H. lra.
Qed.
(** ** the maximum of sin in an open interval *)
Lemma sin_open M : correct M -> exists b, i_sin M (Itv (NI 0) (NI 3) false false) = Ok b /\ memberR (Itv (NI 0) (NI 3) false false) (rPI / 2) /\ ~ memberR b (sin (rPI / 2)).
Proof.
  intros C. assert (Q32 : Q2R (3 # 2) = 3 / 2) by (unfold Q2R; cbn; lra). assert (Q22 : Q2R 2 = 2) by (unfold Q2R; cbn; lra). assert (Q6 : Q2R 6 = 6) by (unfold Q2R; cbn; lra). assert (Q8 : Q2R 8 = 8) by (unfold Q2R; cbn; lra).
  assert (Q3 : Q2R 3 = 3) by (unfold Q2R; cbn; lra). assert (Q4 : Q2R 4 = 4) by (unfold Q2R; cbn; lra).
  unfold i_sin. destruct (half_pi M C) as (c & -> & Hp). cbn [bind]. set (ph := NR (Fin (rn128 c))) in *. pose proof (pi_around M C) as Pi. assert (Rp : real (n_pi M)) by (eexists; reflexivity).
  assert (T3 : around (n_mul rn128 (NI 3) (n_pi M)) 9 12).
  { apply (around_mul (NI 3) (n_pi M) (inject_Z 3) (inject_Z 3) 3 4); [now right|apply around_I; lia|exact Pi|apply (reprZ 9); lia|apply (reprZ 12); lia|].
    intros x y Hx Hy. rewrite !Q2R_Z in Hx. replace (Q2R 9) with 9 by (unfold Q2R; cbn; lra). replace (Q2R 12) with 12 by (unfold Q2R; cbn; lra). assert (x = 3) by lra. subst x. lra. }
  assert (R3 : real (n_mul rn128 (NI 3) (n_pi M))) by (eexists; reflexivity).
  destruct (around_div _ (NI 2) 9 12 (inject_Z 2) (inject_Z 2) 4 6 (or_introl R3) T3 (around_I 2 ltac:(lia))) as (c' & -> & Th); [apply (reprZ 4); lia|apply (reprZ 6); lia|rewrite Q2R_Z; lra| |].
  { intros x y Hx Hy. rewrite !Q2R_Z in Hy. assert (y = 2) by lra. subst y. rewrite Q4, Q6. replace (Q2R 9) with 9 in Hx by (unfold Q2R; cbn; lra). replace (Q2R 12) with 12 in Hx by (unfold Q2R; cbn; lra). lra. }
  cbn [bind]. set (th := NR (Fin (rn128 c'))) in *. unfold i_wave. change (isEmptyI rn128 (Itv (NI 0) (NI 3) false false)) with false. cbn [lo hi lc rc n_isInf orb].
  destruct (twopi M C) as (Tp & Rt). change (n_sub rn128 (NI 3) (NI 0)) with (NI 3). set (tp := n_mul rn128 (NI 2) (n_pi M)) in *.
  destruct (cmp_lt (NI 3) tp _ _ _ _ (around_I 3 ltac:(lia)) Tp) as (_ & _ & _ & ->); [rewrite Q2R_Z; lra|].
  assert (N : forall z, (0 <= z <= 4)%Z -> exists n, norm2pi M (NI z) = Ok n /\ around n (inject_Z z) (inject_Z z)).
  { intros z Hz. unfold norm2pi. fold tp. assert (Hz4 : IZR z <= 4) by (apply IZR_le; lia). destruct (remainder (NI z) tp z 6 8) as (q & -> & Ar & Rr); auto; try (apply (reprZ 6); lia); try (apply (reprZ 8); lia); try lia; try lra. cbn [bind]. set (n := n_sub rn128 (NI z) _) in *.
    destruct (cmp_ge n (NI 0) _ _ _ _ Ar (around_I 0 ltac:(lia))) as (-> & _); [rewrite !Q2R_Z; apply IZR_le; lia|]. eauto. }
  destruct (N 0%Z ltac:(lia)) as (l & -> & Al). destruct (N 3%Z ltac:(lia)) as (h & -> & Ah). cbn [bind].
  destruct (cmp_ge h l _ _ _ _ Ah Al) as (-> & _); [rewrite !Q2R_Z; lra|].
  assert (T : forall m x y, around m x y -> exists w, n_fun M F_sin m = Ok (NR (Fin w))). { intros m x y Hm. destruct (around_real _ _ _ Hm) as (q & Tq & _). unfold n_fun, h_fun. rewrite Tq. cbn. eauto. }
  destruct (T l _ _ Al) as (w1 & ->). destruct (T h _ _ Ah) as (w2 & ->). cbn [bind].
  destruct (cmp_lt l ph _ _ _ _ Al Hp) as (_ & -> & _ & _); [rewrite Q2R_Z; lra|]. destruct (cmp_ge h ph _ _ _ _ Ah Hp) as (_ & ->); [rewrite Q2R_Z; lra|]. cbn [andb orb].
  destruct (cmp_lt h th _ _ _ _ Ah Th) as (_ & _ & _ & ->); [rewrite Q2R_Z; lra|]. rewrite andb_false_r. cbn [orb].
  assert (A2 : around (n_add rn128 th tp) 8 16). { apply (around_add th tp _ _ _ _ _ _ (or_intror Rt) Th Tp); [apply (reprZ 8); lia|apply (reprZ 16); lia| |]; rewrite ?Q4, ?Q6, ?Q8; replace (Q2R 16) with 16 by (unfold Q2R; cbn; lra); lra. }
  destruct (cmp_lt h _ _ _ _ _ Ah A2) as (_ & _ & _ & ->); [rewrite Q2R_Z; lra|]. rewrite andb_false_r.
  set (cl := if n_lt rn128 (NR (Fin w1)) (NR (Fin w2)) then false else false). change (n_lt rn128 (NI 1) (NI 1)) with false. assert (Ec : cl = false) by (unfold cl; destruct (n_lt rn128 _ _); reflexivity). rewrite Ec.
  pose proof PI2_3_2 as P1. pose proof PI_4 as P2. destruct (n_gt rn128 _ _); eexists; (split; [reflexivity|]); (split; [split; cbn; unfold Q2R; cbn; lra|]); rewrite sin_PI2; intros (_ & H); cbn in H; unfold Q2R in H; cbn in H; lra.
Qed.
