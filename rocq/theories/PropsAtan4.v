(** C92: the special cases of atan2 of a box: what the result is when the box meets an axis. *)
From Coq Require Import Reals QArith Qreals Qround Qabs ZArith List Bool Lia Lra.
From Verif Require Import Base KindModel NumModel RoundModel NumSpec NumProofs NumMore FunModel FunSpec FunProofs FunProofs2 FunProofs3 FunProofs4 FunProofs5 FunProofs6 PropsNum PropsFun IopModel PropsIop PropsPow Atan2Model PropsAtan2 PropsAtan3 PropsPi.
Open Scope R_scope.
Local Notation r := rn128.
Local Notation PI := Rtrigo1.PI.

(** half of a representable number is exact *)
Lemma halve p : repr 128 p -> exists h, n_div r (NR (Fin p)) (NI 2) = Ok (NR (Fin h)) /\ Q2R h = Q2R p / 2.
Proof.
  intros (m & e & Bm & Em). assert (T : (r (inject_Z 2) == 2)%Q) by (vm_compute; reflexivity).
  exists (r (p / r (inject_Z 2))). split; [reflexivity|].
  assert (X : (p / r (inject_Z 2) == inject_Z m * p2 (e - 1))%Q).
  { rewrite T, Em. unfold Z.sub. rewrite p2_add. change (p2 (- (1)))%Q with (1 # 2). field. }
  assert (R1 : repr 128 (p / r (inject_Z 2))) by (exists m, (e - 1)%Z; split; assumption).
  assert (Q1 : Q2R (r (p / r (inject_Z 2))) = Q2R (p / r (inject_Z 2))) by (apply Qeq_eqR; apply (rn_exact 128 ltac:(lia) _ R1)).
  rewrite Q1. assert (Q2 : Q2R (p / r (inject_Z 2)) = Q2R (p / 2)) by (apply Qeq_eqR; rewrite T; reflexivity). rewrite Q2.
  rewrite Q2R_div by discriminate. unfold Q2R at 2. cbn. lra.
Qed.
(** membership in the results of the special cases *)
Lemma mem_itv l h p q v : l = NR (Fin p) \/ l = NI 0 /\ (p == 0)%Q -> h = NR (Fin q) \/ h = NI 0 /\ (q == 0)%Q -> (memberR (Itv l h true true) v <-> Q2R p <= v <= Q2R q).
Proof.
  assert (Z : Q2R 0 = 0) by (unfold Q2R; cbn; lra). intros [-> |[-> E]] [-> |[-> E']]; unfold memberR; cbn; try apply Qeq_eqR in E; try apply Qeq_eqR in E'; rewrite ?Q2R_Z; lra.
Qed.

Section S.
Context (M : mpfr) (A : mpfr2) (C : correct M).
Variables (a b : interval) (Ua : usable a) (Ub : usable b).
Lemma low_neg n c v : held n -> lowR (val n) c v -> v < 0 -> n_lt r n (NI 0) = true.
Proof. intros H L V. apply (lt_I n 0 H ltac:(lia)). destruct (val n) as [|s|p]; cbn in *; auto. destruct c; lra. Qed.
Lemma high_pos n c v : held n -> highR (val n) c v -> 0 < v -> n_gt r n (NI 0) = true.
Proof. intros H L V. apply (gt_I n 0 H ltac:(lia)). destruct (val n) as [|s|p]; cbn in *; auto. destruct c; lra. Qed.
Lemma low_np n c v : held n -> lowR (val n) c v -> v <= 0 -> n_le r n (NI 0) = true.
Proof. intros H L V. apply (le_I n 0 H ltac:(lia)). destruct (val n) as [|s|p]; cbn in *; auto. destruct c; lra. Qed.
Lemma high_nn n c v : held n -> highR (val n) c v -> 0 <= v -> n_ge r n (NI 0) = true.
Proof. intros H L V. apply (ge_I n 0 H ltac:(lia)). destruct (val n) as [|s|p]; cbn in *; auto. destruct c; lra. Qed.
Lemma low_pos i v z : usable i -> memberR i v -> 0 < z -> (forall u, memberR i u -> z <= u) ->
  n_gt r (lo i) (NI 0) = true /\ n_lt r (lo i) (NI 0) = false /\ n_le r (lo i) (NI 0) = false.
Proof.
  intros U H Z D. destruct (lo_ge i v z U H D) as (p & V & K). pose proof U as (H1 & _). split; [|split].
  - apply (gt_I _ 0 H1 ltac:(lia)). rewrite V. cbn. lra.
  - apply (not_true_iff _ _ (lt_I _ 0 H1 ltac:(lia))). rewrite V. cbn. lra.
  - apply (not_true_iff _ _ (le_I _ 0 H1 ltac:(lia))). rewrite V. cbn. lra.
Qed.
Lemma high_neg i v z : usable i -> memberR i v -> z < 0 -> (forall u, memberR i u -> u <= z) ->
  n_lt r (hi i) (NI 0) = true /\ n_gt r (hi i) (NI 0) = false /\ n_ge r (hi i) (NI 0) = false.
Proof.
  intros U H Z D. destruct (hi_le i v z U H D) as (p & V & K). pose proof U as (_ & H1 & _). split; [|split].
  - apply (lt_I _ 0 H1 ltac:(lia)). rewrite V. cbn. lra.
  - apply (not_true_iff _ _ (gt_I _ 0 H1 ltac:(lia))). rewrite V. cbn. lra.
  - apply (not_true_iff _ _ (ge_I _ 0 H1 ltac:(lia))). rewrite V. cbn. lra.
Qed.
Ltac open y x := rewrite (member_open a y Ua ltac:(assumption)), (member_open b x Ub ltac:(assumption)); cbn [orb]; cbv zeta.
Ltac rw := repeat match goal with H : n_lt r _ _ = _ |- _ => rewrite H | H : n_gt r _ _ = _ |- _ => rewrite H | H : n_le r _ _ = _ |- _ => rewrite H | H : n_ge r _ _ = _ |- _ => rewrite H end; cbn [andb].
(** the box is above the abscissa and crosses the ordinate axis: [0, pi] *)
Lemma upper y x1 x2 p : memberR a y -> memberR b x1 -> memberR b x2 -> 0 < p -> (forall u, memberR a u -> p <= u) -> x1 < 0 < x2 -> i_atan2 M A a b = Ok (Itv (NI 0) (n_pi M) true true).
Proof.
  intros Hy H1 H2 P D X. destruct (low_pos a y p Ua Hy P D) as (E1 & E2 & E3). pose proof Ub as (K1 & K2 & _). pose proof H1 as (L1 & _). pose proof H2 as (_ & G2).
  pose proof (low_neg _ _ _ K1 L1 ltac:(lra)) as E4. pose proof (high_pos _ _ _ K2 G2 ltac:(lra)) as E5.
  unfold i_atan2. open y x1. rw. reflexivity.
Qed.
Lemma lower y x1 x2 p : memberR a y -> memberR b x1 -> memberR b x2 -> p < 0 -> (forall u, memberR a u -> u <= p) -> x1 < 0 < x2 -> i_atan2 M A a b = Ok (Itv (npi M) (NI 0) true true).
Proof.
  intros Hy H1 H2 P D X. destruct (high_neg a y p Ua Hy P D) as (E1 & E2 & E3). pose proof Ub as (K1 & K2 & _). pose proof H1 as (L1 & _). pose proof H2 as (_ & G2).
  pose proof (low_neg _ _ _ K1 L1 ltac:(lra)) as E4. pose proof (high_pos _ _ _ K2 G2 ltac:(lra)) as E5.
  assert (E6 : n_gt r (lo a) (NI 0) = false).
  { pose proof Ua as (A1 & A2 & _). apply (not_true_iff _ _ (gt_I _ 0 A1 ltac:(lia))). pose proof Hy as (L & _). specialize (D y Hy). destruct (val (lo a)) as [|s|w]; cbn in L |- *; try contradiction; [congruence|]. destruct (lc a); lra. }
  unfold i_atan2. open y x1. rw. rewrite ?andb_false_r. cbn [andb]. rw. reflexivity.
Qed.
(** right of the ordinate axis, crossing the abscissa: [- pi / 2, pi / 2] *)
Lemma right y1 y2 x q : memberR a y1 -> memberR a y2 -> memberR b x -> 0 < q -> (forall u, memberR b u -> q <= u) -> y1 < 0 < y2 ->
  exists l h, i_atan2 M A a b = Ok (Itv (NR (Fin l)) (NR (Fin h)) true true) /\ Q2R l = - (Q2R (m_pi M) / 2) /\ Q2R h = Q2R (m_pi M) / 2.
Proof.
  intros H1 H2 Hx P D X. destruct (low_pos b x q Ub Hx P D) as (E1 & E2 & E3). pose proof Ua as (K1 & K2 & _). pose proof H1 as (L1 & _). pose proof H2 as (_ & G2).
  pose proof (low_neg _ _ _ K1 L1 ltac:(lra)) as E4. pose proof (high_pos _ _ _ K2 G2 ltac:(lra)) as E5.
  assert (E6 : n_lt r (hi b) (NI 0) = false).
  { pose proof Ub as (A1 & A2 & _). apply (not_true_iff _ _ (lt_I _ 0 A2 ltac:(lia))). pose proof Hx as (_ & L). specialize (D x Hx). destruct (val (hi b)) as [|s|w]; cbn in L |- *; try contradiction; [congruence|]. destruct (rc b); lra. }
  pose proof (ok_pi M C) as (RP & _).
  destruct (halve (m_pi M) RP) as (h & Eh & Vh). destruct (halve (- m_pi M) ltac:(now apply repr_opp)) as (l & El & Vl). exists l, h.
  unfold i_atan2. open y1 x. rw. rewrite ?andb_false_r. cbn [andb]. change (npi M) with (NR (Fin (- m_pi M))). rewrite El. cbn [bind]. change (n_pi M) with (NR (Fin (m_pi M))). rewrite Eh. cbn [bind].
  split; [reflexivity|]. rewrite Q2R_opp in Vl. split; [lra|assumption].
Qed.
(** left of it, crossing the abscissa, or around the origin: [- pi, pi] *)
Lemma left_full y1 y2 x q : memberR a y1 -> memberR a y2 -> memberR b x -> q < 0 -> (forall u, memberR b u -> u <= q) -> y1 < 0 < y2 -> i_atan2 M A a b = Ok (Itv (npi M) (n_pi M) true true).
Proof.
  intros H1 H2 Hx P D X. destruct (high_neg b x q Ub Hx P D) as (E1 & E2 & E3). pose proof Ua as (K1 & K2 & _). pose proof H1 as (L1 & _). pose proof H2 as (_ & G2).
  pose proof (low_neg _ _ _ K1 L1 ltac:(lra)) as E4. pose proof (high_pos _ _ _ K2 G2 ltac:(lra)) as E5.
  unfold i_atan2. open y1 x. rw. rewrite ?andb_false_r. cbn [andb]. rw. reflexivity.
Qed.
Lemma origin_full y1 y2 x1 x2 : memberR a y1 -> memberR a y2 -> memberR b x1 -> memberR b x2 -> y1 <= 0 <= y2 -> x1 <= 0 <= x2 -> i_atan2 M A a b = Ok (Itv (npi M) (n_pi M) true true).
Proof.
  intros H1 H2 H3 H4 Y X. pose proof Ua as (K1 & K2 & _). pose proof Ub as (K3 & K4 & _). pose proof H1 as (L1 & _). pose proof H2 as (_ & G2). pose proof H3 as (L3 & _). pose proof H4 as (_ & G4).
  pose proof (low_np _ _ _ K1 L1 ltac:(lra)). pose proof (high_nn _ _ _ K2 G2 ltac:(lra)). pose proof (low_np _ _ _ K3 L3 ltac:(lra)). pose proof (high_nn _ _ _ K4 G4 ltac:(lra)).
  unfold i_atan2. open y1 x1. rw. reflexivity.
Qed.
End S.

(** A box that crosses the ordinate axis above (below) the abscissa gets [0, pi] ([- pi, 0]), one that crosses the abscissa
    right (left) of the ordinate axis gets [- pi / 2, pi / 2] ([- pi, pi]), one with points on both sides of both axes or on
    them gets [- pi, pi], where pi is the number [pi ()] returns. So such a result contains the angle of every point of the
    box if and only if that angle is no more than the rounded (half) turn. *)
Theorem C92_atan2_axis_partial M A a b : correct M -> usable a -> usable b ->
  let P := Q2R (m_pi M) in
  (forall p, 0 < p -> (exists y, memberR a y) -> (forall y, memberR a y -> p <= y) -> (exists x, memberR b x /\ x < 0) -> (exists x, memberR b x /\ 0 < x) ->
     exists c, i_atan2 M A a b = Ok c /\ (forall v, memberR c v <-> 0 <= v <= P) /\
               forall y x, memberR a y -> memberR b x -> angle y x <= P -> memberR c (angle y x)) /\
  (forall p, p < 0 -> (exists y, memberR a y) -> (forall y, memberR a y -> y <= p) -> (exists x, memberR b x /\ x < 0) -> (exists x, memberR b x /\ 0 < x) ->
     exists c, i_atan2 M A a b = Ok c /\ (forall v, memberR c v <-> - P <= v <= 0) /\
               forall y x, memberR a y -> memberR b x -> - P <= angle y x -> memberR c (angle y x)) /\
  (forall q, 0 < q -> (exists x, memberR b x) -> (forall x, memberR b x -> q <= x) -> (exists y, memberR a y /\ y < 0) -> (exists y, memberR a y /\ 0 < y) ->
     exists c, i_atan2 M A a b = Ok c /\ (forall v, memberR c v <-> - (P / 2) <= v <= P / 2) /\
               forall y x, memberR a y -> memberR b x -> Rabs (angle y x) <= P / 2 -> memberR c (angle y x)) /\
  ((exists q, q < 0 /\ (exists x, memberR b x) /\ (forall x, memberR b x -> x <= q) /\ (exists y, memberR a y /\ y < 0) /\ (exists y, memberR a y /\ 0 < y)) \/
   ((exists y, memberR a y /\ y <= 0) /\ (exists y, memberR a y /\ 0 <= y) /\ (exists x, memberR b x /\ x <= 0) /\ (exists x, memberR b x /\ 0 <= x)) ->
     exists c, i_atan2 M A a b = Ok c /\ (forall v, memberR c v <-> - P <= v <= P) /\
               forall y x, memberR a y -> memberR b x -> Rabs (angle y x) <= P -> memberR c (angle y x)).
Proof.
  intros C Ua Ub P. assert (NP : npi M = NR (Fin (- m_pi M))) by reflexivity. assert (Z : Q2R 0 = 0) by (unfold Q2R; cbn; lra).
  assert (AB : forall v w, Rabs v <= w -> - w <= v <= w) by (intros v w; unfold Rabs; destruct (Rcase_abs v); lra).
  split; [|split; [|split]].
  - intros p Pp (y & Hy) D (x1 & X1 & N1) (x2 & X2 & N2). eexists. split; [apply (upper M A a b Ua Ub y x1 x2 p); auto|].
    assert (K : forall v, memberR (Itv (NI 0) (n_pi M) true true) v <-> 0 <= v <= P).
    { intros v. rewrite (mem_itv (NI 0) (n_pi M) 0 (m_pi M)); [unfold P; rewrite Z; tauto|right; split; reflexivity|left; reflexivity]. }
    split; [exact K|]. intros y' x' Hy' Hx' L. apply K. split; [|exact L]. pose proof pi_b. specialize (D y' Hy'). destruct (Rle_lt_dec 0 x') as [G|G].
    + rewrite <- (angle_0x x' G). apply angle_inc; lra.
    + pose proof (angle_top y' x' G ltac:(lra)). lra.
  - intros p Pp (y & Hy) D (x1 & X1 & N1) (x2 & X2 & N2). eexists. split; [apply (lower M A a b Ua Ub y x1 x2 p); auto|].
    assert (K : forall v, memberR (Itv (npi M) (NI 0) true true) v <-> - P <= v <= 0).
    { intros v. rewrite (mem_itv (npi M) (NI 0) (- m_pi M) 0); [unfold P; rewrite Z, Q2R_opp; tauto|left; reflexivity|right; split; reflexivity]. }
    split; [exact K|]. intros y' x' Hy' Hx' L. apply K. split; [exact L|]. pose proof pi_b. specialize (D y' Hy'). destruct (Rle_lt_dec 0 x') as [G|G].
    + rewrite <- (angle_0x x' G). apply angle_inc; lra.
    + pose proof (angle_bottom y' x' G ltac:(lra)). lra.
  - intros q Pq (x & Hx) D (y1 & Y1 & N1) (y2 & Y2 & N2). destruct (right M A C a b Ua Ub y1 y2 x q) as (l & h & E & Vl & Vh); auto.
    eexists. split; [exact E|]. assert (K : forall v, memberR (Itv (NR (Fin l)) (NR (Fin h)) true true) v <-> - (P / 2) <= v <= P / 2).
    { intros v. rewrite (mem_itv _ _ l h); [rewrite Vl, Vh; reflexivity|now left|now left]. }
    split; [exact K|]. intros y' x' _ _ L. apply K, AB, L.
  - intros H. assert (E : i_atan2 M A a b = Ok (Itv (npi M) (n_pi M) true true)).
    { destruct H as [(q & Q & (x & Hx) & D & (y1 & Y1 & N1) & (y2 & Y2 & N2))|((y1 & Y1 & N1) & (y2 & Y2 & N2) & (x1 & X1 & M1) & (x2 & X2 & M2))].
      - apply (left_full M A a b Ua Ub y1 y2 x q); auto.
      - apply (origin_full M A a b Ua Ub y1 y2 x1 x2); auto. }
    eexists. split; [exact E|]. assert (K : forall v, memberR (Itv (npi M) (n_pi M) true true) v <-> - P <= v <= P).
    { intros v. rewrite (mem_itv (npi M) (n_pi M) (- m_pi M) (m_pi M)); [unfold P; rewrite Q2R_opp; tauto|now left|now left]. }
    split; [exact K|]. intros y' x' _ _ L. apply K, AB, L.
Qed.
Print Assumptions C92_atan2_axis_partial.
(** non-vacuity: [1,2] over [-1,1] *)
Example atan2_axis_ex : exists c, i_atan2 M0 A0 (iv 1 2) (iv (-1) 1) = Ok c /\ memberR c (PI / 2) /\ ~ memberR c (-1) /\ memberR c 0.
Proof.
  destruct (C92_atan2_axis_partial M0 A0 (iv 1 2) (iv (-1) 1) M0_correct) as (H & _).
  - repeat split; cbn; lia || exact I.
  - repeat split; cbn; lia || exact I.
  - destruct (H 1) as (c & E & K & _); [lra| | | | |].
    + exists 1. split; cbn; unfold Q2R; cbn; lra.
    + intros y (B & _). cbn in B. unfold Q2R in B. cbn in B. lra.
    + exists (-1). split; [split; cbn; unfold Q2R; cbn; lra|lra].
    + exists 1. split; [split; cbn; unfold Q2R; cbn; lra|lra].
    + assert (B : 3 <= Q2R (m_pi M0)). { pose proof (pi_around M0 M0_correct) as (_ & q & V & B). change (val (n_pi M0)) with (Fin (m_pi M0)) in V. assert (X : q = m_pi M0) by congruence. rewrite X in B. replace (Q2R 3) with 3 in B by (unfold Q2R; cbn; lra). destruct B as [B _]. exact B. }
      cbv zeta in K.
      exists c. split; [exact E|]. pose proof pi_b. split; [apply K; lra|]. split; [intros N; apply K in N; lra|apply K; lra].
Qed.
