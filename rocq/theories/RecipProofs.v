(** Proofs about the inverse functions that the library computes through the reciprocal of an interval. *)
From Coq Require Import Reals QArith Qreals ZArith List Bool Lia Lra.
From Verif Require Import Base NumModel RoundModel NumSpec NumProofs NumMore FunModel FunSpec FunProofs FunProofs2 FunProofs3 FunProofs4 FunProofs5 FunProofs6.
From Coq Require Lqa.
Open Scope R_scope.

Lemma off0_signs la ha : (la <= ha)%Q -> (0 < la \/ ha < 0)%Q -> (qlt la 0 && qlt 0 ha) || (Qeq_bool la 0 && true) || (Qeq_bool ha 0 && true) = false.
Proof.
  intros L S. destruct (qlt_spec la 0), (qlt_spec 0 ha), (qeq_spec la 0), (qeq_spec ha 0); try reflexivity; exfalso; apply (Qlt_irrefl 0); destruct S; Lqa.lra.
Qed.
Lemma fits0' : fits (NI 0). Proof. cbn. lia. Qed.
Lemma repr1' : repr 128 1. Proof. apply (reprZ 1). lia. Qed.
Lemma inv_div n q : held n -> val n = Fin q -> ~ (q == 0)%Q -> repr 128 (/ q) ->
  exists p, n_div rn128 (NI 1) n = Ok p /\ finite p (/ q) /\ held p.
Proof.
  intros H V N K. destruct n as [z|x]; cbn [val] in V.
  - injection V as <-. unfold n_div.
    assert (Z0 : z <> 0%Z) by (intros ->; now apply N). rewrite (proj2 (Z.eqb_neq z 0) Z0).
    destruct (Z.rem 1 z =? 0)%Z eqn:E.
    + exists (NI (1 ÷ z)). split; [reflexivity|]. apply Z.eqb_eq in E. pose proof (Z.quot_rem 1 z Z0) as D. rewrite E, Z.add_0_r in D.
      assert (U : z = 1%Z \/ z = (-1)%Z). { symmetry in D. apply Z.mul_eq_1 in D. exact D. }
      destruct U as [-> | ->]; (split; [reflexivity|cbn; lia]).
    + eexists. split; [reflexivity|]. cbn [toReal]. cbn in H.
      assert (R1 : (rn128 (inject_Z 1) == 1)%Q) by (apply rn_exact; [lia|exact repr1']).
      assert (Rz : (rn128 (inject_Z z) == inject_Z z)%Q) by (apply rn_exact; [lia|now apply reprZ]).
      unfold xdiv. destruct (Qeq_bool (rn128 (inject_Z z)) 0) eqn:E0.
      { apply Qeq_bool_iff in E0. elim N. now rewrite <- Rz. }
      assert (Eq : (rn128 (inject_Z 1) / rn128 (inject_Z z) == / inject_Z z)%Q). { rewrite R1, Rz. unfold Qdiv. now rewrite Qmult_1_l. }
      split.
      * unfold finite. cbn [val eqX]. rewrite (rn_exact 128 ltac:(lia) _); [exact Eq|]. destruct K as (m & e & B & K). exists m, e. split; [exact B|]. now rewrite Eq.
      * cbn [held]. apply rn_repr. lia.
  - subst x. unfold n_div. eexists. split; [reflexivity|]. cbn [toReal].
    assert (R1 : (rn128 (inject_Z 1) == 1)%Q) by (apply rn_exact; [lia|exact repr1']).
    unfold xdiv. destruct (Qeq_bool q 0) eqn:E0; [apply Qeq_bool_iff in E0; contradiction|].
    assert (Eq : (rn128 (inject_Z 1) / q == / q)%Q). { rewrite R1. unfold Qdiv. now rewrite Qmult_1_l. }
    split.
    + unfold finite. cbn [val eqX]. rewrite (rn_exact 128 ltac:(lia) _); [exact Eq|]. destruct K as (m & e & B & K). exists m, e. split; [exact B|]. now rewrite Eq.
    + cbn [held]. apply rn_repr. lia.
Qed.

Lemma minl_in r a l : In (n_minl r a l) (a :: l).
Proof.
  unfold n_minl. revert a. induction l as [|x l IH]; intros a; cbn [fold_left]; [now left|].
  destruct (n_lt r x a); [right; apply IH|]. destruct (IH a) as [E|E]; [left; exact E|right; right; exact E].
Qed.
Lemma maxl_in r a l : In (n_maxl r a l) (a :: l).
Proof.
  unfold n_maxl. revert a. induction l as [|x l IH]; intros a; cbn [fold_left]; [now left|].
  destruct (n_lt r a x); [right; apply IH|]. destruct (IH a) as [E|E]; [left; exact E|right; right; exact E].
Qed.
Lemma fin_held_val p q : held p -> finite p q -> exists q', val p = Fin q' /\ (q' == q)%Q.
Proof. intros _ F. unfold finite in F. destruct (val p) as [|s|x]; cbn in F; try contradiction. eauto. Qed.

(** a closed interval of finite bounds on one side of 0 *)
Definition off0 (a : interval) (la ha : Q) : Prop :=
  held (lo a) /\ held (hi a) /\ lc a = true /\ rc a = true /\ val (lo a) = Fin la /\ val (hi a) = Fin ha /\ (la <= ha)%Q /\ (0 < la \/ ha < 0)%Q.
Lemma off0_usable a la ha : off0 a la ha -> usable a.
Proof. intros (A & B & C1 & C2 & V1 & V2 & _). split; [exact A|]. split; [exact B|]. unfold iwf. rewrite V1, V2. auto. Qed.
Lemma off0_mem a la ha x : off0 a la ha -> memberR a x <-> Q2R la <= x <= Q2R ha.
Proof. intros (A & B & C1 & C2 & V1 & V2 & _). unfold memberR. rewrite C1, C2, V1, V2. cbn. tauto. Qed.
Lemma Rinv_le_pos u v : 0 < u -> u <= v -> / v <= / u. Proof. intros. now apply Rinv_le_contravar. Qed.
Lemma inv_rev (u x v : R) : u <= x <= v -> 0 < u \/ v < 0 -> / v <= / x <= / u.
Proof.
  intros (A & B) [P|N].
  - split; apply Rinv_le_contravar; lra.
  - assert (E : forall y, y < 0 -> / y = - / - y) by (intros y Hy; rewrite Rinv_opp; now rewrite Ropp_involutive).
    rewrite (E v), (E x), (E u) by lra. split; apply Ropp_le_contravar; apply Rinv_le_contravar; lra.
Qed.
Lemma recip_itv dbg a la ha : off0 a la ha -> repr 128 (/ la) -> repr 128 (/ ha) ->
  exists u, i_div rn128 dbg oneI a = Ok u /\ usable u /\ forall y, memberR u y <-> exists x, memberR a x /\ y = / x.
Proof.
  intros O K1 K2. pose proof O as (A & B & C1 & C2 & V1 & V2 & L & S).
  assert (N1 : ~ (la == 0)%Q /\ ~ (ha == 0)%Q) by (clear -L S; split; intros Ez; destruct S as [S|S]; rewrite Ez in *; apply Qlt_not_le in S; apply S; first [apply Qle_refl|exact L]).
  destruct N1 as (N1 & N2).
  destruct (inv_div (lo a) la A V1 N1 K1) as (p1 & D1 & F1 & H1).
  destruct (inv_div (hi a) ha B V2 N2 K2) as (p2 & D2 & F2 & H2).
  assert (Z1 : isq fits (NI 1) 1) by (split; [cbn; lia|reflexivity]).
  assert (Ca : closedI fits a la ha).
  { repeat split; auto using held_fits; unfold finite; [rewrite V1|rewrite V2]; reflexivity. }
  assert (Co : closedI fits oneI 1 1) by (repeat split; apply Z1).
  assert (Q1 : forall q, (1 / q == / q)%Q) by (intros; unfold Qdiv; now rewrite Qmult_1_l).
  assert (I1 : isq fits p1 (1 / la)) by (split; [now apply held_fits|]; unfold finite in *; destruct (val p1); cbn in *; auto; now rewrite Q1).
  assert (I2 : isq fits p2 (1 / ha)) by (split; [now apply held_fits|]; unfold finite in *; destruct (val p2); cbn in *; auto; now rewrite Q1).
  pose proof (fun q => div_x rn128 fits fits_nn fits_lt fits_eq fits_le fits0' dbg oneI a 1 1 la ha p1 p2 p1 p2 q Co Ca (Qle_refl 1) L S D1 D2 D1 D2 I1 I2 I1 I2) as X.
  destruct (X 0%Q) as (u & E & _).
  assert (X' : forall q, member u q <-> exists x y, member oneI x /\ member a y /\ (q == x / y)%Q).
  { intros q. destruct (X q) as (u' & E' & T). congruence. }
  clear X. exists u. split; [exact E|].
  assert (M1 : memberR u (Q2R (/ ha))).
  { apply member_R. apply X'. exists 1%Q, ha. split; [apply (closed_mem rn128 fits fits_nn fits_lt fits_eq fits_le fits0' oneI 1 1); [exact Co|split; apply Qle_refl]|].
    split; [apply member_R; apply (off0_mem a la ha _ O); apply Qle_Rle in L; lra|]. now rewrite Q1. }
  assert (M2 : memberR u (Q2R (/ la))).
  { apply member_R. apply X'. exists 1%Q, la. split; [apply (closed_mem rn128 fits fits_nn fits_lt fits_eq fits_le fits0' oneI 1 1); [exact Co|split; apply Qle_refl]|].
    split; [apply member_R; apply (off0_mem a la ha _ O); apply Qle_Rle in L; lra|]. now rewrite Q1. }
  assert (Sh : In (lo u) [p1; p2] /\ In (hi u) [p1; p2]).
  { revert E. unfold i_div. rewrite (closed_empty rn128 fits fits_nn fits_lt fits_eq fits_le fits0' oneI 1 1 Co), (closed_empty rn128 fits fits_nn fits_lt fits_eq fits_le fits0' a la ha Ca).
    change (qlt 1 1) with false. destruct (qlt_spec ha la) as [q|q]; [exfalso; exact (Qlt_not_le _ _ q L)|]. cbn [orb].
    assert (Hz : has0 rn128 a = false).
    { unfold has0. rewrite !(Pgt rn128 fits fits_nn fits_lt fits_eq fits_le), !fits_lt, !fits_eq by (auto with held; cbn; lia). rewrite C1, C2, V1, V2. cbn [val xlt xeq].
      exact (off0_signs la ha L S). }
    rewrite Hz. change (is00 rn128 oneI) with false. cbn iota. destruct (condAssert dbg (negb (containsI rn128 a (NI 0)))); cbn [bind]; try discriminate.
    cbn [lo hi]. change (lo oneI) with (NI 1). change (hi oneI) with (NI 1). rewrite D1, D2. cbn [bind]. injection 1 as <-. unfold corners. cbn [lo hi].
    pose proof (minl_in rn128 p1 [p2; p1; p2]) as Y1. pose proof (maxl_in rn128 p1 [p2; p1; p2]) as Y2. cbn [In] in *. tauto. }
  assert (Fv : forall p, In p [p1; p2] -> held p /\ exists q, val p = Fin q /\ Q2R (/ ha) <= Q2R q <= Q2R (/ la)).
  { assert (Lh : Q2R (/ ha) <= Q2R (/ la)).
    { rewrite !Q2R_inv by assumption. apply Qle_Rle in L. assert (S' : 0 < Q2R la \/ Q2R ha < 0) by (destruct S as [S|S]; apply Qlt_Rlt in S; unfold Q2R in *; cbn in *; lra).
      pose proof (inv_rev (Q2R la) (Q2R ha) (Q2R ha) ltac:(lra) S'). lra. }
    intros p [<-|[<-|[]]].
    - split; [exact H1|]. destruct (fin_held_val p1 _ H1 F1) as (q & -> & Eq). exists q. split; [reflexivity|]. apply Qeq_eqR in Eq. rewrite Eq. lra.
    - split; [exact H2|]. destruct (fin_held_val p2 _ H2 F2) as (q & -> & Eq). exists q. split; [reflexivity|]. apply Qeq_eqR in Eq. rewrite Eq. lra. }
  destruct (Fv _ (proj1 Sh)) as (Hl & ql & El & Bl). destruct (Fv _ (proj2 Sh)) as (Hh & qh & Eh & Bh).
  split. { split; [exact Hl|]. split; [exact Hh|]. unfold iwf. now rewrite El, Eh. }
  rewrite !Q2R_inv in * by assumption.
  assert (S' : 0 < Q2R la \/ Q2R ha < 0) by (destruct S as [S|S]; apply Qlt_Rlt in S; unfold Q2R in *; cbn in *; lra).
  intros y. split.
  - intros (Y1 & Y2). pose proof (lowR_le _ _ _ ql El Y1). pose proof (highR_le _ _ _ qh Eh Y2).
    assert (Yb : / Q2R ha <= y <= / Q2R la) by lra. exists (/ y).
    assert (T : 0 < / Q2R ha \/ / Q2R la < 0).
    { apply Qle_Rle in L. destruct S'; [left; apply Rinv_0_lt_compat; lra|right; apply Rinv_lt_0_compat; lra]. }
    pose proof (inv_rev _ _ _ Yb T) as W. rewrite !Rinv_inv in W. split; [now apply (off0_mem a la ha _ O)|now rewrite Rinv_inv].
  - intros (x & Hx & ->). apply (off0_mem a la ha _ O) in Hx. pose proof (inv_rev _ _ _ Hx S') as W.
    destruct M1 as (M1 & _), M2 as (_ & M2). split.
    + rewrite El in *. cbn in *. destruct (lc u); lra.
    + rewrite Eh in *. cbn in *. destruct (rc u); lra.
Qed.
