(** C92: atan2 of an interval of ordinates and an interval of abscissae. *)
From Coq Require Import Reals QArith Qreals Qround Qabs ZArith List Bool Lia Lra.
From Verif Require Import Base KindModel NumModel RoundModel NumSpec NumProofs NumMore FunModel FunSpec FunProofs FunProofs2 FunProofs3 FunProofs4 FunProofs5 FunProofs6 PropsNum PropsFun IopModel PropsIop PropsPow Atan2Model PropsAtan2.
Open Scope R_scope.
Local Notation r := rn128.
Local Notation PI := Rtrigo1.PI.

(** the value at a corner; at infinite corners the limit along the diagonal *)
Definition cw (y x : xr) : R :=
  match y, x with
  | Fin p, Fin q => angle (Q2R p) (Q2R q)
  | Fin p, Inf false => 0
  | Fin p, Inf true => if Rlt_dec (Q2R p) 0 then - PI else PI
  | Inf s, Fin _ => if s then - (PI / 2) else PI / 2
  | Inf s, Inf false => if s then - (PI / 4) else PI / 4
  | Inf s, Inf true => if s then - (3 * PI / 4) else 3 * PI / 4
  | _, _ => 0
  end.
Section A.
Context (M : mpfr) (A : mpfr2) (C : correct M) (C2 : correct2 M A).
Notation rounded := (rounded M).
Lemma corner n x : held n -> held x -> exists l, n_atan2 M A n x = NR (Fin l) /\ rounded l (cw (val n) (val x)).
Proof.
  intros Hn Hx. pose proof PI_RGT_0 as P0.
  destruct (val x) as [|s|q] eqn:Vx; [now elim (held_nn x Hx)| |].
  - unfold n_atan2. rewrite (held_inf x s Hx Vx). destruct (val n) as [|t|p] eqn:Vn; [now elim (held_nn n Hn)| |].
    + rewrite (held_inf n t Hn Vn). destruct s; cbn [h_atan2 cw]; eexists; (split; [reflexivity|]); destruct t; cbn [sgn];
      (split; [|split; [lra|split; intros; lra]]); try apply nearest_opp; first [apply (ok_q3 M A C2)|apply (ok_q1 M A C2)].
    + destruct (held_real n p Hn Vn) as (p' & Tp & Rp & Ep). rewrite Tp. destruct s; cbn [h_atan2 cw]; eexists; (split; [reflexivity|]).
      * pose proof (ok_pi M C) as NP. unfold qlt. destruct (Qle_bool 0 p') eqn:E.
        -- apply Qle_bool_iff, Qle_Rle in E. replace (Q2R 0) with 0 in E by (unfold Q2R; cbn; lra). cbn [negb sgn].
           destruct (Rlt_dec (Q2R p) 0); [lra|]. split; [exact NP|]. split; [lra|]. split; [reflexivity|intros; lra].
        -- assert (L : Q2R p' < 0). { apply Rnot_le_lt. intros K. assert (X : (0 <= p')%Q) by (apply Rle_Qle; replace (Q2R 0) with 0 by (unfold Q2R; cbn; lra); exact K). apply Qle_bool_iff in X. congruence. }
           cbn [negb sgn]. destruct (Rlt_dec (Q2R p) 0); [|lra]. split; [now apply nearest_opp|]. split; [lra|]. split; [intros; lra|intros _; apply Q2R_opp].
      * assert (Z : Q2R 0 = 0) by (unfold Q2R; cbn; lra). split; [|split; [lra|split; intros; lra]]. rewrite <- Z. apply nearest_self. apply (reprZ 0). lia.
  - destruct (at_val M A C C2 n x q Hn Hx Vx) as (l & w & E & R' & B). exists l. split; [exact E|]. unfold at_bound in B.
    destruct (val n) as [|s|p]; [elim B| |]; cbn [cw]; now rewrite <- B.
Qed.
(** least and greatest of the roundings *)
Lemma lt_fin a b : repr 128 a -> repr 128 b -> n_lt r (NR (Fin a)) (NR (Fin b)) = true <-> Q2R a < Q2R b.
Proof. intros Ha Hb. apply (n_lt_R (NR (Fin a)) (NR (Fin b)) Ha Hb). Qed.
Lemma least_ok l : (forall v, In v l -> exists q, v = NR (Fin q) /\ repr 128 q) -> forall q0, repr 128 q0 ->
  exists q, least (NR (Fin q0)) l = NR (Fin q) /\ In (NR (Fin q)) (NR (Fin q0) :: l) /\ forall q', In (NR (Fin q')) (NR (Fin q0) :: l) -> Q2R q <= Q2R q'.
Proof.
  induction l as [|v l IH]; intros H q0 R0.
  - exists q0. split; [reflexivity|]. split; [now left|]. intros q' [E|[]]. injection E as ->. lra.
  - destruct (H v (or_introl eq_refl)) as (q1 & -> & R1). unfold least. cbn [fold_left].
    assert (H' : forall v, In v l -> exists q, v = NR (Fin q) /\ repr 128 q) by (intros u Hu; apply H; now right).
    destruct (n_lt r (NR (Fin q1)) (NR (Fin q0))) eqn:E.
    + apply (lt_fin q1 q0 R1 R0) in E. destruct (IH H' q1 R1) as (q & E1 & I1 & L1). exists q. split; [exact E1|]. split; [now right|].
      intros q' [K|K]; [injection K as <-|now apply L1]. specialize (L1 q1 (or_introl eq_refl)). lra.
    + apply (not_true_iff _ _ (lt_fin q1 q0 R1 R0)) in E. destruct (IH H' q0 R0) as (q & E1 & I1 & L1). exists q. split; [exact E1|]. split; [destruct I1 as [I1|I1]; [now left|right; now right]|].
      intros q' [K|[K|K]]; [apply L1; now left| |apply L1; now right]. injection K as <-. specialize (L1 q0 (or_introl eq_refl)). lra.
Qed.
Lemma greatest_ok l : (forall v, In v l -> exists q, v = NR (Fin q) /\ repr 128 q) -> forall q0, repr 128 q0 ->
  exists q, greatest (NR (Fin q0)) l = NR (Fin q) /\ In (NR (Fin q)) (NR (Fin q0) :: l) /\ forall q', In (NR (Fin q')) (NR (Fin q0) :: l) -> Q2R q' <= Q2R q.
Proof.
  induction l as [|v l IH]; intros H q0 R0.
  - exists q0. split; [reflexivity|]. split; [now left|]. intros q' [E|[]]. injection E as ->. lra.
  - destruct (H v (or_introl eq_refl)) as (q1 & -> & R1). unfold greatest. cbn [fold_left].
    assert (H' : forall v, In v l -> exists q, v = NR (Fin q) /\ repr 128 q) by (intros u Hu; apply H; now right).
    destruct (n_lt r (NR (Fin q0)) (NR (Fin q1))) eqn:E.
    + apply (lt_fin q0 q1 R0 R1) in E. destruct (IH H' q1 R1) as (q & E1 & I1 & L1). exists q. split; [exact E1|]. split; [now right|].
      intros q' [K|K]; [injection K as <-|now apply L1]. specialize (L1 q1 (or_introl eq_refl)). lra.
    + apply (not_true_iff _ _ (lt_fin q0 q1 R0 R1)) in E. destruct (IH H' q0 R0) as (q & E1 & I1 & L1). exists q. split; [exact E1|]. split; [destruct I1 as [I1|I1]; [now left|right; now right]|].
      intros q' [K|[K|K]]; [apply L1; now left| |apply L1; now right]. injection K as <-. specialize (L1 q0 (or_introl eq_refl)). lra.
Qed.
(** the part after the special cases: corners in a band no wider than 3, the value between two of them *)
Lemma corners a b v (bl bh : Z) : held (lo a) -> held (hi a) -> held (lo b) -> held (hi b) ->
  (Z.abs bl <= 4)%Z -> (Z.abs bh <= 4)%Z -> (bl <= bh <= bl + 3)%Z ->
  let cs := [cw (val (lo a)) (val (lo b)); cw (val (lo a)) (val (hi b)); cw (val (hi a)) (val (lo b)); cw (val (hi a)) (val (hi b))] in
  (forall w, In w cs -> IZR bl <= w <= IZR bh) -> (exists w w', In w cs /\ In w' cs /\ w <= v <= w') ->
  memberR (let v0 := n_atan2 M A (lo a) (lo b) in
           let vs := [n_atan2 M A (lo a) (hi b); n_atan2 M A (hi a) (lo b); n_atan2 M A (hi a) (hi b)] in
           let l := least v0 vs in let h := greatest v0 vs in
           if n_gt r (n_sub r h l) (n_pi M) then Itv (npi M) (n_pi M) true true else widen M l h) v.
Proof.
  intros H1 H2 H3 H4 Bl Bh Bd cs Band (w & w' & Iw & Iw' & Lv).
  destruct (corner _ _ H1 H3) as (l1 & E1 & R1). destruct (corner _ _ H1 H4) as (l2 & E2 & R2).
  destruct (corner _ _ H2 H3) as (l3 & E3 & R3). destruct (corner _ _ H2 H4) as (l4 & E4 & R4). cbv zeta. rewrite E1, E2, E3, E4.
  assert (HV : forall u, In u [NR (Fin l2); NR (Fin l3); NR (Fin l4)] -> exists q, u = NR (Fin q) /\ repr 128 q).
  { intros u [<-|[<-|[<-|[]]]]; eexists; (split; [reflexivity|]); [apply (proj1 (proj1 R2))|apply (proj1 (proj1 R3))|apply (proj1 (proj1 R4))]. }
  destruct (least_ok _ HV l1 (proj1 (proj1 R1))) as (l & -> & Il & Ll). destruct (greatest_ok _ HV l1 (proj1 (proj1 R1))) as (h & -> & Ih & Lh).
  assert (RL : forall q, In (NR (Fin q)) [NR (Fin l1); NR (Fin l2); NR (Fin l3); NR (Fin l4)] -> exists u, In u cs /\ rounded q u).
  { intros q [E|[E|[E|[E|[]]]]]; injection E as <-; eexists; (split; [|eassumption]); unfold cs; cbn [In]; tauto. }
  assert (RC : forall u, In u cs -> exists q, In (NR (Fin q)) [NR (Fin l1); NR (Fin l2); NR (Fin l3); NR (Fin l4)] /\ rounded q u).
  { unfold cs. intros u I0. cbn [In] in I0. destruct I0 as [E|[E|[E|[E|E]]]]; [rewrite <- E; exists l1|rewrite <- E; exists l2|rewrite <- E; exists l3|rewrite <- E; exists l4|elim E]; (split; [|assumption]); cbn [In]; tauto. }
  destruct (RL l Il) as (wl & Iwl & Rl). destruct (RL h Ih) as (wh & Iwh & Rh).
  assert (BND : forall q u, rounded q u -> IZR bl <= u <= IZR bh -> IZR bl <= Q2R q <= IZR bh).
  { intros q u (N & _) B. split; [rewrite <- Q2R_Z; apply (nearest_ge q u); [exact N|apply reprZ; lia|rewrite Q2R_Z; lra]|rewrite <- Q2R_Z; apply (nearest_le q u); [exact N|apply reprZ; lia|rewrite Q2R_Z; lra]]. }
  pose proof (BND l wl Rl (Band wl Iwl)) as BL. pose proof (BND h wh Rh (Band wh Iwh)) as BH.
  assert (AL : around (NR (Fin l)) (inject_Z bl) (inject_Z bh)) by (split; [exact (proj1 (proj1 Rl))|exists l; split; [reflexivity|rewrite !Q2R_Z; exact BL]]).
  assert (AH : around (NR (Fin h)) (inject_Z bl) (inject_Z bh)) by (split; [exact (proj1 (proj1 Rh))|exists h; split; [reflexivity|rewrite !Q2R_Z; exact BH]]).
  assert (BZ : IZR bh <= IZR bl + 3) by (rewrite <- plus_IZR; apply IZR_le; lia).
  assert (SUB : around (n_sub r (NR (Fin h)) (NR (Fin l))) (inject_Z (-3)) (inject_Z 3)).
  { apply (around_sub (NR (Fin h)) (NR (Fin l)) (inject_Z bl) (inject_Z bh) (inject_Z bl) (inject_Z bh) (inject_Z (-3)) (inject_Z 3)).
    - left. exists (Fin h). reflexivity.
    - exact AH.
    - exact AL.
    - apply reprZ. lia.
    - apply reprZ. lia.
    - rewrite !Q2R_Z. lra.
    - rewrite !Q2R_Z. lra. }
  destruct SUB as (HS & qs & VS & BS). destruct (pi_around M C) as (HP & qp & VP & BP).
  assert (G : n_gt r (n_sub r (NR (Fin h)) (NR (Fin l))) (n_pi M) = false).
  { apply (not_true_iff _ _ (n_gt_R _ _ HS HP)). rewrite VS, VP. cbn. rewrite !Q2R_Z in BS. replace (Q2R 3) with 3 in BP by (unfold Q2R; cbn; lra). lra. }
  rewrite G. rewrite (widen_eq M C l h wl wh Rl Rh).
  destruct (RC w Iw) as (qw & Iqw & Rw). destruct (RC w' Iw') as (qw' & Iqw' & Rw').
  pose proof (under M C l wl qw w (proj1 Rl) (proj1 Rw) (Ll qw Iqw)). pose proof (over M C h wh qw' w' (proj1 Rh) (proj1 Rw') (Lh qw' Iqw')).
  split; cbn; lra.
Qed.
End A.

(** ** the quadrants *)
Definition nn (v : xr) : Prop := match v with Fin p => 0 <= Q2R p | Inf s => s = false | Nan => False end.
Definition np (v : xr) : Prop := match v with Fin p => Q2R p <= 0 | Inf s => s = true | Nan => False end.
Definition ps (v : xr) : Prop := match v with Fin p => 0 < Q2R p | Inf s => s = false | Nan => False end.
Definition ng (v : xr) : Prop := match v with Fin p => Q2R p < 0 | Inf s => s = true | Nan => False end.
Lemma ps_nn v : ps v -> nn v. Proof. destruct v as [|s|p]; cbn; auto. lra. Qed.
Lemma ng_np v : ng v -> np v. Proof. destruct v as [|s|p]; cbn; auto. lra. Qed.
Lemma lo_ge a y z : usable a -> memberR a y -> (forall u, memberR a u -> z <= u) -> exists p, val (lo a) = Fin p /\ z <= Q2R p.
Proof.
  intros (A1 & A2 & W) Hy D. pose proof Hy as (L & H). destruct (val (lo a)) as [|s|p] eqn:V; [elim L| |].
  - cbn in L. subst s. destruct (below_exists a y z W Hy ltac:(rewrite V; reflexivity)) as (u & Mu & Lu). specialize (D u Mu). lra.
  - exists p. split; [reflexivity|]. apply Rnot_lt_le. intros K. destruct (below_exists a y z W Hy ltac:(rewrite V; exact K)) as (u & Mu & Lu). specialize (D u Mu). lra.
Qed.
Lemma hi_le a y z : usable a -> memberR a y -> (forall u, memberR a u -> u <= z) -> exists p, val (hi a) = Fin p /\ Q2R p <= z.
Proof.
  intros (A1 & A2 & W) Hy D. pose proof Hy as (L & H). destruct (val (hi a)) as [|s|p] eqn:V; [elim H| |].
  - cbn in H. subst s. destruct (above_exists a y z W Hy ltac:(rewrite V; reflexivity)) as (u & Mu & Lu). specialize (D u Mu). lra.
  - exists p. split; [reflexivity|]. apply Rnot_lt_le. intros K. destruct (above_exists a y z W Hy ltac:(rewrite V; exact K)) as (u & Mu & Lu). specialize (D u Mu). lra.
Qed.
Lemma pi_b : 3 < PI <= 4. Proof. pose proof PI2_3_2. pose proof PI_4. lra. Qed.
Ltac xs := repeat match goal with v : xr |- _ => destruct v as [|[]|] end; cbn in *; try contradiction; try discriminate.
Lemma cw_I y x : nn y -> nn x -> 0 <= cw y x <= 2.
Proof.
  pose proof pi_b. destruct y as [|[]|p], x as [|[]|q]; cbn; try contradiction; try discriminate; intros Hy Hx; try lra.
  pose proof (angle_right (Q2R p) (Q2R q) Hx) as B. split; [|lra].
  replace 0 with (angle 0 (Q2R q)); [now apply angle_inc|]. unfold angle. destruct (Rlt_dec 0 (Q2R q)); [unfold Rdiv; now rewrite Rmult_0_l, atan_0|].
  destruct (Rlt_dec (Q2R q) 0); [lra|]. destruct (Rlt_dec 0 0); lra.
Qed.
Lemma cw_IV y x : np y -> nn x -> -2 <= cw y x <= 0.
Proof.
  pose proof pi_b. destruct y as [|[]|p], x as [|[]|q]; cbn; try contradiction; try discriminate; intros Hy Hx; try lra.
  pose proof (angle_right (Q2R p) (Q2R q) Hx) as B. split; [lra|].
  replace 0 with (angle 0 (Q2R q)); [now apply angle_inc|]. unfold angle. destruct (Rlt_dec 0 (Q2R q)); [unfold Rdiv; now rewrite Rmult_0_l, atan_0|].
  destruct (Rlt_dec (Q2R q) 0); [lra|]. destruct (Rlt_dec 0 0); lra.
Qed.
Lemma angle_y0 y : 0 < y -> angle y 0 = PI / 2.
Proof. intros H. unfold angle. destruct (Rlt_dec 0 0); [lra|]. destruct (Rlt_dec 0 y); [reflexivity|lra]. Qed.
Lemma angle_n0 y : y < 0 -> angle y 0 = - (PI / 2).
Proof. intros H. unfold angle. destruct (Rlt_dec 0 0); [lra|]. destruct (Rlt_dec 0 y); [lra|]. destruct (Rlt_dec y 0); lra. Qed.
Lemma angle_II y x : 0 <= y -> x <= 0 -> 0 < y \/ x < 0 -> PI / 2 <= angle y x <= PI.
Proof.
  intros Hy Hx D. pose proof pi_b. destruct (Rle_lt_or_eq_dec x 0 Hx) as [K| ->]; [now apply angle_top|]. rewrite angle_y0 by lra. lra.
Qed.
Lemma angle_III y x : y < 0 -> x <= 0 -> - PI < angle y x <= - (PI / 2).
Proof.
  intros Hy Hx. pose proof pi_b. destruct (Rle_lt_or_eq_dec x 0 Hx) as [K| ->]; [now apply angle_bottom|]. rewrite angle_n0 by lra. lra.
Qed.
Lemma cw_II y x : nn y -> np x -> ps y \/ ng x -> 1 <= cw y x <= 4.
Proof.
  pose proof pi_b. destruct y as [|[]|p], x as [|[]|q]; cbn; try contradiction; try discriminate; intros Hy Hx D; try lra.
  - destruct (Rlt_dec (Q2R p) 0); lra.
  - pose proof (angle_II (Q2R p) (Q2R q) Hy Hx D). lra.
Qed.
Lemma cw_III y x : ng y -> np x -> -4 <= cw y x <= -1.
Proof.
  pose proof pi_b. destruct y as [|[]|p], x as [|[]|q]; cbn; try contradiction; try discriminate; intros Hy Hx; try lra.
  - destruct (Rlt_dec (Q2R p) 0); lra.
  - pose proof (angle_III (Q2R p) (Q2R q) Hy Hx). lra.
Qed.
(** *** monotonicity in the abscissa *)
Lemma div_x y x x' : 0 <= y -> 0 < x -> x <= x' -> y / x' <= y / x.
Proof. intros. apply Rmult_le_compat_l; [assumption|]. now apply Rinv_le_contravar. Qed.
Lemma angle_0x x : 0 <= x -> angle 0 x = 0.
Proof.
  intros H. unfold angle. destruct (Rlt_dec 0 x); [unfold Rdiv; now rewrite Rmult_0_l, atan_0|]. destruct (Rlt_dec x 0); [lra|]. destruct (Rlt_dec 0 0); lra.
Qed.
Lemma ax_I y x x' : 0 <= y -> 0 <= x -> x <= x' -> angle y x' <= angle y x.
Proof.
  intros Hy Hx L. destruct (Rle_lt_or_eq_dec 0 y Hy) as [P| <-]; [|rewrite !angle_0x by lra; lra].
  destruct (Rle_lt_or_eq_dec 0 x Hx) as [K| <-].
  - rewrite !angle_pos by lra. apply atan_le. now apply div_x.
  - rewrite (angle_y0 y P). apply (angle_right y x'). lra.
Qed.
Lemma ax_IV y x x' : y <= 0 -> 0 <= x -> x <= x' -> angle y x <= angle y x'.
Proof.
  intros Hy Hx L. destruct (Rle_lt_or_eq_dec y 0 Hy) as [P| ->]; [|rewrite !angle_0x by lra; lra].
  destruct (Rle_lt_or_eq_dec 0 x Hx) as [K| <-].
  - rewrite !angle_pos by lra. apply atan_le. pose proof (div_x (- y) x x' ltac:(lra) K L) as D. replace (- y / x') with (- (y / x')) in D by (field; lra). replace (- y / x) with (- (y / x)) in D by (field; lra). lra.
  - rewrite (angle_n0 y P). apply (angle_right y x'). lra.
Qed.
Lemma ax_II y x x' : 0 <= y -> x <= x' -> x' <= 0 -> 0 < y \/ x' < 0 -> angle y x' <= angle y x.
Proof.
  intros Hy L Hx D. destruct (Rle_lt_or_eq_dec x' 0 Hx) as [K| ->].
  - rewrite !angle_2 by lra. apply Rplus_le_compat_r, atan_le. pose proof (div_x y (- x') (- x) Hy ltac:(lra) ltac:(lra)) as E.
    replace (y / - x) with (- (y / x)) in E by (field; lra). replace (y / - x') with (- (y / x')) in E by (field; lra). lra.
  - rewrite angle_y0 by lra. apply angle_II; lra.
Qed.
Lemma ax_III y x x' : y < 0 -> x <= x' -> x' <= 0 -> angle y x <= angle y x'.
Proof.
  intros Hy L Hx. destruct (Rle_lt_or_eq_dec x' 0 Hx) as [K| ->].
  - rewrite !angle_3 by lra. apply Rplus_le_compat_r, atan_le. pose proof (div_x (- y) (- x') (- x) ltac:(lra) ltac:(lra) ltac:(lra)) as E.
    replace (- y / - x) with (y / x) in E by (field; lra). replace (- y / - x') with (y / x') in E by (field; lra). lra.
  - rewrite angle_n0 by lra. apply angle_III; lra.
Qed.
Lemma dec_II y y' x : x <= 0 -> 0 <= y -> y <= y' -> 0 < y \/ x < 0 -> angle y' x <= angle y x.
Proof.
  intros Hx Hy L D. destruct (Rle_lt_or_eq_dec x 0 Hx) as [K| ->]; [apply angle_dec; auto|]. rewrite !angle_y0 by lra. lra.
Qed.
Lemma dec_III y y' x : x <= 0 -> y' < 0 -> y <= y' -> angle y' x <= angle y x.
Proof.
  intros Hx Hy L. destruct (Rle_lt_or_eq_dec x 0 Hx) as [K| ->]; [apply angle_dec; auto|]. rewrite !angle_n0 by lra. lra.
Qed.
(** *** the value lies between two corners *)
Section Q.
Variables (y1 y2 x1 x2 : xr) (c1 c2 d1 d2 : bool) (y x : R).
Hypotheses (L1 : lowR y1 c1 y) (H1 : highR y2 c2 y) (L2 : lowR x1 d1 x) (H2 : highR x2 d2 x).
Lemma btw_I : nn y1 -> nn x1 -> cw y1 x2 <= angle y x <= cw y2 x1.
Proof.
  pose proof pi_b. intros N1 N2. destruct y1 as [|[]|p1]; cbn in L1, N1; try contradiction; try discriminate. destruct x1 as [|[]|q1]; cbn in L2, N2; try contradiction; try discriminate.
  assert (P1 : Q2R p1 <= y) by (destruct c1; lra). assert (Q1 : Q2R q1 <= x) by (destruct d1; lra). pose proof (angle_right y x ltac:(lra)) as AR. split.
  - destruct x2 as [|[]|q2]; cbn in H2; try contradiction; try discriminate; cbn [cw].
    + rewrite <- (angle_0x x) by lra. apply angle_inc; lra.
    + assert (Q2 : x <= Q2R q2) by (destruct d2; lra). apply Rle_trans with (angle (Q2R p1) x); [apply ax_I; lra|apply angle_inc; lra].
  - destruct y2 as [|[]|p2]; cbn in H1; try contradiction; try discriminate; cbn [cw]; [lra|].
    assert (P2 : y <= Q2R p2) by (destruct c2; lra). apply Rle_trans with (angle (Q2R p2) x); [apply angle_inc; lra|apply ax_I; lra].
Qed.
Lemma btw_IV : np y2 -> nn x1 -> cw y1 x1 <= angle y x <= cw y2 x2.
Proof.
  pose proof pi_b. intros N1 N2. destruct y2 as [|[]|p2]; cbn in H1, N1; try contradiction; try discriminate. destruct x1 as [|[]|q1]; cbn in L2, N2; try contradiction; try discriminate.
  assert (P2 : y <= Q2R p2) by (destruct c2; lra). assert (Q1 : Q2R q1 <= x) by (destruct d1; lra). pose proof (angle_right y x ltac:(lra)) as AR. split.
  - destruct y1 as [|[]|p1]; cbn in L1; try contradiction; try discriminate; cbn [cw]; [lra|].
    assert (P1 : Q2R p1 <= y) by (destruct c1; lra). apply Rle_trans with (angle (Q2R p1) x); [apply ax_IV; lra|apply angle_inc; lra].
  - destruct x2 as [|[]|q2]; cbn in H2; try contradiction; try discriminate; cbn [cw].
    + rewrite <- (angle_0x x) by lra. apply angle_inc; lra.
    + assert (Q2 : x <= Q2R q2) by (destruct d2; lra). apply Rle_trans with (angle (Q2R p2) x); [apply angle_inc; lra|apply ax_IV; lra].
Qed.
Lemma btw_II : nn y1 -> np x2 -> ps y1 \/ ng x2 -> cw y2 x2 <= angle y x <= cw y1 x1.
Proof.
  pose proof pi_b. intros N1 N2 D. destruct y1 as [|[]|p1]; cbn in L1, N1, D; try contradiction; try discriminate. destruct x2 as [|[]|q2]; cbn in H2, N2, D; try contradiction; try discriminate.
  assert (P1 : Q2R p1 <= y) by (destruct c1; lra). assert (Q2 : x <= Q2R q2) by (destruct d2; lra). pose proof (angle_II y x ltac:(lra) ltac:(lra) ltac:(lra)) as AR. split.
  - destruct y2 as [|[]|p2]; cbn in H1; try contradiction; try discriminate; cbn [cw]; [lra|].
    assert (P2 : y <= Q2R p2) by (destruct c2; lra). apply Rle_trans with (angle y (Q2R q2)); [apply dec_II; lra|apply ax_II; lra].
  - destruct x1 as [|[]|q1]; cbn in L2; try contradiction; try discriminate; cbn [cw].
    + destruct (Rlt_dec (Q2R p1) 0); lra.
    + assert (Q1 : Q2R q1 <= x) by (destruct d1; lra). apply Rle_trans with (angle (Q2R p1) x); [apply dec_II; lra|apply ax_II; lra].
Qed.
Lemma btw_III : ng y2 -> np x2 -> cw y2 x1 <= angle y x <= cw y1 x2.
Proof.
  pose proof pi_b. intros N1 N2. destruct y2 as [|[]|p2]; cbn in H1, N1; try contradiction; try discriminate. destruct x2 as [|[]|q2]; cbn in H2, N2; try contradiction; try discriminate.
  assert (P2 : y <= Q2R p2) by (destruct c2; lra). assert (Q2 : x <= Q2R q2) by (destruct d2; lra). pose proof (angle_III y x ltac:(lra) ltac:(lra)) as AR. split.
  - destruct x1 as [|[]|q1]; cbn in L2; try contradiction; try discriminate; cbn [cw].
    + destruct (Rlt_dec (Q2R p2) 0); lra.
    + assert (Q1 : Q2R q1 <= x) by (destruct d1; lra). apply Rle_trans with (angle (Q2R p2) x); [apply ax_III; lra|apply dec_III; lra].
  - destruct y1 as [|[]|p1]; cbn in L1; try contradiction; try discriminate; cbn [cw]; [lra|].
    assert (P1 : Q2R p1 <= y) by (destruct c1; lra). apply Rle_trans with (angle y (Q2R q2)); [apply ax_III; lra|apply dec_III; lra].
Qed.
End Q.

Section A2.
Context (M : mpfr) (A : mpfr2) (C : correct M) (C2 : correct2 M A).
Lemma no_cross l h : held l -> held h -> nn (val l) \/ np (val h) -> n_lt r l (NI 0) && n_gt r h (NI 0) = false.
Proof.
  intros Hl Hh [N|N].
  - replace (n_lt r l (NI 0)) with false; [reflexivity|]. symmetry. apply (not_true_iff _ _ (lt_I l 0 Hl ltac:(lia))).
    destruct (val l) as [|s|p]; cbn in *; try contradiction; [congruence|lra].
  - replace (n_gt r h (NI 0)) with false; [apply andb_false_r|]. symmetry. apply (not_true_iff _ _ (gt_I h 0 Hh ltac:(lia))).
    destruct (val h) as [|s|p]; cbn in *; try contradiction; [congruence|lra].
Qed.
Lemma box a b v (bl bh : Z) : held (lo a) -> held (hi a) -> held (lo b) -> held (hi b) -> isEmptyI r a = false -> isEmptyI r b = false ->
  nn (val (lo a)) \/ np (val (hi a)) -> nn (val (lo b)) \/ np (val (hi b)) ->
  (Z.abs bl <= 4)%Z -> (Z.abs bh <= 4)%Z -> (bl <= bh <= bl + 3)%Z ->
  let cs := [cw (val (lo a)) (val (lo b)); cw (val (lo a)) (val (hi b)); cw (val (hi a)) (val (lo b)); cw (val (hi a)) (val (hi b))] in
  (forall w, In w cs -> IZR bl <= w <= IZR bh) -> (exists w w', In w cs /\ In w' cs /\ w <= v <= w') ->
  ps (val (lo a)) \/ ng (val (hi a)) \/ ps (val (lo b)) \/ ng (val (hi b)) \/ - (PI / 2) <= v <= PI / 2 ->
  exists c, i_atan2 M A a b = Ok c /\ memberR c v.
Proof.
  intros H1 H2 H3 H4 Ea Eb Na Nb Bl Bh Bd cs Band Btw Z. unfold i_atan2. rewrite Ea, Eb. cbn [orb]. cbv zeta.
  rewrite (no_cross _ _ H1 H2 Na), (no_cross _ _ H3 H4 Nb). cbn [andb].
  destruct (n_le r (lo a) (NI 0) && n_ge r (hi a) (NI 0) && (n_le r (lo b) (NI 0) && n_ge r (hi b) (NI 0))) eqn:E.
  - apply andb_true_iff in E. destruct E as [E E']. apply andb_true_iff in E, E'. destruct E as [E1 E2], E' as [E3 E4].
    apply (le_I _ 0 H1 ltac:(lia)) in E1. apply (ge_I _ 0 H2 ltac:(lia)) in E2. apply (le_I _ 0 H3 ltac:(lia)) in E3. apply (ge_I _ 0 H4 ltac:(lia)) in E4.
    destruct Z as [Z|[Z|[Z|[Z|Z]]]].
    + destruct (val (lo a)) as [|s|p]; cbn in Z; try contradiction; [congruence|lra].
    + destruct (val (hi a)) as [|s|p]; cbn in Z; try contradiction; [congruence|lra].
    + destruct (val (lo b)) as [|s|p]; cbn in Z; try contradiction; [congruence|lra].
    + destruct (val (hi b)) as [|s|p]; cbn in Z; try contradiction; [congruence|lra].
    + eexists. split; [reflexivity|]. destruct (pi_around M C) as (HP & qp & VP & BP). replace (Q2R 3) with 3 in BP by (unfold Q2R; cbn; lra). cbn in VP. injection VP as <-.
      pose proof pi_b. split; cbn; [rewrite Q2R_opp|]; lra.
  - pose proof (corners M A C C2 a b v bl bh H1 H2 H3 H4 Bl Bh Bd Band Btw) as K. cbv zeta in K.
    destruct (n_gt r _ _); eexists; (split; [reflexivity|exact K]).
Qed.
End A2.

(** every angle of a point of the box is in the result, if the points are all in one quadrant and, left of the
    ordinate axis, the box keeps away from the origin and the points are on one side of the abscissa *)
Definition one_quadrant (a b : interval) : Prop :=
  ((forall x, memberR b x -> 0 <= x) /\ ((forall y, memberR a y -> 0 <= y) \/ (forall y, memberR a y -> y <= 0))) \/
  ((forall x, memberR b x -> x <= 0) /\ (exists p, 0 < p /\ forall y, memberR a y -> p <= y)) \/
  ((exists q, q < 0 /\ forall x, memberR b x -> x <= q) /\ (forall y, memberR a y -> 0 <= y)) \/
  ((forall x, memberR b x -> x <= 0) /\ (exists p, p < 0 /\ forall y, memberR a y -> y <= p)).
Theorem C92_atan2_box_partial M A a b : correct M -> correct2 M A -> usable a -> usable b -> one_quadrant a b ->
  exists c, i_atan2 M A a b = Ok c /\ forall y x, memberR a y -> memberR b x -> memberR c (angle y x).
Proof.
  intros C C2 Ua Ub D. destruct (isEmptyI r a) eqn:Ea.
  { exists EmptyI. split; [unfold i_atan2; now rewrite Ea|]. intros y x Hy _. rewrite (member_open a y Ua Hy) in Ea. discriminate. }
  destruct (isEmptyI r b) eqn:Eb.
  { exists EmptyI. split; [unfold i_atan2; now rewrite Ea, Eb|]. intros y x _ Hx. rewrite (member_open b x Ub Hx) in Eb. discriminate. }
  assert (K : forall y x, memberR a y -> memberR b x -> exists c, i_atan2 M A a b = Ok c /\ memberR c (angle y x)).
  { intros y x Hy Hx. pose proof Ua as (H1 & H2 & _). pose proof Ub as (H3 & H4 & _). pose proof Hy as (L1 & G1). pose proof Hx as (L2 & G2). pose proof pi_b as PB.
    destruct D as [(Dx & [Dy|Dy])|[(Dx & p0 & P0 & Dy)|[((q0 & Q0 & Dx) & Dy)|(Dx & p0 & P0 & Dy)]]].
    - destruct (lo_ge a y 0 Ua Hy Dy) as (p & Vp & Kp). destruct (lo_ge b x 0 Ub Hx Dx) as (q & Vq & Kq).
      assert (N1 : nn (val (lo a))) by (rewrite Vp; exact Kp). assert (N2 : nn (val (lo b))) by (rewrite Vq; exact Kq). specialize (Dy y Hy). specialize (Dx x Hx).
      assert (N3 : nn (val (hi a))) by (destruct (val (hi a)) as [|s|w]; cbn in *; auto; destruct (rc a); lra).
      assert (N4 : nn (val (hi b))) by (destruct (val (hi b)) as [|s|w]; cbn in *; auto; destruct (rc b); lra).
      apply (box M A C C2 a b (angle y x) 0 2); auto; try lia.
      + intros w [<-|[<-|[<-|[<-|[]]]]]; now apply cw_I.
      + exists (cw (val (lo a)) (val (hi b))), (cw (val (hi a)) (val (lo b))). split; [cbn; tauto|]. split; [cbn; tauto|]. eapply btw_I; eassumption.
      + right. right. right. right. now apply angle_right.
    - destruct (hi_le a y 0 Ua Hy Dy) as (p & Vp & Kp). destruct (lo_ge b x 0 Ub Hx Dx) as (q & Vq & Kq).
      assert (N1 : np (val (hi a))) by (rewrite Vp; exact Kp). assert (N2 : nn (val (lo b))) by (rewrite Vq; exact Kq). specialize (Dy y Hy). specialize (Dx x Hx).
      assert (N3 : np (val (lo a))) by (destruct (val (lo a)) as [|s|w]; cbn in *; auto; destruct (lc a); lra).
      assert (N4 : nn (val (hi b))) by (destruct (val (hi b)) as [|s|w]; cbn in *; auto; destruct (rc b); lra).
      apply (box M A C C2 a b (angle y x) (-2) 0); auto; try lia.
      + intros w [<-|[<-|[<-|[<-|[]]]]]; now apply cw_IV.
      + exists (cw (val (lo a)) (val (lo b))), (cw (val (hi a)) (val (hi b))). split; [cbn; tauto|]. split; [cbn; tauto|]. eapply btw_IV; eassumption.
      + right. right. right. right. now apply angle_right.
    - destruct (lo_ge a y p0 Ua Hy Dy) as (p & Vp & Kp). destruct (hi_le b x 0 Ub Hx Dx) as (q & Vq & Kq).
      assert (S1 : ps (val (lo a))) by (rewrite Vp; cbn; lra). pose proof (ps_nn _ S1) as N1. assert (N2 : np (val (hi b))) by (rewrite Vq; exact Kq). specialize (Dy y Hy). specialize (Dx x Hx).
      assert (S3 : ps (val (hi a))) by (destruct (val (hi a)) as [|s|w]; cbn in *; auto; destruct (rc a); lra). pose proof (ps_nn _ S3) as N3.
      assert (N4 : np (val (lo b))) by (destruct (val (lo b)) as [|s|w]; cbn in *; auto; destruct (lc b); lra).
      apply (box M A C C2 a b (angle y x) 1 4); auto; try lia.
      + intros w [<-|[<-|[<-|[<-|[]]]]]; apply cw_II; auto.
      + exists (cw (val (hi a)) (val (hi b))), (cw (val (lo a)) (val (lo b))). split; [cbn; tauto|]. split; [cbn; tauto|]. eapply btw_II; eauto.
    - destruct (lo_ge a y 0 Ua Hy Dy) as (p & Vp & Kp). destruct (hi_le b x q0 Ub Hx Dx) as (q & Vq & Kq).
      assert (N1 : nn (val (lo a))) by (rewrite Vp; exact Kp). assert (S2 : ng (val (hi b))) by (rewrite Vq; cbn; lra). pose proof (ng_np _ S2) as N2. specialize (Dy y Hy). specialize (Dx x Hx).
      assert (N3 : nn (val (hi a))) by (destruct (val (hi a)) as [|s|w]; cbn in *; auto; destruct (rc a); lra).
      assert (S4 : ng (val (lo b))) by (destruct (val (lo b)) as [|s|w]; cbn in *; auto; destruct (lc b); lra). pose proof (ng_np _ S4) as N4.
      apply (box M A C C2 a b (angle y x) 1 4); auto; try lia.
      + intros w [<-|[<-|[<-|[<-|[]]]]]; apply cw_II; auto.
      + exists (cw (val (hi a)) (val (hi b))), (cw (val (lo a)) (val (lo b))). split; [cbn; tauto|]. split; [cbn; tauto|]. eapply btw_II; eauto.
    - destruct (hi_le a y p0 Ua Hy Dy) as (p & Vp & Kp). destruct (hi_le b x 0 Ub Hx Dx) as (q & Vq & Kq).
      assert (S1 : ng (val (hi a))) by (rewrite Vp; cbn; lra). pose proof (ng_np _ S1) as N1. assert (N2 : np (val (hi b))) by (rewrite Vq; exact Kq). specialize (Dy y Hy). specialize (Dx x Hx).
      assert (S3 : ng (val (lo a))) by (destruct (val (lo a)) as [|s|w]; cbn in *; auto; destruct (lc a); lra).
      assert (N4 : np (val (lo b))) by (destruct (val (lo b)) as [|s|w]; cbn in *; auto; destruct (lc b); lra).
      apply (box M A C C2 a b (angle y x) (-4) (-1)); auto; try lia.
      + intros w [<-|[<-|[<-|[<-|[]]]]]; now apply cw_III.
      + exists (cw (val (hi a)) (val (lo b))), (cw (val (lo a)) (val (hi b))). split; [cbn; tauto|]. split; [cbn; tauto|]. eapply btw_III; eassumption. }
  destruct (mem_ex a Ua Ea) as (y0 & Hy0). destruct (mem_ex b Ub Eb) as (x0 & Hx0). destruct (K y0 x0 Hy0 Hx0) as (c & Ec & _).
  exists c. split; [exact Ec|]. intros y x Hy Hx. destruct (K y x Hy Hx) as (c' & Ec' & Hc). congruence.
Qed.
Print Assumptions C92_atan2_box_partial.
(** Interval::operate with the kind atan2 is this *)
Theorem C92_atan2_operate M A dbg a b n : usable a -> usable b -> (exists y, memberR a y) -> (exists x, memberR b x) ->
  operateN M (i_atan2N M A) NT_ATAN2 a n = i_atan2N M A a n /\ operate2 M (i_atan2 M A) dbg NT_ATAN2 a b = i_atan2 M A a b.
Proof.
  intros Ua Ub (y & Hy) (x & Hx). unfold operateN, operate2. rewrite (member_open a y Ua Hy), (member_open b x Ub Hx). split; reflexivity.
Qed.
Print Assumptions C92_atan2_operate.
(** non-vacuity: the angle of (-1, 1) is in the result for [1,2] over [-3,-1] *)
Example atan2_box_ex : exists c, i_atan2 M0 A0 (iv 1 2) (iv (-3) (-1)) = Ok c /\ memberR c (3 * PI / 4).
Proof.
  destruct (C92_atan2_box_partial M0 A0 (iv 1 2) (iv (-3) (-1)) M0_correct C92_atan2_exists) as (c & E & H).
  - repeat split; cbn; lia || exact I.
  - repeat split; cbn; lia || exact I.
  - right. left. split; [intros x (_ & B); cbn in B; unfold Q2R in B; cbn in B; lra|]. exists 1. split; [lra|]. intros y (B & _). cbn in B. unfold Q2R in B. cbn in B. lra.
  - exists c. split; [exact E|]. replace (3 * PI / 4) with (angle 1 (-1)); [apply H; split; cbn; unfold Q2R; cbn; lra|].
    rewrite angle_2 by lra. replace (1 / -1) with (- (1)) by lra. rewrite atan_opp, atan_1. lra.
Qed.
