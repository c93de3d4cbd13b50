(** C94: the simple accessors of Interval. *)
From Coq Require Import QArith Qround Qabs ZArith List Bool Lia Lqa.
From Verif Require Import Base NumModel RoundModel NumSpec NumProofs NumMore PropsNum.
Open Scope Z_scope.
Local Notation R := rn128.

(** ** equality: the same set *)
Lemma ltX_irr x y : ltX x y -> ltX y x -> False.
Proof. destruct x as [|[]|x], y as [|[]|y]; cbn; try tauto. intros H K. lra. Qed.
Lemma ltX_neq x y : ltX x y -> eqX x y -> False.
Proof. destruct x as [|[]|x], y as [|[]|y]; cbn; try tauto; try discriminate. intros H K. lra. Qed.
Lemma lcut_eq_of l c m d : lwf l c -> lwf m d -> ltighter l c m d -> ltighter m d l c -> eqX l m /\ c = d.
Proof.
  intros A B [H|(H & K)] [H'|(H' & K')].
  - exfalso. exact (ltX_irr _ _ H H').
  - exfalso; first [exact (ltX_neq _ _ H H')|eapply ltX_neq; [eassumption|apply eqX_sym; assumption]].
  - exfalso; first [exact (ltX_neq _ _ H' H)|eapply ltX_neq; [eassumption|apply eqX_sym; assumption]].
  - split; [first [exact H|now apply eqX_sym]|]. destruct c, d; try reflexivity; exfalso; destruct K, K'; congruence.
Qed.
Section E.
Set Default Proof Using "All".
Context (P : number -> Prop) (Pn : forall a, P a -> val a <> Nan).
Context (Plt : forall a b, P a -> P b -> n_lt R a b = xlt (val a) (val b)) (Peq : forall a b, P a -> P b -> n_eq R a b = xeq (val a) (val b))
  (Ple : forall a b, P a -> P b -> n_le R a b = xle (val a) (val b)).
Notation PIP := (NumProofs.PI P).
Lemma eqb_x a b : PIP a -> PIP b -> i_eqb R a b = true <-> eqX (val (lo a)) (val (lo b)) /\ eqX (val (hi a)) (val (hi b)) /\ lc a = lc b /\ rc a = rc b.
Proof. intros (A & B & _) (C & D & _). unfold i_eqb. rewrite !andb_true_iff, !Peq, !xeq_iff, !eqb_true_iff by assumption. tauto. Qed.
Lemma eqb_set a b : PIP a -> PIP b -> inhabited a -> i_eqb R a b = true <-> forall q, member a q <-> member b q.
Proof.
  intros A B N. rewrite (eqb_x a b A B). split.
  - intros (E1 & E2 & E3 & E4) q. unfold member. change (above a q) with (abv (val (lo a)) (lc a) q). change (below a q) with (blw (val (hi a)) (rc a) q).
    change (above b q) with (abv (val (lo b)) (lc b) q). change (below b q) with (blw (val (hi b)) (rc b) q). rewrite E3, E4.
    rewrite (abv_eqX _ _ (lc b) q E1), (blw_eqX _ _ (rc b) q E2). reflexivity.
  - intros H. assert (N' : inhabited b) by (destruct N as (q & Hq); exists q; now apply H).
    destruct (proj2 (incl_x R P Pn Plt Peq Ple a b A B N) (fun q => proj1 (H q))) as (L1 & H1). destruct (proj2 (incl_x R P Pn Plt Peq Ple b a B A N') (fun q => proj2 (H q))) as (L2 & H2).
    destruct A as (_ & _ & Wa). destruct B as (_ & _ & Wb). destruct Wa as (Wa1 & Wa2), Wb as (Wb1 & Wb2).
    destruct (lcut_eq_of _ _ _ _ Wa1 Wb1 L1 L2) as (E1 & E3).
    assert (E2 : eqX (val (hi a)) (val (hi b)) /\ rc a = rc b).
    { destruct H1 as [K|(K & M)], H2 as [K'|(K' & M')]; try (exfalso; eapply ltX_irr; eassumption); try (exfalso; eapply ltX_neq; [eassumption|now apply eqX_sym]).
      split; [exact K|]. destruct (rc a), (rc b); try reflexivity; exfalso; destruct M, M'; congruence. }
    tauto.
Qed.
(** ** points *)
Lemma point_x a : PIP a -> inhabited a -> (NumModel.isPoint R a = true <-> exists q, forall p, member a p <-> (p == q)%Q).
Proof.
  intros A (w & Hw). pose proof A as (A1 & A2 & Wl & Wh). unfold isPoint. rewrite Peq by assumption. rewrite xeq_iff.
  unfold member, above, below in *. split.
  - intros E. exists w. intros p. destruct (val (lo a)) as [|s|x]; [contradiction| |].
    + destruct (val (hi a)) as [|s'|y]; cbn in *; try contradiction. destruct Wl as (-> & _), Wh as (-> & _). discriminate E.
    + destruct (val (hi a)) as [|s'|y]; cbn in *; try contradiction. destruct (lc a), (rc a); unfold leX, ltX, eqX in *; (split; [intros (U & V); lra|intros U; split; first [lra|right; lra]]).
  - intros (q & H). assert (Hq : (w == q)%Q) by now apply H.
    destruct (val (lo a)) as [|s|x]; [contradiction| |]; (destruct (val (hi a)) as [|s'|y]; [contradiction| |]); cbn in Wl, Wh; cbn [eqX].
    + destruct Wl as (-> & L), Wh as (-> & L'). rewrite L, L' in H. exfalso. assert (K : (q + 1 == q)%Q) by (apply H; split; exact I). lra.
    + destruct Wl as (-> & L). rewrite L in H, Hw. exfalso. assert (K : (w - 1 == q)%Q); [|lra]. apply H. split; [exact I|]. destruct Hw as (_ & Hw). destruct (rc a); unfold leX, ltX, eqX in *; first [lra|left; lra].
    + destruct Wh as (-> & L). rewrite L in H, Hw. exfalso. assert (K : (w + 1 == q)%Q); [|lra]. apply H. split; [|exact I]. destruct Hw as (Hw & _). destruct (lc a); unfold leX, ltX, eqX in *; first [lra|left; lra].
    + destruct (Qeq_dec x y) as [E|E]; [exact E|]. exfalso. assert (L : (x < y)%Q) by (destruct Hw as (U & V); destruct (lc a), (rc a); unfold leX, ltX, eqX in *; lra).
      assert (K1 : ((x + y) * (1 # 2) == q)%Q) by (apply H; destruct (lc a), (rc a); unfold leX, ltX, eqX; split; first [lra|left; lra]).
      assert (K2 : ((3 * x + y) * (1 # 4) == q)%Q) by (apply H; destruct (lc a), (rc a); unfold leX, ltX, eqX; split; first [lra|left; lra]). lra.
Qed.
Lemma set_lo v a : PIP a -> P v -> (ltX (val (hi a)) (val v) -> setLower R v a = Throw InvalidArgument) /\ (~ ltX (val (hi a)) (val v) -> setLower R v a = Ok (Itv v (hi a) (lc a) (rc a))).
Proof.
  intros (A1 & A2 & _) V. unfold setLower. rewrite (Pgt R P Pn Plt Peq Ple) by assumption. destruct (xlt (val (hi a)) (val v)) eqn:E.
  - split; [reflexivity|]. intros N. now apply xlt_iff in E.
  - split; [|reflexivity]. intros K. apply xlt_iff in K. congruence.
Qed.
Lemma set_hi v a : PIP a -> P v -> (ltX (val v) (val (lo a)) -> setUpper R v a = Throw InvalidArgument) /\ (~ ltX (val v) (val (lo a)) -> setUpper R v a = Ok (Itv (lo a) v (lc a) (rc a))).
Proof.
  intros (A1 & A2 & _) V. unfold setUpper. rewrite Plt by assumption. destruct (xlt (val v) (val (lo a))) eqn:E.
  - split; [reflexivity|]. intros N. now apply xlt_iff in E.
  - split; [|reflexivity]. intros K. apply xlt_iff in K. congruence.
Qed.
End E.

Ltac two' lem :=
  match goal with H : good _ |- _ => destruct H as [[?G|?G] ?W] end;
  [eapply (lem fits fits_nn fits_lt fits_eq fits_le)|eapply (lem whole whole_nn (whole_lt R) (whole_eq R) (whole_le R))];
  try (eapply PIf; [eassumption|assumption|]); try (eapply PIw; [eassumption|assumption|]); try (cbn; tauto); try eassumption.
(** equal intervals have the same members, and with members only intervals with the same members are equal *)
Theorem C94_equal a b : good [a; b] -> inhabited a -> (i_eqb R a b = true <-> forall q, member a q <-> member b q).
Proof. intros G N. two' eqb_set. Qed.
(** an interval with members is a point if it has exactly one *)
Theorem C94_point a : good [a] -> inhabited a -> (isPoint R a = true <-> exists q, forall p, member a p <-> (p == q)%Q).
Proof. intros G N. two' point_x. Qed.
(** a bound is replaced unless the bounds would cross *)
Theorem C94_set_lower v a : good [a; Itv v v true true] ->
  (ltX (val (hi a)) (val v) -> setLower R v a = Throw InvalidArgument) /\ (~ ltX (val (hi a)) (val v) -> setLower R v a = Ok (Itv v (hi a) (lc a) (rc a))).
Proof.
  intros [[G|G] W]; pose proof (proj1 (G (Itv v v true true) (or_intror (or_introl eq_refl)))) as V; cbn [NumSpec.val lo] in V.
  - apply (set_lo fits fits_nn fits_lt fits_eq fits_le); [eapply PIf; [exact G|exact W|cbn; tauto]|exact V].
  - apply (set_lo whole whole_nn (whole_lt R) (whole_eq R) (whole_le R)); [eapply PIw; [exact G|exact W|cbn; tauto]|exact V].
Qed.
Theorem C94_set_upper v a : good [a; Itv v v true true] ->
  (ltX (val v) (val (lo a)) -> setUpper R v a = Throw InvalidArgument) /\ (~ ltX (val v) (val (lo a)) -> setUpper R v a = Ok (Itv (lo a) v (lc a) (rc a))).
Proof.
  intros [[G|G] W]; pose proof (proj1 (G (Itv v v true true) (or_intror (or_introl eq_refl)))) as V; cbn [NumSpec.val lo] in V.
  - apply (set_hi fits fits_nn fits_lt fits_eq fits_le); [eapply PIf; [exact G|exact W|cbn; tauto]|exact V].
  - apply (set_hi whole whole_nn (whole_lt R) (whole_eq R) (whole_le R)); [eapply PIw; [exact G|exact W|cbn; tauto]|exact V].
Qed.
(** the width of an interval between integers, -1 if it is empty *)
Theorem C94_width p q c d : let a := Itv (NI p) (NI q) c d in (inhabited a -> width R a = NI (q - p)) /\ (~ inhabited a -> width R a = NI (-1)).
Proof.
  cbn zeta. assert (G : good [Itv (NI p) (NI q) c d]) by (split; [right; intros z [<-|[]]; split; exact I|intros z [<-|[]]; split; exact I]).
  pose proof (C38_isEmpty _ G) as E. unfold width. split; intros N.
  - destruct (isEmptyI R (Itv (NI p) (NI q) c d)); [|reflexivity]. destruct N as (x & Hx). now elim (proj1 E eq_refl x).
  - rewrite (proj2 E); [reflexivity|]. intros x Hx. apply N. now exists x.
Qed.
(** ** the midpoint *)
Lemma h128 : 1 <= 128. Proof. lia. Qed.
Lemma ex128 q : repr 128 q -> (R q == q)%Q. Proof. exact (rn_exact 128 h128 q). Qed.
Lemma mono128 a b : (a <= b)%Q -> (R a <= R b)%Q. Proof. exact (rn_mono 128 h128 a b). Qed.
Lemma eq128 a b : (a == b)%Q -> (R a == R b)%Q. Proof. exact (rn_eq 128 h128 a b). Qed.
(** numbers a 128-bit real holds exactly *)
Definition held (n : number) (x : Q) : Prop := finite n x /\ repr 128 x.
Lemma held_real n x : held n x -> exists y, toReal R n = Fin y /\ (y == x)%Q.
Proof.
  intros (F & Rx). destruct n as [z|[|s|y]]; cbn in F; try contradiction; cbn [toReal]; [|now exists y].
  exists (R (inject_Z z)). split; [reflexivity|]. rewrite <- F. apply ex128. apply (repr_eq _ x); [now symmetry|exact Rx].
Qed.
Lemma repr_double x : repr 128 x -> repr 128 (2 * x).
Proof. intros (m & e & H & E). exists m, (e + 1). split; [exact H|]. rewrite E, p2_add. change (p2 1) with 2%Q. ring. Qed.
Lemma half_between x y s s' : repr 128 x -> repr 128 y -> (x <= y)%Q -> (s == x + y)%Q -> (s' == R s)%Q -> exists h, xdiv R (Fin s') (toReal R (NI 2)) = Fin h /\ (x <= h <= y)%Q.
Proof.
  intros Rx Ry L Es E'. assert (R2 : (R (inject_Z 2) == 2)%Q) by (apply ex128; apply (repr_Z 128 2); cbn; lia).
  cbn [toReal xdiv]. destruct (qeq_spec (R (inject_Z 2)) 0) as [K|_]; [exfalso; lra|]. eexists. split; [reflexivity|].
  assert (B1 : (2 * x <= R s)%Q) by (rewrite <- (ex128 (2 * x) (repr_double x Rx)); apply mono128; lra).
  assert (B2 : (R s <= 2 * y)%Q) by (rewrite <- (ex128 (2 * y) (repr_double y Ry)); apply mono128; lra).
  assert (D : (s' / R (inject_Z 2) == s' * (1 # 2))%Q) by (rewrite R2; reflexivity).
  split.
  - rewrite <- (ex128 x Rx) at 1. apply mono128. rewrite D. lra.
  - rewrite <- (ex128 y Ry). apply mono128. rewrite D. lra.
Qed.
(** the midpoint of two bounds a real holds exactly lies between them; between integers it is exact when the
    sum fits *)
Theorem C94_midpoint a x y : held (lo a) x -> held (hi a) y -> (x <= y)%Q -> exists m h, midpoint R a = Ok m /\ finite m h /\ (x <= h <= y)%Q.
Proof.
  intros Hx Hy L. destruct (held_real _ _ Hx) as (x' & Ex & Qx). destruct (held_real _ _ Hy) as (y' & Ey & Qy). destruct Hx as (Fx & Rx), Hy as (Fy & Ry).
  assert (Real : forall s', (s' == R (x' + y'))%Q -> exists h, xdiv R (Fin s') (toReal R (NI 2)) = Fin h /\ (x <= h <= y)%Q).
  { intros s' Es. apply (half_between x y (x' + y') s'); auto. lra. }
  assert (Div : forall n s', toReal R n = Fin s' -> (forall z, n <> NI z) -> n_div R n (NI 2) = Ok (NR (xdiv R (Fin s') (toReal R (NI 2))))).
  { intros n s' E N. destruct n as [z|v]; [now elim (N z)|]. cbn [toReal] in E. subst v. reflexivity. }
  unfold midpoint. destruct (lo a) as [p|u] eqn:El, (hi a) as [q|v] eqn:Eh.
  - cbn [n_add n_div]. change (2 =? 0) with false. cbv iota. cbn in Fx, Fy. destruct (Z.eqb_spec (Z.rem (p + q) 2) 0) as [Z0|Z0].
    + exists (NI (Z.quot (p + q) 2)), (inject_Z (Z.quot (p + q) 2)). split; [reflexivity|]. split; [reflexivity|].
      pose proof (Z.quot_rem (p + q) 2 ltac:(lia)) as K. rewrite Z0, Z.add_0_r in K. assert (K' : (inject_Z (p + q) == 2 * inject_Z (Z.quot (p + q) 2))%Q) by (rewrite K at 1; rewrite inject_Z_mult; reflexivity).
      rewrite inject_Z_plus in K'. lra.
    + cbn [toReal] in Ex, Ey. injection Ex as Ex. injection Ey as Ey.
      destruct (half_between x y (inject_Z (p + q)) (R (inject_Z (p + q)))) as (h & E & B); auto; [rewrite inject_Z_plus; lra|reflexivity|].
      exists (NR (Fin h)), h. change (toReal R (NI (p + q))) with (Fin (R (inject_Z (p + q)))). rewrite E. split; [reflexivity|]. split; [reflexivity|exact B].
  - destruct (Real (R (x' + y')) (Qeq_refl _)) as (h & E & B). cbn [n_add]. rewrite Ex, Ey. cbn [xadd]. rewrite (Div (NR (Fin (R (x' + y')))) (R (x' + y')) eq_refl) by discriminate. rewrite E. exists (NR (Fin h)), h. split; [reflexivity|]. split; [reflexivity|exact B].
  - destruct (Real (R (x' + y')) (Qeq_refl _)) as (h & E & B). cbn [n_add]. rewrite Ex, Ey. cbn [xadd]. rewrite (Div (NR (Fin (R (x' + y')))) (R (x' + y')) eq_refl) by discriminate. rewrite E. exists (NR (Fin h)), h. split; [reflexivity|]. split; [reflexivity|exact B].
  - destruct (Real (R (x' + y')) (Qeq_refl _)) as (h & E & B). cbn [n_add]. rewrite Ex, Ey. cbn [xadd]. rewrite (Div (NR (Fin (R (x' + y')))) (R (x' + y')) eq_refl) by discriminate. rewrite E. exists (NR (Fin h)), h. split; [reflexivity|]. split; [reflexivity|exact B].
Qed.
Theorem C94_midpoint_int p q c d : Z.abs (p + q) <= 2 ^ 128 -> exists m, midpoint R (Itv (NI p) (NI q) c d) = Ok m /\ finite m ((inject_Z p + inject_Z q) / 2).
Proof.
  intros B. unfold midpoint. cbn [n_add lo hi n_div]. change (2 =? 0) with false. cbv iota. destruct (Z.eqb_spec (Z.rem (p + q) 2) 0) as [Z0|Z0].
  - eexists. split; [reflexivity|]. unfold finite. cbn [val eqX]. pose proof (Z.quot_rem (p + q) 2 ltac:(lia)) as K. rewrite Z0, Z.add_0_r in K. rewrite <- inject_Z_plus. rewrite K at 2. rewrite inject_Z_mult. change (inject_Z 2) with 2%Q. field.
  - eexists. split; [reflexivity|]. unfold finite. cbn [toReal xdiv].
    assert (R2 : (R (inject_Z 2) == 2)%Q) by (apply ex128; apply (repr_Z 128 2); cbn; lia). destruct (qeq_spec (R (inject_Z 2)) 0) as [K|_]; [exfalso; lra|]. cbn [val eqX].
    assert (RS : (R (inject_Z (p + q)) == inject_Z (p + q))%Q) by (apply ex128; now apply repr_Z).
    assert (E : (R (inject_Z (p + q)) / R (inject_Z 2) == (inject_Z p + inject_Z q) / 2)%Q) by (rewrite R2, RS, inject_Z_plus; reflexivity).
    assert (E2 : (R (R (inject_Z (p + q)) / R (inject_Z 2)) == R ((inject_Z p + inject_Z q) / 2))%Q) by (apply eq128; exact E). rewrite E2. apply ex128.
    exists (p + q), (-1). split; [exact B|]. rewrite inject_Z_plus. change (p2 (-1)) with (1 # 2)%Q. reflexivity.
Qed.
(** intervals without members are not all equal *)
Theorem C94_empty_refuted : let a := Itv (NI 2) (NI 1) true true in (forall q, ~ member a q) /\ (forall q, ~ member EmptyI q) /\ i_eqb R a EmptyI = false.
Proof.
  split; [|split; [|reflexivity]]; intros q (A & B); unfold above, below, EmptyI in A, B; cbn [lo hi lc rc NumSpec.val] in A, B; unfold leX, ltX, eqX in A, B;
    change (inject_Z 2) with 2%Q in *; change (inject_Z 1) with 1%Q in *; change (inject_Z (-1)) with (-1)%Q in *; lra.
Qed.
Example C94_case : exists m h, midpoint R (Itv (NI 1) (NI 4) true false) = Ok m /\ finite m h /\ (1 <= h <= 4)%Q.
Proof. apply C94_midpoint; [split; [reflexivity|apply (repr_Z 128 1); cbn; lia]|split; [reflexivity|apply (repr_Z 128 4); cbn; lia]|discriminate]. Qed.
Example C94_point_case : isPoint R (iv 3 3) = true /\ good [iv 3 3] /\ inhabited (iv 3 3).
Proof. split; [reflexivity|]. split; [split; [right; intros z [<-|[]]; split; exact I|intros z [<-|[]]; split; exact I]|]. exists 3%Q. split; right; reflexivity. Qed.
Print Assumptions C94_equal.
Print Assumptions C94_point.
Print Assumptions C94_set_lower.
Print Assumptions C94_set_upper.
Print Assumptions C94_width.
Print Assumptions C94_midpoint.
Print Assumptions C94_midpoint_int.
Print Assumptions C94_empty_refuted.
