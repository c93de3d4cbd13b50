(** C38 (intervals) and C40 (numbers). *)
From Coq Require Import QArith Qround Qabs Qpower ZArith List Bool Lia Lqa Sorting.Sorted Permutation.
From Verif Require Import Base NumModel RoundModel NumSpec NumProofs NumMore.
Open Scope Z_scope.
Local Notation R := rn128.

(** ** C40: numbers *)
(** + - * : exact on two INT numbers; otherwise the nearest 128-bit real to the exact result *)
Theorem C40_add a b x y : args a b -> finite a x -> finite b y ->
  exists z, finite (n_add R a b) z /\ (isINT a -> isINT b -> (z == x + y)%Q) /\ (~ (isINT a /\ isINT b) -> rounded z (x + y)).
Proof. exact (op2_spec _ _ _ _ a b x y op2_add). Qed.
Theorem C40_sub a b x y : args a b -> finite a x -> finite b y ->
  exists z, finite (n_sub R a b) z /\ (isINT a -> isINT b -> (z == x - y)%Q) /\ (~ (isINT a /\ isINT b) -> rounded z (x - y)).
Proof. exact (op2_spec _ _ _ _ a b x y op2_sub). Qed.
Theorem C40_mul a b x y : args a b -> finite a x -> finite b y ->
  exists z, finite (n_mul R a b) z /\ (isINT a -> isINT b -> (z == x * y)%Q) /\ (~ (isINT a /\ isINT b) -> rounded z (x * y)).
Proof. exact (op2_spec _ _ _ _ a b x y op2_mul). Qed.
(** / : an INT result is exact, a REAL result is the nearest 128-bit real *)
Theorem C40_div a b x y : fits a -> fits b -> finite a x -> finite b y -> (~ y == 0)%Q ->
  exists q z, n_div R a b = Ok q /\ finite q z /\ ((isINT q /\ (z == x / y)%Q) \/ (~ isINT q /\ rounded z (x / y))).
Proof. exact (div_spec a b x y). Qed.
Theorem C40_div_by_zero a b y : finite b y -> (y == 0)%Q -> fits a -> fits b ->
  (isINT a -> isINT b -> n_div R a b = Throw DomainError) /\
  (~ (isINT a /\ isINT b) -> exists q, n_div R a b = Ok (NR q) /\ (forall z, ~ finite (NR q) z)).
Proof. exact (div_zero a b y). Qed.
(** the six comparisons agree with the order of the rationals *)
Theorem C40_order a b x y : fits a -> fits b -> finite a x -> finite b y ->
  (n_lt R a b = true <-> (x < y)%Q) /\ (n_le R a b = true <-> (x <= y)%Q) /\ (n_gt R a b = true <-> (y < x)%Q) /\
  (n_ge R a b = true <-> (y <= x)%Q) /\ (n_eq R a b = true <-> (x == y)%Q).
Proof. exact (order_fits a b x y). Qed.
Theorem C40_floor a x : finite a x -> exists k, finite (n_floor a) (inject_Z k) /\ (inject_Z k <= x < inject_Z k + 1)%Q.
Proof. exact (floor_spec a x). Qed.
Theorem C40_ceil a x : finite a x -> exists k, finite (n_ceil a) (inject_Z k) /\ (inject_Z k - 1 < x <= inject_Z k)%Q.
Proof. exact (ceil_spec a x). Qed.
(** round to nearest, halves away from zero *)
Theorem C40_round a x : finite a x -> exists k, finite (n_round a) (inject_Z k) /\ (Qabs (inject_Z k - x) <= 1 # 2)%Q /\ ((Qabs (inject_Z k - x) == 1 # 2)%Q -> (Qabs x < Qabs (inject_Z k))%Q).
Proof. exact (round_spec a x). Qed.
Theorem C40_abs_neg a x : finite a x -> finite (n_abs a) (Qabs x) /\ finite (n_neg a) (- x).
Proof. intros H. split; [exact (abs_spec a x H)|exact (neg_spec a x H)]. Qed.
(** x op= y is x = x op y when x is REAL, or when both are INT and op is + - * *)
Theorem C40_assign_partial a b : (~ isINT a -> n_addA R a b = n_add R a b /\ n_subA R a b = n_sub R a b /\ n_mulA R a b = n_mul R a b /\ n_divA R a b = n_div R a b) /\
  (isINT a -> isINT b -> n_addA R a b = n_add R a b /\ n_subA R a b = n_sub R a b /\ n_mulA R a b = n_mul R a b).
Proof. split; [exact (assign_real a b)|]. destruct a, b; cbn; intros A B; try contradiction. repeat split. Qed.
(** ... but not in the other cases: an INT keeps its value, and /= truncates *)
Theorem C40_assign_refuted : (forall z x, n_addA R (NI z) (NR x) = NI z /\ n_subA R (NI z) (NR x) = NI z /\ n_mulA R (NI z) (NR x) = NI z /\ n_divA R (NI z) (NR x) = Ok (NI z)) /\
  (n_divA R (NI 1) (NI 2) = Ok (NI 0) /\ n_div R (NI 1) (NI 2) <> Ok (NI 0)).
Proof. split; [intros; repeat split|]. split; [reflexivity|]. vm_compute. discriminate. Qed.
(** % is the truncated remainder, not that of SMT-LIB *)
Theorem C40_mod_partial x y : 0 <= x -> 0 < y -> n_mod false (NI x) (NI y) = Ok (NI (x mod y)).
Proof. intros A B. unfold n_mod, n_ip. cbn [condAssert bind]. destruct (Z.eqb_spec y 0); [lia|]. rewrite Z.rem_mod_nonneg by lia. reflexivity. Qed.
Theorem C40_mod_refuted : n_mod false (NI (-7)) (NI 2) = Ok (NI (-1)) /\ -7 mod 2 = 1.
Proof. split; reflexivity. Qed.
(** beyond 128 bits comparison is not transitive; with NaN > and >= hold both ways *)
Theorem C40_order_refuted : (exists a b c, n_eq R a b = true /\ n_eq R b c = true /\ n_eq R a c = false) /\
  (forall x, n_gt R (NR Nan) x = true /\ n_gt R x (NR Nan) = true /\ n_ge R x (NR Nan) = true /\ n_lt R x (NR Nan) = false).
Proof.
  split; [exists (NI (2 ^ 128 + 1)), (NR (Fin (inject_Z (2 ^ 128)))), (NI (2 ^ 128)); vm_compute; repeat split|].
  intros [z|[|s|x]]; repeat split.
Qed.
Print Assumptions C40_add.
Print Assumptions C40_sub.
Print Assumptions C40_mul.
Print Assumptions C40_div.
Print Assumptions C40_div_by_zero.
Print Assumptions C40_order.
Print Assumptions C40_floor.
Print Assumptions C40_ceil.
Print Assumptions C40_round.
Print Assumptions C40_abs_neg.
Print Assumptions C40_assign_partial.
Print Assumptions C40_assign_refuted.
Print Assumptions C40_mod_partial.
Print Assumptions C40_mod_refuted.
Print Assumptions C40_order_refuted.

(** ** C38: intervals *)
Lemma PIf a l : ibounds fits l -> (forall x, In x l -> iwf x) -> In a l -> PI fits a.
Proof. intros F W H. destruct (F a H). split; [|split]; auto. Qed.
Lemma PIw a l : ibounds whole l -> (forall x, In x l -> iwf x) -> In a l -> PI whole a.
Proof. intros F W H. destruct (F a H). split; [|split]; auto. Qed.
Ltac two lem :=
  match goal with H : good _ |- _ => destruct H as [[?G|?G] ?W] end;
  [eapply (lem R fits fits_nn fits_lt fits_eq fits_le)|eapply (lem R whole whole_nn (whole_lt R) (whole_eq R) (whole_le R))];
  try (eapply PIf; [eassumption|assumption|]); try (eapply PIw; [eassumption|assumption|]); try (cbn; tauto); try eassumption.
Theorem C38_isEmpty a : good [a] -> (isEmptyI R a = true <-> forall q, ~ member a q).
Proof.
  intros G. assert (K : isEmptyI R a = true <-> ~ inhabited a) by two emp_t. rewrite K. unfold inhabited. split; [intros N q M; apply N; now exists q|intros N [q M]; now apply (N q)].
Qed.
Theorem C38_contains a v q : good [a] -> good [Itv v v true true; a] -> finite v q -> (containsI R a v = true <-> member a q).
Proof.
  intros _ [[G|G] W] F.
  - apply (contains_x R fits fits_nn fits_lt fits_eq fits_le); [eapply PIf; [exact G|exact W|cbn; tauto]|apply (G (Itv v v true true) (or_introl eq_refl))|exact F].
  - apply (contains_x R whole whole_nn (whole_lt R) (whole_eq R) (whole_le R)); [eapply PIw; [exact G|exact W|cbn; tauto]|apply (G (Itv v v true true) (or_introl eq_refl))|exact F].
Qed.
Theorem C38_isSubsetOf a b : good [a; b] -> (isSubsetOf R a b = true <-> forall q, member a q -> member b q).
Proof. intros G. two subset_x. Qed.
Theorem C38_isSubsetEqOf a b : good [a; b] -> (isSubsetEqOf R a b = true <-> forall q, member a q -> member b q).
Proof. intros G. two subsetEq_x. Qed.
Theorem C38_isSupersetOf_partial a b : good [a; b] -> inhabited b -> (isSupersetOf R a b = true <-> forall q, member b q -> member a q).
Proof. intros G N. two superset_x. Qed.
Theorem C38_isIntersectingWith a b : good [a; b] -> (isIntersectingWith R a b = true <-> exists q, member a q /\ member b q).
Proof. intros G. two inter_x. Qed.
Theorem C38_isDisjointFrom_partial a b : good [a; b] -> inhabited a -> inhabited b -> (isDisjointFrom R a b = true <-> forall q, member a q -> member b q -> False).
Proof. intros G Na Nb. two disj_x. Qed.
Theorem C38_intersection a b q : good [a; b] -> (member (intersection R a b) q <-> member a q /\ member b q).
Proof. intros G. two intersection_x. Qed.
Theorem C38_union_partial a b : good [a; b] -> inhabited a -> inhabited b ->
  ((exists w, member a w /\ member b w) -> exists u, unionWith R a b = Ok u /\ iwf u /\ forall q, member u q <-> member a q \/ member b q) /\
  ((forall w, member a w -> member b w -> False) -> unionWith R a b = Throw InvalidArgument).
Proof. intros G Na Nb. two union_x. Qed.
Theorem C38_difference_partial a b q : good [a; b] -> inhabited a -> inhabited b ->
  ((forall p, member b p -> member a p) -> forall p, member a p -> member b p) ->
  ~ ((forall p, member a p -> member b p) /\ eqX (val (hi b)) (val (hi a)) /\ rc b = false /\ lc b = false) ->
  ((exists p, In p (difference R a b) /\ member p q) <-> member a q /\ ~ member b q).
Proof. intros G Na Nb H1 H2. two difference_x. Qed.
(** the union of many: any result of a sort by the lower bound *)
Theorem C38_unionMulti_partial srt l : Permutation l (srt l) -> StronglySorted (fun a b => i_less R b a = false) (srt l) ->
  good l -> (forall a, In a l -> inhabited a) ->
  (forall q, (exists p, In p (unionMulti R srt l) /\ member p q) <-> (exists a, In a l /\ member a q)) /\
  ForallOrdPairs (fun a b => forall q, member a q -> member b q -> False) (unionMulti R srt l).
Proof.
  intros Pm S [[G|G] W] N.
  - destruct (unionMulti_x R fits fits_nn fits_lt fits_eq fits_le srt l Pm S) as (A & B & _); [intros a Ha; split; [eapply PIf; eassumption|auto]|]. split; [exact A|exact B].
  - destruct (unionMulti_x R whole whole_nn (whole_lt R) (whole_eq R) (whole_le R) srt l Pm S) as (A & B & _); [intros a Ha; split; [eapply PIw; eassumption|auto]|]. split; [exact A|exact B].
Qed.
Theorem C38_less a b : good [a; b] -> inhabited a -> inhabited b ->
  (exists t, i_lt R a b = Ok t /\ (t = true <-> forall x y, member a x -> member b y -> (x < y)%Q)) /\
  (exists t, i_gt R a b = Ok t /\ (t = true <-> forall x y, member a x -> member b y -> (y < x)%Q)).
Proof.
  intros G Na Nb. split; [two lt_x|].
  assert (E : i_gt R a b = i_lt R b a) by two gt_lt. rewrite E.
  assert (K : exists t, i_lt R b a = Ok t /\ (t = true <-> forall x y, member b x -> member a y -> (x < y)%Q)) by two lt_x.
  destruct K as (t & K1 & K2). exists t. split; [exact K1|]. rewrite K2. split; intros H x y X Y; now apply H.
Qed.
(** <= and >= are the complements of > and < *)
Theorem C38_less_equal a b : good [a; b] -> inhabited a -> inhabited b ->
  (exists t, i_le R a b = Ok t /\ (t = true <-> ~ forall x y, member a x -> member b y -> (y < x)%Q)) /\
  (exists t, i_ge R a b = Ok t /\ (t = true <-> ~ forall x y, member a x -> member b y -> (x < y)%Q)).
Proof.
  intros G Na Nb. destruct (C38_less a b G Na Nb) as ((t & Et & Ht) & (u & Eu & Hu)).
  assert (K : isEmptyI R a || isEmptyI R b = false) by (revert Et; unfold i_lt; destruct (isEmptyI R a || isEmptyI R b); [discriminate|reflexivity]).
  unfold i_le, i_ge. rewrite K, Et, Eu. cbn [bind].
  split; eexists; (split; [reflexivity|]); [rewrite <- Hu; destruct u|rewrite <- Ht; destruct t]; cbn; intuition congruence.
Qed.
(** all four throw if an argument is empty *)
Theorem C38_less_empty a b : good [a; b] -> ~ inhabited a \/ ~ inhabited b ->
  i_lt R a b = Throw InvalidArgument /\ i_gt R a b = Throw InvalidArgument /\ i_le R a b = Throw InvalidArgument /\ i_ge R a b = Throw InvalidArgument.
Proof.
  intros G N. assert (K : isEmptyI R a || isEmptyI R b = true).
  { destruct G as (Gc & Gw). assert (Wa : iwf a) by (apply Gw; cbn; auto). assert (Wb : iwf b) by (apply Gw; cbn; auto). apply orb_true_iff.
    destruct Gc as [Gc|Gc]; (destruct (Gc a ltac:(cbn; auto)) as (A1 & A2)); (destruct (Gc b ltac:(cbn; auto)) as (B1 & B2)); (destruct N as [N|N]; [left|right]).
    - apply (emp_t R fits fits_nn fits_lt fits_eq fits_le a (conj A1 (conj A2 Wa))), N.
    - apply (emp_t R fits fits_nn fits_lt fits_eq fits_le b (conj B1 (conj B2 Wb))), N.
    - apply (emp_t R whole whole_nn (whole_lt R) (whole_eq R) (whole_le R) a (conj A1 (conj A2 Wa))), N.
    - apply (emp_t R whole whole_nn (whole_lt R) (whole_eq R) (whole_le R) b (conj B1 (conj B2 Wb))), N. }
  unfold i_lt, i_gt, i_le, i_ge. rewrite K. auto.
Qed.
(** arithmetic: the result is exactly the set of results, provided its bounds were computed without rounding error *)
Theorem C38_neg a q : good [a] -> (member (i_neg R a) q <-> member a (- q)).
Proof. intros G. two neg_x. Qed.
Theorem C38_add_partial a b q : good [a; b] ->
  eqX (val (n_add R (lo a) (lo b))) (xs (val (lo a)) (val (lo b))) -> eqX (val (n_add R (hi a) (hi b))) (xs (val (hi a)) (val (hi b))) ->
  (member (i_add R a b) q <-> exists x y, member a x /\ member b y /\ (q == x + y)%Q).
Proof. intros G E1 E2. two add_x. Qed.
Theorem C38_sub_partial a b q : good [a; b] ->
  eqX (val (n_sub R (lo a) (hi b))) (xs (val (lo a)) (xopp (val (hi b)))) -> eqX (val (n_sub R (hi a) (lo b))) (xs (val (hi a)) (xopp (val (lo b)))) ->
  (member (i_sub R a b) q <-> exists x y, member a x /\ member b y /\ (q == x - y)%Q).
Proof. intros G E1 E2. two sub_x. Qed.
(** these provisos hold when the finite bounds are INT *)
Theorem C38_whole_exact m n : whole m -> whole n ->
  (xs (val m) (val n) <> Nan -> eqX (val (n_add R m n)) (xs (val m) (val n))) /\
  (xs (val m) (xopp (val n)) <> Nan -> eqX (val (n_sub R m n)) (xs (val m) (xopp (val n)))) /\
  (forall t, finite n t -> (~ t == 0)%Q -> eqX (val (n_mul R m n)) (xscale t (val m))).
Proof.
  intros M N. destruct m as [x|[|s|x]], n as [y|[|t|y]]; cbn in M, N; try contradiction.
  - split; [intros _; cbn; rewrite inject_Z_plus; reflexivity|]. split; [intros _; cbn; unfold Z.sub; rewrite inject_Z_plus, inject_Z_opp; reflexivity|].
    intros t F _. unfold finite in F. cbn in F. cbn. rewrite inject_Z_mult, F. reflexivity.
  - split; [|split]; cbn; auto. intros u F. unfold finite in F. cbn in F. contradiction.
  - split; [|split]; cbn; auto. intros u F Nz. unfold finite in F. cbn in F. assert (Ey : (R (inject_Z y) == u)%Q \/ True) by (right; exact I). clear Ey.
    assert (Z1 : Qeq_bool (R (inject_Z y)) 0 = false /\ qneg (R (inject_Z y)) = qlt u 0).
    { assert (Y0 : y <> 0). { intros ->. apply Nz. rewrite <- F. reflexivity. }
      assert (Mono := rn_mono 128 hp). assert (R1 : (R 1 == 1)%Q) by (apply (rn_exact 128 hp); apply (repr_Z 128 1); lia). assert (R2 : (R (-1) == -1)%Q) by (apply (rn_exact 128 hp); apply (repr_Z 128 (-1)); lia).
      unfold qneg. destruct (Z.lt_trichotomy y 0) as [L|[L|L]]; [|contradiction|].
      - assert (B : (inject_Z y <= -1)%Q) by (change (-1)%Q with (inject_Z (-1)); rewrite <- Zle_Qle; lia). pose proof (Mono _ _ B) as B'. unfold rn128 in *. destruct (qeq_spec (rn 128 (inject_Z y)) 0), (qlt_spec (rn 128 (inject_Z y)) 0), (qlt_spec u 0); try (exfalso; lra); auto.
      - assert (B : (1 <= inject_Z y)%Q) by (change 1%Q with (inject_Z 1); rewrite <- Zle_Qle; lia). pose proof (Mono _ _ B) as B'. unfold rn128 in *. destruct (qeq_spec (rn 128 (inject_Z y)) 0), (qlt_spec (rn 128 (inject_Z y)) 0), (qlt_spec u 0); try (exfalso; lra); auto. }
    destruct Z1 as [-> ->]. cbn. destruct (qlt u 0), s; reflexivity.
  - destruct s, t; cbn; split; try (intros; reflexivity || congruence); split; try (intros; reflexivity || congruence); intros u F; unfold finite in F; cbn in F; contradiction.
Qed.
Theorem C38_add_const_partial a v q t : finite v t ->
  eqX (val (n_add R (lo a) v)) (xs (val (lo a)) (Fin t)) -> eqX (val (n_add R (hi a) v)) (xs (val (hi a)) (Fin t)) ->
  (member (i_addN R a v) q <-> exists x, member a x /\ (q == x + t)%Q).
Proof. exact (addN_x R whole whole_nn (whole_lt R) (whole_eq R) (whole_le R) a v q t). Qed.
Lemma fits0 : fits (NI 0). Proof. cbn. lia. Qed.
Lemma fits_abs n : fits n -> fits (n_abs n). Proof. destruct n as [z|[|s|x]]; cbn; intros H; try congruence; try discriminate. lia. Qed.
Lemma whole_abs n : whole n -> whole (n_abs n). Proof. destruct n as [z|[|s|x]]; cbn; auto. Qed.
Theorem C38_mul_const_partial a v q t : good [a; Itv v v true true] -> finite v t -> (~ t == 0)%Q ->
  eqX (val (n_mul R (lo a) v)) (xscale t (val (lo a))) -> eqX (val (n_mul R (hi a) v)) (xscale t (val (hi a))) ->
  (member (i_mulN R a v) q <-> exists x, member a x /\ (q == x * t)%Q).
Proof.
  intros [[G|G] W] F N E1 E2.
  - apply (mulN_x R fits fits_nn fits_lt fits_eq fits_le fits0 a v q t); auto; [eapply PIf; [exact G|exact W|cbn; tauto]|apply (G (Itv v v true true)); cbn; tauto].
  - apply (mulN_x R whole whole_nn (whole_lt R) (whole_eq R) (whole_le R) I a v q t); auto; [eapply PIw; [exact G|exact W|cbn; tauto]|apply (G (Itv v v true true)); cbn; tauto].
Qed.
Theorem C38_div_const_partial a v q t l h : good [a; Itv v v true true] -> finite v t -> (~ t == 0)%Q -> inhabited a ->
  n_div R (lo a) v = Ok l -> n_div R (hi a) v = Ok h -> eqX (val l) (xscale (/ t) (val (lo a))) -> eqX (val h) (xscale (/ t) (val (hi a))) ->
  exists u, i_divN R a v = Ok u /\ (member u q <-> exists x, member a x /\ (q == x / t)%Q).
Proof.
  intros [[G|G] W] F N Na D1 D2 E1 E2.
  - apply (divN_x R fits fits_nn fits_lt fits_eq fits_le fits0 a v q t l h); auto; [eapply PIf; [exact G|exact W|cbn; tauto]|apply (G (Itv v v true true)); cbn; tauto].
  - apply (divN_x R whole whole_nn (whole_lt R) (whole_eq R) (whole_le R) I a v q t l h); auto; [eapply PIw; [exact G|exact W|cbn; tauto]|apply (G (Itv v v true true)); cbn; tauto].
Qed.
(** closed intervals of finite bounds: the product and the quotient are exact unless the same interval around 0 is squared *)
Theorem C38_mul_partial (P : number -> Prop) a b la ha lb hb q : P = fits \/ P = whole ->
  closedI P a la ha -> closedI P b lb hb -> ~ (la == lb /\ ha == hb /\ la <= 0 <= ha)%Q ->
  isq P (n_mul R (lo a) (lo b)) (la * lb) -> isq P (n_mul R (lo a) (hi b)) (la * hb) -> isq P (n_mul R (hi a) (lo b)) (ha * lb) -> isq P (n_mul R (hi a) (hi b)) (ha * hb) ->
  (member (i_mul R a b) q <-> exists x y, member a x /\ member b y /\ (q == x * y)%Q).
Proof.
  intros [-> | ->] A B N U V X Z.
  - exact (mul_x R fits fits_nn fits_lt fits_eq fits_le fits0 a b la ha lb hb q A B N U V X Z).
  - exact (mul_x R whole whole_nn (whole_lt R) (whole_eq R) (whole_le R) I a b la ha lb hb q A B N U V X Z).
Qed.
(** for INT bounds nothing about rounding is left *)
Theorem C38_mul_int a b c d x : ~ (a = c /\ b = d /\ a <= 0 <= b) ->
  (member (i_mul R (Itv (NI a) (NI b) true true) (Itv (NI c) (NI d) true true)) x <->
   exists y z, (inject_Z a <= y <= inject_Z b)%Q /\ (inject_Z c <= z <= inject_Z d)%Q /\ (x == y * z)%Q).
Proof.
  intros N. assert (Z1 : forall k, isq whole (NI k) (inject_Z k)) by (intros; split; [exact I|reflexivity]).
  assert (Z2 : forall j k, isq whole (n_mul R (NI j) (NI k)) (inject_Z j * inject_Z k)) by (intros; split; [exact I|unfold finite; cbn; rewrite inject_Z_mult; reflexivity]).
  assert (C : forall j k, closedI whole (Itv (NI j) (NI k) true true) (inject_Z j) (inject_Z k)) by (intros; repeat split).
  rewrite (C38_mul_partial whole _ _ _ _ _ _ x (or_intror eq_refl) (C a b) (C c d)); cbn [lo hi]; auto.
  - assert (M1 : forall u, member (Itv (NI a) (NI b) true true) u <-> (inject_Z a <= u <= inject_Z b)%Q) by (intros u; exact (closed_mem R whole whole_nn (whole_lt R) (whole_eq R) (whole_le R) I _ _ _ u (C a b))).
    assert (M2 : forall u, member (Itv (NI c) (NI d) true true) u <-> (inject_Z c <= u <= inject_Z d)%Q) by (intros u; exact (closed_mem R whole whole_nn (whole_lt R) (whole_eq R) (whole_le R) I _ _ _ u (C c d))).
    split; intros (y & z & Y & Z & E); exists y, z; (split; [apply M1; exact Y|split; [apply M2; exact Z|exact E]]).
  - intros (E1 & E2 & E3 & E4). apply N. pose proof (proj1 (inj_eq _ _) E1) as J1. pose proof (proj1 (inj_eq _ _) E2) as J2. change 0%Q with (inject_Z 0) in E3, E4. rewrite <- Zle_Qle in E3, E4. auto.
Qed.
Theorem C38_div_partial (P : number -> Prop) dbg a b la ha lb hb p1 p2 p3 p4 q : P = fits \/ P = whole ->
  closedI P a la ha -> closedI P b lb hb -> (la <= ha)%Q -> (lb <= hb)%Q -> (0 < lb \/ hb < 0)%Q ->
  n_div R (lo a) (lo b) = Ok p1 -> n_div R (lo a) (hi b) = Ok p2 -> n_div R (hi a) (lo b) = Ok p3 -> n_div R (hi a) (hi b) = Ok p4 ->
  isq P p1 (la / lb) -> isq P p2 (la / hb) -> isq P p3 (ha / lb) -> isq P p4 (ha / hb) ->
  exists u, i_div R dbg a b = Ok u /\ (member u q <-> exists x y, member a x /\ member b y /\ (q == x / y)%Q).
Proof.
  intros [-> | ->].
  - exact (div_x R fits fits_nn fits_lt fits_eq fits_le fits0 dbg a b la ha lb hb p1 p2 p3 p4 q).
  - exact (div_x R whole whole_nn (whole_lt R) (whole_eq R) (whole_le R) I dbg a b la ha lb hb p1 p2 p3 p4 q).
Qed.
Theorem C38_abs_partial a q : good [a] -> ~ (eqX (val (hi a)) (xopp (val (lo a))) /\ lc a = false /\ rc a = true) ->
  (member (i_abs R a) q <-> exists x, member a x /\ (q == Qabs x)%Q).
Proof.
  intros [[G|G] W] T.
  - apply (abs_x R fits fits_nn fits_lt fits_eq fits_le fits0 fits_abs); [eapply PIf; [exact G|exact W|cbn; tauto]|exact T].
  - apply (abs_x R whole whole_nn (whole_lt R) (whole_eq R) (whole_le R) I whole_abs); [eapply PIw; [exact G|exact W|cbn; tauto]|exact T].
Qed.
(** the integers of a closed interval, and their number *)
Theorem C38_getIntegers_partial a x y fuel : lc a = true -> rc a = true -> inside a x y -> (Z.to_nat (Qfloor y - Qceiling x + 1) < fuel)%nat ->
  exists l ks, getIntegers R fuel a = Ok l /\ Forall2 (fun n k => finite n (inject_Z k)) l ks /\ NoDup ks /\ forall k, In k ks <-> member a (inject_Z k).
Proof. exact (getIntegers_spec a x y fuel). Qed.
Theorem C38_intCount_partial a x y : lc a = true -> rc a = true -> inside a x y -> (y - x < inject_Z (2 ^ 64 - 1))%Q ->
  exists ks, getIntervalIntCount R a = Ok (Z.of_nat (length ks)) /\ NoDup ks /\ forall k, In k ks <-> member a (inject_Z k).
Proof. exact (count_spec a x y). Qed.

(** ** what fails *)
Definition iv (a b : Z) : interval := Itv (NI a) (NI b) true true.
Ltac mem := unfold member, above, below, leX; cbn; unfold Qlt, Qle, Qeq; cbn.
Ltac vmem := vm_compute; intuition (reflexivity || discriminate).
(** sets with no element: not disjoint from anything, no superset of themselves, absorb a union *)
Theorem C38_empty_refuted : (forall q, ~ member EmptyI q) /\ isDisjointFrom R EmptyI (iv 0 1) = false /\ isSupersetOf R EmptyI EmptyI = false /\
  isSupersetOf R (iv 5 6) (Itv (NI 1) (NI 0) true true) = false /\ unionWith R EmptyI (iv 0 1) = Ok EmptyI /\ member (iv 0 1) 0 /\
  (exists q, (exists p, In p (unionMulti R (fun l => l) [Itv (NI 0) (NI 0) false false; iv 5 6]) /\ member p q) /\ ~ member (iv 5 6) q /\ ~ member (Itv (NI 0) (NI 0) false false) q).
Proof.
  refine (conj _ (conj eq_refl (conj eq_refl (conj eq_refl (conj eq_refl (conj _ _)))))).
  - intros q [A B]. unfold above, below in *. cbn in A, B. change (inject_Z 1) with 1%Q in A. change (inject_Z (-1)) with (-1)%Q in B. lra.
  - mem. split; [right; reflexivity|left; reflexivity].
  - exists 1%Q. split; [|split].
    + eexists. split; [left; reflexivity|]. mem; lia.
    + mem; lia.
    + mem; lia.
Qed.
(** the difference is empty when b lies inside a, and too large when a touches an open end of b *)
Theorem C38_difference_refuted : (difference R (iv 0 5) (iv 1 2) = [] /\ member (iv 0 5) 4 /\ ~ member (iv 1 2) 4) /\
  (exists q, (exists p, In p (difference R (Itv (NI 1) (NI 2) false false) (Itv (NI 0) (NI 2) false false)) /\ member p q) /\ ~ member (Itv (NI 1) (NI 2) false false) q).
Proof.
  split; [split; [reflexivity|]; split; mem; lia|].
  exists (2%Q). split; [eexists; split; [right; left; reflexivity|]; mem; lia|]. mem; lia.
Qed.
(** squares of intervals around 0 lose the negative products; open ends lose or keep the wrong bounds *)
Theorem C38_mul_refuted :
  (member (iv (-1) 1) 1 /\ member (iv (-1) 1) (-1) /\ ~ member (i_mul R (iv (-1) 1) (iv (-1) 1)) (1 * -1)) /\
  (member (Itv (NI 0) (NI 1) false true) 1 /\ member (iv 0 1) 0 /\ ~ member (i_mul R (Itv (NI 0) (NI 1) false true) (iv 0 1)) (1 * 0)) /\
  (let a := Itv (NI (-2)) (NI 2) false true in member a 2 /\ member (iv (-2) 2) (-2) /\ ~ member (i_mul R a (iv (-2) 2)) (2 * -2)) /\
  (let a := Itv (NI 0) (NI 1) false false in member a (1 # 2) /\ isEmptyI R (i_mulN R a (NI 0)) = true) /\
  (exists x, val (lo (i_mul R FullI (iv 0 1))) = x /\ x = Nan).
Proof.
  refine (conj _ (conj _ (conj _ (conj _ _)))).
  - split; [mem; lia|]. split; [mem; lia|]. mem; lia.
  - split; [mem; lia|]. split; [mem; lia|]. mem; lia.
  - split; [mem; lia|]. split; [mem; lia|]. mem; lia.
  - split; [mem; lia|reflexivity].
  - eexists. split; reflexivity.
Qed.
Theorem C38_abs_refuted : let a := Itv (NI (-1)) (NI 1) false true in member a 1 /\ ~ member (i_abs R a) (Qabs 1).
Proof. split; [mem; lia|]. mem; lia. Qed.
(** an open end at 0 of the divisor: an exception (INT) or the wrong sign (REAL) *)
Theorem C38_div_refuted : i_div R false (iv 1 2) (Itv (NI 0) (NI 1) false true) = Throw DomainError /\
  (exists u, i_div R false (iv 1 2) (Itv (NI (-1)) (NR (Fin 0)) true false) = Ok u /\ member (Itv (NI (-1)) (NR (Fin 0)) true false) (-(1 # 4)) /\ member (iv 1 2) 1 /\ ~ member u (1 / - (1 # 4))).
Proof.
  split; [reflexivity|]. eexists. split; [reflexivity|]. split; [vmem|]. split; [vmem|]. vmem.
Qed.
(** open or fractional ends *)
Theorem C38_integers_refuted : getIntegers R 9 (Itv (NI 0) (NI 2) false false) = Ok [NI 0; NI 1; NI 2] /\ ~ member (Itv (NI 0) (NI 2) false false) 0 /\
  (let a := Itv (NR (Fin (1 # 2))) (NR (Fin (5 # 2))) false false in getIntervalIntCount R a = Ok 0 /\ member a 1 /\ member a 2).
Proof. split; [reflexivity|]. split; [vmem|]. split; [reflexivity|]. split; vmem. Qed.
(** real bounds are rounded to nearest: the sum of two points may be missed *)
Theorem C38_rounding_refuted : let t := p2 (-200) in let pt x := Itv (NR (Fin x)) (NR (Fin x)) true true in
  member (pt 1%Q) 1 /\ member (pt t) t /\ ~ member (i_add R (pt 1%Q) (pt t)) (1 + t).
Proof. vm_compute. split; [split; right; reflexivity|]. split; [split; right; reflexivity|]. intros [_ [A|A]]; discriminate. Qed.
(** integer division and modulo *)
Theorem C38_divInt_mod_refuted :
  (i_divInt R (Itv (NI 2) (NI 5) false false) (iv 2 2) = Ok (Itv (NR (Fin (inject_Z 1))) (NR (Fin (inject_Z 2))) false false) \/
   exists u, i_divInt R (Itv (NI 2) (NI 5) false false) (iv 2 2) = Ok u /\ ~ member u (inject_Z (3 / 2))) /\
  (exists u, i_modN R (iv (-5) (-3)) (NI 4) = Ok u /\ ~ member u (inject_Z (-4 mod 4))).
Proof.
  split.
  - right. eexists. split; [reflexivity|]. vmem.
  - eexists. split; [reflexivity|]. vmem.
Qed.
(** compound assignment with a REAL leaves INT bounds unchanged *)
Theorem C38_assign_refuted : i_addA R (iv 0 1) (NR (Fin 5)) = iv 0 1 /\ i_addN R (iv 0 1) (NR (Fin 5)) <> iv 0 1.
Proof. split; [reflexivity|vm_compute; discriminate]. Qed.

(** ** the hypotheses are met *)
Definition half : number := NR (Fin (1 # 2)).
Definition ex_a : interval := Itv half (NI 3) false true.
Definition ex_b : interval := Itv (NI 2) (NR (Inf false)) true false.
Example ex_good : good [ex_a; ex_b] /\ inhabited ex_a /\ inhabited ex_b /\ (exists w, member ex_a w /\ member ex_b w) /\
  ~ ((forall p, member ex_b p -> member ex_a p)).
Proof.
  split; [split; [left|]|].
  - intros a [<-|[<-|[]]]; split; vm_compute; discriminate.
  - intros a [<-|[<-|[]]]; vm_compute; auto.
  - split; [exists 1%Q; vmem|]. split; [exists 5%Q; vmem|]. split; [exists 2%Q; vmem|]. intros H. specialize (H 4%Q). destruct H as [_ H]; [vmem|]. revert H. vmem.
Qed.
Example ex_args : args half (NI 3) /\ finite half (1 # 2) /\ finite (NI 3) 3 /\ finite (n_add R half (NI 3)) (7 # 2).
Proof. split; [right; split; vm_compute; discriminate|]. split; [reflexivity|]. split; reflexivity. Qed.
Example ex_div : n_div R (NI 1) (NI 3) = Ok (NR (Fin (rn128 (rn128 1 / rn128 3)))) /\ n_div R (NI 6) (NI 3) = Ok (NI 2).
Proof. split; reflexivity. Qed.
Example ex_add_ok : i_add R ex_a ex_b = Itv (NR (Fin (rn128 (rn128 (1 # 2) + rn128 2)))) (NR (Inf false)) false false \/ member (i_add R ex_a ex_b) 3.
Proof. right. vmem. Qed.
Example ex_inside : inside (Itv half (NI 3) true true) (1 # 2) 3 /\ getIntervalIntCount R (Itv half (NI 3) true true) = Ok 3.
Proof. split; [|reflexivity]. unfold inside. repeat (split; [vm_compute; (reflexivity || discriminate)|]). vm_compute. discriminate. Qed.
Example ex_multi : let l := [iv 3 4; iv 0 1; iv 1 2] in let s := [iv 0 1; iv 1 2; iv 3 4] in
  Permutation l s /\ StronglySorted (fun a b => i_less R b a = false) s /\ unionMulti R (fun _ => s) l = [iv 0 2; iv 3 4].
Proof.
  split; [apply (Permutation_cons_append [iv 0 1; iv 1 2] (iv 3 4))|]. split; [|reflexivity].
  repeat (constructor; [|repeat (constructor; [reflexivity|]); constructor]). constructor.
Qed.
Print Assumptions C38_isEmpty.
Print Assumptions C38_contains.
Print Assumptions C38_isSubsetOf.
Print Assumptions C38_isSubsetEqOf.
Print Assumptions C38_isSupersetOf_partial.
Print Assumptions C38_isIntersectingWith.
Print Assumptions C38_isDisjointFrom_partial.
Print Assumptions C38_intersection.
Print Assumptions C38_union_partial.
Print Assumptions C38_difference_partial.
Print Assumptions C38_unionMulti_partial.
Print Assumptions C38_less.
Print Assumptions C38_less_equal.
Print Assumptions C38_less_empty.
Print Assumptions C38_neg.
Print Assumptions C38_add_partial.
Print Assumptions C38_sub_partial.
Print Assumptions C38_whole_exact.
Print Assumptions C38_add_const_partial.
Print Assumptions C38_mul_const_partial.
Print Assumptions C38_div_const_partial.
Print Assumptions C38_mul_partial.
Print Assumptions C38_mul_int.
Print Assumptions C38_div_partial.
Print Assumptions C38_abs_partial.
Print Assumptions C38_getIntegers_partial.
Print Assumptions C38_intCount_partial.
Print Assumptions C38_empty_refuted.
Print Assumptions C38_difference_refuted.
Print Assumptions C38_mul_refuted.
Print Assumptions C38_abs_refuted.
Print Assumptions C38_div_refuted.
Print Assumptions C38_integers_refuted.
Print Assumptions C38_rounding_refuted.
Print Assumptions C38_divInt_mod_refuted.
Print Assumptions C38_assign_refuted.
