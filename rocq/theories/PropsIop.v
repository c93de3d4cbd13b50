(** C92: Interval::operate: the dispatch by operator kind, the binary set operations and the power with an
    interval as exponent. *)
From Coq Require Import Reals QArith Qreals Qround Qabs ZArith List Bool Lia Lra.
From Verif Require Import Base KindModel NumModel RoundModel NumSpec NumProofs NumMore FunModel FunSpec FunProofs FunProofs2 FunProofs3 FunProofs4 FunProofs5 FunProofs6 PropsNum PropsFun IopModel.
Open Scope R_scope.
Local Notation r := rn128.

(** the real function an operator kind names *)
Definition named (k : kind) : option (R -> R) :=
  match k with
  | NT_EXP => Some exp | NT_COSH => Some cosh | NT_SINH => Some sinh | NT_TANH => Some tanh | NT_ATAN => Some atan | NT_ASINH => Some arcsinh
  | NT_ASIN => Some asin | NT_ACOSH => Some (fun x => ln (x + sqrt (x * x - 1))) | NT_ATANH => Some (fun x => ln ((1 + x) / (1 - x)) / 2)
  | NT_LN => Some ln | NT_LG => Some (fun x => ln x / ln 10) | NT_LB => Some (fun x => ln x / ln 2) | NT_SQRT | NT_SAFESQRT => Some sqrt
  | _ => None
  end.
(** the members for which an enclosure is promised *)
Definition covered (k : kind) (a : interval) : Prop :=
  match k with
  | NT_ASIN => forall x, memberR a x -> -1 <= x <= 1
  | NT_ACOSH => forall x, memberR a x -> 1 <= x
  | NT_ATANH => exists p q, -1 < p /\ q < 1 /\ forall x, memberR a x -> p <= x <= q
  | NT_LN | NT_LG | NT_LB | NT_SQRT | NT_SAFESQRT => (exists x, memberR a x) /\ forall x, memberR a x -> 0 < x
  | _ => True
  end.
Lemma enc_operate M k op g a : (isEmptyI r a = false -> operate1 M false k a = op a) -> usable a -> (forall x, ~ memberR a x) \/ isEmptyI r a = false ->
  encloses op g a -> encloses (operate1 M false k) g a.
Proof.
  intros D U [N|E] (b & Eb & H); [|exists b; split; [now rewrite (D E)|exact H]].
  exists EmptyI. split; [|intros x Hx; now elim (N x)]. unfold operate1. now rewrite (no_member a U N).
Qed.
Lemma dec_empty a : usable a -> (forall x, ~ memberR a x) \/ isEmptyI r a = false.
Proof.
  intros U. destruct (isEmptyI r a) eqn:E; [left|now right]. intros x Hx. rewrite (member_open a x U Hx) in E. discriminate.
Qed.
(** operate(kind): the result contains the value of the function the kind names, for every member *)
Theorem C92_unary_partial M k f a : correct M -> usable a -> named k = Some f -> covered k a -> encloses (operate1 M false k) f a.
Proof.
  intros C U N K. destruct (C70_everywhere M a C U) as (E1 & E2 & E3 & E4 & E5 & E6 & _).
  destruct k; try discriminate N; injection N as <-; cbn [covered] in K;
    (eapply enc_operate; [intros Q; unfold operate1; rewrite Q; reflexivity|exact U|now apply dec_empty|]); try assumption.
  1-5: destruct K as ((x0 & H0) & P); assert (X : exists x, memberR a x /\ 0 < x) by (exists x0; split; [exact H0|now apply P]);
    destruct (C70_log M a C U X) as (b1 & b2 & b3 & L1 & L2 & L3 & LH); destruct (C70_sqrt_partial M a C U X) as (c1 & c2 & S1 & S2 & SH).
  1: exists c1. 2: exists c2. 3: exists b1. 4: exists b2. 5: exists b3.
  1-5: (split; [assumption|]); intros x Hx; specialize (P x Hx); destruct (LH x Hx P) as (? & ? & ?); destruct (SH x Hx ltac:(lra)); assumption.
  - now apply (proj1 (C70_asin M a C U)).
  - now apply (proj1 (C70_acosh M a C U)).
  - now apply (proj1 (C70_atanh_partial M a C U)).
Qed.
(** negation and absolute value *)
Theorem C92_neg_abs_partial M dbg a q : good [a] -> inhabited a ->
  (exists b, operate1 M dbg NT_NEG a = Ok b /\ (member b q <-> member a (- q)%Q)) /\
  (~ (eqX (val (hi a)) (xopp (val (lo a))) /\ lc a = false /\ rc a = true) ->
   exists b, operate1 M dbg NT_ABS a = Ok b /\ (member b q <-> exists p, member a p /\ (q == Qabs p)%Q)).
Proof.
  intros G (w & Hw). assert (E : isEmptyI r a = false).
  { destruct (isEmptyI r a) eqn:E; [|reflexivity]. now elim (proj1 (C38_isEmpty a G) E w). }
  split; [|intros X]; unfold operate1; rewrite E; eexists; (split; [reflexivity|]); [now apply C38_neg|].
  now apply C38_abs_partial.
Qed.
(** no member: the empty interval for one interval, std::invalid_argument for two *)
Theorem C92_empty M dbg at1 at2 k a b v : good [a; b] -> (~ inhabited a \/ ~ inhabited b) ->
  (~ inhabited a -> operate1 M dbg k a = Ok EmptyI /\ operateN M at1 k a v = Ok EmptyI) /\ operate2 M at2 dbg k a b = Throw InvalidArgument.
Proof.
  intros [G W] N. assert (Ga : good [a]) by (split; [destruct G as [G|G]; [left|right]; intros x [<-|[]]; apply G; cbn; tauto|intros x [<-|[]]; apply W; cbn; tauto]).
  assert (Gb : good [b]) by (split; [destruct G as [G|G]; [left|right]; intros x [<-|[]]; apply G; cbn; tauto|intros x [<-|[]]; apply W; cbn; tauto]).
  assert (Ea : ~ inhabited a -> isEmptyI r a = true) by (intros X; apply (C38_isEmpty a Ga); intros q Hq; apply X; now exists q).
  assert (Eb : ~ inhabited b -> isEmptyI r b = true) by (intros X; apply (C38_isEmpty b Gb); intros q Hq; apply X; now exists q).
  split; [intros X; unfold operate1, operateN; rewrite (Ea X); split; reflexivity|].
  unfold operate2. destruct N as [N|N]; [rewrite (Ea N)|rewrite (Eb N), orb_true_r]; reflexivity.
Qed.
(** the kinds that are no operation on intervals are refused *)
Definition unary_kinds := [NT_NEG; NT_ABS; NT_LB; NT_LN; NT_LG; NT_EXP; NT_SQRT; NT_SAFESQRT; NT_SIN; NT_COS; NT_TAN; NT_COT; NT_SEC; NT_CSC; NT_ASIN; NT_ACOS; NT_ATAN; NT_ACOT; NT_ASEC; NT_ACSC;
  NT_SINH; NT_COSH; NT_TANH; NT_COTH; NT_SECH; NT_CSCH; NT_ASINH; NT_ACOSH; NT_ATANH; NT_ACOTH; NT_ASECH; NT_ACSCH].
Definition scalar_kinds := [NT_ADD; NT_SUB; NT_MUL; NT_DIV_REAL; NT_DIV_INT; NT_MOD; NT_POW; NT_ATAN2].
Definition binary_kinds := scalar_kinds ++ [NT_AND; NT_OR].
Theorem C92_unsupported M dbg at1 at2 k a b v : good [a; b] -> inhabited a -> inhabited b ->
  (~ In k unary_kinds -> operate1 M dbg k a = Throw InvalidArgument) /\ (~ In k scalar_kinds -> operateN M at1 k a v = Throw InvalidArgument) /\
  (~ In k binary_kinds -> operate2 M at2 dbg k a b = Throw InvalidArgument).
Proof.
  intros [G W] (x & Hx) (y & Hy). assert (Ga : good [a]) by (split; [destruct G as [G|G]; [left|right]; intros z [<-|[]]; apply G; cbn; tauto|intros z [<-|[]]; apply W; cbn; tauto]).
  assert (Gb : good [b]) by (split; [destruct G as [G|G]; [left|right]; intros z [<-|[]]; apply G; cbn; tauto|intros z [<-|[]]; apply W; cbn; tauto]).
  assert (Ea : isEmptyI r a = false) by (destruct (isEmptyI r a) eqn:E; [now elim (proj1 (C38_isEmpty a Ga) E x)|reflexivity]).
  assert (Eb : isEmptyI r b = false) by (destruct (isEmptyI r b) eqn:E; [now elim (proj1 (C38_isEmpty b Gb) E y)|reflexivity]).
  unfold operate1, operateN, operate2. rewrite Ea, Eb. cbn [orb].
  repeat split; intros N; destruct k; try reflexivity; elim N; cbn; tauto.
Qed.

(** [both a b]: the two intervals can be compared and have members *)
Definition both (a b : interval) : Prop := good [a; b] /\ inhabited a /\ inhabited b.
Lemma both_open a b : both a b -> isEmptyI r a || isEmptyI r b = false.
Proof.
  intros ([G W] & (x & Hx) & y & Hy). assert (Ga : good [a]) by (split; [destruct G as [G|G]; [left|right]; intros z [<-|[]]; apply G; cbn; tauto|intros z [<-|[]]; apply W; cbn; tauto]).
  assert (Gb : good [b]) by (split; [destruct G as [G|G]; [left|right]; intros z [<-|[]]; apply G; cbn; tauto|intros z [<-|[]]; apply W; cbn; tauto]).
  destruct (isEmptyI r a) eqn:E; [now elim (proj1 (C38_isEmpty a Ga) E x)|]. destruct (isEmptyI r b) eqn:E'; [now elim (proj1 (C38_isEmpty b Gb) E' y)|reflexivity].
Qed.
(** and: exactly the common members, an interval without members if there are none *)
Theorem C92_and M at2 dbg a b : both a b -> exists c, operate2 M at2 dbg NT_AND a b = Ok c /\ forall q, member c q <-> member a q /\ member b q.
Proof.
  intros H. pose proof (both_open a b H) as E. destruct H as (G & _ & _). unfold operate2, i_operAnd. rewrite E. eexists. split; [reflexivity|]. intros q.
  pose proof (C38_isIntersectingWith a b G) as X. destruct (isIntersectingWith r a b); [now apply C38_intersection|].
  split.
  - intros (A & B). unfold above, below in A, B. cbn in A, B. exfalso. unfold ltX in A, B. assert (Q1 : (inject_Z 1 < inject_Z 0)%Q) by (eapply Qlt_trans; eassumption). discriminate Q1.
  - intros K. assert (F : false = true) by (apply X; now exists q). discriminate F.
Qed.
(** or: exactly the members of either, if they have one in common *)
Theorem C92_or_partial M at2 dbg a b : both a b -> (exists w, member a w /\ member b w) ->
  exists c, operate2 M at2 dbg NT_OR a b = Ok c /\ forall q, member c q <-> member a q \/ member b q.
Proof.
  intros H X. pose proof (both_open a b H) as E. destruct H as (G & Na & Nb). unfold operate2, i_operOr. rewrite E. rewrite (proj2 (C38_isIntersectingWith a b G) X). cbn [orb].
  destruct (proj1 (C38_union_partial a b G Na Nb) X) as (u & Eu & _ & Hu). exists u. auto.
Qed.
(** ... otherwise the result is an open interval, that loses members of both *)
Theorem C92_or_refuted M at2 dbg : let a := iv 0 1 in let b := iv 3 4 in both a b /\
  exists c, operate2 M at2 dbg NT_OR a b = Ok c /\ member a 0 /\ ~ member c 0 /\ member b 4 /\ ~ member c 4 /\ member c 2 /\ ~ member a 2 /\ ~ member b 2.
Proof.
  cbn zeta. split; [|eexists; split; [vm_compute; reflexivity|]].
  - split; [split|split].
    + left. intros x [<-|[<-|[]]]; split; cbn; lia.
    + intros x [<-|[<-|[]]]; split; exact I.
    + exists 0%Q. split; cbn; [right; reflexivity|left; reflexivity].
    + exists 3%Q. split; cbn; [right; reflexivity|left; reflexivity].
  - repeat split; cbn; try (right; reflexivity); try (left; reflexivity); try reflexivity; intros (A & B); unfold above, below in A, B; cbn in A, B; unfold leX, ltX, eqX in A, B; try discriminate A; try discriminate B; destruct A as [A|A]; try discriminate A; destruct B as [B|B]; discriminate B.
Qed.
(** + and -: exactly the sums and differences, when the bounds are integers or infinite *)
Theorem C92_add_sub_partial M at2 dbg a b q : both a b ->
  eqX (val (n_add r (lo a) (lo b))) (xs (val (lo a)) (val (lo b))) -> eqX (val (n_add r (hi a) (hi b))) (xs (val (hi a)) (val (hi b))) ->
  eqX (val (n_sub r (lo a) (hi b))) (xs (val (lo a)) (xopp (val (hi b)))) -> eqX (val (n_sub r (hi a) (lo b))) (xs (val (hi a)) (xopp (val (lo b)))) ->
  (exists c, operate2 M at2 dbg NT_ADD a b = Ok c /\ (member c q <-> exists x y, member a x /\ member b y /\ (q == x + y)%Q)) /\
  (exists c, operate2 M at2 dbg NT_SUB a b = Ok c /\ (member c q <-> exists x y, member a x /\ member b y /\ (q == x - y)%Q)).
Proof.
  intros H A1 A2 S1 S2. pose proof (both_open a b H) as E. destruct H as (G & _ & _). unfold operate2. rewrite E.
  split; eexists; (split; [reflexivity|]); [now apply C38_add_partial|now apply C38_sub_partial].
Qed.
(** *: exactly the products, for closed intervals with integer bounds (see [C38_mul_int]) *)
Theorem C92_mul_partial M at2 dbg a b c d x : ~ (a = c /\ b = d /\ (a <= 0 <= b)%Z) -> (a <= b)%Z -> (c <= d)%Z ->
  exists e, operate2 M at2 dbg NT_MUL (iv a b) (iv c d) = Ok e /\ (member e x <-> exists y z, (inject_Z a <= y <= inject_Z b)%Q /\ (inject_Z c <= z <= inject_Z d)%Q /\ (x == y * z)%Q).
Proof.
  intros N H1 H2.
  assert (W : forall u v, (u <= v)%Z -> isEmptyI r (iv u v) = false).
  { intros u v L. destruct (isEmptyI r (iv u v)) eqn:E; [|reflexivity]. exfalso. assert (G : good [iv u v]).
    { split; [right; intros z [<-|[]]; split; exact I|intros z [<-|[]]; split; exact I]. }
    apply (proj1 (C38_isEmpty _ G) E (inject_Z u)). split; unfold above, below; cbn [iv lo hi lc rc val]; unfold leX, ltX, eqX; [right; reflexivity|]. destruct (Z_le_lt_eq_dec u v L) as [K|K]; [left; now rewrite <- Zlt_Qlt|right; now rewrite K]. }
  unfold operate2. rewrite (W a b H1), (W c d H2). cbn [orb]. eexists. split; [reflexivity|]. now apply C38_mul_int.
Qed.
(** a power with an interval as exponent: a point base of at least 2 and an exponent between two non-negative
    integers *)
Theorem C92_pow_partial M at2 v p q c d : (2 <= v <= 2 ^ 128)%Z -> (0 <= p < q)%Z -> (q < 2 ^ 64)%Z -> correct M ->
  exists e, operate2 M at2 false NT_POW (Itv (NI v) (NI v) true true) (Itv (NI p) (NI q) c d) = Ok e /\
  forall x, memberR (Itv (NI p) (NI q) c d) x -> memberR e (Rpower (IZR v) x).
Proof.
  intros Hv Hp Hq C.
  assert (Ev : isEmptyI r (Itv (NI v) (NI v) true true) = false).
  { unfold isEmptyI. cbn [lo hi lc rc negb orb]. rewrite andb_false_r, orb_false_r. unfold n_gt. cbn. rewrite ?Z.ltb_irrefl, ?Z.leb_refl, ?Z.gtb_ltb, ?Z.ltb_irrefl, ?Z.compare_refl. reflexivity. }
  assert (Ee : isEmptyI r (Itv (NI p) (NI q) c d) = false).
  { unfold isEmptyI, n_gt. cbn. rewrite ?Z.gtb_ltb. destruct (Z.eqb_spec p q); [lia|]. rewrite ?orb_false_r. try (destruct (Z.ltb_spec q p); [lia|]); try (destruct (Z.leb_spec p q); [|lia]); reflexivity. }
  assert (Pe : isPoint r (Itv (NI p) (NI q) c d) = false) by (unfold isPoint; cbn; destruct (Z.eqb_spec p q); [lia|]; now rewrite ?andb_false_r).
  assert (Pv : isPoint r (Itv (NI v) (NI v) true true) = true) by (unfold isPoint; cbn; now rewrite Z.eqb_refl).
  unfold operate2. rewrite Ev, Ee. cbn [orb]. unfold i_powI. rewrite Ev, Ee, Pe, Pv. cbn [orb lo].
  destruct (n_eq r (NI v) (NI 0)) eqn:Q0; [cbn in Q0; apply Z.eqb_eq in Q0; lia|]. destruct (n_eq r (NI v) (NI 1)) eqn:Q1; [cbn in Q1; apply Z.eqb_eq in Q1; lia|]. cbn [orb].
  destruct (n_eq r (NI v) (NI 2)) eqn:Q2.
  { cbn in Q2. apply Z.eqb_eq in Q2. subst v.
    assert (U : usable (Itv (NI p) (NI q) c d)) by (split; [|split; [|split; exact I]]; cbn; lia).
    destruct (C70_everywhere M _ C U) as (_ & _ & _ & _ & _ & _ & b & Eb & Hb). exists b. split; [exact Eb|exact Hb]. }
  unfold i_powBase. cbn [lo hi n_isPosInf n_isNegInf n_isInteger andb toInteger]. unfold n_pow.
  destruct (Z.leb_spec 0 p); [|lia]. destruct (Z.ltb_spec p (2 ^ 64)); [|lia]. destruct (Z.leb_spec 0 q); [|lia]. destruct (Z.ltb_spec q (2 ^ 64)); [|lia]. cbn [andb].
  eexists. split; [reflexivity|]. intros x (L & H'). cbn [lo hi lc rc val] in *.
  assert (K : forall n, (0 <= n)%Z -> IZR (v ^ n) = Rpower (IZR v) (IZR n)).
  { intros n Hn. rewrite <- (Z2Nat.id n Hn). rewrite <- pow_IZR. rewrite <- INR_IZR_INZ. symmetry. apply Rpower_pow. apply IZR_lt. lia. }
  assert (V1 : 1 < IZR v) by (apply IZR_lt; lia).
  assert (L' : IZR p <= x) by (cbn in L; rewrite Q2R_Z in L; destruct c; lra).
  assert (Hx2 : x <= IZR q) by (cbn in H'; rewrite Q2R_Z in H'; destruct d; lra).
  assert (Mo : forall s t, s <= t -> Rpower (IZR v) s <= Rpower (IZR v) t).
  { intros s t [St| ->]; [left; now apply Rpower_lt|right; reflexivity]. }
  split; cbn; rewrite Q2R_Z, K by lia; now apply Mo.
Qed.
(** ... a negative base is treated as if the power grew with the exponent: the result has no member *)
Theorem C92_pow_refuted M at2 : let a := iv (-2) (-2) in let e := iv 2 3 in both a e /\ member a (-2) /\ member e 2 /\
  exists c, operate2 M at2 false NT_POW a e = Ok c /\ (forall q, ~ member c q) /\ ~ member c ((-2) * (-2)).
Proof.
  cbn zeta. assert (A : member (iv (-2) (-2)) (-2)) by (split; cbn; right; reflexivity). assert (B : member (iv 2 3) 2) by (split; cbn; [right; reflexivity|left; reflexivity]).
  split; [|split; [exact A|split; [exact B|]]].
  - split; [split|split; [now exists (-2)%Q|now exists 2%Q]]; [left; intros x [<-|[<-|[]]]; split; cbn; lia|intros x [<-|[<-|[]]]; split; exact I].
  - eexists. split; [vm_compute; reflexivity|]. assert (E : forall q, ~ member (Itv (NI 4) (NI (-8)) true true) q); [|split; apply E].
    intros q (X & Y). unfold above, below in X, Y. cbn in X, Y. unfold leX, ltX, eqX in X, Y.
    assert (X' : (inject_Z 4 <= q)%Q) by (destruct X as [X|X]; [now apply Qlt_le_weak|rewrite X; apply Qle_refl]). assert (Y' : (q <= inject_Z (-8))%Q) by (destruct Y as [Y|Y]; [now apply Qlt_le_weak|rewrite Y; apply Qle_refl]).
    assert (Z : (inject_Z 4 <= inject_Z (-8))%Q) by (eapply Qle_trans; eassumption). now elim Z.
Qed.
(** non-vacuity: the hypotheses are met by [1,2] and [2,3]; exp of [1,2] contains e *)
Example both_ex : both (iv 1 2) (iv 2 3) /\ exists w, member (iv 1 2) w /\ member (iv 2 3) w.
Proof.
  split; [split; [split|split]|].
  - left. intros x [<-|[<-|[]]]; split; cbn; lia.
  - intros x [<-|[<-|[]]]; split; exact I.
  - exists 1%Q. split; cbn; [right; reflexivity|left; reflexivity].
  - exists 2%Q. split; cbn; [right; reflexivity|left; reflexivity].
  - exists 2%Q. repeat split; cbn; try (right; reflexivity); left; reflexivity.
Qed.
Example exp_ex : exists b, operate1 M0 false NT_EXP (iv 1 2) = Ok b /\ memberR b (exp 1).
Proof.
  destruct (C92_unary_partial M0 NT_EXP exp (iv 1 2) M0_correct) as (b & E & H); [split; [|split; [|split; exact I]]; cbn; lia|reflexivity|exact I|].
  exists b. split; [exact E|]. apply H. split; cbn; unfold Q2R; cbn; lra.
Qed.
Print Assumptions C92_unary_partial.
Print Assumptions C92_neg_abs_partial.
Print Assumptions C92_empty.
Print Assumptions C92_unsupported.
Print Assumptions C92_and.
Print Assumptions C92_or_partial.
Print Assumptions C92_or_refuted.
Print Assumptions C92_add_sub_partial.
Print Assumptions C92_mul_partial.
Print Assumptions C92_pow_partial.
Print Assumptions C92_pow_refuted.
