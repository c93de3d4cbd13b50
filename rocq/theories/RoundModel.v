(** Rounding of a rational to a binary floating-point number of p bits, to nearest, ties to even
    (MPFR_RNDN, as used everywhere in src/number.cpp; the exponent is unbounded), and its properties. *)
From Coq Require Import QArith Qround Qabs Qpower ZArith List Bool Lia Lqa.
From Verif Require Import Base NumModel.
Open Scope Z_scope.

Definition p2 (e : Z) : Q := Qpower 2 e.
(** the integer logarithm of a positive rational: 2^m <= q < 2^(m+1) *)
Definition mag (q : Q) : Z :=
  let k := Z.log2 (Qnum q) - Z.log2 (Z.pos (Qden q)) in
  if Qle_bool (p2 k) q then k else k - 1.
Definition rnd_pos (p : Z) (q : Q) : Q :=
  let e := mag q - p + 1 in (inject_Z (Qeven (q * p2 (- e))) * p2 e)%Q.
Definition rn (p : Z) (q : Q) : Q :=
  match Qnum q with Z0 => 0%Q | Zpos _ => rnd_pos p q | Zneg _ => (- rnd_pos p (- q))%Q end.
(** the default precision (number.h) *)
Definition rn128 : Q -> Q := rn 128.

(** ** powers of two *)
Lemma p2_pos e : (0 < p2 e)%Q. Proof. apply Qpower_0_lt. reflexivity. Qed.
Lemma p2_add a b : (p2 (a + b) == p2 a * p2 b)%Q. Proof. apply Qpower_plus. discriminate. Qed.
Lemma p2_opp a : (p2 a * p2 (- a) == 1)%Q. Proof. rewrite <- p2_add, Z.add_opp_diag_r. reflexivity. Qed.
Lemma p2_succ a : (p2 (a + 1) == 2 * p2 a)%Q. Proof. rewrite p2_add. change (p2 1) with 2%Q. ring. Qed.
Lemma p2_Z n : 0 <= n -> (p2 n == inject_Z (2 ^ n))%Q.
Proof. intros H. unfold p2. change 2%Q with (inject_Z 2). rewrite <- Zpower_Qpower by exact H. reflexivity. Qed.
Lemma p2_le a b : a <= b -> (p2 a <= p2 b)%Q.
Proof.
  intros H. replace b with (a + (b - a)) by lia. rewrite p2_add. rewrite (p2_Z (b - a)) by lia.
  assert (1 <= inject_Z (2 ^ (b - a)))%Q. { change 1%Q with (inject_Z 1). rewrite <- Zle_Qle. pose proof (Z.pow_pos_nonneg 2 (b - a)). lia. }
  pose proof (p2_pos a). nra.
Qed.
Lemma p2_lt a b : a < b -> (p2 a < p2 b)%Q.
Proof. intros H. apply Qlt_le_trans with (p2 (a + 1)); [|apply p2_le; lia]. rewrite p2_succ. pose proof (p2_pos a). lra. Qed.
Lemma p2_lt_inv a b : (p2 a < p2 b)%Q -> a < b.
Proof. intros H. destruct (Z.lt_ge_cases a b) as [|K]; [assumption|]. apply p2_le in K. lra. Qed.

(** ** the logarithm *)
Lemma mag_spec q : (0 < q)%Q -> (p2 (mag q) <= q < p2 (mag q + 1))%Q.
Proof.
  intros H. destruct q as [n d]. assert (Hn : 0 < n) by (unfold Qlt in H; cbn in H; lia). clear H.
  pose proof (Z.log2_spec n Hn) as [N1 N2]. pose proof (Z.log2_spec (Z.pos d) ltac:(lia)) as [D1 D2].
  pose proof (Z.log2_nonneg n) as LN. pose proof (Z.log2_nonneg (Z.pos d)) as LD.
  set (ln := Z.log2 n) in *. set (ld := Z.log2 (Z.pos d)) in *.
  assert (Q1 : (p2 ln <= inject_Z n)%Q) by (rewrite p2_Z by lia; rewrite <- Zle_Qle; exact N1).
  assert (Q2 : (inject_Z n < p2 (ln + 1))%Q) by (rewrite p2_Z by lia; rewrite <- Zlt_Qlt; exact N2).
  assert (Q3 : (p2 ld <= inject_Z (Z.pos d))%Q) by (rewrite p2_Z by lia; rewrite <- Zle_Qle; exact D1).
  assert (Q4 : (inject_Z (Z.pos d) < p2 (ld + 1))%Q) by (rewrite p2_Z by lia; rewrite <- Zlt_Qlt; exact D2).
  assert (E : (n # d == inject_Z n / inject_Z (Z.pos d))%Q) by apply Qmake_Qdiv.
  assert (Hd : (0 < inject_Z (Z.pos d))%Q) by (change 0%Q with (inject_Z 0); rewrite <- Zlt_Qlt; lia).
  assert (E' : ((n # d) * inject_Z (Z.pos d) == inject_Z n)%Q) by (rewrite E; field; lra).
  unfold mag. cbn [Qnum Qden]. fold ln ld. destruct (Qle_bool (p2 (ln - ld)) (n # d)) eqn:B.
  - apply Qle_bool_iff in B. split; [exact B|].
    destruct (Qlt_le_dec (n # d) (p2 (ln - ld + 1))) as [|K]; [assumption|exfalso].
    assert (X : (p2 (ln + 1) == p2 (ln - ld + 1) * p2 ld)%Q) by (rewrite <- p2_add; replace (ln - ld + 1 + ld) with (ln + 1) by lia; reflexivity).
    pose proof (p2_pos ld). pose proof (p2_pos (ln - ld + 1)). assert (p2 (ln - ld + 1) * p2 ld <= (n # d) * inject_Z (Z.pos d))%Q by nra. lra.
  - assert (K : (n # d < p2 (ln - ld))%Q). { apply Qnot_le_lt. intros C. apply Qle_bool_iff in C. congruence. }
    split; [|replace (ln - ld - 1 + 1) with (ln - ld) by lia; exact K].
    destruct (Qlt_le_dec (n # d) (p2 (ln - ld - 1))) as [K'|]; [exfalso|assumption].
    assert (X : (p2 ln == p2 (ln - ld - 1) * p2 (ld + 1))%Q) by (rewrite <- p2_add; replace (ln - ld - 1 + (ld + 1)) with ln by lia; reflexivity).
    pose proof (p2_pos (ld + 1)). pose proof (p2_pos (ln - ld - 1)).
    assert (0 < n # d)%Q by (unfold Qlt; cbn; lia). assert ((n # d) * inject_Z (Z.pos d) < p2 (ln - ld - 1) * p2 (ld + 1))%Q by nra. lra.
Qed.
Lemma mag_uniq q m : (p2 m <= q < p2 (m + 1))%Q -> mag q = m.
Proof.
  intros [H1 H2]. assert (0 < q)%Q by (pose proof (p2_pos m); lra). destruct (mag_spec q H) as [H3 H4].
  assert (p2 (mag q) < p2 (m + 1))%Q as A by lra. apply p2_lt_inv in A. assert (p2 m < p2 (mag q + 1))%Q as B by lra. apply p2_lt_inv in B. lia.
Qed.
Lemma mag_le a b : (0 < a)%Q -> (a <= b)%Q -> mag a <= mag b.
Proof.
  intros H1 H2. destruct (mag_spec a H1) as [A _]. destruct (mag_spec b ltac:(lra)) as [_ B].
  assert (p2 (mag a) < p2 (mag b + 1))%Q as C by lra. apply p2_lt_inv in C. lia.
Qed.

(** ** the nearest integer *)
Lemma Qfloor_bounds x : (inject_Z (Qfloor x) <= x < inject_Z (Qfloor x) + 1)%Q.
Proof. split; [apply Qfloor_le|]. pose proof (Qlt_floor x) as H. rewrite inject_Z_plus in H. exact H. Qed.
Lemma Qfloor_uniq x z : (inject_Z z <= x < inject_Z z + 1)%Q -> Qfloor x = z.
Proof.
  intros [H1 H2]. destruct (Qfloor_bounds x) as [H3 H4].
  assert (inject_Z (Qfloor x) < inject_Z (z + 1))%Q as A by (rewrite inject_Z_plus; change (inject_Z 1) with 1%Q; lra). rewrite <- Zlt_Qlt in A.
  assert (inject_Z z < inject_Z (Qfloor x + 1))%Q as B by (rewrite inject_Z_plus; change (inject_Z 1) with 1%Q; lra). rewrite <- Zlt_Qlt in B. lia.
Qed.
Lemma Qfloor_Z z : Qfloor (inject_Z z) = z. Proof. apply Qfloor_uniq. lra. Qed.
Lemma Qeven_cases x : let f := Qfloor x in
  (Qeven x = f /\ (x <= inject_Z f + (1 # 2))%Q) \/ (Qeven x = f + 1 /\ (inject_Z f + (1 # 2) <= x)%Q).
Proof.
  unfold Qeven. cbv zeta. destruct (Qcompare_spec (x - inject_Z (Qfloor x)) (1 # 2)) as [E|E|E].
  - destruct (Z.even _); [left|right]; (split; [reflexivity|lra]).
  - left. split; [reflexivity|lra].
  - right. split; [reflexivity|lra].
Qed.
Lemma Qeven_near x : (- (1 # 2) <= inject_Z (Qeven x) - x <= 1 # 2)%Q.
Proof.
  destruct (Qfloor_bounds x) as [H1 H2]. destruct (Qeven_cases x) as [[-> H]|[-> H]]; rewrite ?inject_Z_plus; change (inject_Z 1) with 1%Q; lra.
Qed.
Lemma Qeven_mono x y : (x <= y)%Q -> Qeven x <= Qeven y.
Proof.
  intros H. pose proof (Qfloor_resp_le x y H) as F. destruct (Z.eq_dec (Qfloor x) (Qfloor y)) as [E|N].
  - unfold Qeven. rewrite <- E. destruct (Qcompare_spec (x - inject_Z (Qfloor x)) (1 # 2)) as [A|A|A];
      destruct (Qcompare_spec (y - inject_Z (Qfloor x)) (1 # 2)) as [B|B|B]; destruct (Z.even (Qfloor x)); try lia; exfalso; lra.
  - destruct (Qeven_cases x) as [[-> _]|[-> _]]; destruct (Qeven_cases y) as [[-> _]|[-> _]]; lia.
Qed.
Lemma Qeven_Z z x : (x == inject_Z z)%Q -> Qeven x = z.
Proof.
  intros H. pose proof (Qeven_near x) as N. assert (inject_Z (Qeven x) < inject_Z (z + 1))%Q as A by (rewrite inject_Z_plus; change (inject_Z 1) with 1%Q; lra).
  assert (inject_Z z < inject_Z (Qeven x + 1))%Q as B by (rewrite inject_Z_plus; change (inject_Z 1) with 1%Q; lra). rewrite <- Zlt_Qlt in A, B. lia.
Qed.

(** ** positive numbers *)
Section P.
Context (p : Z) (Hp : 1 <= p).
Lemma scaled q : (0 < q)%Q -> let e := mag q - p + 1 in (p2 (p - 1) <= q * p2 (- e) < p2 p)%Q.
Proof.
  intros H. cbv zeta. destruct (mag_spec q H) as [A B]. set (e := mag q - p + 1).
  assert (X : (p2 (mag q) * p2 (- e) == p2 (p - 1))%Q) by (rewrite <- p2_add; replace (mag q + - e) with (p - 1) by (unfold e; lia); reflexivity).
  assert (Y : (p2 (mag q + 1) * p2 (- e) == p2 p)%Q) by (rewrite <- p2_add; replace (mag q + 1 + - e) with p by (unfold e; lia); reflexivity).
  pose proof (p2_pos (- e)). split; [rewrite <- X|rewrite <- Y]; [apply Qmult_le_compat_r; lra|apply Qmult_lt_compat_r; lra].
Qed.
Lemma scaled_int q : (0 < q)%Q -> let e := mag q - p + 1 in 2 ^ (p - 1) <= Qeven (q * p2 (- e)) <= 2 ^ p.
Proof.
  intros H. cbv zeta. destruct (scaled q H) as [A B]. cbv zeta in A, B. rewrite (p2_Z (p - 1)) in A by lia. rewrite (p2_Z p) in B by lia. split.
  - rewrite <- (Qeven_Z (2 ^ (p - 1)) (inject_Z (2 ^ (p - 1)))) by reflexivity. apply Qeven_mono. exact A.
  - rewrite <- (Qeven_Z (2 ^ p) (inject_Z (2 ^ p))) by reflexivity. apply Qeven_mono. lra.
Qed.
Lemma rnd_pos_bounds q : (0 < q)%Q -> (p2 (mag q) <= rnd_pos p q <= p2 (mag q + 1))%Q.
Proof.
  intros H. unfold rnd_pos. set (e := mag q - p + 1). destruct (scaled_int q H) as [A B]. fold e in A, B.
  assert (X : (p2 (mag q) == inject_Z (2 ^ (p - 1)) * p2 e)%Q) by (rewrite <- p2_Z by lia; rewrite <- p2_add; replace (p - 1 + e) with (mag q) by (unfold e; lia); reflexivity).
  assert (Y : (p2 (mag q + 1) == inject_Z (2 ^ p) * p2 e)%Q) by (rewrite <- p2_Z by lia; rewrite <- p2_add; replace (p + e) with (mag q + 1) by (unfold e; lia); reflexivity).
  rewrite X, Y. pose proof (p2_pos e). rewrite Zle_Qle in A, B. split; apply Qmult_le_compat_r; lra.
Qed.
Lemma rnd_pos_pos q : (0 < q)%Q -> (0 < rnd_pos p q)%Q.
Proof. intros H. destruct (rnd_pos_bounds q H) as [A _]. pose proof (p2_pos (mag q)). lra. Qed.
Lemma rnd_pos_mono a b : (0 < a)%Q -> (a <= b)%Q -> (rnd_pos p a <= rnd_pos p b)%Q.
Proof.
  intros H1 H2. pose proof (mag_le a b H1 H2) as M. destruct (Z.eq_dec (mag a) (mag b)) as [E|N].
  - unfold rnd_pos. rewrite E. set (e := mag b - p + 1). pose proof (p2_pos e). pose proof (p2_pos (- e)).
    apply Qmult_le_compat_r; [|lra]. rewrite <- Zle_Qle. apply Qeven_mono. apply Qmult_le_compat_r; lra.
  - destruct (rnd_pos_bounds a H1) as [_ A]. destruct (rnd_pos_bounds b ltac:(lra)) as [B _].
    pose proof (p2_le (mag a + 1) (mag b) ltac:(lia)). lra.
Qed.
Lemma rnd_pos_err q : (0 < q)%Q -> (Qabs (rnd_pos p q - q) <= q * p2 (- p))%Q.
Proof.
  intros H. unfold rnd_pos. set (e := mag q - p + 1). set (x := (q * p2 (- e))%Q). pose proof (Qeven_near x) as N.
  assert (E : (q == x * p2 e)%Q). { unfold x. rewrite <- Qmult_assoc, (Qmult_comm (p2 (- e))), p2_opp. ring. }
  assert (E1 : (inject_Z (Qeven x) * p2 e - q == (inject_Z (Qeven x) - x) * p2 e)%Q) by (rewrite E at 1; ring).
  rewrite E1. pose proof (p2_pos e) as P. destruct (mag_spec q H) as [A _].
  assert (X : (p2 (mag q) * p2 (- p) == (1 # 2) * p2 e)%Q).
  { rewrite <- p2_add. replace (mag q + - p) with (e - 1) by (unfold e; lia). replace e with (e - 1 + 1) at 2 by lia. rewrite p2_succ. ring. }
  assert (p2 (mag q) * p2 (- p) <= q * p2 (- p))%Q. { apply Qmult_le_compat_r; [exact A|]. apply Qlt_le_weak, p2_pos. }
  apply Qabs_Qle_condition. split; nra.
Qed.
(** representable: m * 2^e with at most p bits *)
Definition repr (q : Q) : Prop := exists m e, Z.abs m <= 2 ^ p /\ (q == inject_Z m * p2 e)%Q.
Lemma rnd_pos_repr q : (0 < q)%Q -> repr (rnd_pos p q).
Proof.
  intros H. destruct (scaled_int q H) as [A B]. exists (Qeven (q * p2 (- (mag q - p + 1)))), (mag q - p + 1).
  split; [|reflexivity]. pose proof (Z.pow_pos_nonneg 2 (p - 1)). lia.
Qed.
Lemma rnd_pos_exact q : (0 < q)%Q -> repr q -> (rnd_pos p q == q)%Q.
Proof.
  intros H (m & k & Hm & E). unfold rnd_pos. set (e := mag q - p + 1).
  assert (G : exists z, (q * p2 (- e) == inject_Z z)%Q).
  { pose proof (p2_pos k) as Pk. assert (Hm0 : 0 < m).
    { destruct (Z.lt_ge_cases 0 m) as [|K]; [assumption|]. exfalso. rewrite Zle_Qle in K. change (inject_Z 0) with 0%Q in K. nra. }
    destruct (Z.eq_dec m (2 ^ p)) as [Em|Nm].
    - assert (M : mag q = p + k). { apply mag_uniq. rewrite E, Em, <- p2_Z by lia. rewrite <- p2_add. split; [apply Qle_refl|apply p2_lt; lia]. }
      exists (2 ^ (p - 1)). rewrite E, Em, <- !p2_Z by lia. rewrite <- !p2_add. replace (p + k + - e) with (p - 1) by (unfold e; lia). reflexivity.
    - assert (M : mag q < p + k).
      { destruct (mag_spec q H) as [A _]. apply p2_lt_inv. apply Qle_lt_trans with q; [exact A|]. rewrite E, p2_add, (p2_Z p) by lia.
        apply Qmult_lt_compat_r; [exact Pk|]. rewrite <- Zlt_Qlt. lia. }
      exists (m * 2 ^ (k - e)). rewrite inject_Z_mult, <- p2_Z by (unfold e; lia). rewrite E, <- Qmult_assoc, <- p2_add.
      replace (k + - e) with (k - e) by lia. reflexivity. }
  destruct G as [z Ez]. rewrite (Qeven_Z z _ Ez), <- Ez, <- Qmult_assoc, (Qmult_comm (p2 (- e))), p2_opp. ring.
Qed.
Lemma rnd_pos_eq a b : (0 < a)%Q -> (a == b)%Q -> (rnd_pos p a == rnd_pos p b)%Q.
Proof. intros H E. apply Qle_antisym; apply rnd_pos_mono; lra. Qed.

(** ** all numbers *)
Lemma rn_cases q : ((q == 0)%Q /\ rn p q = 0%Q) \/ ((0 < q)%Q /\ rn p q = rnd_pos p q) \/ ((q < 0)%Q /\ rn p q = (- rnd_pos p (- q))%Q).
Proof.
  destruct q as [[|n|n] d]; unfold rn; cbn [Qnum].
  - left. split; reflexivity.
  - right. left. split; [reflexivity|reflexivity].
  - right. right. split; [reflexivity|reflexivity].
Qed.
Lemma rn_mono a b : (a <= b)%Q -> (rn p a <= rn p b)%Q.
Proof.
  intros H. destruct (rn_cases a) as [[A ->]|[[A ->]|[A ->]]]; destruct (rn_cases b) as [[B ->]|[[B ->]|[B ->]]]; try (exfalso; lra); try lra.
  - pose proof (rnd_pos_pos b B). lra.
  - apply rnd_pos_mono; assumption.
  - pose proof (rnd_pos_pos (- a) ltac:(lra)). lra.
  - pose proof (rnd_pos_pos (- a) ltac:(lra)). pose proof (rnd_pos_pos b B). lra.
  - pose proof (rnd_pos_mono (- b) (- a) ltac:(lra) ltac:(lra)). lra.
Qed.
Lemma rn_eq a b : (a == b)%Q -> (rn p a == rn p b)%Q.
Proof. intros H. apply Qle_antisym; apply rn_mono; lra. Qed.
Lemma rn_err q : (Qabs (rn p q - q) <= Qabs q * p2 (- p))%Q.
Proof.
  destruct (rn_cases q) as [[A ->]|[[A ->]|[A ->]]].
  - assert (E : (0 - q == 0)%Q) by lra. rewrite E, (Qabs_pos 0) by lra. apply Qmult_le_0_compat; [apply Qabs_nonneg|apply Qlt_le_weak, p2_pos].
  - rewrite (Qabs_pos q) by lra. now apply rnd_pos_err.
  - rewrite (Qabs_neg q) by lra. pose proof (rnd_pos_err (- q) ltac:(lra)) as H.
    assert (E : (- rnd_pos p (- q) - q == - (rnd_pos p (- q) - - q))%Q) by ring. rewrite E, Qabs_opp. exact H.
Qed.
Lemma repr_opp q : repr q -> repr (- q).
Proof. intros (m & e & H & E). exists (- m), e. split; [lia|]. rewrite E, inject_Z_opp. ring. Qed.
Lemma repr_eq a b : (a == b)%Q -> repr a -> repr b.
Proof. intros H (m & e & K & E). exists m, e. split; [exact K|]. now rewrite <- H. Qed.
Lemma repr_0 : repr 0. Proof. exists 0, 0. split; [pose proof (Z.pow_nonneg 2 p); lia|reflexivity]. Qed.
Lemma rn_repr q : repr (rn p q).
Proof.
  destruct (rn_cases q) as [[A ->]|[[A ->]|[A ->]]]; [apply repr_0|now apply rnd_pos_repr|apply repr_opp, rnd_pos_repr; lra].
Qed.
Lemma rn_exact q : repr q -> (rn p q == q)%Q.
Proof.
  intros H. destruct (rn_cases q) as [[A ->]|[[A ->]|[A ->]]]; [now rewrite A|now apply rnd_pos_exact|].
  rewrite (rnd_pos_exact (- q)); [ring|lra|now apply repr_opp].
Qed.
Lemma repr_Z z : Z.abs z <= 2 ^ p -> repr (inject_Z z).
Proof. intros H. exists z, 0. split; [exact H|]. change (p2 0) with 1%Q. ring. Qed.
Lemma rn_opp q : (rn p (- q) == - rn p q)%Q.
Proof.
  destruct (rn_cases q) as [[A ->]|[[A ->]|[A ->]]].
  - rewrite (rn_eq (- q) 0) by lra. reflexivity.
  - destruct (rn_cases (- q)) as [[B ->]|[[B ->]|[B ->]]]; try (exfalso; lra). rewrite (rnd_pos_eq (- - q) q); [reflexivity|lra|ring].
  - destruct (rn_cases (- q)) as [[B ->]|[[B ->]|[B ->]]]; try (exfalso; lra). ring.
Qed.
(** nothing representable is nearer *)
Lemma rn_nearest q z : repr z -> (Qabs (rn p q - q) <= Qabs (z - q))%Q.
Proof.
  assert (Pos : forall a y, (0 < a)%Q -> repr y -> (Qabs (rnd_pos p a - a) <= Qabs (y - a))%Q).
  { intros a y Ha Hy. set (e := mag a - p + 1). set (x := (a * p2 (- e))%Q). pose proof (p2_pos e) as Pe.
    assert (Ex : (a == x * p2 e)%Q). { unfold x. rewrite <- Qmult_assoc, (Qmult_comm (p2 (- e))), p2_opp. ring. }
    assert (E1 : (rnd_pos p a - a == (inject_Z (Qeven x) - x) * p2 e)%Q). { unfold rnd_pos. fold e x. rewrite Ex at 1. ring. }
    assert (Near : forall k, (Qabs (inject_Z (Qeven x) - x) <= Qabs (inject_Z k - x))%Q).
    { intros k. destruct (Qfloor_bounds x) as [F1 F2]. destruct (Z.le_gt_cases k (Qfloor x)) as [K|K].
      - rewrite Zle_Qle in K. rewrite (Qabs_neg (inject_Z k - x)) by lra. apply Qabs_Qle_condition.
        destruct (Qeven_cases x) as [[-> H]|[-> H]]; rewrite ?inject_Z_plus; change (inject_Z 1) with 1%Q; lra.
      - assert (K' : Qfloor x + 1 <= k) by lia. rewrite Zle_Qle, inject_Z_plus in K'. change (inject_Z 1) with 1%Q in K'.
        rewrite (Qabs_pos (inject_Z k - x)) by lra. apply Qabs_Qle_condition.
        destruct (Qeven_cases x) as [[-> H]|[-> H]]; rewrite ?inject_Z_plus; change (inject_Z 1) with 1%Q; lra. }
    rewrite E1, Qabs_Qmult, (Qabs_pos (p2 e)) by lra.
    (* y on the grid of a, or at least a power of two away *)
    destruct (Qlt_le_dec y (p2 (mag a))) as [L|L].
    - destruct (mag_spec a Ha) as [M1 _]. apply Qle_trans with (Qabs (inject_Z (2 ^ (p - 1)) - x) * p2 e)%Q; [apply Qmult_le_compat_r; [apply Near|lra]|].
      rewrite <- (Qabs_pos (p2 e)) at 1 by lra. rewrite <- Qabs_Qmult.
      assert (E2 : ((inject_Z (2 ^ (p - 1)) - x) * p2 e == p2 (mag a) - a)%Q).
      { rewrite <- p2_Z by lia. assert (T : (p2 (p - 1) * p2 e == p2 (mag a))%Q) by (rewrite <- p2_add; replace (p - 1 + e) with (mag a) by (unfold e; lia); reflexivity). rewrite <- T. clear - Ex. clearbody x e. lra. }
      rewrite E2, (Qabs_neg (p2 (mag a) - a)) by lra. rewrite (Qabs_neg (y - a)) by lra. lra.
    - assert (Hy0 : (0 < y)%Q) by (pose proof (p2_pos (mag a)); lra).
      assert (G : exists k, (y == inject_Z k * p2 e)%Q).
      { destruct (mag_spec y Hy0) as [_ M2]. assert (mag a <= mag y). { apply Z.lt_succ_r. apply p2_lt_inv. unfold Z.succ. lra. }
        pose proof (rnd_pos_exact y Hy0 Hy) as R. unfold rnd_pos in R. set (ey := mag y - p + 1) in *.
        exists (Qeven (y * p2 (- ey)) * 2 ^ (ey - e)). rewrite inject_Z_mult, <- p2_Z by (unfold ey, e; lia). rewrite <- Qmult_assoc, <- p2_add.
        replace (ey - e + e) with ey by lia. symmetry. exact R. }
      destruct G as [k Ek]. assert (E2 : (y - a == (inject_Z k - x) * p2 e)%Q) by (rewrite Ek, Ex at 1; ring).
      rewrite E2, Qabs_Qmult, (Qabs_pos (p2 e)) by lra. apply Qmult_le_compat_r; [apply Near|lra]. }
  intros Hz. destruct (rn_cases q) as [[A ->]|[[A ->]|[A ->]]].
  - assert (E : (0 - q == 0)%Q) by lra. rewrite E. rewrite (Qabs_pos 0) by lra. apply Qabs_nonneg.
  - now apply Pos.
  - pose proof (Pos (- q) (- z) ltac:(lra) (repr_opp z Hz))%Q as H.
    assert (E : (- rnd_pos p (- q) - q == - (rnd_pos p (- q) - - q))%Q) by ring. rewrite E, Qabs_opp.
    assert (E' : (- z - - q == - (z - q))%Q) by ring. rewrite E', Qabs_opp in H. exact H.
Qed.
End P.
