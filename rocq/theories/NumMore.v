(** Number arithmetic, rounding functions, enumeration of the integers of an interval. *)
From Coq Require Import QArith Qround Qabs Qpower ZArith List Bool Lia Lqa.
From Verif Require Import Base NumModel RoundModel NumSpec NumProofs.
Open Scope Z_scope.

Definition isINT (n : number) : Prop := match n with NI _ => True | NR _ => False end.
(** z is the best 128-bit approximation of the exact value v *)
Definition rounded (z v : Q) : Prop :=
  repr 128 z /\ (forall w, repr 128 w -> (Qabs (z - v) <= Qabs (w - v))%Q) /\ (Qabs (z - v) <= Qabs v * p2 (-128))%Q.
(** the arguments are used exactly: both INT, or both fit into 128 bits *)
Definition args (a b : number) : Prop := (isINT a /\ isINT b) \/ (fits a /\ fits b).

Lemma hp : 1 <= 128. Proof. lia. Qed.
Lemma rn_rounded v : rounded (rn128 v) v.
Proof. split; [apply (rn_repr 128 hp)|]. split; [intros w H; apply (rn_nearest 128 hp); exact H|apply (rn_err 128)]. Qed.
Lemma rounded_eq z v v' : (v == v')%Q -> rounded z v -> rounded z v'.
Proof.
  intros E (R1 & R2 & R3). split; [exact R1|]. assert (Q1 : forall u, (u - v == u - v')%Q) by (intros; lra).
  split; [intros w H; rewrite <- !Q1; auto|rewrite <- Q1, <- E; exact R3].
Qed.
Lemma real_fin a x : fits a -> finite a x -> exists x', toReal rn128 a = Fin x' /\ (x' == x)%Q.
Proof.
  intros A F. pose proof (fits_real a A) as E. unfold finite in F. destruct (toReal rn128 a) as [|s|x'] eqn:T; destruct (val a) as [|t|y]; cbn in E, F; try contradiction.
  exists x'. split; [reflexivity|]. now rewrite E.
Qed.
Lemma fin_NI z x : finite (NI z) x -> (x == inject_Z z)%Q.
Proof. intros H. unfold finite in H. cbn in H. now symmetry. Qed.
Definition op2 (f : number -> number -> number) (g : xr -> xr -> xr) (h : Q -> Q -> Q) (k : Z -> Z -> Z) : Prop :=
  (forall x y, f (NI x) (NI y) = NI (k x y)) /\
  (forall a b, ~ (isINT a /\ isINT b) -> f a b = NR (g (toReal rn128 a) (toReal rn128 b))) /\
  (forall x y, g (Fin x) (Fin y) = Fin (rn128 (h x y))) /\
  (forall x y, (inject_Z (k x y) == h (inject_Z x) (inject_Z y))%Q) /\
  (forall x x' y y', (x == x')%Q -> (y == y')%Q -> (h x y == h x' y')%Q).
Lemma op2_spec f g h k a b x y : op2 f g h k -> args a b -> finite a x -> finite b y ->
  exists z, finite (f a b) z /\ (isINT a -> isINT b -> (z == h x y)%Q) /\ (~ (isINT a /\ isINT b) -> rounded z (h x y)).
Proof.
  intros (O1 & O2 & O3 & O4 & O5) Ar Fa Fb. destruct a as [za|xa], b as [zb|xb].
  - exists (inject_Z (k za zb)). rewrite O1. split; [reflexivity|]. split; [intros _ _|intros N; exfalso; apply N; split; exact I].
    rewrite O4. apply O5; now apply fin_NI in Fa, Fb.
  - destruct Ar as [[_ []]|[A B]]. destruct (real_fin _ _ A Fa) as (x' & Ex & X), (real_fin _ _ B Fb) as (y' & Ey & Y).
    rewrite O2 by (intros [_ []]). rewrite Ex, Ey, O3. exists (rn128 (h x' y')). split; [reflexivity|]. split; [intros _ []|]. intros _. apply (rounded_eq _ (h x' y')); [now apply O5|apply rn_rounded].
  - destruct Ar as [[[] _]|[A B]]. destruct (real_fin _ _ A Fa) as (x' & Ex & X), (real_fin _ _ B Fb) as (y' & Ey & Y).
    rewrite O2 by (intros [[] _]). rewrite Ex, Ey, O3. exists (rn128 (h x' y')). split; [reflexivity|]. split; [intros []|]. intros _. apply (rounded_eq _ (h x' y')); [now apply O5|apply rn_rounded].
  - destruct Ar as [[[] _]|[A B]]. destruct (real_fin _ _ A Fa) as (x' & Ex & X), (real_fin _ _ B Fb) as (y' & Ey & Y).
    rewrite O2 by (intros [[] _]). rewrite Ex, Ey, O3. exists (rn128 (h x' y')). split; [reflexivity|]. split; [intros []|]. intros _. apply (rounded_eq _ (h x' y')); [now apply O5|apply rn_rounded].
Qed.
Lemma op2_add : op2 (n_add rn128) (xadd rn128) Qplus Z.add.
Proof. split; [reflexivity|]. split; [intros [|] [|] N; try reflexivity; exfalso; apply N; split; exact I|]. split; [reflexivity|]. split; [intros; rewrite inject_Z_plus; reflexivity|]. intros x x' y y' H K. lra. Qed.
Lemma op2_sub : op2 (n_sub rn128) (xsub rn128) Qminus Z.sub.
Proof. split; [reflexivity|]. split; [intros [|] [|] N; try reflexivity; exfalso; apply N; split; exact I|]. split; [reflexivity|]. split; [intros x y; unfold Z.sub, Qminus; rewrite inject_Z_plus, inject_Z_opp; reflexivity|]. intros x x' y y' H K. lra. Qed.
Lemma op2_mul : op2 (n_mul rn128) (xmul rn128) Qmult Z.mul.
Proof. split; [reflexivity|]. split; [intros [|] [|] N; try reflexivity; exfalso; apply N; split; exact I|]. split; [reflexivity|]. split; [intros; rewrite inject_Z_mult; reflexivity|]. intros x x' y y' H K. now rewrite H, K. Qed.
(** division: an INT quotient when it is exact, else the rounded real quotient *)
Lemma div_spec a b x y : fits a -> fits b -> finite a x -> finite b y -> (~ y == 0)%Q ->
  exists q z, n_div rn128 a b = Ok q /\ finite q z /\ ((isINT q /\ (z == x / y)%Q) \/ (~ isINT q /\ rounded z (x / y))).
Proof.
  intros A B Fa Fb N. destruct (real_fin _ _ A Fa) as (x' & Ex & X), (real_fin _ _ B Fb) as (y' & Ey & Y).
  assert (R : exists q z, Ok (NR (xdiv rn128 (toReal rn128 a) (toReal rn128 b))) = Ok q /\ finite q z /\ ((isINT q /\ (z == x / y)%Q) \/ (~ isINT q /\ rounded z (x / y)))).
  { rewrite Ex, Ey. cbn [xdiv]. destruct (qeq_spec y' 0) as [E|E]; [exfalso; apply N; now rewrite <- Y|]. eexists _, (rn128 (x' / y')). split; [reflexivity|]. split; [reflexivity|]. right. split; [intros []|]. apply (rounded_eq _ (x' / y')); [now rewrite X, Y|apply rn_rounded]. }
  destruct a as [za|xa], b as [zb|xb]; try exact R. apply fin_NI in Fa, Fb. unfold n_div. destruct (Z.eqb_spec zb 0) as [->|Nz]; [exfalso; apply N; exact Fb|].
  destruct (Z.eqb_spec (Z.rem za zb) 0) as [D|D]; [|exact R]. exists (NI (Z.quot za zb)), (inject_Z (Z.quot za zb)). split; [reflexivity|]. split; [reflexivity|]. left. split; [exact I|].
  rewrite Fa, Fb. pose proof (Z.quot_rem' za zb) as Q. rewrite D, Z.add_0_r in Q. rewrite Q at 2. rewrite inject_Z_mult. field. intros K. apply N. now rewrite Fb.
Qed.
Lemma div_zero a b y : finite b y -> (y == 0)%Q -> fits a -> fits b ->
  (isINT a -> isINT b -> n_div rn128 a b = Throw DomainError) /\
  (~ (isINT a /\ isINT b) -> exists q, n_div rn128 a b = Ok (NR q) /\ (forall z, ~ finite (NR q) z)).
Proof.
  intros Fb E A B. destruct (real_fin _ _ B Fb) as (y' & Ey & Y). split.
  - intros IA IB. destruct a as [za|], b as [zb|]; cbn in IA, IB; try contradiction. apply fin_NI in Fb. unfold n_div. destruct (Z.eqb_spec zb 0) as [K|K]; [reflexivity|]. exfalso. apply K. apply inj_eq. now rewrite <- Fb.
  - intros N. assert (D : n_div rn128 a b = Ok (NR (xdiv rn128 (toReal rn128 a) (toReal rn128 b)))) by (destruct a, b; try reflexivity; exfalso; apply N; split; exact I).
    rewrite D. eexists. split; [reflexivity|]. intros z F. rewrite Ey in F. unfold finite in F. cbn [val] in F. destruct (toReal rn128 a) as [|s|x]; cbn [xdiv] in F; try (cbn in F; contradiction).
    destruct (qeq_spec y' 0) as [K|K]; [|apply K; now rewrite Y]. destruct (Qeq_bool x 0); cbn in F; contradiction.
Qed.
(** floor and friends *)
Lemma floor_spec a x : finite a x -> exists k, finite (n_floor a) (inject_Z k) /\ (inject_Z k <= x < inject_Z k + 1)%Q.
Proof.
  intros F. destruct a as [z|[|s|y]]; unfold finite in F; cbn in F; try contradiction.
  - exists z. split; [reflexivity|]. lra.
  - exists (Qfloor y). split; [reflexivity|]. pose proof (Qfloor_bounds y). lra.
Qed.
Lemma ceil_spec a x : finite a x -> exists k, finite (n_ceil a) (inject_Z k) /\ (inject_Z k - 1 < x <= inject_Z k)%Q.
Proof.
  intros F. destruct a as [z|[|s|y]]; unfold finite in F; cbn in F; try contradiction.
  - exists z. split; [reflexivity|]. lra.
  - exists (Qceiling y). split; [reflexivity|]. unfold Qceiling. rewrite inject_Z_opp. pose proof (Qfloor_bounds (- y)). lra.
Qed.
Lemma round_spec a x : finite a x -> exists k, finite (n_round a) (inject_Z k) /\ (Qabs (inject_Z k - x) <= 1 # 2)%Q /\ ((Qabs (inject_Z k - x) == 1 # 2)%Q -> (Qabs x < Qabs (inject_Z k))%Q).
Proof.
  intros F. destruct a as [z|[|s|y]]; unfold finite in F; cbn in F; try contradiction.
  - exists z. split; [reflexivity|]. assert (E : (inject_Z z - x == 0)%Q) by lra. rewrite E. rewrite (Qabs_pos 0) by lra. split; [lra|]. intros K. lra.
  - exists (Qaway y). split; [reflexivity|]. unfold Qaway, qneg. destruct (qlt_spec y 0) as [N|N].
    + pose proof (Qfloor_bounds (- y + (1 # 2))) as [B1 B2]. rewrite inject_Z_opp. set (k := inject_Z (Qfloor (- y + (1 # 2)))) in *. clearbody k.
      assert (E : (Qabs (- k - x) == Qabs (k + y))%Q). { rewrite <- Qabs_opp. apply Qabs_wd. lra. } rewrite E. rewrite Qabs_opp. split; [apply Qabs_Qle_condition; lra|].
      intros K. destruct (Qabs_case (k + y)) as [[P1 P2]|[P1 P2]]; [|exfalso; lra]. rewrite (Qabs_neg x), (Qabs_pos k); lra.
    + pose proof (Qfloor_bounds (y + (1 # 2))) as [B1 B2]. set (k := inject_Z (Qfloor (y + (1 # 2)))) in *. clearbody k. split; [apply Qabs_Qle_condition; lra|].
      intros K. destruct (Qabs_case (k - x)) as [[P1 P2]|[P1 P2]]; [|exfalso; lra]. rewrite (Qabs_pos x), (Qabs_pos k); lra.
Qed.
Lemma abs_spec a x : finite a x -> finite (n_abs a) (Qabs x).
Proof.
  intros F. destruct a as [z|[|s|y]]; unfold finite in F; cbn in F; try contradiction; unfold finite; cbn.
  - rewrite <- F. reflexivity.
  - now apply Qabs_wd.
Qed.
Lemma neg_spec a x : finite a x -> finite (n_neg a) (- x).
Proof. intros F. destruct a as [z|[|s|y]]; unfold finite in F; cbn in F; try contradiction; unfold finite; cbn; [rewrite inject_Z_opp|]; lra. Qed.
(** ** order *)
Lemma order_fits a b x y : fits a -> fits b -> finite a x -> finite b y ->
  (n_lt rn128 a b = true <-> (x < y)%Q) /\ (n_le rn128 a b = true <-> (x <= y)%Q) /\ (n_gt rn128 a b = true <-> (y < x)%Q) /\ (n_ge rn128 a b = true <-> (y <= x)%Q) /\ (n_eq rn128 a b = true <-> (x == y)%Q).
Proof.
  intros A B Fa Fb. unfold n_gt, n_ge. rewrite (fits_lt a b A B), (fits_le a b A B), (fits_eq a b A B), (xlt_eq _ (Fin x) _ (Fin y) Fa Fb), (xle_eq _ (Fin x) _ (Fin y) Fa Fb), (xeq_eq _ (Fin x) _ (Fin y) Fa Fb).
  cbn [xlt xle xeq]. unfold xle. cbn [xlt xeq]. destruct (qlt_spec x y), (qeq_spec x y); cbn [orb negb]; (refine (conj _ (conj _ (conj _ (conj _ _)))); split; intros K; try discriminate K; try reflexivity; try lra; try contradiction); exfalso; lra.
Qed.
(** ** compound assignment *)
Lemma assign_real a b : ~ isINT a -> n_addA rn128 a b = n_add rn128 a b /\ n_subA rn128 a b = n_sub rn128 a b /\ n_mulA rn128 a b = n_mul rn128 a b /\ n_divA rn128 a b = n_div rn128 a b.
Proof. destruct a as [z|x]; intros N; [exfalso; apply N; exact I|]. repeat split. Qed.
(** ** the integers of an interval *)
Lemma ceil_q a x : finite a x -> finite (n_ceil a) (inject_Z (Qceiling x)).
Proof.
  intros F. destruct a as [z|[|s|y]]; unfold finite in F |- *; cbn in F |- *; try contradiction; apply inj_eq.
  - rewrite <- F. unfold Qceiling. rewrite <- inject_Z_opp, Qfloor_Z. lia.
  - now rewrite F.
Qed.
Lemma floor_q a x : finite a x -> finite (n_floor a) (inject_Z (Qfloor x)).
Proof.
  intros F. destruct a as [z|[|s|y]]; unfold finite in F |- *; cbn in F |- *; try contradiction; apply inj_eq.
  - now rewrite <- F, Qfloor_Z.
  - now rewrite F.
Qed.
Definition small (k : Z) : Prop := Z.abs k <= 2 ^ 127 + 1.
Definition intn (n : number) (k : Z) : Prop := finite n (inject_Z k).
Lemma intn_fits n k : intn n k -> Z.abs k <= 2 ^ 128 -> fits n.
Proof. intros F S. destruct n as [z|[|s|y]]; cbn [fits]; try (exfalso; exact F); [apply fin_NI in F; pose proof (proj1 (inj_eq _ _) F); subst; exact S|discriminate]. Qed.
Lemma inc_int n k : intn n k -> small k -> intn (n_inc rn128 n) (k + 1).
Proof.
  unfold intn, finite, small. intros F S. destruct n as [z|[|s|y]]; cbn [val eqX n_inc toReal xadd] in *; try contradiction.
  - apply inj_eq. pose proof (proj1 (inj_eq _ _) F). lia.
  - rewrite inject_Z_plus. transitivity (rn128 (inject_Z (k + 1))).
    + apply (rn_eq 128 hp). rewrite inject_Z_plus, F. apply Qplus_inj_l. apply (rn_exact 128 hp). apply repr_Z. lia.
    + rewrite <- inject_Z_plus. apply (rn_exact 128 hp). apply repr_Z. assert (2 ^ 128 = 2 * 2 ^ 127) by reflexivity. lia.
Qed.
Lemma int_loop_spec fuel : forall i top k t, intn i k -> intn top t -> Z.abs t <= 2 ^ 127 -> Z.abs k <= 2 ^ 127 + 1 -> (Z.to_nat (t - k + 1) < fuel)%nat ->
  exists l, int_loop rn128 fuel i top = Ok l /\ Forall2 intn l (map (fun n => k + Z.of_nat n) (seq 0 (Z.to_nat (t - k + 1)))).
Proof.
  induction fuel as [|fuel IH]; intros i top k t Hi Ht St Sk Hf; [lia|]. cbn [int_loop].
  assert (P127 : 2 ^ 128 = 2 * 2 ^ 127) by reflexivity.
  pose proof (order_fits i top (inject_Z k) (inject_Z t) (intn_fits i k Hi ltac:(lia)) (intn_fits top t Ht ltac:(lia)) Hi Ht) as (_ & Le & _). rewrite <- Zle_Qle in Le.
  destruct (n_le rn128 i top) eqn:E.
  - assert (K : k <= t) by (now apply Le). destruct (IH (n_inc rn128 i) top (k + 1) t) as (l & El & Hl).
    + apply inc_int; [exact Hi|unfold small; lia].
    + exact Ht.
    + exact St.
    + lia.
    + lia.
    + rewrite El. cbn [bind]. exists (i :: l). split; [reflexivity|]. replace (Z.to_nat (t - k + 1)) with (S (Z.to_nat (t - (k + 1) + 1))) by lia. cbn [seq map]. constructor; [rewrite Z.add_0_r; exact Hi|].
      rewrite <- seq_shift, map_map. erewrite map_ext; [exact Hl|]. intros n. lia.
  - exists []. split; [reflexivity|]. assert (~ k <= t) by (intros K; apply Le in K; discriminate). replace (Z.to_nat (t - k + 1)) with 0%nat by lia. constructor.
Qed.
Definition inside (a : interval) (x y : Q) : Prop :=
  finite (lo a) x /\ finite (hi a) y /\ fits (lo a) /\ fits (hi a) /\ (- inject_Z (2 ^ 126) <= x)%Q /\ (x <= inject_Z (2 ^ 126))%Q /\ (- inject_Z (2 ^ 126) <= y)%Q /\ (y <= inject_Z (2 ^ 126))%Q.
Lemma fc_bounds x n : (- inject_Z n <= x)%Q -> (x <= inject_Z n)%Q -> Z.abs (Qfloor x) <= n /\ Z.abs (Qceiling x) <= n.
Proof.
  intros A B. rewrite <- inject_Z_opp in A. pose proof (Qfloor_resp_le _ _ A) as A1. pose proof (Qfloor_resp_le _ _ B) as B1. pose proof (Qceiling_resp_le _ _ A) as A2. pose proof (Qceiling_resp_le _ _ B) as B2.
  rewrite Qfloor_Z in A1, B1. assert (C : forall k, Qceiling (inject_Z k) = k) by (intros k; unfold Qceiling; rewrite <- inject_Z_opp, Qfloor_Z; lia). rewrite C in A2, B2. lia.
Qed.
Lemma ceil_le x k : (x <= inject_Z k)%Q <-> Qceiling x <= k.
Proof.
  split; intros H.
  - apply Qceiling_resp_le in H. assert (C : Qceiling (inject_Z k) = k) by (unfold Qceiling; rewrite <- inject_Z_opp, Qfloor_Z; lia). lia.
  - apply Qle_trans with (inject_Z (Qceiling x)); [apply Qle_ceiling|now rewrite <- Zle_Qle].
Qed.
Lemma floor_ge x k : (inject_Z k <= x)%Q <-> k <= Qfloor x.
Proof.
  split; intros H.
  - apply Qfloor_resp_le in H. now rewrite Qfloor_Z in H.
  - apply Qle_trans with (inject_Z (Qfloor x)); [now rewrite <- Zle_Qle|apply Qfloor_le].
Qed.
(** the integers c, c+1, ..., t *)
Definition zrange (c t : Z) : list Z := map (fun n => c + Z.of_nat n) (seq 0 (Z.to_nat (t - c + 1))).
Lemma zrange_in c t k : In k (zrange c t) <-> c <= k <= t.
Proof.
  unfold zrange. rewrite in_map_iff. split.
  - intros (n & <- & H). apply in_seq in H. lia.
  - intros H. exists (Z.to_nat (k - c)). split; [lia|]. apply in_seq. lia.
Qed.
Lemma zrange_nodup c t : NoDup (zrange c t).
Proof. unfold zrange. apply FinFun.Injective_map_NoDup; [intros x y H; lia|apply seq_NoDup]. Qed.
Lemma zrange_len c t : Z.of_nat (length (zrange c t)) = Z.max 0 (t - c + 1).
Proof. unfold zrange. rewrite map_length, seq_length. lia. Qed.
Lemma closed_int_member a x y k : lc a = true -> rc a = true -> finite (lo a) x -> finite (hi a) y -> (member a (inject_Z k) <-> In k (zrange (Qceiling x) (Qfloor y))).
Proof.
  intros C1 C2 F1 F2. rewrite zrange_in, <- ceil_le, <- floor_ge. unfold member, above, below. rewrite C1, C2.
  change ((abv (val (lo a)) true (inject_Z k) /\ blw (val (hi a)) true (inject_Z k)) <-> (x <= inject_Z k)%Q /\ (inject_Z k <= y)%Q).
  rewrite (abv_eqX _ _ _ _ F1), (blw_eqX _ _ _ _ F2). unfold abv, blw, leX. cbn [ltX eqX]. split; intros [A B]; split; lra.
Qed.
Lemma getIntegers_spec a x y fuel : lc a = true -> rc a = true -> inside a x y -> (Z.to_nat (Qfloor y - Qceiling x + 1) < fuel)%nat ->
  exists l ks, getIntegers rn128 fuel a = Ok l /\ Forall2 intn l ks /\ NoDup ks /\ forall k, In k ks <-> member a (inject_Z k).
Proof.
  intros C1 C2 (F1 & F2 & T1 & T2 & B1 & B2 & B3 & B4) Hf. unfold getIntegers.
  assert (N : n_isInf (lo a) || n_isInf (hi a) = false). { unfold finite in F1, F2. destruct (lo a) as [|[|s|]], (hi a) as [|[|t|]]; cbn in *; try reflexivity; contradiction. }
  rewrite N. assert (P1 : 2 ^ 127 = 2 * 2 ^ 126) by reflexivity. assert (P2 : 2 ^ 128 = 4 * 2 ^ 126) by reflexivity.
  destruct (fc_bounds x _ B1 B2) as [_ X]. destruct (fc_bounds y _ B3 B4) as [Y _]. pose proof (Z.pow_pos_nonneg 2 126).
  destruct (int_loop_spec fuel (n_ceil (lo a)) (n_floor (hi a)) (Qceiling x) (Qfloor y)) as (l & El & Fl).
  - now apply ceil_q.
  - now apply floor_q.
  - lia.
  - lia.
  - lia.
  - exists l, (zrange (Qceiling x) (Qfloor y)). split; [exact El|]. split; [exact Fl|]. split; [apply zrange_nodup|]. intros k. symmetry. now apply closed_int_member.
Qed.
Lemma small_sub a b j k : intn a j -> intn b k -> Z.abs j <= 2 ^ 127 -> Z.abs k <= 2 ^ 127 -> intn (n_sub rn128 a b) (j - k).
Proof.
  intros A B Sj Sk. assert (P2 : 2 ^ 128 = 2 * 2 ^ 127) by reflexivity.
  destruct (op2_spec _ _ _ _ a b _ _ op2_sub (or_intror (conj (intn_fits a j A ltac:(lia)) (intn_fits b k B ltac:(lia)))) A B) as (z & Fz & I1 & I2).
  assert (E : (inject_Z (j - k) == inject_Z j - inject_Z k)%Q) by (unfold Z.sub, Qminus; rewrite inject_Z_plus, inject_Z_opp; reflexivity).
  assert (Z1 : (z == inject_Z (j - k))%Q).
  { rewrite E. destruct a as [za|xa], b as [zb|xb]; try (apply I1; exact I); (destruct I2 as (_ & R & _); [intros [X Y]; contradiction X || contradiction Y|]); (specialize (R (inject_Z (j - k))); rewrite E in R at 2; setoid_replace (inject_Z j - inject_Z k - (inject_Z j - inject_Z k))%Q with 0%Q in R by ring; rewrite (Qabs_pos 0) in R by lra; assert (Y := Qabs_nonneg (z - (inject_Z j - inject_Z k))); assert (W : (Qabs (z - (inject_Z j - inject_Z k)) <= 0)%Q) by (apply R, repr_Z; lia); apply Qabs_Qle_condition in W; lra). }
  unfold intn, finite in *. destruct (val (n_sub rn128 a b)); cbn in *; try contradiction. now rewrite Fz.
Qed.
Lemma small_add a b j k : intn a j -> intn b k -> Z.abs j <= 2 ^ 127 -> Z.abs k <= 2 ^ 127 -> intn (n_add rn128 a b) (j + k).
Proof.
  intros A B Sj Sk. assert (P2 : 2 ^ 128 = 2 * 2 ^ 127) by reflexivity.
  destruct (op2_spec _ _ _ _ a b _ _ op2_add (or_intror (conj (intn_fits a j A ltac:(lia)) (intn_fits b k B ltac:(lia)))) A B) as (z & Fz & I1 & I2).
  assert (E : (inject_Z (j + k) == inject_Z j + inject_Z k)%Q) by (rewrite inject_Z_plus; reflexivity).
  assert (Z1 : (z == inject_Z (j + k))%Q).
  { rewrite E. destruct a as [za|xa], b as [zb|xb]; try (apply I1; exact I); (destruct I2 as (_ & R & _); [intros [X Y]; contradiction X || contradiction Y|]); (specialize (R (inject_Z (j + k))); rewrite E in R at 2; setoid_replace (inject_Z j + inject_Z k - (inject_Z j + inject_Z k))%Q with 0%Q in R by ring; rewrite (Qabs_pos 0) in R by lra; assert (Y := Qabs_nonneg (z - (inject_Z j + inject_Z k))); assert (W : (Qabs (z - (inject_Z j + inject_Z k)) <= 0)%Q) by (apply R, repr_Z; lia); apply Qabs_Qle_condition in W; lra). }
  unfold intn, finite in *. destruct (val (n_add rn128 a b)); cbn in *; try contradiction. now rewrite Fz.
Qed.
Lemma toInteger_int n k : intn n k -> toInteger n = k.
Proof.
  intros H. unfold intn, finite in H. destruct n as [z|[|s|x]]; cbn [val eqX toInteger xint] in *; try contradiction; [now apply inj_eq|].
  now apply Qeven_Z.
Qed.
Lemma count_spec a x y : lc a = true -> rc a = true -> inside a x y -> (y - x < inject_Z (2 ^ 64 - 1))%Q ->
  exists ks, getIntervalIntCount rn128 a = Ok (Z.of_nat (length ks)) /\ NoDup ks /\ forall k, In k ks <-> member a (inject_Z k).
Proof.
  intros C1 C2 (F1 & F2 & T1 & T2 & B1 & B2 & B3 & B4) W.
  exists (zrange (Qceiling x) (Qfloor y)). split; [|split; [apply zrange_nodup|intros k; symmetry; now apply closed_int_member]].
  unfold getIntervalIntCount, isEmptyI. rewrite C1, C2. cbn [negb orb andb]. rewrite andb_false_r, orb_false_r.
  destruct (order_fits (lo a) (hi a) x y T1 T2 F1 F2) as (_ & _ & Gt & _ & Eq). rewrite zrange_len.
  pose proof (Qle_ceiling x) as Cx. pose proof (Qfloor_le y) as Fy.
  destruct (n_gt rn128 (lo a) (hi a)) eqn:Eg.
  { f_equal. assert (L : (y < x)%Q) by (now apply Gt). assert (inject_Z (Qfloor y) < inject_Z (Qceiling x))%Q by lra. rewrite <- Zlt_Qlt in H. lia. }
  assert (L : (x <= y)%Q) by (destruct (Qlt_le_dec y x) as [K|K]; [apply Gt in K; discriminate|exact K]).
  assert (Tail : toULong (toInteger (n_add rn128 (n_sub rn128 (n_floor (hi a)) (n_ceil (lo a))) (NI 1))) = Ok (Z.max 0 (Qfloor y - Qceiling x + 1))).
  { assert (P1 : 2 ^ 127 = 2 * 2 ^ 126) by reflexivity. destruct (fc_bounds x _ B1 B2) as [_ X]. destruct (fc_bounds y _ B3 B4) as [Y _]. pose proof (Z.pow_pos_nonneg 2 126).
    pose proof (small_sub _ _ _ _ (floor_q (hi a) y F2) (ceil_q (lo a) x F1) ltac:(lia) ltac:(lia)) as S1.
    pose proof (small_add _ (NI 1) _ 1 S1 (Qeq_refl 1) ltac:(lia) ltac:(lia)) as S2. rewrite (toInteger_int _ _ S2).
    pose proof (Qceiling_lt x) as Cl. assert (D1 : (inject_Z (Qfloor y - Qceiling x) < inject_Z (2 ^ 64 - 1))%Q) by (unfold Z.sub at 1; rewrite inject_Z_plus, inject_Z_opp; lra). rewrite <- Zlt_Qlt in D1.
    assert (D2 : 0 <= Qfloor y - Qceiling x + 1). { pose proof (Qlt_floor y) as Fl. rewrite inject_Z_plus in Fl. assert (D : (inject_Z (Qceiling x - 1) < inject_Z (Qfloor y + 1))%Q) by (rewrite inject_Z_plus; lra). rewrite <- Zlt_Qlt in D. lia. }
    unfold toULong. destruct (Z.ltb_spec (Qfloor y - Qceiling x + 1) 0); [lia|]. destruct (Z.leb_spec (2 ^ 64) (Qfloor y - Qceiling x + 1)); [lia|]. cbn [orb]. f_equal. lia. }
  unfold isPoint. destruct (n_eq rn128 (lo a) (hi a)) eqn:E; cbn [andb].
  - assert (XY : (x == y)%Q) by (now apply Eq). destruct (n_isInteger (lo a)) eqn:Ei.
    + f_equal. assert (K : exists k, (x == inject_Z k)%Q). { unfold finite in F1. destruct (lo a) as [z|[|s|q]]; cbn in F1, Ei; try contradiction; try discriminate; [exists z; now symmetry|]. apply Qeq_bool_iff in Ei. exists (Qfloor q). now rewrite <- F1. }
      destruct K as [k K]. assert (E1 : Qceiling x = k). { rewrite K. unfold Qceiling. rewrite <- inject_Z_opp, Qfloor_Z. lia. } assert (E2 : Qfloor y = k). { rewrite <- XY, K. apply Qfloor_Z. } lia.
    + exact Tail.
  - exact Tail.
Qed.
