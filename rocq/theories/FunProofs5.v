(** Proofs about the elementary functions: part 5, a correctly rounded arithmetic exists (every real has a
    nearest number of 128 bits), and facts for the counterexamples. *)
From Coq Require Import Reals QArith Qreals Qround Qabs ZArith List Bool Lia Lra.
From Verif Require Import Base NumModel RoundModel NumSpec NumProofs NumMore FunModel FunSpec FunProofs FunProofs2 FunProofs3.
Open Scope R_scope.

(** ** the nearest number of a real *)
Definition magR (x : R) : Z := Int_part (ln x / ln 2).
Definition nearZ (x : R) : Z := if Rle_dec (x - IZR (Int_part x)) (1 / 2) then Int_part x else (Int_part x + 1)%Z.
Definition rnd_posR (x : R) : Q := let e := (magR x - 127)%Z in (inject_Z (nearZ (x * Q2R (p2 (- e)))) * p2 e)%Q.
Definition rndR (x : R) : Q := if Rlt_dec 0 x then rnd_posR x else if Rlt_dec x 0 then (- rnd_posR (- x))%Q else 0%Q.

Lemma Int_bounds x : IZR (Int_part x) <= x < IZR (Int_part x) + 1.
Proof. pose proof (base_Int_part x). lra. Qed.
Lemma magR_spec x : 0 < x -> Q2R (p2 (magR x)) <= x < Q2R (p2 (magR x + 1)).
Proof.
  intros P. rewrite !p2_R. unfold magR. pose proof (Int_bounds (ln x / ln 2)) as (A & B). assert (L2 : 0 < ln 2) by (apply ln_pos; lra).
  assert (E : x = Rpower 2 (ln x / ln 2)). { unfold Rpower. replace (ln x / ln 2 * ln 2) with (ln x) by (field; lra). symmetry. now apply exp_ln. }
  rewrite plus_IZR. set (i := IZR (Int_part (ln x / ln 2))) in *. rewrite E. split; [apply Rle_Rpower; lra|apply Rpower_lt; lra].
Qed.
Lemma nearZ_near x j : Rabs (IZR (nearZ x) - x) <= Rabs (IZR j - x).
Proof.
  pose proof (Int_bounds x) as (A & B). unfold nearZ. destruct (Z.le_gt_cases j (Int_part x)) as [K|K].
  - apply IZR_le in K. rewrite (Rabs_left1 (IZR j - x)) by lra. destruct (Rle_dec _ _) as [H|H]; [rewrite Rabs_left1 by lra; lra|]. rewrite plus_IZR, Rabs_pos_eq by lra. lra.
  - assert (K' : (Int_part x + 1 <= j)%Z) by lia. apply IZR_le in K'. rewrite plus_IZR in K'. rewrite (Rabs_pos_eq (IZR j - x)) by lra. destruct (Rle_dec _ _) as [H|H]; [rewrite Rabs_left1 by lra; lra|]. rewrite plus_IZR, Rabs_pos_eq by lra. lra.
Qed.
(** a representable number of at least 2^m is on the grid of 2^(m-127) *)
Lemma on_grid y m : repr 128 y -> (p2 m <= y)%Q -> exists j, (y == inject_Z j * p2 (m - 127))%Q.
Proof.
  intros Hy L. pose proof (p2_pos m) as Pm. assert (Py : (0 < y)%Q) by (eapply Qlt_le_trans; eassumption). pose proof (rnd_pos_exact 128 ltac:(lia) y Py Hy) as E. unfold rnd_pos in E.
  destruct (mag_spec y Py) as (_ & U). assert (K : (m <= mag y)%Z). { apply Z.lt_succ_r. apply p2_lt_inv. unfold Z.succ. eapply Qle_lt_trans; eassumption. }
  set (ey := (mag y - 128 + 1)%Z) in *. exists (Qeven (y * p2 (- ey)) * 2 ^ (ey - (m - 127)))%Z. rewrite inject_Z_mult, <- p2_Z by (unfold ey; lia). rewrite <- Qmult_assoc, <- p2_add. replace (ey - (m - 127) + (m - 127))%Z with ey by lia. symmetry. exact E.
Qed.
Lemma rnd_posR_nearest x : 0 < x -> nearest (rnd_posR x) x.
Proof.
  intros P. destruct (magR_spec x P) as (L & U). set (m := magR x) in *. set (e := (m - 127)%Z). assert (Ex : rnd_posR x = (inject_Z (nearZ (x * Q2R (p2 (- e)))) * p2 e)%Q) by reflexivity.
  set (z := x * Q2R (p2 (- e))) in *. pose proof (Qlt_Rlt _ _ (p2_pos e)) as Pe. replace (Q2R 0) with 0 in Pe by (unfold Q2R; cbn; lra).
  assert (One : Q2R (p2 e) * Q2R (p2 (- e)) = 1). { rewrite <- Q2R_mult. rewrite (Qeq_eqR _ _ (p2_opp e)). unfold Q2R. cbn. lra. }
  assert (Xz : x = z * Q2R (p2 e)) by (unfold z; rewrite Rmult_assoc, (Rmult_comm (Q2R (p2 (- e)))), One; ring).
  assert (Grid : forall j, Rabs (Q2R (rnd_posR x) - x) <= Rabs (IZR j * Q2R (p2 e) - x)).
  { intros j. rewrite Ex, Q2R_mult, Q2R_Z. rewrite Xz. replace (IZR (nearZ z) * Q2R (p2 e) - z * Q2R (p2 e)) with ((IZR (nearZ z) - z) * Q2R (p2 e)) by ring.
    replace (IZR j * Q2R (p2 e) - z * Q2R (p2 e)) with ((IZR j - z) * Q2R (p2 e)) by ring. rewrite !Rabs_mult. apply Rmult_le_compat_r; [apply Rabs_pos|apply nearZ_near]. }
  assert (Pw : Q2R (p2 m) = IZR (2 ^ 127) * Q2R (p2 e)). { rewrite <- Q2R_Z, <- Q2R_mult. apply Qeq_eqR. rewrite <- (p2_Z 127) by lia. rewrite <- p2_add. unfold e. replace (127 + (m - 127))%Z with m by lia. reflexivity. }
  assert (Pw' : Q2R (p2 (m + 1)) = IZR (2 ^ 128) * Q2R (p2 e)). { rewrite <- Q2R_Z, <- Q2R_mult. apply Qeq_eqR. rewrite <- (p2_Z 128) by lia. rewrite <- p2_add. unfold e. replace (128 + (m - 127))%Z with (m + 1)%Z by lia. reflexivity. }
  split.
  - rewrite Ex. exists (nearZ z), e. split; [|reflexivity].
    assert (Zb : IZR (2 ^ 127) <= z < IZR (2 ^ 128)) by (split; [apply Rmult_le_reg_r with (Q2R (p2 e))|apply Rmult_lt_reg_r with (Q2R (p2 e))]; lra).
    pose proof (Int_bounds z) as (I1 & I2). assert (J1 : (2 ^ 127 < Int_part z + 1)%Z) by (apply lt_IZR; rewrite plus_IZR; lra). assert (J2 : (Int_part z < 2 ^ 128)%Z) by (apply lt_IZR; lra).
    unfold nearZ. destruct (Rle_dec _ _); lia.
  - intros y Hy. destruct (Qlt_le_dec y (p2 m)) as [K|K].
    + apply Qlt_Rlt in K. eapply Rle_trans; [apply (Grid (2 ^ 127)%Z)|]. rewrite <- Pw, !Rabs_left1 by lra. lra.
    + destruct (on_grid y m Hy K) as (j & Ej). rewrite (Qeq_eqR _ _ Ej), Q2R_mult, Q2R_Z. apply Grid.
Qed.
Theorem rndR_nearest x : nearest (rndR x) x.
Proof.
  unfold rndR. destruct (Rlt_dec 0 x) as [P|P]; [now apply rnd_posR_nearest|]. destruct (Rlt_dec x 0) as [N|N].
  - rewrite <- (Ropp_involutive x) at 2. apply nearest_opp, rnd_posR_nearest. lra.
  - assert (x = 0) by lra. subst x. pose proof (nearest_self 0 (reprZ 0 ltac:(lia))) as X. replace (Q2R 0) with 0 in X by (unfold Q2R; cbn; lra). exact X.
Qed.
(** a correctly rounded arithmetic; its neighbours are further away than MPFR's, which is allowed *)
Definition M0 : mpfr :=
  Mpfr (fun f q => rndR (real_fun f (Q2R q))) (fun a b => rndR (Rpower (Q2R a) (Q2R b))) (rndR Rtrigo1.PI) (rndR (Rtrigo1.PI / 2))
       (fun q => if Qlt_le_dec 0 q then 0%Q else if Qlt_le_dec q 0 then (2 * q)%Q else (-1)%Q)
       (fun q => if Qlt_le_dec q 0 then 0%Q else if Qlt_le_dec 0 q then (2 * q)%Q else 1%Q) 1.
Lemma repr_twice q : repr 128 q -> repr 128 (2 * q).
Proof. intros (m & e & H & E). exists m, (e + 1)%Z. split; [exact H|]. rewrite E, p2_succ. ring. Qed.
Lemma M0_correct : correct M0.
Proof.
  constructor; cbn; intros; try apply rndR_nearest.
  - destruct (Qlt_le_dec 0 q) as [P|P]; [split; [apply (reprZ 0); lia|exact P]|]. destruct (Qlt_le_dec q 0) as [N|N].
    + split; [now apply repr_twice|]. apply Rlt_Qlt. rewrite Q2R_mult. apply Qlt_Rlt in N. replace (Q2R 2) with 2 by (unfold Q2R; cbn; lra). replace (Q2R 0) with 0 in N by (unfold Q2R; cbn; lra). lra.
    + split; [apply (reprZ (-1)); lia|]. eapply Qlt_le_trans; [|exact N]. reflexivity.
  - destruct (Qlt_le_dec q 0) as [P|P]; [split; [apply (reprZ 0); lia|exact P]|]. destruct (Qlt_le_dec 0 q) as [N|N].
    + split; [now apply repr_twice|]. apply Rlt_Qlt. rewrite Q2R_mult. apply Qlt_Rlt in N. replace (Q2R 2) with 2 by (unfold Q2R; cbn; lra). replace (Q2R 0) with 0 in N by (unfold Q2R; cbn; lra). lra.
    + split; [apply (reprZ 1); lia|]. eapply Qle_lt_trans; [exact N|]. reflexivity.
Qed.

(** ** arithmetic of the counterexamples: a number between two representable bounds *)
Definition around (n : number) (l h : Q) : Prop := held n /\ exists q, val n = Fin q /\ Q2R l <= Q2R q <= Q2R h.
Lemma around_real n l h : around n l h -> exists q, toReal rn128 n = Fin q /\ repr 128 q /\ Q2R l <= Q2R q <= Q2R h.
Proof. intros (H & q & V & B). destruct (held_real n q H V) as (q' & T & R' & E). exists q'. rewrite E. auto. Qed.
Lemma round_between x l h : repr 128 l -> repr 128 h -> Q2R l <= Q2R x <= Q2R h -> repr 128 (rn128 x) /\ Q2R l <= Q2R (rn128 x) <= Q2R h.
Proof.
  intros Hl Hh (A & B). split; [apply rn_repr; lia|]. apply Rle_Qle in A, B. rewrite <- (Qeq_eqR _ _ (rn_exact 128 ltac:(lia) l Hl)), <- (Qeq_eqR _ _ (rn_exact 128 ltac:(lia) h Hh)). split; apply Qle_Rle; apply rn_mono; (lia || assumption).
Qed.
Lemma around_fin x l h : repr 128 l -> repr 128 h -> Q2R l <= Q2R x <= Q2R h -> around (NR (Fin (rn128 x))) l h.
Proof. intros Hl Hh B. destruct (round_between x l h Hl Hh B) as (R' & B'). split; [exact R'|]. exists (rn128 x). split; [reflexivity|exact B']. Qed.
Lemma around_I z : (Z.abs z <= 2 ^ 128)%Z -> around (NI z) (inject_Z z) (inject_Z z).
Proof. intros H. split; [exact H|]. exists (inject_Z z). split; [reflexivity|lra]. Qed.
Lemma around_weak n l h l' h' : around n l h -> Q2R l' <= Q2R l -> Q2R h <= Q2R h' -> around n l' h'.
Proof. intros (H & q & V & B) A A'. split; [exact H|]. exists q. split; [exact V|lra]. Qed.
(** reals *)
Definition real (n : number) : Prop := exists x, n = NR x.
Lemma around_mul a b la ha lb hb l h : real a \/ real b -> around a la ha -> around b lb hb -> repr 128 l -> repr 128 h ->
  (forall x y, Q2R la <= x <= Q2R ha -> Q2R lb <= y <= Q2R hb -> Q2R l <= x * y <= Q2R h) -> around (n_mul rn128 a b) l h.
Proof.
  intros Re A B Hl Hh K. destruct (around_real _ _ _ A) as (x & Tx & _ & Bx). destruct (around_real _ _ _ B) as (y & Ty & _ & By).
  assert (E : n_mul rn128 a b = NR (Fin (rn128 (x * y)))). { unfold n_mul. destruct a as [u|u], b as [v|v]; [destruct Re as [(? & Z)|(? & Z)]; discriminate Z| | |]; rewrite Tx, Ty; reflexivity. }
  rewrite E. apply around_fin; auto. rewrite Q2R_mult. auto.
Qed.
Lemma around_sub a b la ha lb hb l h : real a \/ real b -> around a la ha -> around b lb hb -> repr 128 l -> repr 128 h ->
  Q2R l <= Q2R la - Q2R hb -> Q2R ha - Q2R lb <= Q2R h -> around (n_sub rn128 a b) l h.
Proof.
  intros Re A B Hl Hh K K'. destruct (around_real _ _ _ A) as (x & Tx & _ & Bx). destruct (around_real _ _ _ B) as (y & Ty & _ & By).
  assert (E : n_sub rn128 a b = NR (Fin (rn128 (x - y)))). { unfold n_sub. destruct a as [u|u], b as [v|v]; [destruct Re as [(? & Z)|(? & Z)]; discriminate Z| | |]; rewrite Tx, Ty; reflexivity. }
  rewrite E. apply around_fin; auto. rewrite Q2R_minus. lra.
Qed.
Lemma around_add a b la ha lb hb l h : real a \/ real b -> around a la ha -> around b lb hb -> repr 128 l -> repr 128 h ->
  Q2R l <= Q2R la + Q2R lb -> Q2R ha + Q2R hb <= Q2R h -> around (n_add rn128 a b) l h.
Proof.
  intros Re A B Hl Hh K K'. destruct (around_real _ _ _ A) as (x & Tx & _ & Bx). destruct (around_real _ _ _ B) as (y & Ty & _ & By).
  assert (E : n_add rn128 a b = NR (Fin (rn128 (x + y)))). { unfold n_add. destruct a as [u|u], b as [v|v]; [destruct Re as [(? & Z)|(? & Z)]; discriminate Z| | |]; rewrite Tx, Ty; reflexivity. }
  rewrite E. apply around_fin; auto. rewrite Q2R_plus. lra.
Qed.

Lemma around_div a b la ha lb hb l h : real a \/ real b -> around a la ha -> around b lb hb -> repr 128 l -> repr 128 h -> 0 < Q2R lb ->
  (forall x y, Q2R la <= x <= Q2R ha -> Q2R lb <= y <= Q2R hb -> Q2R l <= x / y <= Q2R h) -> exists c, n_div rn128 a b = Ok (NR (Fin (rn128 c))) /\ around (NR (Fin (rn128 c))) l h.
Proof.
  intros Re A B Hl Hh Pb K. destruct (around_real _ _ _ A) as (x & Tx & _ & Bx). destruct (around_real _ _ _ B) as (y & Ty & _ & By). exists (x / y)%Q.
  assert (Y0 : ~ (y == 0)%Q). { intros Z. apply Qeq_eqR in Z. replace (Q2R 0) with 0 in Z by (unfold Q2R; cbn; lra). lra. }
  assert (Yb : Qeq_bool y 0 = false) by (destruct (Qeq_bool y 0) eqn:E; [apply Qeq_bool_iff in E; contradiction|reflexivity]). split.
  - unfold n_div. destruct a as [u|u], b as [v|v]; [destruct Re as [(? & Z)|(? & Z)]; discriminate Z| | |]; rewrite Tx, Ty; cbn [xdiv]; rewrite Yb; reflexivity.
  - apply around_fin; auto. rewrite Q2R_div by exact Y0. auto.
Qed.
Lemma cmp_lt a b la ha lb hb : around a la ha -> around b lb hb -> Q2R ha < Q2R lb ->
  n_lt rn128 a b = true /\ n_le rn128 a b = true /\ n_gt rn128 a b = false /\ n_ge rn128 a b = false.
Proof.
  intros (A & x & Vx & Bx) (B & y & Vy & By) L. repeat split.
  - apply n_lt_R; auto. rewrite Vx, Vy. cbn. lra.
  - apply n_le_R; auto. rewrite Vx, Vy. cbn. lra.
  - apply (not_true_iff _ _ (n_gt_R _ _ A B)). rewrite Vx, Vy. cbn. lra.
  - apply (not_true_iff _ _ (n_ge_R _ _ A B)). rewrite Vx, Vy. cbn. lra.
Qed.
Lemma cmp_ge a b la ha lb hb : around a la ha -> around b lb hb -> Q2R hb <= Q2R la -> n_lt rn128 a b = false /\ n_ge rn128 a b = true.
Proof.
  intros (A & x & Vx & Bx) (B & y & Vy & By) L. split.
  - apply (not_true_iff _ _ (n_lt_R _ _ A B)). rewrite Vx, Vy. cbn. lra.
  - apply n_ge_R; auto. rewrite Vx, Vy. cbn. lra.
Qed.
Lemma around_neg a l h : around a l h -> around (n_neg a) (- h) (- l).
Proof.
  intros (H & q & V & B). destruct a as [z|x]; cbn [val] in V.
  - injection V as <-. split; [cbn in *; lia|]. exists (inject_Z (- z)). split; [reflexivity|]. rewrite !Q2R_opp, !Q2R_Z, opp_IZR in *. lra.
  - subst x. split; [cbn; apply repr_opp; [lia|exact H]|]. exists (- q)%Q. split; [reflexivity|]. rewrite !Q2R_opp. lra.
Qed.
(** the remainder of a small positive number *)
Lemma remainder v d z ld hd : (0 <= z)%Z -> (Z.abs z <= 2 ^ 128)%Z -> v = NI z -> real d -> around d ld hd -> 0 < Q2R ld -> IZR z <= 3 / 4 * Q2R ld -> repr 128 ld -> repr 128 hd ->
  exists q, n_div rn128 v d = Ok q /\ around (n_sub rn128 v (n_mul rn128 (n_floor q) d)) (inject_Z z) (inject_Z z) /\ real (n_sub rn128 v (n_mul rn128 (n_floor q) d)).
Proof.
  intros Pz Hz -> Rd D Pd K Hl Hh. assert (R34 : repr 128 (3 # 4)) by (exists 3%Z, (-2)%Z; split; [lia|reflexivity]). assert (R0 : repr 128 0) by (apply (reprZ 0); lia).
  assert (E0 : Q2R 0 = 0) by (unfold Q2R; cbn; lra). assert (E34 : Q2R (3 # 4) = 3 / 4) by (unfold Q2R; cbn; lra). apply IZR_le in Pz.
  destruct (around_div (NI z) d _ _ _ _ 0 (3 # 4) (or_intror Rd) (around_I z Hz) D R0 R34 Pd) as (c & Ec & Ac).
  { intros x y Hx Hy. rewrite Q2R_Z in Hx. rewrite E0, E34. assert (x = IZR z) by lra. subst x. assert (0 < / y) by (apply Rinv_0_lt_compat; lra). unfold Rdiv. split; [apply Rmult_le_pos; lra|].
    apply Rmult_le_reg_r with y; [lra|]. rewrite Rmult_assoc, Rinv_l by lra. nra. }
  exists (NR (Fin (rn128 c))). split; [exact Ec|]. destruct Ac as (_ & q & Vq & Bq). cbn in Vq. injection Vq as Vq. rewrite E0, E34 in Bq.
  assert (Fl : Qfloor (rn128 c) = 0%Z). { apply Qfloor_uniq. subst q. split; [apply Rle_Qle; rewrite Q2R_Z; lra|apply Rlt_Qlt; rewrite Q2R_plus, Q2R_Z; replace (Q2R 1) with 1 by (unfold Q2R; cbn; lra); lra]. }
  cbn [n_floor xfloor]. rewrite Fl.
  assert (Am : around (n_mul rn128 (NR (Fin (inject_Z 0))) d) 0 0).
  { apply (around_mul _ d 0 0 ld hd); auto; [split; [exact R0|exists (inject_Z 0); split; [reflexivity|rewrite Q2R_Z, E0; lra]]|]. intros x y Hx Hy. rewrite E0 in *. assert (x = 0) by lra. subst x. lra. }
  assert (Rm : real (n_mul rn128 (NR (Fin (inject_Z 0))) d)) by (unfold n_mul; eexists; reflexivity).
  split; [|destruct Rm as (y & ->); eexists; reflexivity].
  apply (around_sub (NI z) _ (inject_Z z) (inject_Z z) 0 0 _ _ (or_intror Rm) (around_I z Hz) Am); [now apply reprZ|now apply reprZ| |]; rewrite E0; lra.
Qed.
Lemma pi_around M : correct M -> around (n_pi M) 3 4.
Proof.
  intros C. pose proof (ok_pi M C) as N. assert (E3 : Q2R 3 = 3) by (unfold Q2R; cbn; lra). assert (E4 : Q2R 4 = 4) by (unfold Q2R; cbn; lra). pose proof PI_4. pose proof PI2_3_2.
  split; [exact (proj1 N)|]. exists (m_pi M). split; [reflexivity|]. split; [apply (nearest_ge _ Rtrigo1.PI); [exact N|apply (reprZ 3); lia|lra]|apply (nearest_le _ Rtrigo1.PI); [exact N|apply (reprZ 4); lia|lra]].
Qed.
