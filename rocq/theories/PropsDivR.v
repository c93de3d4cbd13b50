(** C21: (/ a b) of two integers when the division is exact: the folding goes through an int. *)
From Coq Require Import QArith Qcanon Qround Permutation Lia.
From Verif Require Import Base KindModel SortModel TermModel BVModel BVSpec UtilModel UtilSpec Sem SemProofs ArrayModel
  NumModel RoundModel SimpModel OpModel OpSpec OpProofs OpProofs2 OpProofs3 OpProofs4 OpProofs5 OpProofs6 OpProofs7 OpExamples.
Open Scope Z_scope.

(** the reals of the configuration have 128 bits ([rounding_is_exact] below): exact on integers below 2^128, and so is a quotient
    that is an integer; a quotient of integers below 2^64 that is no integer does not become one *)
Record exact_div (c : cfg) : Prop := {
  ed_num : forall z, Z.abs z < 2 ^ 128 -> (c_rv c (num0 z) == inject_Z z)%Q;
  ed_quot : forall x y z, ~ (y == 0)%Q -> (x == inject_Z z * y)%Q -> Z.abs z < 2 ^ 128 ->
              (c_rv c (mkConstReal (c_rs c NT_DIV_REAL [x; y])) == inject_Z z)%Q;
  ed_frac : forall a b z, b <> 0 -> ~ (b | a) -> Z.abs a < 2 ^ 64 -> Z.abs b < 2 ^ 64 ->
              ~ (c_rv c (mkConstReal (c_rs c NT_DIV_REAL [c_rv c (num0 a); c_rv c (num0 b)])) == inject_Z z)%Q;
  ed_int : forall t, c_r2i c t = Qfloor (c_rv c t) }.

Lemma realToInt_range z : - 2 ^ 31 <= realToInt z < 2 ^ 31.
Proof. unfold realToInt. pose proof (Z.mod_pos_bound (Z.min (Z.max z (-9223372036854775808)) 9223372036854775807 + 2147483648) 4294967296 ltac:(lia)). lia. Qed.
Lemma realToInt_id z : - 2 ^ 31 <= z < 2 ^ 31 -> realToInt z = z.
Proof. intros H. unfold realToInt. rewrite Z.max_l, Z.min_l, Z.mod_small by lia. lia. Qed.
Lemma Q_inj (x : QArith_base.Q) z : (x == inject_Z z)%Q -> Qfloor x = z. Proof. intros ->. apply Qfloor_Z. Qed.

Lemma fold_div c a b q : exact_div c -> c_keepdiv c = true -> b <> 0 -> a = b * q -> Z.abs a < 2 ^ 128 -> Z.abs b < 2 ^ 128 ->
  mkOper c realS NT_DIV_REAL [num0 a; num0 b] = Ok (mkConstInt (realToInt q)).
Proof.
  intros X K B E A C. unfold mkOper. cbn [simp simp2]. unfold arithOk. change (isCRoot (num0 a)) with false. change (isCRoot (num0 b)) with false. cbn [negb andb].
  assert (N : forall z, isCInt (num0 z) = true) by (intros z; apply (isCInt_ic intS); auto). rewrite !N. cbn [andb]. rewrite K.
  assert (V : (c_rv c (mkConstReal (c_rs c NT_DIV_REAL [c_rv c (num0 a); c_rv c (num0 b)])) == inject_Z q)%Q).
  { apply (ed_quot c X); [rewrite (ed_num c X b C); intros H; apply B; unfold Qeq in H; cbn in H; lia| |nia].
    rewrite (ed_num c X a A), (ed_num c X b C), <- inject_Z_mult. rewrite E. now rewrite Z.mul_comm. }
  rewrite (ed_int c X), (Q_inj _ _ V). rewrite (proj2 (Qeq_bool_iff _ _) V). reflexivity.
Qed.
Lemma eval_div I e a b q : b <> 0 -> a = b * q -> eval I e (T NT_DIV_REAL realS (kindToString NT_DIV_REAL) [num0 a; num0 b]) = VNum (ZQ q).
Proof.
  intros B ->. apply eval_op; [discriminate|reflexivity|]. cbn [map]. rewrite !eval_num0. cbn [op_sem num].
  assert (N : ZQ b <> Q2Qc 0) by (intros H; apply B; apply ZQ_inj; exact H).
  destruct (Qc_eq_dec (ZQ b) (Q2Qc 0)) as [C|C]; [contradiction|]. do 2 f_equal. rewrite <- ZQ_mul. field. exact C.
Qed.

(** for integers a and b with b a divisor of a: the folded constant has the value of (/ a b), in any interpretation and environment,
    exactly when the quotient fits in 32 bits *)
Theorem C21_divreal c a b q : exact_div c -> c_keepdiv c = true -> b <> 0 -> a = b * q -> Z.abs a < 2 ^ 128 -> Z.abs b < 2 ^ 128 ->
  exists t, mkOper c realS NT_DIV_REAL [num0 a; num0 b] = Ok t /\
    forall I e, eval I e t = eval I e (T NT_DIV_REAL realS (kindToString NT_DIV_REAL) [num0 a; num0 b]) <-> - 2 ^ 31 <= q < 2 ^ 31.
Proof.
  intros X K B E A C. exists (mkConstInt (realToInt q)). split; [now apply fold_div|].
  assert (V : forall I e, eval I e (mkConstInt (realToInt q)) = VNum (ZQ (realToInt q))) by (intros I e; rewrite mkConstInt_ic; apply eval_ic; auto).
  intros I e. split.
  - intros H. rewrite V, (eval_div _ _ a b q B E) in H.
    assert (Q : realToInt q = q) by (destruct (Z.eq_dec (realToInt q) q) as [G|G]; [exact G|exfalso; exact (ZQ_neq _ _ G H)]).
    rewrite <- Q. apply realToInt_range.
  - intros H. rewrite V, (eval_div I e a b q B E). now rewrite realToInt_id.
Qed.
Print Assumptions C21_divreal.
(** and when b does not divide a, both below 2^64, the application is kept *)
Theorem C21_divreal_kept c a b : exact_div c -> c_keepdiv c = true -> b <> 0 -> ~ (b | a) -> Z.abs a < 2 ^ 64 -> Z.abs b < 2 ^ 64 ->
  mkOper c realS NT_DIV_REAL [num0 a; num0 b] = Ok (T NT_DIV_REAL realS (L "/") [num0 a; num0 b]).
Proof.
  intros X K B D A C. unfold mkOper. cbn [simp simp2]. unfold arithOk. change (isCRoot (num0 a)) with false. change (isCRoot (num0 b)) with false. cbn [negb andb].
  assert (N : forall z, isCInt (num0 z) = true) by (intros z; apply (isCInt_ic intS); auto). rewrite !N. cbn [andb]. rewrite K.
  destruct (Qeq_bool _ _) eqn:E; [|reflexivity]. exfalso. apply Qeq_bool_iff in E. exact (ed_frac c X a b _ B D A C E).
Qed.
Print Assumptions C21_divreal_kept.
(** what [exact_div] asks of the reals is true of rounding to the nearest 128-bit real *)
Lemma repr_small z : Z.abs z <= 2 ^ 128 -> repr 128 (inject_Z z).
Proof. intros H. exists z, 0. split; [exact H|]. cbn. ring. Qed.
Theorem C21_divreal_rounding :
  (forall z, Z.abs z < 2 ^ 128 -> (rn128 (inject_Z z) == inject_Z z)%Q) /\
  (forall x y z, ~ (y == 0)%Q -> (x == inject_Z z * y)%Q -> Z.abs z < 2 ^ 128 -> (rn128 (x / y) == inject_Z z)%Q) /\
  (forall a b z, b <> 0 -> ~ (b | a) -> Z.abs a < 2 ^ 64 -> Z.abs b < 2 ^ 64 ->
     ~ (rn128 (rn128 (inject_Z a) / rn128 (inject_Z b)) == inject_Z z)%Q).
Proof.
  assert (X : forall z, Z.abs z < 2 ^ 128 -> (rn128 (inject_Z z) == inject_Z z)%Q) by (intros z H; apply (rn_exact 128 ltac:(lia)), repr_small; lia).
  split; [exact X|]. split.
  - intros x y z Y E H. rewrite <- (X z H). apply (rn_eq 128 ltac:(lia)). rewrite E. field. exact Y.
  - intros a b z B D A C H.
    assert (Bq : ~ (inject_Z b == 0)%Q) by (intros G; apply B; unfold Qeq in G; cbn in G; lia).
    assert (V : (rn128 (inject_Z a) / rn128 (inject_Z b) == inject_Z a / inject_Z b)%Q) by (rewrite (X a), (X b) by lia; reflexivity).
    assert (W : (rn128 (inject_Z a / inject_Z b) == inject_Z z)%Q) by (rewrite <- H; apply (rn_eq 128 ltac:(lia)); symmetry; exact V).
    clear H V.
    (* the quotient is f + m / |b| with 0 < m < |b| *)
    set (b' := Z.abs b). assert (B' : 0 < b' < 2 ^ 64) by lia. set (a' := a * Z.sgn b).
    assert (Q0 : (inject_Z a / inject_Z b == inject_Z a' / inject_Z b')%Q).
    { assert (Bq' : ~ (inject_Z b' == 0)%Q) by (intros G; unfold Qeq in G; cbn in G; lia).
      assert (Eq : (inject_Z a * inject_Z b' == inject_Z a' * inject_Z b)%Q).
      { rewrite <- !inject_Z_mult. assert (a * b' = a' * b) as -> by (unfold a', b'; rewrite <- (Z.sgn_abs b); nia). reflexivity. }
      apply (Qmult_inj_r _ _ (inject_Z b * inject_Z b')); [intros G; apply Qmult_integral in G; tauto|].
      setoid_replace (inject_Z a / inject_Z b * (inject_Z b * inject_Z b'))%Q with (inject_Z a * inject_Z b')%Q by (field; exact Bq).
      setoid_replace (inject_Z a' / inject_Z b' * (inject_Z b * inject_Z b'))%Q with (inject_Z a' * inject_Z b)%Q by (field; exact Bq'). exact Eq. }
    pose proof (Z.div_mod a' b' ltac:(lia)) as DM. pose proof (Z.mod_pos_bound a' b' ltac:(lia)) as MB. set (f := a' / b') in *. set (m := a' mod b') in *.
    assert (M0 : m <> 0).
    { intros M. apply D. rewrite M in DM. apply Z.divide_abs_l. fold b'. destruct (Z.sgn_spec b) as [[? S]|[[? S]|[? S]]]; [|lia|].
      - exists f. unfold a' in DM. rewrite S in DM. lia.
      - exists (- f). unfold a' in DM. rewrite S in DM. lia. }
    assert (F : Z.abs f <= 2 ^ 63) by (assert (2 <= b') by lia; assert (Z.abs a' <= Z.abs a) by (unfold a'; rewrite Z.abs_mul; pose proof (Z.abs_sgn b); destruct (Z.sgn_spec b) as [[? ->]|[[? ->]|[? ->]]]; lia); nia).
    assert (P0 : (0 < inject_Z b')%Q) by (unfold Qlt; cbn; lia).
    assert (L : (inject_Z (f * 2 ^ 64 + 1) * p2 (-64) <= inject_Z a / inject_Z b <= inject_Z (f * 2 ^ 64 + (2 ^ 64 - 1)) * p2 (-64))%Q).
    { rewrite Q0. change (p2 (-64)) with (1 # (2 ^ 64))%Q. split.
      - apply Qle_shift_div_l; [exact P0|]. unfold Qle. cbn -[Z.pow Z.mul Pos.mul]. change (Z.pos (2 ^ 64)) with (2 ^ 64). nia.
      - apply Qle_shift_div_r; [exact P0|]. unfold Qle. cbn -[Z.pow Z.mul Pos.mul]. change (Z.pos (2 ^ 64)) with (2 ^ 64). nia. }
    destruct L as [L1 L2]. apply (rn_mono 128 ltac:(lia)) in L1, L2. fold rn128 in L1, L2.
    assert (R : forall k, 0 < k < 2 ^ 64 -> (rn 128 (inject_Z (f * 2 ^ 64 + k) * p2 (-64)) == inject_Z (f * 2 ^ 64 + k) * p2 (-64))%Q).
    { intros k Hk. apply (rn_exact 128 ltac:(lia)). exists (f * 2 ^ 64 + k), (-64). split; [lia|reflexivity]. }
    rewrite (R 1 ltac:(lia)) in L1. rewrite (R (2 ^ 64 - 1) ltac:(lia)) in L2. change (rn 128) with rn128 in L1, L2. rewrite W in L1, L2.
    change (p2 (-64)) with (1 # (2 ^ 64))%Q in L1, L2. unfold Qle in L1, L2. cbn -[Z.pow Z.mul Pos.mul] in L1, L2. change (Z.pos (2 ^ 64)) with (2 ^ 64) in L1, L2. nia.
Qed.
Print Assumptions C21_divreal_rounding.
(** exact arithmetic with the option keep_division, as it is by default *)
Definition cE : cfg := Cfg false false true true false rv0 (fun t => Qfloor (rv0 t))
  (fun _ qs => match qs with [x; y] => if Qeq_bool (x / y) (inject_Z (Qfloor (x / y))) then Idec (Qfloor (x / y)) else L "0.5" | _ => L "0.5" end) (fun _ => 0) (fun ps => ps).
Example cE_exact : exact_div cE.
Proof.
  split.
  - intros z _. apply rv0_ic.
  - intros x y z Y E _. cbn [cE c_rv c_rs]. unfold mkConstReal.
    assert (V : (x / y == inject_Z z)%Q) by (rewrite E; field; exact Y). assert (F : Qfloor (x / y) = z) by (rewrite V; apply Qfloor_Z).
    rewrite F, (proj2 (Qeq_bool_iff _ _) V). apply rv0_ic.
  - intros a b z B D _ _. cbn [cE c_rv c_rs].
    destruct (Qeq_bool _ _) eqn:G; [|intros K; assert (H2 : (rv0 (mkConstReal (L "0.5")) == 1 # 2)%Q) by (vm_compute; reflexivity); rewrite H2 in K; unfold Qeq in K; cbn in K; lia].
    exfalso. apply D. apply Qeq_bool_iff in G. set (f := Qfloor _) in G. pose proof (rv0_ic a intS) as Na. pose proof (rv0_ic b intS) as Nb. fold (num0 a) in Na. fold (num0 b) in Nb. clearbody f. rewrite Na, Nb in G. exists f.
    assert (Bq : ~ (inject_Z b == 0)%Q) by (intros H; apply B; unfold Qeq in H; cbn in H; lia).
    assert (M : (inject_Z a == inject_Z (f * b))%Q).
    { rewrite inject_Z_mult, <- G. field. exact Bq. }
    unfold Qeq in M. cbn in M. lia.
  - reflexivity.
Qed.
Example C21_divreal_case : mkOper cE realS NT_DIV_REAL [num0 (-84); num0 2] = Ok (mkConstInt (-42)).
Proof. vm_compute. reflexivity. Qed.
Example C21_divreal_kept_case : mkOper cE realS NT_DIV_REAL [num0 7; num0 2] = Ok (T NT_DIV_REAL realS (L "/") [num0 7; num0 2]) /\ ~ (2 | 7).
Proof. split; [vm_compute; reflexivity|]. intros (k & H). lia. Qed.
(** (/ 4294967296 1) becomes the constant 0, (/ 6000000000 2) a negative number *)
Theorem C21_divreal_refuted :
  mkOper cE realS NT_DIV_REAL [num0 4294967296; num0 1] = Ok (mkConstInt 0) /\
  mkOper cE realS NT_DIV_REAL [num0 6000000000; num0 2] = Ok (mkConstInt (-1294967296)) /\
  (forall I e, eval I e (T NT_DIV_REAL realS (kindToString NT_DIV_REAL) [num0 4294967296; num0 1]) = VNum (ZQ 4294967296) /\
               eval I e (mkConstInt 0) = VNum (ZQ 0)) /\ ZQ 0 <> ZQ 4294967296.
Proof.
  split; [vm_compute; reflexivity|]. split; [vm_compute; reflexivity|]. split.
  - intros I e. split; [now apply (eval_div I e 4294967296 1 4294967296)|]. rewrite mkConstInt_ic. apply eval_ic. auto.
  - intros H. apply ZQ_inj in H. discriminate H.
Qed.
Print Assumptions C21_divreal_refuted.
