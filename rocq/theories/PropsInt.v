(** C100: the operations of the library's integers. *)
From Coq Require Import QArith Qround Qabs Lia ZifyBool.
From Coq Require Zquot.
From Verif Require Import Base SimpModel NumModel FunModel IntModel IntSpec.
Open Scope Z_scope.
Local Notation Q := QArith_base.Q.

(** ** bits *)
Lemma bit_test z k : 0 <= k -> bit z k = Z.testbit z k.
Proof.
  intros K. unfold bit. rewrite <- Z.shiftr_div_pow2, <- (Z.bit0_mod (Z.shiftr z k)), Z.shiftr_spec, Z.add_0_l by lia. now destruct (Z.testbit z k).
Qed.
(** & | ^ ~ act on every bit of the two's complement, << and >> move the bits *)
Theorem C100_bitwise a b k : 0 <= k ->
  bit (h_and a b) k = andb (bit a k) (bit b k) /\ bit (h_or a b) k = orb (bit a k) (bit b k) /\
  bit (h_xor a b) k = xorb (bit a k) (bit b k) /\ bit (h_not a) k = negb (bit a k).
Proof.
  intros K. rewrite !bit_test by exact K. unfold h_and, h_or, h_xor, h_not. rewrite Z.land_spec, Z.lor_spec, Z.lxor_spec.
  replace (- a - 1) with (Z.lnot a) by (unfold Z.lnot; lia). rewrite Z.lnot_spec by exact K. tauto.
Qed.
(** and an integer has only those bits: two integers with the same bits are equal *)
Theorem C100_bits_all a b : (forall k, 0 <= k -> bit a k = bit b k) -> a = b.
Proof.
  intros H. apply Z.bits_inj'. intros k K. specialize (H k K). now rewrite !bit_test in H by exact K.
Qed.
(** a shift to the left multiplies, one to the right divides towards minus infinity *)
Theorem C100_shift a k : 0 <= k ->
  h_shl a k = a * 2 ^ k /\ h_shr a k * 2 ^ k <= a < (h_shr a k + 1) * 2 ^ k /\ h_shr (h_shl a k) k = a /\
  (forall j, 0 <= j -> bit (h_shr a k) j = bit a (j + k)) /\ (forall j, 0 <= j -> bit (h_shl a k) j = if j <? k then false else bit a (j - k)).
Proof.
  intros K. unfold h_shl, h_shr. assert (P : 0 < 2 ^ k) by (apply Z.pow_pos_nonneg; lia).
  split; [now apply Z.shiftl_mul_pow2|]. split; [rewrite Z.shiftr_div_pow2 by lia; pose proof (Z.div_mod a (2 ^ k)); pose proof (Z.mod_pos_bound a (2 ^ k)); nia|].
  split; [rewrite Z.shiftr_shiftl_l by lia; now rewrite Z.sub_diag, Z.shiftl_0_r|]. split; intros j J.
  - rewrite !bit_test by lia. now apply Z.shiftr_spec.
  - rewrite bit_test by lia. destruct (Z.ltb_spec j k); [now apply Z.shiftl_spec_low|]. rewrite bit_test by lia. apply Z.shiftl_spec; lia.
Qed.

Print Assumptions C100_bitwise.
Print Assumptions C100_bits_all.
Print Assumptions C100_shift.
Example C100_bits_case : h_and (-4) 7 = 4 /\ h_or (-8) 3 = -5 /\ h_xor 5 (-1) = -6 /\ h_not 9 = -10 /\ h_shr (-5) 1 = -3 /\ h_shl (-5) 2 = -20 /\ bit (-1) 1000 = true.
Proof. now vm_compute. Qed.

(** ** division *)
(** / and %: an error exactly for a zero divisor; else the only quotient and remainder with a remainder smaller than the
    divisor and of the dividend's sign *)
Theorem C100_division a b :
  (b = 0 -> h_div a b = Throw DomainError /\ h_rem a b = Throw DomainError) /\
  (b <> 0 -> exists q m, h_div a b = Ok q /\ h_rem a b = Ok m /\ a = b * q + m /\ Z.abs m < Z.abs b /\ 0 <= m * a) /\
  (b <> 0 -> forall q m, a = b * q + m -> Z.abs m < Z.abs b -> 0 <= m * a -> h_div a b = Ok q /\ h_rem a b = Ok m) /\
  h_divA a b = h_div a b /\ h_remA a b = h_rem a b.
Proof.
  unfold h_div, h_rem, h_divA, h_remA. split; [intros ->; auto|]. split; [|split; [|auto]].
  - intros N. replace (b =? 0) with false by lia. exists (Z.quot a b), (Z.rem a b). do 2 (split; [reflexivity|]). split; [now apply Z.quot_rem'|].
    split; [now apply Z.rem_bound_abs|]. now apply Z.rem_sign_mul.
  - intros N q m E M S. replace (b =? 0) with false by lia.
    assert (R : Zquot.Remainder a b m) by (unfold Zquot.Remainder; nia). destruct (Zquot.Zquot_mod_unique_full a b q m R E) as [<- <-]. auto.
Qed.
Print Assumptions C100_division.
Example C100_division_case : h_div (-7) 2 = Ok (-3) /\ h_rem (-7) 2 = Ok (-1) /\ h_div 7 (-2) = Ok (-3) /\ h_rem 7 (-2) = Ok 1 /\ h_div 7 0 = Throw DomainError.
Proof. now vm_compute. Qed.
(** divisibility *)
Theorem C100_divides a d : (d = 0 -> h_divides a d = Throw DomainError) /\
  (d <> 0 -> exists r, h_divides a d = Ok r /\ (r = true <-> exists k, a = d * k)).
Proof.
  unfold h_divides. split; [now intros ->|]. intros N. replace (d =? 0) with false by lia. eexists. split; [reflexivity|].
  rewrite Z.eqb_eq. split.
  - intros H. exists (Z.quot a d). pose proof (Z.quot_rem' a d). lia.
  - intros (k & ->). rewrite Z.mul_comm. apply Z.rem_mul. exact N.
Qed.
Print Assumptions C100_divides.
Theorem C100_gcd_lcm a b : is_gcd a b (h_gcd a b) /\ is_lcm a b (h_lcm a b).
Proof.
  unfold h_gcd, h_lcm. split.
  - split; [apply Z.gcd_nonneg|]. split; [apply Z.gcd_divide_l|]. split; [apply Z.gcd_divide_r|]. intros d. apply Z.gcd_greatest.
  - split; [apply Z.lcm_nonneg|]. split; [apply Z.divide_lcm_l|]. split; [apply Z.divide_lcm_r|]. intros d. apply Z.lcm_least.
Qed.
Print Assumptions C100_gcd_lcm.
Example C100_gcd_case : h_gcd (-12) 18 = 6 /\ h_lcm (-4) 6 = 12 /\ h_gcd 0 0 = 0.
Proof. now vm_compute. Qed.

(** ** roots and powers *)
Lemma pow_lt x y n : 0 <= x < y -> 0 < n -> x ^ n < y ^ n. Proof. intros H N. now apply Z.pow_lt_mono_l. Qed.
Lemma root_bits_ok n z : 0 < n -> forall k acc, 0 <= acc -> acc ^ n <= z < (acc + 2 ^ Z.of_nat k) ^ n ->
  0 <= root_bits k n z acc /\ root_bits k n z acc ^ n <= z < (root_bits k n z acc + 1) ^ n.
Proof.
  intros N. induction k as [|k IH]; intros acc A H; [cbn [root_bits]; split; [exact A|exact H]|].
  cbn [root_bits]. cbv zeta. assert (P : 0 < 2 ^ Z.of_nat k) by (apply Z.pow_pos_nonneg; lia).
  rewrite Nat2Z.inj_succ, Z.pow_succ_r in H by lia.
  destruct (Z.leb_spec ((acc + 2 ^ Z.of_nat k) ^ n) z) as [L|L]; apply IH; [lia| |lia|lia].
  replace (acc + 2 ^ Z.of_nat k + 2 ^ Z.of_nat k) with (acc + 2 * 2 ^ Z.of_nat k) by lia. lia.
Qed.
Lemma root_nat_ok n z : 0 < n -> 0 <= z -> 0 <= root_nat n z /\ root_nat n z ^ n <= z < (root_nat n z + 1) ^ n.
Proof.
  intros N P. unfold root_nat. apply root_bits_ok; [exact N|lia|]. rewrite Z.pow_0_l by exact N. split; [exact P|].
  rewrite Nat2Z.inj_succ, Z2Nat.id, Z.add_0_l by apply Z.log2_nonneg.
  assert (L : z < 2 ^ Z.succ (Z.log2 z)).
  { destruct (Z.eq_dec z 0) as [->|]; [cbn; lia|]. apply Z.log2_spec. lia. }
  eapply Z.lt_le_trans; [exact L|]. rewrite <- (Z.pow_1_r (2 ^ Z.succ (Z.log2 z))) at 1. apply Z.pow_le_mono_r; [|lia]. apply Z.pow_pos_nonneg; pose proof (Z.log2_nonneg z); lia.
Qed.
(** the integer part of the root, of the sign of the operand; an error exactly for the zeroth root and even roots of
    negative numbers *)
Theorem C100_root n a : 0 <= n ->
  (n = 0 \/ (a < 0 /\ Z.Even n) -> h_root n a = Throw DomainError) /\
  (n <> 0 -> (0 <= a \/ Z.Odd n) -> exists r, h_root n a = Ok r /\ 0 <= r * a /\ Z.abs r ^ n <= Z.abs a < (Z.abs r + 1) ^ n).
Proof.
  intros N. unfold h_root. split.
  - intros [->|[H V]]; [reflexivity|]. apply Z.even_spec in V. rewrite V. replace (a <? 0) with true by lia. now destruct (n =? 0).
  - intros Z0 H. replace (n =? 0) with false by lia. destruct (Z.ltb_spec a 0) as [L|L].
    + destruct H as [H|H]; [lia|]. apply Z.odd_spec in H. rewrite <- Z.negb_odd, H. cbn [andb negb].
      destruct (root_nat_ok n (- a)) as [P B]; [lia|lia|]. exists (- root_nat n (- a)). split; [reflexivity|]. split; [nia|].
      rewrite Z.abs_opp, (Z.abs_eq _ P), (Z.abs_neq a) by lia. exact B.
    + cbn [andb]. destruct (root_nat_ok n a) as [P B]; [lia|lia|]. exists (root_nat n a). split; [reflexivity|]. split; [nia|].
      now rewrite (Z.abs_eq _ P), (Z.abs_eq a) by lia.
Qed.
Print Assumptions C100_root.
Example C100_root_case : h_root 3 (-28) = Ok (-3) /\ h_root 2 99 = Ok 9 /\ h_root 2 (-4) = Throw DomainError /\ h_root 5 (3 ^ 40) = Ok (3 ^ 8).
Proof. now vm_compute. Qed.
(** the square root is that integer part, safeSqrt gives 0 below 0 *)
Theorem C100_sqrt a :
  (a < 0 -> h_sqrt' a = Throw DomainError /\ h_safeSqrt' a = 0) /\
  (0 <= a -> exists r, h_sqrt' a = Ok r /\ h_safeSqrt' a = r /\ h_root 2 a = Ok r /\ 0 <= r /\ r * r <= a < (r + 1) * (r + 1)).
Proof.
  unfold h_sqrt', h_safeSqrt'. split; intros H.
  - replace (a <? 0) with true by lia. auto.
  - replace (a <? 0) with false by lia. exists (Z.sqrt a). pose proof (Z.sqrt_nonneg a) as P. pose proof (Z.sqrt_spec a H) as S. unfold Z.succ in S.
    split; [reflexivity|]. split; [reflexivity|]. split; [|tauto].
    unfold h_root. replace (a <? 0) with false by lia. cbn [Z.eqb andb]. f_equal.
    destruct (root_nat_ok 2 a) as [R B]; [lia|lia|]. rewrite !Z.pow_2_r in B. nia.
Qed.
Print Assumptions C100_sqrt.
(** the power is the repeated product *)
Theorem C100_pow a n : 0 <= n -> h_pow' a 0 = 1 /\ h_pow' a (n + 1) = h_pow' a n * a.
Proof. intros H. unfold h_pow'. split; [apply Z.pow_0_r|]. rewrite Z.pow_add_r by lia. now rewrite Z.pow_1_r. Qed.
Print Assumptions C100_pow.

(** ** loops *)
Lemma unext_small i : 0 <= i < 2 ^ 64 - 1 -> unext i = i + 1.
Proof. intros H. unfold unext. apply Z.mod_small. lia. Qed.
Lemma fact_run n : forall k m fuel, 1 <= Z.of_nat m -> n = Z.of_nat (m + k) -> n < 2 ^ 64 - 1 -> (k < fuel)%nat ->
  fact_from fuel (Z.of_nat m + 1) n (prod_to m) = Ok (prod_to (m + k)).
Proof.
  induction k as [|k IH]; intros m fuel M N B F; (destruct fuel as [|fuel]; [lia|]); cbn [fact_from].
  - replace (_ <=? _) with false by lia. now rewrite Nat.add_0_r.
  - replace (_ <=? _) with true by lia. rewrite unext_small by lia.
    replace (prod_to m * (Z.of_nat m + 1)) with (prod_to (S m)) by (cbn [prod_to]; f_equal; lia).
    replace (Z.of_nat m + 1 + 1) with (Z.of_nat (S m) + 1) by lia. rewrite IH by lia. do 2 f_equal. lia.
Qed.
Lemma fib_SS k : fib (S (S k)) = fib k + fib (S k). Proof. reflexivity. Qed.
Lemma fib_run n : forall k m fuel, n = Z.of_nat (S m + k) -> n < 2 ^ 64 - 1 -> (k < fuel)%nat ->
  fib_from fuel (Z.of_nat m + 2) n (fib m) (fib (S m)) = Ok (fib (S m + k)).
Proof.
  induction k as [|k IH]; intros m fuel N B F; (destruct fuel as [|fuel]; [lia|]); cbn [fib_from].
  - replace (_ <=? _) with false by lia. now rewrite Nat.add_0_r.
  - replace (_ <=? _) with true by lia. cbv zeta. rewrite unext_small by lia. rewrite <- fib_SS.
    replace (Z.of_nat m + 2 + 1) with (Z.of_nat (S m) + 2) by lia. rewrite IH by lia. do 2 f_equal. lia.
Qed.
(** the factorial and the Fibonacci number of every unsigned long but the last *)
Theorem C100_loops n : Z.of_nat n < 2 ^ 64 - 1 -> exists f0, forall fuel, (f0 <= fuel)%nat ->
  h_factorial fuel (Z.of_nat n) = Ok (prod_to n) /\ h_fibonacci fuel (Z.of_nat n) = Ok (fib n).
Proof.
  intros B. exists (S n). intros fuel F. unfold h_factorial, h_fibonacci. split.
  - destruct n as [|n]; [destruct fuel; [lia|reflexivity]|]. exact (fact_run (Z.of_nat (S n)) n 1 fuel ltac:(lia) ltac:(lia) B ltac:(lia)).
  - destruct n as [|[|n]]; [reflexivity|reflexivity|]. replace (_ <=? 1) with false by lia.
    exact (fib_run (Z.of_nat (S (S n))) (S n) 0 fuel ltac:(lia) B ltac:(lia)).
Qed.
Print Assumptions C100_loops.
Example C100_loops_case : h_factorial 30 20 = Ok 2432902008176640000 /\ h_fibonacci 100 93 = Ok 12200160415121876738.
Proof. now vm_compute. Qed.
(** with the last one neither loop ends: i never passes n *)
Theorem C100_loops_refuted fuel : h_factorial fuel (2 ^ 64 - 1) = NoFuel /\ h_fibonacci fuel (2 ^ 64 - 1) = NoFuel.
Proof.
  assert (U : forall i, unext i <= 2 ^ 64 - 1) by (intros i; unfold unext; pose proof (Z.mod_pos_bound i (2 ^ 64)); pose proof (Z.mod_pos_bound (i + 1) (2 ^ 64) ltac:(lia)); lia).
  split.
  - unfold h_factorial. assert (G : forall fuel i acc, i <= 2 ^ 64 - 1 -> fact_from fuel i (2 ^ 64 - 1) acc = NoFuel); [|apply G; lia].
    clear fuel. induction fuel as [|f IH]; intros i acc H; [reflexivity|]. cbn [fact_from]. replace (i <=? 2 ^ 64 - 1) with true by lia. apply IH, U.
  - unfold h_fibonacci. replace (2 ^ 64 - 1 <=? 1) with false by reflexivity.
    assert (G : forall fuel i a b, i <= 2 ^ 64 - 1 -> fib_from fuel i (2 ^ 64 - 1) a b = NoFuel); [|apply G; lia].
    clear fuel. induction fuel as [|f IH]; intros i a b H; [reflexivity|]. cbn [fib_from]. replace (i <=? 2 ^ 64 - 1) with true by lia. cbv zeta. apply IH, U.
Qed.
Print Assumptions C100_loops_refuted.

(** ** conversions *)
(** to a machine type: the value itself when the type has it, else an overflow_error *)
Theorem C100_machine z :
  (- 2 ^ 31 <= z < 2 ^ 31 -> h_toInt z = Ok z) /\ (~ - 2 ^ 31 <= z < 2 ^ 31 -> h_toInt z = Throw OverflowError) /\
  (- 2 ^ 63 <= z < 2 ^ 63 -> h_toLong z = Ok z /\ h_toLongLong z = Ok z) /\
  (~ - 2 ^ 63 <= z < 2 ^ 63 -> h_toLong z = Throw OverflowError /\ h_toLongLong z = Throw OverflowError) /\
  (0 <= z < 2 ^ 64 -> h_toULong z = Ok z) /\ (~ 0 <= z < 2 ^ 64 -> h_toULong z = Throw OverflowError).
Proof.
  unfold h_toInt, toInt, h_toLong, h_toLongLong, h_toULong, NumModel.toULong, fits_slong.
  refine (conj _ (conj _ (conj _ (conj _ (conj _ _))))); intros H; try split;
  repeat match goal with |- context [if ?b then _ else _] => let E := fresh in destruct b eqn:E; try reflexivity; exfalso; lia end.
Qed.
Print Assumptions C100_machine.
Example C100_machine_case : h_toInt 2147483648 = Throw OverflowError /\ h_toLong (- 2 ^ 63) = Ok (- 2 ^ 63) /\ h_toULong (2 ^ 64 - 1) = Ok (2 ^ 64 - 1).
Proof. now vm_compute. Qed.
(** to a double: exact below 2^53, else rounded towards zero with a relative error below 2^-52; infinite from 2^1024 *)
Theorem C100_toDouble z :
  (Z.abs z < 2 ^ 53 -> exists q, h_toDouble z = Fin q /\ (q == inject_Z z)%Q) /\
  (Z.abs z < 2 ^ 1024 -> exists d, h_toDouble z = Fin (inject_Z d) /\ 0 <= d * z /\ Z.abs d <= Z.abs z /\ 2 ^ 52 * (Z.abs z - Z.abs d) <= Z.abs z /\
                          exists m k, 0 <= k /\ Z.abs m < 2 ^ 53 /\ d = m * 2 ^ k) /\
  (2 ^ 1024 <= z -> h_toDouble z = Inf false) /\ (z <= - 2 ^ 1024 -> h_toDouble z = Inf true).
Proof.
  assert (B : 2 ^ 53 < 2 ^ 1024) by (apply Z.pow_lt_mono_r; lia).
  set (k := Z.max 0 (Z.log2 (Z.abs z) - 52)). assert (K : 0 <= k) by lia. assert (P : 0 < 2 ^ k) by (apply Z.pow_pos_nonneg; lia).
  pose proof (Z.log2_nonneg (Z.abs z)) as L0.
  unfold h_toDouble. fold k. refine (conj _ (conj _ (conj _ _))); intros H.
  - replace (_ <? _) with true by lia. eexists. split; [reflexivity|]. assert (k = 0).
    { unfold k. destruct (Z.eq_dec z 0) as [->|]; [reflexivity|]. assert (Z.log2 (Z.abs z) < 53) by (apply Z.log2_lt_pow2; lia). lia. }
    rewrite H0, Z.pow_0_r, Z.div_1_r, Z.mul_1_r, Z.mul_comm, Z.abs_sgn. reflexivity.
  - replace (_ <? _) with true by lia. eexists. split; [cbv zeta; reflexivity|].
    pose proof (Z.div_mod (Z.abs z) (2 ^ k) ltac:(lia)) as D. pose proof (Z.mod_pos_bound (Z.abs z) (2 ^ k) P) as M. pose proof (Z.div_pos (Z.abs z) (2 ^ k) ltac:(lia) P) as Q0.
    set (q := Z.abs z / 2 ^ k) in *. set (m := Z.abs z mod 2 ^ k) in *.
    assert (S : Z.abs (Z.sgn z * (q * 2 ^ k)) <= q * 2 ^ k /\ (z <> 0 -> Z.abs (Z.sgn z * (q * 2 ^ k)) = q * 2 ^ k)).
    { assert (NN : 0 <= q * 2 ^ k) by nia. rewrite Z.abs_mul. rewrite (Z.abs_eq (q * 2 ^ k)) by exact NN. clear - NN.
      destruct (Z.sgn_spec z) as [[? ->]|[[? ->]|[? ->]]]; [change (Z.abs 1) with 1|change (Z.abs 0) with 0|change (Z.abs (-1)) with 1]; lia. }
    destruct S as [S1 S2]. split; [destruct (Z.sgn_spec z) as [[? ->]|[[? ->]|[? ->]]]; nia|]. split; [nia|].
    split.
    + destruct (Z.eq_dec z 0) as [->|N]; [cbn; lia|]. rewrite (S2 N). replace (Z.abs z - q * 2 ^ k) with m by lia.
      destruct (Z.eq_dec k 0) as [E|E]; [rewrite E in M; lia|].
      assert (W : 2 ^ 52 * 2 ^ k <= Z.abs z).
      { rewrite <- Z.pow_add_r by lia. replace (52 + k) with (Z.log2 (Z.abs z)) by lia. apply Z.log2_spec. lia. }
      nia.
    + exists (Z.sgn z * q), k. split; [exact K|]. split; [|lia]. rewrite Z.abs_mul, (Z.abs_eq q) by lia.
      assert (q < 2 ^ 53); [|destruct (Z.sgn_spec z) as [[? ->]|[[? ->]|[? ->]]]; cbn [Z.abs]; lia].
      apply Z.div_lt_upper_bound; [exact P|]. rewrite Z.mul_comm, <- Z.pow_add_r by lia.
      destruct (Z.eq_dec z 0) as [->|N]; [cbn [Z.abs]; apply Z.pow_pos_nonneg; lia|].
      eapply Z.lt_le_trans; [apply Z.log2_spec; lia|]. apply Z.pow_le_mono_r; lia.
  - replace (_ <? _) with false by lia. f_equal. pose proof (Z.pow_pos_nonneg 2 1024). lia.
  - replace (_ <? _) with false by lia. f_equal. pose proof (Z.pow_pos_nonneg 2 1024). lia.
Qed.
Print Assumptions C100_toDouble.
Example C100_toDouble_case : h_toDouble (- (2 ^ 53 + 1)) = Fin (inject_Z (- 2 ^ 53)) /\ h_toDouble (2 ^ 60 - 1) = Fin (inject_Z (2 ^ 60 - 2 ^ 7)) /\ h_toDouble (2 ^ 1024) = Inf false.
Proof. now vm_compute. Qed.
(** from a double: towards zero; an infinity or NaN kills the program *)
Theorem C100_ofDouble x :
  match x with
  | Fin q => exists z, h_ofDouble x = Ok z /\ (Qabs (inject_Z z) <= Qabs q)%Q /\ (Qabs q < Qabs (inject_Z z) + 1)%Q /\ (0 <= inject_Z z * q)%Q
  | _ => h_ofDouble x = Abort
  end.
Proof.
  destruct x as [|s|q]; [reflexivity|reflexivity|]. cbn [h_ofDouble]. eexists. split; [reflexivity|]. unfold Qtrunc.
  assert (G : forall y, (0 <= y)%Q -> (Qabs (inject_Z (Qfloor y)) <= Qabs y)%Q /\ (Qabs y < Qabs (inject_Z (Qfloor y)) + 1)%Q /\ (0 <= inject_Z (Qfloor y))%Q).
  { intros y Y. pose proof (Qfloor_le y) as F1. pose proof (Qlt_floor y) as F2. rewrite inject_Z_plus in F2.
    assert (N : 0 <= Qfloor y) by (rewrite <- (Qfloor_Z 0); now apply Qfloor_resp_le).
    assert (N' : (0 <= inject_Z (Qfloor y))%Q) by (unfold Qle; cbn; lia). rewrite !Qabs_pos by assumption. auto. }
  destruct (qneg q) eqn:E; unfold qneg, qlt in E.
  - assert (Y : (0 <= - q)%Q).
    { apply negb_true_iff in E. assert (~ (0 <= q)%Q) as H by (intros H; apply Qle_bool_iff in H; congruence). apply Qnot_le_lt in H. apply Qlt_le_weak in H. Lqa.lra. }
    destruct (G (- q)%Q Y) as (A & B & C). rewrite Qabs_opp in A, B. rewrite inject_Z_opp, Qabs_opp. split; [exact A|]. split; [exact B|].
    setoid_replace (- inject_Z (Qfloor (- q)) * q)%Q with (inject_Z (Qfloor (- q)) * - q)%Q by ring. now apply Qmult_le_0_compat.
  - apply negb_false_iff, Qle_bool_iff in E. destruct (G q E) as (A & B & C). split; [exact A|]. split; [exact B|]. now apply Qmult_le_0_compat.
Qed.
Print Assumptions C100_ofDouble.
Example C100_ofDouble_case : h_ofDouble (Fin (-7 # 2)) = Ok (-3) /\ h_ofDouble (Fin (7 # 2)) = Ok 3 /\ h_ofDouble Nan = Abort.
Proof. now vm_compute. Qed.
(** the neighbours, and the increments: what they return and what they leave *)
Theorem C100_steps z :
  (forall y, h_nextBelow z < y < h_nextAbove z <-> y = z) /\
  h_preInc z = (h_nextAbove z, h_nextAbove z) /\ h_postInc z = (z, h_nextAbove z) /\
  h_preDec z = (h_nextBelow z, h_nextBelow z) /\ h_postDec z = (z, h_nextBelow z).
Proof. unfold h_nextBelow, h_nextAbove, h_preInc, h_postInc, h_preDec, h_postDec. split; [intros y; lia|auto]. Qed.
Print Assumptions C100_steps.
(** the comparisons are those of one total order in which equality is = *)
Theorem C100_order a b : (h_eq a b = true <-> a = b) /\ h_ne a b = negb (h_eq a b) /\ h_lt a b = h_gt b a /\ h_le a b = negb (h_lt b a) /\
  h_ge a b = h_le b a /\ (h_lt a b = true <-> exists p, b = a + Zpos p).
Proof.
  unfold h_eq, h_ne, h_lt, h_gt, h_le, h_ge. split; [apply Z.eqb_eq|]. do 4 (split; [lia|]). rewrite Z.ltb_lt. split; [intros H; exists (Z.to_pos (b - a)); lia|intros (p & ->); lia].
Qed.
Print Assumptions C100_order.
(** a real to a machine integer: [nearest q n] says that n is the integer nearest to q, the even one of two *)
Definition nearest (q : Q) (n : Z) : Prop :=
  (Qabs (q - inject_Z n) <= 1 # 2)%Q /\ ((Qabs (q - inject_Z n) == 1 # 2)%Q -> Z.Even n).
Lemma Qeven_nearest q : nearest q (Qeven q).
Proof.
  pose proof (Qfloor_le q) as F1. pose proof (Qlt_floor q) as F2. rewrite inject_Z_plus in F2. unfold nearest, Qeven.
  set (f := Qfloor q) in *. assert (A : (inject_Z (f + 1) == inject_Z f + 1)%Q) by now rewrite inject_Z_plus.
  change (inject_Z 1) with 1%Q in F2.
  assert (D0 : (Qabs (q - inject_Z f) == q - inject_Z f)%Q) by (apply Qabs_pos; Lqa.lra).
  assert (D1 : (Qabs (q - inject_Z (f + 1)) == 1 - (q - inject_Z f))%Q) by (rewrite Qabs_neg; [rewrite A; ring|rewrite A; Lqa.lra]).
  destruct (Qcompare_spec (q - inject_Z f) (1 # 2)) as [E|E|E].
  - destruct (Z.even f) eqn:V.
    + rewrite D0. split; [Lqa.lra|]. intros _. now apply Z.even_spec.
    + rewrite D1. split; [Lqa.lra|]. intros _. apply Z.even_spec. rewrite Z.add_1_r, Z.even_succ, <- Z.negb_even. now rewrite V.
  - rewrite D0. split; [Lqa.lra|]. intros H. exfalso. Lqa.lra.
  - rewrite D1. split; [Lqa.lra|]. intros H. exfalso. Lqa.lra.
Qed.
(** toLongLong stops at the ends of long long, toInt is right within the 32 bits of an int *)
Theorem C100_real_conversions q : exists n, nearest q n /\
  x_toLongLong (Fin q) = Z.max (- 2 ^ 63) (Z.min n (2 ^ 63 - 1)) /\ (- 2 ^ 31 <= n < 2 ^ 31 -> x_toInt (Fin q) = n).
Proof.
  exists (Qeven q). split; [apply Qeven_nearest|]. unfold x_toLongLong, x_toInt, xint, fits_slong, realToInt. split.
  - destruct (_ && _) eqn:E; [lia|]. destruct (Z.leb_spec 0 (Qeven q)); lia.
  - intros H. rewrite Z.max_l, Z.min_l, Z.mod_small by lia. lia.
Qed.
Print Assumptions C100_real_conversions.
(** beyond them toInt keeps the lower bits: 2^32 becomes 0, infinity -1 *)
Theorem C100_real_toInt_refuted : x_toInt (Fin (inject_Z (2 ^ 32))) = 0 /\ x_toInt (Fin (inject_Z (2 ^ 31))) = - 2 ^ 31 /\
  x_toInt (Inf false) = -1 /\ x_toInt (Inf true) = 0 /\ x_toLongLong (Inf false) = 0.
Proof. now vm_compute. Qed.
Print Assumptions C100_real_toInt_refuted.
