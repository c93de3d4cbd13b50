(** Properties C01-C11: bit-vector literals.  A literal of width [w] and value [v]
    is [lit w v] (BVSpec); [d] says whether debug assertions are compiled in. *)
From Verif Require Import Base BVModel BVSpec BVProofs BVProofs2 BVProofs3 BVProofs4 BVProofs5.

(** ** C01 bitwise operations *)
Theorem C01_bitwise : forall d w a b,
  bvNot d (lit w a) = Ok (lit w (Z.lnot a)) /\
  bvAnd d (lit w a) (lit w b) = Ok (lit w (Z.land a b)) /\
  bvOr d (lit w a) (lit w b) = Ok (lit w (Z.lor a b)) /\
  bvXor d (lit w a) (lit w b) = Ok (lit w (Z.lxor a b)) /\
  bvNand d (lit w a) (lit w b) = Ok (lit w (Z.lnot (Z.land a b))) /\
  bvNor d (lit w a) (lit w b) = Ok (lit w (Z.lnot (Z.lor a b))) /\
  bvXnor d (lit w a) (lit w b) = Ok (lit w (Z.lnot (Z.lxor a b))).
Proof.
  exact (fun d w a b => conj (bvNot_ok d w a) (conj (bvAnd_ok d w a b) (conj (bvOr_ok d w a b)
    (conj (bvXor_ok d w a b) (conj (bvNand_ok d w a b) (conj (bvNor_ok d w a b) (bvXnor_ok d w a b))))))).
Qed.
Print Assumptions C01_bitwise.
Example C01_ex : bvAnd true (L "#b1101") (L "#b0111") = Ok (L "#b0101") /\ L "#b1101" = lit 4 13.
Proof. split; reflexivity. Qed.

(** ** C02 addition, negation, multiplication modulo 2^w.  [fits w]: the literal
    is not longer than the longest std::string.  bvMul on the empty literal "#b"
    (not SMT-LIB) is undefined behaviour, hence [0 < w]. *)
Theorem C02_add : forall d w a b, fits w -> bvAdd d (lit w a) (lit w b) = Ok (lit w (a + b)).
Proof. exact bvAdd_ok. Qed.
Print Assumptions C02_add.
Theorem C02_neg : forall d w a, bvNeg d (lit w a) = Ok (lit w (- a)).
Proof. exact bvNeg_ok. Qed.
Print Assumptions C02_neg.
Theorem C02_mul : forall d w a b, (0 < w)%nat -> fits w ->
  bvMul d (lit w a) (lit w b) = Ok (lit w (a * b)).
Proof. exact bvMul_ok. Qed.
Print Assumptions C02_mul.
Example C02_ex : fits 4 /\ (0 < 4)%nat /\ bvMul false (L "#b0111") (L "#b0011") = Ok (L "#b0101").
Proof. split; [unfold fits; lia|split; [lia|reflexivity]]. Qed.

(** ** C03 subtraction: the code folds bvsub correctly on no operands except two
    zeros, so the property fails at every width. *)
Theorem C03_sub_correct_iff_zero : forall d w a b, fits w ->
  (bvSub d (lit w a) (lit w b) = Ok (lit w (a - b)) <-> uv w a = 0 /\ uv w b = 0).
Proof. exact bvSub_iff. Qed.
Print Assumptions C03_sub_correct_iff_zero.
Theorem C03_sub_refuted : exists d w a b, (0 < w)%nat /\ fits w /\
  bvSub d (lit w a) (lit w b) <> Ok (lit w (a - b)).
Proof.
  exists false, 4%nat, 5, 3. split; [lia|]. split; [unfold fits; lia|]. vm_compute. discriminate.
Qed.
Print Assumptions C03_sub_refuted.
(** What does hold: the result is always a literal of the same width. *)
Theorem C03_sub_width_partial : forall d w a b, fits w ->
  exists v, bvSub d (lit w a) (lit w b) = Ok (lit w v).
Proof. exact bvSub_wf. Qed.
Print Assumptions C03_sub_width_partial.
Example C03_ex : bvSub false (L "#b0101") (L "#b0011") = Ok (L "#b1111").  (* 5 - 3 folds to 15 *)
Proof. reflexivity. Qed.

(** ** C04 unsigned division and remainder *)
Theorem C04_zero_divisor : forall d w a b, fits w -> uv w b = 0 ->
  bvUdiv d (lit w a) (lit w b) = Ok (lit w (udivS w (uv w a) (uv w b))) /\
  bvUrem d (lit w a) (lit w b) = Ok (lit w (uremS w (uv w a) (uv w b))).
Proof. exact (fun d w a b Hf Hb => conj (bvUdiv_zero d w a b Hf Hb) (bvUrem_zero d w a b Hb)). Qed.
Print Assumptions C04_zero_divisor.
Theorem C04_udiv_correct_iff : forall d w a b, fits w -> uv w b <> 0 ->
  (bvUdiv d (lit w a) (lit w b) = Ok (lit w (udivS w (uv w a) (uv w b))) <-> uv w a < 2 * uv w b).
Proof. exact bvUdiv_iff. Qed.
Print Assumptions C04_udiv_correct_iff.
(** exact value returned for every non-zero divisor *)
Theorem C04_udiv_value : forall d w a b, fits w -> uv w b <> 0 ->
  bvUdiv d (lit w a) (lit w b) = Ok (lit w (if uv w b <=? uv w a then 1 else 0)).
Proof. exact bvUdiv_nz. Qed.
Print Assumptions C04_udiv_value.
Theorem C04_urem_correct_iff : forall d w a b, fits w -> uv w b <> 0 -> uv w a < 2 * uv w b ->
  (bvUrem d (lit w a) (lit w b) = Ok (lit w (uremS w (uv w a) (uv w b))) <-> uv w a = 0).
Proof. exact bvUrem_iff. Qed.
Print Assumptions C04_urem_correct_iff.
Theorem C04_refuted : exists d w a b, (0 < w)%nat /\ fits w /\ uv w b <> 0 /\
  bvUdiv d (lit w a) (lit w b) <> Ok (lit w (udivS w (uv w a) (uv w b))) /\
  bvUrem d (lit w a) (lit w b) <> Ok (lit w (uremS w (uv w a) (uv w b))).
Proof.
  exists false, 4%nat, 7, 3. split; [lia|]. split; [unfold fits; lia|].
  vm_compute. repeat split; discriminate.
Qed.
Print Assumptions C04_refuted.
Example C04_ex : bvUdiv false (L "#b0110") (L "#b0010") = Ok (L "#b0001").  (* 6 / 2 = 1 *)
Proof. reflexivity. Qed.

(** ** C05 signed division, remainder, modulo *)
Theorem C05_sdiv_correct_iff : forall d w a b, (0 < w)%nat -> fits w ->
  (bvSdiv d (lit w a) (lit w b) = Ok (lit w (sdivS w (uv w a) (uv w b)))
   <-> (uv w b <> 0 \/ msb w a = true \/ w = 1%nat)).
Proof. exact bvSdiv_iff. Qed.
Print Assumptions C05_sdiv_correct_iff.
Theorem C05_srem : forall d w a b, (0 < w)%nat -> fits w ->
  bvSrem d (lit w a) (lit w b) = Ok (lit w (sremS w (uv w a) (uv w b))).
Proof. exact bvSrem_ok. Qed.
Print Assumptions C05_srem.
Theorem C05_smod_correct_iff : forall d w a b, (0 < w)%nat -> fits w ->
  (bvSmod d (lit w a) (lit w b) = Ok (lit w (smodS w (uv w a) (uv w b))) <->
   (uv w b = 0 \/ 0 <= sv w a \/ sv w a mod sv w b = 0
    \/ (0 < sv w b /\ 2 * (sv w a mod sv w b) = sv w b))).
Proof. exact bvSmod_iff. Qed.
Print Assumptions C05_smod_correct_iff.
Theorem C05_refuted : exists d w a b, (0 < w)%nat /\ fits w /\
  bvSmod d (lit w a) (lit w b) <> Ok (lit w (smodS w (uv w a) (uv w b))) /\
  bvSdiv d (lit w 3) (lit w 0) <> Ok (lit w (sdivS w (uv w 3) (uv w 0))).
Proof.
  exists false, 4%nat, (-7), 3. split; [lia|]. split; [unfold fits; lia|].
  vm_compute. split; discriminate.
Qed.
Print Assumptions C05_refuted.
Example C05_ex : bvSdiv false (L "#b1001") (L "#b0010") = Ok (L "#b1101")   (* -7 / 2 = -3 *)
  /\ sv 4 9 = -7 /\ sv 4 13 = -3.
Proof. repeat split; reflexivity. Qed.

(** ** C06 shifts: exact behaviour.  The amount is read in base ten. *)
Theorem C06_lshr_value : forall d w a n, (0 < w)%nat -> fits w ->
  dec_of_bin w n < Z.of_nat w ->
  bvLshr d (lit w a) (lit w n) = Ok (lit w (lshrS w (uv w a) (dec_of_bin w n))).
Proof.
  intros d w a n Hw Hf H. rewrite bvLshr_exact by assumption.
  pose proof (fits_two64 w Hf). destruct (Z.leb_spec two64 (dec_of_bin w n)); [lia|].
  destruct (Z.leb_spec (Z.of_nat w) (dec_of_bin w n)); [lia|reflexivity].
Qed.
Print Assumptions C06_lshr_value.
Theorem C06_ashr_value : forall d w a n, (0 < w)%nat -> fits w -> dec_of_bin w n < two64 ->
  bvAshr d (lit w a) (lit w n) = Ok (lit w (ashrS w (uv w a) (dec_of_bin w n))).
Proof.
  intros d w a n Hw Hf H. rewrite bvAshr_exact by assumption.
  destruct (Z.leb_spec two64 (dec_of_bin w n)); [lia|reflexivity].
Qed.
Print Assumptions C06_ashr_value.
(** Correct when the amount is 0 or 1 (right shifts), 0 (left shift), and for
    arithmetic overshift; these are the parts of C06 that hold. *)
Theorem C06_shift_partial : forall d w a n, (0 < w)%nat -> fits w ->
  (uv w n <= 1 ->
     bvLshr d (lit w a) (lit w n) = Ok (lit w (lshrS w (uv w a) (uv w n))) /\
     bvAshr d (lit w a) (lit w n) = Ok (lit w (ashrS w (uv w a) (uv w n)))) /\
  (uv w n = 0 -> bvShl d (lit w a) (lit w n) = Ok (lit w (shlS w (uv w a) (uv w n)))) /\
  (Z.of_nat w <= uv w n -> dec_of_bin w n < two64 ->
     bvAshr d (lit w a) (lit w n) = Ok (lit w (ashrS w (uv w a) (uv w n)))).
Proof.
  exact (fun d w a n Hw Hf => conj (fun H => conj (bvLshr_small d w a n Hw Hf H) (bvAshr_small d w a n Hw Hf H))
    (conj (bvShl_zero d w a n Hw Hf) (bvAshr_over d w a n Hw Hf))).
Qed.
Print Assumptions C06_shift_partial.
(** At every width from 4 (resp. 2) up each shift is wrong on some operands. *)
Theorem C06_refuted : forall d w, (4 <= w)%nat -> fits w ->
  bvShl d (lit w 1) (lit w 1) <> Ok (lit w (shlS w (uv w 1) (uv w 1))) /\
  bvLshr d (lit w 4) (lit w 2) <> Ok (lit w (lshrS w (uv w 4) (uv w 2))) /\
  bvAshr d (lit w 4) (lit w 2) <> Ok (lit w (ashrS w (uv w 4) (uv w 2))).
Proof.
  exact (fun d w Hw Hf => conj (bvShl_one_wrong d w ltac:(lia) Hf)
    (conj (lshr_two_wrong d w ltac:(lia) Hf) (ashr_two_wrong d w Hw Hf))).
Qed.
Print Assumptions C06_refuted.
Example C06_ex : fits 8 /\ (4 <= 8)%nat /\ bvLshr false (L "#b00010000") (L "#b00000010") = Ok (L "#b000").
Proof. split; [unfold fits; lia|]. split; [lia|reflexivity]. Qed.

(** ** C07 concatenation, extraction, extension, repetition *)
Theorem C07_concat : forall d w1 w2 a b, fits w1 -> fits w2 ->
  bvConcat d (lit w1 a) (lit w2 b) = Ok (lit (w1 + w2) (a * 2 ^ Z.of_nat w2 + uv w2 b)).
Proof. exact bvConcat_ok. Qed.
Print Assumptions C07_concat.
Theorem C07_extract : forall d w a i j, fits w -> (j <= i < w)%nat ->
  bvExtract d (lit w a) (Z.of_nat i) (Z.of_nat j) = Ok (lit (i - j + 1) (a / 2 ^ Z.of_nat j)).
Proof. exact bvExtract_ok. Qed.
Print Assumptions C07_extract.
Theorem C07_zero_extend : forall d w a k, fits w -> fits k ->
  bvZeroExtend d (lit w a) (Z.of_nat k) = Ok (lit (k + w) (uv w a)).
Proof. exact bvZeroExtend_ok. Qed.
Print Assumptions C07_zero_extend.
Theorem C07_sign_extend : forall d w a k, (0 < w)%nat -> fits w -> fits k ->
  bvSignExtend d (lit w a) (Z.of_nat k) = Ok (lit (k + w) (sv w a)).
Proof. exact bvSignExtend_ok. Qed.
Print Assumptions C07_sign_extend.
Theorem C07_repeat : forall d w a k, fits w -> fits k ->
  bvRepeat d (lit w a) (Z.of_nat k) = Ok (lit (k * w) (repS k w a)).
Proof. exact bvRepeat_ok. Qed.
Print Assumptions C07_repeat.
(** Ill-ranged extraction: rejected when the high index is at least w + 2 ... *)
Theorem C07_extract_far : forall w a i j, fits w -> Z.of_nat w + 1 < i < two64 - 1 -> 0 <= j <= i ->
  bvExtract false (lit w a) i j = Throw OutOfRange.
Proof. exact bvExtract_far. Qed.
Print Assumptions C07_extract_far.
(** ... but at i = w the result is text that is no literal, even with assertions on. *)
Theorem C07_extract_refuted : exists d w a i j s, fits w /\ Z.of_nat w <= i /\ 0 <= j <= i /\
  bvExtract d (lit w a) i j = Ok s /\ forall w' v, s <> lit w' v.
Proof.
  exists true, 4%nat, 5, 4, 1, (L "#bb010"). split; [unfold fits; lia|]. split; [lia|]. split; [lia|].
  split; [reflexivity|]. intros w' v H. pose proof (f_equal (@length ascii) H) as E.
  rewrite lit_length in E. cbn in E. replace w' with 4%nat in H by lia.
  unfold lit in H. cbn [seq rev map app] in H. pose proof (f_equal (fun l => nth 2 l "#"%char) H) as H1.
  cbn [nth] in H1. destruct (Z.testbit v _) in H1; discriminate.
Qed.
Print Assumptions C07_extract_refuted.
Example C07_ex : bvExtract false (L "#b1101") 2 1 = Ok (L "#b10")
  /\ bvSignExtend false (L "#b101") 2 = Ok (L "#b11101").
Proof. split; reflexivity. Qed.

(** ** C08 rotation: right up to the width, an exception beyond it. *)
Theorem C08_rotate_partial : forall d w a k, (0 < w)%nat -> fits w -> (k <= w)%nat ->
  bvRotateLeft d (lit w a) (Z.of_nat k) = Ok (lit w (rotlS w (uv w a) (Z.of_nat k))) /\
  bvRotateRight d (lit w a) (Z.of_nat k) = Ok (lit w (rotrS w (uv w a) (Z.of_nat k))).
Proof.
  exact (fun d w a k Hw Hf Hk => conj (bvRotateLeft_ok d w a k Hw Hf Hk) (bvRotateRight_ok d w a k Hw Hf Hk)).
Qed.
Print Assumptions C08_rotate_partial.
Theorem C08_rotate_refuted : forall d w a n, (0 < w)%nat -> fits w -> Z.of_nat w < n < two64 - 2 ->
  bvRotateLeft d (lit w a) n = Throw OutOfRange.
Proof. exact bvRotateLeft_far. Qed.
Print Assumptions C08_rotate_refuted.
Example C08_ex : bvRotateLeft false (L "#b1000") 1 = Ok (L "#b0001")
  /\ bvRotateLeft false (L "#b1000") 5 = Throw OutOfRange.
Proof. split; reflexivity. Qed.

(** ** C09 comparison *)
Theorem C09_comparison : forall d w a b, (0 < w)%nat -> fits w ->
  bvComp d (lit w a) (lit w b) CEq = Ok (uv w a =? uv w b) /\
  bvComp d (lit w a) (lit w b) CDistinct = Ok (negb (uv w a =? uv w b)) /\
  bvComp d (lit w a) (lit w b) CUlt = Ok (uv w a <? uv w b) /\
  bvComp d (lit w a) (lit w b) CUle = Ok (uv w a <=? uv w b) /\
  bvComp d (lit w a) (lit w b) CUgt = Ok (uv w b <? uv w a) /\
  bvComp d (lit w a) (lit w b) CUge = Ok (uv w b <=? uv w a) /\
  bvComp d (lit w a) (lit w b) CSlt = Ok (sv w a <? sv w b) /\
  bvComp d (lit w a) (lit w b) CSle = Ok (sv w a <=? sv w b) /\
  bvComp d (lit w a) (lit w b) CSgt = Ok (sv w b <? sv w a) /\
  bvComp d (lit w a) (lit w b) CSge = Ok (sv w b <=? sv w a).
Proof. intros d w a b Hw Hf. repeat split; exact (bvComp_ok d w _ a b Hw Hf). Qed.
Print Assumptions C09_comparison.
Example C09_ex : bvComp false (L "#b1001") (L "#b0010") CSlt = Ok true
  /\ bvComp false (L "#b1001") (L "#b0010") CUlt = Ok false.
Proof. split; reflexivity. Qed.

(** ** C10 conversion *)
Theorem C10_bv_to_nat : forall d w v, bvToNat d (lit w v) = Ok (uv w v).
Proof. exact bvToNat_ok. Qed.
Print Assumptions C10_bv_to_nat.
Theorem C10_bv_to_int : forall d w v, (0 < w)%nat -> fits w -> bvToInt d (lit w v) = Ok (sv w v).
Proof. exact bvToInt_ok. Qed.
Print Assumptions C10_bv_to_int.
Theorem C10_int_to_bv : forall d w i, (0 < w)%nat -> fits w -> intToBv d i (Z.of_nat w) = Ok (lit w i).
Proof. exact intToBv_ok. Qed.
Print Assumptions C10_int_to_bv.
Theorem C10_nat_to_bv : forall w k i, 0 <= i < 2 ^ Z.of_nat k -> fits k -> fits w ->
  natToBv i (Z.of_nat w) = Ok (lit w i).
Proof. exact natToBv_ok. Qed.
Print Assumptions C10_nat_to_bv.
Theorem C10_nat_round_trip : forall d w v, fits w -> 0 <= v < 2 ^ Z.of_nat w ->
  exists s, natToBv v (Z.of_nat w) = Ok s /\ bvToNat d s = Ok v.
Proof. exact bv_nat_round. Qed.
Print Assumptions C10_nat_round_trip.
Theorem C10_int_round_trip : forall d w v, (0 < w)%nat -> fits w ->
  - 2 ^ (Z.of_nat w - 1) <= v < 2 ^ (Z.of_nat w - 1) ->
  exists s, intToBv d v (Z.of_nat w) = Ok s /\ bvToInt d s = Ok v.
Proof. exact bv_int_round. Qed.
Print Assumptions C10_int_round_trip.
(** natToBv of a negative integer returns text with a minus sign in it. *)
Theorem C10_nat_negative_refuted : exists i w s, (0 < w)%nat /\ natToBv i (Z.of_nat w) = Ok s /\
  s <> lit w i.
Proof. exists (-3), 4%nat. eexists. split; [lia|]. split; [reflexivity|discriminate]. Qed.
Print Assumptions C10_nat_negative_refuted.
Example C10_ex : intToBv false (-3) 4 = Ok (L "#b1101") /\ natToBv (-3) 4 = Ok (L "#b0-11").
Proof. split; reflexivity. Qed.

(** ** C11 hexadecimal and decimal literals *)
Theorem C11_hex : forall d s v, hexnum s = Some v -> hexToBv d s = Ok (lit (4 * length s) v).
Proof. exact hexToBv_ok. Qed.
Print Assumptions C11_hex.
(** (_ bvX n) written with a hexadecimal X ignores the requested width n. *)
Theorem C11_width_refuted : exists d s v w r, hexnum s = Some v /\ (0 < w)%nat /\
  natToBv_str d (L "#x" ++ s) (Z.of_nat w) = Ok r /\ r <> lit w v.
Proof.
  exists false, (L "F"), 15, 8%nat. eexists. split; [reflexivity|]. split; [lia|].
  split; [reflexivity|discriminate].
Qed.
Print Assumptions C11_width_refuted.
Example C11_ex : hexnum (L "aF") = Some 175 /\ hexToBv true (L "aF") = Ok (L "#b10101111").
Proof. split; reflexivity. Qed.
