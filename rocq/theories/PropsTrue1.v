(** C71-C75: complete statements about parts of C04, C05, C07, C10, C13, C14.
    Literals [lit w v] and SMT-LIB's functions [udivS], [uremS], [sremS], [repS] are those of BVSpec.v,
    the string relations those of UtilSpec.v. *)
From Coq Require Import Znumtheory.
From Verif Require Import Base BVModel BVSpec BVProofs UtilModel UtilSpec UtilProofs UtilProofs2 PropsBV PropsUtil.

(** C71: the signed remainder of any two vectors; division and remainder by zero *)
Theorem C71_remainders : forall d w a b, (0 < w)%nat -> BVSpec.fits w ->
  bvSrem d (lit w a) (lit w b) = Ok (lit w (sremS w (uv w a) (uv w b))) /\
  (uv w b = 0 -> bvUdiv d (lit w a) (lit w b) = Ok (lit w (2 ^ Z.of_nat w - 1)) /\ bvUrem d (lit w a) (lit w b) = Ok (lit w a)).
Proof.
  intros d w a b W F. split; [now apply C05_srem|]. intros Z. destruct (C04_zero_divisor d w a b F Z) as [H1 H2]. rewrite H1, H2. unfold udivS, uremS. rewrite Z. cbn [Z.eqb].
  split; [reflexivity|]. now rewrite lit_uv.
Qed.
Print Assumptions C71_remainders.
(** -7 rem 2 = -1 in four bits; 5 udiv 0 = 15 *)
Example C71_ex : bvSrem false (lit 4 (-7)) (lit 4 2) = Ok (lit 4 (-1)) /\ bvUdiv false (lit 4 5) (lit 4 0) = Ok (lit 4 15) /\ uv 4 0 = 0.
Proof. repeat split. Qed.

(** C72: joining, slicing inside the vector, extending and repeating *)
Theorem C72_structure : forall d w v k a i j, (0 < w)%nat -> BVSpec.fits w -> BVSpec.fits v -> BVSpec.fits k -> forall b,
  bvConcat d (lit w a) (lit v b) = Ok (lit (w + v) (a * 2 ^ Z.of_nat v + uv v b)) /\
  ((j <= i < w)%nat -> bvExtract d (lit w a) (Z.of_nat i) (Z.of_nat j) = Ok (lit (i - j + 1) (a / 2 ^ Z.of_nat j))) /\
  bvZeroExtend d (lit w a) (Z.of_nat k) = Ok (lit (k + w) (uv w a)) /\
  bvSignExtend d (lit w a) (Z.of_nat k) = Ok (lit (k + w) (sv w a)) /\
  bvRepeat d (lit w a) (Z.of_nat k) = Ok (lit (k * w) (repS k w a)).
Proof.
  intros d w v k a i j W Fw Fv Fk b. split; [now apply C07_concat|]. split; [intros; now apply C07_extract|].
  split; [now apply C07_zero_extend|]. split; [now apply C07_sign_extend|now apply C07_repeat].
Qed.
Print Assumptions C72_structure.
Example C72_ex : bvConcat false (lit 2 2) (lit 3 5) = Ok (lit 5 21) /\ bvExtract false (lit 4 6) 2 1 = Ok (lit 2 3) /\ bvSignExtend false (lit 3 4) 2 = Ok (lit 5 28).
Proof. repeat split. Qed.

(** C73: vectors and integers *)
Theorem C73_conversions : forall d w v, (0 < w)%nat -> BVSpec.fits w ->
  bvToNat d (lit w v) = Ok (uv w v) /\ bvToInt d (lit w v) = Ok (sv w v) /\ intToBv d v (Z.of_nat w) = Ok (lit w v) /\
  (- 2 ^ (Z.of_nat w - 1) <= v < 2 ^ (Z.of_nat w - 1) -> exists s, intToBv d v (Z.of_nat w) = Ok s /\ bvToInt d s = Ok v) /\
  (0 <= v < 2 ^ Z.of_nat w -> exists s, natToBv v (Z.of_nat w) = Ok s /\ bvToNat d s = Ok v).
Proof.
  intros d w v W F. split; [apply C10_bv_to_nat|]. split; [now apply C10_bv_to_int|]. split; [now apply C10_int_to_bv|].
  split; intros H; [now apply C10_int_round_trip|now apply C10_nat_round_trip].
Qed.
Print Assumptions C73_conversions.
Example C73_ex : bvToInt false (lit 4 9) = Ok (-7) /\ intToBv false (-7) 4 = Ok (lit 4 9) /\ - 2 ^ (Z.of_nat 4 - 1) <= -7 < 2 ^ (Z.of_nat 4 - 1).
Proof. split; [reflexivity|]. split; [reflexivity|]. cbn. lia. Qed.

(** C74: integer functions on natural numbers; [fuel] bounds the iterations of the loops *)
Theorem C74_naturals : forall fuel a b, 0 <= a -> 0 <= b -> b < Z.of_nat fuel -> a < 3 + 2 * Z.of_nat fuel ->
  mgcd fuel a b = Ok (Z.gcd a b) /\
  mpow a b = a ^ b /\ mfactorial a = Z.of_nat (fact (Z.to_nat a)) /\
  isEven a = Ok (Z.even a) /\ isOdd a = Ok (Z.odd a) /\ (exists r, isPrime fuel a = Ok r /\ (r = true <-> prime a)).
Proof.
  intros fuel a b Ha Hb Hf Hp. split.
  - destruct (C13_gcd fuel a b) as (g & E & G & N); [rewrite Z.abs_eq; lia|]. rewrite E. f_equal. rewrite <- G. symmetry. apply Z.abs_eq. auto.
  - split; [now apply C13_pow|]. split; [rewrite <- (Z2Nat.id a Ha) at 1; apply C13_factorial|]. split; [apply C13_parity|]. split; [apply C13_parity|now apply C13_prime].
Qed.
Print Assumptions C74_naturals.
Example C74_ex : mgcd 100 84 36 = Ok 12 /\ mfactorial 5 = 120 /\ isPrime 100 91 = Ok false /\ isPrime 100 97 = Ok true.
Proof. repeat split; vm_compute; reflexivity. Qed.

(** C75: operations on string literals; [Q s] is the literal of [s] *)
Theorem C75_strings : forall s t u i j, sfits s -> sfits t -> sfits u -> 0 <= i < two64 -> 0 <= j < two64 ->
  strSubstr (Q s) i j = Ok (Q (substrS s i j)) /\
  (exists b, strPrefixof (Q s) (Q t) = Ok b /\ (b = true <-> exists r, t = s ++ r)) /\
  (exists b, strSuffixof (Q s) (Q t) = Ok b /\ (b = true <-> exists r, t = r ++ s)) /\
  (exists b, strContains (Q s) (Q t) = Ok b /\ (b = true <-> Contains t s)) /\
  (exists r, strIndexof (Q s) (Q t) i = Ok r /\ IndexOf s t i r) /\
  (exists r, strReplace (Q s) (Q t) (Q u) = Ok (Q r) /\ Replace t u s r) /\
  strToLower (Q s) = Ok (Q (map tolower s)) /\ strToUpper (Q s) = Ok (Q (map toupper s)) /\ strRev (Q s) = Ok (Q (rev s)).
Proof.
  intros s t u i j Fs Ft Fu Hi Hj. destruct (C14_prefix_suffix_contains s t Fs Ft) as (H1 & H2 & H3).
  split; [now apply C14_substr|]. split; [exact H1|]. split; [exact H2|]. split; [exact H3|].
  split; [now apply C14_indexof|]. split; [now apply C14_replace|]. now apply C14_case_reverse.
Qed.
Print Assumptions C75_strings.
Example C75_ex : strIndexof (Q (L "hello")) (Q (L "l")) 1 = Ok 2 /\ strReplace (Q (L "hello")) (Q (L "l")) (Q (L "LL")) = Ok (Q (L "heLLlo")) /\ sfits (L "hello").
Proof. split; [reflexivity|]. split; [reflexivity|]. unfold sfits, zlen, str_max. cbn. lia. Qed.
