(** Properties C12-C15: numerals, integer mathematics, strings, escaping. *)
From Coq Require Import Znumtheory.
From Verif Require Import Base UtilModel UtilSpec UtilProofs UtilProofs2.

(** ** C12 numeral classification *)
Theorem C12_isInt_exact : forall s,
  isInt s = true <-> IntNumeral s \/ s = ["-"%char] \/ s = ["+"%char].
Proof. exact isInt_iff. Qed.
Print Assumptions C12_isInt_exact.
Theorem C12_isReal_exact : forall s, isReal s = true <->
  s <> [] /\ (RealBody s \/ exists c r, s = c :: r /\ SignC c /\ RealBody r).
Proof. exact isReal_iff. Qed.
Print Assumptions C12_isReal_exact.
Theorem C12_isBV_exact : forall s, isBV s = true <-> BVLiteral s.
Proof. exact isBV_iff. Qed.
Print Assumptions C12_isBV_exact.
Theorem C12_scientific_accepts : forall m e ex,
  isReal m = true -> (e = "E"%char \/ e = "e"%char) -> IntNumeral ex ->
  isScientificNotation (m ++ e :: ex) = true.
Proof. exact sci_ok. Qed.
Print Assumptions C12_scientific_accepts.
(** what converts among the accepted integers, and to what *)
Theorem C12_int_converts_iff : forall s, isInt s = true ->
  ((exists v, Integer_of_str s = Ok v) <-> (hd nul s <> "+"%char /\ s <> ["-"%char])).
Proof. exact isInt_conv_iff. Qed.
Print Assumptions C12_int_converts_iff.
Theorem C12_int_value : forall s, s <> [] -> Forall digitC s ->
  Integer_of_str s = Ok (num_of s) /\ Integer_of_str ("-"%char :: s) = Ok (- num_of s).
Proof. exact (fun s Hn Hd => conj (Integer_plain s Hn Hd) (Integer_minus s Hn Hd)). Qed.
Print Assumptions C12_int_value.
(** decimal printing is recognised and reads back *)
Theorem C12_decimal_round_trip : forall i, isInt (Idec i) = true /\ Integer_of_str (Idec i) = Ok i.
Proof. exact (fun i => conj (Idec_isInt i) (Idec_round i)). Qed.
Print Assumptions C12_decimal_round_trip.
(** the full property fails: accepted strings that are no numeral or do not convert *)
Theorem C12_refuted : exists s t u : str,
  (isInt s = true /\ ~ IntNumeral s) /\
  (isInt t = true /\ IntNumeral t /\ Integer_of_str t = Throw InvalidArgument) /\
  (isReal u = true /\ forall c, In c u -> ~ digitC c).
Proof.
  exists (L "-"), (L "+5"), (L "."). split; [|split].
  - split; [reflexivity|]. intros H. inversion H as [ds Hn Hd|c ds Hc Hn Hd]; subst.
    + inversion Hd as [|? ? Hc _]; subst. unfold digitC in Hc. cbn in Hc. lia.
    + now contradiction Hn.
  - split; [reflexivity|]. split; [|reflexivity].
    apply IntSigned; [now right|discriminate|]. constructor; [unfold digitC; cbn; lia|constructor].
  - split; [reflexivity|]. intros c [<-|[]]. unfold digitC. cbn. lia.
Qed.
Print Assumptions C12_refuted.
Theorem C12_scientific_refuted : exists s, isScientificNotation s = true /\ s = L "1E(5)oops".
Proof. exists (L "1E(5)oops"). split; reflexivity. Qed.
Print Assumptions C12_scientific_refuted.
Example C12_ex : isInt (L "-42") = true /\ Integer_of_str (L "-42") = Ok (-42)
  /\ isReal (L "3.14") = true /\ isBV (L "#xAf0") = true /\ isScientificNotation (L "-1.5e-10") = true.
Proof. repeat split; reflexivity. Qed.

(** ** C13 integer mathematics; [fuel] bounds the model's loop, and the stated
    amount always suffices, so the code's loop terminates. *)
Theorem C13_pow : forall b e, 0 <= e -> mpow b e = b ^ e.
Proof. exact mpow_ok. Qed.
Print Assumptions C13_pow.
Theorem C13_gcd : forall fuel a b, Z.abs b < Z.of_nat fuel ->
  exists g, mgcd fuel a b = Ok g /\ Z.abs g = Z.gcd a b /\ (0 <= a -> 0 <= b -> 0 <= g).
Proof. exact mgcd_ok. Qed.
Print Assumptions C13_gcd.
Theorem C13_lcm : forall fuel a b, (a <> 0 \/ b <> 0) -> Z.abs b < Z.of_nat fuel ->
  exists l, mlcm fuel a b = Ok l /\ Z.abs l = Z.lcm a b.
Proof. exact mlcm_ok. Qed.
Print Assumptions C13_lcm.
Theorem C13_factorial : forall n, mfactorial (Z.of_nat n) = Z.of_nat (fact n).
Proof. exact mfactorial_ok. Qed.
Print Assumptions C13_factorial.
Theorem C13_parity : forall n, isEven n = Ok (Z.even n) /\ isOdd n = Ok (Z.odd n).
Proof. exact (fun n => conj (isEven_ok n) (isOdd_ok n)). Qed.
Print Assumptions C13_parity.
Theorem C13_prime : forall fuel n, n < 3 + 2 * Z.of_nat fuel ->
  exists b, isPrime fuel n = Ok b /\ (b = true <-> prime n).
Proof. exact isPrime_ok. Qed.
Print Assumptions C13_prime.
(** outside the domain: signs and lcm(0,0) *)
Theorem C13_refuted : (exists a b fuel g, mgcd fuel a b = Ok g /\ g <> Z.gcd a b)
  /\ (exists fuel, mlcm fuel 0 0 = Throw DomainError) /\ (forall b e, e < 0 -> mpow b e = b).
Proof.
  split; [exists (-4), 0, 3%nat, (-4); split; [reflexivity|discriminate]|].
  split; [exists 3%nat; reflexivity|exact mpow_neg].
Qed.
Print Assumptions C13_refuted.
Example C13_ex : mgcd 100 12 18 = Ok 6 /\ mlcm 100 4 6 = Ok 12 /\ isPrime 100 91 = Ok false /\ isPrime 100 97 = Ok true.
Proof. repeat split; reflexivity. Qed.

(** ** C14 string operations: [Q s] is the constant with contents [s]; [sfits s]
    says it is no longer than the longest std::string. *)
Theorem C14_substr : forall s i j, sfits s -> 0 <= i < two64 -> 0 <= j < two64 ->
  strSubstr (Q s) i j = Ok (Q (substrS s i j)).
Proof. exact strSubstr_ok. Qed.
Print Assumptions C14_substr.
Theorem C14_prefix_suffix_contains : forall s t, sfits s -> sfits t ->
  (exists b, strPrefixof (Q s) (Q t) = Ok b /\ (b = true <-> exists r, t = s ++ r)) /\
  (exists b, strSuffixof (Q s) (Q t) = Ok b /\ (b = true <-> exists r, t = r ++ s)) /\
  (exists b, strContains (Q s) (Q t) = Ok b /\ (b = true <-> Contains t s)).
Proof. exact (fun s t Hs Ht => conj (strPrefixof_ok s t Hs Ht) (conj (strSuffixof_ok s t Hs Ht) (strContains_ok s t Hs Ht))). Qed.
Print Assumptions C14_prefix_suffix_contains.
Theorem C14_indexof : forall s t i, sfits s -> sfits t -> 0 <= i < two64 ->
  exists r, strIndexof (Q s) (Q t) i = Ok r /\ IndexOf s t i r.
Proof. exact strIndexof_ok. Qed.
Print Assumptions C14_indexof.
Theorem C14_at : forall s i, sfits s -> 0 <= i <= zlen s -> strCharAt (Q s) i = Ok (Q (atS s i)).
Proof. exact strCharAt_ok. Qed.
Print Assumptions C14_at.
Theorem C14_update : forall s i t, sfits s -> sfits t -> 0 <= i -> i + zlen t <= zlen s ->
  strUpdate (Q s) i (Q t) = Ok (Q (sub s 0 i ++ t ++ sub s (i + zlen t) (zlen s))).
Proof. exact strUpdate_ok. Qed.
Print Assumptions C14_update.
Theorem C14_replace : forall s t u, sfits s -> sfits t -> sfits u ->
  exists r, strReplace (Q s) (Q t) (Q u) = Ok (Q r) /\ Replace t u s r.
Proof. exact strReplace_ok. Qed.
Print Assumptions C14_replace.
Theorem C14_replace_all : forall s t u, t <> [] -> sfits t -> sfits u ->
  Z.of_nat (length s + length s * length u) + 2 <= str_max ->
  exists r, strReplaceAll (S (length s)) (Q s) (Q t) (Q u) = Ok (Q r) /\ ReplaceAll t u s r.
Proof. exact strReplaceAll_ok. Qed.
Print Assumptions C14_replace_all.
Theorem C14_case_reverse : forall s, sfits s -> strToLower (Q s) = Ok (Q (map tolower s)) /\
  strToUpper (Q s) = Ok (Q (map toupper s)) /\ strRev (Q s) = Ok (Q (rev s)).
Proof. exact strCase_ok. Qed.
Print Assumptions C14_case_reverse.
(** The parts that fail: out-of-range indices throw, an empty pattern loops forever. *)
Theorem C14_index_refuted : forall s i, sfits s ->
  (i < 0 -> strCharAt (Q s) i = Throw OverflowError) /\
  (zlen s < i < two64 -> strCharAt (Q s) i = Throw OutOfRange).
Proof. exact strCharAt_out. Qed.
Print Assumptions C14_index_refuted.
Theorem C14_substr_refuted : forall s i j, sfits s -> i < 0 \/ (0 <= i < two64 /\ j < 0) ->
  strSubstr (Q s) i j = Throw OverflowError.
Proof. exact strSubstr_neg. Qed.
Print Assumptions C14_substr_refuted.
Theorem C14_replace_all_refuted : forall fuel s, sfits s ->
  strReplaceAll fuel (Q s) (Q []) (Q []) = NoFuel.
Proof. exact strReplaceAll_empty. Qed.
Print Assumptions C14_replace_all_refuted.
Example C14_ex : strSubstr (Q (L "hello")) 1 3 = Ok (Q (L "ell")) /\ sfits (L "hello")
  /\ strReplaceAll 10 (Q (L "banana")) (Q (L "an")) (Q (L "x")) = Ok (Q (L "bxxa"))
  /\ strIndexof (Q (L "banana")) (Q (L "na")) 3 = Ok 4.
Proof. repeat split; try reflexivity. vm_compute. discriminate. Qed.

(** ** C15 escaping *)
Theorem C15_round_trip_exact : forall s,
  unescapeString (escapeString s) = map (fun c => if escapable c then c else nul) s.
Proof. exact unescape_escape. Qed.
Print Assumptions C15_round_trip_exact.
Theorem C15_round_trip_iff : forall s,
  unescapeString (escapeString s) = s <-> forallb escapable s = true.
Proof. exact unescape_escape_iff. Qed.
Print Assumptions C15_round_trip_iff.
(** an escaped string contains no unescaped quote *)
Theorem C15_quotes_escaped : forall s, Forall (fun c => escapable c = true) s ->
  forall a b, escapeString s = a ++ """"%char :: b -> exists a', a = a' ++ ["\"%char].
Proof. exact escape_unquoted. Qed.
Print Assumptions C15_quotes_escaped.
Theorem C15_refuted : exists s, unescapeString (escapeString s) <> s.
Proof. exists ["001"%char]. vm_compute. discriminate. Qed.
Print Assumptions C15_refuted.
Example C15_ex : escapeString (L "a""b\") = L "a\""b\\" /\ forallb escapable (L "a""b\") = true
  /\ unescapeString (L "\x41\n") = ["A"%char; "010"%char].
Proof. repeat split; reflexivity. Qed.
