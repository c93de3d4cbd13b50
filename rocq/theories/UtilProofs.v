(** Proofs about TypeChecker and MathUtils. *)
From Coq Require Import ZifyBool ZifyNat Znumtheory DecimalPos.
From Verif Require Import Base UtilModel UtilSpec BVProofs2.
Ltac Zify.zify_post_hook ::= Z.div_mod_to_equations.

Lemma isdigit_spec c : isdigit c = true <-> digitC c.
Proof. unfold isdigit, digitC, code. rewrite andb_true_iff, !Nat.leb_le. lia. Qed.
Lemma forallb_digit s : forallb isdigit s = true <-> Forall digitC s.
Proof. rewrite forallb_forall, Forall_forall. split; intros H x Hx; apply isdigit_spec; auto. Qed.
Lemma is_sign_spec c : is_sign c = true <-> SignC c.
Proof. unfold is_sign, SignC. rewrite orb_true_iff, !aeq_spec. reflexivity. Qed.
Lemma sign_not_digit c : SignC c -> ~ digitC c.
Proof. intros [-> | ->]; unfold digitC; cbn; lia. Qed.

(** isInt accepts exactly the numerals and the two bare signs *)
Lemma isInt_iff s : isInt s = true <-> IntNumeral s \/ s = ["-"%char] \/ s = ["+"%char].
Proof.
  destruct s as [|c s]; cbn [isInt].
  - split; [discriminate|]. intros [H|[H|H]]; try discriminate. inversion H; congruence.
  - rewrite andb_true_iff, orb_true_iff, is_sign_spec, isdigit_spec, forallb_digit. split.
    + intros [[H|H] Hs].
      * destruct s as [|c' s]; [right; destruct H as [-> | ->]; auto|].
        left. apply IntSigned; [assumption|discriminate|assumption].
      * left. apply IntPlain; [discriminate|now constructor].
    + intros [H|[H|H]].
      * inversion H as [ds Hn Hd|x ds Hc Hn Hd]; subst; [inversion Hd; auto|auto].
      * injection H as -> ->. split; [left; now left|constructor].
      * injection H as -> ->. split; [left; now right|constructor].
Qed.

Lemma mpz_digits_num s : Forall digitC s -> forall acc,
  mpz_digits s acc = Ok (fold_left (fun a c => a * 10 + digit_of c) s acc).
Proof.
  induction 1 as [|c s Hc Hs IH]; intros acc; cbn [mpz_digits fold_left]; [reflexivity|].
  assert (N : aeq c nul = false).
  { destruct (aeq c nul) eqn:E; [|reflexivity]. apply aeq_spec in E. subst c. unfold digitC in Hc. cbn in Hc. lia. }
  assert (S : isspace c = false). { unfold isspace, digitC, code in *. lia. }
  rewrite N, S. apply isdigit_spec in Hc. rewrite Hc. apply IH.
Qed.
Lemma digit_not c (H : digitC c) : isspace c = false /\ aeq c "-"%char = false /\ isdigit c = true.
Proof.
  split; [|split].
  - unfold isspace, digitC, code in *. lia.
  - destruct (aeq c "-"%char) eqn:E; [|reflexivity]. apply aeq_spec in E. subst c. unfold digitC in H. cbn in H. lia.
  - now apply isdigit_spec.
Qed.
Lemma Integer_plain s : s <> [] -> Forall digitC s -> Integer_of_str s = Ok (num_of s).
Proof.
  intros Hn H. destruct s as [|c s]; [congruence|]. inversion H as [|? ? Hc Hs]; subst.
  destruct (digit_not c Hc) as (S & M & D).
  unfold Integer_of_str. cbn [skip_space]. rewrite S, M. unfold mpz_unsigned. rewrite D.
  now apply mpz_digits_num.
Qed.
Lemma Integer_minus s : s <> [] -> Forall digitC s -> Integer_of_str ("-"%char :: s) = Ok (- num_of s).
Proof.
  intros Hn H. destruct s as [|c s]; [congruence|]. inversion H as [|? ? Hc Hs]; subst.
  destruct (digit_not c Hc) as (S & M & D).
  unfold Integer_of_str. cbn [skip_space isspace]. change (isspace "-") with false. cbn iota.
  change (aeq "-" "-") with true. cbn iota. unfold mpz_unsigned. rewrite D.
  rewrite mpz_digits_num by assumption. reflexivity.
Qed.
Lemma Integer_plus s : Integer_of_str ("+"%char :: s) = Throw InvalidArgument.
Proof. reflexivity. Qed.
Lemma isInt_conv_iff s : isInt s = true ->
  ((exists v, Integer_of_str s = Ok v) <-> (hd nul s <> "+"%char /\ s <> ["-"%char])).
Proof.
  intros H. apply isInt_iff in H. destruct H as [H|[ -> | -> ]].
  - inversion H as [ds Hn Hd|c ds Hc Hn Hd]; subst.
    + split; [intros _|intros _; eexists; now apply Integer_plain].
      destruct s as [|c s]; [congruence|]. inversion Hd as [|? ? Hx _]; subst. cbn [hd].
      unfold digitC in Hx. split; [intros ->; cbn in Hx; lia|intros E; injection E as -> _; cbn in Hx; lia].
    + destruct Hc as [-> | ->].
      * split; [intros _|intros _; eexists; now apply Integer_minus].
        split; [discriminate|]. intros E. injection E as E. contradiction.
      * split; [intros [v E]; rewrite Integer_plus in E; discriminate|intros [E _]; now contradiction E].
  - split; [intros [v E]; discriminate|intros [_ E]; now contradiction E].
  - split; [intros [v E]; discriminate|intros [E _]; now contradiction E].
Qed.

(** decimal printing and reading back *)
Lemma udec_digits d : Forall digitC (udec d).
Proof. induction d; cbn [udec]; constructor; auto; unfold digitC; cbn; lia. Qed.
Lemma udec_uint d : forall p,
  fold_left (fun a c => a * 10 + digit_of c) (udec d) (Zpos p) = Zpos (Pos.of_uint_acc d p).
Proof.
  induction d as [|d IH|d IH|d IH|d IH|d IH|d IH|d IH|d IH|d IH|d IH]; intros p;
    cbn [udec fold_left Pos.of_uint_acc]; try reflexivity;
    change (digit_of "0") with 0; change (digit_of "1") with 1; change (digit_of "2") with 2;
    change (digit_of "3") with 3; change (digit_of "4") with 4; change (digit_of "5") with 5;
    change (digit_of "6") with 6; change (digit_of "7") with 7; change (digit_of "8") with 8;
    change (digit_of "9") with 9;
    match goal with |- fold_left _ _ ?x = Zpos (Pos.of_uint_acc _ ?q) =>
      replace x with (Zpos q) by lia; apply IH end.
Qed.
Lemma udec_num d : num_of (udec d) = Z.of_N (Pos.of_uint d).
Proof.
  unfold num_of. induction d; cbn [udec fold_left Pos.of_uint]; try reflexivity; try exact IHd;
  match goal with |- fold_left _ _ ?x = Z.of_N (Npos (Pos.of_uint_acc _ ?q)) =>
      change x with (Zpos q); apply udec_uint end.
Qed.
Lemma udec_nonnil d : d <> Decimal.Nil -> udec d <> [].
Proof. destruct d; cbn [udec]; congruence. Qed.
Lemma to_uint_nonnil p : Pos.to_uint p <> Decimal.Nil.
Proof. apply Unsigned.to_uint_nonnil. Qed.
Lemma Idec_round i : Integer_of_str (Idec i) = Ok i.
Proof.
  unfold Idec. destruct i as [|p|p]; cbn [Z.to_int].
  - reflexivity.
  - rewrite Integer_plain by (apply udec_digits || apply udec_nonnil, to_uint_nonnil).
    rewrite udec_num. rewrite Unsigned.of_to. reflexivity.
  - rewrite Integer_minus by (apply udec_digits || apply udec_nonnil, to_uint_nonnil).
    rewrite udec_num. rewrite Unsigned.of_to. reflexivity.
Qed.
Lemma Idec_isInt i : isInt (Idec i) = true.
Proof.
  apply isInt_iff. left. unfold Idec. destruct i as [|p|p]; cbn [Z.to_int].
  - apply IntPlain; [discriminate|]. repeat constructor; unfold digitC; cbn; lia.
  - apply IntPlain; [apply udec_nonnil, to_uint_nonnil|apply udec_digits].
  - apply IntSigned; [now left|apply udec_nonnil, to_uint_nonnil|apply udec_digits].
Qed.

(** isReal *)
Lemma real_loop_true s : real_loop s true = forallb isdigit s.
Proof.
  induction s as [|c s IH]; cbn [real_loop forallb]; [reflexivity|].
  rewrite andb_false_r. destruct (isdigit c); [exact IH|reflexivity].
Qed.
Lemma real_loop_iff s : real_loop s false = true <-> RealBody s.
Proof.
  induction s as [|c s IH]; cbn [real_loop].
  - split; [intros _; apply RBint; constructor|reflexivity].
  - destruct (aeq c "."%char) eqn:E; cbn [andb negb].
    + apply aeq_spec in E. subst c. rewrite real_loop_true, forallb_digit. split.
      * intros H. change ("."%char :: s) with ([] ++ "."%char :: s). now apply RBdot.
      * intros H. inversion H as [ds Hd|ds es Hd He E]; subst.
        -- inversion Hd as [|? ? Hc _]; subst. unfold digitC in Hc. cbn in Hc. lia.
        -- destruct ds as [|x ds]; cbn [app] in E.
           ++ replace s with es by congruence. assumption.
           ++ assert (x = "."%char) by congruence. subst x. inversion Hd as [|? ? Hc _]; subst. unfold digitC in Hc. cbn in Hc. lia.
    + destruct (isdigit c) eqn:D.
      * rewrite IH. apply isdigit_spec in D. split.
        -- intros H. inversion H as [ds Hd|ds es Hd He]; subst.
           ++ apply RBint. now constructor.
           ++ change (c :: ds ++ "."%char :: es) with ((c :: ds) ++ "."%char :: es). apply RBdot; [now constructor|assumption].
        -- intros H. inversion H as [ds Hd|ds es Hd He E']; subst.
           ++ inversion Hd; subst. now apply RBint.
           ++ destruct ds as [|x ds]; cbn [app] in E'; injection E' as E1 E2.
              ** subst c. discriminate.
              ** subst x s. inversion Hd; subst. now apply RBdot.
      * split; [discriminate|]. intros H. exfalso.
        assert (~ digitC c) by (rewrite <- isdigit_spec, D; discriminate).
        inversion H as [ds Hd|ds es Hd He E']; subst.
        -- inversion Hd; contradiction.
        -- destruct ds as [|x ds]; cbn [app] in E'; injection E' as E1 E2.
           ++ subst c. discriminate.
           ++ subst x. inversion Hd; contradiction.
Qed.
Lemma isReal_iff s : isReal s = true <->
  s <> [] /\ (RealBody s \/ exists c r, s = c :: r /\ SignC c /\ RealBody r).
Proof.
  destruct s as [|c s]; cbn [isReal].
  - split; [discriminate|]. intros [H _]. congruence.
  - destruct (is_sign c) eqn:E.
    + rewrite real_loop_iff. apply is_sign_spec in E. split.
      * intros H. split; [discriminate|]. right. eauto.
      * intros [_ [H|(c' & r & E' & _ & H)]].
        -- exfalso. inversion H as [ds Hd|ds es Hd He E']; subst.
           ++ inversion Hd; subst. now apply (sign_not_digit c).
           ++ destruct ds as [|x ds]; cbn [app] in E'; injection E' as E1 E2; subst.
              ** destruct E; discriminate.
              ** inversion Hd; subst. now apply (sign_not_digit c).
        -- injection E' as -> ->. assumption.
    + rewrite real_loop_iff. split.
      * intros H. split; [discriminate|now left].
      * intros [_ [H|(c' & r & E' & Hs & H)]]; [assumption|].
        injection E' as -> ->. apply is_sign_spec in Hs. congruence.
Qed.

(** isBV *)
Lemma forallb_Forall {A} (f : A -> bool) P s : (forall x, f x = true <-> P x) ->
  (forallb f s = true <-> Forall P s).
Proof. intros H. rewrite forallb_forall, Forall_forall. split; intros G x Hx; apply H; auto. Qed.
Lemma code_inj a b : nat_of_ascii a = nat_of_ascii b -> a = b.
Proof. intros H. rewrite <- (ascii_nat_embedding a), <- (ascii_nat_embedding b). now rewrite H. Qed.
Lemma is_hex_spec c : is_hex_char c = true <-> hexC c.
Proof.
  unfold is_hex_char, hexC. rewrite existsb_exists. split.
  - intros (x & Hx & E). apply aeq_spec in E. subst x. cbn in Hx.
    repeat (destruct Hx as [<-|Hx]; [cbn; lia|]). destruct Hx.
  - intros H. exists c. split; [|now apply aeq_spec].
    destruct c as [b0 b1 b2 b3 b4 b5 b6 b7].
    destruct b0, b1, b2, b3, b4, b5, b6, b7; cbn in H; try (exfalso; lia); cbn; tauto.
Qed.
Lemma is_dec_spec c : is_dec_char c = true <-> digitC c.
Proof.
  unfold is_dec_char, digitC. rewrite existsb_exists. split.
  - intros (x & Hx & E). apply aeq_spec in E. subst x. cbn in Hx.
    repeat (destruct Hx as [<-|Hx]; [cbn; lia|]). destruct Hx.
  - intros H. exists c. split; [|now apply aeq_spec].
    destruct c as [b0 b1 b2 b3 b4 b5 b6 b7].
    destruct b0, b1, b2, b3, b4, b5, b6, b7; cbn in H; try (exfalso; lia); cbn; tauto.
Qed.
Lemma bin_spec c : aeq c "0"%char || aeq c "1"%char = true <-> binC c.
Proof. rewrite orb_true_iff, !aeq_spec. reflexivity. Qed.
Lemma two_chars k a b : aeq k a || aeq k b = true <-> k = a \/ k = b.
Proof. rewrite orb_true_iff, !aeq_spec. reflexivity. Qed.
Lemma isBV_iff s : isBV s = true <-> BVLiteral s.
Proof.
  destruct s as [|h [|k [|c s]]]; try (cbn; split; [discriminate|intros H; inversion H; congruence]).
  unfold isBV. cbn [skipn]. rewrite andb_true_iff, aeq_spec. split.
  - intros [-> H].
    destruct (aeq k "b" || aeq k "B") eqn:E1; [apply two_chars in E1|].
    { apply BVbin; [assumption|discriminate|]. now apply (forallb_Forall _ _ _ bin_spec). }
    destruct (aeq k "x" || aeq k "X") eqn:E2; [apply two_chars in E2|].
    { apply BVhex; [assumption|discriminate|]. now apply (forallb_Forall _ _ _ is_hex_spec). }
    destruct (aeq k "d" || aeq k "D") eqn:E3; [apply two_chars in E3|discriminate].
    apply BVdec; [assumption|discriminate|]. now apply (forallb_Forall _ _ _ is_dec_spec).
  - intros H. inversion H as [k' ds Hk Hn Hd|k' ds Hk Hn Hd|k' ds Hk Hn Hd]; subst; (split; [reflexivity|]).
    + apply two_chars in Hk. rewrite Hk. now apply (forallb_Forall _ _ _ bin_spec).
    + destruct Hk as [-> | ->]; cbn [aeq orb]; now apply (forallb_Forall _ _ _ is_hex_spec) in Hd.
    + destruct Hk as [-> | ->]; cbn [aeq orb]; now apply (forallb_Forall _ _ _ is_dec_spec) in Hd.
Qed.

(** ** MathUtils *)
Lemma iter_mul b n r : Nat.iter n (fun r => r * b) r = r * b ^ Z.of_nat n.
Proof.
  induction n as [|n IH]; [change (Z.of_nat 0) with 0; rewrite Z.pow_0_r; simpl; lia|].
  rewrite Nat2Z.inj_succ, Z.pow_succ_r by lia. change (Nat.iter (S n) (fun r => r * b) r) with (Nat.iter n (fun r => r * b) r * b).
  rewrite IH. ring.
Qed.
Lemma mpow_ok b e : 0 <= e -> mpow b e = b ^ e.
Proof.
  intros H. unfold mpow. destruct (Z.eqb_spec e 0) as [->|N]; [reflexivity|].
  rewrite iter_mul, Z2Nat.id by lia. replace e with (Z.succ (e - 1)) at 2 by lia.
  rewrite Z.pow_succ_r by lia. reflexivity.
Qed.
Lemma mpow_neg b e : e < 0 -> mpow b e = b.
Proof.
  intros H. unfold mpow. destruct (Z.eqb_spec e 0); [lia|].
  replace (Z.to_nat (e - 1)) with O by lia. reflexivity.
Qed.
Lemma gcd_rem a b : Z.gcd b (Z.rem a b) = Z.gcd a b.
Proof.
  destruct (Z.eq_dec b 0) as [->|N]; [rewrite (ltac:(destruct a; reflexivity) : Z.rem a 0 = a); apply Z.gcd_comm|].
  rewrite (Z.gcd_comm a b). pose proof (Z.quot_rem' a b).
  replace (Z.rem a b) with (a + (- (a ÷ b)) * b) by lia.
  now rewrite Z.gcd_add_mult_diag_r.
Qed.
Lemma mgcd_ok : forall fuel a b, Z.abs b < Z.of_nat fuel ->
  exists g, mgcd fuel a b = Ok g /\ Z.abs g = Z.gcd a b /\ (0 <= a -> 0 <= b -> 0 <= g).
Proof.
  induction fuel as [|f IH]; intros a b H; [lia|]. cbn [mgcd].
  destruct (Z.eqb_spec b 0) as [->|N].
  - exists a. rewrite Z.gcd_0_r. auto.
  - unfold Imod. destruct (Z.eqb_spec b 0); [contradiction|]. cbn [bind].
    pose proof (Z.rem_bound_abs a b N).
    destruct (IH b (Z.rem a b)) as (g & E & G & P); [lia|]. exists g. split; [assumption|].
    split; [rewrite G; apply gcd_rem|]. intros Ha Hb. apply P; [assumption|].
    apply Z.rem_nonneg; assumption.
Qed.
Lemma mgcd_nonneg fuel a b : 0 <= a -> 0 <= b -> b < Z.of_nat fuel -> mgcd fuel a b = Ok (Z.gcd a b).
Proof.
  intros Ha Hb H. destruct (mgcd_ok fuel a b) as (g & E & G & P); [lia|].
  rewrite E. f_equal. specialize (P Ha Hb). lia.
Qed.
Lemma mlcm_ok fuel a b : (a <> 0 \/ b <> 0) -> Z.abs b < Z.of_nat fuel ->
  exists l, mlcm fuel a b = Ok l /\ Z.abs l = Z.lcm a b.
Proof.
  intros N H. destruct (mgcd_ok fuel a b H) as (g & E & G & _).
  assert (Gn : Z.gcd a b <> 0). { intros E0. apply Z.gcd_eq_0 in E0. lia. }
  unfold mlcm. rewrite E. cbn [bind]. unfold Idiv. destruct (Z.eqb_spec g 0); [lia|].
  eexists; split; [reflexivity|].
  unfold Z.lcm.
  pose proof (Z.gcd_divide_r a b) as [k Hk].
  assert (Eb : b / Z.gcd a b = k). { symmetry. apply Z.div_unique_exact; lia. }
  rewrite Eb. rewrite <- G in Hk.
  assert (D : exists s, (s = 1 \/ s = -1) /\ Z.abs g = s * g).
  { destruct (Z.le_gt_cases 0 g); [exists 1|exists (-1)]; lia. }
  destruct D as (s & Hs & Ds). rewrite Ds in Hk.
  replace (a * b) with ((a * k * s) * g) by (rewrite Hk; ring).
  rewrite Z.quot_mul by assumption. destruct Hs as [-> | ->]; [f_equal; ring|].
  rewrite <- Z.abs_opp. f_equal. ring.
Qed.
Lemma mlcm_zero fuel : (0 < fuel)%nat -> mlcm fuel 0 0 = Throw DomainError.
Proof. destruct fuel; [lia|reflexivity]. Qed.

Lemma fact_loop_ok k : forall i acc, fact_loop k (Z.of_nat i + 1) (acc * Z.of_nat (fact i)) = acc * Z.of_nat (fact (i + k)).
Proof.
  induction k as [|k IH]; intros i acc; cbn [fact_loop]; [now rewrite Nat.add_0_r|].
  replace (Z.of_nat i + 1 + 1) with (Z.of_nat (S i) + 1) by lia.
  replace (acc * Z.of_nat (fact i) * (Z.of_nat i + 1)) with (acc * Z.of_nat (fact (S i))).
  - rewrite IH. do 3 f_equal. lia.
  - change (fact (S i)) with (S i * fact i)%nat. rewrite Nat2Z.inj_mul. rewrite Nat2Z.inj_succ. ring.
Qed.
Lemma mfactorial_ok n : mfactorial (Z.of_nat n) = Z.of_nat (fact n).
Proof.
  unfold mfactorial. rewrite Nat2Z.id. pose proof (fact_loop_ok n 0 1) as H.
  cbn [fact Nat.add] in H. change (Z.of_nat 0 + 1) with 1 in H. change (Z.of_nat 1) with 1 in H.
  rewrite !Z.mul_1_l in H. exact H.
Qed.
Lemma mfactorial_neg n : n < 0 -> mfactorial n = 1.
Proof. intros H. unfold mfactorial. replace (Z.to_nat n) with O by lia. reflexivity. Qed.
Lemma isEven_ok n : isEven n = Ok (Z.even n).
Proof.
  unfold isEven, Imod. cbn [Z.eqb bind]. f_equal. destruct (Z.eqb_spec (Z.rem n 2) 0) as [E|E].
  - symmetry. apply Z.even_spec. apply Z.rem_divide in E; [|lia]. destruct E as [k ->]. exists k. ring.
  - destruct (Z.even n) eqn:V; [|reflexivity]. exfalso. apply Z.even_spec in V. destruct V as [k ->].
    apply E. rewrite Z.mul_comm. apply Z.rem_mul. lia.
Qed.
Lemma isOdd_ok n : isOdd n = Ok (Z.odd n).
Proof.
  pose proof (isEven_ok n) as H. unfold isEven, isOdd, Imod in *. cbn [Z.eqb bind] in *.
  injection H as H. change (if 2 =? 0 then Throw DomainError else Ok (Z.rem n 2)) with (Ok (A:=Z) (Z.rem n 2)). cbn [bind].
  rewrite H. now rewrite Z.negb_even.
Qed.

(** primality *)
Lemma rem_0_divide n i : i <> 0 -> (Z.rem n i =? 0) = true <-> (i | n).
Proof. intros N. rewrite Z.eqb_eq. apply Z.rem_divide. assumption. Qed.
Lemma prime_loop_ok n : 1 < n -> Z.odd n = true -> forall fuel i, 3 <= i -> Z.odd i = true ->
  n < i + 2 * Z.of_nat fuel ->
  (forall k, 1 < k < i -> ~ (k | n)) ->
  exists b, prime_loop fuel n i = Ok b /\ (b = true <-> prime n).
Proof.
  intros Hn On. induction fuel as [|f IH]; intros i Hi Oi Hf Hk.
  - exfalso. destruct (Z.eq_dec i n); [lia|]. apply (Hk n); [lia|apply Z.divide_refl].
  - cbn [prime_loop]. destruct (Z.ltb_spec n (i * i)) as [Hlt|Hge].
    + exists true. split; [reflexivity|]. split; [intros _|reflexivity].
      apply prime_alt. split; [assumption|]. intros k Hk1 [m Hm].
      destruct (Z.lt_ge_cases k i); [now apply (Hk k); [lia|exists m]|].
      apply (Hk m); [|exists k; lia]. nia.
    + unfold Imod. destruct (Z.eqb_spec i 0) as [?|_]; [lia|]. cbn [bind].
      destruct (Z.rem n i =? 0) eqn:R.
      * exists false. split; [reflexivity|]. split; [discriminate|]. intros P.
        apply rem_0_divide in R; [|lia]. destruct (prime_divisors n P i R) as [?|[?|[?|?]]]; try lia. nia.
      * apply IH; [lia|now rewrite Z.odd_add, Oi|lia|].
        intros k Hk1 Hd. destruct (Z.lt_ge_cases k i); [now apply (Hk k)|].
        destruct (Z.eq_dec k i) as [->|].
        -- apply rem_0_divide in Hd; [congruence|lia].
        -- assert (k = i + 1) by lia. subst k. destruct Hd as [m Hm].
           rewrite Hm in On. rewrite Z.odd_mul, Z.odd_add, Oi in On. cbn in On. rewrite andb_false_r in On. discriminate.
Qed.
Lemma isPrime_ok fuel n : n < 3 + 2 * Z.of_nat fuel ->
  exists b, isPrime fuel n = Ok b /\ (b = true <-> prime n).
Proof.
  intros Hf. unfold isPrime. destruct (Z.leb_spec n 1).
  { exists false. split; [reflexivity|]. split; [discriminate|]. intros P. apply prime_ge_2 in P. lia. }
  destruct (Z.eqb_spec n 2) as [->|].
  { exists true. split; [reflexivity|]. split; [intros _; apply prime_2|reflexivity]. }
  unfold Imod. cbn [Z.eqb bind]. change (if 2 =? 0 then Throw DomainError else Ok (Z.rem n 2)) with (Ok (A:=Z) (Z.rem n 2)). cbn [bind].
  destruct (Z.rem n 2 =? 0) eqn:R.
  - exists false. split; [reflexivity|]. split; [discriminate|]. intros P. apply rem_0_divide in R; [|lia].
    destruct (prime_divisors n P 2 R) as [?|[?|[?|?]]]; lia.
  - assert (O : Z.odd n = true).
    { pose proof (isOdd_ok n) as H1. unfold isOdd, Imod in H1. change (if 2 =? 0 then Throw DomainError else Ok (Z.rem n 2)) with (Ok (A:=Z) (Z.rem n 2)) in H1. cbn [bind] in H1. rewrite R in H1. injection H1 as H1. now rewrite <- H1. }
    apply prime_loop_ok; try assumption; try reflexivity; try lia. intros k Hk [m Hm]. assert (k = 2) by lia. subst k.
    rewrite Hm, Z.odd_mul in O. cbn in O. rewrite andb_false_r in O. discriminate.
Qed.
