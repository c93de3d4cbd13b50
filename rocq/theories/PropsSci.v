(** C96: numbers in scientific notation. *)
From Coq Require Import QArith Qcanon Qpower Lia.
From Verif Require Import Base UtilModel UtilSpec SciModel Sem OpProofs SciSpec SciProofs SciProofs2 SciProofs3
  KindModel SortModel TermModel SimpModel OpModel LexModel ParseModel ParseSpec ParseProofs2 OpExamples PropsParse.
Open Scope Z_scope.

(** mantissa times a power of ten, up to 17 places after the point or 17 significant digits: the text
    computed is a decimal numeral of exactly that value *)
Theorem C96_decimal : forall s m n v, sci_means s m n v -> Z.abs n <= 2 ^ 128 -> printable v ->
  isReal (sci s) = true /\ real_val (sci s) = Some v.
Proof. exact sci_value. Qed.
Print Assumptions C96_decimal.
(** any integer, if mantissa, power and product are numbers of 128 bits *)
Theorem C96_integer : forall s m n v z, sci_means s m n v -> Z.abs n <= 2 ^ 128 ->
  fits128 m -> fits128 (pow10 n) -> fits128 v -> v = ZQ z ->
  isReal (sci s) = true /\ real_val (sci s) = Some v.
Proof. exact sci_exact. Qed.
Print Assumptions C96_integer.
Theorem C96_power_of_ten : forall n, 0 <= n <= 55 -> fits128 (pow10 n).
Proof.
  intros n H. exists (5 ^ n), n. split.
  - rewrite Z.abs_eq by (apply Z.pow_nonneg; lia). apply Z.le_trans with (5 ^ 55); [apply Z.pow_le_mono_r; lia|]. now vm_compute.
  - apply Qc_eq_this. rewrite pow10_this, Qcmult_this, ZQ_this. unfold Q2Qc. cbn [this]. rewrite Qred_correct.
    rewrite p10_Z by lia. rewrite <- (Zpower_Qpower 2 n) by lia. rewrite <- inject_Z_mult, <- Z.pow_mul_l. reflexivity.
Qed.
Print Assumptions C96_power_of_ten.
(** every number nearer to zero than 10^-8, other than zero, is printed with an exponent: the constant built is
    no decimal numeral *)
Theorem C96_tiny_refuted : forall s m n v, sci_means s m n v -> Z.abs n <= 2 ^ 128 -> v <> 0%Qc -> (Qcabs v < pow10 (-8))%Qc ->
  isReal (sci s) = false /\ real_val (sci s) = None.
Proof. exact sci_tiny. Qed.
Print Assumptions C96_tiny_refuted.
(** a text without a letter E, or with a mantissa that is no number, is left alone *)
Theorem C96_unchanged : forall s, (forall a e ex, s = a ++ e :: ex -> e = "E"%char \/ e = "e"%char ->
    (forall c, In c a -> c <> "E"%char /\ c <> "e"%char) -> isReal a = false) -> sci s = s.
Proof.
  intros s H. unfold sci. destruct (find_e s 0) as [e|] eqn:E; [|reflexivity].
  assert (K : forall s i e, find_e s i = Some e -> exists a c ex, s = a ++ c :: ex /\ e = (i + length a)%nat /\
    (c = "E"%char \/ c = "e"%char) /\ forall x, In x a -> x <> "E"%char /\ x <> "e"%char).
  { clear. induction s as [|c s IH]; intros i e; cbn [find_e]; [discriminate|]. destruct (aeq c "E" || aeq c "e") eqn:C.
    - intros [= <-]. exists [], c, s. split; [reflexivity|]. split; [cbn; lia|]. split; [|intros x []].
      apply orb_true_iff in C. unfold aeq in C. rewrite !Ascii.eqb_eq in C. exact C.
    - intros H. apply IH in H. destruct H as (a & x & ex & -> & -> & Hx & Ha). exists (c :: a), x, ex.
      split; [reflexivity|]. split; [cbn [length]; lia|]. split; [exact Hx|]. intros y [<-|Hy]; [|now apply Ha].
      apply orb_false_iff in C. unfold aeq in C. rewrite !Ascii.eqb_neq in C. exact C. }
  destruct (K s 0%nat e E) as (a & c & ex & -> & -> & Hc & Ha). cbn [Nat.add].
  rewrite firstn_app, firstn_all, Nat.sub_diag. cbn [firstn]. rewrite app_nil_r.
  now rewrite (H a c ex eq_refl Hc Ha).
Qed.
Print Assumptions C96_unchanged.

(** the parser: the text of an expression that is one such literal gives a constant with its value, and no
    declaration changes *)
Theorem C96_parse : forall x p s m n v, x_sci x = sci -> x_file x = false -> top_state x p ->
  sci_means s m n v -> Z.abs n <= 2 ^ 128 -> printable v -> declared p s = None ->
  exists t, mkExpr x p s = Ok (t, p) /\ t_kind t = NT_CONST /\ t_sort t = realS /\
    forall I e, eval I e t = VNum v.
Proof.
  intros x p s m n v Hs Hf T M Hn P D. destruct (sci_value s m n v M Hn P) as [R V].
  exists (mkConstReal (sci s)). split; [now apply (mkExpr_sci x p s m n v)|]. split; [reflexivity|]. split; [reflexivity|].
  intros I e. now apply eval_real.
Qed.
Print Assumptions C96_parse.
(** as an atom of any expression *)
Theorem C96_literal : forall x s m n v, x_sci x = sci -> sci_means s m n v -> Z.abs n <= 2 ^ 128 -> printable v ->
  exists t, lit_of x s t /\ forall I e, eval I e t = VNum v.
Proof.
  intros x s m n v Hs M Hn P. destruct (sci_value s m n v M Hn P) as [R V]. exists (mkConstReal (sci s)).
  split; [now apply (lit_sci x s m n v)|]. intros I e. now apply eval_real.
Qed.
Print Assumptions C96_literal.
(** reading: with the exponent in parentheses the symbol ends at the closing parenthesis, whatever
    follows it (without them see C31_scientific_refuted) *)
Theorem C96_symbol : forall dbg file a e ex n m t, real_val a = Some m -> e = "E"%char \/ e = "e"%char -> signed_int ex n ->
  getSymbol dbg file (scan ((a ++ e :: "("%char :: ex ++ [")"%char]) ++ t)) = Ok (a ++ e :: "("%char :: ex ++ [")"%char], scan t).
Proof.
  intros dbg file a e ex n m t Hm He Hx. pose proof (real_chars a m Hm) as F. destruct a as [|c a]; [discriminate|].
  inversion F as [|? ? Hc _]; subst. cbn [app]. rewrite LexProofs.scan_word by exact Hc. unfold getSymbol. cbn [txt md].
  eapply SciProofs3.sym_par; [exact Hm|exact He|exact Hx|reflexivity].
Qed.
Print Assumptions C96_symbol.

(** the full property fails: very small numbers become no numeral, long ones are rounded, and large powers of
    ten are not exact; inside an expression the literal swallows what follows *)
Theorem C96_refuted :
  (exists s m n v, sci_means s m n v /\ isReal (sci s) = false /\ real_val (sci s) = None) /\
  (exists s m n v v', sci_means s m n v /\ isReal (sci s) = true /\ real_val (sci s) = Some v' /\ v' <> v) /\
  (exists s m n v z v', sci_means s m n v /\ v = ZQ z /\ real_val (sci s) = Some v' /\ v' <> v).
Proof.
  split; [|split].
  - exists (L "1E-20"), (ZQ 1), (-20), (ZQ 1 * pow10 (-20))%Qc. split; [|split; now vm_compute].
    exists (L "1"), "E"%char, (L "-20"). repeat split; try (now vm_compute); [now left| |now left; left].
    exists "1"%char. split; [now left|]. unfold digitC. cbn. lia.
  - exists (L "0.123456789012345678E0"), (ZQ 123456789012345678 * pow10 (-18))%Qc, 0, (ZQ 123456789012345678 * pow10 (-18) * pow10 0)%Qc, (ZQ 12345678901234568 * pow10 (-17))%Qc.
    split; [|split; [now vm_compute|split]].
    + exists (L "0.123456789012345678"), "E"%char, (L "0"). split; [reflexivity|]. split; [now left|]. split.
      * vm_compute. f_equal. now apply Qc_is_canon.
      * split; [|split; [now left; left|reflexivity]]. exists "1"%char. split; [cbn; tauto|]. unfold digitC. cbn. lia.
    + vm_compute. f_equal. now apply Qc_is_canon.
    + intros E. apply (f_equal this) in E. vm_compute in E. discriminate E.
  - exists (L "1E60"), (ZQ 1), 60, (ZQ 1 * pow10 60)%Qc, (10 ^ 60), (ZQ 1000000000000000000000000000000000000000718270097370065666048).
    split; [|split; [now apply Qc_is_canon|split]].
    + exists (L "1"), "E"%char, (L "60"). split; [reflexivity|]. split; [now left|]. split; [now vm_compute|].
      split; [|split; [now left; left|reflexivity]]. exists "1"%char. split; [now left|]. unfold digitC. cbn. lia.
    + vm_compute. reflexivity.
    + intros E. apply (f_equal this) in E. vm_compute in E. discriminate E.
Qed.
Print Assumptions C96_refuted.

(** examples *)
Definition xs : pcfg := PCfg c0 false true (fun _ _ => Exit) (fun _ _ _ => Exit) sci (fun _ => []).
Lemma xs_top : top_state xs px. Proof. constructor; try reflexivity; try discriminate. Qed.
Definition q15 : Qc := (ZQ 15 * pow10 (-1))%Qc.
Lemma means96 : sci_means (L "1.5E-3") q15 (-3) (q15 * pow10 (-3))%Qc.
Proof.
  exists (L "1.5"), "E"%char, (L "-3"). split; [reflexivity|]. split; [now left|]. split.
  - vm_compute. f_equal. now apply Qc_is_canon.
  - split; [|split; [now left; left|reflexivity]]. exists "1"%char. split; [now left|]. unfold digitC. cbn. lia.
Qed.
Lemma print96 : printable (q15 * pow10 (-3))%Qc.
Proof. right. left. split; [now vm_compute|]. split; [now vm_compute|]. exists (15 * 10 ^ 13). apply Qc_is_canon. now vm_compute. Qed.
Example C96_ex : sci (L "1.5E-3") = L "0.0015" /\
  mkExpr xs px (L "1.5E-3") = Ok (mkConstReal (L "0.0015"), px) /\
  forall I e, eval I e (mkConstReal (L "0.0015")) = VNum (q15 * pow10 (-3))%Qc.
Proof.
  split; [now vm_compute|]. destruct (C96_parse xs px (L "1.5E-3") _ _ _ eq_refl eq_refl xs_top means96 ltac:(vm_compute; discriminate) print96 eq_refl)
    as (t & E & _ & _ & V).
  assert (X : mkExpr xs px (L "1.5E-3") = Ok (mkConstReal (L "0.0015"), px)) by (vm_compute; reflexivity).
  split; [exact X|]. rewrite E in X. injection X as ->. exact V.
Qed.
Example C96_ex_large : sci (L "6.02214076e+23") = L "602214076000000000000000" /\ sci (L "1234567.5E-2") = L "12345.675" /\
  sci (L "-2e(5)") = L "-200000" /\ sci (L "12345678.25E0") = L "12345678.25".
Proof. repeat split; now vm_compute. Qed.
Example C96_ex_exponent : sci (L "1E-20") = L "1e-20" /\ sci (L "-123456789012345678.5E0") = L "-1.2345678901234568e+17" /\
  sci (L "9.99999999999999999999E-8") = L "1e-07" /\ sci (L "25E-101") = L "2.5e-100" /\ sci (L "1E-8") = L "1e-08".
Proof. repeat split; now vm_compute. Qed.
(** in an expression: only with parentheses *)
Example C96_ex_nested : (exists t, mkExpr xs px (L "(and a (< x 1E(2)))") = Ok (t, px)) /\ mkExpr xs px (L "(and a (< x 1E2))") = Exit.
Proof. split; [eexists|]; vm_compute; reflexivity. Qed.
