(** C99: the texts of integers, numbers, intervals and values. *)
From Coq Require Import QArith Qcanon Qround Qabs Qpower Lia Lqa ZifyBool ZifyNat.
From Verif Require Import Base UtilModel UtilSpec UtilProofs UtilProofs2 NumModel RoundModel SciModel Sem OpProofs SciSpec SciProofs SciProofs2 ValueModel TextModel TextSpec.
Open Scope Z_scope.
Local Notation Q := QArith_base.Q.

(** ** digits *)
Ltac each d n := let H := fresh in assert (H : exists n : nat, d = Z.of_nat n) by (exists (Z.to_nat d); lia); destruct H as [n ->].
Lemma digit_is b d : 2 <= b <= 62 -> 0 <= d < b -> is_digit b (digit_char b d) d.
Proof.
  intros B D. split; [exact D|]. each d n. rewrite Nat2Z.id. unfold digit_char. destruct (Z.leb_spec b 36) as [H|H].
  - left. assert (N : (n < 36)%nat) by lia. clear D H B. do 36 (destruct n as [|n]; [vm_compute; reflexivity|]). lia.
  - assert (N : (n < 62)%nat) by lia. clear D H B. do 62 (destruct n as [|n]; [vm_compute; reflexivity|]). lia.
Qed.
Definition raw (w : bool) (c : ascii) : Z :=
  let n := Z.of_nat (nat_of_ascii c) in
  if (48 <=? n) && (n <=? 57) then n - 48 else if (65 <=? n) && (n <=? 90) then n - 55
  else if (97 <=? n) && (n <=? 122) then (if w then n - 87 else n - 61) else 99.
Lemma char_raw b c : char_digit b c = if raw (b <=? 36) c <? b then Some (raw (b <=? 36) c) else None. Proof. reflexivity. Qed.
Definition plain (c : ascii) : bool := negb (isspace c) && negb (aeq c nul) && negb (aeq c "-"%char) && negb (aeq c "+"%char) && negb (aeq c ","%char).
Lemma is_digit_raw b c d : is_digit b c d -> b <= 62 -> raw (b <=? 36) c = d /\ plain c = true.
Proof.
  intros (D & H) B. each d n. rewrite Nat2Z.id in H. destruct (Z.leb_spec b 36) as [G|G].
  - assert (N : (n < 36)%nat) by lia. clear D B G.
    do 36 (destruct n as [|n]; [destruct H as [H|H]; injection H as <-; split; vm_compute; reflexivity|]). lia.
  - assert (N : (n < 62)%nat) by lia. clear D B G.
    do 62 (destruct n as [|n]; [injection H as <-; split; vm_compute; reflexivity|]). lia.
Qed.
Lemma is_digit_read b c d : is_digit b c d -> b <= 62 -> char_digit b c = Some d /\ plain c = true.
Proof.
  intros H B. destruct (is_digit_raw b c d H B) as [R P]. split; [|exact P]. rewrite char_raw, R. destruct H as (D & _). replace (d <? b) with true by lia. reflexivity.
Qed.
Lemma plain_parts c : plain c = true -> isspace c = false /\ aeq c nul = false /\ aeq c "-"%char = false /\ aeq c "+"%char = false /\ aeq c ","%char = false.
Proof. unfold plain. intros H. repeat match type of H with _ && _ = true => apply andb_true_iff in H; let K := fresh in destruct H as [H K]; apply negb_true_iff in K end. apply negb_true_iff in H. tauto. Qed.
Lemma raw_is b c : raw (b <=? 36) c < b -> b <= 62 -> is_digit b c (raw (b <=? 36) c).
Proof.
  intros H B. assert (N : 0 <= raw (b <=? 36) c).
  { unfold raw. destruct (_ && _) eqn:E1; [lia|]. destruct ((65 <=? _) && _) eqn:E2; [lia|]. destruct ((97 <=? _) && _) eqn:E3; [|lia]. destruct (b <=? 36); lia. }
  split; [lia|]. destruct (Z.leb_spec b 36) as [G|G].
  - assert (K : raw true c < 36) by lia. clear H N B G. destruct c as [[] [] [] [] [] [] [] []]; try (vm_compute in K; discriminate K); try (left; vm_compute; reflexivity); right; vm_compute; reflexivity.
  - assert (K : raw false c < 62) by lia. clear H N B G. destruct c as [[] [] [] [] [] [] [] []]; try (vm_compute in K; discriminate K); vm_compute; reflexivity.
Qed.
Lemma read_is b c d : char_digit b c = Some d -> b <= 62 -> is_digit b c d.
Proof. rewrite char_raw. destruct (Z.ltb_spec (raw (b <=? 36) c) b) as [H|H]; [|discriminate]. intros [= <-] B. now apply raw_is. Qed.

(** ** writing and reading *)
Lemma natural_plain b s z : natural b s z -> b <= 62 -> s <> [] /\ Forall (fun c => plain c = true) s /\ 0 <= z.
Proof.
  intros H B. induction H as [c d D|s c z d H (N & F & Z0) D].
  - destruct (is_digit_read b c d D B) as [_ P]. split; [discriminate|]. split; [now constructor|]. now destruct D.
  - destruct (is_digit_read b c d D B) as [_ P]. split; [destruct s; discriminate|]. split; [apply Forall_app; split; [exact F|now constructor]|]. destruct D as [D _]. nia.
Qed.
Lemma read_app b s : Forall (fun c => plain c = true) s -> forall t a, read_digits b (s ++ t) a = match read_digits b s a with Some z => read_digits b t z | None => None end.
Proof.
  induction 1 as [|c s P _ IH]; intros t a; [reflexivity|]. cbn [app read_digits]. destruct (plain_parts c P) as (-> & -> & _). destruct (char_digit b c); [apply IH|reflexivity].
Qed.
Lemma natural_read b s z : natural b s z -> b <= 62 -> read_digits b s 0 = Some z.
Proof.
  intros H B. induction H as [c d D|s c z d H IH D].
  - destruct (is_digit_read b c d D B) as [R P]. cbn [read_digits]. destruct (plain_parts c P) as (-> & -> & _). rewrite R. f_equal. 
  - destruct (is_digit_read b c d D B) as [R P]. rewrite read_app by (now apply (natural_plain b s z)). rewrite IH. cbn [read_digits]. destruct (plain_parts c P) as (-> & -> & _). now rewrite R.
Qed.
Lemma natural_first b s z : natural b s z -> exists c r d, s = c :: r /\ is_digit b c d.
Proof. induction 1 as [c d D|s c z d _ (c0 & r & d0 & -> & D0) _]; [exists c, [], d|exists c0, (r ++ [c]), d0]; split; auto. Qed.
Lemma natural_nat b s z : natural b s z -> b <= 62 -> read_nat b s = Some z.
Proof.
  intros H B. destruct (natural_first b s z H) as (c & r & d & -> & D). unfold read_nat. destruct (is_digit_read b c d D B) as [-> _]. now apply natural_read.
Qed.
Lemma read_natural b s : (forall c, In c s -> isspace c = false /\ c <> nul) -> b <= 62 -> forall p a z, natural b p a -> read_digits b s a = Some z -> natural b (p ++ s) z.
Proof.
  induction s as [|c s IH]; intros P B p a z N; cbn [read_digits].
  - intros [= <-]. now rewrite app_nil_r.
  - destruct (P c (or_introl eq_refl)) as [-> Hn]. destruct (aeq c nul) eqn:Ez; [now apply Ascii.eqb_eq in Ez|]. destruct (char_digit b c) as [d|] eqn:E; [|discriminate]. intros H. apply read_is in E; [|exact B].
    change (c :: s) with ([c] ++ s). rewrite app_assoc. apply (IH (fun x K => P x (or_intror K)) B _ (a * b + d)); [now constructor|exact H].
Qed.
Lemma digits_ok b : 2 <= b <= 62 -> forall f z acc, 0 <= z -> (Z.to_nat (Z.log2 z) <= f)%nat ->
  exists t, digits f b z acc = t ++ acc /\ natural b t z /\ (z <> 0 -> forall r, t <> "0"%char :: r).
Proof.
  intros B. assert (ONE : forall z, 0 <= z < b -> natural b [digit_char b z] z /\ (z <> 0 -> forall r, [digit_char b z] <> "0"%char :: r)).
  { intros z H. pose proof (digit_is b z B H) as D. split; [now constructor|]. intros N r E. injection E as E _. rewrite E in D. destruct (is_digit_raw b _ _ D) as [R _]; [lia|].
    assert (raw (b <=? 36) "0"%char = 0) by (destruct (b <=? 36); reflexivity). lia. }
  induction f as [|f IH]; intros z acc Z0 F; cbn [digits]; destruct (Z.ltb_spec z b) as [L|L].
  - exists [digit_char b z]. split; [reflexivity|]. now apply ONE.
  - exfalso. assert (Z.log2 z <= 0) by lia. pose proof (Z.log2_le_mono 2 z ltac:(lia)) as X. change (Z.log2 2) with 1 in X. lia.
  - exists [digit_char b z]. split; [reflexivity|]. now apply ONE.
  - assert (Q1 : 1 <= z / b) by (apply Z.div_le_lower_bound; lia).
    assert (Q2 : z / b <= z / 2) by (apply Z.div_le_compat_l; lia).
    assert (G : (Z.to_nat (Z.log2 (z / b)) <= f)%nat).
    { pose proof (Z.log2_le_mono _ _ Q2) as X. rewrite <- Z.div2_div in X. pose proof (Z.log2_double (Z.div2 z)) as Y.
      assert (Z.log2 (Z.div2 z) <= Z.log2 z - 1); [|lia]. assert (P2 : 0 < Z.div2 z) by (rewrite Z.div2_div; lia). specialize (Y P2).
      assert (2 * Z.div2 z <= z) by (rewrite Z.div2_div; pose proof (Z.mul_div_le z 2); lia). pose proof (Z.log2_le_mono _ _ H). lia. }
    destruct (IH (z / b) (digit_char b (z mod b) :: acc) ltac:(lia) G) as (t & E & N & K). exists (t ++ [digit_char b (z mod b)]). split; [|split].
    + rewrite E, <- app_assoc. reflexivity.
    + rewrite (Z.div_mod z b) at 2 by lia. rewrite (Z.mul_comm b). constructor; [exact N|]. apply digit_is; [exact B|]. apply Z.mod_pos_bound. lia.
    + intros _ r Er. destruct (natural_first _ _ _ N) as (c & r' & d & Et & _). rewrite Et in Er. injection Er as Ec _. apply (K ltac:(lia) r'). now rewrite Et, Ec.
Qed.
Lemma skip_plain s c r : s = c :: r -> isspace c = false -> skip_space s = s. Proof. intros -> H. cbn [skip_space]. now rewrite H. Qed.
(** every text of an integer is read as that integer; white space in front is skipped *)
Theorem C99_integer_read b s z n : 2 <= b <= 62 -> integer b s z -> i_ofString b (repeat " "%char n ++ s) = Ok z.
Proof.
  intros B H. unfold i_ofString. replace ((b <? 2) || (62 <? b)) with false by lia. cbv iota.
  assert (S : skip_space (repeat " "%char n ++ s) = s).
  { assert (S0 : skip_space s = s). { destruct H as [H|(r & -> & _)]; [|reflexivity]. destruct (natural_first _ _ _ H) as (c & r & d & -> & D). destruct (is_digit_read _ _ _ D ltac:(lia)) as [_ P]. destruct (plain_parts c P) as (E & _). now apply (skip_plain _ c r). }
    induction n as [|n IH]; [exact S0|exact IH]. }
  rewrite S. destruct H as [H|(r & -> & H)].
  - destruct (natural_first _ _ _ H) as (c & r & d & Es & D). destruct (is_digit_read _ _ _ D ltac:(lia)) as [_ P]. destruct (plain_parts c P) as (_ & _ & E & _). rewrite Es, E, <- Es. rewrite (natural_nat b s z H) by lia. reflexivity.
  - change (aeq "-" "-") with true. cbv iota. rewrite (natural_nat b r (- z) H) by lia. cbn. f_equal. lia.
Qed.
Print Assumptions C99_integer_read.
(** white space behind the first digit is skipped *)
Theorem C99_integer_space b p t z : 2 <= b <= 62 -> integer b (p ++ t) z -> p <> [] -> p <> ["-"%char] -> i_ofString b (p ++ " "%char :: t) = Ok z.
Proof.
  intros B H N1 N2. unfold i_ofString. replace ((b <? 2) || (62 <? b)) with false by lia. cbv iota.
  assert (NN : forall p z, p <> [] -> natural b (p ++ t) z -> (exists c r, p = c :: r /\ plain c = true) /\ read_nat b (p ++ " "%char :: t) = Some z).
  { clear p z H N1 N2. intros p z Np H. destruct (natural_first _ _ _ H) as (c & r & d & E & D). pose proof (natural_read _ _ _ H ltac:(lia)) as R. destruct (natural_plain _ _ _ H ltac:(lia)) as (_ & F & _).
    apply Forall_app in F. destruct F as [F _]. destruct p as [|c0 p]; [congruence|]. cbn [app] in E. injection E as -> _. destruct (is_digit_read _ _ _ D ltac:(lia)) as [Cd P]. split; [exists c, p; auto|].
    unfold read_nat. change ((c :: p) ++ " "%char :: t) with (c :: p ++ " "%char :: t) at 1. cbv iota. rewrite Cd. rewrite read_app by exact F. rewrite read_app in R by exact F. destruct (read_digits b (c :: p) 0); [exact R|discriminate]. }
  destruct H as [H|(r & E & H)].
  - destruct (NN p z N1 H) as ((c & r & -> & P) & R). destruct (plain_parts c P) as (E1 & _ & E2 & _). change ((c :: r) ++ " "%char :: t) with (c :: r ++ " "%char :: t) in *. rewrite (skip_plain _ c _ eq_refl E1), E2, R. reflexivity.
  - destruct p as [|c p]; [congruence|]. cbn [app] in E. injection E as -> <-. assert (Np : p <> []) by (intros ->; congruence). destruct (NN p (- z) Np H) as (_ & R).
    change (("-"%char :: p) ++ " "%char :: t) with ("-"%char :: p ++ " "%char :: t). rewrite (skip_plain _ "-"%char _ eq_refl eq_refl). change (aeq "-" "-") with true. cbv iota. rewrite R. cbn. f_equal. lia.
Qed.
Print Assumptions C99_integer_space.
(** no other text is read, if it has no white space and no NUL byte *)
Theorem C99_integer_read_only b s z : 2 <= b <= 62 -> (forall c, In c s -> isspace c = false /\ c <> nul) -> i_ofString b s = Ok z -> integer b s z.
Proof.
  intros B H. unfold i_ofString. replace ((b <? 2) || (62 <? b)) with false by lia. cbv iota.
  assert (N : forall s z, (forall c, In c s -> isspace c = false /\ c <> nul) -> read_nat b s = Some z -> natural b s z).
  { clear s z H. intros s z H. unfold read_nat. destruct s as [|c r]; [discriminate|]. destruct (char_digit b c) as [d|] eqn:E; [|discriminate].
    cbn [read_digits]. destruct (H c (or_introl eq_refl)) as [-> Hn]. destruct (aeq c nul) eqn:Ez; [now apply Ascii.eqb_eq in Ez|]. rewrite E. intros R.
    apply (read_natural b r (fun x K => H x (or_intror K)) ltac:(lia) [c] d z); [|exact R]. constructor. apply read_is; [exact E|lia]. }
  assert (S : skip_space s = s) by (destruct s as [|c r]; [reflexivity|apply (skip_plain _ c r eq_refl), H; now left]).
  rewrite S. destruct s as [|c r]; [discriminate|]. destruct (aeq c "-"%char) eqn:E.
  - apply Ascii.eqb_eq in E. subst c. destruct (read_nat b r) as [y|] eqn:R; [|discriminate]. cbn. intros [= <-]. right. exists r. split; [reflexivity|]. rewrite Z.opp_involutive. apply N; [intros c Hc; apply H; now right|exact R].
  - destruct (read_nat b (c :: r)) as [y|] eqn:R; [|discriminate]. intros [= <-]. left. now apply N.
Qed.
Print Assumptions C99_integer_read_only.
Lemma digit_small b d : b <= 36 -> 0 <= d < b -> In (digit_char b d) small.
Proof.
  intros B D. each d n. unfold digit_char. replace (b <=? 36) with true by lia. assert (N : (n < 36)%nat) by lia. clear B D.
  do 36 (destruct n as [|n]; [vm_compute; tauto|]). lia.
Qed.
Lemma digits_small b : 2 <= b <= 36 -> forall f z acc c, 0 <= z -> In c (digits f b z acc) -> In c small \/ In c acc.
Proof.
  intros B. induction f as [|f IH]; intros z acc c Z0; cbn [digits]; destruct (Z.ltb_spec z b) as [L|L]; auto.
  - intros [<-|H]; [left; apply digit_small; lia|now right].
  - intros [<-|H]; [left; apply digit_small; lia|now right].
  - intros H. apply IH in H; [|apply Z.div_pos; lia]. destruct H as [H|[<-|H]]; auto. left. apply digit_small; [lia|]. apply Z.mod_pos_bound. lia.
Qed.
(** every integer is written in every base from 2 to 62 without leading zeros, and read back; other bases are refused *)
Theorem C99_integer b z :
  (2 <= b <= 62 -> exists t, i_toString b z = Ok t /\ integer b t z /\ i_ofString b t = Ok z /\ (z <> 0 -> forall r, t <> "0"%char :: r /\ t <> "-"%char :: "0"%char :: r) /\
     (b <= 36 -> forall c, In c t -> c = "-"%char \/ In c small)) /\
  (~ 2 <= b <= 62 -> i_toString b z = Throw InvalidArgument).
Proof.
  split; intros B; unfold i_toString.
  - replace ((b <? 2) || (62 <? b)) with false by lia. cbv iota. exists (ztxt b z). split; [reflexivity|].
    destruct (digits_ok b B (Z.to_nat (Z.log2 (Z.abs z))) (Z.abs z) [] ltac:(lia) ltac:(lia)) as (t & E & N & K). rewrite app_nil_r in E.
    assert (I0 : integer b (ztxt b z) z). { unfold ztxt. rewrite E. destruct (Z.ltb_spec z 0) as [H|H]; [right; exists t; split; [reflexivity|]; now replace (- z) with (Z.abs z) by lia|left; now replace z with (Z.abs z) by lia]. }
    split; [exact I0|]. split; [exact (C99_integer_read b _ z 0 B I0)|]. split.
    2:{ intros B' c Hc. unfold ztxt in Hc. assert (K' : forall x, In x (digits (Z.to_nat (Z.log2 (Z.abs z))) b (Z.abs z) []) -> In x small) by (intros x Hx; destruct (digits_small b ltac:(lia) _ _ _ x (Z.abs_nonneg z) Hx) as [Y|[]]; exact Y).
      destruct (z <? 0); [destruct Hc as [Hc|Hc]; [now left|right; now apply K']|right; now apply K']. }
    intros Nz r. unfold ztxt. rewrite E. specialize (K ltac:(lia)).
    destruct (natural_first _ _ _ N) as (c & r' & d & Et & D). destruct (is_digit_read _ _ _ D ltac:(lia)) as [_ P]. destruct (plain_parts c P) as (_ & _ & P1 & _).
    destruct (z <? 0); split; intros X.
    + discriminate X.
    + injection X as X. now apply (K r).
    + now apply (K r).
    + rewrite Et in X. injection X as X _. subst c. discriminate P1.
  - replace ((b <? 2) || (62 <? b)) with true by lia. reflexivity.
Qed.
Print Assumptions C99_integer.
Example integer_text_ex : i_toString 16 (-255) = Ok (L "-ff") /\ i_ofString 16 (L "  -Ff") = Ok (-255) /\ i_toString 62 61 = Ok (L "z") /\ i_ofString 10 (L "12a") = Throw InvalidArgument.
Proof. repeat split; reflexivity. Qed.

(** ** numbers *)
Lemma natural10 s z : natural 10 s z -> s <> [] /\ Forall digitC s /\ num_of s = z.
Proof.
  assert (DC : forall c d, is_digit 10 c d -> digitC c /\ digit_of c = d).
  { intros c d (D & H). each d n. rewrite Nat2Z.id in H. change (10 <=? 36) with true in H. cbv iota in H. assert (N : (n < 10)%nat) by lia. clear D.
    do 10 (destruct n as [|n]; [destruct H as [H|H]; injection H as <-; (split; [unfold digitC; cbn; lia|reflexivity])|]). lia. }
  induction 1 as [c d D|s c z d _ (N & F & V) D]; destruct (DC c d D) as [D1 D2].
  - split; [discriminate|]. split; [now constructor|]. cbn. lia.
  - split; [destruct s; discriminate|]. split; [apply Forall_app; split; [exact F|now constructor]|]. rewrite num_app, V. change (zlen [c]) with 1. unfold num_of. cbn [fold_left]. lia.
Qed.
Lemma n_str_int z : exists t, ztxt 10 z = signed (z <? 0) t /\ udecimal t (inject_Z (Z.abs z)) /\ exists c, In c t /\ digitC c.
Proof.
  destruct (digits_ok 10 ltac:(lia) (Z.to_nat (Z.log2 (Z.abs z))) (Z.abs z) [] ltac:(lia) ltac:(lia)) as (t & E & N & _). rewrite app_nil_r in E.
  destruct (natural10 _ _ N) as (N1 & F & V). exists t. split; [unfold ztxt; rewrite E; reflexivity|]. split; [rewrite <- V; now constructor|].
  destruct F as [|c r D F]; [congruence|]. exists c. split; [now left|exact D].
Qed.
(** the text of a number near a printable one *)
Lemma near_txt s (w : Q) (v : Qc) (neg : bool) : (0 <= w)%Q -> (Qabs (s - w) <= w * (5 * ulp))%Q ->
  (this v == if neg then - w else w)%Q -> printable v -> exists u, udecimal (realtxt s) u /\ (u == w)%Q.
Proof.
  intros W0 N Hv P. pose proof (Qcabs_this v) as A. rewrite (abs_signed neg _ w W0 Hv) in A. destruct ulp_small as [U0 U1].
  destruct P as [ -> |[(L & H & k & K)|(L & H & k & j & Hk & K)]].
  - assert (Z : (w == 0)%Q). { change (this 0%Qc) with 0%Q in Hv. destruct neg; lra. }
    rewrite Z in N. assert (s == 0)%Q. { rewrite Qmult_0_l in N. apply Qabs_both in N. lra. }
    destruct (int_txt s 0 ltac:(lia) H) as (u & U & E). exists u. split; [exact U|]. rewrite E, Z. reflexivity.
  - unfold Qclt in L, H. rewrite A, pow10_this in L. rewrite A, pow10_this in H.
    apply (f_equal this) in K. assert (K' : (this v * p10 17 == inject_Z k)%Q).
    { rewrite <- (pow10_this 17), <- Qcmult_this, K. apply ZQ_this. }
    assert (Ka : (w * p10 17 == inject_Z (Z.abs k))%Q).
    { rewrite <- Qabs_Z, <- K', Qabs_Qmult. rewrite (abs_signed neg _ w W0 Hv). rewrite (Qabs_pos (p10 17)); [reflexivity|apply Qlt_le_weak, p10_pos]. }
    assert (Kb : 10 ^ 10 < Z.abs k < 10 ^ 23).
    { rewrite !Zlt_Qlt, <- Ka. change (p10 (-7)) with (1 # 10000000)%Q in L. change (p10 6) with 1000000%Q in H.
      change (p10 17) with (100000000000000000)%Q. change (inject_Z (10 ^ 10)) with 10000000000%Q.
      change (inject_Z (10 ^ 23)) with 100000000000000000000000%Q. split; lra. }
    assert (Nv : (Qabs (s * p10 17 - inject_Z (Z.abs k)) <= 1 # 4)%Q).
    { rewrite <- Ka. change (p10 17) with (100000000000000000)%Q. change (p10 6) with 1000000%Q in H.
      change (inject_Z (10 ^ 38)) with (100000000000000000000000000000000000000)%Q in U1.
      assert (X : (w * ulp <= 1000000 * ulp)%Q) by (apply Qmult_le_compat_r; lra).
      apply Qabs_both in N. apply Qabs_Qle_condition. split; lra. }
    destruct (small_case s _ Nv Kb) as (u & U & E). exists u. split; [exact U|]. rewrite E, <- Ka.
    change (p10 17) with (100000000000000000)%Q. change (p10 (-17)) with (1 # 100000000000000000)%Q. lra.
  - unfold Qcle in L. unfold Qclt in H. rewrite A, pow10_this in L. rewrite A, pow10_this in H.
    assert (Ka : (inject_Z (Z.abs k) * p10 j == w)%Q).
    { rewrite <- (abs_signed neg _ w W0 Hv), K, Qcmult_this, pow10_this, ZQ_this, Qabs_Qmult, Qabs_Z.
      rewrite (Qabs_pos (p10 j)); [reflexivity|apply Qlt_le_weak, p10_pos]. }
    destruct (big_case s (Z.abs k) j) as (u & U & E); try (rewrite ?Ka; assumption); [lia|].
    exists u. split; [exact U|]. now rewrite E.
Qed.
Lemma ud_digit t q : udecimal t q -> ~ (q == 0)%Q -> exists c, In c t /\ digitC c.
Proof.
  intros [ds N F|ds es F G] Z.
  - destruct F as [|c r D F]; [congruence|]. exists c. split; [now left|exact D].
  - destruct F as [|c r D F]; [|exists c; split; [now left|exact D]]. destruct G as [|c r D G]; [exfalso; apply Z; reflexivity|]. exists c. split; [right; now left|exact D].
Qed.
Lemma int_digit q z : (q == inject_Z z)%Q -> 0 <= z -> exists c, In c (realtxt q) /\ digitC c.
Proof.
  intros E Hz. assert (F : Qfloor q = z) by (rewrite E; apply Qfloor_Z). unfold realtxt. rewrite F.
  replace (Qeq_bool q (inject_Z z)) with true by (symmetry; now apply Qeq_bool_iff).
  destruct (Idec_nat z Hz) as (N & G & V). destruct G as [|c r D G]; [congruence|]. exists c. split; [now left|exact D].
Qed.
Definition neg (q : Q) : bool := qlt q 0.
Lemma neg_spec q : if neg q then (q < 0)%Q else (0 <= q)%Q.
Proof. unfold neg, qlt. destruct (Qle_bool 0 q) eqn:E; cbn [negb]; [now apply Qle_bool_iff|]. apply Qnot_le_lt. intros H. apply Qle_bool_iff in H. congruence. Qed.
(** what is known about the text of a finite shown number *)
Lemma shown_txt n v : shown n (Val v) -> exists b t q, n_str n = signed b t /\ udecimal t q /\ (this v == if b then - q else q)%Q /\ exists c, In c t /\ digitC c.
Proof.
  intros H. remember (Val v) as e eqn:Ee. destruct H as [z|s|q z E|q w P E].
  - injection Ee as <-. destruct (n_str_int z) as (t & Et & U & D). exists (z <? 0), t, (inject_Z (Z.abs z)). split; [exact Et|]. split; [exact U|]. split; [|exact D].
    rewrite ZQ_this. destruct (Z.ltb_spec z 0) as [L|L]; [rewrite <- inject_Z_opp; replace (- Z.abs z) with z by lia|replace (Z.abs z) with z by lia]; reflexivity.
  - destruct s; discriminate.
  - injection Ee as <-. assert (Ea : (Qabs q == inject_Z (Z.abs z))%Q) by (rewrite E; reflexivity). destruct (int_txt (Qabs q) (Z.abs z) ltac:(lia) Ea) as (u & U & Eu).
    exists (neg q), (realtxt (Qabs q)), u. split; [reflexivity|]. split; [exact U|]. split; [|apply (int_digit _ (Z.abs z) Ea); lia].
    rewrite ZQ_this, <- E. pose proof (neg_spec q) as K. rewrite <- Ea in Eu. destruct (neg q); rewrite Eu; [rewrite Qabs_neg by lra; ring|rewrite Qabs_pos by lra; reflexivity].
  - injection Ee as <-. destruct ulp_small as [U0 U1].
    assert (U2 : (ulp <= 1 # 2)%Q). { change (inject_Z (10 ^ 38)) with (100000000000000000000000000000000000000)%Q in U1. lra. }
    assert (R : forall x, (0 <= x)%Q -> (0 <= rn128 x)%Q /\ (Qabs (rn128 x - x) <= x * (5 * ulp))%Q /\ (0 < x -> 0 < rn128 x)%Q).
    { intros x Hx. destruct (rn_near x Hx) as [A B]. assert (C1 : (0 <= x * ulp)%Q) by (apply Qmult_le_0_compat; lra). assert (C2 : (x * ulp <= x * (1 # 2))%Q) by (rewrite (Qmult_comm x ulp), (Qmult_comm x (1 # 2)); apply Qmult_le_compat_r; lra).
      set (xu := (x * ulp)%Q) in *. assert (C3 : (x * (5 * ulp) == 5 * xu)%Q) by (unfold xu; ring).
      split; [lra|]. split; [rewrite C3; apply Qabs_Qle_condition; split; lra|]. intros Hp. lra. }
    assert (OP : (rn128 (- this w) == - rn128 (this w))%Q) by (apply rn_opp; lia).
    assert (S : (this w == if neg q then - Qabs (this w) else Qabs (this w))%Q /\ (Qabs (Qabs q - Qabs (this w)) <= Qabs (this w) * (5 * ulp))%Q).
    { assert (K : if neg q then (rn128 (this w) < 0)%Q else (0 <= rn128 (this w))%Q) by (pose proof (neg_spec q) as K0; destruct (neg q); rewrite <- E; exact K0). destruct (Qlt_le_dec (this w) 0) as [Hw|Hw].
      - destruct (R (- this w)%Q ltac:(lra)) as (R1 & R2 & R3). rewrite OP in R1, R2, R3. specialize (R3 ltac:(lra)). destruct (neg q); [|lra].
        rewrite (Qabs_neg (this w)) by lra. split; [ring|]. rewrite E, (Qabs_neg (rn128 _)) by lra. exact R2.
      - destruct (R (this w) Hw) as (R1 & R2 & R3). destruct (neg q); [lra|]. rewrite (Qabs_pos (this w)) by lra. split; [reflexivity|]. rewrite E, (Qabs_pos (rn128 _)) by lra. exact R2. }
    destruct S as [S1 S2]. destruct (near_txt (Qabs q) (Qabs (this w)) w (neg q) (Qabs_nonneg _) S2 S1 P) as (u & U & Eu).
    exists (neg q), (realtxt (Qabs q)), u. split; [reflexivity|]. split; [exact U|]. split; [rewrite S1 at 1; destruct (neg q); now rewrite Eu|].
    destruct (Qeq_dec u 0) as [Z|Z]; [|now apply (ud_digit _ u)].
    apply (int_digit _ 0); [|lia]. rewrite <- Eu, Z in S2. rewrite Qmult_0_l in S2. apply Qabs_both in S2. change (inject_Z 0) with 0%Q. lra.
Qed.
(** the text of an integer, an integral real, or a real nearest to a short decimal is exactly that number *)
Theorem C99_number n x : shown n x -> reads (n_str n) x.
Proof.
  intros H. destruct x as [| |v].
  - inversion H as [|s E| |]. destruct s; [reflexivity|discriminate].
  - inversion H as [|s E| |]. destruct s; [discriminate|reflexivity].
  - destruct (shown_txt n v H) as (b & t & q & -> & U & V & _). exact (proj2 (signed_ok b t q v U V)).
Qed.
Print Assumptions C99_number.
(** a real shown this way is read back as it was *)
Theorem C99_read_back q v : shown (NR (Fin q)) (Val v) -> repr 128 q -> exists q', n_real (n_str (NR (Fin q))) = Ok (NR (Fin q')) /\ (q' == q)%Q.
Proof.
  intros H R. destruct (shown_txt _ v H) as (b & t & u & Et & U & V & D). rewrite Et. unfold n_real. rewrite (proj1 (signed_ok b t u v U V)).
  destruct (ud_set t u U D) as (u' & Eu & S1 & S2). assert (S : set_str (signed b t) = Some (b, u')) by (destruct b; assumption). rewrite S. eexists. split; [reflexivity|].
  assert (K : (q == rn128 (this v))%Q).
  { inversion H as [| |? z E E2|? ? P E]; subst; [|exact E]. rewrite <- (rn_exact 128 ltac:(lia) q R) at 1. apply (rn_eq 128 ltac:(lia)). rewrite ZQ_this. exact E. }
  rewrite K. assert (V' : (this v == if b then - u' else u')%Q) by (rewrite V; destruct b; now rewrite Eu).
  destruct b; [rewrite <- (rn_opp 128 ltac:(lia) u')|]; apply (rn_eq 128 ltac:(lia)); now rewrite V'.
Qed.
Print Assumptions C99_read_back.

(** ** intervals *)
Definition commas (s : str) : Prop := Forall (fun c => c <> ","%char) s.
Lemma real_val_commas s v : real_val s = Some v -> commas s.
Proof.
  assert (DG : forall d, Forall digitC d -> commas d).
  { intros d F. apply (Forall_impl _ (P := digitC)); [|exact F]. intros c D ->. unfold digitC in D. cbn in D. lia. }
  assert (UD : forall t q, udecimal t q -> commas t).
  { intros t q [ds N F|ds es F G]; [now apply DG|]. apply Forall_app. split; [now apply DG|]. constructor; [discriminate|now apply DG]. }
  intros H. destruct (real_val_inv s v H) as [(q & U & _)|(r & q & -> & U & _)]; [now apply (UD s q)|]. constructor; [discriminate|now apply (UD r q)].
Qed.
Lemma reads_commas s x : reads s x -> commas s.
Proof. destruct x as [| |v]; cbn; [intros ->|intros ->|apply real_val_commas]; repeat constructor; discriminate. Qed.
Lemma reads_fun s x y : reads s x -> reads s y -> x = y.
Proof.
  assert (I1 : real_val (L "inf") = None) by reflexivity. assert (I2 : real_val (L "-inf") = None) by reflexivity.
  destruct x as [| |v], y as [| |w]; cbn; intros H K; subst; try reflexivity; try discriminate; congruence.
Qed.
Lemma split_comma l : forall l' t t', commas l -> commas l' -> l ++ ","%char :: t = l' ++ ","%char :: t' -> l = l' /\ t = t'.
Proof.
  induction l as [|c l IH]; intros [|c' l'] t t' A B E; cbn in E.
  - injection E as ->. auto.
  - injection E as E1 _. inversion B; congruence.
  - injection E as E1 _. inversion A; congruence.
  - injection E as -> E. inversion A; inversion B; subst. destruct (IH l' t t') as [-> ->]; auto.
Qed.
(** bracket, least bound, comma, greatest bound, bracket; no two different intervals have one text *)
Theorem C99_interval (a : interval) x y : shown (NumModel.lo a) x -> shown (NumModel.hi a) y ->
  (exists l h, i_str a = (if lc a then "["%char else "("%char) :: l ++ L ", " ++ h ++ [if rc a then "]"%char else ")"%char] /\ reads l x /\ reads h y) /\
  forall b x' y', shown (NumModel.lo b) x' -> shown (NumModel.hi b) y' -> i_str a = i_str b -> x = x' /\ y = y' /\ lc a = lc b /\ rc a = rc b.
Proof.
  intros Hl Hh. pose proof (C99_number _ _ Hl) as Rl. pose proof (C99_number _ _ Hh) as Rh. split.
  - exists (n_str (NumModel.lo a)), (n_str (NumModel.hi a)). split; [unfold i_str; now rewrite <- !app_assoc|]. split; assumption.
  - intros b x' y' Hl' Hh' E. pose proof (C99_number _ _ Hl') as Rl'. pose proof (C99_number _ _ Hh') as Rh'. unfold i_str in E. rewrite <- !app_assoc in E.
    injection E as E1 E2. change (L ", " ++ ?t) with (","%char :: " "%char :: t) in E2.
    destruct (split_comma _ _ _ _ (reads_commas _ _ Rl) (reads_commas _ _ Rl') E2) as [E3 E4]. injection E4 as E4. apply app_inj_tail in E4. destruct E4 as [E4 E5].
    rewrite E3 in Rl. rewrite E4 in Rh. split; [exact (reads_fun _ _ _ Rl Rl')|]. split; [exact (reads_fun _ _ _ Rh Rh')|].
    split; [destruct (lc a), (lc b); congruence|destruct (rc a), (rc b); congruence].
Qed.
Print Assumptions C99_interval.
Example interval_text_ex : i_str (Itv (NI (-3)) (NR (Inf false)) true false) = L "[-3, inf)" /\ i_str (Itv (NR (Fin (rn128 (1 # 10)))) (NR (Fin (5 # 1))) false true) = L "(0.1, 5]".
Proof. split; vm_compute; reflexivity. Qed.
(** a real that is no short decimal is shown as its nearest neighbour with 17 places: different intervals, and an
    interval and the text of another, are told apart no more; beyond 10^6 only 17 digits are kept *)
Theorem C99_refuted :
  let one := NR (Fin 1%Q) in let above := NR (Fin (1 + p2 (-100))%Q) in
  i_str (Itv one one true true) = i_str (Itv one above true true) /\ n_lt rn128 one above = true /\ repr 128 (1 + p2 (-100)) /\
  n_str (NR (Fin (rn128 (1 # 3)))) = L "0.33333333333333333" /\
  n_real (L "0.33333333333333333") = Ok (NR (Fin (rn128 (33333333333333333 # 100000000000000000)))) /\ ~ (rn128 (33333333333333333 # 100000000000000000) == rn128 (1 # 3))%Q /\
  n_str (NR (Fin (inject_Z (10 ^ 17) + (1 # 2))%Q)) = L "1e+17" /\ n_real (L "1e+17") = Throw InvalidArgument.
Proof.
  cbv zeta. split; [vm_compute; reflexivity|]. split; [vm_compute; reflexivity|]. split; [exists (2 ^ 100 + 1), (-100); split; [vm_compute; discriminate|vm_compute; reflexivity]|].
  split; [vm_compute; reflexivity|]. split; [vm_compute; reflexivity|]. split; [intros H; vm_compute in H; discriminate|]. split; vm_compute; reflexivity.
Qed.
Print Assumptions C99_refuted.

(** ** values *)
Theorem C99_value : forall s n i b,
  v_text (vStr s) = Ok s /\ v_text (vNum n) = Ok (n_str n) /\ v_text (vItv i) = Ok (i_str i) /\
  v_text (vBool b) = Ok (if b then L "true" else L "false") /\ v_text vNew = Ok (L "unknown").
Proof. intros. repeat split; reflexivity. Qed.
Print Assumptions C99_value.
(** the kind of the value is not in its text; a BOOLEAN value that was given no boolean is undefined *)
Theorem C99_value_refuted : v_text (vStr (L "5")) = v_text (vNum (NI 5)) /\ v_text (vStr (L "true")) = v_text (vBool true) /\ v_text (vEmpty VT_BOOLEAN) = UB.
Proof. repeat split; reflexivity. Qed.
Print Assumptions C99_value_refuted.
(** non-vacuity: one tenth, a real that is not a binary fraction *)
Example shown_ex : shown (NR (Fin (rn128 (1 # 10)))) (Val (Q2Qc (1 # 10))) /\ repr 128 (rn128 (1 # 10)) /\ n_str (NR (Fin (rn128 (1 # 10)))) = L "0.1".
Proof.
  split; [|split; [apply rn_repr; lia|vm_compute; reflexivity]]. apply sh_dec; [|apply rn_eq; [lia|reflexivity]].
  right. left. split; [vm_compute; reflexivity|]. split; [vm_compute; reflexivity|]. exists (10 ^ 16). apply Qc_is_canon. vm_compute. reflexivity.
Qed.
