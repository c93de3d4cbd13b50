(** Proofs about parseScientificNotation and the parser's use of it. *)
From Coq Require Import QArith Qcanon Qround Qabs Qpower Lia Lqa ZifyBool ZifyNat.
From Verif Require Import Base UtilModel UtilSpec UtilProofs UtilProofs2 NumModel RoundModel SciModel Sem OpProofs SciSpec SciProofs.
Open Scope Z_scope.
Local Notation Q := QArith_base.Q.

(** ** exponents *)
Lemma signed_chars ex n : signed_int ex n -> ex <> [] /\ Forall (fun c => digitC c \/ c = "-"%char \/ c = "+"%char) ex.
Proof.
  intros [H|(r & -> & H & _)]; apply int_val_inv in H.
  - destruct H as [(N & F & _)|(r & -> & N & F & _)].
    + split; [exact N|]. eapply Forall_impl; [|exact F]. intros; now left.
    + split; [discriminate|]. constructor; [now right; left|]. eapply Forall_impl; [|exact F]. intros; now left.
  - split; [discriminate|]. constructor; [now right; right|].
    destruct H as [(N & F & _)|(r' & -> & N & F & _)].
    + eapply Forall_impl; [|exact F]. intros; now left.
    + constructor; [now right; left|]. eapply Forall_impl; [|exact F]. intros; now left.
Qed.
Lemma digits_first ds : ds <> [] -> Forall digitC ds -> exists c r, ds = c :: r /\ digitC c /\ is_sign c = false.
Proof.
  intros N F. destruct F as [|c r D F]; [congruence|]. exists c, r. split; [reflexivity|]. split; [exact D|].
  unfold is_sign. destruct (aeq c "-" || aeq c "+") eqn:E; [|reflexivity]. apply orb_true_iff in E. unfold digitC in D.
  destruct E as [E|E]; apply Ascii.eqb_eq in E; subst c; cbn in D; lia.
Qed.
Lemma digits_forallb ds : Forall digitC ds -> forallb isdigit ds = true.
Proof. intros F. now apply forallb_digit. Qed.
Lemma set_exp_ok ex n : signed_int ex n -> set_exp ex = Some n.
Proof.
  intros [H|(r & -> & H & Hn & F)].
  - apply int_val_inv in H. destruct H as [(N & F & ->)|(r & -> & N & F & ->)].
    + destruct (digits_first ex N F) as (c & r & -> & D & S). unfold set_exp. rewrite S, digits_forallb by exact F. reflexivity.
    + unfold set_exp. change (is_sign "-") with true. cbv iota. destruct r as [|c r]; [congruence|].
      rewrite digits_forallb by exact F. reflexivity.
  - unfold set_exp. change (is_sign "+") with true. cbv iota. apply int_val_inv in H.
    destruct r as [|c r]; [destruct H as [(N & _)|(r' & E & _)]; [congruence|discriminate E]|].
    rewrite digits_forallb by exact F. change (aeq "+" "-") with false. cbv iota.
    destruct H as [(_ & _ & ->)|(r' & E & _)]; [reflexivity|]. injection E as -> ->. inversion F as [|? ? D _]. unfold digitC in D. cbn in D. lia.
Qed.
Lemma plain_space (c : ascii) : digitC c \/ c = "-"%char \/ c = "+"%char -> isspace c = false /\ aeq c "("%char = false /\ aeq c ")"%char = false.
Proof.
  intros [D|[ -> | -> ]]; [|repeat split|repeat split]. destruct (digit_not c D) as [A _]. split; [exact A|].
  split; apply Ascii.eqb_neq; intros ->; unfold digitC in D; cbn in D; lia.
Qed.
Lemma find_rpar_app a : (forall c, In c a -> aeq c ")"%char = false) -> forall i, find_rpar (a ++ [")"%char]) i = Some (length a + i)%nat.
Proof.
  induction a as [|c a IH]; intros H i; cbn [app find_rpar length]; [reflexivity|].
  rewrite (H c) by now left. rewrite IH by (intros x Hx; apply H; now right). f_equal. lia.
Qed.
Lemma exp_text_ok ex n : exponent ex n -> exists r, exp_text ex = r /\ signed_int r n.
Proof.
  intros [H|(r & -> & H)]; destruct (signed_chars _ _ H) as [N F]; rewrite Forall_forall in F; unfold exp_text.
  - exists ex. split; [|exact H]. rewrite filter_all by (intros x Hx; now apply plain_space, F).
    destruct ex as [|c ex]; [congruence|]. destruct (plain_space c) as (_ & A & _); [apply F; now left|]. now rewrite A.
  - exists r. split; [|exact H]. rewrite filter_all.
    2:{ intros x [<-|Hx]; [reflexivity|]. apply in_app_iff in Hx. destruct Hx as [Hx|[<-|[]]]; [now apply plain_space, F|reflexivity]. }
    change (aeq "(" "(") with true. cbv iota. rewrite app_comm_cons, find_rpar_app.
    2:{ intros c [<-|Hc]; [reflexivity|]. now apply plain_space, F. }
    cbn [length]. replace (S (length r) + 0 - 1)%nat with (length r) by lia. now rewrite firstn_app, firstn_all, Nat.sub_diag, app_nil_r.
Qed.
Lemma sci_is_sci a e ex n m : real_val a = Some m -> (e = "E"%char \/ e = "e"%char) -> exponent ex n ->
  isScientificNotation (a ++ e :: ex) = true.
Proof.
  intros Hm He Hx. pose proof (real_val_isReal a m Hm) as R. unfold isScientificNotation.
  rewrite (find_e_pre a e ex (real_not_e a R) He 0). cbn [Nat.add]. assert (N : a <> []) by (intros ->; discriminate).
  destruct (length a) as [|k] eqn:La; [destruct a; [congruence|discriminate]|].
  rewrite <- La. rewrite firstn_app, firstn_all, Nat.sub_diag. cbn [firstn]. rewrite app_nil_r, R. cbn [negb].
  replace (skipn (S (length a)) (a ++ e :: ex)) with ex.
  2:{ rewrite skipn_app. rewrite skipn_all2 by lia. now replace (S (length a) - length a)%nat with 1%nat by lia. }
  destruct (exp_text_ok ex n Hx) as (r & E & S). destruct (signed_chars r n S) as [Nr F].
  unfold exp_text in E. destruct ex as [|x ex'].
  { cbn in E. congruence. }
  destruct (filter _ (x :: ex')) as [|c t]; [congruence|]. rewrite E. clear E.
  destruct r as [|c' r]; [congruence|]. clear F Nr. destruct S as [H|(r0 & [= -> ->] & H & _ & F)].
  - apply int_val_inv in H. destruct H as [(_ & F & _)|(r0 & [= -> ->] & N0 & F & _)].
    + destruct (digits_first (c' :: r) ltac:(discriminate) F) as (c2 & r2 & [= <- <-] & D & S). rewrite S. now apply digits_forallb.
    + change (is_sign "-") with true. cbv iota. destruct r0; [congruence|]. now apply digits_forallb.
  - change (is_sign "+") with true. cbv iota. destruct r0; [discriminate H|]. now apply digits_forallb.
Qed.
(** ** the function *)
Lemma sci_eval a e ex n m : real_val a = Some m -> (exists c, In c a /\ digitC c) -> (e = "E"%char \/ e = "e"%char) -> exponent ex n ->
  exists (neg : bool) (q : Q), (0 <= q)%Q /\ (this m == if neg then - q else q)%Q /\
    sci (a ++ e :: ex) = signed neg (realtxt (sval q n)).
Proof.
  intros Hm Hd He Hx. pose proof (real_val_isReal a m Hm) as R.
  assert (C : exists (neg : bool) (q : Q), set_str a = Some (neg, q) /\ (0 <= q)%Q /\ (this m == if neg then - q else q)%Q).
  { apply real_val_inv in Hm. destruct Hm as [(q & U & V)|(r & q & -> & U & V)].
    - destruct (ud_set a q U Hd) as (q' & E & S & _). exists false, q'. split; [exact S|]. rewrite E. split; [now apply (ud_nonneg a)|exact V].
    - destruct (ud_set r q U) as (q' & E & _ & S).
      { destruct Hd as (c & [<-|Hc] & D); [unfold digitC in D; cbn in D; lia|]. now exists c. }
      exists true, q'. split; [exact S|]. rewrite E. split; [now apply (ud_nonneg r)|exact V]. }
  destruct C as (neg & q & S & Q0 & V). exists neg, q. split; [exact Q0|]. split; [exact V|].
  unfold sci. rewrite (find_e_pre a e ex (real_not_e a R) He 0). cbn [Nat.add].
  rewrite firstn_app, firstn_all, Nat.sub_diag. cbn [firstn]. rewrite app_nil_r, R. cbn [negb].
  replace (skipn (Datatypes.S (length a)) (a ++ e :: ex)) with ex.
  2:{ rewrite skipn_app. rewrite skipn_all2 by lia. now replace (Datatypes.S (length a) - length a)%nat with 1%nat by lia. }
  destruct (exp_text_ok ex n Hx) as (r & -> & Sr). rewrite (set_exp_ok r n Sr), S. reflexivity.
Qed.
(** a printed absolute value gives the text of the number *)
Lemma signed_ok (neg : bool) t (q : Q) (v : Qc) : udecimal t q -> (this v == if neg then - q else q)%Q ->
  isReal (signed neg t) = true /\ real_val (signed neg t) = Some v.
Proof.
  intros U V. destruct (ud_isReal t q U) as [R1 R2]. destruct neg; cbn [signed].
  - split; [exact R2|]. destruct (ud_real_val_neg t q U) as (v' & E & W). rewrite E. f_equal. apply Qc_eq_this. now rewrite W, V.
  - split; [exact R1|]. destruct (ud_real_val t q U) as (v' & E & W). rewrite E. f_equal. apply Qc_eq_this. now rewrite W, V.
Qed.
Lemma int_txt v z : 0 <= z -> (v == inject_Z z)%Q -> exists q, udecimal (realtxt v) q /\ (q == inject_Z z)%Q.
Proof.
  intros Hz E. assert (F : Qfloor v = z) by (rewrite E; apply Qfloor_Z). unfold realtxt. rewrite F.
  replace (Qeq_bool v (inject_Z z)) with true by (symmetry; now apply Qeq_bool_iff).
  destruct (Idec_nat z Hz) as (N & G & V). exists (inject_Z (num_of (Idec z))). split; [now apply ud_int|]. now rewrite V.
Qed.
Lemma pow10_this n : (this (pow10 n) == p10 n)%Q. Proof. apply Qred_correct. Qed.
Lemma Qcmult_this a b : (this (a * b)%Qc == this a * this b)%Q. Proof. apply Qred_correct. Qed.
Lemma Qcabs_this v : (this (Qcabs v) == Qabs (this v))%Q.
Proof.
  unfold Qcabs. destruct (Qclt_le_dec v 0) as [H|H].
  - rewrite Qcopp_this, Qabs_neg; [reflexivity|]. apply Qlt_le_weak. exact H.
  - rewrite Qabs_pos; [reflexivity|exact H].
Qed.
Lemma abs_signed (neg : bool) (x : Q) (w : Q) : (0 <= w)%Q -> (x == if neg then - w else w)%Q -> (Qabs x == w)%Q.
Proof. intros H E. rewrite E. destruct neg; [rewrite Qabs_opp|]; now apply Qabs_pos. Qed.
Lemma Qabs_Z z : (Qabs (inject_Z z) == inject_Z (Z.abs z))%Q.
Proof. reflexivity. Qed.
Lemma sval_txt q n (w : Q) (m v : Qc) (neg : bool) : (0 <= q)%Q -> Z.abs n <= 2 ^ 128 -> (w == q * p10 n)%Q ->
  (this v == if neg then - w else w)%Q -> printable v -> exists u, udecimal (realtxt (sval q n)) u /\ (u == w)%Q.
Proof.
  intros Hq Hn Hw Hv P. pose proof (sval_near q n Hq Hn) as N. pose proof (p10_pos n) as Pn.
  assert (W0 : (0 <= w)%Q) by (rewrite Hw; apply Qmult_le_0_compat; lra).
  rewrite <- Hw in N. set (s := sval q n) in *. clearbody s.
  pose proof (Qcabs_this v) as A. rewrite (abs_signed neg _ w W0 Hv) in A.
  destruct ulp_small as [U0 U1].
  destruct P as [ -> |[(L & H & k & K)|(L & H & k & j & Hk & K)]].
  - assert (Z : (w == 0)%Q). { change (this 0%Qc) with 0%Q in Hv. destruct neg; lra. }
    rewrite Z in N. assert (s == 0)%Q. { rewrite Qmult_0_l in N. apply Qabs_both in N. lra. }
    destruct (int_txt s 0 ltac:(lia) H) as (u & U & E). exists u. split; [exact U|]. rewrite E, Z. reflexivity.
  - unfold Qclt in L, H. rewrite A, pow10_this in L. rewrite A, pow10_this in H.
    apply (f_equal this) in K. assert (K' : (this v * p10 17 == inject_Z k)%Q).
    { rewrite <- (pow10_this 17), <- Qcmult_this, K. apply ZQ_this. }
    assert (Ka : (w * p10 17 == inject_Z (Z.abs k))%Q).
    { rewrite <- Qabs_Z, <- K', Qabs_Qmult. rewrite (abs_signed neg _ w W0 Hv). rewrite (Qabs_pos (p10 17)); [reflexivity|apply Qlt_le_weak, p10_pos]. }
    assert (Kb : 10 ^ 10 < Z.abs k < 10 ^ 23).
    { rewrite !Zlt_Qlt, <- Ka. change (p10 (-7)) with (1 # 10000000)%Q in L. change (p10 6) with 1000000%Q in H.
      change (p10 17) with (100000000000000000)%Q. change (inject_Z (10 ^ 10)) with 10000000000%Q.
      change (inject_Z (10 ^ 23)) with 100000000000000000000000%Q. split; lra. }
    assert (Nv : (Qabs (s * p10 17 - inject_Z (Z.abs k)) <= 1 # 4)%Q).
    { rewrite <- Ka. change (p10 17) with (100000000000000000)%Q. change (p10 6) with 1000000%Q in H.
      change (inject_Z (10 ^ 38)) with (100000000000000000000000000000000000000)%Q in U1.
      assert (X : (w * ulp <= 1000000 * ulp)%Q) by (apply Qmult_le_compat_r; lra).
      apply Qabs_both in N. apply Qabs_Qle_condition. split; lra. }
    destruct (small_case s _ Nv Kb) as (u & U & E). exists u. split; [exact U|]. rewrite E, <- Ka.
    change (p10 17) with (100000000000000000)%Q. change (p10 (-17)) with (1 # 100000000000000000)%Q. lra.
  - unfold Qcle in L. unfold Qclt in H. rewrite A, pow10_this in L. rewrite A, pow10_this in H.
    assert (Ka : (inject_Z (Z.abs k) * p10 j == w)%Q).
    { rewrite <- (abs_signed neg _ w W0 Hv), K, Qcmult_this, pow10_this, ZQ_this, Qabs_Qmult, Qabs_Z.
      rewrite (Qabs_pos (p10 j)); [reflexivity|apply Qlt_le_weak, p10_pos]. }
    destruct (big_case s (Z.abs k) j) as (u & U & E); try (rewrite ?Ka; assumption); [lia|].
    exists u. split; [exact U|]. now rewrite E.
Qed.
Lemma sci_value s m n v : sci_means s m n v -> Z.abs n <= 2 ^ 128 -> printable v ->
  isReal (sci s) = true /\ real_val (sci s) = Some v.
Proof.
  intros (a & e & ex & -> & He & Hm & Hd & Hx & Ev) Hn P.
  destruct (sci_eval a e ex n m Hm Hd He Hx) as (neg & q & Hq & Vm & ->).
  assert (Hv : (this v == if neg then - (q * p10 n) else q * p10 n)%Q).
  { rewrite Ev, Qcmult_this, pow10_this, Vm. destruct neg; ring. }
  destruct (sval_txt q n (q * p10 n) m v neg Hq Hn ltac:(reflexivity) Hv P) as (u & U & E).
  apply (signed_ok neg _ u v U). rewrite Hv. destruct neg; rewrite E; reflexivity.
Qed.
(** numbers of 128 bits *)
Lemma fits_repr v : fits128 v -> repr 128 (this v).
Proof. intros (m & e & H & ->). exists m, e. split; [exact H|]. rewrite Qcmult_this, ZQ_this. unfold Q2Qc. cbn [this]. rewrite Qred_correct. reflexivity. Qed.
Lemma sci_exact s m n v z : sci_means s m n v -> Z.abs n <= 2 ^ 128 -> fits128 m -> fits128 (pow10 n) -> fits128 v -> v = ZQ z ->
  isReal (sci s) = true /\ real_val (sci s) = Some v.
Proof.
  intros (a & e & ex & -> & He & Hm & Hd & Hx & Ev) Hn Fm Fn Fv Ez.
  destruct (sci_eval a e ex n m Hm Hd He Hx) as (neg & q & Hq & Vm & ->).
  apply fits_repr in Fm. apply fits_repr in Fn. apply fits_repr in Fv.
  assert (Hv : (this v == if neg then - (q * p10 n) else q * p10 n)%Q).
  { rewrite Ev, Qcmult_this, pow10_this, Vm. destruct neg; ring. }
  assert (Rq : repr 128 q). { destruct neg; [|now apply (repr_eq 128 (this m))]. apply (repr_eq 128 (- this m)); [rewrite Vm; ring|]. now apply repr_opp. }
  assert (Rw : repr 128 (q * p10 n)). { destruct neg; [|now apply (repr_eq 128 (this v))]. apply (repr_eq 128 (- this v)); [rewrite Hv; ring|]. now apply repr_opp. }
  assert (Rn : repr 128 (p10 n)) by (apply (repr_eq 128 (this (pow10 n))); [apply pow10_this|exact Fn]).
  assert (Es : (sval q n == q * p10 n)%Q).
  { unfold sval. rewrite exp_exact by exact Hn. unfold rn128.
    transitivity (rn 128 (q * p10 n)); [apply rn_eq; [lia|]|now apply rn_exact].
    rewrite (rn_exact 128 ltac:(lia) q Rq), (rn_exact 128 ltac:(lia) _ Rn). reflexivity. }
  assert (Ew : (q * p10 n == inject_Z (Z.abs z))%Q).
  { pose proof (p10_pos n). rewrite <- (abs_signed neg (this v) (q * p10 n)); [|apply Qmult_le_0_compat; lra|exact Hv].
    rewrite Ez, ZQ_this. reflexivity. }
  destruct (int_txt (sval q n) (Z.abs z) ltac:(lia)) as (u & U & E); [now rewrite Es|].
  apply (signed_ok neg _ u v U). rewrite Hv. destruct neg; rewrite E, Ew; reflexivity.
Qed.
(** ** numbers nearer to zero than 10^-8 are printed with an exponent *)
Lemma gtxt_tiny q : (0 < q)%Q -> (q < p10 (-6))%Q -> In "e"%char (gtxt q).
Proof.
  intros P H. destruct (dmag_ok q P) as [D1 D2]. assert (Dm : dmag q - 1 < -6) by (apply p10_lt_inv; lra).
  unfold gtxt. set (x := dmag q - 1) in *.
  destruct (Qeven (q * p10 (16 - x)) =? 10 ^ 17); cbv iota zeta beta;
    (match goal with |- context [if ?b then _ else _] => replace b with false by lia end); cbv iota;
    apply in_or_app; right; left; reflexivity.
Qed.
Lemma exp10_tiny q : (0 < q)%Q -> (q < p10 (-7) - p10 (-46))%Q -> exp10 q < -6.
Proof.
  intros P H. destruct (dmag_ok q P) as [D1 D2]. pose proof (p10_pos (-46)).
  assert (Dm : dmag q - 1 < -7) by (apply p10_lt_inv; lra).
  destruct (exp10_cases q) as [ -> |[ -> Hc]]; [lia|].
  assert (dmag q <> -7); [|lia]. intros Ed. rewrite Ed in Hc. change (40 - -7) with 47 in Hc.
  assert (Le : Qeven (q * p10 47) <= Qeven (inject_Z (10 ^ 40 - 1))).
  { apply Qeven_mono. apply Qle_trans with ((p10 (-7) - p10 (-46)) * p10 47)%Q; [apply Qmult_le_r; [apply p10_pos|lra]|].
    vm_compute; discriminate. }
  rewrite (Qeven_Z (10 ^ 40 - 1) (inject_Z _)) in Le by reflexivity. lia.
Qed.
Lemma with_e_no_numeral t : In "e"%char t -> isReal t = false /\ real_val t = None.
Proof.
  intros H. assert (R : isReal t = false).
  { destruct (isReal t) eqn:E; [|reflexivity]. pose proof (real_not_e t E _ H) as X. discriminate X. }
  split; [exact R|]. destruct (real_val t) eqn:V; [|reflexivity]. apply real_val_isReal in V. congruence.
Qed.
Lemma sci_tiny s m n v : sci_means s m n v -> Z.abs n <= 2 ^ 128 -> v <> 0%Qc -> (Qcabs v < pow10 (-8))%Qc ->
  isReal (sci s) = false /\ real_val (sci s) = None.
Proof.
  intros (a & e & ex & -> & He & Hm & Hd & Hx & Ev) Hn V0 Vs.
  destruct (sci_eval a e ex n m Hm Hd He Hx) as (neg & q & Hq & Vm & ->). apply with_e_no_numeral.
  assert (Hv : (this v == if neg then - (q * p10 n) else q * p10 n)%Q).
  { rewrite Ev, Qcmult_this, pow10_this, Vm. destruct neg; ring. }
  pose proof (p10_pos n) as Pn. assert (W0 : (0 <= q * p10 n)%Q) by (apply Qmult_le_0_compat; lra).
  unfold Qclt in Vs. rewrite Qcabs_this, (abs_signed neg _ _ W0 Hv), pow10_this in Vs.
  pose proof (sval_near q n Hq Hn) as N. set (s := sval q n) in *. clearbody s. set (w := (q * p10 n)%Q) in *. clearbody w.
  assert (Wp : (0 < w)%Q).
  { apply Qle_lt_or_eq in W0. destruct W0 as [W0|W0]; [exact W0|]. exfalso. apply V0. apply Qc_eq_this. rewrite Hv.
    change (this 0%Qc) with 0%Q. destruct neg; lra. }
  destruct ulp_small as [U0 U1]. change (inject_Z (10 ^ 38)) with (100000000000000000000000000000000000000)%Q in U1.
  assert (X : (w * ulp <= w * (1 # 100))%Q). { rewrite !(Qmult_comm w). apply Qmult_le_compat_r; lra. }
  apply Qabs_both in N. change (p10 (-8)) with (1 # 100000000)%Q in Vs.
  assert (S0 : (0 < s)%Q) by lra. assert (S1 : (s < 2 # 100000000)%Q) by lra.
  assert (Hin : In "e"%char (realtxt s)).
  { unfold realtxt. destruct (Qeq_bool s (inject_Z (Qfloor s))) eqn:Ei.
    - exfalso. apply Qeq_bool_iff in Ei. assert (F : Qfloor s = 0) by (apply Qfloor_uniq; change (inject_Z 0) with 0%Q; lra).
      rewrite F in Ei. change (inject_Z 0) with 0%Q in Ei. lra.
    - assert (exp10 s < -6). { apply exp10_tiny; [exact S0|]. apply Qlt_trans with (2 # 100000000)%Q; [exact S1|]. vm_compute; reflexivity. }
      replace ((-6 <=? exp10 s) && (exp10 s <=? 6)) with false by lia. apply gtxt_tiny; [exact S0|].
      apply Qlt_trans with (2 # 100000000)%Q; [exact S1|]. vm_compute; reflexivity. }
  destruct neg; cbn [signed]; [now right|exact Hin].
Qed.
