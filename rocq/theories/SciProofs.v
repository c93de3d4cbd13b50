(** Proofs about scientific notation: reading decimal texts and printing rationals. *)
From Coq Require Import QArith Qcanon Qround Qabs Qpower Lia Lqa ZifyBool ZifyNat.
From Verif Require Import Base UtilModel UtilSpec UtilProofs UtilProofs2 NumModel RoundModel SciModel Sem OpProofs.
Open Scope Z_scope.
Local Notation Q := QArith_base.Q.

(** ** sequences of digits *)
Lemma nval_num s : nval s = num_of s. Proof. reflexivity. Qed.
Lemma fold_num s : forall a, fold_left (fun a c => a * 10 + digit_of c) s a = a * 10 ^ zlen s + num_of s.
Proof.
  unfold num_of. induction s as [|c s IH]; intros a; unfold zlen in *; cbn [fold_left length].
  - rewrite Z.pow_0_r. lia.
  - rewrite (IH (a * 10 + digit_of c)), (IH (0 * 10 + digit_of c)), Nat2Z.inj_succ, Z.pow_succ_r by lia. ring.
Qed.
Lemma num_app a b : num_of (a ++ b) = num_of a * 10 ^ zlen b + num_of b.
Proof. unfold num_of at 1. rewrite fold_left_app. rewrite fold_num. reflexivity. Qed.
Lemma num_cons c s : num_of (c :: s) = digit_of c * 10 ^ zlen s + num_of s.
Proof. unfold num_of at 1. cbn [fold_left]. rewrite fold_num. lia. Qed.
Lemma num_nonneg s : Forall digitC s -> 0 <= num_of s.
Proof.
  induction 1 as [|c s D _ IH]; [reflexivity|]. rewrite num_cons. unfold digitC, digit_of in *.
  assert (0 <= 10 ^ zlen s) by (apply Z.pow_nonneg; lia). nia.
Qed.
Lemma num_zeros n : num_of (repeat "0"%char n) = 0.
Proof. induction n as [|n IH]; [reflexivity|]. cbn [repeat]. rewrite num_cons, IH. reflexivity. Qed.
Lemma digits_inv s : forall a z, digits_val s a = Some z -> Forall digitC s /\ z = fold_left (fun a c => a * 10 + digit_of c) s a.
Proof.
  induction s as [|c s IH]; intros a z; cbn [digits_val fold_left].
  - intros [= <-]. split; [constructor|reflexivity].
  - destruct (_ && _)%bool eqn:D; [|discriminate]. intros H. destruct (IH _ _ H) as [F E]. split; [|exact E].
    constructor; [|exact F]. apply andb_true_iff in D. destruct D as [D1 D2].
    apply Nat.leb_le in D1. apply Nat.leb_le in D2. split; assumption.
Qed.
Lemma digits_val_ok s : Forall digitC s -> digits_val s 0 = Some (num_of s).
Proof. intros F. now apply digits_val_num. Qed.
Lemma digits_val_iff s z : digits_val s 0 = Some z <-> Forall digitC s /\ z = num_of s.
Proof. split; [intros H; now apply digits_inv in H|]. intros [F ->]. now apply digits_val_ok. Qed.
Lemma digitC_dot c : digitC c -> aeq c "."%char = false.
Proof. intros D. destruct (aeq c "."%char) eqn:E; [|reflexivity]. apply Ascii.eqb_eq in E. subst c. unfold digitC in D. cbn in D. lia. Qed.
Lemma split_dot_app a b : Forall digitC a -> split_dot (a ++ "."%char :: b) = Some (a, b).
Proof.
  induction 1 as [|c s D _ IH]; cbn [app split_dot]; [reflexivity|].
  pose proof (digitC_dot c D) as N. unfold aeq in N. rewrite N, IH. reflexivity.
Qed.
Lemma split_dot_inv s : forall a b, split_dot s = Some (a, b) -> s = a ++ "."%char :: b.
Proof.
  induction s as [|c s IH]; intros a b; cbn [split_dot]; [discriminate|].
  destruct (Ascii.eqb c ".") eqn:E.
  - intros [= <- <-]. apply Ascii.eqb_eq in E. now subst c.
  - destruct (split_dot s) as [[x y]|]; cbn [option_map fst snd]; [|discriminate]. intros [= <- <-].
    cbn [app]. now rewrite <- (IH x y).
Qed.
Lemma cut_digits a : Forall digitC a -> cut a = (a, []).
Proof. induction 1 as [|c s D _ IH]; cbn [cut]; [reflexivity|]. now rewrite (digitC_dot c D), IH. Qed.
Lemma cut_app a b : Forall digitC a -> cut (a ++ "."%char :: b) = (a, b).
Proof. induction 1 as [|c s D _ IH]; cbn [app cut]; [reflexivity|]. now rewrite (digitC_dot c D), IH. Qed.

(** ** decimal texts *)
(** an unsigned decimal text and its value *)
Inductive udecimal : str -> Q -> Prop :=
| ud_int ds : ds <> [] -> Forall digitC ds -> udecimal ds (inject_Z (num_of ds))
| ud_dot ds es : Forall digitC ds -> Forall digitC es ->
    udecimal (ds ++ "."%char :: es) (inject_Z (num_of (ds ++ es)) * p10 (- zlen es)).
Definition undash (s : str) : Prop := match s with c :: _ => c <> "-"%char | [] => True end.
Lemma digitC_dash c : digitC c -> c <> "-"%char.
Proof. intros D ->. unfold digitC in D. cbn in D. lia. Qed.
Lemma ud_undash s q : udecimal s q -> undash s.
Proof.
  intros [ds N F|ds es F G]; (destruct F as [|c r D F]; [try congruence; try exact I|now apply digitC_dash]).
Qed.
Lemma p10_pos n : (0 < p10 n)%Q. Proof. apply Qpower_0_lt. reflexivity. Qed.
Lemma p10_add a b : (p10 (a + b) == p10 a * p10 b)%Q. Proof. apply Qpower_plus. discriminate. Qed.
Lemma p10_opp a : (p10 a * p10 (- a) == 1)%Q. Proof. rewrite <- p10_add, Z.add_opp_diag_r. reflexivity. Qed.
Lemma p10_Z n : 0 <= n -> (p10 n == inject_Z (10 ^ n))%Q.
Proof. intros H. unfold p10. rewrite <- (Zpower_Qpower 10 n) by exact H. reflexivity. Qed.
Lemma ud_nonneg s q : udecimal s q -> (0 <= q)%Q.
Proof.
  intros [ds N F|ds es F G].
  - change 0%Q with (inject_Z 0). rewrite <- Zle_Qle. now apply num_nonneg.
  - apply Qmult_le_0_compat; [|apply Qlt_le_weak, p10_pos]. change 0%Q with (inject_Z 0). rewrite <- Zle_Qle.
    apply num_nonneg. apply Forall_app. split; assumption.
Qed.
Lemma dot_no_digits a b z : digits_val (a ++ "."%char :: b) z = None.
Proof.
  revert z. induction a as [|c a IH]; intros z; cbn [app digits_val]; [reflexivity|].
  destruct (_ && _)%bool; [apply IH|reflexivity].
Qed.
Lemma ZQ_this z : (this (ZQ z) == inject_Z z)%Q. Proof. apply Qred_correct. Qed.
Lemma Qc_div_p10 z n : 0 <= n -> (this (ZQ z / ZQ (10 ^ n)) == inject_Z z * p10 (- n))%Q.
Proof.
  intros H. unfold Qcdiv, Qcmult, Qcinv, Q2Qc. cbn [this].
  rewrite !Qred_correct. rewrite !ZQ_this. rewrite <- (p10_Z n H). pose proof (p10_opp n) as E. pose proof (p10_pos n) as P.
  assert (N : ~ (p10 n == 0)%Q) by lra. setoid_replace (/ p10 n)%Q with (p10 (- n)); [reflexivity|].
  rewrite <- (Qmult_1_l (/ p10 n)). rewrite <- E. field. exact N.
Qed.
Lemma dec_val_ok ds es : Forall digitC ds -> Forall digitC es ->
  exists v, dec_val (ds ++ "."%char :: es) = Some v /\ (this v == inject_Z (num_of (ds ++ es)) * p10 (- zlen es))%Q.
Proof.
  intros F G. unfold dec_val. rewrite split_dot_app by exact F. rewrite !digits_val_ok by assumption.
  eexists. split; [reflexivity|]. unfold Qcplus. cbn [this Q2Qc]. rewrite Qred_correct.
  assert (H : 0 <= zlen es) by (unfold zlen; lia).
  rewrite Qc_div_p10 by exact H. rewrite ZQ_this, num_app.
  rewrite inject_Z_plus, inject_Z_mult, <- (p10_Z _ H). pose proof (p10_opp (zlen es)) as E.
  rewrite Qmult_plus_distr_l. rewrite <- Qmult_assoc, E. ring.
Qed.
Lemma ud_real_val s q : udecimal s q -> exists v, real_val s = Some v /\ (this v == q)%Q.
Proof.
  intros U. pose proof (ud_undash s q U) as N. destruct U as [ds Nz F|ds es F G].
  - exists (ZQ (num_of ds)). split; [|apply ZQ_this]. unfold real_val. now rewrite int_val_plain.
  - destruct (dec_val_ok ds es F G) as (v & D & E). exists v. split; [|exact E].
    unfold real_val, int_val. destruct (ds ++ "."%char :: es) as [|c r] eqn:S. { destruct ds; discriminate. }
    cbn in N. assert (X : Ascii.eqb c "-" = false) by (apply Ascii.eqb_neq; exact N). rewrite X.
    replace (digits_val (c :: r) 0) with (@None Z) by (rewrite <- S; symmetry; apply dot_no_digits). exact D.
Qed.
Lemma Qcopp_this v : (this (- v)%Qc == - this v)%Q. Proof. apply Qred_correct. Qed.
Lemma ud_real_val_neg s q : udecimal s q -> exists v, real_val ("-"%char :: s) = Some v /\ (this v == - q)%Q.
Proof.
  intros U. destruct U as [ds Nz F|ds es F G].
  - exists (ZQ (- num_of ds)). split; [|rewrite ZQ_this, inject_Z_opp; reflexivity].
    unfold real_val, int_val. change (Ascii.eqb "-" "-") with true. cbv iota. rewrite digits_val_ok by exact F.
    destruct ds; [congruence|reflexivity].
  - destruct (dec_val_ok ds es F G) as (v & D & E). exists (- v)%Qc. split; [|rewrite Qcopp_this, E; reflexivity].
    unfold real_val, int_val. change (Ascii.eqb "-" "-") with true. cbv iota. rewrite dot_no_digits.
    rewrite D. destruct (ds ++ "."%char :: es) eqn:S; [destruct ds; discriminate|reflexivity].
Qed.
(** and nothing else has a value *)
Lemma Qc_eq_this (x y : Qc) : (this x == this y)%Q -> x = y.
Proof. apply Qc_is_canon. Qed.
Lemma dec_val_inv s v : dec_val s = Some v -> exists q, udecimal s q /\ (this v == q)%Q /\ In "."%char s.
Proof.
  intros H. unfold dec_val in H. destruct (split_dot s) as [[a b]|] eqn:S; [|discriminate]. apply split_dot_inv in S. subst s.
  destruct (digits_val a 0) as [x|] eqn:A; [|discriminate]. destruct (digits_val b 0) as [y|] eqn:B; [|discriminate].
  apply digits_val_iff in A. apply digits_val_iff in B. destruct A as [F ->]. destruct B as [G ->].
  eexists. split; [apply ud_dot; assumption|]. split; [|apply in_elt].
  destruct (dec_val_ok a b F G) as (v' & D & E). unfold dec_val in D. rewrite split_dot_app in D by exact F.
  rewrite !digits_val_ok in D by assumption. assert (v' = v) by congruence. subst v'. exact E.
Qed.
Lemma int_val_inv s z : int_val s = Some z ->
  (s <> [] /\ Forall digitC s /\ z = num_of s) \/ (exists r, s = "-"%char :: r /\ r <> [] /\ Forall digitC r /\ z = - num_of r).
Proof.
  unfold int_val. destruct s as [|c r]; [discriminate|]. destruct (Ascii.eqb c "-") eqn:E.
  - apply Ascii.eqb_eq in E. subst c. destruct r as [|d r]; [discriminate|]. intros H. right. exists (d :: r).
    destruct (digits_val (d :: r) 0) as [y|] eqn:D; [|discriminate]. apply digits_val_iff in D. destruct D as [F ->].
    injection H as <-. split; [reflexivity|]. split; [discriminate|]. split; [exact F|reflexivity].
  - intros H. left. apply digits_val_iff in H. split; [discriminate|exact H].
Qed.
Lemma real_val_inv s v : real_val s = Some v ->
  (exists q, udecimal s q /\ (this v == q)%Q) \/ (exists r q, s = "-"%char :: r /\ udecimal r q /\ (this v == - q)%Q).
Proof.
  unfold real_val. destruct (int_val s) as [z|] eqn:Iv.
  - intros [= <-]. apply int_val_inv in Iv. destruct Iv as [(N & F & ->)|(r & -> & N & F & ->)].
    + left. eexists. split; [now apply ud_int|apply ZQ_this].
    + right. eexists r, _. split; [reflexivity|]. split; [now apply ud_int|]. rewrite ZQ_this, inject_Z_opp. reflexivity.
  - clear Iv. destruct s as [|c r]; [discriminate|]. destruct (Ascii.eqb c "-") eqn:E.
    + apply Ascii.eqb_eq in E. subst c. destruct (dec_val r) as [w|] eqn:D; [|discriminate]. intros [= <-].
      apply dec_val_inv in D. destruct D as (q & U & W & _). right. exists r, q. split; [reflexivity|]. split; [exact U|].
      rewrite Qcopp_this, W. reflexivity.
    + intros H. apply dec_val_inv in H. destruct H as (q & U & W & _). left. exists q. split; assumption.
Qed.
Lemma ud_body s q : udecimal s q -> RealBody s.
Proof. intros [ds N F|ds es F G]; constructor; assumption. Qed.
Lemma ud_nonempty s q : udecimal s q -> s <> [].
Proof. intros [ds N F|ds es F G]; [exact N|]. destruct ds; discriminate. Qed.
Lemma ud_isReal s q : udecimal s q -> isReal s = true /\ isReal ("-"%char :: s) = true.
Proof.
  intros U. pose proof (ud_body s q U) as B. pose proof (ud_nonempty s q U) as N. split; apply isReal_iff.
  - split; [exact N|]. now left.
  - split; [discriminate|]. right. exists "-"%char, s. split; [reflexivity|]. split; [now left|exact B].
Qed.
Lemma real_val_isReal s v : real_val s = Some v -> isReal s = true.
Proof.
  intros H. apply real_val_inv in H. destruct H as [(q & U & _)|(r & q & -> & U & _)]; apply (ud_isReal _ _ U).
Qed.

(** ** reading the mantissa and the exponent *)
Lemma ud_set s q : udecimal s q -> (exists c, In c s /\ digitC c) -> exists q', (q' == q)%Q /\
  set_str s = Some (false, q') /\ set_str ("-"%char :: s) = Some (true, q').
Proof.
  intros U Hd.
  assert (C : exists a b q', cut s = (a, b) /\ a ++ b <> [] /\ q' = (inject_Z (nval (a ++ b)) * p10 (- zlen b))%Q /\ (q' == q)%Q).
  { destruct U as [ds N F|ds es F G].
    - exists ds, []. eexists. rewrite cut_digits by exact F. rewrite app_nil_r. split; [reflexivity|]. split; [exact N|].
      split; [reflexivity|]. change (p10 (- zlen [])) with 1%Q. rewrite Qmult_1_r. reflexivity.
    - exists ds, es. eexists. rewrite cut_app by exact F. split; [reflexivity|]. split; [|split; reflexivity].
      intros E. apply app_eq_nil in E. destruct E as [-> ->]. destruct Hd as (c & [<-|[]] & D). unfold digitC in D. cbn in D. lia. }
  destruct C as (a & b & q' & C & N & Eq & Hq). exists q'. split; [exact Hq|].
  assert (M : match a ++ b with [] => None | _ :: _ => Some q' end = Some q') by (destruct (a ++ b); congruence).
  pose proof (ud_nonempty s q U) as Ns. pose proof (ud_undash s q U) as Hs. split.
  - unfold set_str. destruct s as [|c r] eqn:S; [congruence|].
    assert (X : is_sign c = false).
    { unfold is_sign. destruct (aeq c "-" || aeq c "+") eqn:X; [|reflexivity]. exfalso.
      apply orb_true_iff in X. clear - U X.
      assert (K : digitC c \/ c = "."%char).
      { inversion U as [ds N F E|ds es F G E].
        - subst. inversion F; subst. now left.
        - destruct F as [|d ds D F]; cbn in E; injection E as <- _; [now right|now left]. }
      destruct X as [X|X]; apply Ascii.eqb_eq in X; subst c; destruct K as [K|K]; try discriminate; unfold digitC in K; cbn in K; lia. }
    rewrite X, C. destruct (a ++ b) as [|x y]; [congruence|]. now rewrite Eq.
  - unfold set_str. change (is_sign "-") with true. cbv iota. change (aeq "-" "-") with true. rewrite C.
    destruct (a ++ b) as [|x y]; [congruence|]. now rewrite Eq.
Qed.

(** ** printing with a fixed number of decimals *)
Lemma Idec_nat z : 0 <= z -> Idec z <> [] /\ Forall digitC (Idec z) /\ num_of (Idec z) = z.
Proof.
  intros H. pose proof (int_val_Idec z) as E. apply int_val_inv in E. destruct E as [(N & F & E)|(r & S & N & F & E)].
  - split; [exact N|]. split; [exact F|]. now symmetry.
  - pose proof (num_nonneg r F). assert (Z0 : z = 0) by lia. rewrite Z0 in S. exfalso. revert S. clear. intros S. apply (f_equal (hd nul)) in S. discriminate S.
Qed.
Lemma zeros_digits n : Forall digitC (repeat "0"%char n).
Proof. apply Forall_forall. intros x Hx. apply repeat_spec in Hx. subst x. unfold digitC. cbn. lia. Qed.
Lemma Forall_firstn {A} (P : A -> Prop) n l : Forall P l -> Forall P (firstn n l).
Proof. intros H. rewrite <- (firstn_skipn n l) in H. now apply Forall_app in H. Qed.
Lemma Forall_skipn {A} (P : A -> Prop) n l : Forall P l -> Forall P (skipn n l).
Proof. intros H. rewrite <- (firstn_skipn n l) in H. now apply Forall_app in H. Qed.
Lemma fix_ok d k : (0 < d)%nat -> 0 <= k -> exists a b, fixtxt d k = a ++ "."%char :: b /\ a <> [] /\
  Forall digitC a /\ Forall digitC b /\ length b = d /\ num_of (a ++ b) = k.
Proof.
  intros Hd Hk. destruct (Idec_nat k Hk) as (N & F & V). unfold fixtxt. set (t := repeat _ _ ++ Idec k).
  assert (Lt : (S d <= length t)%nat). { unfold t. rewrite app_length, repeat_length. lia. }
  assert (Ft : Forall digitC t). { apply Forall_app. split; [apply zeros_digits|exact F]. }
  assert (Vt : num_of t = k). { unfold t. rewrite num_app, num_zeros. lia. }
  clearbody t. destruct d as [|d]; [lia|]. exists (firstn (length t - S d) t), (skipn (length t - S d) t).
  split; [reflexivity|]. split.
  { intros E. apply (f_equal (@length ascii)) in E. rewrite firstn_length in E. cbn [length] in E. lia. }
  split; [now apply Forall_firstn|]. split; [now apply Forall_skipn|]. split; [rewrite skipn_length; lia|].
  now rewrite firstn_skipn.
Qed.
Lemma drop0_ok r y : exists n r', r = repeat "0"%char n ++ r' /\ drop0 (r ++ "."%char :: y) = r' ++ "."%char :: y /\
  match r' with c :: _ => c <> "0"%char | [] => True end.
Proof.
  induction r as [|c r (n & r' & E & D & H)]; cbn [app drop0].
  - exists 0%nat, []. repeat split.
  - destruct (aeq c "0"%char) eqn:Z.
    + apply Ascii.eqb_eq in Z. subst c. exists (S n), r'. rewrite E at 1. split; [reflexivity|]. split; [exact D|exact H].
    + exists 0%nat, (c :: r). split; [reflexivity|]. split; [reflexivity|]. now apply Ascii.eqb_neq in Z.
Qed.
Lemma rev_repeat {A} (x : A) n : rev (repeat x n) = repeat x n.
Proof.
  induction n as [|n IH]; [reflexivity|]. cbn [repeat rev]. rewrite IH. change (x :: repeat x n) with (repeat x (S n)).
  replace (S n) with (n + 1)%nat by lia. rewrite repeat_app. reflexivity.
Qed.
Lemma strip_ok a b : a <> [] -> Forall digitC a -> Forall digitC b ->
  exists q, udecimal (strip (a ++ "."%char :: b)) q /\ (q == inject_Z (num_of (a ++ b)) * p10 (- zlen b))%Q.
Proof.
  intros N F G. unfold strip. rewrite rev_app_distr. cbn [rev]. rewrite <- app_assoc. cbn [app].
  destruct (drop0_ok (rev b) (rev a)) as (n & r' & E & -> & H).
  assert (B : b = rev r' ++ repeat "0"%char n). { rewrite <- (rev_involutive b), E, rev_app_distr, rev_repeat. reflexivity. }
  assert (Gr : Forall digitC (rev r')). { rewrite B in G. now apply Forall_app in G. }
  assert (Z : zlen b = zlen (rev r') + Z.of_nat n). { rewrite B. unfold zlen. rewrite app_length, repeat_length. lia. }
  assert (V : num_of (a ++ b) = num_of (a ++ rev r') * 10 ^ Z.of_nat n).
  { rewrite B, app_assoc, num_app, num_zeros. unfold zlen. rewrite repeat_length. lia. }
  assert (Eq : (inject_Z (num_of (a ++ rev r')) * p10 (- zlen (rev r')) == inject_Z (num_of (a ++ b)) * p10 (- zlen b))%Q).
  { rewrite V, Z, inject_Z_mult, <- p10_Z by lia. replace (- (zlen (rev r') + Z.of_nat n)) with (- zlen (rev r') + - Z.of_nat n) by lia.
    rewrite p10_add. pose proof (p10_opp (Z.of_nat n)) as P.
    setoid_replace (inject_Z (num_of (a ++ rev r')) * p10 (Z.of_nat n) * (p10 (- zlen (rev r')) * p10 (- Z.of_nat n)))%Q
      with (inject_Z (num_of (a ++ rev r')) * p10 (- zlen (rev r')) * (p10 (Z.of_nat n) * p10 (- Z.of_nat n)))%Q by ring.
    rewrite P. ring. }
  destruct r' as [|c r'].
  - cbn [app dropdot]. change (aeq "." ".") with true. cbv iota. rewrite rev_involutive.
    exists (inject_Z (num_of a)). split; [now apply ud_int|]. rewrite <- Eq. cbn [rev]. rewrite app_nil_r.
    change (p10 (- zlen [])) with 1%Q. ring.
  - cbn [app dropdot]. assert (D : digitC c). { cbn [rev] in Gr. apply Forall_app in Gr. destruct Gr as [_ Gr]. now inversion Gr. }
    rewrite (digitC_dot c D). rewrite app_comm_cons, rev_app_distr. cbn [rev]. rewrite <- app_assoc. cbn [app].
    rewrite rev_involutive. eexists. split; [apply ud_dot; [exact F|exact Gr]|exact Eq].
Qed.
Lemma fixstrip_ok d k : (0 < d)%nat -> 0 <= k ->
  exists q, udecimal (strip (fixtxt d k)) q /\ (q == inject_Z k * p10 (- Z.of_nat d))%Q.
Proof.
  intros Hd Hk. destruct (fix_ok d k Hd Hk) as (a & b & -> & N & F & G & Lb & V).
  destruct (strip_ok a b N F G) as (q & U & E). exists q. split; [exact U|]. rewrite E, V. unfold zlen. now rewrite Lb.
Qed.

(** ** the decimal exponent *)
Lemma ndig_go_ok f : forall z, 0 < z -> (Z.to_nat (Z.log2 z) <= f)%nat ->
  1 <= ndig_go f z /\ 10 ^ (ndig_go f z - 1) <= z < 10 ^ ndig_go f z.
Proof.
  induction f as [|f IH]; intros z Hz Hf.
  - assert (Z.log2 z = 0) by (pose proof (Z.log2_nonneg z); lia). pose proof (Z.log2_spec z Hz) as S. rewrite H in S. cbn in S.
    cbn [ndig_go]. split; [lia|]. change (10 ^ (1 - 1)) with 1. change (10 ^ 1) with 10. lia.
  - cbn [ndig_go]. destruct (z <? 10) eqn:C.
    + split; [lia|]. change (10 ^ (1 - 1)) with 1. change (10 ^ 1) with 10. lia.
    + assert (B : 10 * (z / 10) <= z < 10 * (z / 10) + 10) by (pose proof (Z.div_mod z 10); pose proof (Z.mod_pos_bound z 10); lia).
      assert (P : 0 < z / 10) by (apply Z.div_str_pos; lia).
      assert (Lg : Z.log2 (z / 10) < Z.log2 z).
      { apply Z.log2_lt_pow2; [exact P|]. pose proof (Z.log2_spec z Hz) as [_ S]. rewrite Z.pow_succ_r in S by apply Z.log2_nonneg. lia. }
      destruct (IH (z / 10) P) as (K1 & K2 & K3). { pose proof (Z.log2_nonneg (z / 10)). lia. }
      set (n := ndig_go f (z / 10)) in *. clearbody n. split; [lia|].
      replace (1 + n - 1) with (Z.succ (n - 1)) by lia. replace (1 + n) with (Z.succ n) by lia. rewrite !Z.pow_succ_r by lia. lia.
Qed.
Lemma ndig_ok z : 0 < z -> 1 <= ndig z /\ 10 ^ (ndig z - 1) <= z < 10 ^ ndig z.
Proof. intros H. now apply ndig_go_ok. Qed.
Lemma Qceil_bounds x : (inject_Z (Qceiling x) - 1 < x <= inject_Z (Qceiling x))%Q.
Proof. unfold Qceiling. pose proof (Qfloor_bounds (- x)) as [A B]. rewrite inject_Z_opp. lra. Qed.
Lemma dmag_ok q : (0 < q)%Q -> (p10 (dmag q - 1) <= q < p10 (dmag q))%Q.
Proof.
  intros Hq. unfold dmag. destruct (Qle_bool 1 q) eqn:C.
  - apply Qle_bool_iff in C. pose proof (Qfloor_bounds q) as [A B].
    assert (P : 0 < Qfloor q). { apply Z.lt_nge. intros K. assert (inject_Z (Qfloor q) <= 0)%Q by (change 0%Q with (inject_Z 0); now rewrite <- Zle_Qle). lra. }
    destruct (ndig_ok _ P) as (K & X & Y). set (n := ndig (Qfloor q)) in *. clearbody n.
    rewrite !p10_Z by lia. split.
    + apply Qle_trans with (inject_Z (Qfloor q)); [now rewrite <- Zle_Qle|exact A].
    + apply Qlt_le_trans with (inject_Z (Qfloor q) + 1)%Q; [exact B|]. change 1%Q with (inject_Z 1). rewrite <- inject_Z_plus, <- Zle_Qle. lia.
  - assert (C' : (q < 1)%Q). { apply Qnot_le_lt. intros K. apply Qle_bool_iff in K. congruence. }
    assert (I : (q * / q == 1)%Q) by (field; lra). assert (Ip : (0 < / q)%Q) by now apply Qinv_lt_0_compat.
    assert (I1 : (1 < / q)%Q) by nra. pose proof (Qceil_bounds (/ q)) as [A B]. set (c := Qceiling (/ q)) in *. clearbody c.
    assert (P : 0 < c - 1). { apply Z.lt_nge. intros K. assert (inject_Z c <= 1)%Q by (change 1%Q with (inject_Z 1); rewrite <- Zle_Qle; lia). lra. }
    destruct (ndig_ok _ P) as (K & X & Y). set (n := ndig (c - 1)) in *. clearbody n.
    assert (Ub : (/ q <= p10 n)%Q). { rewrite p10_Z by lia. apply Qle_trans with (inject_Z c); [exact B|]. rewrite <- Zle_Qle. lia. }
    assert (Lb : (p10 (n - 1) < / q)%Q).
    { rewrite p10_Z by lia. apply Qle_lt_trans with (inject_Z (c - 1)); [now rewrite <- Zle_Qle|]. unfold Z.sub. rewrite inject_Z_plus. change (inject_Z (- (1))) with (-(1))%Q. lra. }
    replace (1 - n - 1) with (- n) by lia. replace (1 - n) with (- (n - 1)) by lia.
    pose proof (p10_opp n) as E1. pose proof (p10_opp (n - 1)) as E2. pose proof (p10_pos n). pose proof (p10_pos (- n)).
    pose proof (p10_pos (n - 1)). pose proof (p10_pos (- (n - 1))). split; nra.
Qed.

(** ** the rounded product is close to the exact one *)
Definition ulp : Q := p2 (-128).
Lemma ulp_small : (0 < ulp)%Q /\ (ulp * inject_Z (10 ^ 38) <= 1)%Q.
Proof. split; [apply p2_pos|]. unfold ulp, p2. now vm_compute. Qed.
Lemma Qabs_both a b : (Qabs a <= b)%Q -> (- b <= a /\ a <= b)%Q.
Proof. intros H. now apply Qabs_Qle_condition. Qed.
Lemma rn_near q : (0 <= q)%Q -> (q - q * ulp <= rn128 q /\ rn128 q <= q + q * ulp)%Q.
Proof.
  intros H. pose proof (rn_err 128 q) as E. apply Qabs_both in E. rewrite (Qabs_pos q H) in E.
  unfold rn128, ulp. change (Z.opp 128) with (-128) in E. lra.
Qed.
Definition sval (a : Q) (n : Z) : Q := rn128 (rn128 a * rn128 (p10 (Qeven (rn128 (inject_Z n))))).
Lemma exp_exact n : Z.abs n <= 2 ^ 128 -> Qeven (rn128 (inject_Z n)) = n.
Proof. intros H. apply Qeven_Z. apply rn_exact; [lia|]. now apply repr_Z. Qed.
Lemma sval_near a n : (0 <= a)%Q -> Z.abs n <= 2 ^ 128 ->
  (Qabs (sval a n - a * p10 n) <= a * p10 n * (5 * ulp))%Q.
Proof.
  intros Ha Hn. unfold sval. rewrite exp_exact by exact Hn. destruct ulp_small as [U0 U1].
  assert (U2 : (ulp <= 1 # 100)%Q). { assert (K : (100 <= inject_Z (10 ^ 38))%Q) by now vm_compute. nra. }
  clear U1. pose proof (p10_pos n) as Pt. destruct (rn_near a Ha) as [M1 M2]. destruct (rn_near (p10 n) ltac:(lra)) as [T1 T2].
  pose proof rn_near as RN. set (u := ulp) in *. set (m := rn128 a) in *. set (t := rn128 (p10 n)) in *. set (p := p10 n) in *. clearbody u m t p.
  assert (ML : forall x y z : Q, (0 <= x)%Q -> (y <= z)%Q -> (x * y <= x * z)%Q) by (intros x y z X Y; nra).
  pose proof (ML a u (1 # 100)%Q Ha U2) as Au. pose proof (ML p u (1 # 100)%Q ltac:(lra) U2) as Pu.
  pose proof (ML a 0 u Ha ltac:(lra))%Q as Au0. pose proof (ML p 0 u ltac:(lra) ltac:(lra))%Q as Pu0.
  assert (M0 : (0 <= m)%Q) by lra. assert (T0 : (0 <= t)%Q) by lra.
  assert (W0 : (0 <= a * p)%Q) by (pose proof (ML a 0 p Ha ltac:(lra))%Q; lra).
  assert (MT0 : (0 <= m * t)%Q) by (pose proof (ML m 0 t M0 ltac:(lra))%Q; lra).
  pose proof (ML (a * p) 0 u W0 ltac:(lra))%Q as Wu0.
  pose proof (ML (a * p * u) u (1 # 100) ltac:(lra) U2)%Q as Wuu.
  pose proof (ML (a * p * u) 0 u ltac:(lra) ltac:(lra))%Q as Wuu0.
  assert (L1 : (a * p - a * p * (2 * u) <= m * t)%Q).
  { pose proof (ML m (p - p * u) t M0 T1)%Q as X1. pose proof (ML (p - p * u) (a - a * u) m ltac:(lra) M1)%Q as X2. lra. }
  assert (L2 : (m * t <= a * p + a * p * (3 * u))%Q).
  { pose proof (ML m t (p + p * u) M0 T2)%Q as X1. pose proof (ML (p + p * u) m (a + a * u) ltac:(lra) M2)%Q as X2. lra. }
  destruct (RN (m * t)%Q MT0) as [V1 V2]. set (v := rn128 (m * t)) in *. clearbody v. set (w := (a * p)%Q) in *. clearbody w.
  set (y := (m * t)%Q) in *. clearbody y. apply Qabs_Qle_condition.
  pose proof (ML u y (w + w * (3 * u)) ltac:(lra) L2)%Q as X3. split; lra.
Qed.

(** ** printing a number that is close to a decimal *)
Lemma Qeven_close x k : (Qabs (x - inject_Z k) <= 1 # 4)%Q -> Qeven x = k.
Proof.
  intros H. apply Qabs_both in H. pose proof (Qeven_near x) as N.
  assert (A : (inject_Z (Qeven x) < inject_Z (k + 1))%Q) by (rewrite inject_Z_plus; change (inject_Z 1) with 1%Q; lra).
  assert (B : (inject_Z (k - 1) < inject_Z (Qeven x))%Q) by (unfold Z.sub; rewrite inject_Z_plus; change (inject_Z (- (1))) with (-(1))%Q; lra).
  rewrite <- Zlt_Qlt in A, B. lia.
Qed.
Lemma p10_lt_inv a b : (p10 a < p10 b)%Q -> a < b.
Proof.
  intros H. apply Z.lt_nge. intros K. replace a with (b + (a - b)) in H by lia. rewrite p10_add, (p10_Z (a - b)) in H by lia.
  assert (1 <= inject_Z (10 ^ (a - b)))%Q. { change 1%Q with (inject_Z 1). rewrite <- Zle_Qle. pose proof (Z.pow_pos_nonneg 10 (a - b)). lia. }
  pose proof (p10_pos b). nra.
Qed.
Lemma p10_le a b : a <= b -> (p10 a <= p10 b)%Q.
Proof.
  intros H. replace b with (a + (b - a)) by lia. rewrite p10_add, (p10_Z (b - a)) by lia.
  assert (1 <= inject_Z (10 ^ (b - a)))%Q. { change 1%Q with (inject_Z 1). rewrite <- Zle_Qle. pose proof (Z.pow_pos_nonneg 10 (b - a)). lia. }
  pose proof (p10_pos a). nra.
Qed.
Lemma exp10_cases q : exp10 q = dmag q \/ (exp10 q = dmag q + 1 /\ Qeven (q * p10 (40 - dmag q)) = 10 ^ 40).
Proof. unfold exp10. destruct (_ =? _) eqn:E; [right|left; reflexivity]. split; [reflexivity|]. now apply Z.eqb_eq. Qed.

(** v * 10^17 is close to the integer K *)
Section Near.
  Variables (v : Q) (K : Z).
  Hypothesis Hv : (Qabs (v * p10 17 - inject_Z K) <= 1 # 4)%Q.
  Let w : Q := (inject_Z K * p10 (- 17))%Q.
  Lemma k_int : (v == inject_Z (Qfloor v))%Q -> (inject_Z (Qfloor v) == w)%Q.
  Proof using Hv.
    intros E. assert (A : (Qabs (inject_Z (Qfloor v * 10 ^ 17) - inject_Z K) <= 1 # 4)%Q).
    { rewrite inject_Z_mult, <- p10_Z by lia. rewrite <- E. exact Hv. }
    apply Qeven_close in A. rewrite (Qeven_Z (Qfloor v * 10 ^ 17)) in A by reflexivity. subst w. rewrite <- A, inject_Z_mult, <- p10_Z by lia.
    pose proof (p10_opp 17) as P. change (Z.opp 17) with (-17) in P. set (a := p10 17) in *. set (b := p10 (-17)) in *.
    clearbody a b. rewrite <- Qmult_assoc, P. ring.
  Qed.
  Lemma int_case : 0 <= K -> (v == inject_Z (Qfloor v))%Q -> exists q, udecimal (Idec (Qfloor v)) q /\ (q == w)%Q.
  Proof using Hv.
    intros HK E. pose proof (k_int E) as W. assert (P : 0 <= Qfloor v).
    { assert (0 <= inject_Z (Qfloor v))%Q. { rewrite W. subst w. apply Qmult_le_0_compat; [|apply Qlt_le_weak, p10_pos]. change 0%Q with (inject_Z 0). now rewrite <- Zle_Qle. }
      change 0%Q with (inject_Z 0) in H. now rewrite <- Zle_Qle in H. }
    destruct (Idec_nat _ P) as (N & F & V). exists (inject_Z (num_of (Idec (Qfloor v)))). split; [now apply ud_int|]. now rewrite V.
  Qed.
  Lemma fix_case : 0 <= K -> exists q, udecimal (strip (fixtxt 17 (Qeven (v * p10 17)))) q /\ (q == w)%Q.
  Proof using Hv. intros HK. rewrite (Qeven_close _ _ Hv). apply (fixstrip_ok 17 K); lia. Qed.
  Lemma small_case : 10 ^ 10 < K < 10 ^ 23 -> exists q, udecimal (realtxt v) q /\ (q == w)%Q.
  Proof using Hv.
    intros HK. unfold realtxt. destruct (Qeq_bool v (inject_Z (Qfloor v))) eqn:E.
    { apply int_case; [lia|now apply Qeq_bool_iff]. }
    replace ((-6 <=? exp10 v) && (exp10 v <=? 6)) with true; [apply fix_case; lia|].
    assert (B : (inject_Z (10 ^ 10 + 1) <= inject_Z K /\ inject_Z K <= inject_Z (10 ^ 23 - 1))%Q) by (rewrite <- !Zle_Qle; lia).
    pose proof (Qabs_both _ _ Hv) as [H1 H2]. pose proof (p10_opp 17) as P17.
    assert (Lo : (p10 (-7) <= v)%Q). { change (p10 (-7)) with (1 # 10000000)%Q. change (p10 17) with (100000000000000000%Q) in *.
      change (inject_Z (10 ^ 10 + 1)) with (10000000001%Q) in B. lra. }
    assert (Hi : (v * p10 17 <= inject_Z (10 ^ 23 - 1) + (1 # 4))%Q) by lra.
    assert (Pv : (0 < v)%Q) by (pose proof (p10_pos (-7)); lra).
    assert (Hi' : (v < p10 6)%Q). { change (p10 6) with 1000000%Q. change (p10 17) with (100000000000000000%Q) in Hi.
      change (inject_Z (10 ^ 23 - 1)) with (99999999999999999999999%Q) in Hi. lra. }
    destruct (dmag_ok v Pv) as [D1 D2].
    assert (E1 : -7 < dmag v) by (apply p10_lt_inv; lra). assert (E2 : dmag v - 1 < 6) by (apply p10_lt_inv; lra).
    destruct (exp10_cases v) as [ -> |[ -> Hc]]; [lia|].
    assert (dmag v <> 6); [|lia]. intros Ed. rewrite Ed in Hc. change (40 - 6) with 34 in Hc.
    assert (Le : Qeven (v * p10 34) <= Qeven (inject_Z (10 ^ 40 - 1))).
    { apply Qeven_mono. change 34 with (17 + 17) at 1. rewrite p10_add, Qmult_assoc.
      apply Qle_trans with ((inject_Z (10 ^ 23 - 1) + (1 # 4)) * p10 17)%Q; [apply Qmult_le_r; [apply p10_pos|exact Hi]|]. now vm_compute. }
    rewrite (Qeven_Z (10 ^ 40 - 1) (inject_Z _)) in Le by reflexivity. lia.
  Qed.
End Near.

(** ** numbers of at most 17 significant digits *)
Lemma big_case v k j : 0 <= k < 10 ^ 17 -> let w := (inject_Z k * p10 j)%Q in
  (p10 6 <= w)%Q -> (w < p10 17)%Q -> (Qabs (v - w) <= w * (5 * ulp))%Q ->
  exists q, udecimal (realtxt v) q /\ (q == w)%Q.
Proof.
  intros Hk w W6 W17 Hv. pose proof (p10_pos j) as Pj. pose proof (p10_pos 6) as P6.
  assert (Pw : (0 < w)%Q) by lra. destruct ulp_small as [U0 U1].
  assert (U2 : (w * (5 * ulp) * inject_Z (10 ^ 20) <= 1 # 5)%Q).
  { assert (A : (p10 17 * (5 * ulp) * inject_Z (10 ^ 20) <= 1 # 5)%Q) by now vm_compute.
    assert (B : (w * (5 * ulp * inject_Z (10 ^ 20)) <= p10 17 * (5 * ulp * inject_Z (10 ^ 20)))%Q).
    { apply Qmult_le_compat_r; [lra|]. assert (0 < inject_Z (10 ^ 20))%Q by now vm_compute. nra. }
    rewrite !Qmult_assoc in B. rewrite !Qmult_assoc in A. rewrite !Qmult_assoc. lra. }
  destruct (dmag_ok w Pw) as [W1 W2]. set (e' := dmag w) in *.
  assert (E7 : 7 <= e'). { assert (6 < e') by (apply p10_lt_inv; lra). lia. }
  assert (E17 : e' <= 17). { assert (e' - 1 < 17) by (apply p10_lt_inv; lra). lia. }
  (* the last digit *)
  assert (J : e' - 17 <= j).
  { assert (A : (p10 (e' - 1) < p10 (17 + j))%Q); [|apply p10_lt_inv in A; lia].
    apply Qle_lt_trans with w; [exact W1|]. unfold w. rewrite p10_add. apply Qmult_lt_r; [exact Pj|].
    rewrite p10_Z by lia. rewrite <- Zlt_Qlt. lia. }
  set (D := (w * (5 * ulp))%Q) in *. clearbody D.
  assert (D0 : (- D <= v - w /\ v - w <= D)%Q) by now apply Qabs_both.
  assert (D0' : (0 <= D)%Q) by lra.
  change (inject_Z (10 ^ 20)) with (100000000000000000000)%Q in U2. clear U1 U0.
  (* as a multiple of 10^-17 *)
  pose (K := k * 10 ^ (j + 17)).
  assert (Kw : (inject_Z K * p10 (-17) == w)%Q).
  { unfold K, w. rewrite inject_Z_mult, <- p10_Z by lia. rewrite <- Qmult_assoc, <- p10_add. now replace (j + 17 + -17) with j by lia. }
  assert (K0 : 0 <= K) by (unfold K; apply Z.mul_nonneg_nonneg; [lia|apply Z.pow_nonneg; lia]).
  assert (Kv : (Qabs (v * p10 17 - inject_Z K) <= 1 # 4)%Q).
  { assert (A : (w * p10 17 == inject_Z K)%Q). { rewrite <- Kw, <- Qmult_assoc, <- p10_add. change (p10 (-17 + 17)) with 1%Q. ring. }
    rewrite <- A. change (p10 17) with (100000000000000000)%Q. apply Qabs_Qle_condition. split; lra. }
  unfold realtxt. destruct (Qeq_bool v (inject_Z (Qfloor v))) eqn:Ev.
  { apply Qeq_bool_iff in Ev. destruct (int_case v K Kv K0 Ev) as (q & U & Eq). exists q. split; [exact U|]. now rewrite Eq. }
  destruct (_ && _).
  { destruct (fix_case v K Kv K0) as (q & U & Eq). exists q. split; [exact U|]. now rewrite Eq. }
  clear Ev Kv Kw K0 K.
  (* the first digits *)
  pose (k0 := k * 10 ^ (j - (e' - 17))).
  assert (W : (w == inject_Z k0 * p10 (e' - 17))%Q).
  { unfold k0, w. rewrite inject_Z_mult, <- p10_Z by lia. rewrite <- Qmult_assoc, <- p10_add. now replace (j - (e' - 17) + (e' - 17)) with j by lia. }
  assert (Hk0 : k0 < 10 ^ 17).
  { rewrite Zlt_Qlt, <- p10_Z by lia. pose proof (p10_pos (e' - 17)) as P. apply Qmult_lt_r with (z := p10 (e' - 17)); [exact P|].
    rewrite <- W, <- p10_add. now replace (17 + (e' - 17)) with e' by lia. }
  assert (Pv : (0 < v)%Q). { change (p10 6) with 1000000%Q in *. lra. }
  destruct (dmag_ok v Pv) as [V1 V2]. unfold gtxt. set (e := dmag v) in *.
  assert (Ee : e <= e').
  { assert (A : (v < p10 e')%Q); [|assert (e - 1 < e') by (apply p10_lt_inv; lra); lia].
    assert (L : (w <= p10 e' - p10 (e' - 17))%Q).
    { rewrite W. replace (p10 e' - p10 (e' - 17))%Q with (p10 (17 + (e' - 17)) - p10 (e' - 17))%Q by (do 2 f_equal; lia).
      rewrite p10_add. setoid_replace (p10 17 * p10 (e' - 17) - p10 (e' - 17))%Q with ((p10 17 - 1) * p10 (e' - 17))%Q by ring.
      apply Qmult_le_r; [apply p10_pos|]. apply Qle_trans with (inject_Z (10 ^ 17 - 1)); [rewrite <- Zle_Qle; lia|]. now vm_compute. }
    assert (T10 : (p10 (-10) <= p10 (e' - 17))%Q) by (apply p10_le; lia). change (p10 (-10)) with (1 # 10000000000)%Q in T10. lra. }
  assert (E6 : 6 <= e).
  { assert (A : (p10 5 < p10 e)%Q); [|apply p10_lt_inv in A; lia]. apply Qle_lt_trans with v; [|exact V2].
    change (p10 5) with 100000%Q. change (p10 6) with 1000000%Q in *. lra. }
  pose (k1 := k0 * 10 ^ (e' - e)).
  assert (Wk : (w * p10 (17 - e) == inject_Z k1)%Q).
  { rewrite W. unfold k1. rewrite inject_Z_mult, <- p10_Z by lia. rewrite <- Qmult_assoc, <- p10_add.
    now replace (e' - 17 + (17 - e)) with (e' - e) by lia. }
  assert (Wk' : (w == inject_Z k1 * p10 (e - 17))%Q).
  { rewrite <- Wk, <- Qmult_assoc, <- p10_add. replace (17 - e + (e - 17)) with 0 by lia. change (p10 0) with 1%Q. ring. }
  replace (16 - (e - 1)) with (17 - e) by lia.
  assert (Qk : Qeven (v * p10 (17 - e)) = k1).
  { apply Qeven_close. rewrite <- Wk. assert (T11 : (p10 (17 - e) <= p10 11)%Q) by (apply p10_le; lia). change (p10 11) with 100000000000%Q in T11.
    pose proof (p10_pos (17 - e)) as Pe. set (y := p10 (17 - e)) in *. clearbody y. apply Qabs_Qle_condition.
    assert (B : (D * y <= D * 100000000000)%Q) by (rewrite !(Qmult_comm D); apply Qmult_le_compat_r; assumption).
    assert (B1 : ((v - w) * y <= D * y)%Q) by (apply Qmult_le_compat_r; lra).
    assert (B2 : (- D * y <= (v - w) * y)%Q) by (apply Qmult_le_compat_r; lra). split; lra. }
  rewrite Qk.
  assert (K1 : 0 <= k1). { unfold k1, k0. repeat apply Z.mul_nonneg_nonneg; try lia; apply Z.pow_nonneg; lia. }
  destruct (k1 =? 10 ^ 17) eqn:C.
  - apply Z.eqb_eq in C.
    assert (Ew : (w == p10 e)%Q). { rewrite Wk', C, <- p10_Z by lia. rewrite <- p10_add. now replace (17 + (e - 17)) with e by lia. }
    assert (e < 17) by (apply p10_lt_inv; rewrite <- Ew; exact W17).
    replace (_ && _) with true by lia. replace (e - 1 + 1) with e by lia. destruct (e =? 16) eqn:C16.
    + apply Z.eqb_eq in C16. exists (inject_Z (num_of (Idec (10 ^ 16)))).
      rewrite C16. change (fixtxt (Z.to_nat (16 - 16)) (10 ^ 16)) with (Idec (10 ^ 16)).
      destruct (Idec_nat (10 ^ 16) ltac:(lia)) as (N & F & V). split; [now apply ud_int|]. now rewrite V, Ew, C16.
    + destruct (fixstrip_ok (Z.to_nat (16 - e)) (10 ^ 16)) as (q & U & Eq); [lia|lia|]. exists q. split; [exact U|].
      rewrite Eq, Ew, <- p10_Z by lia. rewrite <- p10_add. replace (16 + - Z.of_nat (Z.to_nat (16 - e))) with e by lia. reflexivity.
  - replace (_ && _) with true by lia. destruct (e - 1 =? 16) eqn:C16.
    + assert (e = 17) by lia. replace (Z.to_nat (16 - (e - 1))) with O by lia. destruct (Idec_nat k1 K1) as (N & F & V).
      exists (inject_Z (num_of (Idec k1))).
      assert (Fx : fixtxt 0 k1 = Idec k1). { unfold fixtxt. destruct (Idec k1) as [|c r]; [congruence|]. now replace (1 - length (c :: r))%nat with O by (cbn [length]; lia). }
      rewrite Fx. split; [now apply ud_int|]. rewrite V, Wk'. replace (e - 17) with 0 by lia. change (p10 0) with 1%Q. ring.
    + destruct (fixstrip_ok (Z.to_nat (16 - (e - 1))) k1) as (q & U & Eq); [lia|exact K1|]. exists q. split; [exact U|].
      rewrite Eq, Wk'. replace (- Z.of_nat (Z.to_nat (16 - (e - 1)))) with (e - 17) by lia. reflexivity.
Qed.
