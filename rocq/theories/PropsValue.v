(** C65, C66: the class Value (include/value.h). *)
From Coq Require Import QArith Permutation Sorting.Sorted Lqa.
From Verif Require Import Base BVProofs2 NumModel RoundModel NumSpec NumProofs NumMore PropsNum UtilModel UtilSpec UtilProofs UtilProofs2 ValueModel ValueSpec ValueProofs.
Import QArith_base.
Open Scope Z_scope.
Local Notation R := rn128.

(** * C65 *)
(** a value holds what it was constructed from, and after any history of assignments what was
    assigned last; a copy holds the same; a value holds at most one thing *)
Theorem C65_contents : (forall c, vholds (construct c) c) /\ (forall v c l, vholds (fold_left assign (l ++ [c]) v) c) /\
  (forall v c, vholds v c <-> vholds (vCopy v) c) /\ (forall v c d, vholds v c -> vholds v d -> c = d).
Proof. exact (conj construct_holds (conj history (conj copy_holds vholds_fun))). Qed.
(** the six comparisons of two strings, two booleans or two numbers that fit in 128 bits agree with one total order *)
Theorem C65_order_partial a b c d : vholds a c -> vholds b d -> orderable c d ->
  (exists e l le g ge, v_eq R a b = Ok e /\ v_lt R a b = Ok l /\ v_le R a b = Ok le /\ v_gt R a b = Ok g /\ v_ge R a b = Ok ge /\ v_ne R a b = Ok (negb e) /\
    (e = true <-> ceq c d) /\ (l = true <-> clt c d) /\ (le = true <-> clt c d \/ ceq c d) /\ (g = true <-> clt d c) /\ (ge = true <-> clt d c \/ ceq c d)) /\
  (clt c d \/ ceq c d \/ clt d c) /\ (clt c d -> ~ ceq c d /\ ~ clt d c) /\ (ceq c d -> ~ clt d c).
Proof.
  intros A B O. destruct (order_total c d O) as [T U].
  assert (O' : orderable d c) by (destruct c, d; cbn in *; tauto).
  assert (Y : ceq c d -> ceq d c). { destruct c, d; cbn; try tauto; try congruence. destruct (val n), (val n0); cbn; try tauto; try congruence; try (intros H; now symmetry). }
  destruct (order_total d c O') as [_ U'].
  assert (V : ceq c d -> ~ clt d c) by (intros H K; destruct (U' K) as [K1 _]; auto).
  split; [|repeat split; auto; apply U; assumption].
  destruct (cmp_ok a b c d A B O) as (e & l & le & g & ge & E1 & E2 & E3 & E4 & E5 & E6 & H1 & H2 & H3 & H4 & H5).
  exists e, l, le, g, ge. repeat (split; [assumption|]). split; [|].
  - rewrite H4. split; [tauto|]. intros K [L|L]; [destruct (U L) as [_ N]; auto|apply (V L K)].
  - rewrite H5. split; [tauto|]. intros [K|K] L; destruct (U L) as [N1 N2]; auto.
Qed.
(** values of different types are unequal and cannot be ordered *)
Theorem C65_mixed a b c d : vholds a c -> vholds b d -> ctype c <> ctype d ->
  v_eq R a b = Ok false /\ v_ne R a b = Ok true /\ is_throw (v_lt R a b) /\ is_throw (v_le R a b) /\ is_throw (v_gt R a b) /\ is_throw (v_ge R a b).
Proof.
  intros A B N. destruct (types_differ a b c d A B N) as (E & H1 & H2 & H3 & H4). split; [exact E|]. split; [unfold v_ne; now rewrite E|]. repeat split; assumption.
Qed.
(** [v] holds a number with the finite value [q] *)
Definition vnum (v : Val) (q : Q) : Prop := exists n, vholds v (CNum n) /\ finite n q.
(** + - * on numbers: exact on integers, otherwise the nearest 128-bit real *)
Theorem C65_arith a b m n x y : vholds a (CNum m) -> vholds b (CNum n) -> args m n -> finite m x -> finite n y ->
  forall op g, In (op, g) [(v_add R, Qplus); (v_sub R, Qminus); (v_mul R, Qmult)] ->
  exists v z, op a b = Ok v /\ v_assign op a b = Ok v /\ vnum v z /\ (isINT m -> isINT n -> (z == g x y)%Q) /\ (~ (isINT m /\ isINT n) -> rounded z (g x y)).
Proof.
  intros A B G X Y op g H. pose proof (construct_holds (CNum (n_add R m n))) as Ha. pose proof (construct_holds (CNum (n_sub R m n))) as Hs.
  pose proof (construct_holds (CNum (n_mul R m n))) as Hm. cbn [construct] in Ha, Hs, Hm.
  cbn [In] in H. destruct H as [H|[H|[H|[]]]]; injection H as <- <-.
  - destruct (C40_add m n x y G X Y) as (z & F & K). exists (vNum (n_add R m n)), z. unfold v_assign. rewrite (add_num a b m n A B). cbn [bind]. repeat (split; [reflexivity|]).
    split; [exists (n_add R m n); auto|exact K].
  - destruct (C40_sub m n x y G X Y) as (z & F & K). exists (vNum (n_sub R m n)), z. unfold v_assign, v_sub. rewrite (num2 _ _ a b m n A B). cbn [bind]. repeat (split; [reflexivity|]).
    split; [exists (n_sub R m n); auto|exact K].
  - destruct (C40_mul m n x y G X Y) as (z & F & K). exists (vNum (n_mul R m n)), z. unfold v_assign, v_mul. rewrite (num2 _ _ a b m n A B). cbn [bind]. repeat (split; [reflexivity|]).
    split; [exists (n_mul R m n); auto|exact K].
Qed.
Theorem C65_div dbg a b m n x y : vholds a (CNum m) -> vholds b (CNum n) -> NumSpec.fits m -> NumSpec.fits n -> finite m x -> finite n y -> (~ y == 0)%Q ->
  exists v q z, v_div R dbg a b = Ok v /\ v_assign (v_div R dbg) a b = Ok v /\ vholds v (CNum q) /\ finite q z /\ ((isINT q /\ (z == x / y)%Q) \/ (~ isINT q /\ rounded z (x / y))).
Proof.
  intros A B F1 F2 X Y N. destruct (C40_div m n x y F1 F2 X Y N) as (q & z & E & F & K). exists (vNum q), q, z. unfold v_assign, v_div.
  rewrite (num2 _ _ a b m n A B), E. cbn [bind]. repeat (split; [reflexivity|]). split; [exact (construct_holds (CNum q))|]. auto.
Qed.
(** unary operations of a number *)
Theorem C65_unary a m x : vholds a (CNum m) -> finite m x ->
  (exists v, v_neg R a = Ok v /\ vnum v (- x)) /\ (exists v, v_abs R a = Ok v /\ vnum v (Qabs.Qabs x)) /\
  (exists v k, v_floor a = Ok v /\ vnum v (inject_Z k) /\ (inject_Z k <= x < inject_Z k + 1)%Q) /\
  (exists v k, v_ceil a = Ok v /\ vnum v (inject_Z k) /\ (inject_Z k - 1 < x <= inject_Z k)%Q) /\
  (exists v k, v_round a = Ok v /\ vnum v (inject_Z k) /\ (Qabs.Qabs (inject_Z k - x) <= 1 # 2)%Q).
Proof.
  intros A X. apply vholds_inv in A. destruct A as [T A]. cbn [ctype] in T. unfold v_neg, v_abs, v_floor, v_ceil, v_round, v_fun1. rewrite T, A. cbn [bind].
  destruct (C40_abs_neg m x X) as [Hb Hn]. destruct (C40_floor m x X) as (k1 & F1 & K1). destruct (C40_ceil m x X) as (k2 & F2 & K2). destruct (C40_round m x X) as (k3 & F3 & K3 & _).
  split; [eexists; split; [reflexivity|]; eexists; split; [exact (construct_holds (CNum _))|exact Hn]|].
  split; [eexists; split; [reflexivity|]; eexists; split; [exact (construct_holds (CNum _))|exact Hb]|].
  split; [eexists; exists k1; split; [reflexivity|]; split; [eexists; split; [exact (construct_holds (CNum _))|exact F1]|exact K1]|].
  split; [eexists; exists k2; split; [reflexivity|]; split; [eexists; split; [exact (construct_holds (CNum _))|exact F2]|exact K2]|].
  eexists; exists k3; split; [reflexivity|]; split; [eexists; split; [exact (construct_holds (CNum _))|exact F3]|exact K3].
Qed.
(** ++ and -- : the prefix form changes the object by one, the postfix form also returns the old contents *)
Theorem C65_step a z : vholds a (CNum (NI z)) ->
  (exists v, v_inc R a = Ok v /\ vholds v (CNum (NI (z + 1)))) /\ (exists v, v_dec R a = Ok v /\ vholds v (CNum (NI (z - 1)))) /\
  (exists o v, v_incpost R a = Ok (o, v) /\ vholds o (CNum (NI z)) /\ vholds v (CNum (NI (z + 1)))) /\
  (exists o v, v_decpost R a = Ok (o, v) /\ vholds o (CNum (NI z)) /\ vholds v (CNum (NI (z - 1)))).
Proof.
  intros A. pose proof (proj1 (copy_holds a _) A) as C. apply vholds_inv in A. destruct A as [T A]. cbn [ctype] in T. unfold v_incpost, v_decpost, v_inc, v_dec. rewrite T, A. cbn [bind].
  assert (P : forall v k, v_ty v = VT_NUMBER -> v_num v = NI k -> vholds v (CNum (NI k))) by (intros; now apply vholds_intro).
  split; [|split; [|split]].
  - eexists. split; [reflexivity|]. apply P; reflexivity.
  - eexists. split; [reflexivity|]. apply P; reflexivity.
  - eexists _, _. split; [reflexivity|]. split; [exact C|]. apply P; reflexivity.
  - eexists _, _. split; [reflexivity|]. split; [exact C|]. apply P; reflexivity.
Qed.
(** Boolean connectives *)
Theorem C65_bool a b x y : vholds a (CBool x) -> vholds b (CBool y) -> v_and a b = Ok (x && y) /\ v_or a b = Ok (x || y) /\ v_not a = Ok (negb x).
Proof.
  intros A B. apply vholds_inv in A. apply vholds_inv in B. destruct A as [TA A], B as [TB B]. unfold v_and, v_or, v_not, rdBool. rewrite TA, TB, A, B. cbn [bind vty_eqb ctype andb].
  destruct x; auto.
Qed.
(** conversions: a boolean becomes 1 or 0, a number is true unless it is zero, and the round trip from a boolean is the identity *)
Theorem C65_convert rd a : (forall b, vholds a (CBool b) -> exists v w, v_toNumber rd a = Ok v /\ vholds v (CNum (NI (if b then 1 else 0))) /\ v_toBoolean R v = Ok w /\ vholds w (CBool b)) /\
  (forall n x, vholds a (CNum n) -> NumSpec.fits n -> finite n x -> exists v b, v_toBoolean R a = Ok v /\ vholds v (CBool b) /\ (b = true <-> ~ (x == 0)%Q)) /\
  (forall s, vholds a (CStr s) -> exists v b, v_toBoolean R a = Ok v /\ vholds v (CBool b) /\ (b = true <-> s = L "true" \/ s = L "1")) /\
  (forall s q, vholds a (CStr s) -> rd s = Some q -> exists v, v_toNumber rd a = Ok v /\ vnum v q) /\
  (forall s, vholds a (CStr s) -> rd s = None -> is_throw (v_toNumber rd a)) /\
  (forall i, vholds a (CItv i) -> is_throw (v_toNumber rd a) /\ is_throw (v_toBoolean R a)).
Proof.
  repeat split.
  - intros b A. apply vholds_inv in A. destruct A as [T A]. cbn [ctype] in T. unfold v_toNumber, rdBool. rewrite T, A. cbn [bind]. eexists _, _. split; [reflexivity|].
    split; [exact (construct_holds (CNum _))|]. cbn [v_toBoolean v_ty vNum v_num]. split; [reflexivity|]. destruct b; exact (construct_holds (CBool _)).
  - intros n x A F X. apply vholds_inv in A. destruct A as [T A]. cbn [ctype] in T. unfold v_toBoolean. rewrite T, A. eexists _, _. split; [reflexivity|]. split; [exact (construct_holds (CBool _))|].
    destruct (C40_order n (NI 0) x 0 F) as (_ & _ & _ & _ & H); [cbn; lia|exact X|reflexivity|]. rewrite <- H, negb_true_iff, not_true_iff_false. reflexivity.
  - intros s A. apply vholds_inv in A. destruct A as [T A]. cbn [ctype] in T. unfold v_toBoolean. rewrite T, A. eexists _, _. split; [reflexivity|]. split; [exact (construct_holds (CBool _))|].
    rewrite orb_true_iff, !seq_str_spec. reflexivity.
  - intros s q A Hq. apply vholds_inv in A. destruct A as [T A]. cbn [ctype] in T. unfold v_toNumber. rewrite T, A, Hq. eexists. split; [reflexivity|]. eexists. split; [exact (construct_holds (CNum _))|]. reflexivity.
  - intros s A Hq. apply vholds_inv in A. destruct A as [T A]. cbn [ctype] in T. unfold v_toNumber, is_throw. now rewrite T, A, Hq.
  - apply vholds_inv in H. destruct H as [T _]. cbn [ctype] in T. unfold v_toNumber, is_throw. now rewrite T.
  - apply vholds_inv in H. destruct H as [T _]. cbn [ctype] in T. unfold v_toBoolean, is_throw. now rewrite T.
Qed.
(** what the class does not do: a fresh value is not equal to itself; of two overlapping intervals each is greater than the other;
    every bitwise operation throws, whatever the operands, and ~ of an interval is its arithmetic negation;
    newValue(long) keeps 32 bits; reading an empty boolean is undefined behaviour *)
Theorem C65_refuted :
  (forall v, v_ty v = VT_UNKNOWN -> v_eq R v v = Ok false) /\
  (let a := vItv (Itv (NI 0) (NI 2) true true) in let b := vItv (Itv (NI 1) (NI 3) true true) in v_gt R a b = Ok true /\ v_gt R b a = Ok true /\ v_ge R a b = Ok true /\ v_le R a b = Ok false) /\
  (forall a b, is_throw (v_bits a b)) /\ v_compl R (vItv (Itv (NI 1) (NI 2) true true)) = Ok (vItv (Itv (NI (-2)) (NI (-1)) true true)) /\
  (vholds (newLong (2 ^ 32)) (CNum (NI 0))) /\ getBooleanValue (vEmpty VT_BOOLEAN) = UB.
Proof.
  split; [intros v H; unfold v_eq; rewrite H; reflexivity|]. split; [repeat split; vm_compute; reflexivity|]. split; [reflexivity|].
  split; [vm_compute; reflexivity|]. split; [exact (construct_holds (CNum (NI 0)))|reflexivity].
Qed.
Example C65_case : let a := construct (CNum (NI 7)) in let b := construct (CNum (NR (Fin (1 # 2)))) in
  v_lt R b a = Ok true /\ v_gt R a b = Ok true /\ v_eq R a (construct (CStr (L "7"))) = Ok false /\
  vholds (fold_left assign [CStr (L "a"); CNum (NI 3); CBool true] (construct (CItv itv0))) (CBool true) /\ orderable (CNum (NI 7)) (CNum (NR (Fin (1 # 2)))).
Proof. repeat split; try (vm_compute; reflexivity); vm_compute; discriminate. Qed.
Print Assumptions C65_contents.
Print Assumptions C65_order_partial.
Print Assumptions C65_mixed.
Print Assumptions C65_arith.
Print Assumptions C65_div.
Print Assumptions C65_unary.
Print Assumptions C65_step.
Print Assumptions C65_bool.
Print Assumptions C65_convert.
Print Assumptions C65_refuted.

(** * C66 *)
Definition vstr (r : res Val) (t : str) : Prop := exists v, r = Ok v /\ vholds v (CStr t).
Lemma vstr_ok t : vstr (Ok (vStr t)) t. Proof. exists (vStr t). split; [reflexivity|exact (construct_holds (CStr t))]. Qed.
Theorem C66_concat a b s t : vholds a (CStr s) -> vholds b (CStr t) -> vstr (v_concat a b) (s ++ t) /\ vstr (v_add R a b) (s ++ t).
Proof.
  intros A B. apply vholds_inv in A. apply vholds_inv in B. destruct A as [TA A], B as [TB B]. unfold v_concat, v_add. rewrite TA, TB, A, B. split; apply vstr_ok.
Qed.
Theorem C66_repeat a b s n : vholds a (CStr s) -> vholds b (CNum (NI n)) -> -2147483648 <= n <= 2147483647 -> vstr (v_repeat a b) (copies (Z.to_nat n) s).
Proof.
  intros A B H. apply vholds_inv in A. apply vholds_inv in B. destruct A as [TA A], B as [TB B]. unfold v_repeat. rewrite TA, TB, A, B. cbn [ctype toInteger].
  rewrite (toInt32_ok n H). cbn [bind]. rewrite times_copies. apply vstr_ok.
Qed.
(** the characters of [s] in ascending order *)
Theorem C66_sort_partial a s : vholds a (CStr s) -> ascii7 s -> exists t, vstr (v_sort a) t /\ Permutation s t /\ StronglySorted (fun c d => (code c <= code d)%nat) t.
Proof.
  intros A F. unfold v_sort. rewrite (on_str_ok a s _ A). cbn [bind]. destruct (sort_ok s) as [P S]. exists (fold_right ins [] s). split; [apply vstr_ok|]. split; [exact P|].
  assert (G : ascii7 (fold_right ins [] s)) by (unfold ascii7; rewrite <- P; exact F).
  induction S as [|c t S IH Fc]; [constructor|]. inversion G as [|? ? G1 G2]; subst. clear P. constructor.
  - assert (X : forall u, StronglySorted scle u -> ascii7 u -> StronglySorted (fun c d => (code c <= code d)%nat) u); [|now apply X].
    clear. induction 1 as [|c u S IH Fc]; intros G; [constructor|]. inversion G; subst. constructor; [auto|]. rewrite Forall_forall in *. intros d Hd. specialize (Fc d Hd).
    unfold scle in Fc. rewrite !schar_ascii in Fc; [lia|now apply H2|assumption].
  - rewrite Forall_forall in *. intros d Hd. specialize (Fc d Hd). unfold scle in Fc. rewrite !schar_ascii in Fc; [lia|now apply G2|assumption].
Qed.
(** substr: the start position must be inside the string; at most [l] characters, everything when [l] is negative *)
Theorem C66_substr a b d s i l : vholds a (CStr s) -> vholds b (CNum (NI i)) -> vholds d (CNum (NI l)) -> -2147483648 <= i <= 2147483647 -> -2147483648 <= l <= 2147483647 ->
  zlen s < 2147483648 ->
  (0 <= i < zlen s -> exists x t y, vstr (v_substr a b d) t /\ s = x ++ t ++ y /\ zlen x = i /\ (0 <= l -> zlen t = Z.min l (zlen s - i)) /\ (l < 0 -> y = [])) /\
  (~ 0 <= i < zlen s -> v_substr a b d = Throw OutOfRange).
Proof.
  intros A B D Hi Hl Hs. apply vholds_inv in A. apply vholds_inv in B. apply vholds_inv in D. destruct A as [TA A], B as [TB B], D as [TD D].
  unfold v_substr. rewrite TA, TB, TD, A, B, D. cbn [ctype toInteger]. rewrite (toInt32_ok i Hi), (toInt32_ok l Hl). cbn [bind]. unfold substr. split; intros K.
  - replace ((i <? 0) || (zlen s <=? i)) with false by (destruct (Z.ltb_spec i 0), (Z.leb_spec (zlen s) i); cbn; lia). destruct (Z.ltb_spec (zlen s) i); [lia|]. cbn [bind].
    set (n := Z.to_nat (Z.min (u64 l) (zlen s - i))). exists (firstn (Z.to_nat i) s), (firstn n (skipn (Z.to_nat i) s)), (skipn n (skipn (Z.to_nat i) s)).
    unfold zlen in *. split; [apply vstr_ok|]. split; [now rewrite !firstn_skipn|]. rewrite !firstn_length, skipn_length. split; [lia|].
    assert (U : (0 <= l -> u64 l = l) /\ (l < 0 -> u64 l = l + 18446744073709551616)).
    { unfold u64, two64. split; intros L; [apply Z.mod_small; lia|symmetry; apply Z.mod_unique with (-1); lia]. }
    destruct U as [U1 U2]. split; intros L.
    + rewrite (U1 L) in *. subst n. lia.
    + rewrite (U2 L) in *. apply skipn_all2. rewrite skipn_length. subst n. lia.
  - replace ((i <? 0) || (zlen s <=? i)) with true; [reflexivity|]. destruct (Z.ltb_spec i 0), (Z.leb_spec (zlen s) i); cbn; lia.
Qed.
(** replace: all occurrences from left to right, for a non-empty pattern *)
Theorem C66_replace_partial a b d s t u fuel : vholds a (CStr s) -> vholds b (CStr t) -> vholds d (CStr u) -> t <> [] -> (length s < fuel)%nat ->
  (forall n, (n <= length s)%nat -> Z.of_nat (n + n * length u) + 2 <= str_max) ->
  exists r, vstr (v_replace fuel a b d) r /\ ReplaceAll t u s r.
Proof.
  intros A B D N Hf Hb. apply vholds_inv in A. apply vholds_inv in B. apply vholds_inv in D. destruct A as [TA A], B as [TB B], D as [TD D].
  unfold v_replace. rewrite TA, TB, TD, A, B, D. cbn [ctype]. destruct (repl_loop_ok t u N fuel s [] Hf) as (r & E & H); [exact Hb|]. cbn [app length] in E. rewrite E. cbn [bind].
  exists r. split; [apply vstr_ok|exact H].
Qed.
Theorem C66_reverse a s : vholds a (CStr s) -> exists t, vstr (v_reverse a) t /\ length t = length s /\ forall i, (i < length s)%nat -> nth_error t i = nth_error s (length s - 1 - i).
Proof.
  intros A. unfold v_reverse. rewrite (on_str_ok a s _ A). cbn [bind]. exists (rev s). split; [apply vstr_ok|]. rewrite rev_length. split; [reflexivity|]. intros i H.
  rewrite (nth_error_nth' (rev s) nul) by now rewrite rev_length. rewrite rev_nth by assumption. rewrite (nth_error_nth' s nul) by lia. do 2 f_equal. lia.
Qed.
(** unique: the distinct characters, each at its first occurrence *)
Theorem C66_unique a s : vholds a (CStr s) -> exists t, vstr (v_unique a) t /\ subseq t s /\ NoDup t /\ (forall c, In c t <-> In c s) /\
  (forall x c y, s = x ++ c :: y -> ~ In c x -> exists t1 t2, t = t1 ++ c :: t2 /\ (forall d, In d t1 <-> In d x)).
Proof.
  intros A. unfold v_unique. rewrite (on_str_ok a s _ A). cbn [bind]. rewrite uniq_firsts. cbn [app]. exists (firsts [] s). destruct (firsts_ok s []) as (P & Q & C).
  split; [apply vstr_ok|]. split; [exact P|]. split; [exact Q|]. split; [intros c; rewrite C; cbn; tauto|].
  assert (X : forall x c y seen, ~ In c x -> ~ In c seen -> exists t1 t2, firsts seen (x ++ c :: y) = t1 ++ c :: t2 /\ (forall d, In d t1 <-> In d x /\ ~ In d seen)).
  { clear. induction x as [|e x IH]; intros c y seen Hx Hs; cbn [app firsts].
    - destruct (existsb (aeq c) seen) eqn:E; [apply existsb_aeq in E; contradiction|]. eexists [], _. split; [reflexivity|]. cbn. tauto.
    - destruct (existsb (aeq e) seen) eqn:E.
      + destruct (IH c y seen) as (t1 & t2 & E1 & H); [cbn in Hx; tauto|assumption|]. exists t1, t2. split; [exact E1|]. intros d. rewrite H. apply existsb_aeq in E. cbn. intuition (subst; tauto).
      + destruct (IH c y (seen ++ [e])) as (t1 & t2 & E1 & H); [cbn in Hx; tauto|rewrite in_app_iff; cbn in *; tauto|]. exists (e :: t1), t2. rewrite E1. split; [reflexivity|].
        intros d. cbn [In]. rewrite H, in_app_iff. cbn [In]. assert (~ In e seen) by (intros K; apply existsb_aeq in K; congruence). destruct (ascii_dec e d) as [ <- |]; tauto. }
  intros x c y -> Hx. destruct (X x c y [] Hx (fun h => h)) as (t1 & t2 & E & H). exists t1, t2. split; [exact E|]. intros d. rewrite H. cbn. tauto.
Qed.
(** trimming, for strings of ASCII characters and bytes 255 *)
Theorem C66_trim_partial a s : vholds a (CStr s) -> ctypeC s ->
  (exists t, vstr (v_ltrim a) t /\ ltrimmed s t) /\ (exists t, vstr (v_rtrim a) t /\ rtrimmed s t) /\ (exists u t, vstr (v_trim a) t /\ ltrimmed s u /\ rtrimmed u t).
Proof.
  intros A F. unfold v_ltrim, v_rtrim, v_trim. rewrite !(on_str_ok a s _ A). destruct (lstrip_ok s F) as (t & E & H & G). destruct (rstrip_ok s F) as (t' & E' & H' & _).
  destruct (rstrip_ok t G) as (t2 & E2 & H2 & _). rewrite E, E'. cbn [bind]. rewrite E2. cbn [bind].
  split; [exists t; split; [apply vstr_ok|exact H]|]. split; [exists t'; split; [apply vstr_ok|exact H']|]. exists t, t2. split; [apply vstr_ok|auto].
Qed.
Theorem C66_trim_unique s t t' : (ltrimmed s t -> ltrimmed s t' -> t = t') /\ (rtrimmed s t -> rtrimmed s t' -> t = t').
Proof.
  split; [apply ltrim_unique|]. intros (w & E & F & H) (w' & E' & F' & H').
  assert (Y : forall t w, s = t ++ w -> Forall spaceC w -> (forall u c, t = u ++ [c] -> ~ spaceC c) -> ltrimmed (rev s) (rev t)).
  { clear. intros t w -> F H. exists (rev w). rewrite rev_app_distr. split; [reflexivity|]. split; [now apply Forall_rev|]. destruct (rev t) as [|c u] eqn:E; [constructor|].
    apply (H (rev u) c). rewrite <- (rev_involutive t), E. reflexivity. }
  rewrite <- (rev_involutive t), <- (rev_involutive t'). f_equal. apply (ltrim_unique (rev s)); eapply Y; eassumption.
Qed.
Theorem C66_case a s : vholds a (CStr s) -> (exists t, vstr (v_toLower a) t /\ Forall2 lower_of s t) /\ (exists t, vstr (v_toUpper a) t /\ Forall2 upper_of s t).
Proof.
  intros A. unfold v_toLower, v_toUpper. rewrite !(on_str_ok a s _ A). cbn [bind]. split; eexists; (split; [apply vstr_ok|]); apply map_F2; [apply lower_ok|apply upper_ok].
Qed.
(** every string operation throws on a value of another type *)
Theorem C66_types a b d c fuel : vholds a c -> ctype c <> VT_STRING -> Forall (fun r => is_throw r)
  [v_concat a b; v_repeat a b; v_sort a; v_substr a b d; v_replace fuel a b d; v_reverse a; v_unique a; v_ltrim a; v_rtrim a; v_trim a; v_toLower a; v_toUpper a].
Proof.
  intros A N. apply vholds_inv in A. destruct A as [T _]. unfold v_concat, v_repeat, v_sort, v_substr, v_replace, v_reverse, v_unique, v_ltrim, v_rtrim, v_trim, v_toLower, v_toUpper, on_str. rewrite T.
  destruct c; cbn [ctype] in *; try congruence; repeat constructor.
Qed.
(** where the code departs from the plain meaning: replacing the empty string by itself never ends; sorting puts the bytes above 127 first
    although < on strings puts them last; trimming a string with such a byte is undefined; the end position of a string is not a start position *)
Theorem C66_refuted :
  (forall s fuel, sfits s -> v_replace fuel (vStr s) (vStr []) (vStr []) = NoFuel) /\
  (exists c d, v_sort (vStr [c; d]) = Ok (vStr [d; c]) /\ v_lt R (vStr [c]) (vStr [d]) = Ok true) /\
  (exists c, v_trim (vStr [c]) = UB /\ v_ltrim (vStr [c]) = UB /\ v_rtrim (vStr [c]) = UB) /\
  (forall s n, zlen s < 2147483648 -> 0 <= n <= 2147483647 -> v_substr (vStr s) (vNum (NI (zlen s))) (vNum (NI n)) = Throw OutOfRange).
Proof.
  split; [|split; [|split]].
  - intros s fuel H. unfold v_replace. cbn [vStr v_ty v_str]. rewrite find_empty by (cbn; lia || assumption). now rewrite (repl_loop_empty [] eq_refl fuel s 0%nat H) by lia.
  - exists (ascii_of_nat 97), (ascii_of_nat 200). split; vm_compute; reflexivity.
  - exists (ascii_of_nat 200). repeat split; vm_compute; reflexivity.
  - intros s n H1 H2. eapply (C66_substr (vStr s) (vNum (NI (zlen s))) (vNum (NI n)) s (zlen s) n); try exact (construct_holds (CStr _)); try exact (construct_holds (CNum _)); unfold zlen in *; lia.
Qed.
Example C66_cases : v_trim (vStr (L "  a b ")) = Ok (vStr (L "a b")) /\ v_unique (vStr (L "abcab")) = Ok (vStr (L "abc")) /\
  v_replace 9 (vStr (L "aXbX")) (vStr (L "X")) (vStr (L "--")) = Ok (vStr (L "a--b--")) /\ v_substr (vStr (L "hello")) (vNum (NI 1)) (vNum (NI 3)) = Ok (vStr (L "ell")) /\
  v_toUpper (vStr (L "aZ9")) = Ok (vStr (L "AZ9")) /\ v_repeat (vStr (L "ab")) (vNum (NI 2)) = Ok (vStr (L "abab")).
Proof. repeat split; vm_compute; reflexivity. Qed.
Print Assumptions C66_concat.
Print Assumptions C66_repeat.
Print Assumptions C66_sort_partial.
Print Assumptions C66_substr.
Print Assumptions C66_replace_partial.
Print Assumptions C66_reverse.
Print Assumptions C66_unique.
Print Assumptions C66_trim_partial.
Print Assumptions C66_trim_unique.
Print Assumptions C66_case.
Print Assumptions C66_types.
Print Assumptions C66_refuted.
