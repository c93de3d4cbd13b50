(** Proofs about the class Value. *)
From Coq Require Import QArith Permutation Sorting.Sorted.
From Verif Require Import Base BVProofs2 NumModel RoundModel NumSpec NumProofs NumMore UtilModel UtilSpec UtilProofs2 ValueModel ValueSpec.
Open Scope Z_scope.
Local Notation R := rn128.

Lemma vty_spec a b : vty_eqb a b = true <-> a = b. Proof. destruct a, b; cbn; split; congruence. Qed.
Lemma vty_refl a : vty_eqb a a = true. Proof. now destruct a. Qed.
(** the members behind a content *)
Lemma vholds_inv v c : vholds v c -> v_ty v = ctype c /\
  match c with CStr s => v_str v = s | CNum n => v_num v = n | CItv i => v_itv v = i | CBool b => v_bool v = Some b end.
Proof.
  intros (T & A & B & C & D). split; [exact T|]. destruct c; cbn [ctype] in T.
  - unfold getStringValue in A. rewrite T in A. cbn in A. congruence.
  - unfold getNumberValue in B. rewrite T in B. cbn in B. congruence.
  - unfold getIntervalValue in C. rewrite T in C. cbn in C. congruence.
  - unfold getBooleanValue, rdBool in D. rewrite T in D. cbn in D. destruct (v_bool v); congruence.
Qed.
Lemma vholds_intro v c : v_ty v = ctype c ->
  match c with CStr s => v_str v = s | CNum n => v_num v = n | CItv i => v_itv v = i | CBool b => v_bool v = Some b end -> vholds v c.
Proof.
  intros T H. unfold vholds, getStringValue, getNumberValue, getIntervalValue, getBooleanValue, rdBool, is_throw. rewrite T.
  destruct c; cbn [ctype vty_eqb]; subst; repeat split. now rewrite H.
Qed.
Lemma construct_holds c : vholds (construct c) c. Proof. apply vholds_intro; destruct c; reflexivity. Qed.
Lemma assign_holds v c : vholds (assign v c) c. Proof. apply vholds_intro; destruct c; reflexivity. Qed.
Lemma copy_holds v c : vholds v c <-> vholds (vCopy v) c. Proof. destruct v; reflexivity. Qed.
Lemma vholds_fun v c d : vholds v c -> vholds v d -> c = d.
Proof.
  intros A B. apply vholds_inv in A. apply vholds_inv in B. destruct A as [TA A], B as [TB B]. rewrite TA in TB.
  destruct c, d; try discriminate TB; congruence.
Qed.
Lemma history v c l : vholds (fold_left assign (l ++ [c]) v) c.
Proof. rewrite fold_left_app. cbn. apply assign_holds. Qed.

(** ** equality and order *)
Lemma code_inj c d : code c = code d -> c = d.
Proof. unfold code. intros H. rewrite <- (ascii_nat_embedding c), <- (ascii_nat_embedding d). now f_equal. Qed.
Lemma s_lt_spec a b : s_lt a b = true <-> lex_lt (map code a) (map code b).
Proof.
  revert b. induction a as [|x a IH]; intros [|y b]; cbn [s_lt lex_lt map]; try (split; [congruence|tauto]); try tauto.
  rewrite orb_true_iff, andb_true_iff, Nat.ltb_lt, IH. unfold aeq. rewrite Ascii.eqb_eq. split; intros [H|[H1 H2]]; auto.
  - subst. auto.
  - right. split; [now apply code_inj|exact H2].
Qed.
Lemma lex_total a b : lex_lt a b \/ a = b \/ lex_lt b a.
Proof.
  revert b. induction a as [|x a IH]; intros [|y b]; cbn; auto. destruct (lt_eq_lt_dec x y) as [[H|H]|H]; auto.
  subst. destruct (IH b) as [H|[H|H]]; auto. subst. auto.
Qed.
Lemma lex_irr a : ~ lex_lt a a. Proof. induction a as [|x a IH]; cbn; [auto|]. intros [H|[_ H]]; [lia|auto]. Qed.
Lemma lex_trans a b c : lex_lt a b -> lex_lt b c -> lex_lt a c.
Proof.
  revert b c. induction a as [|x a IH]; intros [|y b] [|z c]; cbn; auto; try tauto.
  intros [H|[H1 H2]] [K|[K1 K2]]; subst; try (left; lia). right. split; [reflexivity|]. eauto.
Qed.
Lemma map_code_inj a b : map code a = map code b -> a = b.
Proof. revert b. induction a as [|x a IH]; intros [|y b] H; cbn in H; try discriminate; [reflexivity|]. injection H as H1 H2. f_equal; [now apply code_inj|auto]. Qed.
Lemma xlt_spec a b : xlt a b = true <-> ltX a b.
Proof.
  destruct a as [|s|x], b as [|t|y]; cbn; try (destruct s); try (destruct t); cbn; try (split; [congruence|tauto]); try tauto.
  unfold qlt. rewrite negb_true_iff. split; intros H.
  - apply Qnot_le_lt. intros K. apply Qle_bool_iff in K. congruence.
  - destruct (Qle_bool y x) eqn:E; [|reflexivity]. apply Qle_bool_iff in E. exfalso. now apply (Qlt_not_le x y).
Qed.
Lemma xeq_spec a b : xeq a b = true <-> eqX a b.
Proof.
  destruct a as [|s|x], b as [|t|y]; cbn; try (split; [congruence|tauto]).
  - rewrite Bool.eqb_true_iff. reflexivity.
  - apply Qeq_bool_iff.
Qed.
Lemma eq_ok a b c d : vholds a c -> vholds b d -> orderable c d -> exists t, v_eq R a b = Ok t /\ (t = true <-> ceq c d).
Proof.
  intros A B. apply vholds_inv in A. apply vholds_inv in B. destruct A as [TA A], B as [TB B]. unfold v_eq. rewrite TA, TB.
  destruct c, d; cbn [orderable ctype vty_eqb ceq]; intros O; try contradiction; subst.
  - eexists. split; [reflexivity|]. apply seq_str_spec.
  - eexists. split; [reflexivity|]. destruct O as [O1 O2]. rewrite (fits_eq _ _ O1 O2). apply xeq_spec.
  - unfold rdBool. rewrite A, B. cbn [bind]. eexists. split; [reflexivity|]. apply Bool.eqb_true_iff.
Qed.
Lemma lt_ok a b c d : vholds a c -> vholds b d -> orderable c d -> exists t, v_lt R a b = Ok t /\ (t = true <-> clt c d).
Proof.
  intros A B. apply vholds_inv in A. apply vholds_inv in B. destruct A as [TA A], B as [TB B]. unfold v_lt. rewrite TA, TB.
  destruct c, d; cbn [orderable ctype vty_eqb clt]; intros O; try contradiction; subst.
  - eexists. split; [reflexivity|]. apply s_lt_spec.
  - eexists. split; [reflexivity|]. destruct O as [O1 O2]. rewrite (fits_lt _ _ O1 O2). apply xlt_spec.
  - unfold rdBool. rewrite A, B. cbn [bind]. eexists. split; [reflexivity|]. rewrite andb_true_iff, negb_true_iff. reflexivity.
Qed.
Lemma cmp_ok a b c d : vholds a c -> vholds b d -> orderable c d ->
  exists e l le g ge, v_eq R a b = Ok e /\ v_lt R a b = Ok l /\ v_le R a b = Ok le /\ v_gt R a b = Ok g /\ v_ge R a b = Ok ge /\ v_ne R a b = Ok (negb e) /\
    (e = true <-> ceq c d) /\ (l = true <-> clt c d) /\ (le = true <-> clt c d \/ ceq c d) /\ (g = true <-> ~ (clt c d \/ ceq c d)) /\ (ge = true <-> ~ clt c d).
Proof.
  intros A B O. destruct (eq_ok a b c d A B O) as (e & Ee & He). destruct (lt_ok a b c d A B O) as (l & El & Hl).
  assert (Le : v_le R a b = Ok (l || e)). { unfold v_le. rewrite El. cbn [bind]. destruct l; [reflexivity|exact Ee]. }
  exists e, l, (l || e), (negb (l || e)), (negb l). unfold v_gt, v_ge, v_ne. rewrite Le, El, Ee. cbn [bind].
  repeat (split; [reflexivity|]). split; [exact He|]. split; [exact Hl|].
  assert (K : l || e = true <-> clt c d \/ ceq c d) by (rewrite orb_true_iff, He, Hl; reflexivity).
  split; [exact K|]. rewrite !negb_true_iff. split.
  - rewrite <- K. now rewrite not_true_iff_false.
  - rewrite <- Hl. now rewrite not_true_iff_false.
Qed.
(** the order is total *)
Lemma order_total c d : orderable c d -> (clt c d \/ ceq c d \/ clt d c) /\ (clt c d -> ~ ceq c d /\ ~ clt d c).
Proof.
  destruct c as [s|m|i|x], d as [t|n|j|y]; cbn [orderable clt ceq]; intros O; try contradiction.
  - split.
    + destruct (lex_total (map code s) (map code t)) as [H|[H|H]]; auto. right. left. now apply map_code_inj.
    + intros H. split; [intros ->; now apply lex_irr in H|]. intros K. apply (lex_irr _ (lex_trans _ _ _ H K)).
  - destruct O as [O1 O2]. apply fits_nn in O1. apply fits_nn in O2. destruct (val m) as [|s|p], (val n) as [|t|q]; try congruence; cbn.
    + destruct s, t; cbn; split; try tauto; intros H; try contradiction; split; [discriminate|tauto].
    + destruct s; cbn; split; try tauto.
    + destruct t; cbn; split; try tauto.
    + split.
      * destruct (Q_dec p q) as [[H|H]|H]; auto.
      * intros H. split; [intros E; rewrite E in H; now apply Qlt_irrefl in H|]. intros K. apply (Qlt_irrefl p). eapply Qlt_trans; eassumption.
  - destruct x, y; cbn; split; intuition congruence.
Qed.
Lemma types_differ a b c d : vholds a c -> vholds b d -> ctype c <> ctype d -> v_eq R a b = Ok false /\ v_lt R a b = Throw RuntimeError /\
  v_le R a b = Throw RuntimeError /\ v_gt R a b = Throw RuntimeError /\ v_ge R a b = Throw RuntimeError.
Proof.
  intros A B N. apply vholds_inv in A. apply vholds_inv in B. destruct A as [TA _], B as [TB _].
  assert (E : vty_eqb (v_ty a) (v_ty b) = false). { rewrite TA, TB. destruct (vty_eqb (ctype c) (ctype d)) eqn:E; [|reflexivity]. apply vty_spec in E. contradiction. }
  unfold v_gt, v_ge, v_le, v_eq, v_lt. rewrite E. repeat split.
Qed.

(** ** arithmetic *)
Lemma num2 fn fi a b m n : vholds a (CNum m) -> vholds b (CNum n) ->
  v_op2 fn fi a b = (x <- fn m n ;; Ok (vNum x)).
Proof. intros A B. apply vholds_inv in A. apply vholds_inv in B. destruct A as [TA A], B as [TB B]. unfold v_op2. rewrite TA, TB, A, B. reflexivity. Qed.
Lemma itv2 fn fi a b m n : vholds a (CItv m) -> vholds b (CItv n) ->
  v_op2 fn fi a b = (x <- fi m n ;; Ok (vItv x)).
Proof. intros A B. apply vholds_inv in A. apply vholds_inv in B. destruct A as [TA A], B as [TB B]. unfold v_op2. rewrite TA, TB, A, B. reflexivity. Qed.
Lemma add_num a b m n : vholds a (CNum m) -> vholds b (CNum n) -> v_add R a b = Ok (vNum (n_add R m n)).
Proof. intros A B. pose proof (num2 (fun x y => Ok (n_add R x y)) (fun x y => Ok (i_add R x y)) a b m n A B) as H. apply vholds_inv in A. unfold v_add. destruct A as [-> _]. exact H. Qed.
Lemma add_itv a b m n : vholds a (CItv m) -> vholds b (CItv n) -> v_add R a b = Ok (vItv (i_add R m n)).
Proof. intros A B. pose proof (itv2 (fun x y => Ok (n_add R x y)) (fun x y => Ok (i_add R x y)) a b m n A B) as H. apply vholds_inv in A. unfold v_add. destruct A as [-> _]. exact H. Qed.

(** ** strings *)
Lemma on_str_ok a s f : vholds a (CStr s) -> on_str a f = (t <- f s ;; Ok (vStr t)).
Proof. intros A. apply vholds_inv in A. destruct A as [T A]. unfold on_str. now rewrite T, A. Qed.
Lemma times_copies n s : times n s = copies n s.
Proof.
  assert (C : forall m, s ++ copies m s = copies m s ++ s). { induction m as [|m IH]; cbn; [now rewrite app_nil_r|]. now rewrite app_assoc, IH. }
  induction n as [|n IH]; cbn; [reflexivity|]. now rewrite IH.
Qed.
Lemma ins_perm c s : Permutation (c :: s) (ins c s).
Proof. induction s as [|d s IH]; cbn; [reflexivity|]. destruct (schar c <=? schar d); [reflexivity|]. rewrite perm_swap. now constructor. Qed.
Definition scle (c d : ascii) : Prop := schar c <= schar d.
Lemma ins_sorted c s : StronglySorted scle s -> StronglySorted scle (ins c s).
Proof.
  induction 1 as [|d s S IH F]; cbn; [constructor; constructor|]. destruct (Z.leb_spec (schar c) (schar d)) as [H|H].
  - constructor; [now constructor|]. constructor; [exact H|]. eapply Forall_impl; [|exact F]. unfold scle. intros x. cbn. lia.
  - constructor; [exact IH|]. rewrite Forall_forall. intros x Hx. apply Permutation_sym, (Permutation_in _ (Permutation_sym (ins_perm c s))) in Hx || apply (Permutation_in _ (Permutation_sym (ins_perm c s))) in Hx.
    destruct Hx as [ <- | Hx ]; [unfold scle; lia|]. now apply (proj1 (Forall_forall _ _) F).
Qed.
Lemma sort_ok s : Permutation s (fold_right ins [] s) /\ StronglySorted scle (fold_right ins [] s).
Proof.
  induction s as [|c s [IP IS]]; cbn; [split; constructor|]. split; [|now apply ins_sorted]. rewrite <- ins_perm. now constructor.
Qed.
Lemma schar_ascii c : (code c < 128)%nat -> schar c = Z.of_nat (code c).
Proof. intros H. unfold schar. destruct (Z.ltb_spec 127 (Z.of_nat (code c))); [lia|reflexivity]. Qed.
(** unique *)
Lemma existsb_aeq c s : existsb (aeq c) s = true <-> In c s.
Proof. rewrite existsb_exists. split; [intros (x & H & E); unfold aeq in E; apply Ascii.eqb_eq in E; now subst|]. intros H. exists c. split; [exact H|]. apply Ascii.eqb_refl. Qed.
(** first occurrences, in order *)
Fixpoint firsts (seen s : str) : str :=
  match s with [] => [] | c :: s' => if existsb (aeq c) seen then firsts seen s' else c :: firsts (seen ++ [c]) s' end.
Lemma uniq_firsts s : forall out, uniq_loop s out = out ++ firsts out s.
Proof.
  induction s as [|c s IH]; intros out; cbn; [now rewrite app_nil_r|]. destruct (existsb (aeq c) out); [apply IH|]. rewrite IH, <- app_assoc. reflexivity.
Qed.
Lemma firsts_ok s : forall seen, subseq (firsts seen s) s /\ NoDup (firsts seen s) /\ (forall c, In c (firsts seen s) <-> In c s /\ ~ In c seen).
Proof.
  induction s as [|c s IH]; intros seen; cbn [firsts].
  - split; [constructor|]. split; [constructor|]. intros c. cbn. tauto.
  - destruct (existsb (aeq c) seen) eqn:E.
    + apply existsb_aeq in E. destruct (IH seen) as (A & B & C). split; [now constructor|]. split; [exact B|]. intros d. rewrite C. cbn. intuition (subst; tauto).
    + destruct (IH (seen ++ [c])) as (A & B & C). split; [now constructor|]. split.
      * constructor; [|exact B]. rewrite C. intros [_ H]. apply H, in_or_app. right. now left.
      * intros d. cbn [In]. rewrite C, in_app_iff. cbn [In]. destruct (ascii_dec c d) as [ <- |N].
        -- split; [|tauto]. intros _. split; [now left|]. intros H. apply existsb_aeq in H. congruence.
        -- split; [intros [H|[H1 H2]]; [contradiction|tauto]|]. intros [[H|H] H2]; [contradiction|]. right. split; [exact H|]. intros [H3|[H3|[]]]; congruence.
Qed.
(** white space *)
Lemma isspace_spec c : isspace c = true <-> spaceC c.
Proof.
  unfold isspace, spaceC. rewrite orb_true_iff, andb_true_iff, Nat.eqb_eq, !Nat.leb_le. cbn [In]. split; [intros [H|[H1 H2]]|intros H]; lia.
Qed.
Lemma space_int c : (code c < 128)%nat \/ code c = 255%nat -> isspace_int c = Ok (isspace c).
Proof.
  intros [H|H]; unfold isspace_int; [now rewrite (proj2 (Nat.ltb_lt _ _) H)|]. destruct (Nat.ltb_spec (code c) 128); [reflexivity|]. rewrite (proj2 (Nat.eqb_eq _ _) H).
  unfold isspace. rewrite H. reflexivity.
Qed.
Lemma lstrip_ok s : ctypeC s -> exists t, lstrip s = Ok t /\ ltrimmed s t /\ ctypeC t.
Proof.
  induction 1 as [|c s Hc F IH]; cbn [lstrip]; [exists []; split; [reflexivity|]; split; [exists []; repeat constructor|constructor]|].
  rewrite (space_int c Hc). cbn [bind]. destruct (isspace c) eqn:E.
  - destruct IH as (t & Et & (w & Ew & Fw & Ht) & At). exists t. split; [exact Et|]. split; [|exact At]. exists (c :: w). split; [cbn; now rewrite Ew|].
    split; [constructor; [now apply isspace_spec|exact Fw]|exact Ht].
  - exists (c :: s). split; [reflexivity|]. split; [|now constructor]. exists []. split; [reflexivity|]. split; [constructor|]. intros K. apply isspace_spec in K. congruence.
Qed.
Lemma rstrip_ok s : ctypeC s -> exists t, rstrip s = Ok t /\ rtrimmed s t /\ ctypeC t.
Proof.
  intros F. destruct (lstrip_ok (rev s)) as (t & Et & (w & Ew & Fw & Ht) & At); [now apply Forall_rev|]. exists (rev t). unfold rstrip. rewrite Et. cbn [bind]. split; [reflexivity|].
  split; [|now apply Forall_rev]. exists (rev w). split; [rewrite <- (rev_involutive s), Ew, rev_app_distr; reflexivity|]. split; [now apply Forall_rev|].
  intros u c E. apply (f_equal (@rev ascii)) in E. rewrite rev_involutive, rev_app_distr in E. cbn in E. subst t. exact Ht.
Qed.
(** the trimmed string is unique *)
Lemma ltrim_unique s t t' : ltrimmed s t -> ltrimmed s t' -> t = t'.
Proof.
  intros (w & -> & F & H) (w' & E & F' & H'). revert w' E F'. induction F as [|c w Hc F IH]; intros w' E F'; cbn [app] in E.
  - destruct w' as [|c' w']; [exact E|]. cbn in E. subst t. inversion F'; subst. contradiction.
  - destruct w' as [|c' w']; cbn in E; [subst t'; contradiction|]. injection E as <- E. inversion F'; subst. now apply (IH w').
Qed.
(** case *)
Lemma lower_ok c : lower_of c (tolower c).
Proof.
  unfold lower_of, tolower, is_upper. split; intros H.
  - rewrite (proj2 (Nat.leb_le _ _) (proj1 H)), (proj2 (Nat.leb_le _ _) (proj2 H)). cbn [andb]. unfold code at 1. apply nat_ascii_embedding. unfold code in *. lia.
  - destruct (Nat.leb_spec 65 (code c)); destruct (Nat.leb_spec (code c) 90); cbn [andb]; try reflexivity. exfalso. apply H. lia.
Qed.
Lemma upper_ok c : upper_of c (toupper c).
Proof.
  unfold upper_of, toupper, is_lower. split; intros H.
  - rewrite (proj2 (Nat.leb_le _ _) (proj1 H)), (proj2 (Nat.leb_le _ _) (proj2 H)). cbn [andb]. unfold code at 1. apply nat_ascii_embedding. unfold code in *. lia.
  - destruct (Nat.leb_spec 97 (code c)); destruct (Nat.leb_spec (code c) 122); cbn [andb]; try reflexivity. exfalso. apply H. lia.
Qed.
Lemma map_F2 {A B} (f : A -> B) (P : A -> B -> Prop) l : (forall a, P a (f a)) -> Forall2 P l (map f l).
Proof. intros H. induction l; constructor; auto. Qed.
(** toInteger of a number with an integral value *)
Lemma toInt32_ok z : -2147483648 <= z <= 2147483647 -> toInt32 z = Ok z.
Proof. intros H. unfold toInt32. destruct (Z.ltb_spec 2147483647 z); [lia|]. destruct (Z.ltb_spec z (-2147483648)); [lia|]. reflexivity. Qed.
