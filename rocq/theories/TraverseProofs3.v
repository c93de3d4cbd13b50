(** The default rules reach a normal form in one pass; models. *)
From Coq Require Import QArith Qcanon.
From Verif Require Import Base KindModel SortModel TermModel OpModel Sem SemProofs OpSpec BVProofs BVProofs2 DagProofs ParseModel ParseProofs
  TraverseModel TraverseSpec TraverseProofs TraverseProofs2.
Open Scope nat_scope.

(** ** one pass is enough *)
Lemma normal_ch t x : normal t -> In x (t_ch t) -> normal x.
Proof. intros H Hx p Hp. apply H. eapply Sub_ch; eassumption. Qed.
Lemma normal_mk t : ~ redex t -> Forall normal (t_ch t) -> normal t.
Proof.
  intros H HF p Hp. inversion Hp as [|? x ? Hx Hs]; subst; [exact H|]. rewrite Forall_forall in HF. now apply (HF x).
Qed.
Lemma redex_kind t : redex t -> t_kind t = NT_NOT \/ t_kind t = NT_AND \/ t_kind t = NT_ADD.
Proof. intros [(?&?&?&?&->&_)|[(?&?&?&?&->&_)|(?&?&?&?&->&_)]]; cbn; auto. Qed.
Lemma normal_TRUE : normal TRUE.
Proof. apply normal_mk; [|constructor]. intros H. apply redex_kind in H. destruct H as [H|[H|H]]; discriminate. Qed.
Lemma normal_FALSE : normal FALSE.
Proof. apply normal_mk; [|constructor]. intros H. apply redex_kind in H. destruct H as [H|[H|H]]; discriminate. Qed.
Lemma default_total dbg t : exists u, dispatch dbg default_rules t = Ok (Some u).
Proof. unfold dispatch, default_rules. cbn [ru_on ru_else]. destruct (t_kind t); cbn [bind]; eexists; reflexivity. Qed.
Lemma okinj (a b : term) : Ok (Some a) = Ok (Some b) -> a = b. Proof. congruence. Qed.
Lemma fallback_id t : ruleFallback t = t. Proof. unfold ruleFallback. now apply rebuild_id. Qed.
Lemma default_normal dbg t u : Forall normal (t_ch t) -> dispatch dbg default_rules t = Ok (Some u) -> normal u.
Proof.
  intros HF H.
  assert (HF' : forall x, In x (t_ch t) -> normal x) by now apply Forall_forall.
  assert (Oth : t_kind t <> NT_NOT -> t_kind t <> NT_AND -> t_kind t <> NT_ADD -> normal t).
  { intros N1 N2 N3. apply normal_mk; [|exact HF]. intros R. apply redex_kind in R. intuition. }
  unfold dispatch, default_rules in H. cbn [ru_on ru_else] in H.
  destruct t as [k s n ch]. cbn [t_kind t_ch] in *.
  destruct k; cbn [bind] in H; apply okinj in H; subst u; rewrite ?fallback_id; try (apply Oth; discriminate).
  - unfold ruleAND. cbn [t_ch].
    destruct ch as [|l [|r [|x ch]]].
    1,2: apply normal_mk; [|exact HF]; intros [(?&?&?&?&E&_)|[(?&?&?&?&E&_)|(?&?&?&?&E&_)]]; discriminate.
    + destruct (isFalse l || isFalse r) eqn:E1; [apply normal_FALSE|].
      destruct (isTrue l) eqn:E2; [apply HF'; right; now left|]. destruct (isTrue r) eqn:E3; [apply HF'; now left|].
      destruct (teq l r) eqn:E4; [apply HF'; now left|]. rewrite rebuild_id by reflexivity.
      apply normal_mk; [|exact HF]. apply orb_false_iff in E1. destruct E1 as [E0 E1].
      intros [(?&?&?&?&E&_)|[(?&?&a&b&E&D)|(?&?&?&?&E&_)]]; try discriminate. injection E as <- <- <- <-.
      destruct D as [D|[D|[D|[D|D]]]]; try congruence. subst. rewrite teq_refl in E4. discriminate.
    + rewrite rebuild_id by reflexivity. apply normal_mk; [|exact HF]. intros [(?&?&?&?&E&_)|[(?&?&?&?&E&_)|(?&?&?&?&E&_)]]; discriminate.
  - unfold ruleNOT. cbn [t_ch]. destruct ch as [|a l].
    + apply normal_mk; [|exact HF]. intros [(?&?&?&?&E&_)|[(?&?&?&?&E&_)|(?&?&?&?&E&_)]]; discriminate.
    + destruct (isk NT_NOT a && (1 <=? length (t_ch a))) eqn:E1.
      { apply andb_true_iff in E1. destruct E1 as [_ E1]. pose proof (HF' a (or_introl eq_refl)) as Ha.
        destruct (t_ch a) as [|b l'] eqn:Ec; [discriminate|]. cbn [hd]. apply (normal_ch a); [exact Ha|]. rewrite Ec. now left. }
      destruct (isTrue a) eqn:E2; [apply normal_FALSE|]. destruct (isFalse a) eqn:E3; [apply normal_TRUE|].
      rewrite (rebuild_1 _ a l) by reflexivity. apply normal_mk; [|exact HF].
      intros [(?&?&a'&?&E&D)|[(?&?&?&?&E&_)|(?&?&?&?&E&_)]]; try discriminate. injection E as <- <- <- <-.
      destruct D as [(?&?&?&?&->)|[D|D]]; [|congruence|congruence]. cbn in E1. discriminate.
  - unfold ruleADD. cbn [t_ch].
    destruct ch as [|l [|r [|x ch]]].
    1,2: apply normal_mk; [|exact HF]; intros [(?&?&?&?&E&_)|[(?&?&?&?&E&_)|(?&?&?&?&E&_)]]; discriminate.
    + destruct (rw_isZero l) eqn:E1; [apply HF'; right; now left|]. destruct (rw_isZero r) eqn:E2; [apply HF'; now left|].
      rewrite rebuild_id by reflexivity. apply normal_mk; [|exact HF].
      intros [(?&?&?&?&E&_)|[(?&?&?&?&E&_)|(?&?&a&b&E&D)]]; try discriminate. injection E as <- <- <- <-.
      destruct D; congruence.
    + rewrite rebuild_id by reflexivity. apply normal_mk; [|exact HF]. intros [(?&?&?&?&E&_)|[(?&?&?&?&E&_)|(?&?&?&?&E&_)]]; discriminate.
Qed.
Lemma default_fix dbg t : ~ redex t -> dispatch dbg default_rules t = Ok (Some t).
Proof.
  intros R. destruct t as [k s n ch].
  unfold dispatch, default_rules. cbn [ru_on ru_else t_kind].
  destruct k; cbn [bind]; rewrite ?fallback_id; try reflexivity; do 2 f_equal.
  - unfold ruleAND. cbn [t_ch]. destruct ch as [|l [|r [|x ch]]]; try reflexivity; rewrite ?rebuild_id by reflexivity; try reflexivity.
    assert (K : forall P : Prop, P -> (P -> isFalse l = true \/ isFalse r = true \/ isTrue l = true \/ isTrue r = true \/ l = r) -> False).
    { intros P HP D. apply R. right. left. exists s, n, l, r. split; [reflexivity|now apply D]. }
    destruct (isFalse l) eqn:E0; [exfalso; apply (K _ E0); auto|]. destruct (isFalse r) eqn:E1; [exfalso; apply (K _ E1); auto|]. cbn [orb].
    destruct (isTrue l) eqn:E2; [exfalso; apply (K _ E2); auto|]. destruct (isTrue r) eqn:E3; [exfalso; apply (K _ E3); auto|].
    destruct (teq l r) eqn:E4; [|reflexivity]. apply teq_spec in E4. exfalso. apply (K _ E4); auto 6.
  - unfold ruleNOT. cbn [t_ch]. destruct ch as [|a l]; [reflexivity|]. rewrite (rebuild_1 _ a l) by reflexivity.
    assert (K : forall P : Prop, P -> (P -> (exists s' n' b l', a = T NT_NOT s' n' (b :: l')) \/ isTrue a = true \/ isFalse a = true) -> False).
    { intros P HP D. apply R. left. exists s, n, a, l. split; [reflexivity|now apply D]. }
    destruct (isk NT_NOT a && (1 <=? length (t_ch a))) eqn:E1.
    + exfalso. apply (K _ E1). intros _. left. apply andb_true_iff in E1. destruct E1 as [E1 E2]. apply keq_spec in E1.
      destruct a as [k' s' n' [|b l']]; [discriminate|]. cbn [t_kind] in E1. subst k'. eauto.
    + destruct (isTrue a) eqn:E2; [exfalso; apply (K _ E2); auto|]. destruct (isFalse a) eqn:E3; [exfalso; apply (K _ E3); auto|]. reflexivity.
  - unfold ruleADD. cbn [t_ch]. destruct ch as [|l [|r [|x ch]]]; try reflexivity; rewrite ?rebuild_id by reflexivity; try reflexivity.
    assert (K : forall P : Prop, P -> (P -> rw_isZero l = true \/ rw_isZero r = true) -> False).
    { intros P HP D. apply R. right. right. exists s, n, l, r. split; [reflexivity|now apply D]. }
    destruct (rw_isZero l) eqn:E0; [exfalso; apply (K _ E0); auto|]. destruct (rw_isZero r) eqn:E1; [exfalso; apply (K _ E1); auto|]. reflexivity.
Qed.
Lemma rpure_default dbg t : exists u, rpure dbg default_rules t = Ok (Some u) /\ normal u.
Proof.
  induction t as [k s n ch IH] using term_ind'. cbn [rpure].
  assert (G : exists ls, mapO (rpure dbg default_rules) ch = Ok (map Some ls) /\ Forall normal ls /\ length ls = length ch).
  { induction IH as [|x l (u & Eu & Nu) _ (ls & El & Nl & Ll)]; [now exists []|]. exists (u :: ls). cbn [mapO]. fold (mapO (rpure dbg default_rules)).
    rewrite Eu. cbn [bind]. rewrite El. cbn. auto. }
  destruct G as (ls & -> & Nl & Ll). cbn [bind]. unfold rebuildOpt.
  assert (all_some (map Some ls) = Some ls) as -> by (clear; induction ls as [|x l IH]; cbn; [reflexivity|now rewrite IH]).
  cbn [bind rebuildLike]. rewrite Ll, Nat.eqb_refl. destruct (default_total dbg (T k s n ls)) as (u & Eu). exists u. split; [exact Eu|].
  eapply default_normal; [|exact Eu]. exact Nl.
Qed.
Lemma rpure_normal dbg t : normal t -> rpure dbg default_rules t = Ok (Some t).
Proof.
  induction t as [k s n ch IH] using term_ind'. intros N. cbn [rpure].
  assert (mapO (rpure dbg default_rules) ch = Ok (map Some ch)) as ->.
  { assert (HN : Forall normal ch) by (rewrite Forall_forall; intros x Hx; now apply (normal_ch _ x N)).
    clear N. induction IH as [|x l Hx _ IHl]; [reflexivity|]. inversion HN; subst. cbn [mapO]. fold (mapO (rpure dbg default_rules)).
    rewrite Hx by assumption. cbn [bind]. rewrite IHl by assumption. reflexivity. }
  cbn [bind]. unfold rebuildOpt. assert (all_some (map Some ch) = Some ch) as -> by (clear; induction ch as [|x l IH]; cbn; [reflexivity|now rewrite IH]).
  cbn [bind rebuildLike]. rewrite Nat.eqb_refl. apply default_fix. apply N. constructor.
Qed.
(** with or without fixpoint, with any bound of at least one round: one pass *)
Lemma rewrite_default dbg fixpoint max t : (fixpoint = true -> 1 <= max) ->
  exists u, rewrite dbg default_rules fixpoint max t = Ok (Some u) /\ rpure dbg default_rules t = Ok (Some u) /\ normal u.
Proof.
  intros Hm. destruct (rpure_default dbg t) as (u & Eu & Nu). exists u. split; [|auto]. unfold rewrite. destruct fixpoint.
  - specialize (Hm eq_refl). destruct max as [|m]; [lia|]. rewrite rounds_pure. cbn [rpure_n]. rewrite Eu. cbn [bind]. destruct (teq u t); [reflexivity|].
    destruct m as [|m]; [reflexivity|]. cbn [rpure_n]. rewrite (rpure_normal dbg u Nu). cbn [bind]. now rewrite teq_refl.
  - rewrite once_pure by apply correct_nil. exact Eu.
Qed.
(** a normal term is returned unchanged *)
Lemma rewrite_normal dbg fixpoint max t : normal t -> rewrite dbg default_rules fixpoint max t = Ok (Some t).
Proof.
  intros N. unfold rewrite. destruct fixpoint; [|rewrite once_pure by apply correct_nil; now apply rpure_normal].
  rewrite rounds_pure. destruct max as [|m]; [reflexivity|]. cbn [rpure_n]. rewrite (rpure_normal dbg t N). cbn [bind]. now rewrite teq_refl.
Qed.

(** ** models *)
Fixpoint indexed (i : nat) (l : list str) (m : smap nat) : Prop :=
  match l with [] => True | n :: l' => mget n m = Some i /\ indexed (S i) l' m end.
Definition m_inv (m : model) (ns : list str) (vs : list term) : Prop :=
  map t_name (m_vars m) = ns /\ m_vals m = vs /\ length vs = length ns /\ NoDup ns /\
  (forall n i, mget n (m_idx m) = Some i <-> nth_error ns i = Some n).
Lemma mget_mins_new {A} k k' (a : A) m : mget k' m = None -> mget k (mins k' a m) = if seq_str k' k then Some a else mget k m.
Proof.
  intros H. rewrite mget_mins. destruct (seq_str k' k) eqn:E; [|reflexivity]. apply seq_str_spec in E. subst. now rewrite H.
Qed.
Lemma set_nth_len i v l : length (set_nth i v l) = length l.
Proof. revert i. induction l as [|x l IH]; intros [|i]; cbn; congruence. Qed.
Lemma set_nth_get i v l j : i < length l -> nth_error (set_nth i v l) j = if j =? i then Some v else nth_error l j.
Proof.
  revert i j. induction l as [|x l IH]; intros i j Hi; [cbn in Hi; lia|]. destruct i as [|i], j as [|j]; cbn; try reflexivity.
  rewrite IH by (cbn in Hi; lia). reflexivity.
Qed.
(** the state of a model, against the history *)
Definition agrees (l : list update) (m : model) : Prop :=
  map t_name (m_vars m) = order l /\ length (m_vals m) = length (order l) /\ NoDup (order l) /\
  (forall n i, mget n (m_idx m) = Some i <-> nth_error (order l) i = Some n) /\
  (forall n, after l n = MNone <-> ~ In n (order l)) /\
  (forall n i, nth_error (order l) i = Some n -> nth_error (m_vals m) i = Some (m_result (after l n))).
Lemma agrees_nil : agrees [] newModel.
Proof.
  repeat split; cbn; try constructor; try tauto.
  - discriminate.
  - destruct i; discriminate.
  - intros n i H. destruct i; discriminate.
Qed.
Lemma after_app l u n : after (l ++ [u]) n = upd1 u n (after l n).
Proof. unfold after. now rewrite fold_left_app. Qed.
Lemma order_app l u : order (l ++ [u]) = order1 (order l) u.
Proof. unfold order. now rewrite fold_left_app. Qed.
Lemma in_exists n l : existsb (seq_str n) l = true <-> In n l.
Proof.
  rewrite existsb_exists. split; [intros (x & H & E); apply seq_str_spec in E; now subst|]. intros H. exists n. split; [exact H|now apply seq_str_spec].
Qed.
Lemma nth_app_new {A} (l : list A) x i y : nth_error (l ++ [x]) i = Some y <-> nth_error l i = Some y \/ (i = length l /\ y = x).
Proof.
  destruct (Nat.lt_ge_cases i (length l)) as [H|H].
  - rewrite nth_error_app1 by exact H. split; [auto|]. intros [E|[E _]]; [exact E|lia].
  - rewrite nth_error_app2 by exact H. assert (nth_error l i = None) as -> by now apply nth_error_None.
    destruct (i - length l) as [|d] eqn:E; cbn.
    + split; [intros K; injection K as <-; right; split; [lia|reflexivity]|]. intros [K|[_ ->]]; [discriminate|reflexivity].
    + split; [destruct d; discriminate|]. intros [K|[K _]]; [discriminate|lia].
Qed.
Lemma nodup_snoc {A} (l : list A) x : NoDup l -> ~ In x l -> NoDup (l ++ [x]).
Proof.
  induction l as [|y l IH]; intros H N; [constructor; [cbn; tauto|constructor]|]. inversion H; subst. cbn. constructor.
  - rewrite in_app_iff. cbn. intros [K|[K|[]]]; [contradiction|]. subst. apply N. now left.
  - apply IH; [assumption|]. intros K. apply N. now right.
Qed.
(** a new variable *)
Lemma agrees_new l u m x v : agrees l m -> ~ In (t_name x) (order l) ->
  order (l ++ [u]) = order l ++ [t_name x] -> (forall n, upd1 u n (after l n) = if seq_str (t_name x) n then (after (l ++ [u]) (t_name x)) else after l n) ->
  after (l ++ [u]) (t_name x) <> MNone -> m_result (after (l ++ [u]) (t_name x)) = v ->
  agrees (l ++ [u]) (Model (mins (t_name x) (length (m_vars m)) (m_idx m)) (m_vars m ++ [x]) (m_vals m ++ [v])).
Proof.
  intros (A1 & A2 & A3 & A4 & A5 & A6) HN HO HU HM HR. unfold agrees. rewrite HO. cbn [m_idx m_vars m_vals].
  assert (Lv : length (m_vars m) = length (order l)) by (rewrite <- A1; now rewrite map_length).
  assert (Nn : mget (t_name x) (m_idx m) = None).
  { destruct (mget (t_name x) (m_idx m)) as [i|] eqn:E; [|reflexivity]. apply A4 in E. apply nth_error_In in E. contradiction. }
  split; [now rewrite map_app, A1|]. split; [rewrite !app_length; cbn; lia|].
  split. { apply nodup_snoc; assumption. }
  split.
  { intros n i. rewrite mget_mins_new by exact Nn. rewrite nth_app_new. destruct (seq_str (t_name x) n) eqn:E.
    - apply seq_str_spec in E. subst n. split; [intros K; injection K as <-; right; split; [lia|reflexivity]|].
      intros [K|[-> _]]; [apply nth_error_In in K; contradiction|]. now rewrite Lv.
    - rewrite A4. split; [auto|]. intros [K|[_ ->]]; [exact K|]. rewrite (proj2 (seq_str_spec _ _) eq_refl) in E. discriminate. }
  split.
  { intros n. rewrite after_app, HU, in_app_iff. destruct (seq_str (t_name x) n) eqn:E.
    - apply seq_str_spec in E. subst n. split; [contradiction|]. cbn. tauto.
    - rewrite A5. split; [|tauto]. intros K [K'|[K'|[]]]; [contradiction|]. subst n. rewrite (proj2 (seq_str_spec _ _) eq_refl) in E. discriminate. }
  intros n i. rewrite nth_app_new. intros [K|[-> ->]].
  - assert (Hi : i < length (m_vals m)) by (rewrite A2; apply nth_error_Some; congruence).
    rewrite nth_error_app1 by exact Hi. rewrite (A6 _ _ K). rewrite after_app, HU. destruct (seq_str (t_name x) n) eqn:E; [|reflexivity].
    apply seq_str_spec in E. subst n. apply nth_error_In in K. contradiction.
  - rewrite nth_error_app2 by lia. rewrite A2, Nat.sub_diag. cbn. now rewrite HR.
Qed.
(** a value for a known name *)
Lemma agrees_set l u m n v i : agrees l m -> mget n (m_idx m) = Some i -> order (l ++ [u]) = order l ->
  (forall n', upd1 u n' (after l n') = if seq_str n n' then MVal v else after l n') ->
  vec_set i v (m_vals m) = Ok (set_nth i v (m_vals m)) /\
  forall idx, (forall k, mget k idx = mget k (m_idx m)) -> agrees (l ++ [u]) (Model idx (m_vars m) (set_nth i v (m_vals m))).
Proof.
  intros (A1 & A2 & A3 & A4 & A5 & A6) Hi HO HU. pose proof (proj1 (A4 n i) Hi) as Hn.
  assert (Li : i < length (m_vals m)) by (rewrite A2; apply nth_error_Some; congruence).
  split. { unfold vec_set. apply Nat.ltb_lt in Li. now rewrite Li. }
  intros idx Hx. unfold agrees. rewrite HO. cbn [m_idx m_vars m_vals]. split; [exact A1|]. split; [now rewrite set_nth_len|]. split; [exact A3|].
  split; [intros; rewrite Hx; apply A4|]. split.
  - intros n'. rewrite after_app, HU. destruct (seq_str n n') eqn:E; [|apply A5]. apply seq_str_spec in E. subst n'.
    split; [discriminate|]. intros K. exfalso. apply K. eapply nth_error_In; exact Hn.
  - intros n' j Hj. rewrite set_nth_get by exact Li. rewrite after_app, HU. destruct (seq_str n n') eqn:E.
    + apply seq_str_spec in E. subst n'. assert (j = i) as ->. { apply (proj2 (A4 n j)) in Hj. congruence. } now rewrite Nat.eqb_refl.
    + destruct (j =? i) eqn:Ej; [|now apply A6]. apply Nat.eqb_eq in Ej. subst j. rewrite Hn in Hj. injection Hj as <-.
      rewrite (proj2 (seq_str_spec _ _) eq_refl) in E. discriminate.
Qed.
Lemma agrees_step dbg l u m : agrees l m -> match u with UAddName n _ => after l n <> MNone | _ => True end ->
  exists m', m_apply dbg u m = Ok m' /\ agrees (l ++ [u]) m'.
Proof.
  intros HA Hk. pose proof HA as (A1 & A2 & A3 & A4 & A5 & A6). destruct u as [x v|n v|x| |]; cbn [m_apply].
  - unfold m_add. destruct (mget (t_name x) (m_idx m)) as [i|] eqn:E.
    + assert (Hin : In (t_name x) (order l)) by (apply A4 in E; eapply nth_error_In; exact E).
      assert (HO : order (l ++ [UAdd x v]) = order l). { rewrite order_app. cbn. apply in_exists in Hin. now rewrite Hin. }
      destruct (agrees_set l (UAdd x v) m (t_name x) v i HA E HO ltac:(reflexivity)) as [-> K]. cbn [bind].
      eexists. split; [reflexivity|]. now apply K.
    + assert (Hin : ~ In (t_name x) (order l)).
      { intros K. apply In_nth_error in K. destruct K as [i K]. apply A4 in K. congruence. }
      eexists. split; [reflexivity|]. apply agrees_new; try exact HA; try exact Hin.
      * rewrite order_app. cbn. destruct (existsb (seq_str (t_name x)) (order l)) eqn:Ex; [apply in_exists in Ex; contradiction|reflexivity].
      * intros n'. rewrite after_app. cbn. now rewrite (proj2 (seq_str_spec (t_name x) (t_name x)) eq_refl).
      * rewrite after_app. cbn. rewrite (proj2 (seq_str_spec (t_name x) (t_name x)) eq_refl). discriminate.
      * rewrite after_app. cbn. now rewrite (proj2 (seq_str_spec (t_name x) (t_name x)) eq_refl).
  - unfold m_addName. destruct (mget n (m_idx m)) as [i|] eqn:E.
    + destruct (agrees_set l (UAddName n v) m n v i HA E ltac:(now rewrite order_app) ltac:(reflexivity)) as [-> K].
      exists (Model (mins n 0 (m_idx m)) (m_vars m) (set_nth i v (m_vals m))). split; [destruct dbg; reflexivity|].
      apply K. intros k. rewrite mget_mins. destruct (seq_str n k) eqn:Es; [|reflexivity]. apply seq_str_spec in Es. subst k. now rewrite E.
    + exfalso. apply Hk. apply A5. intros K. apply In_nth_error in K. destruct K as [i K]. apply A4 in K. congruence.
  - unfold m_addVar. eexists. split; [reflexivity|]. destruct (mget (t_name x) (m_idx m)) as [i|] eqn:E.
    + assert (Hin : In (t_name x) (order l)) by (apply A4 in E; eapply nth_error_In; exact E).
      assert (HO : order (l ++ [UAddVar x]) = order l). { rewrite order_app. cbn. apply in_exists in Hin. now rewrite Hin. }
      assert (HX : forall n, after (l ++ [UAddVar x]) n = after l n).
      { intros n. rewrite after_app. cbn. destruct (seq_str (t_name x) n) eqn:Es; [|reflexivity]. apply seq_str_spec in Es. subst n.
        destruct (after l (t_name x)) eqn:Ea; try reflexivity. apply A5 in Ea. contradiction. }
      unfold agrees. rewrite HO. split; [exact A1|]. split; [exact A2|]. split; [exact A3|]. split; [exact A4|].
      split; [intros; rewrite HX; apply A5|intros; rewrite HX; now apply A6].
    + assert (Hin : ~ In (t_name x) (order l)).
      { intros K. apply In_nth_error in K. destruct K as [i K]. apply A4 in K. congruence. }
      assert (Ha : after l (t_name x) = MNone) by now apply A5.
      apply agrees_new; try exact HA; try exact Hin.
      * rewrite order_app. cbn. destruct (existsb (seq_str (t_name x)) (order l)) eqn:Ex; [apply in_exists in Ex; contradiction|reflexivity].
      * intros n'. rewrite after_app. cbn. rewrite (proj2 (seq_str_spec (t_name x) (t_name x)) eq_refl). rewrite Ha.
        destruct (seq_str (t_name x) n') eqn:Es; [|reflexivity]. apply seq_str_spec in Es. subst n'. now rewrite Ha.
      * rewrite after_app. cbn. rewrite (proj2 (seq_str_spec (t_name x) (t_name x)) eq_refl), Ha. discriminate.
      * rewrite after_app. cbn. now rewrite (proj2 (seq_str_spec (t_name x) (t_name x)) eq_refl), Ha.
  - eexists. split; [reflexivity|]. unfold agrees, m_clear. rewrite order_app. cbn [order1]. split; [reflexivity|]. split; [reflexivity|]. split; [constructor|].
    split; [intros n i; cbn; split; [discriminate|destruct i; discriminate]|]. split; [intros n; rewrite after_app; cbn; tauto|].
    intros n i K. destruct i; discriminate.
  - eexists. split; [reflexivity|]. unfold agrees, m_clearValues. cbn [m_vars m_vals m_idx]. rewrite order_app. cbn [order1].
    split; [exact A1|]. split; [rewrite map_length, <- A1; now rewrite map_length|]. split; [exact A3|]. split; [exact A4|].
    split.
    + intros n. rewrite after_app. cbn. rewrite <- A5. destruct (after l n); split; congruence.
    + intros n i K. rewrite after_app. cbn. assert (m_result match after l n with MNone => MNone | _ => MUnset end = UNKNOWN) as -> by now destruct (after l n).
      rewrite nth_error_map. rewrite <- A1 in K. rewrite nth_error_map in K. destruct (nth_error (m_vars m) i); [reflexivity|discriminate].
Qed.
Lemma agrees_run dbg l : forall done m, agrees done m -> names_known l done -> exists m', m_run dbg l m = Ok m' /\ agrees (done ++ l) m'.
Proof.
  induction l as [|u l IH]; intros done m HA HK; [exists m; now rewrite app_nil_r|]. cbn [names_known] in HK. destruct HK as [H1 H2].
  destruct (agrees_step dbg done u m HA H1) as (m1 & E1 & A1). destruct (IH _ m1 A1 H2) as (m' & E' & A'). exists m'.
  rewrite <- app_assoc in A'. split; [|exact A']. unfold m_run in *. cbn [foldM]. rewrite E1. exact E'.
Qed.
Lemma agrees_get l m n : agrees l m -> m_getName n m = Ok (m_result (after l n)).
Proof.
  intros (_ & A2 & _ & A4 & A5 & A6). unfold m_getName. destruct (mget n (m_idx m)) as [i|] eqn:E.
  - apply A4 in E. unfold vec_get. now rewrite (A6 _ _ E).
  - assert (after l n = MNone) as ->; [|reflexivity]. apply A5. intros K. apply In_nth_error in K. destruct K as [i K]. apply A4 in K. congruence.
Qed.
Lemma nth_ext_err {A} (a b : list A) : (forall i, nth_error a i = nth_error b i) -> a = b.
Proof.
  revert b. induction a as [|x a IH]; intros [|y b] H; [reflexivity|specialize (H 0); discriminate|specialize (H 0); discriminate|].
  pose proof (H 0) as H0. cbn in H0. injection H0 as ->. f_equal. apply IH. intros i. exact (H (S i)).
Qed.
Lemma agrees_vals l m : agrees l m -> m_vals m = map (fun n => m_result (after l n)) (order l).
Proof.
  intros (_ & A2 & _ & _ & _ & A6). apply nth_ext_err. intros i. rewrite nth_error_map. destruct (nth_error (order l) i) as [n|] eqn:E; cbn.
  - now apply A6.
  - apply nth_error_None in E. apply nth_error_None. lia.
Qed.
Lemma agrees_pairs l m : agrees l m -> m_getPairs m = map (fun n => (n, m_result (after l n))) (order l).
Proof.
  intros H. unfold m_getPairs. rewrite (agrees_vals l m H). destruct H as [-> _]. clear. induction (order l) as [|n ns IH]; cbn; [reflexivity|].
  now rewrite IH.
Qed.
Lemma agrees_size l m : agrees l m -> m_size m = length (order l).
Proof. intros (<- & _). unfold m_size. now rewrite map_length. Qed.
Lemma agrees_full l m : agrees l m -> m_isFull m = true <-> forall n, In n (order l) -> isUnknown (m_result (after l n)) = false.
Proof.
  intros H. unfold m_isFull. rewrite (agrees_vals l m H), negb_true_iff. split.
  - intros K n Hn. destruct (isUnknown (m_result (after l n))) eqn:E; [|reflexivity].
    assert (existsb isUnknown (map (fun n => m_result (after l n)) (order l)) = true); [|congruence].
    apply existsb_exists. exists (m_result (after l n)). split; [|exact E]. apply in_map_iff. eauto.
  - intros K. destruct (existsb isUnknown _) eqn:E; [|reflexivity]. apply existsb_exists in E. destruct E as (v & Hv & E).
    apply in_map_iff in Hv. destruct Hv as (n & <- & Hn). rewrite K in E by exact Hn. discriminate.
Qed.
Lemma agrees_empty l m : agrees l m -> m_isEmpty m = true <-> forall n, In n (order l) -> isUnknown (m_result (after l n)) = true.
Proof.
  intros H. unfold m_isEmpty. rewrite (agrees_vals l m H), forallb_forall. split.
  - intros K n Hn. apply K. apply in_map_iff. eauto.
  - intros K v Hv. apply in_map_iff in Hv. destruct Hv as (n & <- & Hn). auto.
Qed.
