(** The default rewrite rules; models. *)
From Coq Require Import QArith Qcanon.
From Verif Require Import Base KindModel SortModel TermModel OpModel Sem SemProofs OpSpec BVProofs BVProofs2 DagProofs ParseModel ParseProofs
  TraverseModel TraverseSpec TraverseProofs.
Open Scope nat_scope.

(** ** the default rules keep the value *)
Lemma rebuild_id t l : l = t_ch t -> rebuildLike t l = t.
Proof. destruct t as [k s n ch]. cbn. intros ->. now rewrite Nat.eqb_refl. Qed.
Lemma rebuild_1 t a l : t_ch t = a :: l -> rebuildLike t [a] = t.
Proof. destruct t as [k s n ch]. cbn. intros ->. cbn. destruct l; reflexivity. Qed.
Lemma boolv_eq a b : equiv a b -> boolv b -> boolv a.
Proof. intros H Hb I e. rewrite H. apply Hb. Qed.
Lemma numv_eq a b : equiv a b -> numv b -> numv a.
Proof. intros H Hb I e. rewrite H. apply Hb. Qed.
Lemma true_eval t : isTrue t = true -> t_ch t = [] -> equiv t TRUE.
Proof. destruct t as [k s n ch]. cbn [t_ch]. intros H -> I e. unfold isTrue, isk in H. cbn in H. destruct k; try discriminate. reflexivity. Qed.
Lemma false_eval t : isFalse t = true -> t_ch t = [] -> equiv t FALSE.
Proof. destruct t as [k s n ch]. cbn [t_ch]. intros H -> I e. unfold isFalse, isk in H. cbn in H. destruct k; try discriminate. reflexivity. Qed.
Lemma sane_TRUE : allP sane_node TRUE.
Proof.
  intros p H. inversion H as [|? ? ? Hx]; subst; [|destruct Hx]. repeat split; try discriminate; cbn; try tauto; try (intros []; discriminate); try (intros; exfalso; intuition discriminate).
Qed.
Lemma sane_FALSE : allP sane_node FALSE.
Proof.
  intros p H. inversion H as [|? ? ? Hx]; subst; [|destruct Hx]. repeat split; try discriminate; cbn; try tauto; try (intros []; discriminate); try (intros; exfalso; intuition discriminate).
Qed.
Lemma allP_ch P t x : allP P t -> In x (t_ch t) -> allP P x.
Proof. intros H Hx p Hp. apply H. eapply Sub_ch; eassumption. Qed.
Lemma zero_eval t : rw_isZero t = true -> sane_node t -> forall I e, eval I e t = VNum (Q2Qc 0).
Proof.
  intros H (_ & _ & _ & S & _ & _) I e. unfold rw_isZero in H. apply andb_true_iff in H. destruct H as [Hc Hn].
  specialize (S Hc). assert (Hn' : t_name t = L "0" \/ t_name t = L "0.0").
  { apply orb_true_iff in Hn. destruct Hn as [E|E]; apply seq_str_spec in E; auto. }
  destruct (S Hn') as (K & C & Hs & Hz). destruct t as [k s n ch]. cbn [t_kind t_ch t_name t_sort] in *. subst k ch.
  cbn [eval]. unfold leaf_sem. change (is_leaf_var NT_CONST) with false. cbn iota. unfold cst_val.
  cbn in Hs. destruct Hs as [Hs|[Hs|[Hs|[]]]]; rewrite <- Hs in *; destruct Hn' as [-> | ->];
    first [exfalso; now apply Hz | change (int_val (L "0")) with (Some 0%Z) | idtac].
  1: reflexivity.
  all: match goal with |- context [real_val ?x] => let v := eval vm_compute in (real_val x) in
         match v with Some ?q => assert (real_val x = Some (Q2Qc 0)) as -> by (vm_compute; f_equal; apply Qc_is_canon; reflexivity) end end; reflexivity.
Qed.
Lemma sum2 a b : sumq [VNum a; VNum b] = (a + b)%Qc.
Proof. cbn. unfold num. ring. Qed.
Lemma allS t : allP sane_node t -> sane_node t. Proof. intros H. apply H. constructor. Qed.
Lemma default_keeps dbg t u : allP sane_node t -> dispatch dbg default_rules t = Ok (Some u) -> keeps sane_node t u.
Proof.
  intros HS H. pose proof (allS t HS) as (S1 & S2 & S3 & _ & S5 & _).
  assert (Same : u = t -> keeps sane_node t u) by (intros ->; split; [exact HS|split; [now intros I e|reflexivity]]).
  assert (NL : t_kind t = NT_NOT \/ t_kind t = NT_AND \/ t_kind t = NT_ADD -> leafvar t -> u = t).
  { intros K [_ L]. destruct t as [k s n ch]. cbn [t_kind] in *. destruct K as [-> |[-> | ->]]; discriminate. }
  unfold dispatch, default_rules in H. cbn [ru_on ru_else] in H.
  destruct (t_kind t) eqn:K; cbn [bind] in H; inversion H; subst u;
    try (apply Same; unfold ruleFallback; now apply rebuild_id).
  - (* and *)
    specialize (S2 eq_refl). unfold ruleAND in Same |- *. destruct (t_ch t) as [|l [|r [|x ch]]] eqn:Ec; try (apply Same; reflexivity); [|apply Same; apply rebuild_id; now rewrite Ec].
    assert (Hl : allP sane_node l) by (apply (allP_ch _ t); [exact HS|rewrite Ec; now left]).
    assert (Hr : allP sane_node r) by (apply (allP_ch _ t); [exact HS|rewrite Ec; right; now left]).
    inversion S2 as [|? ? Bl S2']; subst. inversion S2' as [|? ? Br _]; subst.
    assert (Ev : forall I e, eval I e t = VBool (truth (eval I e l) && truth (eval I e r))).
    { intros I e. destruct t as [k s n ch]. cbn [t_kind t_ch] in *. subst. apply eval_op; [discriminate|reflexivity|]. cbn. now rewrite andb_true_r. }
    assert (Tv : forall a, allP sane_node a -> isTrue a = true -> forall I e, eval I e a = VBool true).
    { intros a Ha T1 I e. pose proof (allS a Ha) as (_ & _ & _ & _ & Q5 & _). rewrite (true_eval a T1 (Q5 (or_introl T1)) I e). reflexivity. }
    assert (Fv : forall a, allP sane_node a -> isFalse a = true -> forall I e, eval I e a = VBool false).
    { intros a Ha T1 I e. pose proof (allS a Ha) as (_ & _ & _ & _ & Q5 & _). rewrite (false_eval a T1 (Q5 (or_intror T1)) I e). reflexivity. }
    assert (NV : forall v, leafvar t -> v = t) by (intros v [L _]; rewrite Ec in L; discriminate).
    destruct (isFalse l || isFalse r) eqn:E1.
    { split; [apply sane_FALSE|]. split; [|apply NV]. intros I e. rewrite Ev. apply orb_true_iff in E1.
      destruct E1 as [E1|E1]; [rewrite (Fv l Hl E1)|rewrite (Fv r Hr E1)]; cbn; rewrite ?andb_false_r; reflexivity. }
    destruct (isTrue l) eqn:E2.
    { split; [exact Hr|]. split; [|apply NV]. intros I e. rewrite Ev, (Tv l Hl E2). destruct (Br I e) as [v ->]. reflexivity. }
    destruct (isTrue r) eqn:E3.
    { split; [exact Hl|]. split; [|apply NV]. intros I e. rewrite Ev, (Tv r Hr E3). destruct (Bl I e) as [v ->]. cbn. now rewrite andb_true_r. }
    destruct (teq l r) eqn:E4.
    { apply teq_spec in E4. subst r. split; [exact Hl|]. split; [|apply NV]. intros I e. rewrite Ev. destruct (Bl I e) as [v ->]. cbn. now destruct v. }
    apply Same, rebuild_id. now rewrite Ec.
  - (* not *)
    destruct (S1 eq_refl) as [[a Ea] HB]. unfold ruleNOT in Same |- *. rewrite Ea in *. inversion HB as [|? ? Ba _]; subst.
    assert (Ha : allP sane_node a) by (apply (allP_ch _ t); [exact HS|rewrite Ea; now left]).
    assert (Ev : forall I e, eval I e t = VBool (negb (truth (eval I e a)))).
    { intros I e. destruct t as [k s n ch]. cbn [t_kind t_ch] in *. subst. apply eval_op; [discriminate|reflexivity|reflexivity]. }
    destruct (isk NT_NOT a && (1 <=? length (t_ch a))) eqn:E1.
    + apply andb_true_iff in E1. destruct E1 as [E1 E2]. apply keq_spec in E1. pose proof (allS a Ha) as (Q1 & _).
      destruct (Q1 E1) as [[b Eb] HBb]. rewrite Eb in *. cbn [hd]. inversion HBb as [|? ? Bb _]; subst.
      split; [apply (allP_ch _ a); [exact Ha|rewrite Eb; now left]|]. split; [|intros L; exfalso; destruct L as [L _]; rewrite Ea in L; discriminate].
      intros I e. rewrite Ev. destruct (Bb I e) as [v Hv].
      assert (eval I e a = VBool (negb v)) as ->.
      { destruct a as [k s n ch]. cbn [t_kind t_ch] in *. subst. apply eval_op; [discriminate|reflexivity|]. cbn. rewrite Hv. reflexivity. }
      rewrite Hv. cbn. now rewrite negb_involutive.
    + destruct (isTrue a) eqn:T1; [|destruct (isFalse a) eqn:F1].
      * split; [apply sane_FALSE|]. split; [|intros [L _]; rewrite Ea in L; discriminate].
        intros I e. rewrite Ev. pose proof (allS a Ha) as (_ & _ & _ & _ & Q5 & _). rewrite (true_eval a T1 (Q5 (or_introl T1)) I e). reflexivity.
      * split; [apply sane_TRUE|]. split; [|intros [L _]; rewrite Ea in L; discriminate].
        intros I e. rewrite Ev. pose proof (allS a Ha) as (_ & _ & _ & _ & Q5 & _). rewrite (false_eval a F1 (Q5 (or_intror F1)) I e). reflexivity.
      * apply Same. eapply rebuild_1; exact Ea.
  - (* add *)
    specialize (S3 eq_refl). unfold ruleADD in Same |- *. destruct (t_ch t) as [|l [|r [|x ch]]] eqn:Ec; try (apply Same; reflexivity); [|apply Same; apply rebuild_id; now rewrite Ec].
    assert (Hl : allP sane_node l) by (apply (allP_ch _ t); [exact HS|rewrite Ec; now left]).
    assert (Hr : allP sane_node r) by (apply (allP_ch _ t); [exact HS|rewrite Ec; right; now left]).
    inversion S3 as [|? ? Bl S3']; subst. inversion S3' as [|? ? Br _]; subst.
    assert (Ev : forall I e, eval I e t = VNum (sumq [eval I e l; eval I e r])).
    { intros I e. destruct t as [k s n ch]. cbn [t_kind t_ch] in *. subst. apply eval_op; [discriminate|reflexivity|reflexivity]. }
    assert (NV : forall v, leafvar t -> v = t) by (intros v [L _]; rewrite Ec in L; discriminate).
    destruct (rw_isZero l) eqn:E1.
    { split; [exact Hr|]. split; [|apply NV]. intros I e. rewrite Ev, (zero_eval l E1 (allS l Hl)). destruct (Br I e) as [v ->]. rewrite sum2. f_equal. ring. }
    destruct (rw_isZero r) eqn:E2.
    { split; [exact Hl|]. split; [|apply NV]. intros I e. rewrite Ev, (zero_eval r E2 (allS r Hr)). destruct (Bl I e) as [v ->]. rewrite sum2. f_equal. ring. }
    apply Same, rebuild_id. now rewrite Ec.
Qed.
Lemma sane_quant s n b xs : sane_node (T NT_FORALL s n (b :: xs)) \/ sane_node (T NT_EXISTS s n (b :: xs)) -> Forall leafvar xs.
Proof. intros [(_ & _ & _ & _ & _ & H)|(_ & _ & _ & _ & _ & H)]; cbn in H; apply H; auto. Qed.
Lemma sane_cong k s n ch ch' : allP sane_node (T k s n ch) -> Forall2 (keeps sane_node) ch ch' -> sane_node (T k s n ch').
Proof.
  intros HS HF. pose proof (allS _ HS) as (S1 & S2 & S3 & S4 & S5 & S6). cbn [t_kind t_ch t_name t_sort] in *.
  assert (FB : Forall boolv ch -> Forall boolv ch').
  { clear -HF. induction HF as [|a b l l' K _ IH]; intros H; [constructor|]. inversion H; subst. constructor; [|auto]. eapply boolv_eq; [apply K|assumption]. }
  assert (FN : Forall numv ch -> Forall numv ch').
  { clear -HF. induction HF as [|a b l l' K _ IH]; intros H; [constructor|]. inversion H; subst. constructor; [|auto]. eapply numv_eq; [apply K|assumption]. }
  assert (E0 : ch = [] -> ch' = []) by (intros ->; now inversion HF).
  repeat split; cbn [t_kind t_ch t_name t_sort].
  - destruct (S1 H) as [[a ->] _]. inversion HF as [|? b ? ? _ F']; subst. inversion F'; subst. eauto.
  - apply FB. now apply S1.
  - intros H. apply FB. now apply S2.
  - intros H. apply FN. now apply S3.
  - now apply S4.
  - apply E0. now apply (S4 H H0).
  - apply (S4 H H0).
  - apply (S4 H H0).
  - intros H. apply E0. now apply S5.
  - intros H. specialize (S6 H). destruct HF as [|a b l l' _ HF]; [constructor|]. cbn [tl] in *.
    clear -HF S6. induction HF as [|a b l l' K _ IH]; [constructor|]. inversion S6; subst. constructor; [|auto].
    destruct K as (_ & _ & ->); auto.
Qed.
Lemma default_ok dbg fixpoint max t u : sane t -> rewrite dbg default_rules fixpoint max t = Ok (Some u) -> sane u /\ equiv u t.
Proof.
  intros HS. unfold rewrite. destruct fixpoint.
  - rewrite rounds_pure. apply (rpure_n_keeps dbg default_rules sane_node); [apply sane_quant|apply sane_cong|apply default_keeps|exact HS].
  - rewrite once_pure by apply correct_nil. intros H.
    destruct (rpure_keeps dbg default_rules sane_node sane_quant sane_cong (default_keeps dbg) t u HS H) as (A & B & _). split; [exact A|exact B].
Qed.
