(** Proofs about traversal, rewriting and models. *)
From Verif Require Import Base KindModel SortModel TermModel OpModel Sem SemProofs OpSpec BVProofs BVProofs2 ParseModel ParseProofs TraverseModel TraverseSpec.
From Coq Require Import Wf_nat.
Open Scope nat_scope.

(** ** the visitor *)
Definition sizes (l : list term) : nat := fold_right (fun x a => tsize x + a) 0 l.
Lemma sizes_app a b : sizes (a ++ b) = sizes a + sizes b.
Proof.
  induction a as [|x a IH]; [reflexivity|]. cbn [app].
  change (sizes (x :: a ++ b)) with (tsize x + sizes (a ++ b)). change (sizes (x :: a)) with (tsize x + sizes a). lia.
Qed.
Lemma tsize_eq t : tsize t = S (sizes (t_ch t)). Proof. now destruct t. Qed.
Lemma size_in x l : In x l -> tsize x <= sizes l.
Proof.
  induction l as [|y l IH]; [cbn; tauto|]. change (sizes (y :: l)) with (tsize y + sizes l). intros [<-|H]; [lia|]. apply IH in H. lia.
Qed.
Lemma seen_In t V : seen t V = true <-> In t V.
Proof.
  unfold seen. rewrite existsb_exists. split; [intros (x & H & E); apply teq_spec in E; now subst|].
  intros H. exists t. split; [exact H|apply teq_refl].
Qed.
Lemma preorder_sub t u : In u (preorder t) <-> subterm u t.
Proof.
  split.
  - revert u. induction t as [k s n ch IH] using term_ind'. intros u. cbn [preorder]. intros [<-|H]; [constructor|].
    apply in_flat_map in H. destruct H as (x & Hx & Hu). rewrite Forall_forall in IH. eapply Sub_ch; [exact Hx|]. now apply IH.
  - intros H. induction H as [[k s n ch]|u x [k s n ch] Hx Hu IH]; cbn [preorder]; [now left|]. right. apply in_flat_map. exists x. auto.
Qed.
Lemma sub_trans a b c : subterm a b -> subterm b c -> subterm a c.
Proof. intros H1 H2. induction H2; [exact H1|]. eapply Sub_ch; [eassumption|auto]. Qed.
Lemma sub_size u t : subterm u t -> u = t \/ tsize u < tsize t.
Proof.
  intros H. induction H as [t|u x t Hx Hu IH]; [now left|]. right. apply size_in in Hx. rewrite (tsize_eq t).
  destruct IH as [->|IH]; lia.
Qed.
Lemma firsts_app V a b : firsts V (a ++ b) = firsts V a ++ firsts (rev (firsts V a) ++ V) b.
Proof.
  revert V. induction a as [|x a IH]; intros V; cbn; [reflexivity|]. destruct (in_dec teq_dec x V); [apply IH|].
  cbn [app rev]. f_equal. rewrite IH, <- app_assoc. reflexivity.
Qed.
Lemma firsts_In V l x : In x (firsts V l) <-> In x l /\ ~ In x V.
Proof.
  revert V. induction l as [|y l IH]; intros V; cbn [firsts]; [cbn; tauto|].
  destruct (in_dec teq_dec y V) as [H|H]; [rewrite IH; cbn; intuition congruence|].
  cbn [In]. rewrite IH. cbn [In]. destruct (teq_dec y x) as [<-|N]; intuition congruence.
Qed.
Lemma firsts_nodup V l : NoDup (firsts V l).
Proof.
  revert V. induction l as [|y l IH]; intros V; cbn [firsts]; [constructor|].
  destruct (in_dec teq_dec y V); [apply IH|]. constructor; [|apply IH]. rewrite firsts_In. cbn. tauto.
Qed.
Lemma firsts_none V l : (forall x, In x l -> In x V) -> firsts V l = [].
Proof.
  induction l as [|y l IH]; intros H; [reflexivity|]. cbn [firsts]. destruct (in_dec teq_dec y V) as [|N]; [|exfalso; apply N, H; now left].
  apply IH. intros x Hx. apply H. now right.
Qed.
Definition closed_upto (n : nat) (V : list term) : Prop := forall v u, In v V -> tsize v <= n -> subterm u v -> In u V.
Lemma walk_list : forall n ts rest V fuel, (forall t, In t ts -> tsize t <= n) -> closed_upto n V -> sizes (ts ++ rest) < fuel ->
  let F := firsts V (flat_map preorder ts) in
  closed_upto n (rev F ++ V) /\
  exists f', sizes rest < f' /\ walk_loop fuel (ts ++ rest) V = (r <- walk_loop f' rest (rev F ++ V) ;; Ok (F ++ fst r, snd r)).
Proof.
  intros n. induction n as [n IHn] using lt_wf_ind. induction ts as [|t ts IHt]; intros rest V fuel Hn Hc Hf; cbv zeta.
  - cbn [flat_map firsts rev app]. split; [exact Hc|]. exists fuel. split; [exact Hf|].
    destruct (walk_loop fuel rest V) as [[l v]| | | | |]; reflexivity.
  - cbn [flat_map app] in *. rewrite firsts_app. destruct fuel as [|fuel]; [lia|]. cbn [sizes fold_right] in Hf.
    fold (sizes (ts ++ rest)) in Hf. cbn [walk_loop]. pose proof (tsize_eq t) as Et. pose proof (Hn t (or_introl eq_refl)) as Ht.
    destruct (seen t V) eqn:E.
    + apply seen_In in E. rewrite (firsts_none V (preorder t)); [|intros x Hx; apply preorder_sub in Hx; now apply (Hc t)].
      cbn [rev app]. apply IHt; [intros; apply Hn; now right|exact Hc|lia].
    + assert (N : ~ In t V) by (rewrite <- seen_In; congruence).
      assert (Hf1 : firsts V (preorder t) = t :: firsts (t :: V) (flat_map preorder (t_ch t))).
      { destruct t. cbn [preorder firsts t_ch]. destruct (in_dec teq_dec _ V); [contradiction|reflexivity]. }
      rewrite Hf1. set (F1 := firsts (t :: V) (flat_map preorder (t_ch t))) in *.
      assert (Hc1 : closed_upto (tsize t - 1) (t :: V)).
      { intros v u [<-|Hv] Hs Hu; [pose proof (tsize_eq t); lia|]. right. apply (Hc v u Hv); [lia|exact Hu]. }
      destruct (IHn (tsize t - 1) ltac:(lia) (t_ch t) (ts ++ rest) (t :: V) fuel) as (Hc2 & f2 & Hf2 & ->); [..|exact Hc1| |].
      * intros x Hx. apply size_in in Hx. lia.
      * rewrite sizes_app. lia.
      * fold F1 in Hc2 |- *. cbn [rev]. rewrite <- !app_assoc. cbn [app].
        set (V2 := rev F1 ++ t :: V) in *.
        assert (HV2 : forall u, subterm u t -> In u V2).
        { intros u Hu. unfold V2. rewrite in_app_iff, <- in_rev. destruct (in_dec teq_dec u (t :: V)) as [|K]; [now right|]. left.
          apply firsts_In. split; [|exact K]. apply preorder_sub in Hu. destruct t. cbn [preorder] in Hu. destruct Hu as [<-|Hu]; [exfalso; apply K; now left|exact Hu]. }
        assert (Hc3 : closed_upto n V2).
        { intros v u Hv Hs Hu. unfold V2 in Hv. rewrite in_app_iff, <- in_rev in Hv. destruct Hv as [Hv|[<-|Hv]].
          - apply firsts_In in Hv. destruct Hv as [Hv _]. apply in_flat_map in Hv. destruct Hv as (x & Hx & Hv). apply preorder_sub in Hv.
            apply HV2. eapply sub_trans; [exact Hu|]. eapply Sub_ch; eassumption.
          - now apply HV2.
          - unfold V2. rewrite in_app_iff. right. right. now apply (Hc v u). }
        destruct (IHt rest V2 f2) as (Hc4 & f3 & Hf3 & ->); [intros; apply Hn; now right|exact Hc3|exact Hf2|].
        cbn [rev]. rewrite rev_app_distr, <- !app_assoc. cbn [app]. fold V2.
        split; [exact Hc4|]. exists f3. split; [exact Hf3|].
        destruct (walk_loop f3 rest _) as [[l v]| | | | |]; cbn [bind fst snd]; try reflexivity. now rewrite <- ?app_assoc.
Qed.
Lemma walk_ok t V : down_closed V -> walk t V = Ok (firsts V (preorder t), rev (firsts V (preorder t)) ++ V)
  /\ down_closed (rev (firsts V (preorder t)) ++ V).
Proof.
  intros HV. destruct (walk_list (tsize t) [t] [] V (S (tsize t))) as (_ & f & Hf & E).
  - intros x [<-|[]]. lia.
  - intros v u Hv _ Hu. now apply (HV v).
  - cbn. lia.
  - cbn [flat_map] in *. rewrite app_nil_r in E. cbn [app] in E. split.
    + unfold walk. rewrite E. destruct f as [|f]; [cbn in Hf; lia|]. cbn [walk_loop bind fst snd]. now rewrite !app_nil_r.
    + intros v u Hv Hu. rewrite in_app_iff, <- in_rev in *. destruct (in_dec teq_dec u V) as [|K]; [now right|]. left.
      apply firsts_In. split; [|exact K]. destruct Hv as [Hv|Hv]; [|exfalso; apply K; now apply (HV v)].
      apply firsts_In in Hv. destruct Hv as [Hv _]. apply preorder_sub in Hv. apply preorder_sub. eapply sub_trans; eassumption.
Qed.
(** every walk of one visitor *)
Fixpoint walks_spec (roots : list term) (V : list term) : list (list term) :=
  match roots with
  | [] => []
  | t :: l => firsts V (preorder t) :: walks_spec l (rev (firsts V (preorder t)) ++ V)
  end.
Lemma walks_ok roots : forall V, down_closed V -> exists V', walks roots V = Ok (walks_spec roots V, V').
Proof.
  induction roots as [|t l IH]; intros V HV; [now exists V|]. cbn [walks walks_spec]. destruct (walk_ok t V HV) as [-> HV'].
  cbn [bind fst snd]. destruct (IH _ HV') as (V' & ->). cbn. eauto.
Qed.
Lemma walks_flat roots : forall V, concat (walks_spec roots V) = firsts V (flat_map preorder roots).
Proof.
  induction roots as [|t l IH]; intros V; [reflexivity|]. cbn [walks_spec concat flat_map]. now rewrite firsts_app, IH.
Qed.

(** ** the rewriter without its memo *)
Section Rw.
Context (dbg : bool) (r : rules).
Definition mapO (f : term -> res (option term)) : list term -> res (list (option term)) :=
  fix go (l : list term) := match l with [] => Ok [] | x :: l' => u <- f x ;; us <- go l' ;; Ok (u :: us) end.
Fixpoint rpure (t : term) : res (option term) :=
  match t with T _ _ _ ch => q <- mapO rpure ch ;; n <- rebuildOpt t q ;; dispatch dbg r n end.
Definition correct (M : rmemo) : Prop := forall a u, rfind a M = Some u -> rpure a = Ok u.
Lemma correct_nil : correct []. Proof. intros a u H. discriminate. Qed.
Lemma once_ok t : forall M, correct M ->
  (q <- rewriteOnce dbg r t M ;; Ok (fst q)) = rpure t /\ forall q, rewriteOnce dbg r t M = Ok q -> correct (snd q).
Proof.
  induction t as [k s n ch IH] using term_ind'. intros M HM. set (t := T k s n ch) in *.
  assert (G : forall l, Forall (fun x => forall M, correct M ->
      (q <- rewriteOnce dbg r x M ;; Ok (fst q)) = rpure x /\ forall q, rewriteOnce dbg r x M = Ok q -> correct (snd q)) l ->
    forall M, correct M ->
    (q <- once_list (rewriteOnce dbg r) l M ;; Ok (fst q)) = mapO rpure l /\
    forall q, once_list (rewriteOnce dbg r) l M = Ok q -> correct (snd q)).
  { induction l as [|x l IHl]; intros Hl M' HM'.
    - split; [reflexivity|]. intros q E. inversion E; subst. exact HM'.
    - inversion Hl as [|? ? Hx Hl']; subst. destruct (Hx M' HM') as [E1 C1]. cbn [mapO once_list]. fold (mapO rpure). fold (once_list (rewriteOnce dbg r)). rewrite <- E1.
      destruct (rewriteOnce dbg r x M') as [[u M1]| | | | |]; cbn [bind fst snd]; try (split; [reflexivity|discriminate]).
      destruct (IHl Hl' M1 (C1 _ eq_refl)) as [E2 C2]. rewrite <- E2.
      destruct (once_list (rewriteOnce dbg r) l M1) as [[us M2]| | | | |]; cbn [bind fst snd]; try (split; [reflexivity|discriminate]).
      split; [reflexivity|]. intros q E. inversion E; subst. exact (C2 _ eq_refl). }
  assert (Ep : rpure t = (q <- mapO rpure ch ;; n <- rebuildOpt t q ;; dispatch dbg r n)) by reflexivity.
  assert (Er0 : rewriteOnce dbg r t M = match rfind t M with Some u => Ok (u, M) | None =>
    q <- once_list (rewriteOnce dbg r) ch M ;; n <- rebuildOpt t (fst q) ;; u <- dispatch dbg r n ;; Ok (u, (t, u) :: snd q) end) by reflexivity.
  rewrite Er0. clear Er0. clearbody t. destruct (rfind t M) as [u|] eqn:Ef.
  - split; [cbn; now rewrite (HM t u Ef)|]. intros q E. inversion E; subst. exact HM.
  - rewrite Ep. destruct (G ch IH M HM) as [E1 C1]. rewrite <- E1.
    destruct (once_list (rewriteOnce dbg r) ch M) as [[us M1]| | | | |] eqn:Eg; cbn [bind fst snd]; try (split; [reflexivity|discriminate]).
    destruct (rebuildOpt t us) as [nn| | | | |] eqn:Er; cbn [bind]; try (split; [reflexivity|discriminate]).
    destruct (dispatch dbg r nn) as [u| | | | |] eqn:Ed; cbn [bind fst snd]; try (split; [reflexivity|discriminate]).
    split; [reflexivity|]. intros q E. inversion E; subst. cbn [snd]. intros a v. cbn [rfind]. destruct (teq t a) eqn:Et.
    + apply teq_spec in Et. subst a. intros H. inversion H; subst. rewrite Ep, <- E1. cbn [bind fst].
      rewrite Er. cbn [bind]. exact Ed.
    + intros H. exact (C1 _ eq_refl _ _ H).
Qed.
Lemma once_pure t M : correct M -> (q <- rewriteOnce dbg r t M ;; Ok (fst q)) = rpure t.
Proof. intros H. now apply once_ok. Qed.
Fixpoint rpure_n (n : nat) (t : option term) : res (option term) :=
  match n with
  | O => Ok t
  | S m => match t with
           | None => Ok None
           | Some c => u <- rpure c ;; if match u with Some u => teq u c | None => false end then Ok u else rpure_n m u
           end
  end.
Lemma rounds_pure n : forall t, rounds dbg r n t = rpure_n n t.
Proof.
  induction n as [|n IH]; intros [t|]; cbn [rounds rpure_n]; try reflexivity. rewrite <- (once_pure t [] correct_nil).
  destruct (rewriteOnce dbg r t []) as [[u M]| | | | |]; cbn [bind fst]; try reflexivity. destruct u as [u|]; [|apply IH].
  destruct (teq u t); [reflexivity|apply IH].
Qed.

(** ** rules that keep the value *)
Definition equiv (a b : term) : Prop := forall I e, eval I e a = eval I e b.
Definition leafvar (t : term) : Prop := t_ch t = [] /\ is_leaf_var (t_kind t) = true.
Context (P : term -> Prop).
Definition allP (t : term) : Prop := forall p, subterm p t -> P p.
Definition keeps (a b : term) : Prop := allP b /\ equiv b a /\ (leafvar a -> b = a).
Hypothesis P_quant : forall s n b xs, P (T NT_FORALL s n (b :: xs)) \/ P (T NT_EXISTS s n (b :: xs)) -> Forall leafvar xs.
Hypothesis P_cong : forall k s n ch ch', allP (T k s n ch) -> Forall2 keeps ch ch' -> P (T k s n ch').
Hypothesis rule_ok : forall t u, allP t -> dispatch dbg r t = Ok (Some u) -> keeps t u.

Lemma eval_cong k s n ch ch' : P (T k s n ch) -> Forall2 keeps ch ch' -> equiv (T k s n ch') (T k s n ch).
Proof.
  intros HP HF I e. destruct HF as [|b b' xs xs' Hb Hx]; [reflexivity|].
  destruct (quantk k) eqn:Q.
  - assert (xs' = xs) as ->.
    { assert (Hl : Forall leafvar xs). { apply (P_quant s n b xs). destruct k; try discriminate Q; auto. }
      clear -Hx Hl. induction Hx as [|x x' l l' H Hx IH]; [reflexivity|]. inversion Hl; subst. f_equal; [now apply H|now apply IH]. }
    destruct Hb as (_ & Hb & _).
    destruct k; try discriminate Q; cbn [eval]; [f_equal|do 2 f_equal]; apply i_all_ext; intros vs; now rewrite Hb.
  - rewrite !eval_app by (assumption || discriminate). f_equal. cbn [map]. f_equal; [apply Hb|].
    clear -Hx. induction Hx as [|x x' l l' H Hx IH]; cbn; [reflexivity|]. f_equal; [apply H|exact IH].
Qed.
Lemma rpure_keeps t : forall u, allP t -> rpure t = Ok (Some u) -> keeps t u.
Proof.
  induction t as [k s n ch IH] using term_ind'. intros u HP H. cbn [rpure] in H.
  assert (G : forall l, Forall (fun t => forall u, allP t -> rpure t = Ok (Some u) -> keeps t u) l -> Forall allP l ->
    forall us ls, mapO rpure l = Ok us -> all_some us = Some ls -> Forall2 keeps l ls).
  { induction l as [|x l IHl]; intros Hl Hp us ls; cbn [mapO]; fold (mapO rpure).
    - intros E. inversion E; subst. intros K. inversion K; subst. constructor.
    - destruct (rpure x) as [v| | | | |] eqn:Ex; cbn [bind]; try discriminate. destruct (mapO rpure l) as [vs| | | | |]; cbn [bind]; try discriminate.
      intros E. inversion E; subst. cbn [all_some]. destruct v as [v|]; [|discriminate]. destruct (all_some vs) as [ls'|] eqn:Ea; cbn; [|discriminate].
      intros K. inversion K; subst. inversion Hl; subst. inversion Hp; subst. constructor; [auto|]. eapply IHl; eauto. }
  destruct (mapO rpure ch) as [us| | | | |] eqn:Eu; cbn [bind] in H; try discriminate.
  unfold rebuildOpt in H. destruct (all_some us) as [ls|] eqn:Ea; cbn [bind] in H; try discriminate.
  assert (HK : Forall2 keeps ch ls).
  { eapply G; [exact IH| |exact Eu|exact Ea]. rewrite Forall_forall. intros x Hx p Hp. apply HP. eapply Sub_ch; eassumption. }
  assert (El : length ls = length ch) by (clear -HK; induction HK; cbn; congruence).
  cbn [rebuildLike] in H. rewrite El, Nat.eqb_refl in H.
  assert (HP' : allP (T k s n ls)).
  { intros p Hp. inversion Hp as [|? x ? Hx Hs]; subst; [eapply P_cong; eassumption|]. cbn [t_ch] in Hx.
    clear -HK Hx Hs. induction HK as [|a b la lb K HK IHK]; [destruct Hx|]. destruct Hx as [<-|Hx]; [now apply K|auto]. }
  destruct (rule_ok _ _ HP' H) as (H1 & H2 & H3). split; [exact H1|]. split.
  - intros I e. rewrite H2. apply eval_cong; [apply HP; constructor|exact HK].
  - intros [L1 L2]. cbn [t_ch] in L1. subst ch. inversion HK; subst. apply H3. split; [reflexivity|exact L2].
Qed.
Lemma rpure_n_keeps n : forall t u, allP t -> rpure_n n (Some t) = Ok (Some u) -> allP u /\ equiv u t.
Proof.
  induction n as [|n IH]; intros t u HP; cbn [rpure_n]; [intros E; inversion E; subst; split; [exact HP|now intros I e]|].
  destruct (rpure t) as [v| | | | |] eqn:E; cbn [bind]; try discriminate. destruct v as [v|]; [|destruct n; discriminate].
  destruct (rpure_keeps t v HP E) as (H1 & H2 & _). destruct (teq v t).
  - intros K. inversion K; subst. auto.
  - intros K. destruct (IH v u H1 K) as [A B]. split; [exact A|]. intros I e. now rewrite B, H2.
Qed.
End Rw.
