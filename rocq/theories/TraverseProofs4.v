(** Remaining lemmas and examples about traversal and rewriting. *)
From Coq Require Import QArith Qcanon.
From Verif Require Import Base KindModel SortModel TermModel OpModel Sem SemProofs OpSpec BVProofs BVProofs2 DagProofs ParseModel ParseProofs
  TraverseModel TraverseSpec TraverseProofs TraverseProofs2 TraverseProofs3 OpExamples.
Open Scope nat_scope.

Lemma walks_len roots : forall V, length (walks_spec roots V) = length roots.
Proof. induction roots as [|t l IH]; intros V; cbn; [reflexivity|]. now rewrite IH. Qed.
(** in the preorder every node but the root comes after a parent *)
Lemma pre_parent t : forall a b u, preorder t = a ++ u :: b -> (a = [] /\ u = t) \/ exists p, In p a /\ In u (t_ch p).
Proof.
  induction t as [k s n ch IH] using term_ind'. intros a b u H. cbn [preorder] in H. destruct a as [|x a]; [left; injection H as -> _; auto|].
  right. cbn [app] in H. injection H as <- H.
  assert (G : forall l, Forall (fun t => forall a b u, preorder t = a ++ u :: b -> (a = [] /\ u = t) \/ exists p, In p a /\ In u (t_ch p)) l ->
    forall a b, flat_map preorder l = a ++ u :: b -> In u l \/ exists p, In p a /\ In u (t_ch p)).
  { induction l as [|y l IHl]; intros Hl a' b' E; [destruct a'; discriminate|]. inversion Hl as [|? ? Hy Hl']; subst. cbn [flat_map] in E.
    assert (Cut : (exists c, preorder y = a' ++ u :: c) \/ exists c, a' = preorder y ++ c /\ flat_map preorder l = c ++ u :: b').
    { clear -E. revert a' E. generalize (preorder y) as P. induction P as [|z P IHP]; intros a' E; [right; exists a'; split; [reflexivity|exact E]|]. cbn in E.
      destruct a' as [|z' a']; cbn in E; [left; exists P; assert (z = u) as -> by congruence; reflexivity|]. injection E as -> E.
      destruct (IHP a' E) as [(c & ->)|(c & -> & Ec)]; [left; now exists c|right; exists c; auto]. }
    destruct Cut as [(c & E1)|(c & -> & E1)].
    - destruct (Hy _ _ _ E1) as [[_ ->]|K]; [left; now left|right; exact K].
    - destruct (IHl Hl' _ _ E1) as [K|(p & K1 & K2)]; [left; now right|]. right. exists p. split; [apply in_app_iff; now right|exact K2]. }
  destruct (G ch IH a b H) as [K|(p & K1 & K2)]; [exists (T k s n ch); split; [now left|exact K]|]. exists p. split; [now right|exact K2].
Qed.
Lemma firsts_split V l a u b : firsts V l = a ++ u :: b -> exists l1 l2, l = l1 ++ u :: l2 /\ (forall x, In x l1 -> In x a \/ In x V).
Proof.
  revert V a. induction l as [|y l IH]; intros V a H; cbn [firsts] in H; [destruct a; discriminate|].
  destruct (in_dec teq_dec y V) as [Hy|Hy].
  - destruct (IH V a H) as (l1 & l2 & -> & K). exists (y :: l1), l2. split; [reflexivity|]. intros x [<-|Hx]; [now right|auto].
  - destruct a as [|z a]; cbn in H; injection H as <- H.
    + exists [], l. split; [reflexivity|intros x []].
    + destruct (IH (y :: V) a H) as (l1 & l2 & -> & K). exists (y :: l1), l2. split; [reflexivity|].
      intros x [<-|Hx]; [left; now left|]. destruct (K x Hx) as [K'|[<-|K']]; [left; now right|left; now left|now right].
Qed.
Lemma firsts_parent t a b u : firsts [] (preorder t) = a ++ u :: b -> u <> t -> exists p, In p a /\ In u (t_ch p).
Proof.
  intros H N. destruct (firsts_split _ _ _ _ _ H) as (l1 & l2 & E & K). destruct (pre_parent t _ _ _ E) as [[_ ->]|(p & Hp & Hu)]; [contradiction|].
  exists p. split; [|exact Hu]. destruct (K p Hp) as [K'|[]]. exact K'.
Qed.
Lemma any_rules dbg r fixpoint max t u : keeps_value dbg r -> binders t ->
  rewrite dbg r fixpoint max t = Ok (Some u) -> binders u /\ forall I e, eval I e u = eval I e t.
Proof.
  intros HK HB.
  assert (Q : forall s n b xs, binders_node (T NT_FORALL s n (b :: xs)) \/ binders_node (T NT_EXISTS s n (b :: xs)) -> Forall leafvar xs).
  { intros s n b xs [H|H]; apply H; cbn; auto. }
  assert (Cg : forall k s n ch ch', allP binders_node (T k s n ch) -> Forall2 (keeps binders_node) ch ch' -> binders_node (T k s n ch')).
  { intros k s n ch ch' HP HF K. cbn [t_kind t_ch] in *. specialize (HP _ (Sub_refl _) K). cbn [t_ch] in HP.
    destruct HF as [|a b l l' _ HF]; [constructor|]. cbn [tl] in *. clear -HF HP. induction HF as [|x y l l' Kx _ IH]; [constructor|].
    inversion HP; subst. constructor; [|auto]. destruct Kx as (_ & _ & ->); auto. }
  assert (Ro : forall t u, allP binders_node t -> dispatch dbg r t = Ok (Some u) -> keeps binders_node t u).
  { intros t' u' HP E. destruct (HK t' u' HP E) as (K1 & K2 & K3). split; [exact K1|]. split; [exact K2|]. intros [L1 L2]. auto. }
  unfold rewrite. destruct fixpoint.
  - rewrite rounds_pure. intros H. exact (rpure_n_keeps dbg r binders_node Q Cg Ro max t u HB H).
  - rewrite once_pure by apply correct_nil. intros H. destruct (rpure_keeps dbg r binders_node Q Cg Ro t u HB H) as (A & B & _). split; [exact A|exact B].
Qed.
Lemma calls_ok dbg r ts : forall M us, correct dbg r M -> calls dbg (map (fun t => (r, t)) ts) M = Ok us ->
  Forall2 (fun t u => rewrite dbg r false 0 t = Ok u) ts us.
Proof.
  induction ts as [|t ts IH]; intros M us HM; cbn [map calls]; [intros E; injection E as <-; constructor|].
  destruct (rewriteOnce dbg r t M) as [q| | | | |] eqn:E; cbn [bind]; try discriminate.
  destruct (calls dbg _ (snd q)) as [vs| | | | |] eqn:Ec; cbn [bind]; try discriminate. intros K. injection K as <-.
  destruct (once_ok dbg r t M HM) as [E1 C1]. constructor.
  - unfold rewrite. rewrite once_pure by apply correct_nil. rewrite <- E1, E. reflexivity.
  - eapply IH; [apply (C1 q E)|exact Ec].
Qed.
Lemma binders_ex : binders (T NT_NOT intS [] [T NT_NOT intS [] [xi]]).
Proof.
  intros p H. apply sub_one in H. destruct H as [->|H]; [intros [K|K]; discriminate|]. apply sub_one in H.
  destruct H as [->|H]; [intros [K|K]; discriminate|]. apply sub_leaf in H. subst. intros [K|K]; discriminate.
Qed.
Definition no_rules_but_id : rules := Rules (fun _ => None) (Some (fun t => Ok t)).
Definition swap_rule : rules :=
  Rules (fun k => match k with NT_ADD => Some (fun t => Ok (match t with T k s n [a; b] => T k s n [b; a] | _ => t end)) | _ => None end) (Some (fun t => Ok t)).
Lemma swap_keeps : keeps_value false swap_rule.
Proof.
  intros t u HB. unfold dispatch, swap_rule. cbn [ru_on ru_else]. intros H.
  assert (Id : u = t -> binders u /\ (forall I e, eval I e u = eval I e t) /\ (t_ch t = [] -> is_leaf_var (t_kind t) = true -> u = t)) by (intros ->; auto).
  destruct (t_kind t) eqn:K; cbn [bind] in H; apply okinj in H; try (apply Id; now subst).
  destruct t as [k s n [|a [|b [|x ch]]]]; try (apply Id; now subst). cbn [t_kind] in K. subst k u. split; [|split].
  - intros p Hp. apply sub_two in Hp. destruct Hp as [->|[Hp|Hp]]; [intros [K|K]; discriminate| |]; apply HB; (eapply Sub_ch; [|exact Hp]); cbn; auto.
  - intros I e. rewrite !eval_app by (reflexivity || discriminate). unfold app_sem. cbn. f_equal. ring.
  - discriminate.
Qed.
Definition add0 : term := T NT_ADD intS (L "+") [T NT_ADD intS (L "+") [num0 0; xi]; num0 0].
Definition t30 : term := T NT_NOT boolS (L "not") [T NT_NOT boolS (L "not") [T NT_AND boolS (L "and") [TRUE; T NT_EQ boolS (L "=") [add0; xi]]]].
Lemma t30_sane : sane t30.
Proof.
  assert (N0 : numv (num0 0)) by (intros I e; eexists; reflexivity).
  assert (Nx : numv xi) by (intros I e; cbn; eauto).
  assert (Nadd : forall s n a b, numv (T NT_ADD s n [a; b])). { intros s n a b I e. eexists. rewrite eval_app by (reflexivity || discriminate). reflexivity. }
  assert (Bt : boolv TRUE) by (intros I e; cbn; eauto).
  assert (Bn : forall s n a, boolv (T NT_NOT s n [a])). { intros s n a I e. eexists. rewrite eval_app by (reflexivity || discriminate). reflexivity. }
  assert (Ba : forall s n a b, boolv (T NT_AND s n [a; b])). { intros s n a b I e. eexists. rewrite eval_app by (reflexivity || discriminate). reflexivity. }
  assert (Be : forall s n a b, boolv (T NT_EQ s n [a; b])). { intros s n a b I e. eexists. rewrite eval_app by (reflexivity || discriminate). reflexivity. }
  intros p Hp. unfold t30 in Hp.
  Ltac fa := repeat (apply Forall_cons; [auto|]); apply Forall_nil.
  repeat (first [apply sub_one in Hp; destruct Hp as [->|Hp] | apply sub_two in Hp; destruct Hp as [->|[Hp|Hp]] | apply sub_leaf in Hp; subst p]);
   (unfold sane_node; refine (conj _ (conj _ (conj _ (conj _ (conj _ _)))));
   [intros K; first [discriminate K|split; [eexists; reflexivity|fa]] | intros K; first [discriminate K|fa] | intros K; first [discriminate K|fa]
   |first [intros K; discriminate K | intros _ [K|K]; discriminate K | intros _ _; split; [reflexivity|split; [reflexivity|split; [cbn; auto|discriminate]]]]
   |first [intros [K|K]; discriminate K | reflexivity] | intros [K|K]; discriminate K]).
Qed.
