(** Evaluation of an exclusive or under a partial assignment (added after a wrong program survived the other
    theorems). *)
From Coq Require Import QArith Qcanon Permutation.
From Verif Require Import Base KindModel SortModel TermModel BVSpec UtilSpec DagProofs SortProofs Sem SemProofs ArrayModel SimpModel OpModel OpSpec
  OpProofs OpProofs2 OpProofs3 OpProofs4 OpProofs5 OpProofs6 OpProofs7 TypedSpec TypedProofs ShapeProofs TraverseModel EvalModel EvalSpec EvalProofs EvalProofs3 EvalProofs4 EvalProofs5.
Open Scope Z_scope.

(** a Boolean value that negation treats correctly *)
Definition negatable (c : cfg) (v : term) : Prop := wt CB v /\ tree_ok c v.
Section X.
Context (c : cfg) (ptr : list term -> list term) (m : model) (Hc : cfg_ok c) (Em : m_isEmpty m = false).
Notation f := (evaluate c ptr m).
Definition bool_leaf (x : term) : Prop := x = TRUE \/ x = FALSE \/ exists k n, is_leaf_var k = true /\ x = T k boolS n [].

Lemma node_leaf k n : is_leaf_var k = true -> negatable c (T k boolS n []).
Proof.
  intros K. assert (W : wt CB (T k boolS n [])) by (apply W_var; [exact K|reflexivity]). split; [exact W|].
  intros p S. assert (p = T k boolS n []) as -> by (inversion S; [reflexivity|contradiction]).
  assert (L : lits_ok [T k boolS n []]) by (apply (wt_lits CB); constructor; [exact W|constructor]).
  constructor.
  - cbn. discriminate.
  - destruct k; try discriminate K; reflexivity.
  - exact L.
  - intros _. split; [reflexivity|]. intros I e. exact (wt_val I e CB _ W).
  - intros X. destruct k; discriminate.
  - intros X. cbn in X. subst k. discriminate.
  - intros [X|X]; destruct k; discriminate.
  - intros X. destruct k; discriminate.
  - intros X. destruct k; discriminate.
  - intros X. destruct k; discriminate.
Qed.
Lemma negatable_const (b : bool) : negatable c (if b then TRUE else FALSE).
Proof.
  assert (W : wt CB (if b then TRUE else FALSE)) by (destruct b; constructor). split; [exact W|].
  intros p S. assert (p = if b then TRUE else FALSE) as -> by (destruct b; (inversion S; [reflexivity|contradiction])).
  assert (L : lits_ok [if b then TRUE else FALSE]) by (apply (wt_lits CB); constructor; [exact W|constructor]).
  constructor.
  - destruct b; cbn; discriminate.
  - destruct b; reflexivity.
  - exact L.
  - intros _. split; [destruct b; reflexivity|]. intros I e. exact (wt_val I e CB _ W).
  - intros X. destruct b; discriminate.
  - intros X. destruct b; discriminate.
  - intros [X|X]; destruct b; discriminate.
  - intros X. destruct b; discriminate.
  - intros X. destruct b; discriminate.
  - intros X. destruct b; discriminate.
Qed.
(** the value of an operand *)
Lemma leaf_eval x : bool_leaf x -> (forall v, isVar x = true -> m_get x m = Ok v -> isUnknown v = false -> negatable c v) ->
  forall b o, f x = Ok (b, o) -> exists v, o = Some v /\ negatable c v /\ forall I e, agrees I e m x -> eval I e x = eval I e v.
Proof.
  intros [->|[->|(k & n & K & ->)]] Hm b o H.
  - rewrite evaluate_const in H by reflexivity. injection H as <- <-. eexists. split; [reflexivity|]. split; [exact (negatable_const true)|reflexivity].
  - rewrite evaluate_const in H by reflexivity. injection H as <- <-. eexists. split; [reflexivity|]. split; [exact (negatable_const false)|reflexivity].
  - cbn [evaluate] in H. rewrite Em in H. destruct (leaf_k k K) as (K1 & K2 & K3 & K4). unfold isUnknown at 1, isErr, isk, isConst, isVar in H. cbn [t_kind] in H. rewrite K1, K2, K3 in H.
    destruct K4 as [K4| ->].
    + rewrite K4 in H. apply bind_ok in H. destruct H as (v & E & H). destruct (isUnknown v) eqn:U.
      * injection H as <- <-. eexists. split; [reflexivity|]. split; [now apply node_leaf|reflexivity].
      * injection H as <- <-. exists v. split; [reflexivity|]. split; [now apply Hm|]. intros I e A. apply A; [constructor|exact K4|exact E|exact U].
    + injection H as <- <-. eexists. split; [reflexivity|]. split; [now apply node_leaf|reflexivity].
Qed.
Lemma leaves_eval ch : Forall bool_leaf ch -> (forall x v, In x ch -> isVar x = true -> m_get x m = Ok v -> isUnknown v = false -> negatable c v) ->
  forall b vs, ev_all f ch = Ok (b, vs) -> Forall (negatable c) vs /\ forall I e, (forall x, In x ch -> agrees I e m x) -> map (eval I e) ch = map (eval I e) vs.
Proof.
  induction 1 as [|x ch L F IH]; intros Hm b vs H; cbn [ev_all] in H.
  - injection H as <- <-. split; [constructor|reflexivity].
  - apply bind_ok in H. destruct H as ([b1 o] & E & H). apply bind_ok in H. destruct H as ([b2 vs'] & E' & H). cbn [fst snd] in H. injection H as <- <-.
    destruct (leaf_eval x L (fun v => Hm x v (or_introl eq_refl)) b1 o E) as (v & -> & N & V). destruct (IH (fun y w Y => Hm y w (or_intror Y)) b2 vs' E') as (N' & V').
    cbn [val]. split; [now constructor|]. intros I e A. cbn [map]. f_equal; [apply V; apply A; now left|]. apply V'. intros y Y. apply A. now right.
Qed.
Lemma neg_const v : negatable c v -> isConst v = true -> v = TRUE \/ v = FALSE. Proof. intros (W & _) C. exact (wt_const CB v W C). Qed.
Lemma wt_bp v : wt CB v -> isBoolParam v = true. Proof. intros W. exact (proj1 (proj2 (wt_bool_args [v] (Forall_cons _ W (Forall_nil _))) v (or_introl eq_refl))). Qed.
Lemma holds_v I e v : wt CB v -> eval I e v = VBool (holds I e v). Proof. apply wt_holds. Qed.
(** the parity of the constants, and the other operands *)
Lemma parity vs : Forall (negatable c) vs -> forall I e,
  xors (map (holds I e) vs) = xorb (Nat.odd (length (filter (fun v => isConst v && isTrue v) vs))) (xors (map (holds I e) (others vs))).
Proof.
  intros F I e. induction F as [|v vs N F IH]; [reflexivity|]. unfold others in *. cbn [map filter]. change (xors (holds I e v :: map (holds I e) vs)) with (xorb (holds I e v) (xors (map (holds I e) vs))). rewrite IH.
  destruct (isConst v) eqn:C; cbn [negb andb].
  - destruct (neg_const v N C) as [->| ->]; cbn [isTrue]; change (isTrue TRUE) with true; change (isTrue FALSE) with false; cbn [length].
    + rewrite Nat.odd_succ. unfold Nat.odd. change (holds I e TRUE) with true. generalize (xors (map (holds I e) (filter (fun x => negb (isConst x)) vs))). intros X. now destruct (Nat.even _), X.
    + change (holds I e FALSE) with false. apply xorb_false_l.
  - cbn [map]. change (xors (holds I e v :: map (holds I e) (filter (fun x => negb (isConst x)) vs))) with (xorb (holds I e v) (xors (map (holds I e) (filter (fun x => negb (isConst x)) vs)))).
    rewrite <- !xorb_assoc. f_equal. apply xorb_comm.
Qed.
(** negation of an exclusive or *)
Lemma mkNot_xor n qs : (2 <= length qs)%nat -> Forall (wt CB) qs ->
  decides (mkNot c (T NT_XOR boolS n qs)) (fun I e => negb (holds I e (T NT_XOR boolS n qs))).
Proof.
  intros L F. set (p := T NT_XOR boolS n qs). assert (W : wt CB p).
  { apply (W_app NT_XOR boolS n CB (repeat CB (length qs))); [apply S_conn; [cbn; auto|exact L]|reflexivity|now apply F2_back]. }
  unfold mkNot, not_fuel. replace (3 * tsize p + 3)%nat with (S (3 * tsize p + 2)) by lia. cbn [mkNotF].
  change (isBoolParam p) with true. change (isNot p) with false. change (isTrue p) with false. change (isFalse p) with false. cbn [negb].
  change (isArithComp p) with (@Ok bool false). cbn [bind]. change (isBVComp p) with false. replace (isStrComp p) with false by (unfold isStrComp, isStrEq; destruct qs; reflexivity). cbn [orb].
  destruct (mkOper_exact c boolS NT_NOT CB [CB] [p] Hc S_not ltac:(discriminate) eq_refl (Forall2_cons _ _ W (Forall2_nil _))) as (t & E & Wt & V).
  exists t. split; [exact E|]. intros I e. unfold holds at 1. rewrite V. cbn [map]. rewrite (wt_holds I e p W). reflexivity.
Qed.
Lemma xor_eval s n ch : s = boolS -> (2 <= length ch)%nat -> Forall bool_leaf ch ->
  (forall x v, In x ch -> isVar x = true -> m_get x m = Ok v -> isUnknown v = false -> negatable c v) ->
  forall b o, f (T NT_XOR s n ch) = Ok (b, o) ->
  exists v, o = Some v /\ forall I e, (forall x, In x ch -> agrees I e m x) -> holds I e v = xors (map (holds I e) ch).
Proof.
  intros -> L F Hm b o H. rewrite evaluate_app in H by (assumption || reflexivity).
  change (step c ptr f (T NT_XOR boolS n ch)) with (evXor c f (T NT_XOR boolS n ch)) in H. unfold evXor in H. cbn [t_ch] in H.
  apply bind_ok in H. destruct H as ([b1 vs] & E & H). cbn [fst snd] in H. destruct (leaves_eval ch F Hm b1 vs E) as (N & V).
  assert (Wc : Forall (wt CB) ch). { eapply Forall_impl; [|exact F]. intros x [->|[->|(k & nm & K & ->)]]; [apply W_true|apply W_false|apply W_var; [exact K|reflexivity]]. }
  assert (Hv : forall I e, (forall x, In x ch -> agrees I e m x) -> xors (map (holds I e) ch) = xors (map (holds I e) vs)).
  { intros I e A. assert (X := V I e A). f_equal. unfold holds. rewrite <- !(map_map (eval I e) truth). now rewrite X. }
  destruct b1.
  - assert (No : Forall (negatable c) (others vs)) by (unfold others; apply Forall_forall; intros y Y; apply filter_In in Y; rewrite Forall_forall in N; now apply N).
    assert (Wo : Forall (wt CB) (others vs)) by (eapply Forall_impl; [|exact No]; now intros y (W & _)).
    set (odd := Nat.odd _) in H.
    assert (D : decides (match others vs with [] => Ok (if odd then TRUE else FALSE) | [v] => if odd then mkNot c v else Ok v | v :: t0 :: l0 => x <- mkXor c (v :: t0 :: l0) ;; if odd then mkNot c x else Ok x end)
      (fun I e => xorb odd (xors (map (holds I e) (others vs))))).
    { destruct (others vs) as [|v [|w us]] eqn:Eo.
      - exists (if odd then TRUE else FALSE). split; [reflexivity|]. intros I e. now destruct odd.
      - inversion No as [|? ? (Wv & Tv) _]; subst. destruct odd.
        + destruct (mkNot_sound c v Hc Tv (wt_bp v Wv)) as (t & Et & Vt). exists t. split; [exact Et|]. intros I e. rewrite Vt. change (xors (map (holds I e) [v])) with (xorb (holds I e v) false). now destruct (holds I e v).
        + exists v. split; [reflexivity|]. intros I e. change (xors (map (holds I e) [v])) with (xorb (holds I e v) false). now destruct (holds I e v).
      - assert (BA := wt_bool_args _ Wo). destruct BA as (Li & BA). destruct (mkXor_sound c (v :: w :: us) Hc Li (fun p Hp => proj2 (BA p Hp))) as (x & Ex & Vx). rewrite Ex. cbn [bind].
        destruct odd.
        + assert (Sh : decides (mkNot c x) (fun I e => negb (holds I e x))).
          { unfold mkXor in Ex. destruct (xor_loop_ok (v :: w :: us) Li (fun p Hp => proj2 (BA p Hp))) as (qs & Eq & Hi & _). rewrite Eq in Ex.
            assert (Wq : Forall (negatable c) qs) by (rewrite Forall_forall in No |- *; intros y Y; apply No; now apply Hi).
            destruct qs as [|q1 [|q2 qs]].
            - injection Ex as <-. exists TRUE. split; reflexivity.
            - injection Ex as <-. inversion Wq as [|? ? (W1 & T1) _]; subst. apply mkNot_sound; [exact Hc|exact T1|now apply wt_bp].
            - destruct (mkOper_shape c boolS NT_XOR (q1 :: q2 :: qs) x) as [->|[->| ->]]; [cbn [length]; lia|cbn; tauto|right; reflexivity|exact Ex| | |].
              + exists FALSE. split; reflexivity.
              + exists TRUE. split; reflexivity.
              + assert (Wq' : Forall (wt CB) (q1 :: q2 :: qs)) by (eapply Forall_impl; [|exact Wq]; now intros y (W & _)).
                unfold mkInternal. apply mkNot_xor.
                * destruct (isCommutative NT_XOR); [|cbn [length]; lia]. pose proof (Permutation_length (ok_sort c Hc (q1 :: q2 :: qs))) as P. cbn [length] in *. lia.
                * destruct (isCommutative NT_XOR); [|exact Wq']. rewrite Forall_forall in *. intros y Y. apply Wq'. exact (Permutation_in _ (ok_sort c Hc _) Y). }
          destruct Sh as (t & Et & Vt). exists t. split; [exact Et|]. intros I e. rewrite Vt, Vx. now destruct (xors _).
        + exists x. split; [reflexivity|]. intros I e. rewrite Vx. now destruct (xors _). }
    destruct D as (t & Et & Vt). assert (H' : changed (Ok t) = Ok (b, o)) by (rewrite <- Et; exact H). injection H' as <- <-. exists t. split; [reflexivity|]. intros I e A. rewrite Vt, (Hv I e A). symmetry. apply (parity vs N).
  - injection H as <- <-. eexists. split; [reflexivity|]. intros I e A. unfold holds at 1.
    rewrite (proj1 (eval_opv I e NT_XOR CB (repeat CB (length ch)) boolS n ch (S_conn NT_XOR _ ltac:(cbn; auto) L) ltac:(discriminate) (F2_back CB _ ch eq_refl Wc))). unfold opv. cbn [op_sem].
    destruct ch as [|a [|d ch]]; [cbn in L; lia|cbn in L; lia|]. cbn [map]. cbn [truth]. rewrite xorl_xors. cbn [map]. now rewrite map_map.
Qed.
End X.
