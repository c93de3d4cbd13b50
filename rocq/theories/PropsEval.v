(** C39 evaluation under a model: the theorems. *)
From Coq Require Import QArith Qcanon Permutation.
From Verif Require Import Base KindModel SortModel TermModel BVSpec Sem SemProofs DagProofs ParseModel SimpModel OpModel OpSpec TypedSpec TypedProofs ApplyProofs
  TraverseModel OpProofs OpExamples EvalModel EvalSpec EvalProofs EvalProofs3 EvalProofs4 EvalProofs5.
Open Scope Z_scope.

(** Every variable of a well-sorted term has a constant in the model: the result is a constant
    of the type of the term, the value of the term where its variables have the values of the
    model.  Partial: Boolean, integer and bit-vector terms over the operators of [esig]. *)
Theorem C39_total_partial : forall c ptr m t r, et r t -> assigns m t ->
  exists v, evaluateT c ptr m t = Ok v /\ islit r v /\ forall I e, agrees I e m t -> eval I e t = eval I e v.
Proof.
  intros c ptr m t r H A. destruct (evaluate_total c ptr m t r H A) as (v & E & L & V). exists v. unfold evaluateT. rewrite E. auto.
Qed.
Print Assumptions C39_total_partial.

(** There is such an environment whatever the model: the value is a value of the term. *)
Lemma lit_env r v I e f : islit r v -> eval I e v = eval I f v.
Proof.
  intros H. inversion H; subst; reflexivity.
Qed.
Definition menv (I : interp) (m : model) : env := fun x => match m_get x m with Ok v => eval I (fun _ => VBool false) v | _ => VBool false end.
Lemma sub_et x t r : et r t -> subterm x t -> exists q, et q x.
Proof.
  revert r. induction t as [k s n ch IH] using term_ind'. intros r H S. inversion S as [|u c0' t0 Hc S']; subst; [eauto|].
  cbn [t_ch] in Hc. inversion H as [ | r' v Hv | k' s' n' r' rs ch' Sg F X]; subst; try contradiction.
  - inversion Hv; subst; contradiction.
  - assert (G : exists q, et q c0').
    { clear -F Hc. revert Hc. induction F; [intros []|intros [ -> | Hc ]; eauto]. }
    destruct G as (q & G). rewrite Forall_forall in IH. now apply (IH c0' Hc q).
Qed.
Theorem C39_total_env_partial : forall m t r I, et r t -> assigns m t -> agrees I (menv I m) m t.
Proof.
  intros m t r I H A x v S V G U. destruct (sub_et x t r H S) as (q & Q). destruct (A x q S V Q) as (v' & G' & L).
  assert (v' = v) by congruence. subst v'. inversion Q as [k s n r' Hk Hs|r' u Hu|k s n r' rs ch Sg F X]; subst.
  - assert (LV : is_leaf_var k = true) by (repeat (destruct Hk as [ <- | Hk ]; [reflexivity|]); contradiction).
    cbn [eval]. unfold leaf_sem. rewrite LV. unfold menv. cbn [m_get t_name] in G |- *. rewrite G.
    rewrite (lit_env q v I (fun _ => VBool false) (menv I m) L). unfold menv.
    inversion L; subst; cbn [vty] in Hs.
    + subst s. reflexivity.
    + subst s. reflexivity.
    + change (mkConstInt z) with (ic intorealS z). rewrite eval_ic by auto. destruct Hs as [ -> | -> ]; cbn; [|reflexivity]. now rewrite ZQ_floor.
    + subst s. fold (bc w v0). rewrite eval_bc. unfold coerce, bvS, widthS. cbn [s_kind s_ch s_arity bvv]. rewrite Nat2Z.id.
      unfold uv. rewrite Z.mod_mod; [reflexivity|]. apply Z.pow_nonzero; lia.
  - destruct (islit_const q x Hu) as [C _]. unfold isVar in V. unfold isConst in C. destruct (t_kind x); discriminate.
  - destruct (esig_kind k q rs Sg) as (_ & _ & _ & K). unfold isVar in V. cbn [t_kind] in V. congruence.
Qed.
Print Assumptions C39_total_env_partial.

(** a Boolean and a bit-vector term, and models for them *)
Definition madd (x v : term) (m : res model) : res model := m' <- m ;; m_add x v m'.
Definition getm (m : res model) : model := match m with Ok m' => m' | _ => newModel end.
Definition bv2v (n : str) : term := T NT_VAR (bvS 2) n [].
Definition bv2 (s : str) : term := T NT_CONST (bvS 2) s [].
Definition m39 : model := getm (madd (bv2v (L "p")) (bv2 (L "#b10")) (madd yi (mkConstInt 2) (madd xi (mkConstInt (-7)) (madd pa TRUE (Ok newModel))))).
Definition t39 : term :=
  T NT_AND boolS (L "and") [T NT_LT boolS (L "<") [T NT_ADD intS (L "+") [xi; mkConstInt 3; yi]; mkConstInt 0];
    T NT_ITE boolS (L "ite") [pa; T NT_BV_ULT boolS (L "bvult") [bv2v (L "p"); T NT_BV_ADD (bvS 2) (L "bvadd") [bv2v (L "p"); bv2 (L "#b01")]]; pa]].
Lemma t39_et : et EB t39.
Proof.
  assert (X : et EI xi) by (apply T_var; [cbn; tauto|now left]). assert (Y : et EI yi) by (apply T_var; [cbn; tauto|now left]).
  assert (A : et EB pa) by (apply T_var; [cbn; tauto|reflexivity]). assert (P : et (EV 2) (bv2v (L "p"))) by (apply T_var; [cbn; tauto|reflexivity]).
  assert (B : et (EV 2) (bv2 (L "#b01"))) by (apply T_lit; apply (L_bv 2 1); [lia|unfold fits; lia]).
  assert (Z : forall z, et EI (mkConstInt z)) by (intros z; apply T_lit, L_int).
  apply (T_app _ _ _ EB [EB; EB]); [apply (E_conn NT_AND 2); [cbn; tauto|lia]| |left; reflexivity].
  constructor; [|constructor; [|constructor]].
  - apply (T_app _ _ _ EB [EI; EI]); [apply E_cmp; cbn; tauto| |left; reflexivity]. constructor; [|constructor; [apply Z|constructor]].
    apply (T_app _ _ _ EI [EI; EI; EI]); [apply (E_arith NT_ADD 3); [cbn; tauto|lia]| |left; reflexivity]. constructor; [exact X|constructor; [apply Z|constructor; [exact Y|constructor]]].
  - apply (T_app _ _ _ EB [EB; EB; EB]); [apply E_ite| |left; reflexivity]. constructor; [exact A|constructor; [|constructor; [exact A|constructor]]].
    apply (T_app _ _ _ EB [EV 2; EV 2]); [apply E_bvcmp; cbn; tauto| |left; reflexivity]. constructor; [exact P|constructor; [|constructor]].
    apply (T_app _ _ _ (EV 2) [EV 2; EV 2]); [apply (E_bvn NT_BV_ADD 2 2); [cbn; tauto|lia]| |left; reflexivity]. constructor; [exact P|constructor; [exact B|constructor]].
Qed.
(** the type of a variable is determined by its sort *)
Lemma var_et x r : et r x -> isVar x = true ->
  match s_kind (t_sort x) with SK_BOOL => r = EB | SK_INT | SK_REAL => r = EI | SK_BV => r = EV (Z.to_nat (s_arity (hd nullS (s_ch (t_sort x))))) | _ => False end.
Proof.
  intros E V. inversion E as [k s n q Hk Hs|q v Hv|k s n q rs ch Sg F X]; subst.
  - cbn [t_sort]. destruct r; cbn in Hs; [subst; reflexivity|destruct Hs; subst; reflexivity|]. subst s. unfold bvS, widthS. cbn [s_kind s_ch hd s_arity]. now rewrite Nat2Z.id.
  - destruct (islit_const r x Hv) as [C _]. unfold isVar in V. unfold isConst in C. destruct (t_kind x); discriminate.
  - destruct (esig_kind k r rs Sg) as (_ & _ & _ & K). unfold isVar in V. cbn [t_kind] in V. congruence.
Qed.
Example C39_total_ex : et EB t39 /\ assigns m39 t39 /\ evaluateT c0 (fun l => l) m39 t39 = Ok TRUE.
Proof.
  split; [exact t39_et|]. split; [|vm_compute; reflexivity].
  intros x r S V E.
  assert (N : isVar x = true -> subterm x t39 -> x = xi \/ x = yi \/ x = pa \/ x = bv2v (L "p")).
  { clear. intros V S. unfold t39 in S.
    repeat match goal with
    | H : subterm _ (T _ _ _ _) |- _ => inversion H; clear H; subst; [try discriminate V; auto|]
    | H : In _ (t_ch (T _ _ _ _)) |- _ => cbn [t_ch] in H
    | H : In _ (_ :: _) |- _ => destruct H; subst
    | H : In _ [] |- _ => contradiction H
    | H : subterm _ xi |- _ => unfold xi, ivar in H
    | H : subterm _ yi |- _ => unfold yi, ivar in H
    | H : subterm _ pa |- _ => unfold pa, bvar in H
    | H : subterm _ (bv2v _) |- _ => unfold bv2v in H
    | H : subterm _ (bv2 _) |- _ => unfold bv2 in H
    | H : subterm _ (mkConstInt _) |- _ => unfold mkConstInt in H
    end. }
  destruct (N V S) as [ -> | [ -> | [ -> | -> ]]].
  - pose proof (var_et xi r E eq_refl) as Q. cbn in Q. rewrite Q. eexists. split; [vm_compute; reflexivity|apply (L_int (-7))].
  - pose proof (var_et yi r E eq_refl) as Q. cbn in Q. rewrite Q. eexists. split; [vm_compute; reflexivity|apply (L_int 2)].
  - pose proof (var_et pa r E eq_refl) as Q. cbn in Q. rewrite Q. eexists. split; [vm_compute; reflexivity|apply L_true].
  - pose proof (var_et (bv2v (L "p")) r E eq_refl) as Q. cbn in Q. rewrite Q. eexists. split; [vm_compute; reflexivity|]. apply (L_bv 2 2); [lia|unfold fits; lia].
Qed.

(** ** partial assignments *)
(** Some variables have values in the model, constants or terms of their sorts: whenever the
    call returns, the result is a well-sorted term that has the value of the given term wherever
    the variables have the values of the model, and the term itself if the call reports no
    change.  Partial: Boolean and arithmetic terms over the operators of [psig]. *)
Theorem C39_sound_partial : forall c ptr m t r b o, cfg_ok c -> pt r t -> sorted_model m t ->
  evaluate c ptr m t = Ok (b, o) ->
  exists v, o = Some v /\ wt r v /\ (b = false -> v = t) /\ forall I e, agrees I e m t -> eval I e t = eval I e v.
Proof. intros c ptr m t r b o Hc W S. exact (evaluate_sound c ptr m Hc r t W S b o). Qed.
Print Assumptions C39_sound_partial.
Definition m39p : model := getm (madd yi (T NT_ADD intS (L "+") [zi; mkConstInt 1]) (madd xi (mkConstInt 4) (Ok newModel))).
Definition t39p : term := T NT_OR boolS (L "or") [pa; T NT_EQ boolS (L "=") [T NT_SUB intS (L "-") [yi; xi; mkConstInt 1; zi]; xi; yi]].
Example C39_sound_ex : pt CB t39p /\ sorted_model m39p t39p /\
  exists v, evaluate c0 (fun l => l) m39p t39p = Ok (true, Some v) /\ v <> t39p /\ isConst v = false.
Proof.
  assert (X : pt CI xi) by (apply Q_var; reflexivity). assert (Y : pt CI yi) by (apply Q_var; reflexivity). assert (Zz : pt CI zi) by (apply Q_var; reflexivity).
  assert (One : pt CI (mkConstInt 1)) by (apply (Q_int intorealS 1); now right).
  split; [|split].
  - apply (Q_app NT_OR boolS _ CB [CB; CB]); [apply (P_conn NT_OR 2); [cbn; tauto|lia]|reflexivity|]. constructor; [apply Q_var; reflexivity|constructor; [|constructor]].
    apply (Q_app NT_EQ boolS _ CB [CI; CI; CI]); [apply (P_eq CI 3); [now left|lia]|reflexivity|]. constructor; [|constructor; [exact X|constructor; [exact Y|constructor]]].
    apply (Q_app NT_SUB intS _ CI [CI; CI; CI; CI]); [apply (P_arith NT_SUB CI 4); [cbn; tauto|now left|lia]|now left|].
    constructor; [exact Y|constructor; [exact X|constructor; [exact One|constructor; [exact Zz|constructor]]]].
  - intros x r v S V W G U.
    assert (N : x = pa \/ x = xi \/ x = yi \/ x = zi).
    { clear -V S. unfold t39p in S.
      repeat match goal with
      | H : subterm _ (T _ _ _ _) |- _ => inversion H; clear H; subst; [try discriminate V; auto|]
      | H : In _ (t_ch (T _ _ _ _)) |- _ => cbn [t_ch] in H
      | H : In _ (_ :: _) |- _ => destruct H; subst
      | H : In _ [] |- _ => contradiction H
      | H : subterm _ xi |- _ => unfold xi, ivar in H
      | H : subterm _ yi |- _ => unfold yi, ivar in H
      | H : subterm _ zi |- _ => unfold zi, ivar in H
      | H : subterm _ pa |- _ => unfold pa, bvar in H
      | H : subterm _ (mkConstInt _) |- _ => unfold mkConstInt in H
      end. }
    assert (CIR : forall y, y = xi \/ y = yi -> wt r y -> r = CI \/ r = CR).
    { intros y Hy Wy. destruct r; auto.
      - pose proof (wt_sort CB y Wy ltac:(discriminate)) as B. destruct Hy as [ -> | -> ]; apply (f_equal s_kind) in B; discriminate B.
      - inversion Wy as [k s n q A B| | | |k s n q rs ch A B F|s n q rs ch A B D F|t0 W0|]; subst; [contradiction| |contradiction].
        destruct (sig_ne k CL rs A) as [Nr _]. assert (ch = []) by (destruct Hy as [Hy|Hy]; now injection Hy). subst ch. inversion F; subst. contradiction.
      - pose proof (wt_sort _ y Wy ltac:(discriminate)) as B. destruct Hy as [ -> | -> ]; apply (f_equal s_kind) in B; discriminate B. }
    assert (Up : r = CI \/ r = CR -> wt CI v -> wt r v) by (intros [ -> | -> ] Wv; [exact Wv|now apply W_sub]).
    destruct N as [ -> | [ -> | [ -> | -> ]]]; vm_compute in G; injection G as <-; try discriminate U; apply Up; try (apply (CIR xi); [now left|assumption]); try (apply (CIR yi); [now right|assumption]).
    + apply (W_int intorealS 4). now right.
    + apply (W_app NT_ADD intS _ CI [CI; CI]); [apply (S_arith NT_ADD CI 2); [cbn; tauto|now left|lia]|now left|].
      constructor; [now apply (pt_wt CI zi)|constructor; [now apply (pt_wt CI (mkConstInt 1))|constructor]].
  - eexists. split; [vm_compute; reflexivity|]. split; [intros Q; apply (f_equal t_ch) in Q; discriminate Q|reflexivity].
Qed.
(** An empty model changes nothing, whatever the term. *)
Theorem C39_empty : forall c ptr m t, m_isEmpty m = true -> evaluateT c ptr m t = Ok t.
Proof. intros c ptr m [k s n ch] H. unfold evaluateT. cbn [evaluate]. rewrite H. reflexivity. Qed.
Print Assumptions C39_empty.
Example C39_empty_ex : m_isEmpty newModel = true. Proof. reflexivity. Qed.

(** ** what evaluation gets wrong *)
Definition ip (l : list term) : list term := l.
(** the quotient of two constants is computed and dropped: div 7 2 is the null node *)
Theorem C39_div_refuted : exists m, m_get xi m = Ok (mkConstInt 7) /\ m_get yi m = Ok (mkConstInt 2) /\
  evaluateT c0 ip m (T NT_DIV_INT intS (L "div") [xi; yi]) = Ok NULLT.
Proof. exists (getm (madd yi (mkConstInt 2) (madd xi (mkConstInt 7) (Ok newModel)))). repeat split; vm_compute; reflexivity. Qed.
Print Assumptions C39_div_refuted.
(** and div -5 3, which is -2, is 0 *)
Theorem C39_div_negative_refuted : exists m, m_get xi m = Ok (mkConstInt (-5)) /\ m_get yi m = Ok (mkConstInt 3) /\
  evaluateT c0 ip m (T NT_DIV_INT intS (L "div") [xi; yi]) = Ok (mkConstInt 0) /\
  forall I e, eval I e xi = VNum (ZQ (-5)) -> eval I e yi = VNum (ZQ 3) -> eval I e (T NT_DIV_INT intS (L "div") [xi; yi]) = VNum (ZQ (-2)).
Proof.
  exists (getm (madd yi (mkConstInt 3) (madd xi (mkConstInt (-5)) (Ok newModel)))). split; [|split; [|split]]; try (vm_compute; reflexivity).
  intros I e X Y. apply eval_op; [discriminate|reflexivity|]. cbn [map]. rewrite X, Y. vm_compute. reflexivity.
Qed.
Print Assumptions C39_div_negative_refuted.
(** concat of two constants repeats the first: #b10 and #b01 give #b101001, and the call reports no change *)
Theorem C39_concat_refuted : exists m, m_get (bv2v (L "p")) m = Ok (bv2 (L "#b10")) /\ m_get (bv2v (L "q")) m = Ok (bv2 (L "#b01")) /\
  evaluate c0 ip m (T NT_BV_CONCAT (bvS 4) (L "concat") [bv2v (L "p"); bv2v (L "q")]) = Ok (false, Some (T NT_CONST (bvS 6) (L "#b101001") [])).
Proof. exists (getm (madd (bv2v (L "q")) (bv2 (L "#b01")) (madd (bv2v (L "p")) (bv2 (L "#b10")) (Ok newModel)))). repeat split; vm_compute; reflexivity. Qed.
Print Assumptions C39_concat_refuted.
(** concat of a constant and a variable without a value drops the variable *)
Theorem C39_concat_drop_refuted : exists m, m_get (bv2v (L "p")) m = Ok (bv2 (L "#b10")) /\
  evaluateT c0 ip m (T NT_BV_CONCAT (bvS 4) (L "concat") [bv2v (L "p"); bv2v (L "q")]) = Ok (T NT_CONST (bvS 4) (L "#b1010") []).
Proof. exists (getm (madd (bv2v (L "p")) (bv2 (L "#b10")) (Ok newModel))). repeat split; vm_compute; reflexivity. Qed.
Print Assumptions C39_concat_drop_refuted.
(** of an implication with three arguments the last is not looked at *)
Theorem C39_implies_refuted : exists m, m_get pa m = Ok TRUE /\ m_get pb m = Ok TRUE /\ m_get (bvar (L "c")) m = Ok FALSE /\
  evaluateT c0 ip m (T NT_IMPLIES boolS (L "=>") [pa; pb; bvar (L "c")]) = Ok TRUE /\
  forall I e, holds I e pa = true -> holds I e pb = true -> holds I e (bvar (L "c")) = false -> holds I e (T NT_IMPLIES boolS (L "=>") [pa; pb; bvar (L "c")]) = false.
Proof.
  exists (getm (madd (bvar (L "c")) FALSE (madd pb TRUE (madd pa TRUE (Ok newModel))))). split; [|split; [|split; [|split]]]; try (vm_compute; reflexivity).
  intros I e A B C. unfold holds in *. rewrite (eval_op I e NT_IMPLIES boolS (L "=>") [pa; pb; bvar (L "c")] (VBool false)); [reflexivity|discriminate|reflexivity|].
  cbn [map op_sem impl]. rewrite A, B, C. reflexivity.
Qed.
Print Assumptions C39_implies_refuted.
(** bv2int of a variable with a value reads a second argument that does not exist; int2bv becomes bv2int *)
Theorem C39_bv2int_refuted : exists m, m_get (bv2v (L "p")) m = Ok (bv2 (L "#b10")) /\
  evaluateT c0 ip m (T NT_BV_TO_INT intS (L "bv2int") [bv2v (L "p")]) = UB.
Proof. exists (getm (madd (bv2v (L "p")) (bv2 (L "#b10")) (Ok newModel))). repeat split; vm_compute; reflexivity. Qed.
Print Assumptions C39_bv2int_refuted.
Theorem C39_int2bv_refuted : exists m t, m_get xi m = Ok (mkConstInt 3) /\
  evaluateT c0 ip m (T NT_INT_TO_BV (bvS 2) (L "int2bv") [xi; mkConstInt 2]) = Ok t /\ t_kind t = NT_BV_TO_INT /\ t_ch t = [mkConstInt 3].
Proof. exists (getm (madd xi (mkConstInt 3) (Ok newModel))). eexists. split; [vm_compute; reflexivity|]. split; [vm_compute; reflexivity|]. split; reflexivity. Qed.
Print Assumptions C39_int2bv_refuted.
(** operators without an evaluator, extraction and function application, keep their variables *)
Theorem C39_unevaluated_refuted : exists m, m_get (bv2v (L "p")) m = Ok (bv2 (L "#b10")) /\ m_get xi m = Ok (mkConstInt 1) /\
  (forall u, u = T NT_BV_EXTRACT (bvS 1) (L "extract") [bv2v (L "p"); mkConstInt 0; mkConstInt 0] \/ u = T NT_UF_APPLY intS (L "f") [xi] ->
   evaluate c0 ip m u = Ok (false, Some u)).
Proof.
  exists (getm (madd xi (mkConstInt 1) (madd (bv2v (L "p")) (bv2 (L "#b10")) (Ok newModel)))). split; [vm_compute; reflexivity|]. split; [vm_compute; reflexivity|].
  intros u [ -> | -> ]; vm_compute; reflexivity.
Qed.
Print Assumptions C39_unevaluated_refuted.
