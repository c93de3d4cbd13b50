(** Evaluation of reads and writes of arrays (added after a wrong program survived the other theorems). *)
From Coq Require Import QArith Qcanon Permutation.
From Verif Require Import Base KindModel SortModel TermModel BVSpec UtilSpec DagProofs SortProofs Sem SemProofs ArrayModel SimpModel OpModel OpSpec
  OpProofs ArrSimpModel ArrSpec ArrProofs ArrProofs2 TraverseModel EvalModel EvalSpec EvalProofs EvalProofs2 EvalProofs3.
Open Scope Z_scope.

(** writes with fully assigned indices and values, on top of an array variable without a value *)
Inductive writes (m : model) (is es : sort) (ri r : ety) (b : term) : term -> Prop :=
| WR_base : writes m is es ri r b b
| WR_store n a i v : writes m is es ri r b a -> et ri i -> assigns m i -> et r v -> assigns m v ->
    writes m is es ri r b (T NT_STORE (arrayS is es) n [a; i; v]).
(** the same with constants in place of the indices and values *)
Inductive written (is es : sort) (ri r : ety) (b : term) : term -> Prop :=
| WN_base : written is es ri r b b
| WN_store n a i v : written is es ri r b a -> islit ri i -> islit r v -> written is es ri r b (T NT_STORE (arrayS is es) n [a; i; v]).
(** the constants of type [r] are values of the sort [es] *)
Definition elem (r : ety) (es : sort) : Prop := match r with EB => es = boolS | EI => es = intS \/ es = realS | EV w => es = bvS (Z.of_nat w) end.

Section X.
Context (c : cfg) (ptr : list term -> list term) (m : model) (Hp : forall l, Permutation (ptr l) l).
Context (is es : sort) (ri r : ety) (He : elem r es).
Context (bn : str).
Notation b := (T NT_VAR (arrayS is es) bn []).
Context (u : term) (Hb : m_get b m = Ok u) (Hu : isUnknown u = true) (Hm : m_isEmpty m = false).
Notation f := (evaluate c ptr m).

Lemma lit_elem I e v : islit r v -> coerce es (eval I e v) = eval I e v.
Proof.
  intros H. destruct H as [| |z|w v W F]; cbn [elem] in He.
  - subst es. reflexivity.
  - subst es. reflexivity.
  - change (mkConstInt z) with (ic intorealS z). rewrite eval_ic by auto. destruct He as [ -> | -> ]; cbn; [|reflexivity]. now rewrite ApplyProofs.ZQ_floor.
  - subst es. fold (bc w v). rewrite eval_bc. unfold coerce, bvS, widthS. cbn [s_kind s_ch s_arity bvv]. rewrite Nat2Z.id.
    unfold uv. rewrite Z.mod_mod; [reflexivity|]. apply Z.pow_nonzero; lia.
Qed.
Lemma lit_inj I e x y : islit ri x -> islit ri y -> x <> y -> eval I e x <> eval I e y.
Proof.
  intros Hx Hy N E. pose proof (lit_eq ri x y I e Hx Hy) as Q. rewrite E in Q. apply N, teq_spec. rewrite <- Q. now rewrite (lit_eq ri y y I e Hy Hy), teq_refl.
Qed.
Notation wn := (written is es ri r b).
Lemma wn_indices t : wn t -> Forall (islit ri) (indices t).
Proof. induction 1; cbn; [constructor|now constructor]. Qed.
Lemma wn_ok I A e t : isarr A (eval I e b) -> wn t -> arr_ok I A e is es t.
Proof. intros HA. induction 1; [apply AO_base; [discriminate|discriminate|reflexivity|exact HA]|]. constructor; [assumption|]. now apply lit_elem. Qed.
Lemma wn_chain t : wn t -> exists ws, storeChain t = Ok (b, ws) /\ Forall (fun w => islit ri (fst w) /\ islit r (snd w)) ws.
Proof.
  induction 1 as [|n a i v H (ws & E & F) Hi Hv].
  - exists []. split; [reflexivity|constructor].
  - exists ((i, v) :: ws). split; [cbn [storeChain]; change (keq NT_STORE NT_STORE) with true; cbn iota; now rewrite E|]. constructor; [split; assumption|exact F].
Qed.
Notation lw := (fun w : term * term => islit ri (fst w) /\ islit r (snd w)).
Lemma over_lits k v l : islit ri k -> islit r v -> Forall lw l -> Forall lw (overwrite k v l).
Proof. intros Hk Hv F. induction F as [|w l Hw F IH]; cbn; [repeat constructor; assumption|]. destruct (teq (fst w) k); constructor; auto. Qed.
Lemma look_lit k l : Forall lw l -> In k (map fst l) -> islit r (lookup k l).
Proof.
  intros F. induction F as [|w l Hw F IH]; cbn; [contradiction|]. intros [ <- | H ]; [rewrite teq_refl; apply Hw|]. destruct (teq (fst w) k); [apply Hw|auto].
Qed.
Lemma store_all l : Forall lw l -> forall ks t, wn t -> (forall k, In k ks -> In k (map fst l)) ->
  exists t', foldM (fun res idx => mkOper c (t_sort res) NT_STORE [res; idx; lookup idx l]) t ks = Ok t' /\ wn t'.
Proof.
  intros F. induction ks as [|k ks IH]; intros t W H; [now exists t|]. cbn [foldM]. rewrite mkOper_store. cbn [bind].
  assert (t_sort t = arrayS is es) as -> by (destruct W; reflexivity).
  apply IH; [|intros; apply H; now right]. constructor; [exact W| |apply look_lit; [exact F|apply H; now left]].
  assert (In k (map fst l)) as X by (apply H; now left). apply in_map_iff in X. destruct X as (w & <- & X). rewrite Forall_forall in F. now apply F.
Qed.
Lemma wn_norm t : wn t -> exists t', normalizeStoreChain c ptr t = Ok t' /\ wn t'.
Proof.
  intros W. unfold normalizeStoreChain. destruct (isStore t) eqn:ES; cbn [negb]; [|now exists t].
  destruct (wn_chain t W) as (ws & E & F). rewrite E. cbn [bind fst snd].
  assert (G : Forall lw (fold_left (fun m w => overwrite (fst w) (snd w) m) (rev ws) [])).
  { assert (Fr : Forall lw (rev ws)) by now apply Forall_rev. clear -Fr. revert Fr. generalize (rev ws). intros l Fr. assert (X : Forall lw []) by constructor. revert X. generalize (@nil (term * term)).
    induction Fr as [|w l [Hw1 Hw2] Fr IH]; intros a X; cbn [fold_left]; [exact X|]. apply IH. now apply over_lits. }
  apply (store_all _ G); [constructor|]. intros k Hk. apply (Permutation_in _ (Hp _)) in Hk. exact Hk.
Qed.
Lemma wn_base_b : isConst b = false. Proof. reflexivity. Qed.
Lemma agrees_sub I e k s n ch x : EvalSpec.agrees I e m (T k s n ch) -> In x ch -> EvalSpec.agrees I e m x.
Proof. intros H Hx y v S. apply H. econstructor; eauto. Qed.

Lemma const_same i q : et q i -> isConst i = true -> f i = same i.
Proof.
  intros H D. assert (L : islit q i).
  { destruct H as [k s n q Hk Hs|q v Hv|k s n q rs ch Sg F X]; [|exact Hv|].
    - exfalso. repeat (destruct Hk as [ <- | Hk ]; [discriminate D|]). contradiction.
    - exfalso. destruct (esig_kind _ _ _ Sg) as (_ & _ & K & _). unfold isConst in D. cbn [t_kind] in D. congruence. }
  destruct (islit_const q i L) as [C U]. apply evaluate_const; [exact C|exact U|]. inversion L; reflexivity.
Qed.
(** the arrays *)
Theorem writes_eval t : writes m is es ri r b t ->
  exists d v, f t = Ok (d, Some v) /\ (d = false -> v = t) /\ wn v /\
    forall I (A : array_theory I) e, isarr A (eval I e b) -> EvalSpec.agrees I e m t -> eval I e v = eval I e t.
Proof.
  induction 1 as [|n a i v Ha (da & va & Ea & Sa & Wa & Va) Ti Ai Tv Av].
  - exists false, b. cbn [evaluate]. rewrite Hm. cbn -[m_get]. rewrite Hb. cbn [bind]. rewrite Hu. repeat split; constructor.
  - destruct (evaluate_total c ptr m i ri Ti Ai) as (vi & Ei & Li & Vi). destruct (evaluate_total c ptr m v r Tv Av) as (vv & Ev & Lv & Vv).
    set (t := T NT_STORE (arrayS is es) n [a; i; v]).
    assert (Q : f t = evStore c ptr f t) by (apply evaluate_app; [exact Hm|reflexivity..]).
    set (t1 := T NT_STORE (arrayS is es) (kindToString NT_STORE) [va; vi; vv]).
    assert (W1 : wn t1) by now constructor.
    assert (M1 : forall I (A : array_theory I) e, isarr A (eval I e b) -> EvalSpec.agrees I e m t -> forall nm, eval I e (T NT_STORE (arrayS is es) nm [va; vi; vv]) = eval I e t).
    { intros I A e HA G nm. unfold t. rewrite !(ev_store I A). unfold t in G. rewrite (Va I A e HA) by (apply (agrees_sub _ _ _ _ _ _ a G); cbn; tauto).
      rewrite <- (Vi I e), <- (Vv I e); [reflexivity| |]; apply (agrees_sub _ _ _ _ _ _ _ G); cbn; tauto. }
    rewrite Q. unfold evStore, t at 1. cbn [t_ch]. rewrite Ea, Ei, Ev. cbn [bind fst snd].
    assert (N1 : forall nm, exists t', normalizeStoreChain c ptr (T NT_STORE (arrayS is es) nm [va; vi; vv]) = Ok t' /\ wn t' /\
       forall I (A : array_theory I) e, isarr A (eval I e b) -> eval I e t' = eval I e (T NT_STORE (arrayS is es) nm [va; vi; vv])).
    { intros nm. assert (W : wn (T NT_STORE (arrayS is es) nm [va; vi; vv])) by now constructor. destruct (wn_norm _ W) as (t' & E1 & E2). exists t'. split; [exact E1|]. split; [exact E2|].
      intros I A e HA. destruct (normalize_ok I A e is es c ptr _ Hp (wn_ok I A e _ HA W)) as (t2 & F1 & F2 & F3 & _).
      - intros x y Hx Hy N. pose proof (wn_indices _ W) as X. rewrite Forall_forall in X. apply lit_inj; auto.
      - rewrite E1 in F1. injection F1 as <-. exact F3. }
    destruct (da || negb (isConst i) || negb (isConst v)) eqn:D.
    + cbn [deref bind]. assert (t_sort va = arrayS is es) as -> by (destruct Wa; reflexivity). rewrite mkOper_store. cbn [bind]. unfold simplifyArray.
      change (isSelect (T NT_STORE (arrayS is es) (kindToString NT_STORE) [va; vi; vv])) with false. change (isStore (T NT_STORE (arrayS is es) (kindToString NT_STORE) [va; vi; vv])) with true. cbn iota.
      destruct (N1 (kindToString NT_STORE)) as (t' & E1 & E2 & E3). rewrite E1. cbn. exists true, t'. split; [reflexivity|]. split; [discriminate|]. split; [exact E2|].
      intros I A e HA G. rewrite (E3 I A e HA). now apply (M1 I A e HA G).
    + apply orb_false_iff in D. destruct D as [D Dv]. apply orb_false_iff in D. destruct D as [Da Di]. apply negb_false_iff in Dv, Di. specialize (Sa Da). subst va.
      assert (vi = i) as -> by (rewrite (const_same i ri Ti Di) in Ei; now injection Ei).
      assert (vv = v) as -> by (rewrite (const_same v r Tv Dv) in Ev; now injection Ev).
      unfold simplifyArray. change (isSelect t) with false. change (isStore t) with true. cbn iota. destruct (N1 n) as (t' & E1 & E2 & E3). fold t in E1, E3. rewrite E1. cbn [bind].
      destruct (teq t' t) eqn:TE.
      * apply teq_spec in TE. subst t'. exists false, t. repeat split; auto.
      * exists true, t'. split; [reflexivity|]. split; [discriminate|]. split; [exact E2|]. intros I A e HA G. now apply (E3 I A).
Qed.

Lemma wn_scan j t : wn t -> exists o, scan j t = Ok o /\ match o with inl v => islit r v | inr x => x = b end.
Proof.
  induction 1 as [|n a i v H (o & E & F) Hi Hv]; [exists (inr b); split; reflexivity|]. cbn [scan]. change (keq NT_STORE NT_STORE) with true. cbn iota.
  destruct (teq j i); [exists (inl v); split; [reflexivity|exact Hv]|]. exists o. split; assumption.
Qed.
(** a read: a constant, or a read of the variable at a constant index *)
Theorem read_eval n t i : writes m is es ri r b t -> et ri i -> assigns m i ->
  exists d v, f (T NT_SELECT es n [t; i]) = Ok (d, Some v) /\ (islit r v \/ exists n' j, v = T NT_SELECT es n' [b; j] /\ islit ri j) /\
    forall I (A : array_theory I) e, isarr A (eval I e b) -> EvalSpec.agrees I e m (T NT_SELECT es n [t; i]) -> eval I e v = eval I e (T NT_SELECT es n [t; i]).
Proof.
  intros Ht Ti Ai. destruct (writes_eval t Ht) as (da & va & Ea & Sa & Wa & Va). destruct (evaluate_total c ptr m i ri Ti Ai) as (vi & Ei & Li & Vi).
  set (q := T NT_SELECT es n [t; i]). assert (Q : f q = evSelect c ptr f q) by (apply evaluate_app; [exact Hm|reflexivity..]).
  rewrite Q. unfold evSelect, q at 1. cbn [t_ch]. rewrite Ea, Ei. cbn [bind fst snd].
  assert (N1 : forall nm, exists v, rewriteSelect c (T NT_SELECT es nm [va; vi]) = Ok v /\ (islit r v \/ exists n' j, v = T NT_SELECT es n' [b; j] /\ islit ri j) /\
     forall I (A : array_theory I) e, isarr A (eval I e b) -> EvalSpec.agrees I e m q -> eval I e v = eval I e q).
  { intros nm. unfold rewriteSelect. change (isSelect (T NT_SELECT es nm [va; vi])) with true. cbn [negb t_ch].
    destruct (wn_scan vi va Wa) as (o & E & F).
    assert (X : exists v, (if negb (isStore va) then Ok (T NT_SELECT es nm [va; vi]) else o <- scan vi va ;; match o with inl v => Ok v | inr b0 => es0 <- elemS (t_sort b0) ;; mkOper c es0 NT_SELECT [b0; vi] end) = Ok v /\
        (islit r v \/ exists n' j, v = T NT_SELECT es n' [b; j] /\ islit ri j)).
    { destruct (isStore va) eqn:ES; cbn [negb].
      - rewrite E. cbn [bind]. destruct o as [v|x]; [exists v; auto|]. subst x. cbn [t_sort elemS arrayS s_ch bind]. rewrite mkOper_select. eexists. split; [reflexivity|]. right. eauto.
      - eexists. split; [reflexivity|]. right. assert (va = b) as -> by (destruct Wa; [reflexivity|discriminate]). eauto. }
    destruct X as (v & X1 & X2). exists v. split; [exact X1|]. split; [exact X2|]. intros I A e HA G.
    destruct (rewriteSelect_ok I A e is es c nm va vi) as (v' & Y1 & Y2).
    - now apply wn_ok.
    - intros x Hx N. apply lit_inj; [|exact Li|exact N]. pose proof (wn_indices _ Wa) as Z. rewrite Forall_forall in Z. auto.
    - unfold rewriteSelect in Y1. change (isSelect (T NT_SELECT es nm [va; vi])) with true in Y1. cbn [negb t_ch] in Y1. rewrite X1 in Y1. injection Y1 as <-. rewrite Y2. unfold q. rewrite (ev_select I A).
      rewrite (Va I A e HA) by (apply (agrees_sub _ _ _ _ _ _ _ G); cbn; tauto). rewrite <- (Vi I e) by (apply (agrees_sub _ _ _ _ _ _ _ G); cbn; tauto). reflexivity. }
  destruct (da || negb (isConst i)) eqn:D.
  - cbn [deref bind]. assert (t_sort va = arrayS is es) as -> by (destruct Wa; reflexivity). cbn [elemS arrayS s_ch bind]. rewrite mkOper_select. cbn [bind]. unfold simplifyArray.
    change (isSelect (T NT_SELECT es (kindToString NT_SELECT) [va; vi])) with true. cbn iota. destruct (N1 (kindToString NT_SELECT)) as (v & E1 & E2 & E3). rewrite E1. cbn. exists true, v. auto.
  - apply orb_false_iff in D. destruct D as [Da Di]. apply negb_false_iff in Di. specialize (Sa Da). subst va.
    assert (vi = i) as -> by (rewrite (const_same i ri Ti Di) in Ei; now injection Ei).
    unfold simplifyArray. change (isSelect q) with true. cbn iota. destruct (N1 n) as (v & E1 & E2 & E3). fold q in E1. rewrite E1. cbn [bind].
    destruct (teq v q) eqn:TE; [apply teq_spec in TE; subst v; exists false, q; auto|exists true, v; auto].
Qed.
End X.
