(** C56: collectVars and collectAssignableVars; C57: collectAtoms and collectGroundAtoms;
    C58: isUnit, isUnitAtom, getUnitVar; C59: getNodeCount.  Vocabulary: CollectSpec.v. *)
From Verif Require Import Base KindModel SortModel TermModel Sem SemProofs SimpModel OpModel OpSpec OpProofs OpExamples TraverseModel TraverseSpec TraverseProofs
  ParseModel ConvModel ConvSpec ConvProofs ConvExamples CommandModel CollectModel CollectSpec CollectProofs PropsParse PropsCommand.
Open Scope nat_scope.

(** ** C56 *)
(** the call ends; it keeps what was in the set and adds exactly the variables that occur in the
    expressions, each once *)
Theorem C56_vars_partial : forall ts vars, (forall t, In t ts -> plain_vars t) ->
  exists out, collectVars ts vars = Ok out /\ (NoDup vars -> NoDup out) /\
    forall x, In x out <-> In x vars \/ (isVar x = true /\ exists t, In t ts /\ subterm x t).
Proof.
  intros ts vars P. unfold collectVars.
  destruct (collects_total (fun t => Ok (isVar t)) always ts vars) as [out E]; [eauto|]. exists out. split; [exact E|].
  apply collects_exact in E. destruct E as [N H]. split; [exact N|]. intros x. rewrite H.
  split; (intros [K|(K & t & Ht & R)]; [now left|right]).
  - split; [congruence|]. exists t. split; [exact Ht|]. apply reach_outer in R. now apply outer_sub in R.
  - split; [now rewrite K|]. exists t. split; [exact Ht|]. apply reach_outer. apply plain_outer; auto.
Qed.
Print Assumptions C56_vars_partial.
(** whatever the terms: only variables are added, and a variable under no other variable is *)
Theorem C56_vars_any : forall ts vars, exists out, collectVars ts vars = Ok out /\ (NoDup vars -> NoDup out) /\
    forall x, In x out <-> In x vars \/ (isVar x = true /\ exists t, In t ts /\ outer isVar x t).
Proof.
  intros ts vars. unfold collectVars.
  destruct (collects_total (fun t => Ok (isVar t)) always ts vars) as [out E]; [eauto|]. exists out. split; [exact E|].
  apply collects_exact in E. destruct E as [N H]. split; [exact N|]. intros x. rewrite H.
  split; (intros [K|(K & t & Ht & R)]; [now left|right]).
  - split; [congruence|]. exists t. split; [exact Ht|]. now apply reach_outer.
  - split; [now rewrite K|]. exists t. split; [exact Ht|]. now apply reach_outer.
Qed.
Print Assumptions C56_vars_any.
(** the value of each expression depends on nothing but the collected variables *)
Theorem C56_decide_partial : forall ts out, (forall t, In t ts -> plain_vars t) -> collectVars ts [] = Ok out ->
  forall I e f, (forall x, In x out -> e x = f x) -> forall t, In t ts -> eval I e t = eval I f t.
Proof.
  intros ts out P E I e f H t Ht. destruct (C56_vars_partial ts [] P) as (out' & E' & _ & K). rewrite E in E'. apply Ok_inj in E'. subst out'.
  apply vars_decide; [now apply P|]. intros x Hx Hs. apply H. apply K. right. split; [exact Hx|]. now exists t.
Qed.
Print Assumptions C56_decide_partial.
(** collectAssignableVars: the variables and applications of uninterpreted functions that lie
    outside every other variable and application *)
Theorem C56_assignable : forall ts vars, exists out, collectAssignableVars ts vars = Ok out /\ (NoDup vars -> NoDup out) /\
    forall x, In x out <-> In x vars \/ ((isVar x = true \/ t_kind x = NT_UF_APPLY) /\ exists t, In t ts /\ outer isAssignableVar x t).
Proof.
  intros ts vars. unfold collectAssignableVars.
  destruct (collects_total (fun t => Ok (isAssignableVar t)) always ts vars) as [out E]; [eauto|]. exists out. split; [exact E|].
  apply collects_exact in E. destruct E as [N H]. split; [exact N|]. intros x. rewrite H.
  assert (X : Ok (isAssignableVar x) = Ok true <-> isVar x = true \/ t_kind x = NT_UF_APPLY).
  { unfold isAssignableVar, isUF, isk. rewrite <- DagProofs.keq_spec. destruct (isVar x), (keq (t_kind x) NT_UF_APPLY); cbn; intuition congruence. }
  rewrite X. split; (intros [K|(K & t & Ht & R)]; [now left|right]); (split; [exact K|]); exists t; (split; [exact Ht|]); now apply reach_outer.
Qed.
Print Assumptions C56_assignable.
(** a kept let: the variable x, on which the value depends, is not collected *)
Definition sc56 : string := "(declare-fun x () Int)(assert (let ((y (+ x 1))) (> y 0)))".
Definition asserted (s : string) : list term := match run s with Ok q => g_as (q_g q) | _ => [] end.
Theorem C56_let_refuted : exists t v, asserted sc56 = [t] /\ collectVars [t] [] = Ok [v] /\ v <> xi /\ isVar v = true /\
  subterm xi t /\ exists e f, (forall x, x <> xi -> e x = f x) /\ holds I0 e t <> holds I0 f t.
Proof.
  eexists. eexists. split; [vm_compute; reflexivity|]. split; [vm_compute; reflexivity|]. split; [discriminate|]. split; [reflexivity|]. split.
  { eapply Sub_ch; [right; now left|]. eapply Sub_ch; [now left|]. eapply Sub_ch; [now left|]. eapply Sub_ch; [now left|]. constructor. }
  exists (fun x => if teq x xi then VNum (Qcanon.Q2Qc (QArith_base.inject_Z 5)) else VBool false), (fun x => if teq x xi then VNum (Qcanon.Q2Qc (QArith_base.inject_Z (-5))) else VBool false).
  split; [intros x N; destruct (teq x xi) eqn:E; [apply teq_spec in E; contradiction|reflexivity]|]. vm_compute. discriminate.
Qed.
Print Assumptions C56_let_refuted.
(** a bound variable is collected although the value does not depend on it *)
Definition sc56q : string := "(assert (forall ((z Bool)) z))".
Theorem C56_bound_refuted : exists t v, asserted sc56q = [t] /\ collectVars [t] [] = Ok [v] /\ t_kind v = NT_QUANT_VAR /\
  forall I e f, eval I e t = eval I f t.
Proof.
  eexists. eexists. split; [vm_compute; reflexivity|]. split; [vm_compute; reflexivity|]. split; [reflexivity|].
  intros I e f. cbn [eval map]. f_equal. apply i_all_dom. intros vs Hv. inversion Hv as [|a v l vs' D F]; subst. inversion F; subst. reflexivity.
Qed.
Print Assumptions C56_bound_refuted.
Example C56_ex : exists t, asserted "(declare-fun x () Int)(declare-fun y () Int)(declare-fun g (Int) Int)(assert (<= (g x) (+ y x)))" = [t] /\ plain_vars t /\ collectVars [t] [] = Ok [yi; xi] /\ exists u, t_kind u = NT_UF_APPLY /\ collectAssignableVars [t] [] = Ok [xi; yi; u].
Proof.
  eexists. split; [vm_compute; reflexivity|]. split.
  { intros p Hp. apply preorder_sub in Hp. vm_compute in Hp.
    repeat (destruct Hp as [ <- | Hp ]; [split; [intros X; first [reflexivity|discriminate X]|discriminate]|]). destruct Hp. }
  split; [vm_compute; reflexivity|]. eexists. split; [|vm_compute; reflexivity]. reflexivity.
Qed.

(** ** C57 *)
(** exactly the atoms that lie outside every other atom *)
Theorem C57_atoms_partial : forall ts A, (forall t, In t ts -> atom_tests t) ->
  exists out, collectAtoms ts A = Ok out /\ (NoDup A -> NoDup out) /\
    forall x, In x out <-> In x A \/ (atomb x = true /\ exists t, In t ts /\ outer atomb x t).
Proof.
  intros ts A P. unfold collectAtoms. destruct (collects_total isAtom always ts A P) as [out E]. exists out. split; [exact E|].
  apply collects_exact in E. destruct E as [N H]. split; [exact N|]. intros x. rewrite H.
  split; (intros [K|(K & t & Ht & R)]; [now left|right]).
  - split; [unfold atomb; now rewrite K|]. exists t. split; [exact Ht|]. apply reach_atom; [now apply P|exact R].
  - split.
    + unfold atomb in K. destruct (P t Ht x (outer_sub _ _ _ R)) as [b E]. rewrite E in K |- *. now subst.
    + exists t. split; [exact Ht|]. apply reach_atom; [now apply P|exact R].
Qed.
Print Assumptions C57_atoms_partial.
(** the value of a quantifier-free expression depends on nothing but the collected atoms and the variables
    that lie outside the atoms *)
Theorem C57_decide_partial : forall t out, atom_tests t -> no_quant t -> (forall p, subterm p t -> t_kind p <> NT_FUNC_PARAM) ->
  collectAtoms [t] [] = Ok out -> forall I e f, (forall a, In a out -> eval I e a = eval I f a) ->
  (forall x, outer atomb x t -> isVar x = true -> t_ch x = [] -> e x = f x) -> eval I e t = eval I f t.
Proof.
  intros t out T Q F E I e f H V. destruct (C57_atoms_partial [t] []) as (out' & E' & _ & K); [intros y [ <- | [] ]; exact T|].
  rewrite E in E'. apply Ok_inj in E'. subst out'. apply atoms_decide; auto. intros x Hx Ha. apply H. apply K. right. split; [exact Ha|].
  exists t. split; [now left|exact Hx].
Qed.
Print Assumptions C57_decide_partial.
(** collectGroundAtoms: every atom it adds follows from the expressions, and every conjunct of
    their negation normal forms that is an atom is added *)
Theorem C57_ground_partial : forall c ts A out, cfg_ok c -> (forall t, In t ts -> fml c t) -> collectGroundAtoms c ts A = Ok out ->
  (NoDup A -> NoDup out) /\
  (forall a, In a out -> In a A \/ (isAtom a = Ok true /\ forall I e, (forall t, In t ts -> holds I e t = true) -> holds I e a = true)) /\
  (forall a, In a A -> In a out) /\
  (forall a t r, In t ts -> toNNF c t = Ok r -> conjunct a r -> isAtom a = Ok true -> In a out).
Proof.
  intros c ts A out Hc F H. unfold collectGroundAtoms in H. destruct (mapM_nnf2 c ts Hc F) as (ns & E & N). rewrite E in H. cbn [bind] in H.
  apply collects_exact in H. destruct H as [ND H]. split; [exact ND|]. split; [|split].
  - intros a Ha. apply H in Ha. destruct Ha as [Ha|(K & r & Hr & R)]; [now left|]. right. split; [exact K|]. intros I e T.
    apply reach_conj in R. apply (conj_holds I e a r R).
    clear -N Hr T. induction N as [|t r' ts ns [_ V] N IH]; [destruct Hr|]. destruct Hr as [ -> | Hr ]; [rewrite V; apply T; now left|].
    apply IH; [exact Hr|]. intros t' Ht'. apply T. now right.
  - intros a Ha. apply H. now left.
  - intros a t r Ht Er R K. apply H. right. split; [exact K|]. exists r. split; [|now apply reach_conj].
    clear -N Ht Er. induction N as [|t' r' ts ns [E' _] N IH]; [destruct Ht|]. destruct Ht as [ -> | Ht ]; [rewrite E' in Er; apply Ok_inj in Er; subst; now left|right; now apply IH].
Qed.
Print Assumptions C57_ground_partial.
(** a Boolean variable is not an atom for collectAtoms *)
Theorem C57_bool_var_refuted : asserted "(declare-fun a () Bool)(declare-fun b () Bool)(assert (or a b))" = [nodeN NT_OR "or" [pa; pb]] /\
  collectAtoms [nodeN NT_OR "or" [pa; pb]] [] = Ok [].
Proof. split; vm_compute; reflexivity. Qed.
Print Assumptions C57_bool_var_refuted.
(** a formula with two comparisons, one of them below a negation *)
Definition le3 : term := nodeN NT_LE "<=" [xi; num0 3].
Definition lt0 : term := nodeN NT_LT "<" [yi; num0 0].
Definition fm57 : term := nodeN NT_AND "and" [nodeN NT_OR "or" [le3; pa]; nodeN NT_NOT "not" [nodeN NT_OR "or" [lt0; pb]]].
Example C57_ex : atom_tests fm57 /\ no_quant fm57 /\ collectAtoms [fm57] [] = Ok [lt0; le3] /\
  exists ge0, collectGroundAtoms c0 [fm57] [] = Ok [ge0] /\ t_kind ge0 = NT_GE /\ t_ch ge0 = t_ch lt0.
Proof.
  split; [|split].
  1,2: intros p Hp; apply preorder_sub in Hp; vm_compute in Hp;
    repeat (destruct Hp as [ <- | Hp ]; [first [eexists; vm_compute; reflexivity|split; discriminate]|]); destruct Hp.
  split; [vm_compute; reflexivity|]. eexists. split; [vm_compute; reflexivity|]. split; reflexivity.
Qed.

(** ** C58 *)
Theorem C58_isUnit : forall t, exists b, isUnit (Some t) = Ok b /\
  (b = true <-> forall x y, subterm x t -> isVar x = true -> subterm y t -> isVar y = true -> x = y).
Proof.
  intros t. unfold isUnit. destruct (unit_search_ok t) as (r & -> & H). cbn [bind]. eexists. split; [reflexivity|].
  destruct r as [vs|].
  - destruct H as (L & N & H). assert (length vs <=? 1 = true) as -> by now apply Nat.leb_le. split; [|reflexivity]. intros _ x y Sx Vx Sy Vy.
    assert (Hx : In x vs) by (apply H; auto). assert (Hy : In y vs) by (apply H; auto).
    destruct vs as [|a [|b vs]]; [destruct Hx| |cbn in L; lia]. destruct Hx as [ <- | [] ]. now destruct Hy as [ <- | [] ].
  - split; [discriminate|]. intros K. destruct H as (x & y & D & Vx & Vy & Sx & Sy). exfalso. apply D. now apply K.
Qed.
Print Assumptions C58_isUnit.
(** getUnitVar: the only variable, or the null node *)
Theorem C58_getUnitVar : forall t, exists v, getUnitVar (Some t) = Ok v /\
  ((subterm v t /\ isVar v = true /\ forall y, subterm y t -> isVar y = true -> y = v) \/
   (v = NULLT /\ ((forall y, subterm y t -> isVar y = false) \/ exists x y, x <> y /\ isVar x = true /\ isVar y = true /\ subterm x t /\ subterm y t))).
Proof.
  intros t. unfold getUnitVar. destruct (unit_search_ok t) as (r & -> & H). cbn [bind]. eexists. split; [reflexivity|].
  destruct r as [[|v [|w vs]]|].
  - right. split; [reflexivity|]. left. intros y Sy. destruct H as (_ & _ & H). destruct (isVar y) eqn:E; [|reflexivity].
    destruct (proj2 (H y) (conj Sy E)).
  - left. destruct H as (_ & _ & H). destruct (proj1 (H v) (or_introl eq_refl)) as [A B]. split; [exact A|]. split; [exact B|].
    intros y Sy Vy. destruct (proj2 (H y) (conj Sy Vy)) as [ <- | [] ]. reflexivity.
  - destruct H as (L & _). cbn in L. lia.
  - right. split; [reflexivity|]. right. exact H.
Qed.
Print Assumptions C58_getUnitVar.
Theorem C58_isUnitAtom : forall t, atom_tests t -> exists b, isUnitAtom (Some t) = Ok b /\
  (b = true <-> atomb t = true /\ forall x y, subterm x t -> isVar x = true -> subterm y t -> isVar y = true -> x = y).
Proof.
  intros t T. destruct (C58_isUnit t) as (b & E & H). unfold isUnitAtom. rewrite E. cbn [bind]. destruct (T t (Sub_refl t)) as [a Ea].
  unfold atomb. rewrite Ea. destruct b; [exists a|exists false].
  - split; [reflexivity|]. split; [intros ->; split; [reflexivity|now apply H]|intros [X _]; exact X].
  - split; [reflexivity|]. split; [discriminate|intros [_ X]; now apply H in X].
Qed.
Print Assumptions C58_isUnitAtom.
Theorem C58_null : isUnit None = Ok true /\ isUnitAtom None = Ok false /\ getUnitVar None = Ok NULLT.
Proof. repeat split. Qed.
Print Assumptions C58_null.
(** a term with one variable: its value depends on nothing else *)
Theorem C58_decide : forall t v, plain_vars t -> getUnitVar (Some t) = Ok v -> v <> NULLT ->
  forall I e f, e v = f v -> eval I e t = eval I f t.
Proof.
  intros t v P E N I e f H. destruct (C58_getUnitVar t) as (v' & E' & K). rewrite E in E'. apply Ok_inj in E'. subst v'.
  destruct K as [(S & V & U)|[K _]]; [|contradiction]. apply vars_decide; [exact P|]. intros x Vx Sx. now rewrite (U x Sx Vx).
Qed.
Print Assumptions C58_decide.
Example C58_ex : isUnitAtom (Some le3) = Ok true /\ getUnitVar (Some le3) = Ok xi /\ isUnit (Some fm57) = Ok false /\
  getUnitVar (Some fm57) = Ok NULLT /\ isUnitAtom (Some (nodeN NT_NOT "not" [le3])) = Ok false.
Proof. repeat split; vm_compute; reflexivity. Qed.

(** ** C59 *)
(** the number of different subterms of the assertions, assumptions, soft assertions, weights
    and objectives *)
Theorem C59_count_partial : forall g os, Forall2 obj_term (g_obj g) os ->
  exists n, getNodeCount g = Ok n /\
    forall D, subterms_of (g_as g ++ concat (g_assum g) ++ g_soft g ++ g_wt g ++ os) D -> n = length D.
Proof.
  intros g os F. unfold getNodeCount, roots. assert (mapM objTerm (g_obj g) = Ok os) as ->.
  { induction F as [|o t l l' H F IH]; [reflexivity|]. cbn [mapM]. rewrite (objTerm_ok o t H). cbn [bind]. rewrite IH. reflexivity. }
  cbn [bind]. destruct (node_count_ok (g_as g ++ concat (g_assum g) ++ g_soft g ++ g_wt g ++ os)) as (D & E & S).
  exists (length D). split; [exact E|]. intros D' S'. now apply (subterms_len _ D D' S).
Qed.
Print Assumptions C59_count_partial.
(** such a list exists, so the number is determined *)
Theorem C59_count_exists : forall rs, exists D, subterms_of rs D.
Proof. intros rs. destruct (node_count_ok rs) as (D & _ & S). now exists D. Qed.
Print Assumptions C59_count_exists.
(** a group of objectives counts as one node although it has no term *)
Definition count_of (s : string) : option nat := match run s with Ok q => match getNodeCount (q_g q) with Ok n => Some n | _ => None end | _ => None end.
Theorem C59_group_refuted : count_of "(declare-fun x () Int)(define-objective o (minimize x))" = Some 1 /\
  count_of "(declare-fun x () Int)(define-objective o (minimize x))(lex-optimize (o))" = Some 2.
Proof. split; vm_compute; reflexivity. Qed.
Print Assumptions C59_group_refuted.
(** x, 3, y, 0, (<= x 3), (< y 0) and the disjunction: the shared subterms count once, also across the lists *)
Example C59_ex : count_of "(declare-fun x () Int)(declare-fun y () Int)(minimize x)(assert (<= x 3))(assert (or (<= x 3) (< y 0)))(assert-soft (< y 0) :weight 3)" = Some 7.
Proof. vm_compute. reflexivity. Qed.
