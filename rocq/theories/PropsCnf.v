(** Property C23: conjunctive normal form.  The vocabulary (clauses, conservative
    extension, the input formulas) is in CnfSpec.v. *)
From Coq Require Import Permutation.
From Verif Require Import Base KindModel SortModel TermModel Sem SemProofs SimpModel OpModel OpSpec OpProofs OpExamples SplitProofs
  ConvModel ConvSpec ConvExamples CnfModel CnfSpec CnfProofs CnfAtoms CnfProofs2 CnfProofs3 CnfProofs4 CnfProofs5.
Open Scope Z_scope.

(** one formula: a conjunction of clauses.  [D] is what the call adds to the table of new
    variables: temporaries and their negations, with the literals they stand for.  Every
    model of the formula extends to the new variables so that they have the values of their
    literals and the clauses hold; every model of the clauses in which they have those values is
    a model of the formula. *)
Theorem C23_cnf_partial : forall c ord t S, cfg_ok c -> perm_ord ord -> cfm c false t -> below (cs_n S) t -> mfind t (cs_map S) = None ->
  exists u S' D, toCNF1 c ord t S = Ok (u, S') /\ in_cnf u /\ cs_atoms S' = D ++ cs_atoms S /\ (cs_n S <= cs_n S')%nat /\
    defs (cs_n S) (cs_n S') D /\ equisat (cs_n S) D (fun I e => holds I e t) u.
Proof. intros c ord t S Hc HO F B M. apply toCNF1_ok; auto. now apply nnf_cfm. Qed.
Print Assumptions C23_cnf_partial.
(** a list of assertions; the table is cleared first *)
Theorem C23_cnf_set_partial : forall c ord ts S, cfg_ok c -> perm_ord ord -> (forall t, In t ts -> cfm c false t) ->
  (forall t, In t ts -> below (cs_n S) t) ->
  exists u S', toCNF c ord ts S = Ok (u, S') /\ in_cnf u /\ defs (cs_n S) (cs_n S') (cs_atoms S') /\
    equisat (cs_n S) (cs_atoms S') (fun I e => forallb (holds I e) ts) u.
Proof. exact toCNF_ok. Qed.
Print Assumptions C23_cnf_set_partial.

(** ** What is not covered, because it is wrong *)
Definition S00 : cnfst := CnfSt 0 [] [].
Definition idord (l : list term) : list term := l.
Definition pc := bvar (L "c").
Definition xor2 a b := T NT_XOR boolS (L "xor") [a; b].
Definition not1 a := T NT_NOT boolS (L "not") [a].
Definition imp2 a b := T NT_IMPLIES boolS (L "=>") [a; b].
Definition and2 a b := T NT_AND boolS (L "and") [a; b].
Definition or2 a b := T NT_OR boolS (L "or") [a; b].
(** (xor c (=> a b)): an assignment that satisfies the clauses but not the formula *)
Theorem C23_implies_refuted : exists u S' I e, toCNF1 c0 idord (xor2 pc (imp2 pa pb)) S00 = Ok (u, S') /\ in_cnf u /\
  holds I e u = true /\ holds I e (xor2 pc (imp2 pa pb)) = false.
Proof.
  eexists. eexists. exists I0, (env_of (fun s => VBool (seq_str s (L "c") || seq_str s (L "temp_1")))).
  split; [vm_compute; reflexivity|]. split; [|split; vm_compute; reflexivity].
  apply Cnf_and. intros x Hx. repeat (destruct Hx as [ <- | Hx ];
    [first [apply Cl_or; intros l Hl; repeat (destruct Hl as [ <- | Hl ]; [first [apply Lit_pos; left; now constructor|apply Lit_neg; left; now constructor]|]); contradiction
           |apply Cl_lit, Lit_pos; left; now constructor]|]). contradiction.
Qed.
Print Assumptions C23_implies_refuted.
(** (not (xor a b)): the result is not a conjunction of clauses *)
Theorem C23_not_refuted : exists u S', toCNF1 c0 idord (not1 (xor2 pa pb)) S00 = Ok (u, S') /\ ~ in_cnf u.
Proof.
  eexists. eexists. split; [vm_compute; reflexivity|]. intros H.
  inversion H as [t C|s n cs C]; subst.
  - inversion C as [t L'|s n ls L']; subst. inversion L' as [ | |t [B|B]|s n t B]; subst; [inversion B as [k n V]; discriminate V|discriminate B].
  - match type of C with forall x, In x (?h :: _) -> _ => assert (X : clause h) by (apply C; now left) end. clear C H.
    inversion X as [t L'|s n ls L']; subst.
    + inversion L' as [ | |t [B|B]|s n t B]; subst; [inversion B as [k n V]; discriminate V|discriminate B].
    + match type of L' with forall x, In x [_; ?h] -> _ => assert (Y : lit h) by (apply L'; right; now left) end.
      inversion Y as [ | |t [B|B]|s n t [B|B]]; subst; try (inversion B as [k n V]; discriminate V); discriminate B.
Qed.
Print Assumptions C23_not_refuted.
(** Formulas over other atoms end the process: a disequality of strings, and an equality
    whose first argument is an array read. *)
Definition strv n := T NT_VAR strS n [].
Definition arr_t := T NT_VAR (arrayS intS intS) (L "arr") [].
Definition sel_t := T NT_SELECT intS (L "select") [arr_t; xi].
Theorem C23_atoms_refuted :
  toCNF1 c0 idord (xor2 pa (T NT_DISTINCT boolS (L "distinct") [strv (L "s"); strv (L "t")])) S00 = Exit /\
  toCNF1 c0 idord (xor2 pa (T NT_EQ boolS (L "=") [sel_t; xi])) S00 = Exit /\
  toCNF1 c0 idord (xor2 pa (T NT_STR_PREFIXOF boolS (L "str.prefixof") [strv (L "s"); strv (L "t")])) S00 = Exit.
Proof. split; [vm_compute; reflexivity|]. split; vm_compute; reflexivity. Qed.
Print Assumptions C23_atoms_refuted.
(** An atom that occurs again below a negation is not replaced by its variable, so the
    result still contains it. *)
Definition ufp : term := T NT_UF_APPLY boolS (L "p") [T NT_FUNC_DEC boolS (L "p") []; xi].
Definition shared := or2 ufp (and2 pa (or2 pb (not1 ufp))).
Theorem C23_shared_refuted : exists u S' v, toCNF1 c0 idord shared S00 = Ok (u, S') /\
  mfind ufp (cs_map S') = Some v /\ subterm v u /\ subterm ufp u.
Proof.
  eexists. eexists. eexists. split; [vm_compute; reflexivity|]. split; [vm_compute; reflexivity|]. split.
  - eapply Sub_ch; [do 8 right; left; reflexivity|]. eapply Sub_ch; [left; reflexivity|]. eapply Sub_ch; [left; reflexivity|]. apply Sub_refl.
  - eapply Sub_ch; [left; reflexivity|]. eapply Sub_ch; [right; left; reflexivity|]. eapply Sub_ch; [left; reflexivity|]. apply Sub_refl.
Qed.
Print Assumptions C23_shared_refuted.

(** ** Non-vacuity *)
Definition cnf_ex := not1 (or2 (imp2 pa (and2 pb pc)) (not1 (xor2 pa (or2 pb (not1 pc))))).
Lemma cnf_ex_cfm : cfm c0 false cnf_ex.
Proof.
  assert (V : forall n, bool_var (bvar n)) by (intros n; now constructor).
  apply CF_not. cbn [negb]. apply CF_or; [discriminate|]. intros p [ <- | [ <- | [] ]].
  - apply CF_imp; [now apply CF_var, V|]. apply CF_and; [discriminate|]. intros p [ <- | [ <- | [] ]]; now apply CF_var, V.
  - apply CF_not. cbn [negb]. apply CF_pos; [reflexivity|reflexivity|]. intros x [ <- | [ <- | [] ]]; [apply PF_var, V|].
    apply PF_node; [reflexivity|]. intros x [ <- | [ <- | [] ]]; [apply PF_var, V|apply PF_nvar, V].
Qed.
Example C23_ex : cfm c0 false cnf_ex /\ perm_ord idord /\ below 0 cnf_ex /\
  exists u S', toCNF c0 idord [cnf_ex; or2 pa pb] S00 = Ok (u, S') /\ length (t_ch u) = 19%nat /\ cs_n S' = 5%nat.
Proof.
  split; [exact cnf_ex_cfm|]. split; [intros l; apply Permutation_refl|]. split.
  - assert (V : forall n, below 0 (bvar n)) by (intros n; apply below_kind; [discriminate|intros x []]).
    unfold cnf_ex, not1, or2, imp2, and2, xor2.
    repeat (apply below_kind; [discriminate|]; intros x Hx; repeat (destruct Hx as [ <- | Hx ]; [try apply V|]); try contradiction).
    all: repeat first [apply V | apply below_kind; [discriminate|]; let x := fresh in let Hx := fresh in intros x Hx; repeat (destruct Hx as [ <- | Hx ]); try contradiction].
  - eexists. eexists. split; [vm_compute; reflexivity|]. split; vm_compute; reflexivity.
Qed.

(** with atoms: (and (or (p x) (xor (x < y) b)) (not (=> a (x < y)))) *)
Definition axy : term := T NT_LT boolS (L "<") [xi; yi].
Definition cnf_at := and2 (or2 ufp (xor2 axy pb)) (not1 (imp2 pa axy)).
Lemma axy_atom : tatom c0 axy.
Proof.
  apply TA_num; [|intros x [ <- | [ <- | [] ]]; reflexivity]. split; [reflexivity|]. split; [reflexivity|]. split.
  - apply cmp_node_tree; [right; cbn; tauto|apply ivar_tree|apply ivar_tree|now apply comparable_int|reflexivity|reflexivity].
  - exists xi, yi. split; [reflexivity|]. split; [reflexivity|]. split; [reflexivity|]. split; apply numeric_ivar.
Qed.
Lemma ufp_atom : tatom c0 ufp.
Proof. apply TA_other; [reflexivity|reflexivity|reflexivity|reflexivity|]. intros I e. eexists. reflexivity. Qed.
Lemma cnf_at_cfm : cfm c0 false cnf_at.
Proof.
  assert (V : forall n, bool_var (bvar n)) by (intros n; now constructor).
  apply CF_and; [discriminate|]. intros p [ <- | [ <- | [] ]].
  - apply CF_or; [discriminate|]. intros p [ <- | [ <- | [] ]]; [apply CF_atom, ufp_atom|].
    apply CF_pos; [reflexivity|reflexivity|]. intros x [ <- | [ <- | [] ]]; [apply PF_atom, axy_atom|apply PF_var, V].
  - apply CF_not. apply CF_imp; [apply CF_var, V|apply CF_atom, axy_atom].
Qed.
Example C23_at_ex : cfm c0 false cnf_at /\ below 0 cnf_at /\
  exists u S', toCNF c0 idord [cnf_at] S00 = Ok (u, S') /\ cs_n S' = 6%nat /\ length (cs_atoms S') = 6%nat /\
    In (tmp 1, ufp) (cs_atoms S') /\ In (tmp 2, axy) (cs_atoms S').
Proof.
  split; [exact cnf_at_cfm|]. split.
  - assert (V : forall n, below 0 (bvar n)) by (intros n; apply below_kind; [discriminate|intros x []]).
    repeat first [apply V | apply below_kind; [discriminate|]; let x := fresh in let Hx := fresh in intros x Hx; repeat (destruct Hx as [ <- | Hx ]); try contradiction].
  - eexists. eexists. split; [vm_compute; reflexivity|]. vm_compute. tauto.
Qed.
