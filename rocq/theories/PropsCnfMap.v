(** Property C62: the variables that toCNF introduces can be looked up. *)
From Coq Require Import Permutation.
From Verif Require Import Base KindModel SortModel TermModel Sem SemProofs SimpModel OpModel OpSpec OpProofs OpExamples SplitProofs
  ConvModel ConvSpec ConvExamples WalkProofs CnfModel CnfSpec CnfProofs CnfAtoms CnfProofs2 CnfProofs3 CnfProofs4 CnfProofs5 CnfMapModel CnfMapSpec CnfMapProofs PropsCnf.

(** A list of assertions: their models and those of the clauses correspond, through what
    getCNFAtom answers for each variable. *)
Theorem C62_table_partial : forall c ord ts S, cfg_ok c -> perm_ord ord -> (forall t, In t ts -> cfm c false t) ->
  (forall t, In t ts -> below (cs_n S) t) ->
  exists u S', toCNF c ord ts S = Ok (u, S') /\
    (forall I e, forallb (holds I e) ts = true -> exists e', agree (cs_n S) e e' /\ holds I e' u = true /\
       forall v a, getCNFAtom S' v = Some a -> holds I e' v = holds I e' a) /\
    (forall I e, holds I e u = true -> (forall v a, getCNFAtom S' v = Some a -> holds I e v = holds I e a) -> forallb (holds I e) ts = true).
Proof.
  intros c ord ts S Hc HO F B. destruct (toCNF_ok c ord ts S Hc HO F B) as (u & S' & E & _ & _ & E1 & E2). exists u, S'. split; [exact E|].
  pose proof (toCNF_tab _ _ _ _ _ _ E) as [_ ND]. split.
  - intros I e H. destruct (E1 I e H) as (e' & A & R & Hu). exists e'. split; [exact A|]. split; [exact Hu|].
    intros v a G. apply R. now apply (find_nd _ v a ND).
  - intros I e Hu G. apply E2; [|exact Hu]. intros v a Hv. apply G. now apply (find_nd _ v a ND).
Qed.
Print Assumptions C62_table_partial.
(** After any conversions, what has an explanation is a temporary made by them, or its
    negation; isTAbstraction tells which terms have one. *)
Theorem C62_explained : forall c S t, reached c S ->
  (isTAbstraction S t = true <-> exists a, getTExplanation S t = Some a) /\
  (forall a, getTExplanation S t = Some a -> new_lit 0 (cs_n S) t /\ getCNFAtom S t = Some a).
Proof.
  intros c S t R. split.
  - unfold isTAbstraction, getTExplanation. destruct (mfind t (cs_atoms S)); split; [eauto|reflexivity|discriminate|]. intros (a & H). discriminate H.
  - intros a H. split; [|exact H]. apply mfind_in in H. exact (t_new _ _ (reached_tab c S R) t a H).
Qed.
Print Assumptions C62_explained.
(** the variable of an atom is explained by that atom *)
Theorem C62_bool_atom : forall c S a v, reached c S -> getCNFBoolVar S a = Some v -> getCNFAtom S v = Some a.
Proof. exact bool_atom. Qed.
Print Assumptions C62_bool_atom.
(** and the atom of a variable has a variable *)
Theorem C62_atom_bool_partial : forall c S a v, reached c S -> getCNFAtom S v = Some a -> exists v', getCNFBoolVar S a = Some v' /\ getCNFAtom S v' = Some a.
Proof.
  intros c S a v R H. unfold getCNFAtom in H. apply mfind_in, bool_in in H. destruct (mfind_has a v _ H) as (w & Hw). exists w.
  split; [exact Hw|]. now apply (bool_atom c).
Qed.
Print Assumptions C62_atom_bool_partial.
(** The lists: no entry twice, each an atom whose variable is positive; all of them when
    the map happens to be iterated with the positive variables first. *)
Theorem C62_atoms_partial : forall c ord S, reached c S -> any_order ord ->
  exists l, getCNFAtoms c ord S = Ok l /\ NoDup l /\
    (forall a, In a l -> exists i, getCNFBoolVar S a = Some (tmp i)) /\
    (positives_first snd (ord (entries [] (bool_vars S))) -> forall a, In a l <-> exists i, getCNFBoolVar S a = Some (tmp i)).
Proof. exact atoms_list. Qed.
Print Assumptions C62_atoms_partial.
Theorem C62_vars_partial : forall c ord S, reached c S -> any_order ord ->
  exists l, getCNFBoolVars c ord S = Ok l /\ NoDup l /\
    (forall v, In v l -> exists i a, v = tmp i /\ getCNFAtom S v = Some a) /\
    (positives_first fst (ord (entries [] (cs_atoms S))) -> forall v, In v l <-> exists i a, v = tmp i /\ getCNFAtom S v = Some a).
Proof. exact vars_list. Qed.
Print Assumptions C62_vars_partial.

(** ** What is not covered, because it is wrong *)
Definition posn (w : term * term -> term) (m : memo) : memo := filter (fun p => negb (isNot (w p))) m ++ filter (fun p => isNot (w p)) m.
Definition at_run : term * cnfst := match toCNF c0 idord [cnf_at] S00 with Ok p => p | _ => (TRUE, S00) end.
Lemma at_ran : toCNF c0 idord [cnf_at] S00 = Ok (fst at_run, snd at_run).
Proof. vm_compute. reflexivity. Qed.
Lemma at_reached : reached c0 (snd at_run).
Proof. exact (Re_set c0 idord [cnf_at] S00 (fst at_run) (snd at_run) (Re_start c0 0) at_ran). Qed.
(** In other orders atoms and variables are missing: the negation of a variable is passed
    over, and then the variable is passed over because its negation has been seen. *)
Theorem C62_lists_refuted : exists S u, toCNF c0 idord [cnf_at] S00 = Ok (u, S) /\ reached c0 S /\
  exists ord, any_order ord /\ getCNFAtoms c0 ord S = Ok [] /\ getCNFBoolVars c0 ord S = Ok [] /\
    exists v, getCNFBoolVar S ufp = Some v /\ getCNFAtom S v = Some ufp.
Proof.
  exists (snd at_run), (fst at_run). split; [exact at_ran|]. split; [exact at_reached|].
  exists (fun m => filter (fun p => isNot (fst p) || isNot (snd p)) m ++ filter (fun p => negb (isNot (fst p) || isNot (snd p))) m). split.
  - intros m. induction m as [|p m IH]; [constructor|]. cbn [filter]. destruct (isNot (fst p) || isNot (snd p)); cbn [negb].
    + cbn [app]. now constructor.
    + etransitivity; [apply Permutation_sym, Permutation_middle|]. now constructor.
  - split; [vm_compute; reflexivity|]. split; [vm_compute; reflexivity|]. eexists. split; vm_compute; reflexivity.
Qed.
Print Assumptions C62_lists_refuted.
(** An atom and its complement: two variables, but the atom is looked up as the negation
    of the other's variable, so one variable is not the variable of its atom. *)
Theorem C62_shared_refuted : exists S u a i, toCNF c0 idord [cnf_at] S00 = Ok (u, S) /\ getCNFAtom S (tmp i) = Some a /\
  getCNFBoolVar S a = Some (T NT_NOT boolS (kindToString NT_NOT) [tmp 2]) /\ i = 0%nat.
Proof.
  exists (snd at_run), (fst at_run). eexists. exists 0%nat. split; [exact at_ran|]. split; [vm_compute; reflexivity|]. split; vm_compute; reflexivity.
Qed.
Print Assumptions C62_shared_refuted.

(** ** Non-vacuity *)
Example C62_ex : exists S u, toCNF c0 idord [cnf_at] S00 = Ok (u, S) /\ reached c0 S /\
  any_order (posn fst) /\ positives_first fst (posn fst (entries [] (cs_atoms S))) /\
  getCNFBoolVars c0 (posn fst) S = Ok [tmp 2; tmp 1; tmp 0] /\
  positives_first snd (posn snd (entries [] (bool_vars S))) /\
  getCNFAtoms c0 (posn snd) S = Ok [axy; ufp] /\ getCNFBoolVar S axy = Some (tmp 2) /\ isTAbstraction S axy = false /\ isTAbstraction S (tmp 2) = true.
Proof.
  assert (PF : forall w m, positives_first w (posn w m)).
  { intros w m. exists (filter (fun p => negb (isNot (w p))) m), (filter (fun p => isNot (w p)) m). split; [reflexivity|]. split.
    - intros p H. apply filter_In in H. destruct H as [_ H]. now apply negb_true_iff in H.
    - intros p H. apply filter_In in H. apply H. }
  exists (snd at_run), (fst at_run). split; [exact at_ran|]. split; [exact at_reached|]. split.
  - intros m. unfold posn. induction m as [|p m IH]; [constructor|]. cbn [filter]. destruct (isNot (fst p)); cbn [negb].
    + etransitivity; [apply Permutation_sym, Permutation_middle|]. now constructor.
    + cbn [app]. now constructor.
  - split; [apply PF|]. split; [vm_compute; reflexivity|]. split; [apply PF|]. repeat split; vm_compute; reflexivity.
Qed.
