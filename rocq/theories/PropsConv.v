(** Properties C22, C25, C43: negation normal form, replacement, splitting and binarising.
    The vocabulary (formulas, negation normal form, replacement) is in ConvSpec.v. *)
From Coq Require Import QArith Qcanon Permutation.
From Verif Require Import Base KindModel SortModel TermModel BVModel BVSpec UtilModel UtilSpec Sem SemProofs ArrayModel
  SimpModel OpModel OpSpec OpProofs OpProofs2 OpProofs3 OpProofs4 OpProofs5 OpProofs6 OpProofs7 OpExamples
  ShapeProofs ConvModel ConvSpec ConvProofs WalkProofs GoodProofs SplitProofs ConvExamples.
Open Scope Z_scope.

(** ** C22 *)
Theorem C22_nnf_partial : forall c t, cfg_ok c -> fml c t ->
  exists r, toNNF c t = Ok r /\ in_nnf r /\ forall I e, holds I e r = holds I e t.
Proof. exact toNNF_ok. Qed.
Print Assumptions C22_nnf_partial.
Theorem C22_nnf_set_partial : forall c ts, cfg_ok c -> ts <> [] -> (forall t, In t ts -> fml c t) ->
  exists r, toNNFs c ts = Ok r /\ in_nnf r /\ forall I e, holds I e r = forallb (holds I e) ts.
Proof. exact toNNFs_ok. Qed.
Print Assumptions C22_nnf_set_partial.
(** an implication with three arguments: the third is dropped *)
Definition imp3 : term := T NT_IMPLIES boolS (L "=>") [pa; pb; bvar (L "c")].
Theorem C22_nary_implies_refuted : exists r, mkImplies c0 [pa; pb; bvar (L "c")] = Ok imp3 /\ toNNF c0 imp3 = Ok r /\
  exists I e, holds I e imp3 = true /\ holds I e r = false.
Proof.
  eexists. split; [vm_compute; reflexivity|]. split; [vm_compute; reflexivity|].
  exists I0, (env_of (fun s => VBool (seq_str s (L "a")))). split; vm_compute; reflexivity.
Qed.
Print Assumptions C22_nary_implies_refuted.
Example C22_ex : fml c0 nnf_ex /\ toNNF c0 nnf_ex = Ok nnf_ex_res /\ in_nnf nnf_ex_res.
Proof. split; [exact fml_nnf_ex|]. split; [vm_compute; reflexivity|exact nnf_ex_in]. Qed.

(** ** C25 *)
(** every topmost key is replaced when no key occurs twice *)
Theorem C25_all_partial : forall c m t, NoDup (keys_in (fun x => mfind x m) t) ->
  replaceNodes c m t = replace_all c (fun x => mfind x m) t.
Proof. exact replaceNodes_all. Qed.
Print Assumptions C25_all_partial.
(** whatever is returned, only keys were replaced *)
Theorem C25_only_keys : forall c m t u, replaceNodes c m t = Ok u -> replaced c (fun x => mfind x m) t u.
Proof. exact replaceNodes_some. Qed.
Print Assumptions C25_only_keys.
Theorem C25_no_key : forall c m t, keys_in (fun x => mfind x m) t = [] -> replaceNodes c m t = Ok t.
Proof. exact replaceNodes_none. Qed.
Print Assumptions C25_no_key.
Theorem C25_atoms_partial : forall c m t, (forall p, subterm p t -> exists b, isAtom p = Ok b) -> NoDup (keys_in (atom_map m) t) ->
  replaceAtoms c m t = replace_all c (atom_map m) t.
Proof. exact replaceAtoms_all. Qed.
Print Assumptions C25_atoms_partial.
Theorem C25_atoms_only_keys : forall c m t u, replaceAtoms c m t = Ok u -> replaced c (atom_map m) t u.
Proof. exact replaceAtoms_some. Qed.
Print Assumptions C25_atoms_only_keys.
(** A second occurrence of a key below another node is not replaced: the hit in the visited
    map does not mark the parent as changed. *)
Theorem C25_shared_refuted : exists t, t = T NT_AND boolS (L "and") [pa; T NT_NOT boolS (L "not") [pa]] /\
  replaceNodes c0 [(pa, pb)] t = Ok (T NT_AND boolS (L "and") [pb; T NT_NOT boolS (L "not") [pa]]) /\
  replace_all c0 (fun x => mfind x [(pa, pb)]) t = Ok (T NT_AND boolS (L "and") [pb; T NT_NOT boolS (L "not") [pb]]).
Proof. eexists. split; [reflexivity|]. split; vm_compute; reflexivity. Qed.
Print Assumptions C25_shared_refuted.
Example C25_ex : NoDup (keys_in (fun x => mfind x [(pa, pb)]) (T NT_AND boolS (L "and") [bvar (L "c"); T NT_NOT boolS (L "not") [pa]])) /\
  replaceNodes c0 [(pa, pb)] (T NT_AND boolS (L "and") [bvar (L "c"); T NT_NOT boolS (L "not") [pa]]) =
  Ok (T NT_AND boolS (L "and") [bvar (L "c"); T NT_NOT boolS (L "not") [pb]]).
Proof. split; [vm_compute; constructor; [intros []|constructor]|vm_compute; reflexivity]. Qed.

(** ** C43 *)
Theorem C43_split_partial : forall c ops t, cfg_ok c -> formula_over c ops (num_cmp c) t ->
  exists u ls, splitOp c ops t = Ok (u, ls) /\ (forall I e, holds I e u = holds I e t) /\ Forall valid ls.
Proof. exact splitOp_ok. Qed.
Print Assumptions C43_split_partial.
Theorem C43_binarize_partial : forall c ops t, cfg_ok c -> formula_over c ops (nary_cmp c) t ->
  exists u, binarizeOp c ops t = Ok u /\ forall I e, holds I e u = holds I e t.
Proof. exact binarizeOp_ok. Qed.
Print Assumptions C43_binarize_partial.
(** distinct of three terms is split as if it had two *)
Theorem C43_split_nary_refuted : exists t u ls, t = T NT_DISTINCT boolS (L "distinct") [xi; yi; zi] /\
  splitOp c0 [NT_DISTINCT] t = Ok (u, ls) /\ exists I e, holds I e t = false /\ holds I e u = true.
Proof.
  eexists _, _, _. split; [reflexivity|]. split; [vm_compute; reflexivity|].
  exists I0, (env_of (fun s => if seq_str s (L "y") then VNum (ZQ 1) else VNum (ZQ 0))). split; vm_compute; reflexivity.
Qed.
Print Assumptions C43_split_nary_refuted.
(** binarising stops at shared subterms: an equality of three terms remains *)
Definition eq3 : term := T NT_EQ boolS (L "=") [xi; yi; zi].
Theorem C43_binarize_shared_refuted : exists t u, t = T NT_AND boolS (L "and") [eq3; T NT_NOT boolS (L "not") [eq3]] /\
  binarizeOp c0 bin_ops t = Ok u /\ subterm eq3 u.
Proof.
  eexists _, _. split; [reflexivity|]. split; [vm_compute; reflexivity|].
  eapply Sub_ch; [right; left; reflexivity|]. eapply Sub_ch; [left; reflexivity|]. apply Sub_refl.
Qed.
Print Assumptions C43_binarize_shared_refuted.
Example C43_ex : formula_over c0 [NT_LE] (num_cmp c0) split_ex /\ formula_over c0 bin_ops (nary_cmp c0) bin_ex /\
  (exists ls, splitOp c0 [NT_LE] split_ex = Ok (split_ex_res, ls)) /\ binarizeOp c0 bin_ops bin_ex = Ok bin_ex_res.
Proof. split; [exact split_ex_ok|]. split; [exact bin_ex_ok|]. split; [eexists; vm_compute; reflexivity|vm_compute; reflexivity]. Qed.
