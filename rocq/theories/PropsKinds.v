(** C29: hasSomeKinds tells whether a node of one of the kinds occurs. *)
From Verif Require Import Base KindModel SortModel TermModel SemProofs DagProofs SimpModel OpModel OpSpec ConvModel.

Lemma t_kind_in k ks : kin k ks = true <-> In k ks.
Proof.
  unfold kin. rewrite existsb_exists. split.
  - intros (x & H & E). apply keq_spec in E. now subst x.
  - intros H. exists k. split; [exact H|now apply keq_spec].
Qed.
(** the answer is true exactly if a subterm has one of the kinds *)
Theorem C29_has_kind : forall ks t, hasSomeKinds ks t = true <-> exists u, subterm u t /\ In (t_kind u) ks.
Proof.
  intros ks. refine (term_ind' _ _). intros k s n ch IH. cbn [hasSomeKinds]. rewrite orb_true_iff, existsb_exists, t_kind_in. split.
  - intros [H|(x & Hx & H)].
    + exists (T k s n ch). split; [apply Sub_refl|exact H].
    + rewrite Forall_forall in IH. apply (IH x Hx) in H. destruct H as (u & Su & Ku). exists u. split; [exact (Sub_ch u x (T k s n ch) Hx Su)|exact Ku].
  - intros (u & Su & Ku). inversion Su as [|u' x t' Hx Hs]; subst.
    + left. exact Ku.
    + right. exists x. split; [exact Hx|]. rewrite Forall_forall in IH. apply (IH x Hx). eauto.
Qed.
Print Assumptions C29_has_kind.
Example C29_has_kind_case : let t := T NT_AND boolS (L "and") [T NT_NOT boolS (L "not") [TRUE]; FALSE] in
  hasSomeKinds [NT_NOT; NT_OR] t = true /\ hasSomeKinds [NT_OR; NT_XOR] t = false.
Proof. split; reflexivity. Qed.
