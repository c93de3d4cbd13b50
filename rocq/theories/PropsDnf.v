(** Property C24: disjunctive normal form.  The vocabulary (the input formulas, normal forms)
    is in DnfSpec.v. *)
From Verif Require Import Base KindModel SortModel TermModel Sem SemProofs SimpModel OpModel OpSpec OpProofs OpExamples
  ConvModel ConvSpec ConvExamples CnfSpec CnfProofs DnfModel DnfSpec DnfProofs DnfProofs2 PropsCnf.
Open Scope Z_scope.

(** the other connectives are rewritten to not, and, or; the meaning stays *)
Theorem C24_eliminate_partial : forall c w t, cfg_ok c -> dfm w t -> unshared t ->
  exists u, toDNFEliminateAll c t = Ok u /\ af w u /\ forall I e, holds I e u = holds I e t.
Proof. intros c w t. exact (elimAll_ok w c t). Qed.
Print Assumptions C24_eliminate_partial.
(** no disjunction is left below a conjunction, nor below another disjunction *)
Theorem C24_shape_partial : forall c t, cfg_ok c -> dfm false t -> unshared t ->
  exists u, toDNF c t = Ok u /\ weak_dnf u.
Proof. intros c t Hc F U. destruct (toDNF_ok false c t Hc F U) as (u & E & W & _). exists u. split; [exact E|now apply wd_weak]. Qed.
Print Assumptions C24_shape_partial.
(** narrow formulas: also the meaning stays *)
Theorem C24_meaning_partial : forall c t, cfg_ok c -> dfm true t -> unshared t ->
  exists u, toDNF c t = Ok u /\ weak_dnf u /\ forall I e, holds I e u = holds I e t.
Proof. intros c t Hc F U. destruct (toDNF_ok true c t Hc F U) as (u & E & W & V). exists u. split; [exact E|]. split; [now apply wd_weak|now apply V]. Qed.
Print Assumptions C24_meaning_partial.
(** a list of formulas: the conjunction *)
Theorem C24_set_shape_partial : forall c ts, cfg_ok c -> (forall t, In t ts -> dfm false t) -> NoDup (flat_map chs ts) ->
  exists u, toDNFs c ts = Ok u /\ weak_dnf u.
Proof.
  intros c ts Hc F U. destruct (toDNFs_ok false c ts Hc) as (u & E & W & _); [discriminate|exact F|exact U|]. exists u. split; [exact E|now apply wd_weak].
Qed.
Print Assumptions C24_set_shape_partial.
Theorem C24_set_meaning_partial : forall c ts, cfg_ok c -> (length ts <= 2)%nat -> (forall t, In t ts -> dfm true t) -> NoDup (flat_map chs ts) ->
  exists u, toDNFs c ts = Ok u /\ weak_dnf u /\ forall I e, holds I e u = forallb (holds I e) ts.
Proof.
  intros c ts Hc L F U. destruct (toDNFs_ok true c ts Hc) as (u & E & W & V); [intros _; exact L|exact F|exact U|]. exists u. split; [exact E|]. split; [now apply wd_weak|now apply V].
Qed.
Print Assumptions C24_set_meaning_partial.

(** ** What is not covered, because it is wrong *)
Definition and3 a b d := T NT_AND boolS (L "and") [a; b; d].
Definition pd := bvar (L "d").
(** Three conjuncts: when distributing the first two leaves a single conjunction, its
    conjuncts are taken for the disjuncts. *)
Definition collapse : term := and3 (or2 pa (and2 pa pb)) (or2 (and2 pb pc) (and3 pa pb pc)) pd.
Theorem C24_meaning_refuted : exists t u I e, dfm false t /\ unshared t /\ toDNF c0 t = Ok u /\ holds I e u = true /\ holds I e t = false.
Proof.
  exists collapse. eexists. exists I0, (env_of (fun s => VBool (seq_str s (L "a") || seq_str s (L "d")))).
  assert (V : forall n, dfm false (bvar n)) by (intros; apply DF_var; now constructor).
  assert (D : forall x y, dfm false x -> dfm false y -> dfm false (and2 x y)) by (intros x y X Y; apply DF_and; [discriminate|discriminate|intros p [ <- | [ <- | [] ]]; assumption]).
  assert (O : forall x y, dfm false x -> dfm false y -> dfm false (or2 x y)) by (intros x y X Y; apply DF_or; [discriminate|discriminate|intros p [ <- | [ <- | [] ]]; assumption]).
  assert (D3 : forall x y z, dfm false x -> dfm false y -> dfm false z -> dfm false (and3 x y z)) by (intros x y z X Y Z; apply DF_and; [discriminate|discriminate|intros p [ <- | [ <- | [ <- | [] ]]]; assumption]).
  split; [unfold collapse; apply D3; [apply O; [apply V|apply D; apply V]|apply O; [apply D; apply V|apply D3; apply V]|apply V]|]. split; [vm_compute; constructor|]. split; [vm_compute; reflexivity|]. split; vm_compute; reflexivity.
Qed.
Print Assumptions C24_meaning_refuted.
(** (and a (and b (and c d))): the result is not a disjunction of conjunctions of literals *)
Definition nested : term := and2 pa (and2 pb (and2 pc pd)).
Theorem C24_shape_refuted : exists t u, dfm true t /\ unshared t /\ toDNF c0 t = Ok u /\ ~ in_dnf u.
Proof.
  exists nested. eexists.
  assert (V : forall n, dfm true (bvar n)) by (intros; apply DF_var; now constructor).
  assert (D : forall x y, dfm true x -> dfm true y -> dfm true (and2 x y)) by (intros x y X Y; apply DF_and; [discriminate|cbn; lia|intros p [ <- | [ <- | [] ]]; assumption]).
  split; [unfold nested, pa, pb, pc, pd; auto 12|]. split; [vm_compute; constructor|]. split; [vm_compute; reflexivity|]. intros H.
  assert (NL : forall s n ls, ~ lit (T NT_AND s n ls)).
  { intros s n ls X. inversion X as [ | |t [B|B]|s' n' t B]; subst; [inversion B as [k n' Hv]; subst; discriminate Hv|destruct ls; discriminate B]. }
  inversion H as [t D'|]; subst. inversion D' as [t X|s n ls X]; subst; [exact (NL _ _ _ X)|].
  match type of X with forall l, In l ?ls -> _ => assert (Y : exists l s n ks, In l ls /\ l = T NT_AND s n ks) by (eexists _, _, _, _; split; [right; right; now left|reflexivity]) end.
  destruct Y as (l & s' & n' & ks & Y1 & Y2). apply X in Y1. rewrite Y2 in Y1. exact (NL _ _ _ Y1).
Qed.
Print Assumptions C24_shape_refuted.
(** A formula in which a xor occurs twice ends the process. *)
Definition shared : term := and2 (or2 pc (xor2 pa pb)) (or2 pd (xor2 pa pb)).
Theorem C24_shared_refuted : exists t, dfm true t /\ toDNF c0 t = Exit.
Proof.
  exists shared.
  assert (V : forall n, dfm true (bvar n)) by (intros; apply DF_var; now constructor).
  split; [|vm_compute; reflexivity].
  assert (D : forall x y, dfm true x -> dfm true y -> dfm true (and2 x y)) by (intros x y X Y; apply DF_and; [discriminate|cbn; lia|intros p [ <- | [ <- | [] ]]; assumption]).
  assert (O : forall x y, dfm true x -> dfm true y -> dfm true (or2 x y)) by (intros x y X Y; apply DF_or; [discriminate|cbn; lia|intros p [ <- | [ <- | [] ]]; assumption]).
  assert (X : forall x y, dfm true x -> dfm true y -> dfm true (xor2 x y)) by (intros x y X Y; apply DF_xor; [cbn; lia|intros p [ <- | [ <- | [] ]]; assumption]).
  unfold shared, pa, pb, pc, pd; auto 12.
Qed.
Print Assumptions C24_shared_refuted.

(** ** The hypotheses are met *)
Definition dnf_ex : term := and2 (xor2 pa pb) (not1 (imp2 pc (or2 pd pa))).
Example C24_inhabited : dfm true dnf_ex /\ dfm false dnf_ex /\ unshared dnf_ex /\ cfg_ok c0 /\
  (exists u, toDNF c0 dnf_ex = Ok u) /\ unshared collapse.
Proof.
  assert (G : forall w, dfm w dnf_ex).
  { intros w. assert (V : forall n, dfm w (bvar n)) by (intros; apply DF_var; now constructor).
    assert (D : forall x y, dfm w x -> dfm w y -> dfm w (and2 x y)) by (intros x y X Y; apply DF_and; [discriminate|cbn; lia|intros p [ <- | [ <- | [] ]]; assumption]).
    assert (O : forall x y, dfm w x -> dfm w y -> dfm w (or2 x y)) by (intros x y X Y; apply DF_or; [discriminate|cbn; lia|intros p [ <- | [ <- | [] ]]; assumption]).
    assert (X : forall x y, dfm w x -> dfm w y -> dfm w (xor2 x y)) by (intros x y X Y; apply DF_xor; [cbn; lia|intros p [ <- | [ <- | [] ]]; assumption]).
    assert (N : forall x, dfm w x -> dfm w (not1 x)) by (intros; now apply DF_not).
    assert (M : forall x y, dfm w x -> dfm w y -> dfm w (imp2 x y)) by (intros; now apply DF_imp).
    unfold dnf_ex, pa, pb, pc, pd; auto 12. }
  split; [apply G|]. split; [apply G|]. split; [vm_compute; constructor; [intros [F|[]]; discriminate F|constructor; [intros []|constructor]]|].
  split; [exact c0_ok|]. split; [eexists; vm_compute; reflexivity|]. vm_compute. constructor.
Qed.
