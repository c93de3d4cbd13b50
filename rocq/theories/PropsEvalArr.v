(** C39: evaluation of reads and writes of arrays. *)
From Coq Require Import QArith Qcanon Permutation.
From Verif Require Import Base KindModel SortModel TermModel SimpModel OpModel Sem OpSpec TraverseModel EvalModel EvalSpec OpExamples PropsEval ArrSpec ArrExists EvalArr.
Open Scope Z_scope.

(** ** C39: reads and writes of arrays *)
(** The variable of the array has no value, the indices and values written are terms whose variables all have
    values: a read is a constant or a read of the variable at a constant, with the value of the term read, in
    every interpretation with arrays. *)
Theorem C39_read : forall c ptr m is es ri r bn u n t i,
  (forall l, Permutation (ptr l) l) -> elem r es -> let b := T NT_VAR (arrayS is es) bn [] in
  m_get b m = Ok u -> isUnknown u = true -> m_isEmpty m = false -> writes m is es ri r b t -> et ri i -> assigns m i ->
  exists v, evaluateT c ptr m (T NT_SELECT es n [t; i]) = Ok v /\ (islit r v \/ exists n' j, v = T NT_SELECT es n' [b; j] /\ islit ri j) /\
    forall I (A : array_theory I) e, isarr A (eval I e b) -> EvalSpec.agrees I e m (T NT_SELECT es n [t; i]) -> eval I e v = eval I e (T NT_SELECT es n [t; i]).
Proof.
  intros c ptr m is es ri r bn u n t i Hp He b Hb Hu Hm Ht Ti Ai.
  destruct (read_eval c ptr m Hp is es ri r He bn u Hb Hu Hm n t i Ht Ti Ai) as (d & v & E & S & V). exists v. unfold evaluateT. rewrite E. auto.
Qed.
Print Assumptions C39_read.
Theorem C39_write : forall c ptr m is es ri r bn u t,
  (forall l, Permutation (ptr l) l) -> elem r es -> let b := T NT_VAR (arrayS is es) bn [] in
  m_get b m = Ok u -> isUnknown u = true -> m_isEmpty m = false -> writes m is es ri r b t ->
  exists v, evaluateT c ptr m t = Ok v /\ written is es ri r b v /\
    forall I (A : array_theory I) e, isarr A (eval I e b) -> EvalSpec.agrees I e m t -> eval I e v = eval I e t.
Proof.
  intros c ptr m is es ri r bn u t Hp He b Hb Hu Hm Ht.
  destruct (writes_eval c ptr m Hp is es ri r He bn u Hb Hu Hm t Ht) as (d & v & E & S & W & V). exists v. unfold evaluateT. rewrite E. auto.
Qed.
Print Assumptions C39_write.
(** (select (store a x 5) y) with x = y = 3 is 5; with x = 3 and y = 4 it is (select a 4) *)
Definition a39 : term := T NT_VAR (arrayS intS intS) (L "arr") [].
Definition w39 : term := T NT_STORE (arrayS intS intS) (L "store") [a39; xi; mkConstInt 5].
Definition m39r (z : Z) : model := getm (madd yi (mkConstInt z) (madd xi (mkConstInt 3) (Ok newModel))).
Example C39_read_ex : (exists u, m_get a39 (m39r 3) = Ok u /\ isUnknown u = true) /\ writes (m39r 3) intS intS EI EI a39 w39 /\
  evaluateT c0 (fun l => l) (m39r 3) (T NT_SELECT intS (L "select") [w39; yi]) = Ok (mkConstInt 5) /\
  evaluateT c0 (fun l => l) (m39r 4) (T NT_SELECT intS (L "select") [w39; yi]) = Ok (T NT_SELECT intS (L "select") [a39; mkConstInt 4]) /\
  (exists e, isarr AT (eval IA e a39)).
Proof.
  split; [eexists; split; vm_compute; reflexivity|]. split; [|split; [vm_compute; reflexivity|split; [vm_compute; reflexivity|]]].
  - apply WR_store.
    + apply WR_base.
    + apply T_var; [cbn; tauto|left; reflexivity].
    + intros x q S V E. assert (x = xi) as -> by (inversion S; [reflexivity|contradiction]). exists (mkConstInt 3). split; [vm_compute; reflexivity|].
      inversion E as [k s n r' Hk Hs|r' u Hu|k s n r' rs ch Sg F X]; subst; [|inversion Hu|inversion X].
      destruct q; cbn in Hs; [discriminate Hs|constructor|discriminate Hs].
    + apply T_lit. constructor.
    + intros x q S V E. assert (x = mkConstInt 5) as -> by (inversion S; [reflexivity|contradiction]). discriminate V.
  - exists (fun t => kst AT (VNum (ZQ 7))). change (isarr AT (kst AT (VNum (ZQ 7)))). apply (kst_arr IA AT).
Qed.
