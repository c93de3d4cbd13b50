(** C60: expandLet.  The fragment [wt] is in TypedSpec.v. *)
From Coq Require Import QArith Qcanon.
From Verif Require Import Base KindModel SortModel TermModel Sem SemProofs SimpModel OpModel OpSpec OpProofs OpExamples TypedSpec TypedProofs ApplySpec
  TraverseSpec TraverseProofs ParseModel CommandModel LetModel LetSpec LetProofs PropsParse PropsCommand PropsCollect.
Open Scope nat_scope.

(** A kept let without let variables under uninterpreted functions: the call ends without error, the
    result has the same value under every interpretation, is well-sorted, and contains no let variable *)
Theorem C60_value_partial : forall c r t, cfg_ok c -> wt r t -> r <> CL -> uf_without_let t -> t_kind t = NT_LET_CHAIN ->
  exists u, expandLet c true t = Ok u /\ wt r u /\ (forall I e, eval I e u = eval I e t) /\ without NT_LET_BIND_VAR u.
Proof. exact expandLet_ok. Qed.
Print Assumptions C60_value_partial.
(** anything else is returned as it is *)
Theorem C60_other : forall c keep t, keep = false \/ (t_kind t <> NT_LET /\ t_kind t <> NT_LET_CHAIN) -> expandLet c keep t = Ok t.
Proof.
  intros c keep t [ -> | [A B] ]; [reflexivity|]. unfold expandLet, isk.
  destruct (keq (t_kind t) NT_LET) eqn:E; [apply DagProofs.keq_spec in E; contradiction|].
  destruct (keq (t_kind t) NT_LET_CHAIN) eqn:F; [apply DagProofs.keq_spec in F; contradiction|]. now rewrite andb_false_r.
Qed.
Print Assumptions C60_other.
(** the loop with its tables computes the plain recursion, for every term *)
Theorem C60_traversal : forall c t r, xlet c t = Ok r -> let_run c t = Ok (fst r).
Proof. exact let_run_eq. Qed.
Print Assumptions C60_traversal.
(** under an uninterpreted function: the rebuilt application has lost the function's name, so
    (let ((y (+ x 1))) (f y)) changes its value *)
Definition last_asserted (s : string) : term := last (asserted s) NULLT.
Definition sc60 : string := "(declare-fun x () Int)(declare-fun f (Int) Bool)(assert (let ((y (+ x 1))) (f y)))".
Definition If : interp.
Proof.
  refine {| i_op := fun k s n vs => VBool (seq_str n (L "f")); i_dom := fun _ _ => False; i_all := fun ss f => match ss with [] => f [] | _ => true end |}.
  intros ss f. destruct ss as [|s ss].
  - split; [intros H vs Hv; inversion Hv; exact H|intros H; apply H; constructor].
  - split; [intros _ vs Hv; inversion Hv; contradiction|reflexivity].
Defined.
Theorem C60_uf_refuted : exists u n, expandLet c0 true (last_asserted sc60) = Ok u /\ t_kind u = NT_UF_APPLY /\ t_name u = n /\ n <> L "f" /\
  exists I e, holds I e (last_asserted sc60) = true /\ holds I e u = false.
Proof.
  eexists. eexists. split; [vm_compute; reflexivity|]. split; [reflexivity|]. split; [reflexivity|]. split; [discriminate|].
  exists If, (fun _ => VNum (ZQ 0)). split; vm_compute; reflexivity.
Qed.
Print Assumptions C60_uf_refuted.
(** a let inside the body stays *)
Definition sc60n : string := "(declare-fun x () Int)(assert (let ((y (+ x 1))) (or (> y 0) (let ((z (+ y 1))) (< z 0)))))".
Theorem C60_nested_refuted : exists u, expandLet c0 true (last_asserted sc60n) = Ok u /\ exists p, subterm p u /\ t_kind p = NT_LET_CHAIN.
Proof.
  eexists. split; [vm_compute; reflexivity|]. eexists. split; [eapply Sub_ch; [right; now left|constructor]|]. reflexivity.
Qed.
Print Assumptions C60_nested_refuted.
(** (let ((y (+ x 1))) (and (> y 0) (< y 9))) *)
Definition sc60x : string := "(declare-fun x () Int)(assert (let ((y (+ x 1))) (and (> y 0) (< y 9))))".
Definition x1 : term := T NT_ADD intS (L "+") [xi; T NT_CONST intorealS (L "1") []].
Example C60_ex : t_kind (last_asserted sc60x) = NT_LET_CHAIN /\ wt CB (last_asserted sc60x) /\ uf_without_let (last_asserted sc60x) /\
  exists u, expandLet c0 true (last_asserted sc60x) = Ok u /\ In x1 (preorder u).
Proof.
  set (t := last_asserted sc60x). vm_compute in t. split; [reflexivity|]. split; [|split].
  - assert (A : wt CI x1).
    { apply (W_app NT_ADD intS _ CI [CI; CI]); [apply (S_arith NT_ADD CI 2); [now left|now left|lia]|now left|].
      constructor; [apply W_var; [reflexivity|cbn; reflexivity]|]. constructor; [apply (W_int intorealS 1); now right|constructor]. }
    assert (Y : wt CR (T NT_LET_BIND_VAR intS (L "y_SMTParser_Preserving_Let_Bind_Var_Suffix_1") [x1])).
    { apply W_sub, (W_app NT_LET_BIND_VAR intS _ CI [CI]); [apply S_bind; discriminate|now left|]. constructor; [exact A|constructor]. }
    assert (N : forall z, wt CR (T NT_CONST intorealS (Idec z) [])) by (intros z; apply W_sub, W_int; now right).
    apply (W_app NT_LET_CHAIN boolS _ CB [CL; CB]); [apply (S_chain 1 CB); [lia|discriminate]|reflexivity|].
    constructor; [|constructor; [|constructor]].
    + apply (W_app NT_LET_BIND_VAR_LIST intS _ CL [CR]); [apply S_blist; [discriminate|intros [?|[]]; discriminate]|reflexivity|]. constructor; [exact Y|constructor].
    + apply (W_app NT_AND boolS _ CB [CB; CB]); [apply (S_conn NT_AND 2); [now left|lia]|reflexivity|].
      constructor; [|constructor; [|constructor]].
      * apply (W_app NT_GT boolS _ CB [CR; CR]); [apply S_cmp; cbn; tauto|reflexivity|]. constructor; [exact Y|constructor; [exact (N 0%Z)|constructor]].
      * apply (W_app NT_LT boolS _ CB [CR; CR]); [apply S_cmp; cbn; tauto|reflexivity|]. constructor; [exact Y|constructor; [exact (N 9%Z)|constructor]].
  - intros p Hp K. apply preorder_sub in Hp. vm_compute in Hp. repeat (destruct Hp as [ <- | Hp ]; [discriminate K|]). destruct Hp.
  - eexists. split; [vm_compute; reflexivity|]. vm_compute. tauto.
Qed.
