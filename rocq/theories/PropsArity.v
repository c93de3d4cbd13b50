(** C90: getArity against the signatures of the SMT-LIB theories and against the nodes built. *)
From Coq Require Import Permutation.
From Verif Require Import Base KindModel SortModel TermModel SimpModel OpModel ParseModel CtorModel CtorSpec CtorProofs PropsCtor ArityModel.
Open Scope Z_scope.

(** operators without a fixed number of arguments (left- or right-associative, or treated as such) *)
Definition variadic (op : string) : bool :=
  existsb (String.eqb op) ["bvand"; "bvor"; "bvxor"; "bvadd"; "bvmul"; "concat"; "str.++"; "re.++"; "re.union"; "re.inter";
                           "bvsub"; "bvnand"; "bvnor"; "bvxnor"; "re.diff"; "fp.min"; "fp.max"]%string.
(** For every operator of the theories, getArity of its kind is the number of its arguments and
    indices together, or -1 if it takes any number; to_fp is overloaded: 4 is right with a rounding mode *)
Theorem C90_arity_partial : forall op ix tys r, rank op ix tys r -> (op = "to_fp"%string -> length tys = 2%nat) ->
  getArity (getOperKind (L op)) = if variadic op then -1 else Z.of_nat (length tys + length ix).
Proof.
  intros op ix tys r R F.
  destruct R; repeat match goal with H : In _ _ |- _ => cbn [In] in H; repeat (destruct H as [ <- |H]; try contradiction) end;
    try reflexivity.
  discriminate F; reflexivity.
Qed.
Print Assumptions C90_arity_partial.
(** ... so a node built for a well-sorted application has as many children as getArity says *)
Theorem C90_children_partial : forall x ptr p op ix ps tys r t, (forall l, Permutation (c_sort (x_c x) l) l) ->
  rank op ix tys r -> Forall2 typed ps tys -> Forall (fun t => isErr t = false) ps ->
  mget (L op) (p_fun p) = None -> (never_folded op = false -> open_args ps) ->
  (c_dbg (x_c x) = true -> op <> "fp.fma"%string) -> (op = "to_fp"%string -> length tys = 2%nat) ->
  parseOper (with_ops x ptr) p (L op) (idx ix) ps = Ok t ->
  getArity (t_kind t) = -1 \/ getArity (t_kind t) = Z.of_nat (length (t_ch t)).
Proof.
  intros x ptr p op ix ps tys r t HS R T E M O D F P.
  destruct (C51_well_sorted_application_partial x ptr p op ix ps tys r HS R T E M O D) as (t' & P' & _ & K & C).
  rewrite P in P'. injection P' as <-. rewrite K, (C90_arity_partial op ix tys r R F).
  destruct (variadic op); [now left|right]. f_equal.
  assert (LC : length (t_ch t) = length (children op ix ps)) by (destruct (reordered op); [now apply Permutation_length|now rewrite C]).
  rewrite LC. unfold children, idx. assert (LP : length ps = length tys) by (clear - T; induction T; cbn; congruence).
  destruct (String.eqb op "to_fp"); rewrite app_length, map_length; lia.
Qed.
Print Assumptions C90_children_partial.
Example C90_ex : rank "extract" [3; 1] [TBV 8] (TBV 3) /\ getArity (getOperKind (L "extract")) = 3 /\
  reads "((_ extract 3 1) u)" = Ok (T NT_BV_EXTRACT (bvS 3) (L "extract") [u8; mkConstInt 3; mkConstInt 1]).
Proof. split; [apply (R_extract 3 1 8); unfold fits, maxw; lia|]. split; vm_compute; reflexivity. Qed.

(** where it is wrong: in SMT-LIB the comparisons are chainable; here their arity is 2, and the
    parser (without assertions) drops the third argument *)
Theorem C90_chain_refuted : getArity (getOperKind (L "<")) = 2 /\ reads "(< x 3 x)" = reads "(< x 3)" /\
  exists t, reads "(< x 3 x)" = Ok t /\ length (t_ch t) = 2%nat.
Proof. split; [reflexivity|]. split; [vm_compute; reflexivity|]. eexists. split; [vm_compute; reflexivity|reflexivity]. Qed.
Print Assumptions C90_chain_refuted.
(** to_fp without a rounding mode has three children *)
Theorem C90_to_fp_refuted : getArity (getOperKind (L "to_fp")) = 4 /\
  exists t, reads "((_ to_fp 4 4) u)" = Ok t /\ t_kind t = NT_FP_TO_FP /\ length (t_ch t) = 3%nat.
Proof. split; [reflexivity|]. eexists. split; [vm_compute; reflexivity|]. split; reflexivity. Qed.
Print Assumptions C90_to_fp_refuted.
