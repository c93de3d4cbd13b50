(** Properties C27 and C28: substitution and expansion of defined functions.  The fragment
    [wt] is in TypedSpec.v, the vocabulary in ApplySpec.v. *)
From Coq Require Import QArith Qcanon.
From Verif Require Import Base KindModel SortModel TermModel Sem SemProofs SimpModel OpModel OpSpec OpExamples ConvModel
  TypedSpec TypedProofs PostModel PostProofs ParseModel ApplyModel ApplySpec ApplyProofs.
Open Scope Z_scope.

(** ** C27 *)
(** The value of the result is the value of the original under the updated assignment; the
    result is well-sorted, and the function does not stop with an error.  Terms without
    quantifiers and without kept let variables. *)
Theorem C27_value_partial : forall c m r t, cfg_ok c -> wt r t -> r <> CL -> without NT_LET_BIND_VAR t -> sorted_map m t ->
  exists u, substitute c m t = Ok u /\ wt r u /\ forall I e, eval I e u = eval I (updated m I e) t.
Proof. exact substitute_ok. Qed.
Print Assumptions C27_value_partial.
(** the stack-based loop with its table of visited nodes returns what the plain recursion
    on the term returns, errors included, for every term *)
Theorem C27_traversal : forall c m t, substitute c m t = post (subst_leaf m) (fun _ => false) (subst_build c) t.
Proof. intros. apply post_run_eq. Qed.
Print Assumptions C27_traversal.
(** bound variables are replaced like free ones: (forall ((x Int)) (< x y)) with x := 5 *)
Definition qx : term := T NT_QUANT_VAR intS (L "x") [].
Definition all_lt : term := T NT_FORALL boolS (L "forall") [T NT_LT boolS (L "<") [qx; yi]; qx].
Theorem C27_bound_refuted : exists u, substitute c0 [(L "x", num0 5)] all_lt = Ok u /\
  exists I e, holds I e all_lt = true /\ holds I e u = false.
Proof.
  eexists. split; [vm_compute; reflexivity|]. exists I0, (env_of (fun s => VNum (ZQ 1))). split; vm_compute; reflexivity.
Qed.
Print Assumptions C27_bound_refuted.
(** a kept let variable is taken for a variable: what it stands for is not substituted.
    (let ((v x)) (< v 3)) with x := 7 *)
Definition let_lt : term := T NT_LT boolS (L "<") [T NT_LET_BIND_VAR intS (L "v") [xi]; num0 3].
Theorem C27_let_refuted : substitute c0 [(L "x", num0 7)] let_lt = Ok let_lt /\
  exists I e, holds I e let_lt <> holds I (updated [(L "x", num0 7)] I e) let_lt.
Proof. split; [vm_compute; reflexivity|]. exists I0, (env_of (fun s => VNum (ZQ 1))). vm_compute. discriminate. Qed.
Print Assumptions C27_let_refuted.
(** (< (+ x y) (f x)) with x := y*y, y := x: simultaneous *)
Definition fx (t : term) : term := T NT_UF_APPLY intS (L "f") [t].
Definition plus (a b : term) : term := T NT_ADD intS (L "+") [a; b].
Definition times (a b : term) : term := T NT_MUL intS (L "*") [a; b].
Definition ltt (a b : term) : term := T NT_LT boolS (L "<") [a; b].
Definition s_ex : smap term := [(L "x", times yi yi); (L "y", xi)].
Lemma wt_ivar n : wt CI (ivar n). Proof. now apply W_var. Qed.
Lemma wt_plus a b : wt CI a -> wt CI b -> wt CI (plus a b).
Proof. intros A B. apply (W_app _ _ _ _ [CI; CI]); [apply (S_arith NT_ADD CI 2); cbn; auto|now left|auto]. Qed.
Lemma wt_times a b : wt CI a -> wt CI b -> wt CI (times a b).
Proof. intros A B. apply (W_app _ _ _ _ [CI; CI]); [apply (S_arith NT_MUL CI 2); cbn; auto|now left|auto]. Qed.
Lemma wt_ltt a b : wt CI a -> wt CI b -> wt CB (ltt a b).
Proof. intros A B. apply (W_app _ _ _ _ [CR; CR]); [apply S_cmp; cbn; auto|reflexivity|]. constructor; [now apply W_sub|constructor; [now apply W_sub|constructor]]. Qed.
Lemma wt_fx a : wt CI a -> wt CI (fx a).
Proof. intros A. apply (W_uf _ _ _ [CI]); [discriminate|intros [H|[]]; discriminate|reflexivity|auto]. Qed.
Ltac subs H := repeat match type of H with
  | subterm _ (T _ _ _ [_; _]) => apply sub_two in H; destruct H as [ -> | [ H | H ]]
  | subterm _ (T _ _ _ [_]) => apply sub_one in H; destruct H as [ -> | H ]
  | subterm _ (T _ _ _ []) => apply sub_leaf in H; subst
  | subterm _ (plus _ _) => unfold plus in H
  | subterm _ (times _ _) => unfold times in H
  | subterm _ (ltt _ _) => unfold ltt in H
  | subterm _ (fx _) => unfold fx in H
  | subterm _ _ => unfold xi, yi, zi, ivar in H
  end.
Example C27_ex : wt CB (ltt (plus xi yi) (fx xi)) /\ without NT_LET_BIND_VAR (ltt (plus xi yi) (fx xi)) /\ sorted_map s_ex (ltt (plus xi yi) (fx xi)) /\
  substitute c0 s_ex (ltt (plus xi yi) (fx xi)) = Ok (ltt (plus (times yi yi) xi) (fx (times yi yi))).
Proof.
  split; [apply wt_ltt; [apply wt_plus; apply wt_ivar|apply wt_fx, wt_ivar]|]. split; [|split].
  - intros x H. subs H; discriminate.
  - intros x u H UV. subs H; try discriminate UV; cbn [t_name]; intros M; vm_compute in M; injection M as <-; exists CI; (split; [reflexivity|]).
    all: try (exact (wt_times yi yi (wt_ivar _) (wt_ivar _))). all: exact (wt_ivar (L "x")).
  - vm_compute. reflexivity.
Qed.

(** ** C28 *)
(** A defined function applied to arguments of its parameters' sorts: the result has the
    value of the body with every parameter bound to the value of its argument (the
    arguments are evaluated outside: simultaneous replacement).  Bodies whose only
    variables are the parameters. *)
Theorem C28_value_partial : forall c o r s n body fs ps, cfg_ok c -> x_fun o = true -> wt r body -> r <> CL -> args_ok fs ps -> closed_over fs body ->
  exists t, applyFun c o (T NT_FUNC_DEF s n (body :: fs)) ps = Ok t /\ wt r t /\
    forall I e, eval I e t = eval I (upd e fs (map (eval I e) ps)) body.
Proof. exact applyFun_ok. Qed.
Print Assumptions C28_value_partial.
(** a wrong number of arguments is reported by the error node, never expanded *)
Theorem C28_arity : forall c o f ps, S (length ps) <> length (t_ch f) -> exists t, applyFun c o f ps = Ok t /\ isErr t = true.
Proof.
  intros c o f ps H. unfold applyFun. cbn [applyFunF]. exists ERR. split; [|reflexivity]. destruct (t_ch f) as [|b fs]; [reflexivity|].
  cbn [length] in H. replace (Nat.eqb (length fs) (length ps)) with false; [reflexivity|]. symmetry. apply Nat.eqb_neq. congruence.
Qed.
Print Assumptions C28_arity.
(** a function that is only declared, or whose expansion is switched off, is kept as an
    application of its name to exactly the arguments *)
Theorem C28_kept : forall c o f ps, length (t_ch f) = S (length ps) ->
  (isk NT_FUNC_DEC f = true \/ (isk NT_FUNC_DEF f = true /\ x_fun o = false) \/ (isk NT_FUNC_REC f = true /\ x_rec o = false)) ->
  exists k pre, applyFun c o f ps = Ok (T k (t_sort f) (t_name f) (pre ++ ps)) /\ (pre = [] /\ k = NT_UF_APPLY \/ pre = [f] /\ (k = NT_FUNC_APPLY \/ k = NT_FUNC_REC_APPLY)).
Proof.
  intros c o f ps HL H. unfold applyFun. cbn [applyFunF]. destruct f as [k s n [|b fs]]; cbn [t_ch length] in HL; [discriminate|]. injection HL as HL. cbn [t_ch].
  rewrite HL, Nat.eqb_refl. cbn [negb]. destruct (isk NT_NULL b); [exists NT_UF_APPLY, []; split; [reflexivity|now left]|].
  unfold isk in *. cbn [t_kind t_sort t_name] in *. destruct H as [H|[[H O]|[H O]]]; destruct k; try discriminate H; try rewrite O; cbn [keq andb negb].
  - exists NT_UF_APPLY, []. split; [reflexivity|now left].
  - exists NT_FUNC_APPLY. eexists [_]. split; [reflexivity|right; auto].
  - exists NT_FUNC_REC_APPLY. eexists [_]. split; [reflexivity|right; auto].
Qed.
Print Assumptions C28_kept.
(** the nested expansions always end: more steps never change the result *)
Theorem C28_ends : forall c o f ps n, (tsize f < n)%nat -> applyFunF n c o f ps = applyFun c o f ps.
Proof. intros. apply apply_fuel; [assumption|unfold applyFun; lia]. Qed.
Print Assumptions C28_ends.
(** A body that mentions a global constant: the program is terminated.
    (declare-const x Int) (define-fun f ((p Int)) Int (+ x p)) ... (f 1) *)
Definition par (n : str) : term := T NT_FUNC_PARAM intS n [].
Definition fdef (n : str) (body : term) (fs : list term) : term := T NT_FUNC_DEF intS n (body :: fs).
Definition O0 := Expand true false.
Theorem C28_global_refuted : applyFun c0 O0 (fdef (L "f") (plus xi (par (L "p"))) [par (L "p")]) [num0 1] = Exit.
Proof. vm_compute. reflexivity. Qed.
Print Assumptions C28_global_refuted.
(** A body that calls a recursive function g: the call is rebuilt with itself as the
    function and with the function as first argument, so g gets two arguments. *)
Definition grec : term := T NT_FUNC_REC intS (L "g") [par (L "q"); par (L "q")].
Theorem C28_recursive_callee_refuted : exists h g',
  applyFun c0 O0 (fdef (L "f") (mkApplyRecFunc grec [par (L "p")]) [par (L "p")]) [num0 1] = Ok (T NT_FUNC_REC_APPLY intS (L "g") [h; g'; num0 1]) /\
  isk NT_FUNC_REC_APPLY h = true /\ mkApplyRecFunc grec [num0 1] = T NT_FUNC_REC_APPLY intS (L "g") [grec; num0 1].
Proof. eexists. eexists. split; [vm_compute; reflexivity|]. split; reflexivity. Qed.
Print Assumptions C28_recursive_callee_refuted.
(** (define-fun f ((p Int) (q Int)) Int (p*p + q)) on (q_global, p_global): swapped names *)
Definition bd : term := plus (times (par (L "p")) (par (L "p"))) (par (L "q")).
Example C28_ex : wt CI bd /\ args_ok [par (L "p"); par (L "q")] [ivar (L "q"); num0 3] /\ closed_over [par (L "p"); par (L "q")] bd /\
  applyFun c0 O0 (fdef (L "f") bd [par (L "p"); par (L "q")]) [ivar (L "q"); num0 3] = Ok (plus (times (ivar (L "q")) (ivar (L "q"))) (num0 3)).
Proof.
  assert (P : forall n, wt CI (par n)) by (intros n; now apply W_var).
  split; [apply wt_plus; [apply wt_times; apply P|apply P]|]. split; [|split].
  - split; [vm_compute; repeat constructor; intros H; repeat (destruct H as [H|H]; try discriminate H); exact H|].
    constructor; [exists CI, intS, (L "p"); repeat split; apply wt_ivar|]. constructor; [exists CI, intS, (L "q"); repeat split; apply W_int; now left|constructor].
  - intros x H K. unfold bd, par in H. subs H; try discriminate K; cbn; auto.
  - vm_compute. reflexivity.
Qed.
