(** C41 normalisation of comparisons: the theorems. *)
From Coq Require Import QArith Qcanon.
From Verif Require Import Base KindModel SortModel TermModel Sem SemProofs SimpModel OpModel OpSpec OpProofs ShapeProofs OpExamples TypedSpec TypedProofs NormModel NormSpec NormProofs NormProofs2.
Open Scope Z_scope.

(** Normalisation of a Boolean term whose comparisons have two arguments returns a term with
    the same value in every interpretation and environment.  [ptr] is the order of the pointers
    of the nodes; the last hypothesis is that MPFR reads "0.000000" as zero.
    Partial: the arguments of comparisons are of the well-sorted fragment [wt] (no real
    literals), equalities have two arguments. *)
Theorem C41_meaning_partial : forall c ptr t, cfg_ok c -> (c_rv c real0 == 0)%Q -> nt t ->
  exists u, arithNormalize c ptr t = Ok u /\ forall I e, eval I e u = eval I e t.
Proof.
  intros c ptr t Hc Hz H. destruct (nt_good c ptr Hc Hz t H) as (u & f & E & _ & _ & V). exists u. unfold arithNormalize. rewrite E. auto.
Qed.
Print Assumptions C41_meaning_partial.

(** In the result every comparison is with a constant. *)
Theorem C41_shape_partial : forall c ptr t, cfg_ok c -> (c_rv c real0 == 0)%Q -> nt t ->
  exists u, arithNormalize c ptr t = Ok u /\ normalised u.
Proof.
  intros c ptr t Hc Hz H. destruct (nt_good c ptr Hc Hz t H) as (u & f & E & O & _ & _). exists u. unfold arithNormalize. rewrite E. split; [reflexivity|]. apply (b_norm c u O).
Qed.
Print Assumptions C41_shape_partial.

(** A comparison: the result compares the difference with zero, or is decided. *)
Theorem C41_comparison_partial : forall c ptr k n a b, cfg_ok c -> (c_rv c real0 == 0)%Q ->
  In k [NT_LE; NT_LT; NT_GE; NT_GT] -> arith_arg a -> arith_arg b -> isConst b = false ->
  exists d z, mkOper c (t_sort a) NT_SUB [a; b] = Ok d /\ (z = mkConstInt 0 \/ z = real0) /\
    exists u, arithNormalize c ptr (T k boolS n [a; b]) = Ok u /\
      (u = TRUE \/ u = FALSE \/ u = T k boolS (kindToString k) [d; z]).
Proof.
  intros c ptr k n a b Hc Hz Hk Ha Hb Cb. destruct (nt_good c ptr Hc Hz (T k boolS n [a; b])) as (u & f & E & _); [apply N_cmp; [now right; right|assumption|assumption]|].
  destruct (mkOper_wt c (t_sort a) NT_SUB CR [CR; CR] [a; b] Hc) as (d & Ed & Wd & Vd).
  { apply (S_arith NT_SUB CR 2); [right; right; now left|now right|lia]. }
  { apply wt_sort; [apply Ha|discriminate]. }
  { constructor; [apply Ha|constructor; [apply Hb|constructor]]. }
  exists d. unfold arithNormalize. cbn [norm] in E |- *.
  assert (Lf : norm_leaf (T k boolS n [a; b]) = false) by (repeat (destruct Hk as [ <- | Hk ]); try contradiction; reflexivity).
  assert (K : keq k NT_LET = false) by (repeat (destruct Hk as [ <- | Hk ]); try contradiction; reflexivity).
  assert (Ac : isArithComp (T k boolS n [a; b]) = Ok true) by (repeat (destruct Hk as [ <- | Hk ]); try contradiction; reflexivity).
  assert (CA : condAssert (c_dbg c) true = Ok tt) by (unfold condAssert; destruct (c_dbg c); reflexivity).
  rewrite Lf, K in *. cbn [norm_list] in *. rewrite (norm_num c ptr a Ha), (norm_num c ptr b Hb), Ac in *. cbn [bind] in *. unfold normComp in *. cbn [t_ch length Nat.eqb t_kind] in *.
  rewrite CA, Cb in *. cbn [bind negb] in *. rewrite Ed in *. cbn [bind] in *.
  destruct (getZero (t_sort a)) as [z| | | | |] eqn:Ez; cbn [bind] in E; try discriminate E. exists z. split; [reflexivity|]. split.
  { unfold getZero in Ez. destruct (_ || _); [injection Ez as <-; now left|]. destruct (s_is SK_REAL _); [injection Ez as <-; now right|discriminate]. }
  cbn [bind]. destruct (mkOper c boolS k [d; z]) as [w| | | | |] eqn:Eu; cbn [bind] in E; try discriminate E. exists w. split; [reflexivity|].
  destruct (mkOper_shape c boolS k [d; z] w) as [H|[H|H]]; [cbn; lia|repeat (destruct Hk as [ <- | Hk ]); try contradiction; cbn; tauto|now left|exact Eu|now left|now right; left|].
  right. right. rewrite H. unfold mkInternal. repeat (destruct Hk as [ <- | Hk ]); try contradiction; reflexivity.
Qed.
Print Assumptions C41_comparison_partial.

(** example: (and (< x y) (or (= x 3) (not (>= (+ x y) x)))) *)
Definition n2 (k : kind) (s : sort) (a b : term) : term := T k s (kindToString k) [a; b].
Definition tn : term := n2 NT_AND boolS (n2 NT_LT boolS xi yi) (n2 NT_OR boolS (n2 NT_EQ boolS xi (num0 3)) (T NT_NOT boolS (L "not") [n2 NT_GE boolS (n2 NT_ADD intS xi yi) xi])).
Definition tn' : term := n2 NT_AND boolS (n2 NT_LT boolS (n2 NT_SUB intS xi yi) (mkConstInt 0))
  (n2 NT_OR boolS (n2 NT_EQ boolS xi (num0 3)) (T NT_NOT boolS (L "not") [n2 NT_GE boolS (n2 NT_SUB intS (n2 NT_ADD intS xi yi) xi) (mkConstInt 0)])).
Lemma arg_var n : arith_arg (ivar n).
Proof. split; [apply W_sub, W_var; reflexivity|]. cbn. intuition discriminate. Qed.
Lemma arg_num z : arith_arg (num0 z).
Proof. split; [apply W_sub, W_int; now left|]. cbn. intuition discriminate. Qed.
Lemma arg_add : arith_arg (n2 NT_ADD intS xi yi).
Proof.
  split; [|cbn; intuition discriminate]. apply W_sub, (W_app NT_ADD intS _ CI [CI; CI]); [apply (S_arith NT_ADD CI 2); [now left|now left|lia]|now left|].
  repeat constructor.
Qed.
Example C41_inhabited : cfg_ok c0 /\ (c_rv c0 real0 == 0)%Q /\ nt tn /\ arithNormalize c0 (fun l => l) tn = Ok tn'.
Proof.
  split; [exact c0_ok|]. split; [reflexivity|]. split; [|reflexivity]. unfold tn.
  apply N_conn; [now left|cbn; lia|]. constructor.
  - apply N_cmp; [cbn; tauto|apply arg_var|apply arg_var].
  - constructor; [|constructor]. apply N_conn; [now right; left|cbn; lia|]. constructor; [apply N_cmp; [now left|apply arg_var|apply arg_num]|]. constructor; [|constructor].
    apply N_not, N_cmp; [cbn; tauto|apply arg_add|apply arg_var].
Qed.

(** Without the restriction to two arguments the meaning is lost: (= x y z) becomes
    (= (- x y) 0), the third argument is forgotten (release build). *)
Definition e3 : env := env_of (fun n => VNum (ZQ (if seq_str n (L "z") then 1 else 0))).
Theorem C41_nary_equality_refuted : exists t u, arithNormalize c0 (fun l => l) t = Ok u /\ wt CB t /\ forall I, eval I e3 t = VBool false /\ eval I e3 u = VBool true.
Proof.
  exists (T NT_EQ boolS (L "=") [xi; yi; zi]). eexists. split; [reflexivity|]. split.
  - apply (W_app NT_EQ boolS _ CB [CI; CI; CI]); [apply (S_eq NT_EQ CI 3); [now left|discriminate|lia]|reflexivity|]. repeat constructor.
  - intros I. split; reflexivity.
Qed.
Print Assumptions C41_nary_equality_refuted.
(** in a debug build the same call throws *)
Definition cD : cfg := Cfg true false false true false rv0 (c_r2i c0) (c_rs c0) (c_hash c0) (c_sort c0).
Theorem C41_nary_equality_debug : forall w, arithNormalize cD (fun l => l) (T NT_EQ boolS (L "=") [xi; yi; zi]) <> Ok w.
Proof. intros w H. vm_compute in H. discriminate H. Qed.
Print Assumptions C41_nary_equality_debug.

(** The bound variable of a let and the parameter of a function are not normalised. *)
Definition prm : term := T NT_FUNC_PARAM intS (L "p") [].
Theorem C41_parameter_refuted : arithNormalize c0 (fun l => l) (n2 NT_EQ boolS prm xi) = Ok (n2 NT_EQ boolS prm xi) /\ ~ normalised (n2 NT_EQ boolS prm xi).
Proof.
  split; [reflexivity|]. intros H. inversion H as [| | |k s n ps K F]; subst.
  - repeat match goal with X : In _ _ |- _ => repeat (destruct X as [X|X]; try discriminate X); try contradiction end.
  - match goal with X : _ \/ _ |- _ => destruct X as [X|X]; discriminate X end.
  - inversion F as [|? ? [_ B] _]; subst. apply (f_equal s_kind) in B. discriminate B.
Qed.
Print Assumptions C41_parameter_refuted.

(** Normalising twice is not the same as normalising once: where the sort of arguments puts the
    zero first, the second call subtracts the difference from zero. *)
Definition srt0 (ps : list term) : list term := rev ps.
Definition cR : cfg := Cfg false false false true false rv0 (c_r2i c0) (c_rs c0) (c_hash c0) srt0.
Theorem C41_idempotent_refuted : cfg_ok cR /\ exists t u v, nt t /\ arithNormalize cR (fun l => l) t = Ok u /\ arithNormalize cR (fun l => l) u = Ok v /\ u <> v.
Proof.
  split.
  - pose proof c0_ok as H. constructor; [|exact (ok_zero c0 H)|exact (ok_one c0 H)]. intros ps. apply Permutation.Permutation_sym, Permutation.Permutation_rev.
  - exists (n2 NT_EQ boolS xi yi). eexists. eexists. split; [apply N_cmp; [now left|apply arg_var|apply arg_var]|]. split; [reflexivity|]. split; [reflexivity|]. intros H. vm_compute in H. discriminate H.
Qed.
Print Assumptions C41_idempotent_refuted.
