(** Properties C19-C21, C42, C50: the term constructors and constant folding.
    [decides r f]: the call returns a term that, in every interpretation and environment,
    holds exactly when [f] says.  [means], [nmeans]: the same for values, numbers.
    Hypotheses are explained in OpSpec.v. *)
From Coq Require Import QArith Qcanon Qround Permutation.
From Verif Require Import Base KindModel SortModel TermModel BVModel BVSpec UtilModel UtilSpec Sem SemProofs ArrayModel
  SimpModel OpModel OpSpec OpProofs OpProofs2 OpProofs3 OpProofs4 OpProofs5 OpProofs6 OpProofs7 OpExamples.
Open Scope Z_scope.

(** ** C19: Boolean constructors *)
Theorem C19_and : forall c ps, cfg_ok c -> bool_args ps -> decides (mkAnd c ps) (fun I e => forallb (holds I e) ps).
Proof. exact mkAnd_sound. Qed.
Print Assumptions C19_and.
Theorem C19_or : forall c ps, cfg_ok c -> bool_args ps -> decides (mkOr c ps) (fun I e => existsb (holds I e) ps).
Proof. exact mkOr_sound. Qed.
Print Assumptions C19_or.
Theorem C19_xor : forall c ps, cfg_ok c -> lits_ok ps -> no_err ps -> decides (mkXor c ps) (fun I e => xors (map (holds I e) ps)).
Proof. exact mkXor_sound. Qed.
Print Assumptions C19_xor.
Theorem C19_implies : forall c ps, cfg_ok c -> lits_ok ps -> no_err ps -> (2 <= length ps)%nat ->
  decides (mkImplies c ps) (fun I e => imps (map (holds I e) ps)).
Proof. exact mkImplies_sound. Qed.
Print Assumptions C19_implies.
Theorem C19_ite : forall c b l r, cfg_ok c -> lits_ok [b; l; r] -> no_err [b; l; r] ->
  means (mkIte c b l r) (fun I e => if holds I e b then eval I e l else eval I e r).
Proof. exact mkIte_sound. Qed.
Print Assumptions C19_ite.
Theorem C19_not_partial : forall c p, cfg_ok c -> tree_ok c p -> isBoolParam p = true ->
  decides (mkNot c p) (fun I e => negb (holds I e p)).
Proof. exact mkNot_sound. Qed.
Print Assumptions C19_not_partial.
(** the negation of an equality of three terms is made a [distinct] *)
Theorem C19_not_nary_refuted : exists p t, p = T NT_EQ boolS (L "=") [xi; yi; zi] /\ mkNot c0 p = Ok t /\
  exists I e, holds I e p = false /\ holds I e t = false.
Proof.
  eexists _, _. split; [reflexivity|]. split; [vm_compute; reflexivity|].
  exists I0, (env_of (fun s => if seq_str s (L "z") then VNum (ZQ 1) else VNum (ZQ 0))). split; vm_compute; reflexivity.
Qed.
Print Assumptions C19_not_nary_refuted.
Example C19_and_ex : cfg_ok c0 /\ bool_args [pa; TRUE; pb] /\ mkAnd c0 [pa; TRUE; pb] = Ok (T NT_AND boolS (L "and") [pa; pb]).
Proof.
  split; [exact c0_ok|]. split; [split; [exact lits_bvars|]|vm_compute; reflexivity].
  intros p [ <- | [ <- | [ <- | [] ]]]; split; reflexivity.
Qed.
Example C19_implies_ex : lits_ok [pa; TRUE; pb] /\ no_err [pa; TRUE; pb] /\
  mkImplies c0 [pa; TRUE; pb] = Ok (T NT_IMPLIES boolS (L "=>") [pa; pb]) /\
  mkXor c0 [pa; TRUE; pb] = Ok (T NT_XOR boolS (L "xor") [pa; TRUE; pb]) /\
  mkIte c0 TRUE pa pb = Ok pa.
Proof.
  split; [exact lits_bvars|]. split; [intros p [ <- | [ <- | [ <- | [] ]]]; reflexivity|]. repeat split; vm_compute; reflexivity.
Qed.
Example C19_not_ex : tree_ok c0 lt3 /\ isBoolParam lt3 = true /\ mkNot c0 lt3 = Ok (T NT_GE boolS (L ">=") [xi; num0 3]).
Proof. split; [exact tree_lt3|]. split; [reflexivity|vm_compute; reflexivity]. Qed.

(** ** C20: equality and distinctness *)
Theorem C20_eq_partial : forall c l r, cfg_ok c -> tree_ok c l -> tree_ok c r -> comparable c l r ->
  isArray l = false -> isArray r = false ->
  decides (mkEq c l r) (fun I e => veqb (eval I e l) (eval I e r)).
Proof. exact mkEq_sound. Qed.
Print Assumptions C20_eq_partial.
Theorem C20_eq_nary_partial : forall c ps, cfg_ok c -> lits_ok ps -> reals_exact c ps -> same_sorts ps -> (3 <= length ps)%nat ->
  (forall p, In p ps -> isTrue p = false /\ isArray p = false) ->
  decides (mkEqV c ps) (fun I e => chain veqb (map (eval I e) ps)).
Proof. exact mkEqV_sound. Qed.
Print Assumptions C20_eq_nary_partial.
(** among three or more arguments the constant true is dropped *)
Theorem C20_eq_nary_true_refuted : exists t, mkEqV c0 [pa; TRUE; pb] = Ok t /\
  exists I e, chain veqb (map (eval I e) [pa; TRUE; pb]) = false /\ holds I e t = true.
Proof. eexists. split; [vm_compute; reflexivity|]. exists I0, (e_all (VBool false)). split; vm_compute; reflexivity. Qed.
Print Assumptions C20_eq_nary_true_refuted.
Theorem C20_distinct_partial : forall c l r, cfg_ok c -> tree_ok c l -> tree_ok c r -> comparable c l r -> nots l = nots r ->
  decides (mkDistinct c l r) (fun I e => negb (veqb (eval I e l) (eval I e r))).
Proof. exact mkDistinct_sound. Qed.
Print Assumptions C20_distinct_partial.
(** a negation on one side only is dropped *)
Theorem C20_distinct_not_refuted : exists t, mkDistinct c0 (T NT_NOT boolS (L "not") [pa]) pb = Ok t /\
  exists I e, eval I e (T NT_NOT boolS (L "not") [pa]) = eval I e pb /\ holds I e t = true.
Proof.
  eexists. split; [vm_compute; reflexivity|]. exists I0, (env_of (fun s => VBool (seq_str s (L "a")))). split; vm_compute; reflexivity.
Qed.
Print Assumptions C20_distinct_not_refuted.
Theorem C20_distinct_nary_partial : forall c ps, cfg_ok c -> lits_ok ps -> reals_exact c ps -> same_sorts ps -> (2 <= length ps)%nat ->
  (forall p, In p ps -> isFalse p = false /\ isErr p = false) ->
  decides (mkDistinctV c ps) (fun I e => pairwise (fun a b => negb (veqb a b)) (map (eval I e) ps)).
Proof. exact mkDistinctV_sound. Qed.
Print Assumptions C20_distinct_nary_partial.
(** the constant false is dropped *)
Theorem C20_distinct_nary_false_refuted : exists t, mkDistinctV c0 [pa; FALSE; pb] = Ok t /\
  exists I e, pairwise (fun a b => negb (veqb a b)) (map (eval I e) [pa; FALSE; pb]) = false /\ holds I e t = true.
Proof.
  eexists. split; [vm_compute; reflexivity|]. exists I0, (env_of (fun s => VBool (seq_str s (L "a")))). split; vm_compute; reflexivity.
Qed.
Print Assumptions C20_distinct_nary_false_refuted.
Example C20_ex : tree_ok c0 xi /\ tree_ok c0 (num0 3) /\ comparable c0 xi (num0 3) /\ isArray xi = false /\
  mkEq c0 xi (num0 3) = Ok (T NT_EQ boolS (L "=") [xi; num0 3]) /\
  mkEq c0 (num0 3) (num0 3) = Ok TRUE /\ mkDistinct c0 (num0 3) (num0 4) = Ok TRUE.
Proof.
  split; [apply tree_leaf; [reflexivity|apply node_ivar]|]. split; [apply tree_leaf; [reflexivity|apply node_num0]|].
  split; [now apply comparable_int|]. repeat split; vm_compute; reflexivity.
Qed.
Example C20_nary_ex : same_sorts [xi; yi; num0 3] /\ lits_ok [xi; yi; num0 3] /\ reals_exact c0 [xi; yi; num0 3] /\
  mkEqV c0 [xi; yi; num0 3] = Ok (T NT_EQ boolS (L "=") [xi; yi; num0 3]).
Proof.
  split; [eexists; split; [reflexivity|]; intros p [ <- | [ <- | [ <- | [] ]]]; reflexivity|].
  split; [intros p [ <- | [ <- | [ <- | [] ]]] C; try discriminate C; constructor; auto|].
  split; [left; intros p [ <- | [ <- | [ <- | [] ]]] _; reflexivity|vm_compute; reflexivity].
Qed.

(** ** C21: constant folding.  On the domain [fold_dom] (OpSpec.v) folding returns, and
    what it returns is either "no simplification" or a term equal to the application. *)
Theorem C21_fold_partial : forall c k ps, cfg_ok c -> fold_dom c k ps ->
  exists t, simp c k ps = Ok t /\
    (isUnknown t = true \/ forall I e, op_sem k (map (eval I e) ps) = Some (eval I e t)).
Proof.
  intros c k ps Hc HD. destruct (fold_sound c k ps Hc HD) as (t & E & D). exists t. split; [exact E|]. destruct D as [D|[_ D]]; auto.
Qed.
Print Assumptions C21_fold_partial.
Theorem C21_oper_partial : forall c s k ps, cfg_ok c -> fold_dom c k ps ->
  means (mkOper c s k ps) (fun I e => eval I e (T k s (kindToString k) ps)).
Proof. exact mkOper_sound. Qed.
Print Assumptions C21_oper_partial.
(** [folds_wrong k ps v]: folding gives a constant that is not the value [v] *)
Definition folds_wrong (s : sort) (k : kind) (ps : list term) (v : value) : Prop :=
  lits_ok ps /\ exists t, mkOper c0 s k ps = Ok t /\
    (forall I e, eval I e (T k s (kindToString k) ps) = v) /\ forall I e, eval I e t <> v.
Ltac lits1 := intros p Hp C; repeat (destruct Hp as [ <- | Hp ]; [try discriminate C|]); try contradiction; try (constructor; auto; fail).
Theorem C21_implies3_refuted : folds_wrong boolS NT_IMPLIES [FALSE; FALSE; FALSE] (VBool true).
Proof.
  split; [lits1|]. eexists. split; [vm_compute; reflexivity|]. split; [intros; reflexivity|intros I e H; discriminate H].
Qed.
Print Assumptions C21_implies3_refuted.
Theorem C21_mod_refuted : folds_wrong intS NT_MOD [num0 (-7); num0 2] (VNum (ZQ 1)).
Proof.
  split; [lits1|]. exists (mkConstInt (-1)). split; [vm_compute; reflexivity|]. split.
  - intros I e. apply eval_op; [discriminate|reflexivity|]. cbn [map]. rewrite !eval_num0.
    cbn [op_sem num]. rewrite !is_intq_ZQ, !qfloor_ZQ. reflexivity.
  - intros I e. rewrite mkConstInt_ic, eval_ic by auto. now apply ZQ_neq.
Qed.
Print Assumptions C21_mod_refuted.
Theorem C21_div_refuted : folds_wrong intS NT_DIV_INT [num0 (-7); num0 2] (VNum (ZQ (-4))).
Proof.
  split; [lits1|]. exists (mkConstInt (-3)). split; [vm_compute; reflexivity|]. split.
  - intros I e. apply eval_op; [discriminate|reflexivity|]. cbn [map]. rewrite !eval_num0.
    cbn [op_sem num]. rewrite !is_intq_ZQ, !qfloor_ZQ. reflexivity.
  - intros I e. rewrite mkConstInt_ic, eval_ic by auto. now apply ZQ_neq.
Qed.
Print Assumptions C21_div_refuted.
(** for every dividend below zero that is not a multiple of the divisor *)
Theorem C21_mod_negative : forall a b, a < 0 -> b <> 0 ->
  simp c0 NT_MOD [num0 a; num0 b] = Ok (mkConstInt (Z.rem a b)) /\
  (Z.rem a b = smod a b <-> a mod b = 0).
Proof.
  intros a b Ha Hb. split.
  - assert (E : forall z, toInt c0 (num0 z) = Ok z) by (intros z; apply (toInt_ic c0 intS); auto).
    cbn [simp simp2]. unfold arithOk. change (isCRoot (num0 a)) with false. change (isCRoot (num0 b)) with false. cbn [negb andb].
    assert (C : forall z, isCInt (num0 z) = true) by (intros z; apply (isCInt_ic intS); auto). rewrite !C. cbn [andb]. rewrite !E. cbn [bind].
    unfold Imod. destruct (Z.eqb_spec b 0); [congruence|reflexivity].
  - unfold smod.
    assert (B : Z.rem a b <= 0) by (apply Z.rem_nonpos; lia).
    pose proof (Z.mod_pos_bound a (Z.abs b) ltac:(lia)) as M.
    split.
    + intros E. assert (Z0 : Z.rem a b = 0) by lia. apply Z.rem_divide in Z0; [|exact Hb]. now apply Z.mod_divide.
    + intros E. apply Z.mod_divide in E; [|exact Hb]. replace (a mod Z.abs b) with 0.
      * now apply Z.rem_divide.
      * symmetry. apply Z.mod_divide; [lia|]. now apply Z.divide_abs_l.
Qed.
Print Assumptions C21_mod_negative.
Theorem C21_bvcomp_refuted : forall w v, (0 < w)%nat -> fits w ->
  simp c0 NT_BV_COMP [bc w v; bc w v] = Ok FALSE /\
  forall I e, op_sem NT_BV_COMP (map (eval I e) [bc w v; bc w v]) = Some (VBV 1 1).
Proof.
  intros w v Hw Hf. split.
  - cbn [simp simp2]. change (isCBV (bc w v)) with true. cbn [andb bvcmp_of]. reflexivity.
  - intros I e. cbn [map op_sem]. now rewrite veqb_refl.
Qed.
Print Assumptions C21_bvcomp_refuted.
Theorem C21_strlen_refuted : folds_wrong intS NT_STR_LEN [str0 (L "ab")] (VNum (ZQ 2)).
Proof.
  split; [intros p [ <- | [] ] _; apply LStr; repeat constructor|]. exists (mkConstInt 4). split; [vm_compute; reflexivity|]. split.
  - intros I e. apply eval_op; [discriminate|reflexivity|]. cbn [map]. unfold str0. change (T NT_CONST strS (UtilSpec.Q (L "ab")) []) with (sc (L "ab")).
    rewrite eval_sc. reflexivity.
  - intros I e. rewrite mkConstInt_ic, eval_ic by auto. now apply ZQ_neq.
Qed.
Print Assumptions C21_strlen_refuted.
Theorem C21_strlt_refuted : folds_wrong boolS NT_STR_LT [str0 (L "a"); str0 (L "a!")] (VBool true).
Proof.
  split; [intros p [ <- | [ <- | [] ]] _; apply LStr; repeat constructor|]. exists FALSE. split; [vm_compute; reflexivity|]. split.
  - intros I e. apply eval_op; [discriminate|reflexivity|]. cbn [map]. unfold str0. change (T NT_CONST strS (UtilSpec.Q (L "a")) []) with (sc (L "a")).
    change (T NT_CONST strS (UtilSpec.Q (L "a!")) []) with (sc (L "a!")). rewrite !eval_sc. reflexivity.
  - intros I e H. discriminate H.
Qed.
Print Assumptions C21_strlt_refuted.
Theorem C21_is_int_refuted : folds_wrong boolS NT_IS_INT [mkConstReal (L "2.0")] (VBool true).
Proof.
  assert (R : real_val (L "2.0") = Some (ZQ 2 + ZQ 0 / ZQ (10 ^ 1))%Qc) by reflexivity.
  assert (R2 : (ZQ 2 + ZQ 0 / ZQ (10 ^ 1))%Qc = ZQ 2) by (apply Qc_is_canon; reflexivity). rewrite R2 in R.
  split; [intros p [ <- | [] ] _; exact (LReal _ _ R)|]. exists FALSE. split; [vm_compute; reflexivity|]. split.
  - intros I e. apply eval_op; [discriminate|reflexivity|]. cbn [map]. unfold mkConstReal. rewrite (eval_real I e _ _ R). cbn [op_sem num].
    now rewrite is_intq_ZQ.
  - intros I e H. discriminate H.
Qed.
Print Assumptions C21_is_int_refuted.
(** two applications of uninterpreted functions of array sort are declared different *)
Theorem C21_array_eq_refuted : exists l r, cfg_ok c1 /\ lits_ok [l; r] /\ simp c1 NT_EQ [l; r] = Ok FALSE /\
  exists I e, op_sem NT_EQ (map (eval I e) [l; r]) = Some (VBool true).
Proof.
  exists (T NT_UF_APPLY arrII (L "f") [xi]), (T NT_UF_APPLY arrII (L "gg") [yi]).
  split; [exact c1_ok|]. split; [lits1|]. split; [vm_compute; reflexivity|]. exists I0, (e_all (VBool true)). reflexivity.
Qed.
Print Assumptions C21_array_eq_refuted.
(** two numeric constants of which one is missing a sort: MAX of two Booleans is undefined *)
Theorem C21_max_bool_ub : simp c0 NT_MAX [TRUE; FALSE] = UB.
Proof. reflexivity. Qed.
Print Assumptions C21_max_bool_ub.
Example C21_ex : fold_dom c0 NT_ADD [num0 3; num0 4] /\ simp c0 NT_ADD [num0 3; num0 4] = Ok (mkConstInt 7) /\
  fold_dom c0 NT_SUB [xi; num0 0] /\ simp c0 NT_SUB [xi; num0 0] = Ok xi /\
  fold_dom c0 NT_BV_ADD [bc 4 9; bc 4 9] /\ simp c0 NT_BV_ADD [bc 4 9; bc 4 9] = Ok (bc 4 2).
Proof.
  split; [split; [lits1|]; split; [cbn; auto|]; intros p [ <- | [ <- | [] ]] _; reflexivity|].
  split; [vm_compute; reflexivity|].
  split; [split; [lits1|]; split; [cbn; auto|]; split; [intros p [ <- | [ <- | [] ]] _; reflexivity|]; repeat constructor; intros I e; [cbn; eauto|rewrite eval_num0; eauto]|].
  split; [vm_compute; reflexivity|].
  split; [|vm_compute; reflexivity].
  assert (F : fits 4) by (unfold fits; cbn; lia).
  split; [intros p [ <- | [ <- | [] ]] _; apply LBV; auto; lia|]. split; [cbn; auto|]. exists 4%nat.
  repeat constructor; intros I e; rewrite eval_bc; eexists; (split; [apply uv_range|reflexivity]).
Qed.

(** ** C42: negation and flip of comparisons *)
Theorem C42_negate_partial : forall c p, cfg_ok c -> tree_ok c p -> cmpk p -> decides (negateComp c p) (fun I e => negb (holds I e p)).
Proof. exact negateComp_sound. Qed.
Print Assumptions C42_negate_partial.
Theorem C42_negate_fp_partial : forall c p l r, kin (t_kind p) [NT_FP_LT; NT_FP_LE; NT_FP_GT; NT_FP_GE] = true -> t_ch p = [l; r] ->
  sis SK_FP l = true -> sis SK_FP r = true -> never_nan l -> never_nan r ->
  decides (negateComp c p) (fun I e => negb (holds I e p)).
Proof. exact negateComp_fp. Qed.
Print Assumptions C42_negate_fp_partial.
Theorem C42_negate_nan_refuted : exists t, negateComp c0 (T NT_FP_LT boolS (L "fp.lt") [fvar (L "x"); fvar (L "y")]) = Ok t /\
  exists I e, holds I e (T NT_FP_LT boolS (L "fp.lt") [fvar (L "x"); fvar (L "y")]) = false /\ holds I e t = false.
Proof. eexists. split; [vm_compute; reflexivity|]. exists I0, (e_all (VFP FNaN)). split; reflexivity. Qed.
Print Assumptions C42_negate_nan_refuted.
(** flipComp swaps the arguments and keeps the operator *)
Theorem C42_flip_meaning : forall c k s n l r, cfg_ok c -> In k arith_comp_kinds -> lits_ok [l; r] -> reals_exact c [l; r] ->
  decides (flipComp c (T k s n [l; r])) (fun I e => cmpr k (eval I e r) (eval I e l)).
Proof. exact flip_meaning. Qed.
Print Assumptions C42_flip_meaning.
(** ... so that the flipped comparison is not equivalent, for < and <= and > and >= alike *)
Theorem C42_flip_refuted : forall k, In k arith_comp_kinds ->
  exists t, flipComp c0 (T k boolS (kindToString k) [xi; yi]) = Ok t /\
  exists I e, holds I e t <> holds I e (T k boolS (kindToString k) [xi; yi]).
Proof.
  intros k Hk. assert (L0 : lits_ok [xi; yi]) by lits1.
  assert (X0 : reals_exact c0 [xi; yi]) by (left; intros p [ <- | [ <- | [] ]] _; reflexivity).
  destruct (flip_meaning c0 k boolS (kindToString k) xi yi c0_ok Hk L0 X0) as (t & E & V).
  exists t. split; [exact E|]. exists I0, (env_of (fun s => if seq_str s (L "x") then VNum (ZQ 0) else VNum (ZQ 1))).
  rewrite V, cmp_node by exact Hk. repeat (destruct Hk as [ <- | Hk ]); try contradiction; vm_compute; discriminate.
Qed.
Print Assumptions C42_flip_refuted.
Theorem C42_flip_eq : forall c p, isEq p = true \/ isDistinct p = true -> flipComp c p = Ok p.
Proof.
  intros c p H. unfold flipComp. destruct (isErr p) eqn:E; [reflexivity|]. destruct H as [ -> | -> ]; [reflexivity|now rewrite orb_true_r].
Qed.
Print Assumptions C42_flip_eq.
Example C42_ex : tree_ok c0 lt3 /\ cmpk lt3 /\ negateComp c0 lt3 = Ok (T NT_GE boolS (L ">=") [xi; num0 3]).
Proof. split; [exact tree_lt3|]. split; [right; right; reflexivity|vm_compute; reflexivity]. Qed.

(** ** C50: arithmetic constructors *)
Theorem C50_add_partial : forall c ps, cfg_ok c -> c_int c || c_real c = true -> ps <> [] -> num_args ps ->
  nmeans (mkAdd c ps) (fun I e => sumq (map (eval I e) ps)).
Proof. exact mkAdd_sound. Qed.
Print Assumptions C50_add_partial.
Theorem C50_mul_partial : forall c ps, cfg_ok c -> c_int c || c_real c = true -> ps <> [] -> num_args ps ->
  nmeans (mkMul c ps) (fun I e => prodq (map (eval I e) ps)).
Proof. exact mkMul_sound. Qed.
Print Assumptions C50_mul_partial.
(** in a logic whose name has neither I nor R a zero factor is dropped *)
Theorem C50_mul_refuted : exists t, mkMul cB [num0 0; xi] = Ok t /\
  exists I e, prodq (map (eval I e) [num0 0; xi]) = Q2Qc 0 /\ num (eval I e t) = Q2Qc 1.
Proof.
  exists xi. split; [vm_compute; reflexivity|]. exists I0, (e_all (VNum (ZQ 1))). split; [|reflexivity].
  cbn [map]. rewrite eval_num0. cbn [prodq fold_right num]. change (ZQ 0) with (Q2Qc 0). ring.
Qed.
Print Assumptions C50_mul_refuted.
Theorem C50_sub_partial : forall c p ps, cfg_ok c -> num_args (p :: ps) -> Forall numeric (p :: ps) ->
  nmeans (mkSub c (p :: ps)) (fun I e => match ps with [] => (- num (eval I e p))%Qc | _ => subq (eval I e p) (map (eval I e) ps) end).
Proof. exact mkSub_sound. Qed.
Print Assumptions C50_sub_partial.
Theorem C50_compare_partial : forall c k ps, cfg_ok c -> In k arith_comp_kinds -> (2 <= length ps)%nat -> lits_ok ps ->
  (forall p, In p ps -> numS p = true /\ isErr p = false) -> neighbours c ps ->
  decides (mkCmpV c k ps) (fun I e => chain (cmpr k) (map (eval I e) ps)).
Proof. exact mkCmpV_sound. Qed.
Print Assumptions C50_compare_partial.
Example C50_ex : num_args [xi; num0 3; yi] /\ mkAdd c0 [xi; num0 0; yi] = Ok (T NT_ADD intS (L "+") [xi; yi]) /\
  mkMul c0 [xi; num0 1; yi] = Ok (T NT_MUL intS (L "*") [xi; yi]) /\
  mkMul c0 [xi; num0 0; yi] = Ok (mkConstInt 0) /\ mkSub c0 [num0 3; num0 5] = Ok (mkConstInt (-2)) /\
  neighbours c0 [xi; yi; num0 3] /\
  mkCmpV c0 NT_LT [xi; yi; num0 3] = Ok (T NT_AND boolS (L "and") [T NT_LT boolS (L "<") [xi; yi]; T NT_LT boolS (L "<") [yi; num0 3]]).
Proof.
  split; [exact num_args_xy|]. do 4 (split; [vm_compute; reflexivity|]).
  split; [cbn; repeat split; try reflexivity; left; intros p [ <- | [ <- | [] ]] _; reflexivity|vm_compute; reflexivity].
Qed.
