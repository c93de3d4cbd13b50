(** C93: string expressions — folding constants and evaluating under a model. *)
From Coq Require Import QArith.
From Verif Require Import Base KindModel SortModel TermModel UtilModel UtilSpec UtilProofs2 PropsUtil SimpModel OpModel OpSpec OpExamples TraverseModel EvalModel PropsEval StrSpec StrProofs.
Open Scope Z_scope.

(** an operation applied to constants is folded to the constant of its value *)
Theorem C93_fold c s k vs v : sop k vs v -> Forall proper vs -> proper v -> mkOper c s k (map const vs) = Ok (const v).
Proof. exact (fold_op c s k vs v). Qed.
Print Assumptions C93_fold.
(** so is a concatenation of two or more constants *)
Theorem C93_concat_fold c s l : (2 <= length l)%nat -> Forall (Forall plainC) l ->
  mkOper c s NT_STR_CONCAT (map (fun x => const (VS x)) l) = Ok (const (VS (concat l))).
Proof. exact (cat_ok c s l). Qed.
Print Assumptions C93_concat_fold.
(** evaluation of a string expression under a non-empty model yields the constant of its value *)
Theorem C93_evaluate c ptr m t v : m_isEmpty m = false -> value_in m t v -> evaluateT c ptr m t = Ok (const v).
Proof.
  intros Em H. destruct (value_gives c ptr m Em t v H) as (E & _). unfold evaluateT. rewrite E. reflexivity.
Qed.
Print Assumptions C93_evaluate.

Definition q (x : string) : term := const (VS (L x)).
Definition svar (n : string) : term := T NT_VAR strS (L n) [].
Definition sm : model := getm (madd (svar "x") (q "hello") (madd (svar "y") (q "ell") (Ok newModel))).
Definition st : term := T NT_STR_TO_UPPER strS (L "str.to_upper") [T NT_STR_SUBSTR strS (L "str.substr") [svar "x"; T NT_STR_INDEXOF intS (L "str.indexof") [svar "x"; svar "y"; mkConstInt 0]; mkConstInt 3]].
Lemma prop5 (x : str) : Forall plainC x -> zlen x <= 5 -> proper (VS x).
Proof. intros P H. split; [exact P|]. unfold str_max. lia. Qed.
Ltac plains := cbn; repeat (apply Forall_cons; [split; discriminate|]); apply Forall_nil.
Example C93_holds : value_in sm st (VS (L "ELL")).
Proof.
  apply (N_op sm NT_STR_TO_UPPER strS (L "str.to_upper") _ [VS (L "ell")]); [|apply Exists_cons_hd; reflexivity|exact (R_upper (L "ell"))|apply prop5; [plains|cbn; lia]].
  apply Ns_cons; [|apply Ns_nil].
  apply (N_op sm NT_STR_SUBSTR strS (L "str.substr") _ [VS (L "hello"); VI 1; VI 3]); [|apply Exists_cons_hd; reflexivity| |apply prop5; [plains|cbn; lia]].
  - apply Ns_cons; [apply N_var; [left; reflexivity|vm_compute; reflexivity|apply prop5; [plains|cbn; lia]]|].
    apply Ns_cons; [|apply Ns_cons; [exact (N_const sm (VI 3) I)|apply Ns_nil]].
    apply (N_op sm NT_STR_INDEXOF intS (L "str.indexof") _ [VS (L "hello"); VS (L "ell"); VI 0]); [|apply Exists_cons_hd; reflexivity| |exact I].
    + apply Ns_cons; [apply N_var; [left; reflexivity|vm_compute; reflexivity|apply prop5; [plains|cbn; lia]]|].
      apply Ns_cons; [apply N_var; [left; reflexivity|vm_compute; reflexivity|apply prop5; [plains|cbn; lia]]|].
      apply Ns_cons; [exact (N_const sm (VI 0) I)|apply Ns_nil].
    + apply R_indexof; [unfold two64; lia|]. left. exists 1%nat. split; [reflexivity|]. split; [cbn; lia|]. split.
      * exists (L "h"), (L "o"). split; reflexivity.
      * intros p (a & b & E & Lp) _. destruct p; [|lia]. destruct a; [|discriminate Lp]. discriminate E.
  - exact (R_substr (L "hello") 1 3 ltac:(unfold two64; lia) ltac:(unfold two64; lia)).
Qed.
Example C93_runs : evaluateT c0 ip sm st = Ok (q "ELL").
Proof. apply C93_evaluate; [vm_compute; reflexivity|exact C93_holds]. Qed.
Example C93_cat : mkOper c0 strS NT_STR_CONCAT (map (fun x => const (VS x)) [L "ab"; L ""; L "c"]) = Ok (q "abc").
Proof. apply C93_concat_fold; [cbn; lia|]. repeat (apply Forall_cons; [plains|]). apply Forall_nil. Qed.

(** ** what goes wrong *)
(** the length of a constant counts the two quotes, whatever the constant *)
Theorem C93_len_refuted c s x : mkOper c s NT_STR_LEN [const (VS x)] = Ok (mkConstInt (zlen x + 2)).
Proof.
  unfold mkOper. cbn [simp]. unfold simp1. change (kin NT_STR_LEN float1_kinds) with false. change (kin NT_STR_LEN nary1_kinds) with false. cbv iota zeta.
  change (isCStr (const (VS x))) with true. cbv iota. cbn [bind const t_name]. replace (zlen (Q x)) with (zlen x + 2); [reflexivity|].
  unfold Q, zlen. cbn [length]. rewrite app_length. cbn [length]. lia.
Qed.
Print Assumptions C93_len_refuted.
(** no string constant is a digit, none has an integer value: the program ends *)
Theorem C93_is_digit_refuted c s x : mkOper c s NT_STR_IS_DIGIT [const (VS x)] = Ok FALSE.
Proof. reflexivity. Qed.
Print Assumptions C93_is_digit_refuted.
Theorem C93_to_int_refuted c s x : mkOper c s NT_STR_TO_INT [const (VS x)] = Exit.
Proof. reflexivity. Qed.
Print Assumptions C93_to_int_refuted.
Theorem C93_to_code_refuted c s x : mkOper c s NT_STR_TO_CODE [const (VS x)] = Exit.
Proof.
  unfold mkOper. cbn [simp]. unfold simp1. change (kin NT_STR_TO_CODE float1_kinds) with false. change (kin NT_STR_TO_CODE nary1_kinds) with false. cbv iota zeta.
  change (isCStr (const (VS x))) with true. cbv iota. cbn [const t_name]. unfold Q. destruct x; reflexivity.
Qed.
Print Assumptions C93_to_code_refuted.
(** the string of an integer is a constant without quotes, so it is no string constant of the language *)
Theorem C93_from_int_refuted : mkOper c0 strS NT_STR_FROM_INT [mkConstInt 7] = Ok (T NT_CONST strS (L "7") []) /\ forall x, T NT_CONST strS (L "7") [] <> const (VS x).
Proof. split; [vm_compute; reflexivity|]. intros x E. apply (f_equal t_name) in E. cbn [const t_name] in E. unfold Q in E. discriminate E. Qed.
Print Assumptions C93_from_int_refuted.
(** evaluating a concatenation of variables writes the first value twice *)
Theorem C93_concat_refuted : evaluateT c0 ip sm (T NT_STR_CONCAT strS (L "str.++") [svar "x"; svar "y"]) = Ok (q "hellohelloell").
Proof. vm_compute. reflexivity. Qed.
Print Assumptions C93_concat_refuted.
(** a negative length or a position behind the end, which SMT-LIB maps to the empty string, raises an exception *)
Theorem C93_bounds_refuted : mkOper c0 strS NT_STR_SUBSTR [q "abc"; mkConstInt 1; mkConstInt (-1)] = Throw OverflowError /\
  mkOper c0 strS NT_STR_CHARAT [q "abc"; mkConstInt 7] = Throw OutOfRange /\ mkOper c0 strS NT_STR_UPDATE [q "abc"; mkConstInt 2; q "xyz"] = Throw OutOfRange.
Proof. repeat split; vm_compute; reflexivity. Qed.
Print Assumptions C93_bounds_refuted.
