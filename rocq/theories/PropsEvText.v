(** C69: an expression text is parsed, then evaluated under a model. *)
From Coq Require Import QArith Qcanon.
From Verif Require Import Base LexSpec LexProofs KindModel SortModel TermModel BVSpec Sem SimpModel OpModel OpSpec LexModel ParseModel ParseSpec ParseProofs ParseProofs2
  ApplyModel CommandModel CommandSpec PropsParse PropsCommand OpExamples TraverseModel EvalModel MeanSpec MeanProofs4 MeanProofs5 PropsMean PropsEval EvTextSpec EvTextProofs EvTextProofs2.
From Verif Require CtorSpec CtorModel.
Open Scope Z_scope.

(** Any text of a well-sorted expression built from declared constants, literals and the
    operators of [evaluable], and any model that gives every declared constant a literal of its
    sort: mkExpr returns a term, evaluate under the model returns a literal, and this literal
    denotes the value SMT-LIB gives to the expression in the structure described by the model. *)
Theorem C69_parse_eval : forall x p G e t tx m M ptr, mean_cfg G x -> declares G p -> x_file x = false -> top_state x p ->
  ty_of G [] e t -> evaluable (x_keep x) G [] e -> well_scoped e -> lexes plain_word tx (render e) ->
  widths_ok G -> holds_values G M m ->
  exists u p' w, mkExpr x p tx = Ok (u, p') /\ evaluateT (x_c x) ptr m u = Ok w /\ literal (value_of G M [] e) w.
Proof. intros x p G e t tx m M ptr. apply parse_eval. Qed.
Print Assumptions C69_parse_eval.
(** what is built never depends on the model: the same parsed term gives the value under every model *)
Theorem C69_every_model : forall x p G e t tx, mean_cfg G x -> declares G p -> x_file x = false -> top_state x p ->
  ty_of G [] e t -> evaluable (x_keep x) G [] e -> well_scoped e -> lexes plain_word tx (render e) -> widths_ok G ->
  exists u p', mkExpr x p tx = Ok (u, p') /\
    forall m M ptr, holds_values G M m -> exists w, evaluateT (x_c x) ptr m u = Ok w /\ literal (value_of G M [] e) w.
Proof.
  intros x p G e t tx H1 H2 H3 H4 H5 H6 H7 H8 H9.
  destruct (mean_text x p G e t tx H1 H2 H3 H4 H5 H7 H8) as (u & p' & E & _). exists u, p'. split; [exact E|].
  intros m M ptr HM. destruct (parse_eval x p G e t tx m M ptr H1 H2 H3 H4 H5 H6 H7 H8 H9 HM) as (u' & p2 & w & E' & Ev & Lv). exists w.
  rewrite E in E'. injection E' as <- <-. now split.
Qed.
Print Assumptions C69_every_model.
(** two expressions with the same value evaluate to the same literal *)
Theorem C69_agree : forall x p G e1 e2 t1 t2 tx1 tx2 m M ptr, mean_cfg G x -> declares G p -> x_file x = false -> top_state x p ->
  ty_of G [] e1 t1 -> ty_of G [] e2 t2 -> evaluable (x_keep x) G [] e1 -> evaluable (x_keep x) G [] e2 -> well_scoped e1 -> well_scoped e2 ->
  lexes plain_word tx1 (render e1) -> lexes plain_word tx2 (render e2) -> widths_ok G -> holds_values G M m ->
  exists u1 u2 p1 p2 w1 w2, mkExpr x p tx1 = Ok (u1, p1) /\ mkExpr x p tx2 = Ok (u2, p2) /\ evaluateT (x_c x) ptr m u1 = Ok w1 /\ evaluateT (x_c x) ptr m u2 = Ok w2 /\
    (value_of G M [] e1 = value_of G M [] e2 -> w1 = w2).
Proof.
  intros x p G e1 e2 t1 t2 tx1 tx2 m M ptr H1 H2 H3 H4 A1 A2 B1 B2 S1 S2 L1 L2 W V.
  destruct (parse_eval x p G e1 t1 tx1 m M ptr H1 H2 H3 H4 A1 B1 S1 L1 W V) as (u1 & p1 & w1 & E1 & F1 & K1).
  destruct (parse_eval x p G e2 t2 tx2 m M ptr H1 H2 H3 H4 A2 B2 S2 L2 W V) as (u2 & p2 & w2 & E2 & F2 & K2).
  exists u1, u2, p1, p2, w1, w2. repeat (split; [assumption|]). intros EQ. rewrite EQ in K1.
  destruct (value_of G M [] e2) as [b|q|w z|s|s|s]; cbn [literal] in K1, K2; try contradiction; try congruence.
  destruct K1 as (z1 & Z1 & ->). destruct K2 as (z2 & Z2 & ->). rewrite Z1 in Z2. apply OpProofs.ZQ_inj in Z2. now rewrite Z2.
Qed.
Print Assumptions C69_agree.
(** [literal] is a fair reading: the literal's own value is that value *)
Theorem C69_literal_value : forall I v w t, literal w t -> (forall n z, w = VBV n z -> 0 <= z < 2 ^ Z.of_nat n) -> eval I v t = w.
Proof.
  intros I v [b|q|n z|s|s|s] t H R; cbn [literal] in H; try contradiction.
  - subst t. now destruct b.
  - destruct H as (z & -> & ->). change (mkConstInt z) with (OpProofs.ic intorealS z). rewrite OpProofs.eval_ic by auto. reflexivity.
  - subst t. change (eval I v (OpProofs.bc n z) = VBV n z). rewrite OpProofs.eval_bc. unfold uv. rewrite Z.mod_small; [reflexivity|]. now apply (R n z).
Qed.
Print Assumptions C69_literal_value.

(** ** examples *)
Definition x69 (keep : bool) : pcfg :=
  PCfg c0 false keep (applyFun c0 (Expand true false)) (CtorModel.theory_oper c0 (fun l => l)) (fun s => s) (fun _ => []).
Definition G69 : signature := Signature [(L "x", TyInt); (L "b", TyBool); (L "a", TyBV 4)] [] true false [] false.
Definition p69 : pst := set_var [(L "x", xi); (L "b", pb); (L "a", T NT_VAR (bvS 4) (L "a") [])] pst0.
Definition e69 : sx := SLet [(word "y", SApp (word "+") [A "x"; A "3"])]
  (SApp (word "and") [A "b"; SApp (word "<") [A "y"; SApp (word "*") [A "2"; A "x"]]; SApp (word "bvult") [A "a"; SApp (word "bvadd") [A "a"; A "#b0101"]]]).
Example C69_ex_cfg : forall k, mean_cfg G69 (x69 k) /\ declares G69 p69 /\ top_state (x69 k) p69 /\ widths_ok G69.
Proof.
  intros k. split; [split; [exact c0_ok|split; [reflexivity|split; [reflexivity|split]]]|].
  { intros k' ps Hk. repeat (destruct Hk as [ <- | Hk ]; [reflexivity|]). contradiction. }
  { exists (Expand true false). split; [reflexivity|]. reflexivity. }
  split; [|split].
  - split; [|split; [|split; [|split; [|split]]]]; try reflexivity.
    intros v. change (p_var p69) with [(L "x", xi); (L "b", pb); (L "a", T NT_VAR (bvS 4) (L "a") [])]. cbn [mget look s_con G69].
    destruct (seq_str (L "x") v) eqn:E1; [apply BVProofs2.seq_str_spec in E1; subst v; reflexivity|].
    destruct (seq_str (L "b") v) eqn:E2; [apply BVProofs2.seq_str_spec in E2; subst v; reflexivity|].
    destruct (seq_str (L "a") v) eqn:E3; [apply BVProofs2.seq_str_spec in E3; subst v; reflexivity|]. reflexivity.
  - constructor; try reflexivity; discriminate.
  - intros v w. cbn [look s_con G69]. destruct (seq_str (L "x") v); [discriminate|]. destruct (seq_str (L "b") v); [discriminate|].
    destruct (seq_str (L "a") v); [|discriminate]. injection 1 as <-. split; [lia|apply fits8; lia].
Qed.
Example C69_ex_sort : ty_of G69 [] e69 TyBool /\ evaluable false G69 [] e69 /\ well_scoped e69.
Proof.
  assert (OP : forall r o args ts t, no_fun G69 (L o) -> op_ty o ts t -> (In o ["+"; "-"; "*"]%string -> True) -> tys_of G69 r args ts -> ty_of G69 r (SApp (word o) args) t).
  { intros r o args ts t N O _ T. apply (T_op G69 r (word o) o args ts t); [apply tok_word|reflexivity|exact N|split; [reflexivity|discriminate]|exact O|exact T]. }
  assert (C : forall r s t, constant_name (word s) -> look (L s) r = None -> look (L s) (s_con G69) = Some t -> ty_of G69 r (A s) t).
  { intros r s t N F H. apply T_const; [exact N|exact F|exact H|reflexivity]. }
  split; [|split; [|reflexivity]].
  - apply (T_let G69 [] _ _ [TyInt]); [reflexivity|discriminate|constructor; [apply tok_word|constructor]| |].
    + constructor; [|constructor]. apply (OP _ "+"%string _ [TyInt; TyInt]); [split; reflexivity|apply (O_arith "+" TyInt 2); [cbn; tauto|now left|lia]|tauto|].
      constructor; [apply C; [cnm|reflexivity|reflexivity]|]. constructor; [|constructor]. apply (T_num G69 _ _ 3); [cnm|reflexivity|reflexivity|split; reflexivity|lia|reflexivity|now left].
    + apply (OP _ "and"%string _ [TyBool; TyBool; TyBool]); [split; reflexivity|apply (O_junct "and" 3); [cbn; tauto|lia]|tauto|].
      constructor; [apply C; [cnm|reflexivity|reflexivity]|]. constructor; [|constructor; [|constructor]].
      * apply (OP _ "<"%string _ [TyInt; TyInt]); [split; reflexivity|apply O_cmp; [cbn; tauto|now left]|tauto|].
        constructor; [apply T_bound; [cnm|reflexivity]|]. constructor; [|constructor].
        apply (OP _ "*"%string _ [TyInt; TyInt]); [split; reflexivity|apply (O_arith "*" TyInt 2); [cbn; tauto|now left|lia]|tauto|].
        constructor; [apply (T_num G69 _ _ 2); [cnm|reflexivity|reflexivity|split; reflexivity|lia|reflexivity|now left]|]. constructor; [apply C; [cnm|reflexivity|reflexivity]|constructor].
      * assert (TA : ty_of G69 [(L "y", TyInt)] (A "a") (TyBV 4)) by (apply C; [cnm|reflexivity|reflexivity]).
        apply (OP _ "bvult"%string _ [TyBV 4; TyBV 4]); [split; reflexivity|apply O_bvcmp; cbn; tauto|tauto|]. constructor; [exact TA|]. constructor; [|constructor].
        apply (OP _ "bvadd"%string _ [TyBV 4; TyBV 4]); [split; reflexivity|apply (O_bvn "bvadd" 4 2); [cbn; tauto|lia]|tauto|]. constructor; [exact TA|]. constructor; [|constructor].
        apply (T_bits G69 _ (word "#b0101") 4 5); [now apply cn|reflexivity|reflexivity|split; reflexivity|reflexivity|lia|apply fits8; lia|reflexivity].
  - apply Ev_let; [reflexivity| |].
    + constructor; [|constructor]. apply Ev_app; [discriminate|split; reflexivity|discriminate|]. repeat (constructor; [apply Ev_atom|]). constructor.
    + intros ts _. apply Ev_app; [discriminate|split; reflexivity|discriminate|]. constructor; [apply Ev_atom|].
      constructor; [apply Ev_app; [discriminate|split; reflexivity|discriminate|]; constructor; [apply Ev_atom|]; constructor; [|constructor];
                    apply Ev_app; [discriminate|split; reflexivity|discriminate|]; repeat (constructor; [apply Ev_atom|]); constructor|].
      constructor; [|constructor]. apply Ev_app; [discriminate|split; reflexivity|discriminate|]; constructor; [apply Ev_atom|]; constructor; [|constructor];
                    apply Ev_app; [discriminate|split; reflexivity|discriminate|]; repeat (constructor; [apply Ev_atom|]); constructor.
Qed.
Definition tx69 : str := L "(let ((y (+ x 3))) (and b (< y (* 2 x)) (bvult a (bvadd a #b0101))))".
Example C69_ex_text : lexes plain_word tx69 (render e69).
Proof.
  cbn. lw. wdd "let"%string. lw. wdd "y"%string. lw. wd "+"%string. lw. wdd "x"%string. lw. wd "3"%string. lw. wdd "and"%string. lw. wdd "b"%string. lw. wdd "<"%string. lw. wdd "y"%string. lw.
  wdd "*"%string. lw. wd "2"%string. lw. wdd "x"%string. lw. wdd "bvult"%string. lw. wdd "a"%string. lw. wdd "bvadd"%string. lw. wdd "a"%string. lw. wdd "#b0101"%string. lw.
Qed.
(** a model: x = k, b = true, a = 6 *)
Definition M69 (k : Z) : structure := Structure (fun _ => true) (fun _ => k) (fun _ => Q2Qc 0) (fun _ _ => 6) (fun _ _ => false) (fun _ _ => 0) (fun _ _ => Q2Qc 0) (fun _ _ _ => 0).
Definition m69 (k : Z) : model := getm (madd xi (mkConstInt k) (madd pb TRUE (madd (T NT_VAR (bvS 4) (L "a") []) (T NT_CONST (bvS 4) (L "#b0110") []) (Ok newModel)))).
Example C69_ex_model : forall k, holds_values G69 (M69 k) (m69 k).
Proof.
  intros k v t. cbn [look s_con G69].
  destruct (seq_str (L "x") v) eqn:E1; [apply BVProofs2.seq_str_spec in E1; subst v; injection 1 as <-; exists (mkConstInt k); split; [reflexivity|]; cbn; now exists k|].
  destruct (seq_str (L "b") v) eqn:E2; [apply BVProofs2.seq_str_spec in E2; subst v; injection 1 as <-; exists TRUE; split; reflexivity|].
  destruct (seq_str (L "a") v) eqn:E3; [|discriminate]. apply BVProofs2.seq_str_spec in E3; subst v; injection 1 as <-. eexists. split; reflexivity.
Qed.
Definition run69 (k : Z) : res term := r <- mkExpr (x69 false) p69 tx69 ;; evaluateT c0 (fun l => l) (m69 k) (fst r).
Example C69_ex_run : run69 5 = Ok TRUE /\ run69 3 = Ok FALSE /\ value_of G69 (M69 5) [] e69 = VBool true /\ value_of G69 (M69 3) [] e69 = VBool false.
Proof. repeat split; vm_compute; reflexivity. Qed.

(** ** limits *)
(** The full statement (every well-sorted expression, every model) is false.
    With no constant declared and the empty model, (distinct true true), which is false, evaluates to itself *)
Definition G69e : signature := Signature [] [] true false [] false.
Theorem C69_distinct_refuted : exists e tx u, ty_of G69e [] e TyBool /\ well_scoped e /\ lexes plain_word tx (render e) /\ mean_cfg G69e (x69 false) /\ declares G69e pst0 /\
  (forall M, holds_values G69e M newModel) /\ (forall M, value_of G69e M [] e = VBool false) /\
  mkExpr (x69 false) pst0 tx = Ok (u, pst0) /\ evaluateT c0 (fun l => l) newModel u = Ok u /\ t_kind u = NT_DISTINCT.
Proof.
  exists (SApp (word "distinct") [A "true"; A "true"]), (L "(distinct true true)"). eexists.
  split. { apply (T_op G69e [] (word "distinct") "distinct" _ [TyBool; TyBool]); [apply tok_word|reflexivity|split; reflexivity|split; [reflexivity|discriminate]|apply O_eq; cbn; tauto|].
    assert (X : ty_of G69e [] (A "true") TyBool) by (apply T_true; [apply tok_word|reflexivity]). constructor; [exact X|constructor; [exact X|constructor]]. }
  split; [reflexivity|]. split. { cbn. lw. wdd "distinct"%string. lw. wdd "true"%string. lw. wdd "true"%string. lw. }
  split. { split; [exact c0_ok|split; [reflexivity|split; [reflexivity|split]]].
    { intros k' ps Hk. repeat (destruct Hk as [ <- | Hk ]; [reflexivity|]). contradiction. }
    exists (Expand true false). split; reflexivity. }
  split. { split; [|split; [|split; [|split; [|split]]]]; try reflexivity. }
  split; [intros M v t H; discriminate H|]. split; [reflexivity|]. split; [vm_compute; reflexivity|]. split; vm_compute; reflexivity.
Qed.
Print Assumptions C69_distinct_refuted.
(** concat of two 4-bit values evaluates to 12 bits *)
Theorem C69_concat_refuted : exists e tx u w, ty_of G69 [] e (TyBV 8) /\ lexes plain_word tx (render e) /\ value_of G69 (M69 5) [] e = VBV 8 102 /\
  mkExpr (x69 false) p69 tx = Ok (u, p69) /\ evaluateT c0 (fun l => l) (m69 5) u = Ok w /\ t_name w = lit 12 1638.
Proof.
  exists (SApp (word "concat") [A "a"; A "a"]), (L "(concat a a)"). do 2 eexists.
  split. { apply (T_op G69 [] (word "concat") "concat" _ [TyBV 4; TyBV 4]); [apply tok_word|reflexivity|split; reflexivity|split; [reflexivity|discriminate]|apply (O_concat 4 4); apply fits8; lia|].
    assert (X : ty_of G69 [] (A "a") (TyBV 4)) by (apply T_const; [cnm|reflexivity|reflexivity|reflexivity]). constructor; [exact X|constructor; [exact X|constructor]]. }
  split. { cbn. lw. wdd "concat"%string. lw. wdd "a"%string. lw. wdd "a"%string. lw. }
  split; [vm_compute; reflexivity|]. split; [vm_compute; reflexivity|]. split; vm_compute; reflexivity.
Qed.
Print Assumptions C69_concat_refuted.
(** a let that the library keeps (the default) is not evaluated *)
Theorem C69_let_refuted : exists e tx u p', ty_of G69 [] e TyInt /\ lexes plain_word tx (render e) /\ value_of G69 (M69 5) [] e = VNum (ZQ 6) /\
  mkExpr (x69 true) p69 tx = Ok (u, p') /\ evaluateT c0 (fun l => l) (m69 5) u = Ok u /\ isConst u = false.
Proof.
  exists (SLet [(word "y", A "x")] (SApp (word "+") [A "y"; A "1"])), (L "(let ((y x)) (+ y 1))"). do 2 eexists.
  split. { apply (T_let G69 [] _ _ [TyInt]); [reflexivity|discriminate|constructor; [apply tok_word|constructor]| |].
    - constructor; [|constructor]. apply T_const; [cnm|reflexivity|reflexivity|reflexivity].
    - apply (T_op G69 _ (word "+") "+" _ [TyInt; TyInt]); [apply tok_word|reflexivity|split; reflexivity|split; [reflexivity|discriminate]|apply (O_arith "+" TyInt 2); [cbn; tauto|now left|lia]|].
      constructor; [apply T_bound; [cnm|reflexivity]|]. constructor; [|constructor]. apply (T_num G69 _ _ 1); [cnm|reflexivity|reflexivity|split; reflexivity|lia|reflexivity|now left]. }
  split. { cbn. lw. wdd "let"%string. lw. wdd "y"%string. lw. wdd "x"%string. lw. wd "+"%string. lw. wdd "y"%string. lw. wd "1"%string. lw. }
  split; [vm_compute; reflexivity|]. split; [vm_compute; reflexivity|]. split; vm_compute; reflexivity.
Qed.
Print Assumptions C69_let_refuted.
