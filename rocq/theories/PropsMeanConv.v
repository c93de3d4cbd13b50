(** C67: the text of a script, converted to negation or conjunctive normal form.  MeanSpec.v says which
    scripts are well-sorted and what satisfies them (on the abstract syntax), ConvSpec.v and CnfSpec.v what
    the normal forms are. *)
From Coq Require Import QArith Qcanon Permutation.
From Verif Require Import Base LexSpec LexProofs KindModel SortModel TermModel BVSpec Sem SimpModel OpModel OpSpec TypedSpec TypedProofs LexModel
  ParseModel ParseSpec ApplyModel CommandModel CommandSpec CommandMore PropsParse PropsCommand OpExamples
  ConvModel ConvSpec ConvExamples CnfModel CnfSpec CnfProofs5
  MeanSpec MeanProofs5 MeanConv PropsMean.
Open Scope Z_scope.

Lemma forallb_holds I e ts : forallb (holds I e) ts = true <-> Forall (fun t => holds I e t = true) ts.
Proof. rewrite forallb_forall, Forall_forall. reflexivity. Qed.
Lemma values_len I v M ts fs : map (eval I v) ts = value_list M fs -> length ts = length fs.
Proof. intros E. apply (f_equal (@length _)) in E. unfold value_list in E. now rewrite !map_length in E. Qed.

(** ** negation normal form *)
(** Any text of a well-sorted script with at least one assertion, given to a new parser: the recorded
    assertions convert to one formula in negation normal form that is true exactly in
    the structures that satisfy the script. *)
Theorem C67_nnf_partial : forall b r c l fs tx, cfg_ok (x_c b) -> cfg_ok c -> library_bv b -> script no_decls l fs -> fs <> [] -> tx <> [] ->
  lexes plain_word tx (render_script l) ->
  exists q u, parseStr b tx (parser0 r) = Ok q /\ toNNFs c (g_as (q_g q)) = Ok u /\ in_nnf u /\
    forall I v M, agrees I v M -> (satisfies M fs <-> holds I v u = true).
Proof.
  intros b r c l fs tx HC Hc HB HS HN HT HL. destruct (script_parse b r false l fs tx HC HB HS HT HL) as (q & E & _ & W & V).
  assert (NE : g_as (q_g q) <> []).
  { pose proof (values_len _ _ _ _ _ (V _ _ _ (agrees_interp (M63 0)))) as Le. intros X. rewrite X in Le. destruct fs; [contradiction|discriminate Le]. }
  destruct (toNNFs_ok c (g_as (q_g q)) Hc NE (asserted_fml false _ c W)) as (u & Eu & Nu & Hu).
  exists q, u. split; [exact E|]. split; [exact Eu|]. split; [exact Nu|]. intros I v M A.
  rewrite Hu, forallb_holds. apply (values_holds I v M _ fs A (asserted_wt c _ _ W)), V, A.
Qed.
Print Assumptions C67_nnf_partial.

(** ** conjunctive normal form *)
Lemma agrees_agree I e e' M n : agrees I e M -> agree n e e' -> agrees I e' M.
Proof.
  intros (A1 & A2) A. split; [|exact A2]. intros v t. rewrite <- A1.
  change (leaf_sem I e' NT_VAR (sort_of t) v = leaf_sem I e NT_VAR (sort_of t) v). unfold leaf_sem. change (is_leaf_var NT_VAR) with true. cbv iota.
  f_equal. symmetry. apply A. intros i _ X. discriminate X.
Qed.
(** Any text of a well-sorted script in the clausal language (no let, xor, bvneg, bv2nat or equality of
    Booleans), given to a new parser: the recorded assertions convert, in any state of the table of
    CNF variables, to a conjunction of clauses; the structures that satisfy the script are exactly those
    that extend, by values of the new variables that respect the table, to a model of it. *)
Theorem C67_cnf_partial : forall b r c ord S l fs tx, cfg_ok (x_c b) -> cfg_ok c -> perm_ord ord -> library_bv b -> script no_decls_clausal l fs -> tx <> [] ->
  lexes plain_word tx (render_script l) ->
  exists q u S', parseStr b tx (parser0 r) = Ok q /\ toCNF c ord (g_as (q_g q)) S = Ok (u, S') /\ in_cnf u /\
    forall M, satisfies M fs <-> exists I e, agrees I e M /\ respects (cs_atoms S') I e /\ holds I e u = true.
Proof.
  intros b r c ord S l fs tx HC Hc HO HB HS HT HL. destruct (script_parse b r true l fs tx HC HB HS HT HL) as (q & E & _ & W & V).
  destruct (toCNF_ok c ord (g_as (q_g q)) S Hc HO (asserted_cfm _ c W) (asserted_below true _ c _ W)) as (u & S' & Eu & Nu & _ & E1 & E2).
  exists q, u, S'. split; [exact E|]. split; [exact Eu|]. split; [exact Nu|]. intros M. split.
  - intros Sat. pose proof (agrees_interp M) as A. apply (values_holds _ _ M _ fs A (asserted_wt c _ _ W) (V _ _ _ A)) in Sat.
    apply forallb_holds in Sat. destruct (E1 _ _ Sat) as (e' & Ae & R & Hu). exists (interp_of M), e'. split; [now apply (agrees_agree _ _ _ _ _ A Ae)|]. now split.
  - intros (I & e & A & R & Hu). pose proof (E2 I e R Hu) as H. apply forallb_holds in H. exact (proj2 (values_holds I e M _ fs A (asserted_wt c _ _ W) (V _ _ _ A)) H).
Qed.
Print Assumptions C67_cnf_partial.
(** so the script is satisfiable exactly when the clauses are, the new variables having the values of their atoms *)
Theorem C67_satisfiable_partial : forall b r c ord S l fs tx, cfg_ok (x_c b) -> cfg_ok c -> perm_ord ord -> library_bv b -> script no_decls_clausal l fs -> tx <> [] ->
  lexes plain_word tx (render_script l) ->
  exists q u S', parseStr b tx (parser0 r) = Ok q /\ toCNF c ord (g_as (q_g q)) S = Ok (u, S') /\ in_cnf u /\
    ((exists M, satisfies M fs) <-> exists I e, respects (cs_atoms S') I e /\ holds I e u = true).
Proof.
  intros b r c ord S l fs tx HC Hc HO HB HS HT HL. destruct (C67_cnf_partial b r c ord S l fs tx HC Hc HO HB HS HT HL) as (q & u & S' & E & Eu & Nu & H).
  exists q, u, S'. split; [exact E|]. split; [exact Eu|]. split; [exact Nu|]. split.
  - intros (M & HM). apply H in HM. destruct HM as (I & e & _ & X). eauto.
  - intros (I & e & R & Hu). exists (structure_of I e). apply H. exists I, e. split; [apply agrees_structure|now split].
Qed.
Print Assumptions C67_satisfiable_partial.

(** ** outside the clausal language *)
Definition S00 : cnfst := CnfSt 0 [] [].
(** an equality with bvneg is not taken for an atom: the conversion ends the process *)
Definition tx67b : str := L "(declare-const a (_ BitVec 8))(declare-const p Bool)(assert (or p (= (bvneg a) #x01)))".
Theorem C67_bvneg_refuted : exists q, parseStr (CtorSpec.with_ops B (fun l => l)) tx67b (parser0 RT_UNKNOWN) = Ok q /\
  length (g_as (q_g q)) = 1%nat /\ toCNF c0 (fun l => l) (g_as (q_g q)) S00 = Exit.
Proof. eexists. split; [vm_compute; reflexivity|]. split; vm_compute; reflexivity. Qed.
Print Assumptions C67_bvneg_refuted.
(** nor is one with bv2nat *)
Definition tx67c : str := L "(declare-const a (_ BitVec 8))(declare-const p Bool)(assert (or p (= (bv2nat a) 3)))".
Theorem C67_bv2nat_refuted : exists q, parseStr (CtorSpec.with_ops B (fun l => l)) tx67c (parser0 RT_UNKNOWN) = Ok q /\
  length (g_as (q_g q)) = 1%nat /\ toCNF c0 (fun l => l) (g_as (q_g q)) S00 = Exit.
Proof. eexists. split; [vm_compute; reflexivity|]. split; vm_compute; reflexivity. Qed.
Print Assumptions C67_bv2nat_refuted.
(** a let below a connective *)
Definition tx67d : str := L "(declare-const p Bool)(declare-const q Bool)(assert (or p (let ((r (and p q))) (or r q))))".
Theorem C67_let_refuted : exists q, parseStr B tx67d (parser0 RT_UNKNOWN) = Ok q /\
  length (g_as (q_g q)) = 1%nat /\ toCNF c0 (fun l => l) (g_as (q_g q)) S00 = Exit.
Proof. eexists. split; [vm_compute; reflexivity|]. split; vm_compute; reflexivity. Qed.
Print Assumptions C67_let_refuted.

(** ** example *)
Definition e67 : sx := SApp (word "=>") [A "p"; SApp (word "or") [SApp (word "<") [SApp (word "f") [A "x"]; A "x"];
  SApp (word "and") [SApp (word "not") [SApp (word "=") [A "x"; A "0"]]; A "p"]]].
Definition s67 : list cmd := [CDeclareFun (word "f") [SoName (word "Int")] (SoName (word "Int")); CDeclareConst (word "x") (SoName (word "Int"));
  CDeclareConst (word "p") (SoName (word "Bool")); CAssert e67; CAssert (A "p")].
Definition G67 : signature := Signature [(L "p", TyBool); (L "x", TyInt)] [(L "f", ([TyInt], TyInt))] true true [] false.
Lemma t67 v t : L v <> L "true" -> L v <> L "false" -> look (L v) (s_con G67) = Some t -> ty_of G67 [] (A v) t.
Proof. intros X Y H. apply T_const; [now apply cn|reflexivity|exact H|reflexivity]. Qed.
Lemma op67 o args ts t : no_fun G67 (L o) -> ~ In o ["xor"; "bvneg"; "bv2nat"]%string -> (In o ["="; "distinct"]%string -> ~ In TyBool ts) -> op_ty o ts t ->
  tys_of G67 [] args ts -> ty_of G67 [] (SApp (word o) args) t.
Proof. intros N X Y O H. apply (T_op G67 [] (word o) o args ts t); [apply tok_word|reflexivity|exact N|split; [reflexivity|intros _; now split]|exact O|exact H]. Qed.
Ltac nin := cbn; intuition discriminate.
Example C67_ex_sort : ty_of G67 [] e67 TyBool.
Proof.
  assert (X : ty_of G67 [] (A "x") TyInt) by (apply t67; (discriminate || reflexivity)).
  assert (P : ty_of G67 [] (A "p") TyBool) by (apply t67; (discriminate || reflexivity)).
  assert (Z : ty_of G67 [] (A "0") TyInt) by (apply (T_num G67 _ _ 0); [cnm|reflexivity|reflexivity|split; reflexivity|lia|reflexivity|now left]).
  apply (op67 "=>" _ [TyBool; TyBool]); [split; reflexivity|nin|nin|apply O_imp|]. constructor; [exact P|]. constructor; [|constructor].
  apply (op67 "or" _ [TyBool; TyBool]); [split; reflexivity|nin|nin|apply (O_junct "or" 2); [cbn; tauto|lia]|]. constructor; [|constructor; [|constructor]].
  - apply (op67 "<" _ [TyInt; TyInt]); [split; reflexivity|nin|nin|apply O_cmp; [cbn; tauto|now left]|]. constructor; [|constructor; [exact X|constructor]].
    apply (T_fun G67 [] (word "f") [A "x"] [TyInt] TyInt); [apply tok_word|reflexivity|reflexivity|reflexivity|reflexivity|discriminate|]. constructor; [exact X|constructor].
  - apply (op67 "and" _ [TyBool; TyBool]); [split; reflexivity|nin|nin|apply (O_junct "and" 2); [cbn; tauto|lia]|]. constructor; [|constructor; [exact P|constructor]].
    apply (op67 "not" _ [TyBool]); [split; reflexivity|nin|nin|apply O_not|]. constructor; [|constructor].
    apply (op67 "=" _ [TyInt; TyInt]); [split; reflexivity|nin|nin|apply O_eq; cbn; tauto|]. constructor; [exact X|]. constructor; [exact Z|constructor].
Qed.
Example C67_ex_script : script no_decls_clausal s67 [(G67, e67); (G67, A "p")].
Proof.
  apply (Sc_fun no_decls_clausal _ _ [TyInt] _ TyInt); [apply tok_word|discriminate|constructor; [exact so_int|constructor]|exact so_int|split; [reflexivity|split; reflexivity]|].
  apply (Sc_const _ _ _ TyInt); [apply tok_word|exact so_int|split; [reflexivity|split; reflexivity]|].
  apply (Sc_const _ _ _ TyBool); [apply tok_word|exists (word "Bool"); split; [reflexivity|split; [apply tok_word|reflexivity]]|split; [reflexivity|split; reflexivity]|].
  apply Sc_assert; [exact C67_ex_sort|reflexivity|intros X; vm_compute in X; discriminate X|].
  apply Sc_assert; [apply t67; (discriminate || reflexivity)|reflexivity|intros X; vm_compute in X; discriminate X|]. apply Sc_nil.
Qed.
Definition tx67 : str := L "(declare-fun f (Int) Int)(declare-const x Int)(declare-const p Bool)(assert (=> p (or (< (f x) x) (and (not (= x 0)) p))))(assert p)".
Example C67_ex_text : lexes plain_word tx67 (render_script s67).
Proof.
  cbn. lw. wdd "declare-fun"%string. lw. wdd "f"%string. lw. wdd "Int"%string. lw. wdd "Int"%string. lw.
  wdd "declare-const"%string. lw. wdd "x"%string. lw. wdd "Int"%string. lw. wdd "declare-const"%string. lw. wdd "p"%string. lw. wdd "Bool"%string. lw.
  wdd "assert"%string. lw. wdd "=>"%string. lw. wdd "p"%string. lw. wdd "or"%string. lw. wdd "<"%string. lw. wdd "f"%string. lw.
  wdd "x"%string. lw. wdd "x"%string. lw. wdd "and"%string. lw. wdd "not"%string. lw. wdd "="%string. lw. wdd "x"%string. lw. wd "0"%string. lw. wdd "p"%string. lw.
  wdd "assert"%string. lw. wdd "p"%string. lw.
Qed.
(** the conversion names atoms and subformulas *)
Example C67_ex_run : exists u S', (match parseStr B tx67 (parser0 RT_UNKNOWN) with Ok q => toCNF c0 (fun l => l) (g_as (q_g q)) S00 | _ => Exit end) = Ok (u, S') /\
  (2 <= length (cs_atoms S'))%nat.
Proof. eexists _, _. split; [vm_compute; reflexivity|]. cbn. lia. Qed.
