(** C68: erroneous commands and expressions are rejected (the library ends the program with an
    error message: [Exit]).  ErrSpec.v says what an erroneous command ([bad]) and expression ([wrong]) is. *)
From Verif Require Import Base LexSpec LexProofs KindModel SortModel TermModel UtilModel SimpModel OpModel LexModel
  ParseModel ParseSpec ParseProofs ParseProofs2 ParseTerm ParseLits CtorModel CtorSpec ApplyModel CommandModel CommandSpec CommandProofs CommandProofs2
  CommandTerm CommandMore PropsParse OpExamples PropsCommand ErrSpec ErrProofs.
Open Scope Z_scope.

(** any correct commands, then one that starts with an error, then anything *)
Theorem C68_script_rejected_partial : forall b l p g p' g' t q ks, t <> [] -> holds_decls p (q_p q) -> q_g q = g ->
  lexes plain_word t (render_script l ++ TL :: ks) -> steps b (q_file q) p g l p' g' -> bad (xo b (q_file q) (g_opt g')) p' ks -> parseStr b t q = Exit.
Proof. exact parseStr_bad. Qed.
Print Assumptions C68_script_rejected_partial.
Theorem C68_file_rejected_partial : forall b l p g p' g' t q ks, holds_decls p (q_p q) -> q_g q = g ->
  lexes plain_word t (render_script l ++ TL :: ks) -> steps b true p g l p' g' -> bad (xo b true (g_opt g')) p' ks -> parseFile b t q = Exit.
Proof. exact parseFile_bad. Qed.
Print Assumptions C68_file_rejected_partial.
(** expressions given alone: mkExpr, and assert of a text *)
Theorem C68_expression_rejected_partial : forall x p e tx, top_state x p -> wrong x p (p_ctr p) e -> lexes plain_word tx (render e) -> x_file x = false ->
  mkExpr x p tx = Exit.
Proof. exact mkExpr_wrong. Qed.
Print Assumptions C68_expression_rejected_partial.
Theorem C68_assert_rejected_partial : forall b q e tx, top_state (xo b false (g_opt (q_g q))) (q_p q) -> wrong (xo b false (g_opt (q_g q))) (q_p q) (p_ctr (q_p q)) e ->
  lexes plain_word tx (render e) -> assertStr b tx q = Exit.
Proof. intros b q e tx T W X. unfold assertStr. now rewrite (mkExpr_wrong _ _ e tx T W X eq_refl). Qed.
Print Assumptions C68_assert_rejected_partial.

(** (declare-const a Bool)(assert (and a b)) ... : b is not declared *)
Definition l68 : list cmd := [CDeclareConst (word "a") (SoName (word "Bool"))].
Definition e68 : sx := SApp (word "and") [A "a"; A "b"].
Definition p68 : pst := add_var (L "a") boolS pst0.
Lemma a68 x : dens x p68 false 0 [] [A "a"] [bv_ "a"] 0.
Proof. eapply ds_cons; [dvar|apply ds_nil]. Qed.
Lemma bad68 x : wrong x p68 0 e68.
Proof.
  apply (wr_arg x p68 0 (word "and") [A "a"] [bv_ "a"] 0 (A "b") []); [apply tok_word|reflexivity|apply a68|repeat split|].
  apply wr_name. split; [apply tok_word|]. split; [reflexivity|]. split; [vm_compute; intuition discriminate|reflexivity].
Qed.
Example C68_ex : parseStr B (L "(declare-const a Bool)(assert (and a b))") (parser0 RT_UNKNOWN) = Exit.
Proof.
  apply (C68_script_rejected_partial B l68 pst0 ctx0 p68 ctx0 _ _ (word "assert" :: render e68 ++ [TR])).
  - discriminate.
  - apply new_holds.
  - reflexivity.
  - cbn. lw. wdd "declare-const"%string. lw. wdd "a"%string. lw. wdd "Bool"%string. lw. wdd "assert"%string. lw. wdd "and"%string. lw. wdd "a"%string. lw. wdd "b"%string. lw.
  - eapply st_cons; [apply s_const with (s := boolS); [apply tok_word|now apply ds_basic|reflexivity]|apply st_nil].
  - apply bad_assert; [discriminate|apply bad68|discriminate].
Qed.
(** the other errors: an unknown operator, an argument of a foreign sort, and one case of each erroneous command *)
Example C68_ex_op x : wrong x p68 0 (SApp (word "frob") [A "a"]).
Proof.
  eapply wr_op; [|apply a68|repeat split]. split; [apply tok_word|]. split; [reflexivity|]. split; [reflexivity|]. vm_compute. intuition discriminate.
Qed.
Definition y68 : pcfg := with_ops (xk true) (fun l => l).
Example C68_ex_sort : wrong y68 p68 0 (SApp (word "bvnot") [A "a"]).
Proof.
  eapply (wr_sort y68 p68 0 (word "bvnot") "bvnot"); [apply tok_word|reflexivity|reflexivity|discriminate|exists (fun l => l); reflexivity|apply a68|repeat split|].
  exists [TBV 8], (TBV 8). split; [apply R_bv1; [cbn; tauto|unfold fits, maxw; lia]|]. split; [reflexivity|].
  split; [exists 0%nat, (bv_ "a"), (TBV 8); repeat split; discriminate|]. split; [reflexivity|]. split; [repeat constructor|].
  split; [constructor; [discriminate|constructor]|]. split; [discriminate|]. split; [reflexivity|]. discriminate.
Qed.
Definition f68 : term := T NT_FUNC_DEF boolS (L "f") [TRUE].
Example C68_ex_bad x : x_file x = false ->
  bad x p68 [word "frobnicate"; TR] /\ bad x p68 [word "set-logic"; word "FOO"; TR] /\
  bad x (add_fun (L "f") f68 p68) [word "define-fun"; word "f"; TL; TR] /\
  bad x (add_fun (L "f") f68 p68) (word "declare-fun" :: word "f" :: TL :: flat_map render_so [SoName (word "Int")] ++ TR :: render_so (SoName (word "Int")) ++ [TR]) /\
  bad x p68 (word "define-fun" :: word "g" :: TL :: render_params ([(word "x", SoName (word "Int"))] ++ [(word "x", SoName (word "Bool"))]) ++ [TR]) /\
  bad x p68 [word "declare-const"; word "y"; word "Foo"; TR] /\
  bad x p68 (word "maximize" :: render e68 ++ [TR]) /\
  bad x p68 (word "define-const" :: word "c" :: render_so (SoName (word "Bool")) ++ render e68 ++ [TR]) /\
  bad x p68 (word "assert" :: render (A "a")) /\ bad x p68 [word "check-sat"].
Proof.
  intros Hx.
  split; [apply bad_command; [apply tok_word|vm_compute; intuition discriminate|discriminate]|].
  split; [apply bad_logic; [apply tok_word|vm_compute; intuition discriminate|discriminate]|].
  split; [apply (bad_redefine x _ "define-fun" (word "f") f68); [cbn; tauto|apply tok_word|reflexivity|reflexivity|discriminate]|].
  split; [apply (bad_declare x _ (word "f") f68 _ [intS] _ intS); [apply tok_word|reflexivity|discriminate|constructor; [now apply ds_basic|constructor]|now apply ds_basic|discriminate]|].
  split; [apply (bad_param x _ "define-fun" (word "g") _ [intS] _ boolS); [cbn; tauto|apply tok_word|reflexivity| |apply tok_word|now apply ds_basic|now left]|].
  { split; [repeat constructor; intros []|]. constructor; [split; [apply tok_word|now apply ds_basic]|constructor]. }
  split; [apply bad_sort; [apply tok_word| |discriminate]; split; [apply tok_word|repeat split]|].
  split; [apply bad_objective; [cbn; tauto|discriminate|apply bad68|discriminate]|].
  split; [apply (bad_const x _ (word "c") _ boolS); [apply tok_word|now apply ds_basic|reflexivity|apply bad68|discriminate]|].
  split; [apply (bad_end x _ _ (bv_ "a") 0); [exact Hx|discriminate|split; [dvar|reflexivity]]|].
  apply (bad_end_flag x _ "check-sat"); [exact Hx|cbn; tauto].
Qed.
Example C68_ex_runs : map (fun s => match run s with Exit => true | _ => false end)
  ["(frobnicate)"; "(set-logic FOO)"; "(define-fun f () Bool true)(define-fun f () Bool true)"; "(declare-fun f (Int) Int)(declare-fun f (Int) Int)";
   "(define-fun g ((x Int) (x Bool)) Int x)"; "(declare-const y Foo)"; "(maximize zz)"; "(define-const c Bool zz)"; "(assert true"; "(check-sat";
   "(define-fun g ((x Int)) Bool (and x y))"; "(declare-fun f (Int) Int)(define-fun f ((x Int)) Int x)"]%string = repeat true 12.
Proof. vm_compute. reflexivity. Qed.

(** But these texts, all rejected by SMT-LIB, are accepted without a word: surplus arguments of a command; an opening
    parenthesis in place of a name, which becomes part of it, so that the parentheses do not match; a definition of a
    declared function that stops behind the name; a logic set twice; a constant, a sort declared twice, a constant and
    a function of one name *)
Theorem C68_accepted_refuted : map (fun s => match run s with Ok _ => true | _ => false end)
  ["(check-sat foo)"; "(assert true nonsense ( ))"; "(declare-const (x Int)"; "(declare-const )x Int)"; "(declare-fun f (Int) Int)(define-fun f)";
   "(set-logic QF_LIA)(set-logic QF_LRA)"; "(declare-const x Int)(declare-const x Bool)"; "(declare-sort S 0)(declare-sort S 1)"; "(declare-const a Bool)(declare-fun a (Int) Int)";
   "(declare-sort S -1)"]%string = repeat true 10 /\
  on (fun q => p_var (q_p q)) (run "(declare-const (x Int)") = Some [(L "(x", T NT_VAR intS (L "(x") [])].
Proof. split; vm_compute; reflexivity. Qed.
Print Assumptions C68_accepted_refuted.
