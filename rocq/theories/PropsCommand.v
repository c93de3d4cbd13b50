(** C36, C37, C44, C46 (and C47, C48 for scripts): commands, the context, options, checkSat.
    CommandSpec.v gives the commands and their spelling ([render_script]), what each does to
    declarations and context ([step], [steps]) and the histories of a parser object ([reach]). *)
From Verif Require Import Base LexSpec LexProofs KindModel SortModel TermModel UtilModel SimpModel OpModel LexModel
  ParseModel ParseSpec ParseProofs ParseProofs2 ParseTerm ParseLits ApplyModel CommandModel CommandSpec CommandProofs CommandProofs2
  CommandTerm CommandMore PropsParse OpExamples.
From Coq Require Import Permutation.
Open Scope Z_scope.

Definition B : pcfg := xk true.
Definition on {A} (f : parser -> A) (r : res parser) : option A := match r with Ok q => Some (f q) | _ => None end.
Definition run (s : string) : res parser := parseStr B (L s) (parser0 RT_UNKNOWN).
Definition bv_ (n : string) : term := T NT_VAR boolS (L n) [].
Definition nt (t : term) : term := nodeN NT_NOT "not" [t].

(** ** C36: scripts *)
(** Any text of a script, given to a parser in any state between two commands: it
    returns, and the context and the declarations are those of the commands, in order. *)
Theorem C36_script_partial : forall b l p g p' g' t q, t <> [] -> holds_decls p (q_p q) -> q_g q = g ->
  lexes plain_word t (render_script l) -> steps b (q_file q) p g l p' g' ->
  exists q', parseStr b t q = Ok q' /\ q_g q' = g' /\ holds_decls p' (q_p q') /\ q_file q' = q_file q /\ q_res q' = q_res q.
Proof. exact parseStr_ok. Qed.
Print Assumptions C36_script_partial.
Theorem C36_file_partial : forall b l p g p' g' t q, holds_decls p (q_p q) -> q_g q = g ->
  lexes plain_word t (render_script l) -> steps b true p g l p' g' ->
  exists q', parseFile b t q = Ok q' /\ q_g q' = g' /\ holds_decls p' (q_p q') /\ q_res q' = q_res q.
Proof. exact parseFile_ok. Qed.
Print Assumptions C36_file_partial.
Theorem C36_new_parser : forall r, holds_decls pst0 (q_p (parser0 r)) /\ q_g (parser0 r) = ctx0.
Proof. intros r. split; [apply new_holds|reflexivity]. Qed.
Print Assumptions C36_new_parser.
(** an assertion list is in the order of the text: the i-th assert command gives the i-th new
    entry, which is what its formula stands for after the commands before it; nothing else is added *)
Theorem C36_order : forall b file l1 c l2 e p g p' g', steps b file p g (l1 ++ c :: l2) p' g' -> asserted c = [e] ->
  exists p1 g1 t n, steps b file p g l1 p1 g1 /\ means (xo b file (g_opt g1)) p1 e t n /\
    nth_error (g_as g') (length (g_as g) + length (flat_map asserted l1)) = Some t.
Proof. exact order_as. Qed.
Print Assumptions C36_order.
Theorem C36_only_asserts : forall b file p g l p' g', steps b file p g l p' g' ->
  exists ts, g_as g' = g_as g ++ ts /\ length ts = length (flat_map asserted l).
Proof. exact steps_as. Qed.
Print Assumptions C36_only_asserts.
(** two texts given one after the other are one script *)
Theorem C36_two_texts_partial : forall b l1 l2 t1 t2 p g p2 g2 q, t1 <> [] -> t2 <> [] -> holds_decls p (q_p q) -> q_g q = g ->
  lexes plain_word t1 (render_script l1) -> lexes plain_word t2 (render_script l2) ->
  steps b (q_file q) p g (l1 ++ l2) p2 g2 ->
  exists q1 q2, parseStr b t1 q = Ok q1 /\ parseStr b t2 q1 = Ok q2 /\ q_g q2 = g2 /\ holds_decls p2 (q_p q2).
Proof.
  intros b l1 l2 t1 t2 p g p2 g2 q N1 N2 Hp Hg X1 X2 S. apply steps_app in S. destruct S as (p1 & g1 & S1 & S2).
  eapply decls_trans_str; eassumption.
Qed.
Print Assumptions C36_two_texts_partial.
(** what follows (exit) is not read *)
Theorem C36_exit_partial : forall b l p g p' g' t q ks, t <> [] -> holds_decls p (q_p q) -> q_g q = g ->
  lexes plain_word t (render_script l ++ TL :: word "exit" :: TR :: ks) -> steps b (q_file q) p g l p' g' ->
  exists q', parseStr b t q = Ok q' /\ q_g q' = g' /\ holds_decls p' (q_p q').
Proof. exact parseStr_exit. Qed.
Print Assumptions C36_exit_partial.

(** a script that meets the hypotheses *)
Lemma lex_word1 c w t ks : ~ realC c -> Forall (fun c => ~ delimC c) (c :: w) ->
  starts (fun c => wsC c \/ c = "("%char \/ c = ")"%char) t -> lexes plain_word t ks -> lexes plain_word ((c :: w) ++ t) (TWord (c :: w) :: ks).
Proof.
  intros H1 H2 H4 H5. apply lx_word; [discriminate|exact H2| | |exact H5].
  - destruct t as [|d t]; [exact Logic.I|]. cbn [starts] in *. unfold delimC. cbn [In]. intuition auto.
  - split; [exact H4|]. intros m e r E He. destruct m as [|d m]; [now left|]. right. exists c. inversion E; subst. split; [now left|exact H1].
Qed.
Ltac wdd w := match eval cbv in (L w) with ?c :: ?r => apply (lex_word1 c r) end;
  [unfold realC; let H := fresh in intros [H|H]; [revert H; unfold code; cbn; lia|revert H; cbn; intuition discriminate]
  | repeat constructor; unfold delimC, wsC; cbn; intuition discriminate
  | cbn; unfold wsC; cbn; tauto|].
Definition s36 : list cmd :=
  [CDeclareConst (word "a") (SoName (word "Bool")); CDeclareConst (word "x") (SoName (word "Int"));
   CAssert (SApp (word "and") [A "a"; SApp (word "<=") [A "x"; A "3"]]); CIgnored "push" [word "1"];
   CAssertId (word "g") (A "a")].
Definition tx36 : str := L "(declare-const a Bool)(declare-const x Int) (assert (and a (<= x 3)))(push 1)(assert :id g a)".
Definition f36 : term := nodeN NT_AND "and" [bv_ "a"; nodeN NT_LE "<=" [T NT_VAR intS (L "x") []; mkConstInt 3]].
Example C36_ex_text : lexes plain_word tx36 (render_script s36).
Proof.
  cbn. lw. wdd "declare-const"%string. lw. wdd "a"%string. lw. wdd "Bool"%string. lw. wdd "declare-const"%string. lw. wdd "x"%string.
  lw. wdd "Int"%string. lw. wdd "assert"%string. lw. wdd "and"%string. lw. wdd "a"%string. lw. wdd "<="%string. lw. wdd "x"%string. lw.
  wd "3"%string. lw. wdd "push"%string. lw. wd "1"%string. lw. wdd "assert"%string. lw. wdd ":id"%string. lw. wdd "g"%string. lw. wdd "a"%string. lw.
Qed.
Example C36_ex : exists p' g', steps B false pst0 ctx0 s36 p' g' /\ g_as g' = [f36; bv_ "a"] /\ g_groups g' = [(L "g", [1%nat])].
Proof.
  eexists _, _. split.
  - eapply st_cons; [apply s_const with (s := boolS); [apply tok_word|now apply ds_basic|reflexivity]|].
    eapply st_cons; [apply s_const with (s := intS); [apply tok_word|now apply ds_basic|reflexivity]|].
    eapply st_cons.
    { apply s_assert with (t := f36) (c := 0); [discriminate|]. split; [|reflexivity].
      apply (d_op _ _ false 0 [] (word "and") _ [bv_ "a"; nodeN NT_LE "<=" [T NT_VAR intS (L "x") []; mkConstInt 3]] 0);
        [apply tok_word|reflexivity|left; reflexivity| |vm_compute; reflexivity|reflexivity].
      eapply ds_cons; [dvar|]. eapply ds_cons; [|apply ds_nil].
      apply (d_op _ _ false 0 [] (word "<=") [A "x"; A "3"] [T NT_VAR intS (L "x") []; mkConstInt 3] 0);
        [apply tok_word|reflexivity|left; reflexivity| |vm_compute; reflexivity|reflexivity].
      dargs. apply (C33_numeral _ 3). lia. }
    eapply st_cons; [apply s_ignored; [cbn; tauto|apply bal_tok; [discriminate|discriminate|apply bal_nil]]|].
    eapply st_cons; [apply s_id with (t := bv_ "a") (c := 0); [apply tok_word|]; split; [dvar|reflexivity]|].
    apply st_nil.
  - split; reflexivity.
Qed.
Example C36_ex_run : on (fun q => g_as (q_g q)) (parseStr B tx36 (parser0 RT_UNKNOWN)) = Some [f36; bv_ "a"].
Proof. vm_compute. reflexivity. Qed.

(** push, pop, reset and reset-assertions are skipped: a popped assertion stays *)
Theorem C36_pop_refuted :
  on (fun q => g_as (q_g q)) (run "(declare-const a Bool)(assert a)(push 1)(assert (not a))(pop 1)") = Some [bv_ "a"; nt (bv_ "a")] /\
  on (fun q => g_as (q_g q)) (run "(declare-const a Bool)(assert a)(reset-assertions)(assert (not a))") = Some [bv_ "a"; nt (bv_ "a")].
Proof. split; vm_compute; reflexivity. Qed.
Print Assumptions C36_pop_refuted.
(** check-sat-assuming ends the program: its closing parenthesis is not consumed *)
Theorem C36_assuming_refuted : run "(declare-const a Bool)(check-sat-assuming (a))" = Exit.
Proof. vm_compute. reflexivity. Qed.
Print Assumptions C36_assuming_refuted.
(** :named behind the formula is lost, although (! a :named n) works *)
Theorem C36_named_refuted : on (fun q => mget (L "n") (p_named (q_p q))) (run "(declare-const a Bool)(assert a :named n)") = Some None /\
  on (fun q => mget (L "n") (p_named (q_p q))) (run "(declare-const a Bool)(assert (! a :named n))") = Some (Some (bv_ "a")).
Proof. split; vm_compute; reflexivity. Qed.
Print Assumptions C36_named_refuted.
(** a definition of an already declared function is dropped and the rest of its text ends the program *)
Theorem C36_define_declared_refuted : run "(declare-fun f (Int) Int)(define-fun f ((x Int)) Int x)" = Exit.
Proof. vm_compute. reflexivity. Qed.
Print Assumptions C36_define_declared_refuted.

(** ** C37: checkSat *)
(** With no earlier verdict: SAT exactly when every assertion is the constant true; UNSAT exactly
    when an assertion is the constant false and all before it are true *)
Theorem C37_sat_partial : forall q, q_res q = RT_UNKNOWN ->
  (fst (checkSat q) = RT_SAT <-> Forall (fun t => isTrue t = true) (g_as (q_g q))).
Proof. exact check_sat_iff. Qed.
Print Assumptions C37_sat_partial.
Theorem C37_unsat_iff_partial : forall q, q_res q = RT_UNKNOWN -> (fst (checkSat q) = RT_UNSAT <->
  exists a t c, g_as (q_g q) = a ++ t :: c /\ isFalse t = true /\ Forall (fun t => isTrue t = true) a).
Proof. exact check_unsat_iff. Qed.
Print Assumptions C37_unsat_iff_partial.
(** every history (texts, files, assertions, checks, in any order): UNSAT only when some
    assertion is the constant false *)
Theorem C37_unsat : forall b r q, r <> RT_UNSAT -> reach b r q -> fst (checkSat q) = RT_UNSAT ->
  exists t, In t (g_as (q_g q)) /\ isFalse t = true.
Proof.
  intros b r q Hr H E. apply check_unsat in E; [|eapply reach_res; eassumption].
  destruct E as (a & t & c & -> & F & _). exists t. split; [apply in_elt|exact F].
Qed.
Print Assumptions C37_unsat.
(** ... so no interpretation satisfies the assertions (Boolean constants have no children, as every
    way of making one guarantees) *)
Theorem C37_unsat_sound : forall b r q, r <> RT_UNSAT -> reach b r q -> fst (checkSat q) = RT_UNSAT ->
  (forall t, In t (g_as (q_g q)) -> isCBool t = true -> t_ch t = []) ->
  forall I e, exists t, In t (g_as (q_g q)) /\ Sem.holds I e t = false.
Proof.
  intros b r q Hr H E Hc I e. destruct (C37_unsat b r q Hr H E) as (t & Ht & F). exists t. split; [exact Ht|].
  specialize (Hc t Ht). unfold isCBool in Hc. rewrite F, orb_true_r in Hc. specialize (Hc eq_refl).
  destruct t as [k s n ch]. cbn [t_ch] in Hc. subst. unfold isFalse, isk in F. cbn in F. destruct k; try discriminate. reflexivity.
Qed.
Print Assumptions C37_unsat_sound.
(** and SAT with no earlier verdict: every interpretation satisfies them *)
Theorem C37_sat_sound_partial : forall q, q_res q = RT_UNKNOWN -> fst (checkSat q) = RT_SAT ->
  (forall t, In t (g_as (q_g q)) -> isCBool t = true -> t_ch t = []) ->
  forall I e, Forall (fun t => Sem.holds I e t = true) (g_as (q_g q)).
Proof.
  intros q Hr E Hc I e. apply check_sat_iff in E; [|exact Hr]. rewrite Forall_forall in *. intros t Ht. specialize (E t Ht).
  specialize (Hc t Ht). unfold isCBool in Hc. rewrite E in Hc. specialize (Hc eq_refl). destruct t as [k s n ch]. cbn [t_ch] in Hc. subst.
  rename E into F.
  unfold isTrue, isk in F. cbn in F. destruct k; try discriminate. reflexivity.
Qed.
Print Assumptions C37_sat_sound_partial.
(** asking changes neither assertions nor declarations *)
Theorem C37_pure : forall q, q_g (snd (checkSat q)) = q_g q /\ q_p (snd (checkSat q)) = q_p q.
Proof. exact check_context. Qed.
Print Assumptions C37_pure.
Example C37_ex : exists q, reach B RT_UNKNOWN q /\ g_as (q_g q) = [TRUE; FALSE; bv_ "a"] /\ fst (checkSat q) = RT_UNSAT.
Proof.
  eexists. split.
  - apply re_anode with (t := bv_ "a"). apply re_anode with (t := FALSE). eapply re_str with (t := L "(assert true)"); [apply re_new|].
    vm_compute. reflexivity.
  - split; vm_compute; reflexivity.
Qed.
Example C37_ex_sat : on (fun q => fst (checkSat q)) (run "(assert true)(assert (or true false))") = Some RT_SAT.
Proof. vm_compute. reflexivity. Qed.
(** a verdict is never forgotten: SAT stays when false is asserted afterwards *)
Theorem C37_stale_refuted : exists q, reach B RT_UNKNOWN q /\ In FALSE (g_as (q_g q)) /\ fst (checkSat q) = RT_SAT.
Proof.
  exists (assertNode FALSE (snd (checkSat (assertNode TRUE (parser0 RT_UNKNOWN))))). split.
  - repeat constructor.
  - split; vm_compute; auto.
Qed.
Print Assumptions C37_stale_refuted.
(** result_type is not initialised: a new parser with false asserted may answer SAT, one without
    assertions UNSAT *)
Theorem C37_uninitialised_refuted : (exists q, reach B RT_SAT q /\ In FALSE (g_as (q_g q)) /\ fst (checkSat q) = RT_SAT) /\
  (exists q, reach B RT_UNSAT q /\ g_as (q_g q) = [] /\ fst (checkSat q) = RT_UNSAT).
Proof.
  split; [exists (assertNode FALSE (parser0 RT_SAT))|exists (parser0 RT_UNSAT)]; (split; [repeat constructor|split; vm_compute; auto]).
Qed.
Print Assumptions C37_uninitialised_refuted.

(** ** C44: options *)
(** every flag: the call succeeds, the flag is on exactly for "true", the other flags and
    settings keep their value *)
Theorem C44_flag : forall f v o, let r := setOption (flag_name f) v o in
  snd r = Ok tt /\ flag_get f (fst r) = seqs v "true" /\ (forall f', f' <> f -> flag_get f' (fst r) = flag_get f' o) /\
  o_prec (fst r) = o_prec o /\ o_logic (fst r) = o_logic o /\ o_checksat (fst r) = o_checksat o /\
  o_getmodel (fst r) = o_getmodel o /\ o_getobj (fst r) = o_getobj o.
Proof. exact set_flag. Qed.
Print Assumptions C44_flag.
(** every sequence of calls, with any keys and values: a flag has the last value given for it, its
    old value if none was; the table holds the last text given for each key *)
Theorem C44_history : forall f l o, flag_get f (set_all l o) =
  match last_value (flag_name f) l with Some v => seqs v "true" | None => flag_get f o end.
Proof. exact set_all_flag. Qed.
Print Assumptions C44_history.
Theorem C44_table : forall k l o, mget k (o_map (set_all l o)) =
  match last_value k l with Some v => Some v | None => mget k (o_map o) end.
Proof. exact set_all_map. Qed.
Print Assumptions C44_table.
Theorem C44_bool : forall f v o, flag_get f (fst (parserSetOption (flag_name f) (OBool v) o)) = v.
Proof. intros f v o. unfold parserSetOption. destruct (set_flag f (optval_str (OBool v)) o) as (_ & E & _). rewrite E. now destruct v. Qed.
Print Assumptions C44_bool.
(** the precision: what was set, everything else unchanged *)
Theorem C44_precision : forall z o, 0 <= z <= 2147483647 -> parserSetOption (L "precision") (OInt z) o =
  (set_prec z (set_map (mset (L "precision") (Idec z) (o_map o)) o), Ok tt).
Proof. exact set_prec_ok. Qed.
Print Assumptions C44_precision.
Example C44_ex : let l := [(flag_name FKeepLet, OBool false); (L "precision", OInt 64); (flag_name FExpand, OString (L "false"))] in
  last_value (flag_name FKeepLet) l = Some (L "false") /\ o_keeplet (set_all l opts0) = false /\ o_prec (set_all l opts0) = 64 /\
  o_xfun (set_all l opts0) = false /\ o_keepdiv (set_all l opts0) = true.
Proof. vm_compute. repeat split. Qed.
(** setOption("keep_let", "false") with a string literal switches the flag ON *)
Theorem C44_literal_refuted : forall f v o, flag_get f (fst (parserSetOption (flag_name f) (OLiteral v) o)) = true.
Proof. intros f v o. unfold parserSetOption. destruct (set_flag f (optval_str (OLiteral v)) o) as (_ & E & _). exact E. Qed.
Print Assumptions C44_literal_refuted.
(** an unknown key is stored and not reported *)
Theorem C44_unknown_refuted : forall v o, setOption (L "no_such_option") v o = (set_map (mset (L "no_such_option") v (o_map o)) o, Ok tt).
Proof. reflexivity. Qed.
Print Assumptions C44_unknown_refuted.
(** a value that is no number: the call throws, the table is changed all the same *)
Theorem C44_bad_precision_refuted : exists o, parserSetOption (L "precision") (OString (L "high")) opts0 = (o, Throw InvalidArgument) /\
  mget (L "precision") (o_map o) = Some (L "high") /\ o_prec o = 128.
Proof. eexists. repeat split; vm_compute; reflexivity. Qed.
Print Assumptions C44_bad_precision_refuted.
(** (set-option ...) in a script has no effect *)
Theorem C44_script_refuted : on (fun q => g_opt (q_g q)) (run "(set-option :keep_let false)") = Some opts0.
Proof. vm_compute. reflexivity. Qed.
Print Assumptions C44_script_refuted.
(** before any set-logic the logic counts as one of integers: the name UNKNOWN_LOGIC contains an I *)
Theorem C44_no_logic_refuted : isIntTheory opts0 = true.
Proof. vm_compute. reflexivity. Qed.
Print Assumptions C44_no_logic_refuted.
(** the logic: accepted exactly when it is one of the list *)
Theorem C44_logic : forall v o, (In v (map L logics) -> setLogic v o = (true, set_logic v o)) /\
  (~ In v (map L logics) -> setLogic v o = (false, set_logic UNKNOWN_LOGIC o)).
Proof.
  intros v o. unfold setLogic. assert (E : in_names v logics = true <-> In v (map L logics)).
  { unfold in_names. rewrite existsb_exists, in_map_iff. split; intros (n & H1 & H2).
    - exists n. split; [symmetry; now apply seqS|exact H1].
    - exists n. split; [exact H2|]. unfold seqs. rewrite <- H1. apply seq_refl. }
  split; intros H; [apply E in H; now rewrite H|]. destruct (in_names v logics); [exfalso; apply H; now apply E|reflexivity].
Qed.
Print Assumptions C44_logic.

(** ** C46: assert-soft and objectives *)
(** Each assert-soft of a script is one entry, in order: its term, its weight (1 when none is
    given), and membership in the group it names and no other. *)
Theorem C46_soft_partial : forall b file l1 pre e post l2 p g p' g',
  groups_in (g_sgroups g) (length (g_soft g)) -> length (g_wt g) = length (g_soft g) ->
  steps b file p g (l1 ++ CAssertSoft pre e post :: l2) p' g' ->
  exists p1 g1 t n w, let i := (length (g_soft g) + length (flat_map softened l1))%nat in
    steps b file p g l1 p1 g1 /\ means (xo b file (g_opt g1)) p1 e t n /\
    weight_of (attr_val AWeight (pre ++ post)) w /\
    nth_error (g_soft g') i = Some t /\ nth_error (g_wt g') i = Some w /\
    forall id, id <> [] -> (In i (members id (g_sgroups g')) <-> id = attr_val AId (pre ++ post)).
Proof. exact order_soft. Qed.
Print Assumptions C46_soft_partial.
(** nothing else adds a soft assertion; a weight for each *)
Theorem C46_once : forall b file p g l p' g', steps b file p g l p' g' ->
  exists ts ws, g_soft g' = g_soft g ++ ts /\ g_wt g' = g_wt g ++ ws /\ length ws = length ts /\ length ts = length (flat_map softened l).
Proof. exact steps_soft. Qed.
Print Assumptions C46_once.
(** each maximize or minimize is one objective, in order, with its term and comparison *)
Theorem C46_objective_partial : forall b file l1 mx pre e post l2 p g p' g',
  steps b file p g (l1 ++ COptimize mx pre e post :: l2) p' g' ->
  exists p1 g1 t n o, steps b file p g l1 p1 g1 /\ means (xo b file (g_opt g1)) p1 e t n /\
    objective_of (o_logic (g_opt g1)) mx t (pre ++ post) o /\
    nth_error (g_obj g') (length (g_obj g) + count_obj l1) = Some o.
Proof. exact order_obj. Qed.
Print Assumptions C46_objective_partial.
Theorem C46_objectives_once : forall b file p g l p' g', steps b file p g l p' g' ->
  exists os, g_obj g' = g_obj g ++ os /\ length os = count_obj l.
Proof. exact steps_obj. Qed.
Print Assumptions C46_objectives_once.
(** the order and the place (before or behind the term) of the attributes do not matter *)
Theorem C46_order_soft : forall b file p g p' g' pre e post pre' post', NoDup (map fst (pre ++ post)) ->
  Permutation (pre ++ post) (pre' ++ post') -> (length pre' <= 2)%nat -> (length post' <= 2)%nat ->
  step b file p g (CAssertSoft pre e post) p' g' -> step b file p g (CAssertSoft pre' e post') p' g'.
Proof. exact soft_reorder. Qed.
Print Assumptions C46_order_soft.
Theorem C46_order_objective : forall b file p g p' g' mx pre e post pre' post', NoDup (map fst (pre ++ post)) ->
  Permutation (pre ++ post) (pre' ++ post') -> (length pre' <= 4)%nat -> (length post' <= 4)%nat ->
  step b file p g (COptimize mx pre e post) p' g' -> step b file p g (COptimize mx pre' e post') p' g'.
Proof. exact obj_reorder. Qed.
Print Assumptions C46_order_objective.
(** the texts themselves: both orders leave the parser with the same context *)
Theorem C46_order_texts_partial : forall b q p p' g' pre e post pre' post' t t', NoDup (map fst (pre ++ post)) ->
  Permutation (pre ++ post) (pre' ++ post') -> (length pre' <= 2)%nat -> (length post' <= 2)%nat ->
  step b (q_file q) p (q_g q) (CAssertSoft pre e post) p' g' -> holds_decls p (q_p q) ->
  lexes plain_word t (render_script [CAssertSoft pre e post]) -> lexes plain_word t' (render_script [CAssertSoft pre' e post']) ->
  t <> [] -> t' <> [] ->
  exists q1 q2, parseStr b t q = Ok q1 /\ parseStr b t' q = Ok q2 /\ q_g q1 = g' /\ q_g q2 = g'.
Proof.
  intros b q p p' g' pre e post pre' post' t t' Hn Hp L1 L2 S Hd X1 X2 N1 N2.
  pose proof (soft_reorder _ _ _ _ _ _ _ _ _ _ _ Hn Hp L1 L2 S) as S'.
  destruct (parseStr_ok b _ p (q_g q) p' g' t q N1 Hd eq_refl X1 (st_cons _ _ _ _ _ _ _ _ _ _ S (st_nil _ _ _ _))) as (q1 & E1 & G1 & _).
  destruct (parseStr_ok b _ p (q_g q) p' g' t' q N2 Hd eq_refl X2 (st_cons _ _ _ _ _ _ _ _ _ _ S' (st_nil _ _ _ _))) as (q2 & E2 & G2 & _).
  eauto 10.
Qed.
Print Assumptions C46_order_texts_partial.
Definition s46 : list cmd := [CDeclareConst (word "a") (SoName (word "Bool")); CAssertSoft [(AId, word "g")] (A "a") [(AWeight, word "2")];
  CAssertSoft [] (A "a") []].
Example C46_ex : exists p' g', steps B false pst0 ctx0 s46 p' g' /\ g_soft g' = [bv_ "a"; bv_ "a"] /\
  g_wt g' = [mkConstInt 2; mkConstInt 1] /\ members (L "g") (g_sgroups g') = [0%nat] /\
  on q_g (run "(declare-const a Bool)(assert-soft :id g a :weight 2)(assert-soft a)") = Some g'.
Proof.
  eexists _, _. split.
  - eapply st_cons; [apply s_const with (s := boolS); [apply tok_word|now apply ds_basic|reflexivity]|].
    eapply st_cons.
    { apply s_soft with (t := bv_ "a") (c := 0) (w := mkConstInt 2);
        [split; [cbn; lia|repeat constructor; try discriminate; cbn; tauto]|split; [cbn; lia|repeat constructor; try discriminate; cbn; tauto]
        |discriminate| |apply (w_num 2); lia].
      split; [dvar|reflexivity]. }
    eapply st_cons.
    { apply s_soft with (t := bv_ "a") (c := 0) (w := mkConstInt 1); [split; [cbn; lia|constructor]|split; [cbn; lia|constructor]|discriminate| |apply w_none].
      split; [dvar|reflexivity]. }
    apply st_nil.
  - repeat split; vm_compute; reflexivity.
Qed.
Definition s46o : list cmd := [CDeclareConst (word "x") (SoName (word "Int")); COptimize true [] (A "x") [(AId, word "k")]].
Example C46_ex_objective : exists p' g', steps B false pst0 ctx0 s46o p' g' /\
  g_obj g' = [Group O_MAX (L "k") [Some (Single O_MAX (T NT_VAR intS (L "x") []) C_GT NULLT NULLT (L "k"))]].
Proof.
  eexists _, _. split.
  - eapply st_cons; [apply s_const with (s := intS); [apply tok_word|now apply ds_basic|reflexivity]|].
    eapply st_cons; [|apply st_nil].
    apply s_opt with (t := T NT_VAR intS (L "x") []) (c := 0);
      [split; [cbn; lia|constructor]|split; [cbn; lia|repeat constructor; try discriminate; cbn; tauto]|discriminate|split; [dvar|reflexivity]|].
    apply ob_single with (c := C_GT). apply co_default. vm_compute. reflexivity.
  - reflexivity.
Qed.
(** the comparison operators: negated, flipped and strict forms, of the value the node built for
    the operator has; all numbers *)
Definition comp_rel (c : comp) (a b : Z) : bool :=
  match c with
  | C_LT | C_BVULT | C_BVSLT | C_FPLT => a <? b | C_LE | C_BVULE | C_BVSLE | C_FPLE => a <=? b
  | C_GT | C_BVUGT | C_BVSGT | C_FPGT => b <? a | C_GE | C_BVUGE | C_BVSGE | C_FPGE => b <=? a
  end.
Theorem C46_operators : forall c a b, comp_rel (negComp c) a b = negb (comp_rel c a b) /\ comp_rel (flipOp c) b a = comp_rel c a b /\
  comp_rel (strictOp c) a b = comp_rel c a b && negb (a =? b).
Proof.
  intros c a b. destruct c; cbn [comp_rel negComp flipOp strictOp]; repeat split;
    repeat match goal with |- context [?u <? ?v] => destruct (Z.ltb_spec u v) | |- context [?u <=? ?v] => destruct (Z.leb_spec u v)
      | |- context [?u =? ?v] => destruct (Z.eqb_spec u v) end; cbn; try reflexivity; lia.
Qed.
Print Assumptions C46_operators.
(** the values of :epsilon and :M are not kept; an unknown :comp is taken for < *)
Theorem C46_attributes_refuted :
  on (fun q => g_obj (q_g q)) (run "(declare-const x Int)(minimize x :epsilon 3)") =
  on (fun q => g_obj (q_g q)) (run "(declare-const x Int)(minimize x :epsilon 500)") /\
  on (fun q => g_obj (q_g q)) (run "(declare-const x Int)(maximize x :comp no_such_comparison)") =
  on (fun q => g_obj (q_g q)) (run "(declare-const x Int)(maximize x :comp <)").
Proof. split; vm_compute; reflexivity. Qed.
Print Assumptions C46_attributes_refuted.
(** lex-optimize loses an :id behind its list, and enters a null objective for an unknown name;
    (optimize ...) records nothing *)
Definition group_ids (l : list objective) : list str := map (fun o => match o with Group _ i _ => i | Single _ _ _ _ _ i => i end) l.
Theorem C46_multi_refuted :
  on (fun q => group_ids (g_obj (q_g q))) (run "(declare-const x Int)(define-objective o (minimize x))(lex-optimize (o) :id k)") = Some [[]; []] /\
  on (fun q => group_ids (g_obj (q_g q))) (run "(declare-const x Int)(define-objective o (minimize x))(lex-optimize :id k (o))") = Some [[]; L "k"] /\
  on (fun q => g_obj (q_g q)) (run "(lex-optimize (nowhere))") = Some [Group O_LEX [] [None]] /\
  on (fun q => g_obj (q_g q)) (run "(declare-const x Int)(define-objective o (minimize x))(optimize (o))") =
  on (fun q => g_obj (q_g q)) (run "(declare-const x Int)(define-objective o (minimize x))").
Proof. repeat split; vm_compute; reflexivity. Qed.
Print Assumptions C46_multi_refuted.

(** ** C47 in scripts *)
(** a second declaration with another sort is silently the first *)
Theorem C47_redeclare_refuted : on (fun q => mget (L "x") (p_var (q_p q))) (run "(declare-const x Int)(declare-const x Bool)") =
  Some (Some (T NT_VAR intS (L "x") [])).
Proof. vm_compute. reflexivity. Qed.
Print Assumptions C47_redeclare_refuted.
(** a user sort named BV_8 is taken for (_ BitVec 8) *)
Theorem C47_sort_name_refuted : on (fun q => mget (L "x") (p_var (q_p q))) (run "(define-sort BV_8 () Bool)(declare-const x (_ BitVec 8))") =
  Some (Some (T NT_VAR boolS (L "x") [])).
Proof. vm_compute. reflexivity. Qed.
Print Assumptions C47_sort_name_refuted.
(** a parameter is hidden by a defined function of the same name: (g false) should be false *)
Theorem C47_parameter_refuted : on (fun q => map t_kind (g_as (q_g q))) (run "(define-fun y () Bool true)(define-fun g ((y Bool)) Bool y)(assert (g false))") =
  Some [NT_FUNC_DEF].
Proof. vm_compute. reflexivity. Qed.
Print Assumptions C47_parameter_refuted.

(** ** C48 for scripts *)
(** A script does not run forever: the only ways not to return are a term constructor or
    a function application that does not. *)
Theorem C48_script_terminates_partial : forall b t q, parseStr b t q = NoFuel -> exists o, stuck (xo b (q_file q) o).
Proof.
  intros b t q. unfold parseStr. destruct t as [|c t]; [discriminate|].
  destruct (pscript _ _ _ _ _) eqn:E; cbn [bind]; try discriminate. intros _.
  eapply script_ends; [|exact E]. unfold ln. cbn [sl]. pose proof (scan_len (c :: t)). lia.
Qed.
Print Assumptions C48_script_terminates_partial.
(** the empty text dereferences a null pointer *)
Theorem C48_empty_refuted : forall b q, parseStr b [] q = UB.
Proof. reflexivity. Qed.
Print Assumptions C48_empty_refuted.
