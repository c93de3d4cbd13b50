(** C61: parseModel.  MTextSpec.v gives the entries of a model, their spelling ([render_model]) and which
    variable gets which value ([declares], [gives], [last_given]). *)
From Verif Require Import Base LexSpec LexProofs KindModel SortModel TermModel UtilModel SimpModel OpModel LexModel
  ParseModel ParseSpec ParseProofs ParseProofs2 ParseTerm ParseLits ApplyModel CommandModel CommandSpec CommandProofs CommandProofs2
  CommandTerm CommandMore TraverseModel TraverseSpec TraverseProofs3 MTextModel MTextSpec MTextProofs PropsParse OpExamples PropsCommand PropsTraverse.
Open Scope Z_scope.

(** Any text of a model whose functions are new: the call returns; every name has the last value given to it,
    every other is unknown; assertions, options and the rest of the context stay, the declarations grow as said *)
Theorem C61_reads_partial : forall b only p g t q kw l p1 fs1 p2 a, holds_decls p (q_p q) -> q_g q = g ->
  (kw = true -> model_header t) -> lexes plain_word t (render_model kw l) ->
  declares p (g_funs g) l p1 fs1 -> gives (xo b false (g_opt g)) only p1 l p2 a ->
  exists m q', parseModel b t only q = Ok (m, q') /\
    (forall n, m_getName n m = Ok (match last_given n a with Some v => v | None => UNKNOWN end)) /\
    (forall n, In n (map fst (m_getPairs m)) <-> exists v, last_given n a = Some v) /\ NoDup (map fst (m_getPairs m)) /\
    q_g q' = set_funs fs1 g /\ hold p2 (q_p q') /\ q_res q' = q_res q /\ q_file q' = q_file q.
Proof.
  intros b only p g t q kw l p1 fs1 p2 a Hp Hg Hh Hl Hd Hgi.
  destruct (agrees_run false (adds a) [] newModel agrees_nil (adds_known a [])) as (m & E & A). cbn [app] in A.
  destruct (parseModel_ok b only p g t q kw l p1 fs1 p2 a m Hp Hg Hh Hl Hd Hgi E) as (q' & E' & R). exists m, q'. split; [exact E'|].
  split; [intros n; rewrite <- last_result; now apply agrees_get|].
  assert (O : map fst (m_getPairs m) = order (adds a)). { rewrite (agrees_pairs _ _ A), map_map. apply map_id. }
  rewrite O. split; [|split; [apply A|exact R]].
  intros n. rewrite (C45_names (adds a) (adds_known a []) n). unfold after. rewrite last_after.
  destruct (last_given n a); split; try congruence; try (intros; discriminate); eauto. intros (v & Q). discriminate.
Qed.
Print Assumptions C61_reads_partial.
(** a model with a value for a function that the script declares ends the program *)
Theorem C61_function_refuted : forall b only p g t q kw l1 n ps ss so u body l2 p1 fs1 f, holds_decls p (q_p q) -> q_g q = g ->
  (kw = true -> model_header t) -> lexes plain_word t (render_model kw (l1 ++ EFun n ps so body :: l2)) ->
  declares p (g_funs g) l1 p1 fs1 -> is_tok n -> ps <> [] -> sorts_of p1 ps ss -> dsort p1 so u -> balanced body ->
  mget (ename n) (p_fun p1) = Some f -> parseModel b t only q = Exit.
Proof. exact parseModel_known. Qed.
Print Assumptions C61_function_refuted.
(** without an outer parenthesis nothing is read *)
Theorem C61_bare_refuted : forall b only t q ks, lexes plain_word t (TL :: word "define-fun" :: ks) -> parseModel b t only q = Ok (newModel, q).
Proof. intros b only t q ks H. eapply parseModel_bare; [exact H|discriminate]. Qed.
Print Assumptions C61_bare_refuted.
Theorem C61_empty_text : forall b only q, parseModel b [] only q = Ok (newModel, q).
Proof. reflexivity. Qed.
Print Assumptions C61_empty_text.
(** newEmptyModel: every declared variable is in the model, without a value *)
Theorem C61_new_empty : forall vars, let m := newEmptyModel vars in
  (forall n, In n (map fst (m_getPairs m)) <-> In n (map t_name vars)) /\ NoDup (map fst (m_getPairs m)) /\
  (forall n, m_getName n m = Ok UNKNOWN) /\ m_isEmpty m = true.
Proof.
  intros vars m. assert (K : names_known (map UAddVar vars) []) by (generalize (@nil update); induction vars as [|v l IH]; intros d; cbn; auto).
  assert (S : forall n z, z = MNone \/ z = MUnset -> fold_left (fun a u => upd1 u n a) (map UAddVar vars) z =
    if mem n (map t_name vars) then MUnset else z).
  { clear. intros n. unfold mem. induction vars as [|v l IH]; intros z Hz; [reflexivity|]. cbn [map fold_left upd1 existsb].
    assert (seq_str n (t_name v) = seq_str (t_name v) n) as ->.
    { destruct (seq_str n (t_name v)) eqn:P, (seq_str (t_name v) n) eqn:R; try reflexivity;
      [apply BVProofs2.seq_str_spec in P; rewrite P, (proj2 (BVProofs2.seq_str_spec _ _) eq_refl) in R; discriminate
      |apply BVProofs2.seq_str_spec in R; rewrite R, (proj2 (BVProofs2.seq_str_spec _ _) eq_refl) in P; discriminate]. }
    destruct (seq_str (t_name v) n); cbn [orb]; [|now apply IH].
    rewrite IH by (right; destruct Hz as [ -> | -> ]; reflexivity). destruct Hz as [ -> | -> ]; now destruct (existsb _ _). }
  destruct (agrees_run false (map UAddVar vars) [] newModel agrees_nil K) as (m' & E & A). cbn [app] in A.
  rewrite newEmpty_run in E. injection E as <-. fold (newEmptyModel vars) in A. fold m in A. clearbody m.
  assert (G : forall n, m_result (after (map UAddVar vars) n) = UNKNOWN).
  { intros n. unfold after. rewrite S by now left. now destruct (mem _ _). }
  assert (O : map fst (m_getPairs m) = order (map UAddVar vars)). { rewrite (agrees_pairs _ _ A), map_map. apply map_id. }
  rewrite O. split; [|split; [apply A|split]].
  - intros n. rewrite (C45_names _ K n). unfold after. rewrite S by now left. unfold mem.
    destruct (existsb (seq_str n) (map t_name vars)) eqn:Q.
    + split; [intros _|intros _; discriminate]. apply existsb_exists in Q. destruct Q as (y & I1 & I2). apply BVProofs2.seq_str_spec in I2. now subst.
    + split; [congruence|]. intros I1. assert (existsb (seq_str n) (map t_name vars) = true); [|congruence].
      apply existsb_exists. exists n. split; [exact I1|]. now apply BVProofs2.seq_str_spec.
  - intros n. rewrite <- (G n). now apply agrees_get.
  - apply (agrees_empty _ _ A). intros n _. now rewrite G.
Qed.
Print Assumptions C61_new_empty.

(** a model for a script with (declare-const x Int): x, a new function and a new variable *)
Definition p61 : pst := add_var (L "x") intS pst0.
Definition q61 : parser := match run "(declare-const x Int)" with Ok q => q | _ => parser0 RT_UNKNOWN end.
Definition l61 : list entry :=
  [EVal (word "x") (SoName (word "Int")) (SApp (word "-") [A "5"]);
   EFun (word "h") [(word "u", SoName (word "Int"))] (SoName (word "Int")) [TL; word "+"; word "u"; word "1"; TR];
   EOther (word "declare-datatypes") [];
   EVal (word "z") (SoName (word "Bool")) (SApp (word "<") [A "x"; A "3"])].
Definition tx61 : str := L "(model (define-fun x () Int (- 5)) (define-fun h ((u Int)) Int (+ u 1))(declare-datatypes) (define-fun z () Bool (< x 3)))".
Definition m61 : list (term * term) := [(T NT_VAR intS (L "x") [], mkConstInt (-5)); (T NT_VAR boolS (ename (word "z")) [], nodeN NT_LT "<" [T NT_VAR intS (L "x") []; mkConstInt 3])].
Example C61_ex_text : model_header tx61 /\ lexes plain_word tx61 (render_model true l61).
Proof.
  split.
  - exists [], [], " "%char, (L "(define-fun x () Int (- 5)) (define-fun h ((u Int)) Int (+ u 1))(declare-datatypes) (define-fun z () Bool (< x 3)))").
    split; [reflexivity|]. split; [constructor|]. split; [constructor|]. left. cbn. tauto.
  - cbn. lw. wdd "model"%string. lw. wdd "define-fun"%string. lw. wdd "x"%string. lw. wdd "Int"%string. lw. wd "-"%string. lw. wd "5"%string. lw.
    wdd "define-fun"%string. lw. wdd "h"%string. lw. wdd "u"%string. lw. wdd "Int"%string. lw. wdd "Int"%string. lw. wd "+"%string. lw. wdd "u"%string. lw. wd "1"%string. lw.
    wdd "declare-datatypes"%string. lw. wdd "define-fun"%string. lw. wdd "z"%string. lw. wdd "Bool"%string. lw. wdd "<"%string. lw. wdd "x"%string. lw. wd "3"%string. lw.
Qed.
Definition x61 : pcfg := xo B false opts0.
Example C61_ex : holds_decls p61 (q_p q61) /\ exists p1 fs1 p2, declares p61 (g_funs (q_g q61)) l61 p1 fs1 /\
  gives (xo B false (g_opt (q_g q61))) false p1 l61 p2 m61 /\ fs1 = [L "h"].
Proof.
  split.
  - destruct (C36_script_partial B [CDeclareConst (word "x") (SoName (word "Int"))] pst0 ctx0 p61 ctx0 (L "(declare-const x Int)") (parser0 RT_UNKNOWN)) as (q' & E & _ & H & _);
      [discriminate|apply C36_new_parser|reflexivity| | |].
    + cbn. lw. wdd "declare-const"%string. lw. wdd "x"%string. lw. wdd "Int"%string. lw.
    + eapply st_cons; [apply s_const with (s := intS); [apply tok_word|now apply ds_basic|reflexivity]|]. apply st_nil.
    + change (run "(declare-const x Int)" = Ok q') in E. unfold q61. rewrite E. exact H.
  - eexists _, _, _. split; [|split].
    + apply (de_val _ _ _ _ _ intS); [apply tok_word|now apply ds_basic| |].
      { cbn. apply (bal_par [word "-"; word "5"] []); [|constructor]. repeat (apply bal_tok; [discriminate|discriminate|]). constructor. }
      eapply (de_fun _ _ _ _ [intS] _ intS); [apply tok_word|discriminate| |now apply ds_basic| |reflexivity| |].
      { constructor; [split; [apply tok_word|now apply ds_basic]|constructor]. }
      { apply (bal_par [word "+"; word "u"; word "1"] []); [|constructor]. repeat (apply bal_tok; [discriminate|discriminate|]). constructor. }
      { constructor; [eexists; split; vm_compute; reflexivity|constructor]. }
      apply de_other; [apply tok_word|discriminate|constructor|].
      apply (de_val _ _ _ _ _ boolS); [apply tok_word|now apply ds_basic| |].
      { cbn. apply (bal_par [word "<"; word "x"; word "3"] []); [|constructor]. repeat (apply bal_tok; [discriminate|discriminate|]). constructor. }
      apply de_nil.
    + eapply (gi_known _ _ _ _ _ intS) with (c := 0); [apply tok_word|now apply ds_basic|reflexivity| |reflexivity|].
      { split; [|reflexivity]. eapply (d_op _ _ false 0 [] (word "-") _ [mkConstInt 5] 0); [apply tok_word|reflexivity|left; reflexivity| |vm_compute; reflexivity|reflexivity].
        dargs. apply (C33_numeral _ 5). lia. }
      eapply (gi_fun _ _ _ _ _ [intS]); [apply tok_word|discriminate| | |].
      { constructor; [split; [apply tok_word|now apply ds_basic]|constructor]. }
      { cbn. apply bal_tok; [discriminate|discriminate|]. apply (bal_par [word "+"; word "u"; word "1"] []); [|constructor]. repeat (apply bal_tok; [discriminate|discriminate|]). constructor. }
      apply gi_other; [apply tok_word|discriminate|constructor|].
      eapply (gi_new _ _ _ _ _ boolS) with (c := 0); [reflexivity|apply tok_word|now apply ds_basic|reflexivity| |reflexivity|].
      { split; [|reflexivity]. eapply (d_op _ _ false 0 [] (word "<") _ [T NT_VAR intS (L "x") []; mkConstInt 3] 0); [apply tok_word|reflexivity|left; reflexivity| |vm_compute; reflexivity|reflexivity].
        dargs. apply (C33_numeral _ 3). lia. }
      apply gi_nil.
    + reflexivity.
Qed.
Definition got (r : res (model * parser)) : option (list (str * term)) := match r with Ok (m, _) => Some (m_getPairs m) | _ => None end.
Example C61_ex_run : got (parseModel B tx61 false q61) = Some (map (fun q => (t_name (fst q), snd q)) m61).
Proof. vm_compute. reflexivity. Qed.
(** |x| is not the declared x: its value is dropped, or goes to another variable *)
Theorem C61_quoted_refuted : let t := L "((define-fun |x| () Int 4))" in
  got (parseModel B t true q61) = Some [] /\ got (parseModel B t false q61) = Some [(L "|x|", mkConstInt 4)].
Proof. split; vm_compute; reflexivity. Qed.
Print Assumptions C61_quoted_refuted.
(** the value of x need not be an integer *)
Theorem C61_sort_refuted : got (parseModel B (L "((define-fun x () Bool true))") true q61) = Some [(L "x", TRUE)] /\ mget (L "x") (p_var (q_p q61)) = Some (T NT_VAR intS (L "x") []).
Proof. split; vm_compute; reflexivity. Qed.
Print Assumptions C61_sort_refuted.
(** C61_function_refuted applies: a script with (declare-fun h (Int) Int) and the model a solver prints for it *)
Example C61_function_ex : (q <- run "(declare-fun h (Int) Int)" ;; parseModel B (L "((define-fun h ((u Int)) Int 0))") true q) = Exit.
Proof. vm_compute. reflexivity. Qed.
