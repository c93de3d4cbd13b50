(** C91: what the accessors of recorded objectives answer. *)
From Verif Require Import Base LexSpec LexProofs KindModel SortModel TermModel UtilModel SimpModel OpModel LexModel
  ParseModel ParseSpec ParseProofs ParseProofs2 ParseTerm ParseLits ApplyModel CommandModel CommandSpec CommandProofs CommandProofs2
  CommandTerm CommandMore PropsParse OpExamples PropsCommand ObjModel.
Open Scope Z_scope.

(** maximize and minimize: the objective number [i] of a correct script answers with the kind,
    identifier and term of the command, the comparison it names, and its epsilon and M are there
    exactly when the command gives them *)
Theorem C91_single_partial : forall b file l1 mx pre e post l2 p g p' g',
  steps b file p g (l1 ++ COptimize mx pre e post :: l2) p' g' ->
  exists p1 g1 t n o c, steps b file p g l1 p1 g1 /\ means (xo b file (g_opt g1)) p1 e t n /\
    nth_error (g_obj g') (length (g_obj g) + count_obj l1) = Some o /\
    isMaximize (ob_kind o) = mx /\ isMinimize (ob_kind o) = negb mx /\ isSingleObjective (ob_kind o) = true /\
    ob_id o = attr_val AId (pre ++ post) /\ getObjectiveSize o = 1 /\
    getObjectiveTerm o = Ok t /\ getCompareOperator o = Ok (Some c) /\
    (attr_val AComp (pre ++ post) <> [] -> c = getComp (attr_val AComp (pre ++ post))) /\
    (exists eps m, getEpsilon o = Ok eps /\ getM o = Ok m /\
       (eps = NULLT <-> attr_val AEps (pre ++ post) = []) /\ (m = NULLT <-> attr_val AM (pre ++ post) = [])).
Proof.
  intros b file l1 mx pre e post l2 p g p' g' H. destruct (order_obj _ _ _ _ _ _ _ _ _ _ _ _ H) as (p1 & g1 & t & n & o & H1 & M & O & N).
  inversion O as [c C E]; subst o. exists p1, g1, t, n. eexists. exists c. split; [exact H1|]. split; [exact M|]. split; [exact N|].
  clear N O. split; [now destruct mx|]. split; [now destruct mx|]. split; [now destruct mx|]. split; [reflexivity|]. split; [reflexivity|].
  split; [now destruct mx|]. split; [now destruct mx|]. split.
  - intros V. inversion C; [congruence|reflexivity].
  - eexists _, _. split; [destruct mx; reflexivity|]. split; [destruct mx; reflexivity|].
    split; [destruct (attr_val AEps (pre ++ post))|destruct (attr_val AM (pre ++ post))]; split; try reflexivity; discriminate.
Qed.
Print Assumptions C91_single_partial.

(** the objective a name stands for was defined by an earlier define-objective of that name, and
    answers with the term of that command *)
Lemma omap_step b file p g c p' g' n o : step b file p g c p' g' -> mget n (g_omap g') = Some (Some o) ->
  mget n (g_omap g) = Some (Some o) \/
  exists k mx pre e post t ct, c = CDefineObj k mx pre e post /\ raw k = n /\ means (xo b file (g_opt g)) p e t ct /\
    objective_of (o_logic (g_opt g)) mx t (pre ++ post) o.
Proof.
  intros H. destruct H; try (cbn; tauto).
  cbn [g_omap set_omap set_obj]. rewrite mget_cons. destruct (seq_str (raw n0) n) eqn:E; [|tauto].
  intros Q. injection Q as ->. right. apply seqS in E. eauto 12.
Qed.
Lemma omap_steps b file p g l p' g' n o : steps b file p g l p' g' -> mget n (g_omap g') = Some (Some o) ->
  mget n (g_omap g) = Some (Some o) \/
  exists la k mx pre e post lb p1 g1 t ct, l = la ++ CDefineObj k mx pre e post :: lb /\ raw k = n /\
    steps b file p g la p1 g1 /\ means (xo b file (g_opt g1)) p1 e t ct /\ objective_of (o_logic (g_opt g1)) mx t (pre ++ post) o.
Proof.
  intros H. induction H as [p g|p g c p1 g1 l p2 g2 H1 H2 IH]; intros M; [now left|].
  destruct (IH M) as [M1|(la & k & mx & pre & e & post & lb & pa & ga & t & ct & -> & R & S1 & Me & O)].
  - destruct (omap_step _ _ _ _ _ _ _ _ _ H1 M1) as [M0|(k & mx & pre & e & post & t & ct & -> & R & Me & O)]; [now left|].
    right. exists [], k, mx, pre, e, post, l, p, g, t, ct. split; [reflexivity|]. split; [exact R|]. split; [constructor|]. now split.
  - right. exists (c :: la), k, mx, pre, e, post, lb, pa, ga, t, ct. split; [reflexivity|]. split; [exact R|].
    split; [eapply st_cons; eassumption|]. now split.
Qed.
Lemma split_steps' b file l1 c l2 p g p' g' : steps b file p g (l1 ++ c :: l2) p' g' ->
  exists p1 g1 p2 g2, steps b file p g l1 p1 g1 /\ step b file p1 g1 c p2 g2 /\ steps b file p2 g2 l2 p' g'.
Proof. apply split_steps. Qed.
(** lex-optimize and the like: kind, identifier and number of members are those of the command,
    member number [i] is the objective of the i-th name, with the direction and the term of
    its definition; it has no term or comparison of its own *)
Theorem C91_multi_partial : forall b file l1 k id ns l2 p g p' g', g_omap g = [] ->
  steps b file p g (l1 ++ CMulti k id ns :: l2) p' g' ->
  exists o, nth_error (g_obj g') (length (g_obj g) + count_obj l1) = Some o /\
    ob_kind o = k /\ isMultiObjective k = true /\ isSingleObjective k = false /\
    ob_id o = match id with Some i => raw i | None => [] end /\
    getObjectiveSize o = zlen ns /\ getObjectiveTerm o = Ok NULLT /\ getCompareOperator o = Ok None /\
    getEpsilon o = Ok NULLT /\ getM o = Ok NULLT /\
    forall i n, nth_error ns i = Some n ->
      exists m la kn mx pre e post lb p1 g1 t ct, getObjective o i = Ok (Some m) /\
        l1 = la ++ CDefineObj kn mx pre e post :: lb /\ raw kn = raw n /\
        steps b file p g la p1 g1 /\ means (xo b file (g_opt g1)) p1 e t ct /\
        isMaximize (ob_kind m) = mx /\ isMinimize (ob_kind m) = negb mx /\ getObjectiveTerm m = Ok t.
Proof.
  intros b file l1 k id ns l2 p g p' g' G H. destruct (split_steps' _ _ _ _ _ _ _ _ _ H) as (p1 & g1 & p2 & g2 & H1 & H2 & H3).
  destruct (steps_obj _ _ _ _ _ _ _ H1) as (t1 & E1 & L1). destruct (steps_obj _ _ _ _ _ _ _ H3) as (t3 & E3 & _).
  inversion H2 as [| | | | | | |k' nm id' ns' os MN TI F| | | | | | | | | | | | |]; subst.
  eexists. split.
  { cbn [g_obj set_obj] in E3. rewrite E3. apply nth_mid. rewrite E1, app_length. lia. }
  split; [reflexivity|]. assert (KM : isMultiObjective k = true /\ isSingleObjective k = false) by (destruct k; try discriminate MN; split; reflexivity).
  destruct KM as [KM KS]. split; [exact KM|]. split; [exact KS|]. split; [reflexivity|].
  assert (LN : length os = length ns) by (clear - F; induction F; cbn; congruence).
  split; [unfold getObjectiveSize, zlen; rewrite map_length; now rewrite LN|].
  split; [cbn; now rewrite KS|]. split; [cbn; now rewrite KS|]. split; [cbn; now rewrite KS|]. split; [cbn; now rewrite KS|].
  intros i n N.
  assert (X : exists m, nth_error os i = Some m /\ mget (raw n) (g_omap g1) = Some (Some m)).
  { clear - F N. revert i N. induction F as [|a m ns os [_ M] F IH]; intros [|i] N; try discriminate N; cbn in N.
    - injection N as ->. exists m. split; [reflexivity|exact M].
    - exact (IH i N). }
  destruct X as (m & Nm & M). destruct (omap_steps _ _ _ _ _ _ _ _ _ H1 M) as [M0|(la & kn & mx & pre & e & post & lb & pa & ga & t & ct & -> & R & S1 & Me & O)].
  { rewrite G in M0. discriminate M0. }
  exists m, la, kn, mx, pre, e, post, lb, pa, ga, t, ct. split.
  { cbn [getObjective]. rewrite nth_error_map, Nm. reflexivity. }
  split; [reflexivity|]. split; [exact R|]. split; [exact S1|]. split; [exact Me|].
  inversion O; subst m. split; [now destruct mx|]. split; [now destruct mx|]. now destruct mx.
Qed.
Print Assumptions C91_multi_partial.

(** every kind answers exactly one of the nine questions, and exactly one of single and multi *)
Definition kind_questions : list (okind -> bool) :=
  [isMaximize; isMinimize; isMaxSAT; isMinSAT; isLexOptimize; isParetoOptimize; isBoxOptimize; isMinmax; isMaxmin].
Theorem C91_kinds : forall k, (exists q, In q kind_questions /\ q k = true) /\
  (forall i j qi qj, nth_error kind_questions i = Some qi -> nth_error kind_questions j = Some qj -> qi k = true -> qj k = true -> i = j) /\
  isMultiObjective k = negb (isSingleObjective k) /\
  (isSingleObjective k = true <-> In k [O_MIN; O_MAX; O_MAXSAT; O_MINSAT]).
Proof.
  intros k. split; [|split; [|split]].
  - destruct k; [exists isMinimize|exists isMaximize|exists isMaxSAT|exists isMinSAT|exists isLexOptimize|exists isParetoOptimize
      |exists isBoxOptimize|exists isMinmax|exists isMaxmin]; (split; [cbn; tauto|reflexivity]).
  - intros i j qi qj A1 A2 B1 B2.
    assert (X : forall n q, nth_error kind_questions n = Some q -> q k = true -> nth_error (map (fun q => q k) kind_questions) n = Some true).
    { intros n q N Q. rewrite nth_error_map, N. cbn [option_map]. now rewrite Q. }
    apply X in A1; [|exact B1]. apply X in A2; [|exact B2].
    assert (Y : forall l, nth_error (map (fun q : okind -> bool => q k) kind_questions) l = Some true ->
                          l = match k with O_MAX => 0 | O_MIN => 1 | O_MAXSAT => 2 | O_MINSAT => 3 | O_LEX => 4 | O_PARETO => 5 | O_BOX => 6 | O_MINMAX => 7 | O_MAXMIN => 8 end%nat).
    { intros l. destruct k; cbn [map kind_questions isMaximize isMinimize isMaxSAT isMinSAT isLexOptimize isParetoOptimize isBoxOptimize isMinmax isMaxmin];
        do 9 (destruct l as [|l]; [cbn; intros Z0; congruence|]); destruct l; discriminate. }
    rewrite (Y i A1). now rewrite (Y j A2).
  - now destruct k.
  - destruct k; cbn; split; try reflexivity; try discriminate; try tauto; intros H; repeat destruct H as [H|H]; try discriminate H; contradiction.
Qed.
Print Assumptions C91_kinds.
(** getOptKind knows exactly the nine names *)
Definition opt_name (k : okind) : string :=
  match k with O_MIN => "minimize" | O_MAX => "maximize" | O_MAXSAT => "maxsat" | O_MINSAT => "minsat" | O_LEX => "lex" | O_PARETO => "pareto"
  | O_BOX => "box" | O_MINMAX => "minmax" | O_MAXMIN => "maxmin" end.
Theorem C91_optkind : forall s k, getOptKind s = Some k <-> s = L (opt_name k).
Proof.
  intros s k. split.
  - unfold getOptKind. repeat match goal with |- (if seqs s ?n then _ else _) = _ -> _ =>
      destruct (seqs s n) eqn:?Q; [intros J; injection J as <-; apply seqS; assumption|] end. discriminate.
  - intros ->. destruct k; vm_compute; reflexivity.
Qed.
Print Assumptions C91_optkind.
(** getCompareOperatorForObjectiveTerm gives the comparison of the term's sort: its node kind is the strict
    order of that sort, downwards for minimize *)
Theorem C91_comp_for_term : forall dbg t (mx : bool), exists c, compForTerm dbg t (if (mx : bool) then O_MAX else O_MIN) = Ok c /\
  compKind c = (if sis SK_FP t then (if mx then NT_FP_GT else NT_FP_LT) else if sis SK_BV t then (if mx then NT_BV_UGT else NT_BV_ULT)
                else if mx then NT_GT else NT_LT) /\
  (forall a b : Z, comp_rel c a b = if mx then b <? a else a <? b).
Proof.
  intros dbg t mx. unfold compForTerm.
  destruct mx, (sis SK_FP t), (sis SK_BV t), dbg; (eexists; split; [reflexivity|split; reflexivity]).
Qed.
Print Assumptions C91_comp_for_term.
(** getEqNodeKind: the equality of the same theory, kept by negation, flipping and the strict form *)
Theorem C91_equality : forall c, eqKind (negComp c) = eqKind c /\ eqKind (flipOp c) = eqKind c /\ eqKind (strictOp c) = eqKind c /\
  (eqKind c = NT_FP_EQ <-> In (compKind c) [NT_FP_LT; NT_FP_LE; NT_FP_GT; NT_FP_GE]).
Proof.
  intros c. split; [now destruct c|]. split; [now destruct c|]. split; [now destruct c|].
  destruct c; cbn; split; try discriminate; try reflexivity; try tauto; intros H; repeat destruct H as [H|H]; try discriminate H; contradiction.
Qed.
Print Assumptions C91_equality.
(** but the comparison recorded by default is chosen by the name of the logic, not by the term: a
    bit-vector objective in QF_UFBV (or with no logic set) is compared with the < of numbers *)
Definition comps_of (r : res parser) : option (list (res (option comp))) := on (fun q => map getCompareOperator (g_obj (q_g q))) r.
Theorem C91_default_comp_refuted :
  comps_of (run "(set-logic QF_UFBV)(declare-const x (_ BitVec 8))(minimize x)") = Some [Ok (Some C_LT)] /\
  comps_of (run "(declare-const x (_ BitVec 8))(maximize x)") = Some [Ok (Some C_GT)] /\
  comps_of (run "(set-logic QF_BV)(declare-const x (_ BitVec 8))(minimize x)") = Some [Ok (Some C_BVULT)] /\
  compForTerm true (T NT_VAR (bvS 8) (L "x") []) O_MIN = Ok C_BVULT.
Proof. repeat split; vm_compute; reflexivity. Qed.
Print Assumptions C91_default_comp_refuted.
(** where the default is right: the logic names of one theory each *)
Theorem C91_default_comp_partial : forall dbg logic t (mx : bool) c,
  (In logic (map L ["QF_LIA"; "QF_LRA"; "QF_NIA"; "QF_NRA"; "QF_IDL"; "QF_RDL"; "QF_LIRA"; "QF_NIRA"]%string) /\ sis SK_FP t = false /\ sis SK_BV t = false) \/
  (In logic (map L ["QF_BV"; "QF_ABV"; "QF_AUFBV"]%string) /\ sis SK_BV t = true /\ sis SK_FP t = false) \/
  (logic = L "QF_FP" /\ sis SK_FP t = true) ->
  defaultComp dbg logic (if mx then O_MAX else O_MIN) = Ok c -> compForTerm dbg t (if mx then O_MAX else O_MIN) = Ok c.
Proof.
  intros dbg logic t mx c [(I & F & V)|[(I & V & F)|(-> & F)]].
  - unfold compForTerm. rewrite F, V. cbn [map In] in I. repeat (destruct I as [ <- |I]; [destruct mx, dbg; vm_compute; exact (fun x => x)|]). contradiction.
  - unfold compForTerm. rewrite F, V. cbn [map In] in I. repeat (destruct I as [ <- |I]; [destruct mx, dbg; vm_compute; exact (fun x => x)|]). contradiction.
  - unfold compForTerm. rewrite F. destruct mx, dbg; vm_compute; exact (fun x => x).
Qed.
Print Assumptions C91_default_comp_partial.
(** getObjective(0) of a single objective is meant to be the objective itself; it is the first
    objective ever asked *)
Theorem C91_self_refuted : exists o1 o2, o1 <> o2 /\ snd (single_self None o1 0) = Some o1 /\
  fst (single_self (snd (single_self None o1 0)) o2 0) = Some o1.
Proof.
  exists (Single O_MIN (T NT_VAR intS (L "x") []) C_LT NULLT NULLT []), (Single O_MAX (T NT_VAR intS (L "y") []) C_GT NULLT NULLT []).
  split; [discriminate|]. split; reflexivity.
Qed.
Print Assumptions C91_self_refuted.
(** an unknown name in lex-optimize: the member is a null pointer *)
Theorem C91_unknown_member_refuted :
  on (fun q => map (fun o => (getObjectiveSize o, getObjective o 0)) (g_obj (q_g q))) (run "(lex-optimize (nowhere))") = Some [(1, Ok None)].
Proof. vm_compute. reflexivity. Qed.
Print Assumptions C91_unknown_member_refuted.

Definition s91 : list cmd := [CDeclareConst (word "x") (SoName (word "Int")); CDefineObj (word "o") false [] (A "x") []; CMulti O_LEX None [word "o"; word "o"]].
Example C91_ex : exists p' g', steps B false pst0 ctx0 s91 p' g' /\ g_omap ctx0 = [] /\
  map (fun o => (ob_kind o, getObjectiveSize o, getObjectiveTerm o)) (g_obj g') =
    [(O_MIN, 1, Ok (T NT_VAR intS (L "x") [])); (O_LEX, 2, Ok NULLT)].
Proof.
  eexists _, _. split.
  - eapply st_cons; [apply s_const with (s := intS); [apply tok_word|now apply ds_basic|reflexivity]|].
    eapply st_cons.
    { apply s_defobj with (t := T NT_VAR intS (L "x") []) (c := 0);
        [apply tok_word|split; [cbn; lia|constructor]|split; [cbn; lia|constructor]|discriminate|split; [dvar|reflexivity]| |reflexivity].
      apply ob_single with (c := C_LT). apply co_default. vm_compute. reflexivity. }
    eapply st_cons; [|apply st_nil].
    eapply s_multi; [reflexivity|discriminate|].
    constructor; [split; [apply tok_word|reflexivity]|]. constructor; [split; [apply tok_word|reflexivity]|constructor].
  - split; reflexivity.
Qed.
