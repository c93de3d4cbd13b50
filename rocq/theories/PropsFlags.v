(** C44: the options after a script. *)
From Verif Require Import Base LexSpec KindModel SortModel TermModel UtilModel SimpModel OpModel LexModel ParseModel
  ParseSpec CommandModel CommandSpec CommandProofs CommandMore PropsParse PropsCommand.
Open Scope Z_scope.

(** whether the script has a command of that name, and the logic it sets last *)
Definition names (w : string) (c : cmd) : bool := match render_cmd c with k :: _ => seqs (raw k) w | [] => false end.
Definition last_logic (l : list cmd) (d : str) : str := fold_left (fun a c => match c with CSetLogic v => raw v | _ => a end) l d.
Definition asks (w : string) (l : list cmd) : bool := existsb (names w) l.
Definition rest_kept (o o' : opts) : Prop :=
  o_map o' = o_map o /\ o_float o' = o_float o /\ o_prec o' = o_prec o /\ o_keepdiv o' = o_keepdiv o /\ o_keeplet o' = o_keeplet o /\
  o_xfun o' = o_xfun o /\ o_xrec o' = o_xrec o.

Lemma step_flags b file p g c p' g' : step b file p g c p' g' ->
  o_checksat (g_opt g') = o_checksat (g_opt g) || names "check-sat" c /\
  o_getmodel (g_opt g') = o_getmodel (g_opt g) || names "get-model" c /\
  o_getobj (g_opt g') = o_getobj (g_opt g) || names "get-objectives" c /\
  o_logic (g_opt g') = last_logic [c] (o_logic (g_opt g)) /\ rest_kept (g_opt g) (g_opt g').
Proof.
  assert (K : forall o : opts, rest_kept o o) by (intros o; repeat split).
  intros H. destruct H; cbn [g_opt set_as set_groups set_soft set_sgroups set_obj set_omap set_funs set_opt] in *;
    try (rewrite ?orb_false_r; change (last_logic [_] ?d) with d; auto; fail).
  all: try (change (names "check-sat" _) with false; change (names "get-model" _) with false; change (names "get-objectives" _) with false; rewrite !orb_false_r; auto; fail).
  all: try (unfold names; cbn [render_cmd render_def]; repeat split; cbn; rewrite ?orb_false_r, ?orb_true_r; reflexivity).
  - destruct mx; cbn; rewrite !orb_false_r; auto.
  - match goal with H : multi_name k = Some _ |- _ => destruct k; cbn in H; try discriminate H end; cbn; rewrite !orb_false_r; auto.
  - match goal with H : In c ignored |- _ => rename H into Hc end. cbn in Hc. repeat (destruct Hc as [<-|Hc]; [cbn; rewrite !orb_false_r; auto|]). contradiction.
Qed.
Lemma rest_trans a b c : rest_kept a b -> rest_kept b c -> rest_kept a c.
Proof. unfold rest_kept. intuition congruence. Qed.
Lemma steps_flags b file p g l p' g' : steps b file p g l p' g' ->
  o_checksat (g_opt g') = o_checksat (g_opt g) || asks "check-sat" l /\
  o_getmodel (g_opt g') = o_getmodel (g_opt g) || asks "get-model" l /\
  o_getobj (g_opt g') = o_getobj (g_opt g) || asks "get-objectives" l /\
  o_logic (g_opt g') = last_logic l (o_logic (g_opt g)) /\ rest_kept (g_opt g) (g_opt g').
Proof.
  induction 1 as [p g|p g c p1 g1 l p2 g2 St _ (I1 & I2 & I3 & I4 & I5)].
  - unfold asks. cbn. rewrite !orb_false_r. repeat split.
  - apply step_flags in St. destruct St as (S1 & S2 & S3 & S4 & S5). unfold asks in *. cbn [existsb]. rewrite I1, I2, I3, I4, S1, S2, S3, S4, !orb_assoc. repeat (split; [reflexivity|]).
    eapply rest_trans; eassumption.
Qed.
(** After a script the library's options say whether a check-sat, get-model or get-objectives command has been
    read, by this text or before, and which logic was set last; no command, set-option included, changes
    another option. *)
Theorem C44_script : forall b l p g p' g' t q, t <> [] -> holds_decls p (q_p q) -> q_g q = g ->
  lexes plain_word t (render_script l) -> steps b (q_file q) p g l p' g' ->
  exists q', parseStr b t q = Ok q' /\ let o := g_opt g in let o' := g_opt (q_g q') in
    o_checksat o' = o_checksat o || asks "check-sat" l /\ o_getmodel o' = o_getmodel o || asks "get-model" l /\
    o_getobj o' = o_getobj o || asks "get-objectives" l /\ o_logic o' = last_logic l (o_logic o) /\ rest_kept o o'.
Proof.
  intros b l p g p' g' t q Ht Hd Hg Lx St. destruct (parseStr_ok b l p g p' g' t q Ht Hd Hg Lx St) as (q' & E & G & _). exists q'. split; [exact E|].
  cbn zeta. rewrite G. now apply (steps_flags b (q_file q) p g l p' g').
Qed.
Print Assumptions C44_script.
Definition bits (o : opts) := (o_checksat o, o_getmodel o, o_getobj o, o_logic o).
(** the hypotheses are met by a script, and what the theorem says of it *)
Example C44_script_case : let l := [CSetLogic (word "QF_LIA"); CCheckSat; CGetModel] in
  steps B false pst0 ctx0 l pst0 (set_opt (set_getmodel (set_checksat (set_logic (L "QF_LIA") opts0))) ctx0) /\
  asks "check-sat" l = true /\ asks "get-objectives" l = false /\
  on (fun q => bits (g_opt (q_g q))) (run "(set-logic QF_LIA)(check-sat)(get-model)") = Some (true, true, false, L "QF_LIA").
Proof.
  cbn zeta. split; [|split; [reflexivity|split; [reflexivity|vm_compute; reflexivity]]].
  eapply st_cons; [apply s_logic; [exact (tok_word "QF_LIA")|vm_compute; tauto]|].
  eapply st_cons; [apply s_checksat|]. eapply st_cons; [apply s_getmodel|]. apply st_nil.
Qed.
