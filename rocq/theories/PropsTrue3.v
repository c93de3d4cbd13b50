(** C78-C81: complete statements about parts of C31, C36, C37, C44, C46. *)
From Verif Require Import Base LexSpec LexProofs KindModel SortModel TermModel UtilModel SimpModel OpModel LexModel
  ParseModel ParseSpec CommandModel CommandSpec CommandProofs CommandProofs2 CommandMore PropsLex PropsCommand.
From Coq Require Import Permutation.
Open Scope Z_scope.

(** C78: every text, in every mode: reading it ends, without undefined behaviour; what is read are consecutive pieces of
    the text with only white space and comments between them, up to the end or a zero byte.  [read_text] takes
    parentheses and symbols the way the parser does (LexModel.v), [gaps] and [blank_text] are in LexSpec.v. *)
Theorem C78_reading : forall dbg file rescan t,
  read_text dbg file rescan t <> NoFuel /\ read_text dbg file rescan t <> UB /\
  (forall l, read_text dbg file rescan t = Ok l -> gaps t l) /\
  (forall s k s', getSymbol dbg file s = Ok (k, s') -> k <> [] /\ exists g, txt s = k ++ g ++ txt s' /\ blank_text g).
Proof.
  intros dbg file rescan t. destruct (C31_terminates dbg file rescan t) as [H1 H2]. split; [exact H1|]. split; [exact H2|].
  split; [intros l; apply C31_tokens_in_order|]. intros s k s'. apply C31_symbol_in_order.
Qed.
Print Assumptions C78_reading.
Example C78_ex : read_text false false true (L "(f a ; b
 |c d|)") = Ok [L "("; L "f"; L "a"; L "|c d|"; L ")"].
Proof. vm_compute. reflexivity. Qed.

(** C79: every history of a parser object ([reach]: texts and files parsed, expressions asserted, checks): an UNSAT verdict
    names an assertion that is the constant false, so no assignment satisfies the assertions; a check changes nothing.
    [r] is what the uninitialised verdict happens to be. *)
Theorem C79_verdict : forall b r q, r <> RT_UNSAT -> reach b r q ->
  (fst (checkSat q) = RT_UNSAT -> exists t, In t (g_as (q_g q)) /\ isFalse t = true) /\
  (fst (checkSat q) = RT_UNSAT -> (forall t, In t (g_as (q_g q)) -> isCBool t = true -> t_ch t = []) ->
   forall I e, exists t, In t (g_as (q_g q)) /\ Sem.holds I e t = false) /\
  q_g (snd (checkSat q)) = q_g q /\ q_p (snd (checkSat q)) = q_p q.
Proof.
  intros b r q Hr Hq. split; [now apply C37_unsat with (b := b) (r := r)|]. split; [now apply C37_unsat_sound with (b := b) (r := r)|apply C37_pure].
Qed.
Print Assumptions C79_verdict.
Example C79_ex : exists q, reach B RT_UNKNOWN q /\ g_as (q_g q) = [TRUE; FALSE; bv_ "a"] /\ fst (checkSat q) = RT_UNSAT.
Proof. exact C37_ex. Qed.

(** C80: the Boolean options: after any sequence of settings each has the last value given to it, the one given at the start
    if there is none; setting one changes no other, nor the logic or the precision *)
Theorem C80_options : forall f o,
  (forall l, flag_get f (set_all l o) = match last_value (flag_name f) l with Some v => seqs v "true" | None => flag_get f o end) /\
  (forall v, flag_get f (fst (parserSetOption (flag_name f) (OBool v) o)) = v) /\
  (forall v f', f' <> f -> flag_get f' (fst (setOption (flag_name f) v o)) = flag_get f' o) /\
  (forall v, o_logic (fst (setOption (flag_name f) v o)) = o_logic o /\ o_prec (fst (setOption (flag_name f) v o)) = o_prec o).
Proof.
  intros f o. split; [intros l; apply C44_history|]. split; [intros v; apply C44_bool|].
  split; intros v; [intros f' Hf|]; pose proof (C44_flag f v o) as H; cbv zeta in H; destruct H as (_ & _ & H1 & H2 & H3 & _); [now apply H1|split; assumption].
Qed.
Print Assumptions C80_options.
Example C80_ex : let l := [(L "keep_let", OBool false); (L "precision", OInt 64); (L "keep_let", OBool true); (L "expand_functions", OBool false)] in
  last_value (L "keep_let") l = Some (L "true").
Proof. vm_compute. reflexivity. Qed.

(** C81: what a script records: one assertion for each assert, in the order of the script and with the meaning the expression
    has at its place; one soft assertion with one weight for each assert-soft; one objective for each maximize, minimize.
    [steps] gives the effect of the commands (CommandSpec.v); C36_script_partial says that parsing has it. *)
Theorem C81_recording : forall b file p g l p' g', steps b file p g l p' g' ->
  (exists ts, g_as g' = g_as g ++ ts /\ length ts = length (flat_map asserted l)) /\
  (forall l1 c l2 e, l = l1 ++ c :: l2 -> asserted c = [e] ->
     exists p1 g1 t n, steps b file p g l1 p1 g1 /\ means (xo b file (g_opt g1)) p1 e t n /\
       nth_error (g_as g') (length (g_as g) + length (flat_map asserted l1)) = Some t) /\
  (exists ts ws, g_soft g' = g_soft g ++ ts /\ g_wt g' = g_wt g ++ ws /\ length ws = length ts /\ length ts = length (flat_map softened l)) /\
  (exists os, g_obj g' = g_obj g ++ os /\ length os = count_obj l).
Proof.
  intros b file p g l p' g' H. split; [now apply C36_only_asserts with (1 := H)|]. split.
  - intros l1 c l2 e -> He. now apply C36_order with (1 := H).
  - split; [now apply C46_once with (1 := H)|now apply C46_objectives_once with (1 := H)].
Qed.
Print Assumptions C81_recording.
Example C81_ex : exists p' g', steps B false pst0 ctx0 s46 p' g' /\ g_soft g' = [bv_ "a"; bv_ "a"].
Proof. destruct C46_ex as (p' & g' & H & E & _). exists p', g'. split; [exact H|exact E]. Qed.
