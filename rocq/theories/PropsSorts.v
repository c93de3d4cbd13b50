(** Sort expressions, with nested array sorts (C33, C36, C47, C54). *)
From Verif Require Import Base LexSpec LexProofs KindModel SortModel TermModel UtilModel UtilSpec UtilProofs BVModel BVSpec BVProofs2 SimpModel OpModel OpSpec OpProofs LexModel
  ParseModel ParseSpec ParseProofs ParseLits PrintModel PrintSpec PrintProofs PrintProofs2 CommandModel CommandSpec CommandProofs CommandMore PropsParse PropsCommand PropsPrint OpExamples
  DumpModel DumpSpec DumpProofs PropsDump CtorModel CtorSpec.
Open Scope Z_scope.

(** A sort expression is read as the sort it stands for, whatever sorts were read before (the table of
    sorts built so far is consulted by their printed names), and the declarations stay as they are *)
Theorem C47_sort_expression_partial : forall x p t u s ks, holds_decls p (sp s) -> dsort p t u ->
  at_toks (sl s) (render_so t ++ ks) -> ks <> [] ->
  exists s', psort' x s = Ok (u, s') /\ at_toks (sl s') ks /\ holds_decls p (sp s').
Proof.
  intros x p t u s ks (A & B & C & D) H Ha Hk. destruct (sort_at x p t u s ks (conj A (conj B C)) H Ha Hk) as (s' & E & Ha' & (A' & B' & C')).
  exists s'. split; [exact E|]. split; [exact Ha'|]. exact (conj A' (conj B' (conj C' D))).
Qed.
Print Assumptions C47_sort_expression_partial.
(** the printed name of a sort determines it: two array sorts never share an entry of the table *)
Theorem C47_sort_names_partial : forall u u' v v' a b a' b', key_sort u -> key_sort u' -> key_sort v -> key_sort v' ->
  sort_str u = Ok a -> sort_str u' = Ok a' -> sort_str v = Ok b -> sort_str v' = Ok b' ->
  L "ARRAY_" ++ a ++ L "_" ++ b = L "ARRAY_" ++ a' ++ L "_" ++ b' -> u = u' /\ v = v'.
Proof.
  intros u u' v v' a b a' b' Ku Ku' Kv Kv' Ea Ea' Eb Eb' E. apply app_inv_head in E.
  assert (SU : forall s, stops ("_"%char :: s)) by (intros s; cbn; unfold sep; split; [tauto|discriminate]).
  destruct (key_unique u Ku u' a a' _ _ Ku' Ea Ea' (SU _) (SU _) E) as [ <- E2]. split; [reflexivity|]. apply (app_inv_head (L "_")) in E2.
  destruct (key_unique v Kv v' b b' [] [] Kv' Eb Eb' Logic.I Logic.I) as [ <- _]; [now rewrite E2|reflexivity].
Qed.
Print Assumptions C47_sort_names_partial.

(** (Array Int (Array (_ BitVec 8) U)) *)
Definition so90 : so := SoArr (SoName (word "Int")) (SoArr (SoBV (L "8")) (SoName (word "U"))).
Definition U90 : sort := Srt SK_DEC (L "U") 0 [].
Definition A90 : sort := arrayS intS (arrayS (bvS 8) U90).
Definition p90 : pst := set_srt [(L "U", U90)] pst0.
Lemma U90_key : key_sort U90.
Proof. apply ks_dec; [repeat constructor; unfold sep; intuition discriminate|reflexivity]. Qed.
Lemma A90_dsort p : mget (L "U") (p_srt p) = Some U90 -> dsort p so90 A90.
Proof.
  intros M. apply ds_arr; [now apply ds_basic|apply ds_arr; [now apply ds_bv|apply ds_decl; [apply tok_word|reflexivity|exact M]|apply ks_bv; lia|exact U90_key]|apply ks_basic; cbn; tauto|].
  apply ks_arr; [apply ks_bv; lia|exact U90_key].
Qed.
Example C47_ex_sort : dsort p90 so90 A90 /\ holds_decls p90 p90.
Proof.
  split; [now apply A90_dsort|]. unfold holds_decls. split; [now repeat split|]. split; [|split; reflexivity].
  intros x. constructor; try reflexivity; try discriminate; cbn.
Qed.

(** a script with such a variable, and its text *)
(** the operators of the theories as the library builds them *)
Definition B90 : pcfg := with_ops B (fun l => l).
Definition sv90 : term := T NT_VAR A90 (L "m") [].
Definition su90 : term := T NT_VAR U90 (L "u") [].
Definition s90 : list cmd :=
  [CDeclareSort (word "U") (L "0"); CDeclareConst (word "m") so90; CDeclareConst (word "u") (SoName (word "U"));
   CAssert (SApp (word "=") [A "u"; SApp (word "select") [SApp (word "select") [A "m"; A "1"]; A "#x05"]])].
Definition tx90 : str := L "(declare-sort U 0)(declare-const m (Array Int (Array (_ BitVec 8) U)))(declare-const u U)(assert (= u (select (select m 1) #x05)))".
Definition in90 : term := T NT_SELECT (arrayS (bvS 8) U90) (L "select") [sv90; mkConstInt 1].
Definition five : term := T NT_CONST (bvS 8) (lit 8 5) [].
Definition sel90 : term := T NT_SELECT U90 (L "select") [in90; five].
Definition f90 : term := nodeN NT_EQ "=" [su90; sel90].
Ltac rtop' := apply rt_op; [apply not_in_kinds; reflexivity|discriminate|intros ? [= <-]; reflexivity|wok|reflexivity|right; reflexivity| |vm_compute; reflexivity|reflexivity].
Example C36_ex_array_text : lexes plain_word tx90 (render_script s90).
Proof.
  cbn. lw. wdd "declare-sort"%string. lw. wdd "U"%string. lw. wd "0"%string. lw. wdd "declare-const"%string. lw. wdd "m"%string. lw. wdd "Array"%string. lw. wdd "Int"%string. lw.
  wdd "Array"%string. lw. wdd "_"%string. lw. wdd "BitVec"%string. lw. wd "8"%string. lw. wdd "U"%string. lw.
  wdd "declare-const"%string. lw. wdd "u"%string. lw. wdd "U"%string. lw.
  wdd "assert"%string. lw. wdd "="%string. lw. wdd "u"%string. lw. wdd "select"%string. lw. wdd "select"%string. lw. wdd "m"%string. lw. wd "1"%string. lw. wdd "#x05"%string. lw.
Qed.
Example C36_ex_array : exists p' g', steps B90 false pst0 ctx0 s90 p' g' /\ g_as g' = [f90].
Proof.
  eexists _, _. split.
  - eapply st_cons; [apply s_sort with (n := word "U") (z := 0); [apply tok_word|reflexivity|lia|split; reflexivity]|].
    eapply st_cons; [apply s_const with (s := A90); [apply tok_word|now apply A90_dsort|reflexivity]|].
    eapply st_cons; [apply s_const with (s := U90); [apply tok_word|now apply ds_decl|reflexivity]|].
    eapply st_cons.
    { apply s_assert with (t := f90) (c := 0); [discriminate|]. split; [|reflexivity].
      apply (d_op _ _ false 0 [] (word "=") _ [su90; sel90] 0);
        [apply tok_word|reflexivity|left; reflexivity| |vm_compute; reflexivity|reflexivity].
      eapply ds_cons; [dvar|]. eapply ds_cons; [|apply ds_nil].
      apply (d_op _ _ false 0 [] (word "select") _ [in90; five] 0);
        [apply tok_word|reflexivity|right; reflexivity| |vm_compute; reflexivity|reflexivity].
      eapply ds_cons.
      { apply (d_op _ _ false 0 [] (word "select") _ [sv90; mkConstInt 1] 0);
          [apply tok_word|reflexivity|right; reflexivity| |vm_compute; reflexivity|reflexivity].
        dargs. apply (C33_numeral _ 1). lia. }
      eapply ds_cons; [dnum|apply ds_nil].
      eexists. vm_compute. reflexivity. }
    apply st_nil.
  - reflexivity.
Qed.
Example C36_ex_array_run : on (fun q => g_as (q_g q)) (parseStr B90 tx90 (parser0 RT_UNKNOWN)) = Some [f90].
Proof. vm_compute. reflexivity. Qed.
(** writing it out and reading it back *)
Example C54_ex_array : exists q, parseStr B90 (L "(set-logic QF_AX)(declare-sort U 0)(declare-const m (Array Int (Array (_ BitVec 8) U)))(declare-const u U)(assert (= u (select (select m 1) #x05)))") (parser0 RT_UNKNOWN) = Ok q /\
  g_as (q_g q) = [f90] /\ dumpable (xo B90 false (g_opt (q_g q))) q.
Proof.
  eexists. split; [vm_compute; reflexivity|]. split; [reflexivity|]. constructor; cbn [q_p q_g p_srt p_var p_fun p_fv g_as g_funs g_opt o_logic].
  - change (In (L "QF_AX") (map L logics)). apply in_map. unfold logics. cbn [In]. tauto.
  - repeat constructor; cbn [In]; intuition discriminate.
  - intros n s H D. cbn [In] in H. repeat destruct H as [H|H]; try contradiction; injection H as <- <-; try discriminate D. split; [wok|]. split; [reflexivity|]. eexists. split; [reflexivity|]. cbn; lia.
  - repeat constructor; cbn [In map fst]; intuition discriminate.
  - intros n v H. cbn [In] in H. repeat destruct H as [H|H]; try contradiction; injection H as <- <-; (split; [wok|]).
    + exists U90, (SoName (word "U")). split; [reflexivity|]. apply sb_dec; [wordspell|reflexivity|reflexivity].
    + exists A90, (SoArr (SoName (word "Int")) (SoArr (SoBV (Idec 8)) (SoName (word "U")))). split; [reflexivity|].
      apply sb_arr; [intsort|apply sb_arr; [apply sb_bv; lia|apply (sb_dec _ (L "U") 0 (word "U")); [wordspell|reflexivity|reflexivity]|apply ks_bv; lia|exact U90_key]|apply ks_basic; cbn; tauto|apply ks_arr; [apply ks_bv; lia|exact U90_key]].
  - constructor.
  - intros n H. exfalso. apply H. reflexivity.
  - intros l1 n l2 H. destruct l1; discriminate H.
  - reflexivity.
  - constructor; [|constructor]. split; [|intros a E; vm_compute in E; injection E as <-; discriminate].
    rtop. constructor; [rtdecl|constructor; [|constructor]].
    rtop'. constructor; [|constructor; [|constructor]].
    + rtop'. constructor; [rtdecl|constructor; [|constructor]]. apply (C32_integer _ _ _ 1). repeat split; discriminate || reflexivity.
    + apply (C32_bit_vector _ _ _ 8 5); [lia|unfold BVSpec.fits; discriminate|]. repeat split; discriminate || reflexivity.
Qed.

(** constant arrays and floating-point numbers (C33): one expression with all three forms *)
Definition so91 : so := SoArr (SoName (word "Int")) (SoFP (L "2") (L "3")).
Definition A91 : sort := arrayS intS (fpS (L "FP") 2 3).
Definition e91 : sx := SApp (word "store")
  [SConst so91 (SFp (A "#b0") (A "#b01") (A "#b11")); A "1"; SFps (word "-oo") (L "2") (L "3")].
Definition fp91 : term := T NT_CONST (fpS (L "FP") 2 3) (L "(fp_bit_representation)")
  [T NT_CONST (bvS 1) (lit 1 0) []; T NT_CONST (bvS 2) (lit 2 1) []; T NT_CONST (bvS 2) (lit 2 3) []].
Definition t91 : term := T NT_STORE A91 (L "store")
  [T NT_CONST_ARRAY A91 (L "const_array") [fp91]; mkConstInt 1; T NT_NEG_INFINITY (fpS (L "FP") 2 3) (L "(_ -oo 2 3)") []].
Example C33_ex_forms : den B90 pst0 false 0 [] e91 t91 0 /\ scoped pst0 false [] [] e91 = Some [].
Proof.
  split; [|reflexivity]. unfold e91.
  apply (d_op _ _ false 0 [] (word "store") _ [T NT_CONST_ARRAY A91 (L "const_array") [fp91]; mkConstInt 1; T NT_NEG_INFINITY (fpS (L "FP") 2 3) (L "(_ -oo 2 3)") []] 0);
    [apply tok_word|reflexivity|right; reflexivity| |vm_compute; reflexivity|reflexivity].
  eapply ds_cons.
  { apply d_const.
    - apply ds_arr; [now apply ds_basic|apply ds_fp; [cbn; intuition discriminate|reflexivity]|apply ks_basic; cbn; tauto|apply ks_fp; lia].
    - apply (d_fp B90 pst0 false 0 [] (A "#b0") (A "#b01") (A "#b11") (T NT_CONST (bvS 1) (lit 1 0) []) (T NT_CONST (bvS 2) (lit 2 1) []) (T NT_CONST (bvS 2) (lit 2 3) []) 2 2 0); try reflexivity.
      eapply ds_cons; [dnum; apply (C33_binary _ 1 0); [lia|unfold BVSpec.fits; discriminate]|].
      eapply ds_cons; [dnum; apply (C33_binary _ 2 1); [lia|unfold BVSpec.fits; discriminate]|].
      eapply ds_cons; [dnum; apply (C33_binary _ 2 3); [lia|unfold BVSpec.fits; discriminate]|apply ds_nil]. }
  eapply ds_cons; [dnum; apply (C33_numeral _ 1); lia|].
  eapply ds_cons; [|apply ds_nil].
  apply (d_fps B90 pst0 false 0 [] (word "-oo") (L "2") (L "3") 2 3); [apply tok_word|reflexivity|reflexivity|apply fn_ninf].
Qed.
Definition tx91 : string := "(store ((as const (Array Int (_ FloatingPoint 2 3))) (fp #b0 #b01 #b11)) 1 (_ -oo 2 3))".
Example C33_ex_forms_run : exists p', mkExpr B90 pst0 (L tx91) = Ok (t91, p').
Proof. eexists. vm_compute. reflexivity. Qed.
Example C33_ex_forms_lexes : lexes plain_word (L tx91) (render e91).
Proof.
  cbn. lw. wdd "store"%string. lw. wdd "as"%string. lw. wdd "const"%string. lw. wdd "Array"%string. lw. wdd "Int"%string. lw. wdd "_"%string. lw.
  wdd "FloatingPoint"%string. lw. wd "2"%string. lw. wd "3"%string. lw. wdd "fp"%string. lw. wdd "#b0"%string. lw. wdd "#b01"%string. lw. wdd "#b11"%string. lw.
  wd "1"%string. lw. wdd "_"%string. lw. wd "-oo"%string. lw. wd "2"%string. lw. wd "3"%string. lw.
Qed.
