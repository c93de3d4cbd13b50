(** C54: dumpSMT2 writes a script that a new parser reads back; C55: removeFuns. *)
From Verif Require Import Base LexSpec LexProofs KindModel SortModel TermModel UtilModel BVProofs2 SimpModel OpModel LexModel
  ParseModel ParseSpec ParseLits PrintModel PrintSpec PrintProofs PrintProofs2 CommandModel CommandSpec CommandMore PropsParse PropsCommand PropsPrint OpExamples
  DumpModel DumpSpec DumpProofs.
From Coq Require Import Permutation.
Open Scope Z_scope.

(** ** C54 *)
(** For every parser state between two commands whose declarations and assertions have texts that are read
    back, and for every order in which the hash tables are traversed: the text is written, a new parser with the
    same evaluation options reads it without error and ends up with the same assertions in the same
    order, the same variables, functions, declared sorts and logic. *)
Theorem C54_round_trip_partial : forall b r q ss vs o, Permutation ss (p_srt (q_p q)) -> Permutation vs (p_var (q_p q)) ->
  dumpable (xo b false (g_opt (q_g q))) q -> same_flags o (g_opt (q_g q)) ->
  exists t q', dumpSMT2 (c_dbg (x_c b)) ss vs q = Ok t /\ parseStr b t (fresh_parser o r) = Ok q' /\ same_script q q'.
Proof. exact dump_round. Qed.
Print Assumptions C54_round_trip_partial.

(** a state that meets the hypotheses *)
Definition sc54 : string := "(set-logic QF_UFLIA)(declare-sort U 0)(declare-fun u () U)(declare-fun x () Int)(declare-fun g (Int U) Int)(define-fun h ((y Int)) Bool (<= y 5))(assert (<= (g x u) (- 3)))(assert (h x))".
Definition st54 : parser := match run sc54 with Ok q => q | _ => parser0 RT_UNKNOWN end.
Lemma word_ok w : existsb (fun c => existsb (aeq c) (map ascii_of_nat [0;9;10;11;12;13;32] ++ L "()""|;"%string))%nat w = false -> w <> [] -> scib false w = false -> token_text w.
Proof.
  intros A B C. exists (TWord w). apply sp_word; auto; [|now apply scib_no]. apply Forall_forall. intros c Hc D.
  assert (E : existsb (aeq c) (map ascii_of_nat [0;9;10;11;12;13;32]%nat ++ L "()""|;"%string) = true).
  { revert D. unfold delimC, wsC. destruct c as [[] [] [] [] [] [] [] []]; vm_compute; intros D; try reflexivity; exfalso;
      repeat match goal with H : _ \/ _ |- _ => destruct H as [H|H] end; try discriminate; try contradiction. }
  assert (F : existsb (fun c => existsb (aeq c) (map ascii_of_nat [0;9;10;11;12;13;32] ++ L "()""|;"%string))%nat w = true) by (apply existsb_exists; eauto). congruence.
Qed.
Ltac wok := apply word_ok; [reflexivity|discriminate|reflexivity].
Lemma not_in_kinds k : existsb (keq k) no_op_kinds = false -> ~ In k no_op_kinds.
Proof. intros A C. assert (existsb (keq k) no_op_kinds = true) by (apply existsb_exists; exists k; split; [exact C|destruct k; reflexivity]). congruence. Qed.
Ltac rtdecl := apply rt_decl; [cbn; tauto|wok|discriminate|discriminate|reflexivity|reflexivity].
Ltac rtop := apply rt_op; [apply not_in_kinds; reflexivity|discriminate|discriminate|wok|reflexivity|left; reflexivity| |vm_compute; reflexivity|reflexivity].
Ltac intsort := apply (sb_basic _ "Int" intS); cbn [In]; auto.
Example C54_ex : exists q, run sc54 = Ok q /\ length (g_as (q_g q)) = 2%nat /\ dumpable (xo B false (g_opt (q_g q))) q.
Proof.
  eexists. split; [vm_compute; reflexivity|]. split; [reflexivity|]. constructor; cbn [q_p q_g p_srt p_var p_fun p_fv g_as g_funs g_opt o_logic].
  - change (In (L "QF_UFLIA") (map L logics)). apply in_map. unfold logics. cbn [In]. tauto.
  - repeat constructor; cbn [In]; tauto.
  - intros n s [H|[]] D. injection H as <- <-. split; [wok|]. split; [reflexivity|]. eexists. split; [reflexivity|]. cbn; lia.
  - repeat constructor; cbn [In map fst]; intuition discriminate.
  - intros n v H. cbn [In] in H. repeat destruct H as [H|H]; try contradiction; injection H as <- <-; (split; [wok|]); eexists _, _; (split; [reflexivity|]).
    + intsort.
    + apply (sb_dec _ (L "U") 0 (word "U")); [wordspell|reflexivity|reflexivity].
  - repeat constructor; cbn [In]; intuition discriminate.
  - intros n H. cbn [mget] in H. repeat match goal with H : (if seq_str ?a n then _ else _) <> None |- _ => let E := fresh in destruct (seq_str a n) eqn:E; [apply seq_str_spec in E; subst n; cbn [In]; tauto|] end. exfalso. apply H. reflexivity.
  - intros l1 n l2 H. destruct l1 as [|a l1]; [|destruct l1 as [|a' l1]; [|destruct l1; discriminate H]]; cbn [app] in H; injection H; intros; subst.
    + split; [wok|]. eexists. split; [reflexivity|].
      apply (fb_dec _ _ _ intS [intS; Srt SK_DEC (L "U") 0 []] _ (SoName (word "Int"))); [discriminate| | |intsort].
      * constructor; [eexists; intsort|]. constructor; [|constructor]. exists (SoName (word "U")). apply sb_dec; [wordspell|reflexivity|reflexivity].
      * constructor; [eexists; split; reflexivity|]. constructor; [eexists; split; reflexivity|constructor].
    + split; [wok|]. eexists. split; [reflexivity|].
      apply (fb_def _ _ _ boolS [(L "y", intS)] _ (SoName (word "Bool"))).
      * split; [repeat constructor; intros []|]. constructor; [|constructor]. split; [wok|]. eexists. intsort.
      * apply (sb_basic _ "Bool" boolS). cbn [In]. auto.
      * rtop. constructor; [rtdecl|]. constructor; [|constructor]. apply (C32_integer _ _ _ 5). repeat split; discriminate || reflexivity.
  - reflexivity.
  - constructor; [|constructor; [|constructor]]; (split; [|intros a E; vm_compute in E; injection E as <-; discriminate]).
    + rtop. constructor; [|constructor; [|constructor]].
      * eapply rt_fun; [reflexivity|discriminate|wok|reflexivity|reflexivity|reflexivity| |vm_compute; reflexivity].
        constructor; [rtdecl|]. constructor; [rtdecl|constructor].
      * apply (C32_integer _ _ _ (-3)). repeat split; discriminate || reflexivity.
    + rtop. constructor; [rtdecl|constructor; [|constructor]]. apply (C32_integer _ _ _ 5). repeat split; discriminate || reflexivity.
Qed.
(** the text, and the parser it makes *)
Definition dumped (q : parser) : res str := dumpSMT2 false (p_srt (q_p q)) (p_var (q_p q)) q.
Definition redo (s : string) : res (str * res parser) := q <- run s ;; t <- dumped q ;; Ok (t, parseStr B t (parser0 RT_UNKNOWN)).
Example C54_ex_run : exists t q', redo "(set-logic QF_LIA)(declare-fun x () Int)(assert (<= x 3))" = Ok (t, Ok q') /\
  t = L "(set-logic QF_LIA)" ++ nl ++ L "(declare-fun x () Int)" ++ nl ++ L "(assert (<= x 3))" ++ nl ++ L "(check-sat)" ++ nl ++ L "(exit)" ++ nl /\ length (g_as (q_g q')) = 1%nat.
Proof. eexists _, _. split; [vm_compute; reflexivity|]. split; reflexivity. Qed.

(** with no logic set the text cannot be read: (set-logic UNKNOWN_LOGIC) *)
Theorem C54_no_logic_refuted : exists t, redo "(declare-fun x () Int)(assert (<= x 3))" = Ok (t, Exit).
Proof. eexists. vm_compute. reflexivity. Qed.
Print Assumptions C54_no_logic_refuted.
(** soft assertions, objectives and assertion names and groups are not written *)
Definition got {A} (f : parser -> A) (r : res (str * res parser)) : option A := match r with Ok (_, Ok q) => Some (f q) | _ => None end.
Theorem C54_soft_refuted :
  let s := "(set-logic QF_LIA)(declare-fun x () Int)(assert-soft (<= x 3) :id g :weight 2)(maximize x)(assert (! (<= x 4) :named n))"%string in
  on (fun q => (length (g_soft (q_g q)), length (g_obj (q_g q)), length (p_named (q_p q)))) (run s) = Some (1%nat, 1%nat, 1%nat) /\
  got (fun q => (length (g_soft (q_g q)), length (g_obj (q_g q)), length (p_named (q_p q)))) (redo s) = Some (0%nat, 0%nat, 0%nat).
Proof. split; vm_compute; reflexivity. Qed.
Print Assumptions C54_soft_refuted.
(** lets are numbered in the order of the text, and definitions are written before assertions: a let is read back
    as another node *)
Theorem C54_let_refuted : exists t q q', let s := "(set-logic QF_LIA)(declare-fun a () Bool)(assert (let ((y a)) (not y)))(define-fun f () Bool (let ((z a)) (not z)))"%string in
  run s = Ok q /\ redo s = Ok (t, Ok q') /\ g_as (q_g q') <> g_as (q_g q).
Proof. eexists _, _, _. cbv zeta. split; [vm_compute; reflexivity|]. split; [vm_compute; reflexivity|]. vm_compute. discriminate. Qed.
Print Assumptions C54_let_refuted.

(** ** C55: removeFuns *)
(** For every list of names (with repetitions or unknown names) and every function table: the names given are no longer
    functions, all others are as before; the count is the number of functions that went away *)
Lemma mget_del {A} (m : smap A) n k : mget k (mdel n m) = if seq_str n k then None else mget k m.
Proof.
  unfold mdel. induction m as [|[a v] m IH]; [now destruct (seq_str n k)|]. cbn [filter fst mget]. destruct (seq_str a n) eqn:E; cbn [negb].
  - rewrite IH. apply seq_str_spec in E. subst a. destruct (seq_str n k) eqn:Q; reflexivity.
  - cbn [mget]. rewrite IH. destruct (seq_str a k) eqn:Q; [|reflexivity]. apply seq_str_spec in Q. subst a. destruct (seq_str n k) eqn:R; [|reflexivity]. apply seq_str_spec in R. subst. rewrite seq_refl in E. discriminate.
Qed.
Theorem C55_table : forall ns m l, let '(c, m', l') := removeFuns ns m l in
  forall n, mget n m' = if mem n ns then None else mget n m.
Proof.
  induction ns as [|a ns IH]; intros m l; cbn [removeFuns]; [reflexivity|]. destruct (mget a m) as [v|] eqn:E.
  - specialize (IH (mdel a m) (erase1 a l)). destruct (removeFuns ns (mdel a m) (erase1 a l)) as [[c m'] l']. intros n. rewrite IH, mget_del. unfold mem. cbn [existsb].
    destruct (seq_str a n) eqn:Q; [apply seq_str_spec in Q; subst; rewrite seq_refl; cbn [orb]; now destruct (existsb _ ns)|].
    destruct (seq_str n a) eqn:R; [apply seq_str_spec in R; subst; rewrite seq_refl in Q; discriminate|]. reflexivity.
  - specialize (IH m l). destruct (removeFuns ns m l) as [[c m'] l']. intros n. rewrite IH. unfold mem. cbn [existsb].
    destruct (seq_str n a) eqn:R; [|reflexivity]. apply seq_str_spec in R. subst. rewrite E. cbn [orb]. now destruct (existsb _ ns).
Qed.
Print Assumptions C55_table.
(** the tables fit together: no repetition, and the name list is the list of functions *)
Definition consistent (m : smap term) (l : list str) : Prop := NoDup l /\ NoDup (map fst m) /\ forall n, In n l <-> mget n m <> None.
Lemma erase_in a l : NoDup l -> NoDup (erase1 a l) /\ forall n, In n (erase1 a l) <-> In n l /\ n <> a.
Proof.
  induction 1 as [|b l N H (I1 & I2)]; [split; [constructor|cbn; tauto]|]. cbn [erase1]. destruct (seq_str b a) eqn:E.
  - apply seq_str_spec in E. subst b. split; [exact H|]. intros n. cbn [In]. split; [intros G; split; [now right|intros ->; contradiction]|]. intros [[G|G] Q]; [congruence|exact G].
  - assert (b <> a) by (intros ->; rewrite seq_refl in E; discriminate). split.
    + constructor; [|exact I1]. rewrite I2. tauto.
    + intros n. cbn [In]. rewrite I2. split; [intros [ <- | G ]; tauto|]. intros [[G|G] Q]; tauto.
Qed.
Lemma del_len {A} (m : smap A) a v : NoDup (map fst m) -> mget a m = Some v -> length m = S (length (mdel a m)).
Proof.
  unfold mdel. induction m as [|[k w] m IH]; [discriminate|]. cbn [map fst mget filter]. intros N H. inversion N as [|? ? X Y]; subst. destruct (seq_str k a) eqn:E; cbn [negb length].
  - apply seq_str_spec in E. subst k. f_equal. clear -X. induction m as [|[k w] m IH]; [reflexivity|]. cbn [map fst In] in X. cbn [filter fst]. destruct (seq_str k a) eqn:E.
    + apply seq_str_spec in E. subst. exfalso. apply X. now left.
    + cbn [negb length]. f_equal. apply IH. tauto.
  - f_equal. now apply IH.
Qed.
Lemma del_nodup {A} (m : smap A) a : NoDup (map fst m) -> NoDup (map fst (mdel a m)).
Proof.
  unfold mdel. induction m as [|[k w] m IH]; [trivial|]. cbn [map fst filter]. intros N. inversion N; subst. destruct (seq_str k a); cbn [negb]; auto. cbn [map fst]. constructor; auto.
  intros G. apply H1. apply in_map_iff in G as ([k' w'] & <- & G). apply filter_In in G. apply in_map_iff. exists (k', w'). tauto.
Qed.
Theorem C55_count : forall ns m l, consistent m l -> let '(c, m', l') := removeFuns ns m l in
  consistent m' l' /\ c = Z.of_nat (length m) - Z.of_nat (length m').
Proof.
  induction ns as [|a ns IH]; intros m l C; cbn [removeFuns]; [split; [exact C|lia]|]. destruct (mget a m) as [v|] eqn:E.
  - destruct C as (C1 & C2 & C3). destruct (erase_in a l C1) as (E1 & E2).
    specialize (IH (mdel a m) (erase1 a l)). destruct (removeFuns ns (mdel a m) (erase1 a l)) as [[c m'] l'].
    destruct IH as (I1 & I2).
    + split; [exact E1|]. split; [now apply del_nodup|]. intros n. rewrite E2, C3, mget_del. destruct (seq_str a n) eqn:Q.
      * apply seq_str_spec in Q. subst. tauto.
      * split; [tauto|]. intros G. split; [exact G|]. intros ->. rewrite seq_refl in Q. discriminate.
    + split; [exact I1|]. rewrite (del_len m a v C2 E). lia.
  - now apply IH.
Qed.
Print Assumptions C55_count.
(** a name given twice counts once, an unknown one not at all *)
Example C55_ex : let m := [(L "g", FALSE); (L "f", TRUE); (L "h", TRUE)] in
  removeFuns [L "f"; L "q"; L "f"; L "h"] m [L "f"; L "g"; L "h"] = (2, [(L "g", FALSE)], [L "g"]) /\ consistent m [L "h"; L "f"; L "g"].
Proof.
  split; [reflexivity|]. split; [repeat constructor; cbn; intuition discriminate|]. split; [repeat constructor; cbn; intuition discriminate|].
  intros n. cbn [mget In]. destruct (seq_str (L "g") n) eqn:A; [apply seq_str_spec in A; subst; intuition discriminate|].
  destruct (seq_str (L "f") n) eqn:B'; [apply seq_str_spec in B'; subst; intuition discriminate|].
  destruct (seq_str (L "h") n) eqn:C; [apply seq_str_spec in C; subst; intuition discriminate|].
  split; [|tauto]. intros [ <- |[ <- |[ <- | [] ]]]; rewrite seq_refl in *; discriminate.
Qed.
(** an application of a removed function stays in the assertions, and the dumped script no longer reads *)
Theorem C55_dump_refuted : exists q t, run "(set-logic QF_UFLIA)(declare-fun x () Int)(declare-fun g (Int) Int)(assert (<= (g x) 3))" = Ok q /\
  (let '(c, m, l) := removeFuns [L "g"] (p_fun (q_p q)) (g_funs (q_g q)) in
   let q1 := Parser (set_fun m (q_p q)) (set_funs l (q_g q)) (q_res q) (q_file q) in
   c = 1 /\ dumped q1 = Ok t /\ parseStr B t (parser0 RT_UNKNOWN) = Exit).
Proof. eexists _, _. split; [vm_compute; reflexivity|]. cbv iota beta. split; [reflexivity|]. split; [vm_compute; reflexivity|vm_compute; reflexivity]. Qed.
Print Assumptions C55_dump_refuted.
