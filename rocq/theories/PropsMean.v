(** C63, C64: the meaning of expression texts and scripts, end to end.
    MeanSpec.v gives sorting rules ([ty_of], [script]), structures and values ([value_of], [satisfies])
    on the abstract syntax alone, as SMT-LIB defines them; Sem.v gives the meaning of terms. *)
From Coq Require Import QArith Qcanon Permutation.
From Verif Require Import Base LexSpec LexProofs KindModel SortModel TermModel BVSpec Sem SimpModel OpModel OpSpec TypedSpec TypedProofs LexModel
  ParseModel ParseSpec ParseProofs ParseProofs2 ApplyModel CommandModel CommandSpec CommandMore PropsParse PropsCommand OpExamples
  MeanSpec MeanProofs MeanProofs2 MeanBv MeanProofs3 MeanLits MeanProofs4 MeanProofs5.
From Verif Require CtorSpec.
Open Scope Z_scope.

(** ** C63: expressions *)
(** Any text of a well-sorted expression over declared constants and functions, in any
    state between two commands: mkExpr returns a term, of the right sort, whose value is, in
    every structure, the value SMT-LIB gives to the expression; declarations are untouched. *)
Theorem C63_meaning_partial : forall x p G e t tx, mean_cfg G x -> declares G p -> x_file x = false -> top_state x p ->
  ty_of G [] e t -> well_scoped e -> lexes plain_word tx (render e) ->
  exists u p', mkExpr x p tx = Ok (u, p') /\ ty_fits t (t_sort u) /\ isErr u = false /\ same_decls p p' /\ top_state x p' /\
    forall I v M, agrees I v M -> eval I v u = value_of G M [] e.
Proof. exact mean_text. Qed.
Print Assumptions C63_meaning_partial.
(** the two readings range over the same things: every structure is one of the interpretations of
    terms, and every interpretation of terms is a structure *)
Theorem C63_structures : (forall M, exists I v, agrees I v M) /\ (forall I v, exists M, agrees I v M).
Proof.
  split.
  - intros M. exists (interp_of M), (env_of_structure M). apply agrees_interp.
  - intros I v. exists (structure_of I v). apply agrees_structure.
Qed.
Print Assumptions C63_structures.
(** two texts whose expressions have the same value in every structure yield terms with the same
    value everywhere, and conversely *)
Theorem C63_equivalence_partial : forall x p G e1 e2 t1 t2 tx1 tx2, mean_cfg G x -> declares G p -> x_file x = false -> top_state x p ->
  ty_of G [] e1 t1 -> ty_of G [] e2 t2 -> well_scoped e1 -> well_scoped e2 -> lexes plain_word tx1 (render e1) -> lexes plain_word tx2 (render e2) ->
  exists u1 u2 p1 p2, mkExpr x p tx1 = Ok (u1, p1) /\ mkExpr x p tx2 = Ok (u2, p2) /\
    ((forall M, value_of G M [] e1 = value_of G M [] e2) <-> (forall I v, eval I v u1 = eval I v u2)).
Proof.
  intros x p G e1 e2 t1 t2 tx1 tx2 HC HD HF HT T1 T2 S1 S2 L1 L2.
  destruct (mean_text x p G e1 t1 tx1 HC HD HF HT T1 S1 L1) as (u1 & p1 & E1 & _ & _ & _ & _ & V1).
  destruct (mean_text x p G e2 t2 tx2 HC HD HF HT T2 S2 L2) as (u2 & p2 & E2 & _ & _ & _ & _ & V2).
  exists u1, u2, p1, p2. split; [exact E1|]. split; [exact E2|]. split.
  - intros H I v. rewrite (V1 I v _ (agrees_structure I v)), (V2 I v _ (agrees_structure I v)). apply H.
  - intros H M. rewrite <- (V1 _ _ M (agrees_interp M)), <- (V2 _ _ M (agrees_interp M)). apply H.
Qed.
Print Assumptions C63_equivalence_partial.

(** ** C64: scripts *)
(** Any text of a well-sorted script, given to a new parser: it is accepted, and the
    assertions it records have, in order, the values of the asserted formulas. *)
Theorem C64_assertions_partial : forall b r l fs tx, cfg_ok (x_c b) -> library_bv b -> script no_decls l fs -> tx <> [] -> lexes plain_word tx (render_script l) ->
  exists q, parseStr b tx (parser0 r) = Ok q /\
    forall I v M, agrees I v M -> map (eval I v) (g_as (q_g q)) = map (fun f => value_of (fst f) M [] (snd f)) fs.
Proof.
  intros b r l fs tx HC HB HS HT HL. destruct (script_parse b r false l fs tx HC HB HS HT HL) as (q & E & _ & _ & V). exists q. now split.
Qed.
Print Assumptions C64_assertions_partial.
(** the script is satisfiable exactly when the recorded assertions are *)
Theorem C64_satisfiable_partial : forall b r l fs tx, cfg_ok (x_c b) -> library_bv b -> script no_decls l fs -> tx <> [] -> lexes plain_word tx (render_script l) ->
  exists q, parseStr b tx (parser0 r) = Ok q /\
    ((exists M, satisfies M fs) <-> (exists I v, Forall (fun t => holds I v t = true) (g_as (q_g q)))).
Proof.
  intros b r l fs tx HC HB HS HT HL. destruct (script_parse b r false l fs tx HC HB HS HT HL) as (q & E & _ & W & V). apply (asserted_wt (x_c b)) in W. exists q. split; [exact E|]. split.
  - intros (M & HM). exists (interp_of M), (env_of_structure M). apply (values_holds _ _ M _ fs (agrees_interp M) W); [|exact HM]. apply V, agrees_interp.
  - intros (I & v & HI). exists (structure_of I v). apply (values_holds I v (structure_of I v) (g_as (q_g q)) fs (agrees_structure I v) W); [|exact HI].
    apply V, agrees_structure.
Qed.
Print Assumptions C64_satisfiable_partial.
(** checkSat after any such script never gives a wrong answer: UNSAT only if no structure satisfies the
    script, SAT only if some does (indeed every one) *)
Theorem C64_check_sound_partial : forall b l fs tx, cfg_ok (x_c b) -> library_bv b -> script no_decls l fs -> tx <> [] -> lexes plain_word tx (render_script l) ->
  exists q, parseStr b tx (parser0 RT_UNKNOWN) = Ok q /\
    (fst (checkSat q) = RT_UNSAT -> forall M, ~ satisfies M fs) /\
    (fst (checkSat q) = RT_SAT -> forall M, satisfies M fs).
Proof.
  intros b l fs tx HC HB HS HT HL. destruct (script_parse b RT_UNKNOWN false l fs tx HC HB HS HT HL) as (q & E & R & W & V). apply (asserted_wt (x_c b)) in W. exists q. split; [exact E|].
  assert (K : forall M, satisfies M fs <-> Forall (fun t => holds (interp_of M) (env_of_structure M) t = true) (g_as (q_g q))).
  { intros M. apply (values_holds _ _ M _ fs (agrees_interp M) W), V, agrees_interp. }
  split; intros C M.
  - apply (proj1 (check_unsat_iff q R)) in C. destruct C as (a & t & d & Eq & F & _). rewrite K, Eq. intros H. rewrite Eq in W.
    apply Forall_app in W. destruct W as [_ W]. inversion W; subst. apply Forall_app in H. destruct H as [_ H]. inversion H as [|? ? Ht _]; subst.
    rewrite (wt_false t) in Ht by assumption. discriminate Ht.
  - apply K. apply (proj1 (check_sat_iff q R)) in C. rewrite Forall_forall in *. intros t Ht. rewrite (wt_true t (W t Ht) (C t Ht)). reflexivity.
Qed.
Print Assumptions C64_check_sound_partial.
(** the same text in a file *)
Theorem C64_file_partial : forall b r l fs tx, cfg_ok (x_c b) -> library_bv b -> script no_decls l fs -> lexes plain_word tx (render_script l) ->
  exists q, parseFile b tx (parser0 r) = Ok q /\
    forall I v M, agrees I v M -> map (eval I v) (g_as (q_g q)) = map (fun f => value_of (fst f) M [] (snd f)) fs.
Proof.
  intros b r l fs tx HC HB HS HL. destruct (script_steps b true false no_decls l fs HC HB HS eq_refl pst0 ctx0 (declares_ready _ _ (declares_new false)) (int_new false)) as (p' & g' & ts & SS & EA & W & V).
  destruct (C36_file_partial b l pst0 ctx0 p' g' tx (parser0 r) (new_holds r) eq_refl HL SS) as (q & E & Gq & _).
  exists q. split; [exact E|]. rewrite Gq, EA. exact V.
Qed.
Print Assumptions C64_file_partial.

(** the same commands given piece by piece, in any number of calls of parseStr *)
Fixpoint parse_all (b : pcfg) (ts : list str) (q : parser) : res parser :=
  match ts with [] => Ok q | t :: ts' => q' <- parseStr b t q ;; parse_all b ts' q' end.
Lemma parse_all_ok b parts : forall p g p' g' q, Forall (fun lt => snd lt <> [] /\ lexes plain_word (snd lt) (render_script (fst lt))) parts ->
  holds_decls p (q_p q) -> q_g q = g -> steps b (q_file q) p g (concat (map fst parts)) p' g' ->
  exists q', parse_all b (map snd parts) q = Ok q' /\ q_g q' = g' /\ q_res q' = q_res q.
Proof.
  induction parts as [|[l tx] parts IH]; intros p g p' g' q F H E SS; cbn [map concat fst snd parse_all] in *.
  - inversion SS; subst. now exists q.
  - inversion F as [|? ? [Hn HL] F']; subst. cbn [fst snd] in *. apply steps_app in SS. destruct SS as (p1 & g1 & S1 & S2).
    destruct (parseStr_ok b l p (q_g q) p1 g1 tx q Hn H eq_refl HL S1) as (q1 & E1 & G1 & H1 & F1 & R1). rewrite E1. cbn [bind].
    rewrite <- F1 in S2. destruct (IH p1 g1 p' g' q1 F' H1 G1 S2) as (q2 & E2 & G2 & R2). exists q2. split; [exact E2|]. split; [exact G2|congruence].
Qed.
Theorem C64_incremental_partial : forall b r parts fs, cfg_ok (x_c b) -> library_bv b ->
  Forall (fun lt => snd lt <> [] /\ lexes plain_word (snd lt) (render_script (fst lt))) parts -> script no_decls (concat (map fst parts)) fs ->
  exists q, parse_all b (map snd parts) (parser0 r) = Ok q /\
    (forall I v M, agrees I v M -> map (eval I v) (g_as (q_g q)) = map (fun f => value_of (fst f) M [] (snd f)) fs) /\
    ((exists M, satisfies M fs) <-> (exists I v, Forall (fun t => holds I v t = true) (g_as (q_g q)))).
Proof.
  intros b r parts fs HC HB HL HS. destruct (script_steps b false false no_decls _ fs HC HB HS eq_refl pst0 ctx0 (declares_ready _ _ (declares_new false)) (int_new false)) as (p' & g' & ts & SS & EA & W & V).
  destruct (parse_all_ok b parts pst0 ctx0 p' g' (parser0 r) HL (new_holds r) eq_refl SS) as (q & E & Gq & _).
  exists q. split; [exact E|]. rewrite Gq, EA. cbn [g_as ctx0 app]. split; [exact V|]. apply (asserted_wt (x_c b)) in W. split.
  - intros (M & HM). exists (interp_of M), (env_of_structure M). apply (values_holds _ _ M _ fs (agrees_interp M) W); [|exact HM]. apply V, agrees_interp.
  - intros (I & v & HI). exists (structure_of I v). apply (values_holds I v (structure_of I v) ts fs (agrees_structure I v) W); [|exact HI]. apply V, agrees_structure.
Qed.
Print Assumptions C64_incremental_partial.

(** ** examples *)
Definition e63 : sx := SLet [(word "y", SApp (word "f") [A "x"])]
  (SApp (word "and") [SApp (word "<") [A "y"; SApp (word "+") [A "x"; A "3"]]; SApp (word "not") [SApp (word "=") [A "y"; A "0"]]]).
Definition G63 : signature := Signature [(L "x", TyInt)] [(L "f", ([TyInt], TyInt))] true false [] false.
Lemma cn s : tok_word s = tok_word s -> L s <> L "true" -> L s <> L "false" -> constant_name (word s).
Proof. intros _ A B. split; [apply tok_word|]. now split. Qed.
Ltac cnm := apply cn; [reflexivity|discriminate|discriminate].
Lemma t_x r : look (L "x") r = None -> ty_of G63 r (A "x") TyInt.
Proof. intros H. apply T_const; [cnm|exact H|reflexivity|reflexivity]. Qed.
Example C63_ex_sort : ty_of G63 [] e63 TyBool.
Proof.
  assert (Y : ty_of G63 [(L "y", TyInt)] (A "y") TyInt) by (apply T_bound; [cnm|reflexivity]).
  assert (N3 : ty_of G63 [(L "y", TyInt)] (A "3") TyInt) by (apply (T_num G63 _ _ 3); [cnm|reflexivity|reflexivity|split; reflexivity|lia|reflexivity|now left]).
  assert (N0 : ty_of G63 [(L "y", TyInt)] (A "0") TyInt) by (apply (T_num G63 _ _ 0); [cnm|reflexivity|reflexivity|split; reflexivity|lia|reflexivity|now left]).
  apply (T_let G63 [] _ _ [TyInt]); [reflexivity|discriminate|constructor; [apply tok_word|constructor]| |].
  - constructor; [|constructor]. apply (T_fun G63 [] (word "f") [A "x"] [TyInt] TyInt); [apply tok_word|reflexivity|reflexivity|reflexivity|reflexivity|discriminate|].
    constructor; [now apply t_x|constructor].
  - apply (T_op G63 _ (word "and") "and" _ [TyBool; TyBool]); [apply tok_word|reflexivity|split; reflexivity|split; [reflexivity|discriminate]|apply (O_junct "and" 2); [cbn; tauto|lia]|].
    constructor; [|constructor; [|constructor]].
    + apply (T_op G63 _ (word "<") "<" _ [TyInt; TyInt]); [apply tok_word|reflexivity|split; reflexivity|split; [reflexivity|discriminate]|apply O_cmp; [cbn; tauto|now left]|].
      constructor; [exact Y|]. constructor; [|constructor].
      apply (T_op G63 _ (word "+") "+" _ [TyInt; TyInt]); [apply tok_word|reflexivity|split; reflexivity|split; [reflexivity|discriminate]|apply (O_arith "+" TyInt 2); [cbn; tauto|now left|lia]|].
      constructor; [now apply t_x|]. constructor; [exact N3|constructor].
    + apply (T_op G63 _ (word "not") "not" _ [TyBool]); [apply tok_word|reflexivity|split; reflexivity|split; [reflexivity|discriminate]|apply O_not|].
      constructor; [|constructor].
      apply (T_op G63 _ (word "=") "=" _ [TyInt; TyInt]); [apply tok_word|reflexivity|split; reflexivity|split; [reflexivity|discriminate]|apply O_eq; cbn; tauto|].
      constructor; [exact Y|]. constructor; [exact N0|constructor].
Qed.
Example C63_ex_scoped : well_scoped e63. Proof. reflexivity. Qed.
(** a structure in which it is true and one in which it is false *)
Definition M63 (k : Z) : structure := Structure (fun _ => false) (fun _ => 1) (fun _ => Q2Qc 0) (fun _ _ => 0) (fun _ _ => false) (fun _ _ => k) (fun _ _ => Q2Qc 0) (fun _ _ _ => 0).
Example C63_ex_value : value_of G63 (M63 2) [] e63 = VBool true /\ value_of G63 (M63 7) [] e63 = VBool false.
Proof. split; vm_compute; reflexivity. Qed.

Definition s64 : list cmd :=
  [CSetLogic (word "QF_UFLIA"); CDeclareFun (word "f") [SoName (word "Int")] (SoName (word "Int")); CDeclareConst (word "x") (SoName (word "Int")); CAssert e63; CCheckSat].
Lemma so_int : so_ty (SoName (word "Int")) TyInt.
Proof. exists (word "Int"). split; [reflexivity|]. split; [apply tok_word|reflexivity]. Qed.
Example C64_ex_script : script no_decls s64 [(G63, e63)].
Proof.
  apply Sc_logic; [apply tok_word|cbn; tauto|reflexivity|].
  apply (Sc_fun no_decls _ _ [TyInt] _ TyInt); [apply tok_word|discriminate|constructor; [exact so_int|constructor]|exact so_int|split; [reflexivity|split; reflexivity]|].
  apply (Sc_const _ _ _ TyInt); [apply tok_word|exact so_int|split; [reflexivity|split; reflexivity]|].
  apply Sc_assert; [exact C63_ex_sort|exact C63_ex_scoped|intros X; vm_compute in X; discriminate X|]. apply Sc_check; [now left|]. apply Sc_nil.
Qed.
Definition tx64 : str := L "(set-logic QF_UFLIA)(declare-fun f (Int) Int)(declare-const x Int) (assert (let ((y (f x))) (and (< y (+ x 3)) (not (= y 0)))))(check-sat)".
Example C64_ex_text : lexes plain_word tx64 (render_script s64).
Proof.
  cbn. lw. wdd "set-logic"%string. lw. wdd "QF_UFLIA"%string. lw. wdd "declare-fun"%string. lw. wdd "f"%string. lw. wdd "Int"%string. lw. wdd "Int"%string. lw.
  wdd "declare-const"%string. lw. wdd "x"%string. lw. wdd "Int"%string. lw. wdd "assert"%string. lw. wdd "let"%string. lw. wdd "y"%string. lw. wdd "f"%string. lw.
  wdd "x"%string. lw. wdd "and"%string. lw. wdd "<"%string. lw. wdd "y"%string. lw. wd "+"%string. lw. wdd "x"%string. lw. wd "3"%string. lw. wdd "not"%string. lw.
  wdd "="%string. lw. wdd "y"%string. lw. wd "0"%string. lw. wdd "check-sat"%string. lw.
Qed.
Example C64_ex_sat : satisfies (M63 2) [(G63, e63)] /\ ~ satisfies (M63 7) [(G63, e63)].
Proof.
  split; [constructor; [apply C63_ex_value|constructor]|]. intros H. inversion H as [|? ? E _]; subst. cbn [fst snd] in E. pose proof (eq_trans (eq_sym (proj2 C63_ex_value)) E) as X. discriminate X.
Qed.
Example C64_ex_run : on (fun q => length (g_as (q_g q))) (parseStr B tx64 (parser0 RT_UNKNOWN)) = Some 1%nat.
Proof. vm_compute. reflexivity. Qed.

(** ** the library's own operators meet the hypothesis on bit-vector operators *)
Theorem C64_library_partial : forall b ptr, library_bv (CtorSpec.with_ops b ptr).
Proof. intros b ptr k ps Hk. repeat (destruct Hk as [ <- | Hk ]; [reflexivity|]). contradiction. Qed.
Print Assumptions C64_library_partial.
(** a script of bit-vectors, in a logic without integers *)
Definition e64b : sx := SApp (word "and") [SApp (word "bvult") [A "a"; A "#b00001010"];
  SApp (word "=") [SApp (word "bvadd") [A "a"; SApp (word "bvmul") [A "a"; A "#x03"]; SBv (Idec 5) (Idec 8)]; SApp (word "concat") [A "#b0010"; A "#b0001"]]].
Definition s64b : list cmd := [CSetLogic (word "QF_BV"); CDeclareConst (word "a") (SoBV (Idec 8)); CAssert e64b; CCheckSat].
Definition G64b : signature := Signature [(L "a", TyBV 8)] [] false false [] false.
Lemma t_bits n w v : L n <> L "true" -> L n <> L "false" -> L n <> L "a" -> look (bar :: L n ++ [bar]) (s_con G64b) = None -> seq_str (L "a") (L n) = false -> (0 < w)%nat -> fits w ->
  bits_of (L n) = Some (w, v) -> ty_of G64b [] (A n) (TyBV w).
Proof.
  intros N1 N2 _ N3 N4 Hw Hf E. apply (T_bits G64b [] (word n) w v); [now apply cn|reflexivity| |split; reflexivity|exact N3|exact Hw|exact Hf|exact E].
  cbn [look s_con G64b]. change (raw (word n)) with (L n). now rewrite N4.
Qed.
Lemma fits8 w : (w <= 8)%nat -> fits w.
Proof. intros H. unfold fits. cbv [str_max]. lia. Qed.
Lemma t_a : ty_of G64b [] (A "a") (TyBV 8).
Proof. apply T_const; [cnm|reflexivity|reflexivity|reflexivity]. Qed.
Example C64_ex_bv_sort : ty_of G64b [] e64b TyBool.
Proof.
  assert (OP : forall o args ts t, no_fun G64b (L o) -> (In o ["+"; "-"; "*"]%string -> False) -> op_ty o ts t -> tys_of G64b [] args ts -> ty_of G64b [] (SApp (word o) args) t).
  { intros o args ts t N K O T. apply (T_op G64b [] (word o) o args ts t); [apply tok_word|reflexivity|exact N|split; [intros X; now apply K in X|discriminate]|exact O|exact T]. }
  apply (OP "and"%string _ [TyBool; TyBool]); [split; reflexivity|cbn; intuition discriminate|apply (O_junct "and" 2); [cbn; tauto|lia]|]. constructor; [|constructor; [|constructor]].
  - apply (OP "bvult"%string _ [TyBV 8; TyBV 8]); [split; reflexivity|cbn; intuition discriminate|apply O_bvcmp; cbn; tauto|]. constructor; [exact t_a|]. constructor; [|constructor].
    apply (t_bits _ 8 10); try discriminate; try reflexivity; try lia; now apply fits8.
  - apply (OP "="%string _ [TyBV 8; TyBV 8]); [split; reflexivity|cbn; intuition discriminate|apply O_eq; cbn; tauto|]. constructor; [|constructor; [|constructor]].
    + apply (OP "bvadd"%string _ [TyBV 8; TyBV 8; TyBV 8]); [split; reflexivity|cbn; intuition discriminate|apply (O_bvn "bvadd" 8 3); [cbn; tauto|lia]|].
      constructor; [exact t_a|]. constructor; [|constructor; [|constructor]].
      * apply (OP "bvmul"%string _ [TyBV 8; TyBV 8]); [split; reflexivity|cbn; intuition discriminate|apply (O_bvn "bvmul" 8 2); [cbn; tauto|lia]|].
        constructor; [exact t_a|]. constructor; [|constructor]. apply (t_bits _ 8 3); try discriminate; try reflexivity; try lia; now apply fits8.
      * apply (T_bvnum G64b [] 5 8); [lia|now apply fits8|lia].
    + apply (OP "concat"%string _ [TyBV 4; TyBV 4]); [split; reflexivity|cbn; intuition discriminate|apply (O_concat 4 4); now apply fits8|].
      constructor; [|constructor; [|constructor]]; [apply (t_bits _ 4 2)|apply (t_bits _ 4 1)]; try discriminate; try reflexivity; try lia; now apply fits8.
Qed.
Example C64_ex_bv_script : script no_decls s64b [(G64b, e64b)].
Proof.
  apply Sc_logic; [apply tok_word|cbn; tauto|reflexivity|].
  apply (Sc_const _ _ _ (TyBV 8)); [apply tok_word|split; [reflexivity|lia]|split; [reflexivity|split; reflexivity]|].
  apply Sc_assert; [exact C64_ex_bv_sort|reflexivity|intros X; vm_compute in X; discriminate X|]. apply Sc_check; [now left|]. apply Sc_nil.
Qed.
(** the only solution of [a < 10] and [a + 3 a + 5 = 33] is [a = 7] *)
Definition Mbv (k : Z) : structure := Structure (fun _ => false) (fun _ => 1) (fun _ => Q2Qc 0) (fun _ _ => k) (fun _ _ => false) (fun _ _ => 0) (fun _ _ => Q2Qc 0) (fun _ _ _ => 0).
Example C64_ex_bv_value : value_of G64b (Mbv 7) [] e64b = VBool true /\ value_of G64b (Mbv 71) [] e64b = VBool false /\ value_of G64b (Mbv 8) [] e64b = VBool false.
Proof. repeat split; vm_compute; reflexivity. Qed.
Definition Bbv : pcfg := CtorSpec.with_ops B (fun l => l).
Definition tx64b : str := L "(set-logic QF_BV)(declare-const a (_ BitVec 8))(assert (and (bvult a #b00001010) (= (bvadd a (bvmul a #x03) (_ bv5 8)) (concat #b0010 #b0001))))(check-sat)".
Example C64_ex_bv_run : on (fun q => (length (g_as (q_g q)), fst (checkSat q))) (parseStr Bbv tx64b (parser0 RT_UNKNOWN)) = Some (1%nat, RT_UNKNOWN).
Proof. vm_compute. reflexivity. Qed.
Example C64_ex_bv_text : lexes plain_word tx64b (render_script s64b).
Proof.
  cbn. lw. wdd "set-logic"%string. lw. wdd "QF_BV"%string. lw. wdd "declare-const"%string. lw. wdd "a"%string. lw. wdd "_"%string. lw. wdd "BitVec"%string. lw. wd "8"%string. lw.
  wdd "assert"%string. lw. wdd "and"%string. lw. wdd "bvult"%string. lw. wdd "a"%string. lw. wdd "#b00001010"%string. lw. wdd "="%string. lw. wdd "bvadd"%string. lw. wdd "a"%string. lw.
  wdd "bvmul"%string. lw. wdd "a"%string. lw. wdd "#x03"%string. lw. wdd "_"%string. lw. wdd "bv5"%string. lw. wd "8"%string. lw. wdd "concat"%string. lw. wdd "#b0010"%string. lw. wdd "#b0001"%string. lw.
  wdd "check-sat"%string. lw.
Qed.
(** the first script in three pieces *)
Definition parts64 : list (list cmd * str) :=
  [([CSetLogic (word "QF_UFLIA")], L "(set-logic QF_UFLIA)");
   ([CDeclareFun (word "f") [SoName (word "Int")] (SoName (word "Int")); CDeclareConst (word "x") (SoName (word "Int"))], L "(declare-fun f (Int) Int)(declare-const x Int)");
   ([CAssert e63; CCheckSat], L "(assert (let ((y (f x))) (and (< y (+ x 3)) (not (= y 0)))))(check-sat)")].
Example C64_ex_parts : Forall (fun lt => snd lt <> [] /\ lexes plain_word (snd lt) (render_script (fst lt))) parts64 /\ concat (map fst parts64) = s64.
Proof.
  split; [|reflexivity]. constructor; [|constructor; [|constructor; [|constructor]]]; (split; [discriminate|]); cbn.
  - lw. wdd "set-logic"%string. lw. wdd "QF_UFLIA"%string. lw.
  - lw. wdd "declare-fun"%string. lw. wdd "f"%string. lw. wdd "Int"%string. lw. wdd "Int"%string. lw. wdd "declare-const"%string. lw. wdd "x"%string. lw. wdd "Int"%string. lw.
  - lw. wdd "assert"%string. lw. wdd "let"%string. lw. wdd "y"%string. lw. wdd "f"%string. lw.
    wdd "x"%string. lw. wdd "and"%string. lw. wdd "<"%string. lw. wdd "y"%string. lw. wd "+"%string. lw. wdd "x"%string. lw. wd "3"%string. lw. wdd "not"%string. lw.
    wdd "="%string. lw. wdd "y"%string. lw. wd "0"%string. lw. wdd "check-sat"%string. lw.
Qed.

(** a script with defined functions, one used in the body of the other *)
Definition e64g : sx := SApp (word "+") [A "a"; SApp (word "*") [A "2"; A "b"]].
Definition e64h : sx := SApp (word "<") [SApp (word "g") [A "a"; A "1"]; SApp (word "g") [A "3"; A "a"]].
Definition e64d : sx := SApp (word "h") [SApp (word "g") [A "x"; A "x"]].
Definition int : so := SoName (word "Int").
Definition s64d : list cmd :=
  [CSetLogic (word "QF_LIA"); CDefineFun (word "g") [(word "a", int); (word "b", int)] int e64g;
   CDefineFun (word "h") [(word "a", int)] (SoName (word "Bool")) e64h; CDeclareConst (word "x") int; CAssert e64d; CCheckSat].
Definition G64g : signature := add_def (L "g") [TyInt; TyInt] TyInt (fun M vs => value_of (in_body no_decls) M (combine (names [(word "a", int); (word "b", int)]) vs) e64g) no_decls.
Definition G64h : signature := add_def (L "h") [TyInt] TyBool (fun M vs => value_of (in_body G64g) M (combine (names [(word "a", int)]) vs) e64h) G64g.
Definition G64d : signature := add_con (L "x") TyInt G64h.
Lemma so_bool : so_ty (SoName (word "Bool")) TyBool.
Proof. exists (word "Bool"). split; [reflexivity|]. split; [apply tok_word|reflexivity]. Qed.
Example C64_ex_def_script : script no_decls s64d [(G64d, e64d)].
Proof.
  apply Sc_logic; [apply tok_word|cbn; tauto|reflexivity|].
  apply (Sc_def _ _ _ [TyInt; TyInt] _ TyInt); [apply tok_word| | |exact so_int| |reflexivity|split; [reflexivity|split; reflexivity]|].
  { cbn. constructor; [cbn; intuition discriminate|]. constructor; [cbn; tauto|constructor]. }
  { constructor; [split; [apply tok_word|split; [split; reflexivity|exact so_int]]|]. constructor; [split; [apply tok_word|split; [split; reflexivity|exact so_int]]|constructor]. }
  { apply (T_op _ _ (word "+") "+" _ [TyInt; TyInt]); [apply tok_word|reflexivity|split; reflexivity|split; [reflexivity|discriminate]|apply (O_arith "+" TyInt 2); [cbn; tauto|now left|lia]|].
    constructor; [apply T_bound; [cnm|reflexivity]|]. constructor; [|constructor].
    apply (T_op _ _ (word "*") "*" _ [TyInt; TyInt]); [apply tok_word|reflexivity|split; reflexivity|split; [reflexivity|discriminate]|apply (O_arith "*" TyInt 2); [cbn; tauto|now left|lia]|].
    constructor; [apply (T_num _ _ _ 2); [cnm|reflexivity|reflexivity|split; reflexivity|lia|reflexivity|now left]|]. constructor; [apply T_bound; [cnm|reflexivity]|constructor]. }
  apply (Sc_def _ _ _ [TyInt] _ TyBool); [apply tok_word| | |exact so_bool| |reflexivity|split; [reflexivity|split; reflexivity]|].
  { cbn. constructor; [cbn; tauto|constructor]. }
  { constructor; [split; [apply tok_word|split; [split; reflexivity|exact so_int]]|constructor]. }
  { apply (T_op _ _ (word "<") "<" _ [TyInt; TyInt]); [apply tok_word|reflexivity|split; reflexivity|split; [reflexivity|discriminate]|apply O_cmp; [cbn; tauto|now left]|].
    constructor; [|constructor; [|constructor]].
    - eapply T_def; [apply tok_word|reflexivity|reflexivity|reflexivity|discriminate|]. constructor; [apply T_bound; [cnm|reflexivity]|]. constructor; [|constructor].
      apply (T_num _ _ _ 1); [cnm|reflexivity|reflexivity|split; reflexivity|lia|reflexivity|now left].
    - eapply T_def; [apply tok_word|reflexivity|reflexivity|reflexivity|discriminate|]. constructor; [|constructor; [apply T_bound; [cnm|reflexivity]|constructor]].
      apply (T_num _ _ _ 3); [cnm|reflexivity|reflexivity|split; reflexivity|lia|reflexivity|now left]. }
  apply (Sc_const _ _ _ TyInt); [apply tok_word|exact so_int|split; [reflexivity|split; reflexivity]|].
  assert (X : ty_of G64d [] (A "x") TyInt) by (apply T_const; [cnm|reflexivity|reflexivity|reflexivity]).
  apply Sc_assert; [|reflexivity|intros Z; vm_compute in Z; discriminate Z|apply Sc_check; [now left|apply Sc_nil]].
  eapply T_def; [apply tok_word|reflexivity|reflexivity|reflexivity|discriminate|]. constructor; [|constructor].
  eapply T_def; [apply tok_word|reflexivity|reflexivity|reflexivity|discriminate|]. constructor; [exact X|]. constructor; [exact X|constructor].
Qed.
(** it says that [x] is not negative: [h y] is [y + 2 < 3 + 2 y], and [g x x] is [3 x] *)
Definition Mint (k : Z) : structure := Structure (fun _ => false) (fun _ => k) (fun _ => Q2Qc 0) (fun _ _ => 0) (fun _ _ => false) (fun _ _ => 0) (fun _ _ => Q2Qc 0) (fun _ _ _ => 0).
Example C64_ex_def_value : value_of G64d (Mint 0) [] e64d = VBool true /\ value_of G64d (Mint 5) [] e64d = VBool true /\ value_of G64d (Mint (-1)) [] e64d = VBool false.
Proof. repeat split; vm_compute; reflexivity. Qed.
Definition tx64d : str := L "(set-logic QF_LIA)(define-fun g ((a Int) (b Int)) Int (+ a (* 2 b)))(define-fun h ((a Int)) Bool (< (g a 1) (g 3 a)))(declare-const x Int)(assert (h (g x x)))(check-sat)".
Example C64_ex_def_text : lexes plain_word tx64d (render_script s64d).
Proof.
  cbn. lw. wdd "set-logic"%string. lw. wdd "QF_LIA"%string. lw. wdd "define-fun"%string. lw. wdd "g"%string. lw. wdd "a"%string. lw. wdd "Int"%string. lw. wdd "b"%string. lw. wdd "Int"%string. lw.
  wdd "Int"%string. lw. wd "+"%string. lw. wdd "a"%string. lw. wdd "*"%string. lw. wd "2"%string. lw. wdd "b"%string. lw. wdd "define-fun"%string. lw. wdd "h"%string. lw. wdd "a"%string. lw. wdd "Int"%string. lw.
  wdd "Bool"%string. lw. wdd "<"%string. lw. wdd "g"%string. lw. wdd "a"%string. lw. wd "1"%string. lw. wdd "g"%string. lw. wd "3"%string. lw. wdd "a"%string. lw.
  wdd "declare-const"%string. lw. wdd "x"%string. lw. wdd "Int"%string. lw. wdd "assert"%string. lw. wdd "h"%string. lw. wdd "g"%string. lw. wdd "x"%string. lw. wdd "x"%string. lw. wdd "check-sat"%string. lw.
Qed.
Example C64_ex_def_run : on (fun q => length (g_as (q_g q))) (parseStr B tx64d (parser0 RT_UNKNOWN)) = Some 1%nat.
Proof. vm_compute. reflexivity. Qed.
