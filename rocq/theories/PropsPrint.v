(** C32: print and re-parse.  PrintSpec.v says for which terms ([rt]); the text is what
    Parser::toString writes, read by Parser::mkExpr in the same parser. *)
From Verif Require SemProofs.
From Verif Require Import Base LexSpec LexProofs KindModel SortModel TermModel UtilModel UtilSpec UtilProofs BVModel BVSpec BVProofs2 SimpModel OpModel OpSpec OpProofs LexModel
  ParseModel ParseSpec ParseLits OpExamples PropsParse PrintModel PrintSpec PrintProofs PrintProofs2.
Open Scope Z_scope.

(** the same node, and the declarations are untouched *)
Theorem C32_round_trip_partial : forall x g t, top_state x g -> x_file x = false -> rt x g [] t ->
  exists s g', dumpSMTLIB2 (c_dbg (x_c x)) t = Ok s /\ mkExpr x g s = Ok (t, g') /\ top_state x g' /\ same_decls g g' /\ p_ctr g' = p_ctr g.
Proof. exact round_trip. Qed.
Print Assumptions C32_round_trip_partial.
(** printing ends for every node: the work stack is emptied *)
Theorem C32_printing_ends : forall d t, dumpSMTLIB2 d t <> NoFuel.
Proof. exact dump_ends. Qed.
Print Assumptions C32_printing_ends.

(** the literals among the terms of [rt]: integers, also negative ones, bit-vectors, strings
    without quotes and backslashes *)
Theorem C32_integer : forall x g r z, free g r (Idec (Z.abs z)) -> rt x g r (mkConstInt z).
Proof.
  intros x g r z Fr. destruct (Z_lt_le_dec z 0) as [H|H].
  - destruct z as [|p|p]; try lia. cbn [Z.abs] in Fr. destruct (Idec_nat (Zpos p)) as [N F]; [lia|].
    change (mkConstInt (Zneg p)) with (T NT_CONST intorealS ("-"%char :: Idec (Zpos p)) []).
    apply (rt_minus x g r intorealS (Idec (Zpos p)) (mkConstInt (Zpos p))); [exists (TWord (Idec (Zpos p))); now apply digits_word|exact Fr|reflexivity|now apply lit_numeral|reflexivity|].
    unfold mkSub, mkNeg, simp1. change (kin NT_NEG float1_kinds) with false. change (kin NT_NEG nary1_kinds) with false. cbv iota.
    assert (isCInt (mkConstInt (Zpos p)) = true) as -> by reflexivity.
    unfold toInt. change (isConst (mkConstInt (Z.pos p))) with true. change (t_name (mkConstInt (Z.pos p))) with (Idec (Z.pos p)). rewrite Idec_isInt, Idec_round. cbn [andb].
    assert (isCInt (mkConstInt (Zpos p)) = true) as -> by reflexivity.
    unfold condAssert. destruct (c_dbg (x_c x)); reflexivity.
  - rewrite Z.abs_eq in Fr by lia. destruct (Idec_nat z) as [N F]; [lia|]. apply rt_lit; [exists (TWord (Idec z)); now apply digits_word|exact Fr| |now apply lit_numeral].
    intros _ E. destruct (Idec z) as [|c ds]; [congruence|]. cbn in E. subst c. inversion F as [|? ? Hc _]; subst. unfold digitC in Hc. cbn in Hc. lia.
Qed.
Print Assumptions C32_integer.
Lemma lit_spell w v : spells (lit w v) (TWord (lit w v)).
Proof.
  apply sp_word; [discriminate| |].
  - apply Forall_forall. intros c Hc D. assert (X : c = "#"%char \/ c = "b"%char \/ c = "0"%char \/ c = "1"%char).
    { unfold lit in Hc. cbn [In] in Hc. destruct Hc as [Hc|[Hc|Hc]]; auto. apply in_map_iff in Hc. destruct Hc as (i & <- & _). destruct (Z.testbit v (Z.of_nat i)); auto. }
    unfold delimC, wsC in D. cbn [In] in D. destruct X as [->|[->|[->| ->]]]; cbn in D; intuition discriminate.
  - apply scib_no. reflexivity.
Qed.
Theorem C32_bit_vector : forall x g r w v, (0 < w)%nat -> fits w -> free g r (lit w v) -> rt x g r (T NT_CONST (bvS (Z.of_nat w)) (lit w v) []).
Proof. intros x g r w v Hw Hf Fr. apply rt_lit; [eexists; apply lit_spell|exact Fr|discriminate|now apply lit_binary]. Qed.
Print Assumptions C32_bit_vector.
Theorem C32_string : forall x g r b, Forall plainC b -> Forall (fun c => c <> nul) b -> free g r (UtilSpec.Q b) -> rt x g r (T NT_CONST strS (UtilSpec.Q b) []).
Proof.
  intros x g r b H N Fr. apply rt_lit; [|exact Fr|discriminate|now apply lit_string].
  exists (TString b). unfold UtilSpec.Q. apply sp_string. clear Fr. induction H as [|c b Hc H IH]; [constructor|]. inversion N; subst. apply sb_chr; auto.
  intros ->. discriminate Hc.
Qed.
Print Assumptions C32_string.

(** ** What does not come back *)
(** read a text, print the node, read that *)
Definition again (s : string) : res (term * str * res term) :=
  r <- runs true s ;; let '(t, g) := r in
  o <- dumpSMTLIB2 false t ;;
  Ok (t, o, u <- mkExpr (xk true) g o ;; Ok (fst u)).
(** a node that is printed, and whose text is read as another node [u] *)
Definition other (s o : string) (u : term -> bool) : Prop :=
  exists t v, again s = Ok (t, L o, Ok v) /\ t <> v /\ u v = true.
Lemma other_check s o u : match again s with Ok (t, o', Ok v) => seq_str o' (L o) && negb (teq t v) && u v | _ => false end = true -> other s o u.
Proof.
  unfold other. destruct (again s) as [[[t o'] [v| | | | |]]| | | | |]; try discriminate. rewrite !andb_true_iff, negb_true_iff. intros [[A B] C]. apply seq_str_spec in A. subst o'.
  exists t, v. repeat split; auto. intros ->. rewrite SemProofs.teq_refl in B. discriminate.
Qed.
Theorem C32_let_refuted : other "(let ((y a)) (and y b))" "(let ((y a)) (and y b))" (isk NT_LET_CHAIN).
Proof. apply other_check. vm_compute. reflexivity. Qed.
Print Assumptions C32_let_refuted.
(** a quantified variable of sort Float32 comes back with another sort *)
Theorem C32_float_refuted : other "(forall ((y Float32)) a)" "(forall ((y (_ FloatingPoint 8 24))) a)" (isk NT_FORALL).
Proof. apply other_check. vm_compute. reflexivity. Qed.
Print Assumptions C32_float_refuted.
(** a doubled quote is kept and escaped when printed, so a longer string comes back *)
Theorem C32_quote_refuted : other """a""""b""" """a\""\""b""" isCStr.
Proof. apply other_check. vm_compute. reflexivity. Qed.
Print Assumptions C32_quote_refuted.
(** a node that is not normalised any further when built is when it is read again: here [(= a b)] *)
Theorem C32_normal_refuted : other "(= (not a) true (not b))" "(= (not a) (not b))" (teq (T NT_EQ boolS (L "=") [pa; pb])).
Proof. apply other_check. vm_compute. reflexivity. Qed.
Print Assumptions C32_normal_refuted.
(** nodes without the children their kind needs have no text *)
Theorem C32_missing_child : dumpSMTLIB2 false (T NT_NOT boolS [] []) = UB /\ dumpSMTLIB2 false (T NT_LET_CHAIN boolS [] []) = UB.
Proof. split; reflexivity. Qed.
Print Assumptions C32_missing_child.

(** a term of [rt]: (forall ((y Int)) (and a (or b (= y x (- 3))))) *)
Example C32_ex : exists t, runs true "(forall ((y Int)) (and a (or b (= y x (- 3)))))" = Ok (t, px) /\ rt (xk true) px [] t.
Proof.
  eexists. split; [vm_compute; reflexivity|].
  assert (Sp : forall w, w <> [] -> Forall (fun c => ~ delimC c) w -> scib false w = false -> token_text w) by (intros w A B C; exists (TWord w); apply sp_word; auto; now apply scib_no).
  assert (W : forall w, existsb (fun c => existsb (aeq c) (map chr [0;9;10;11;12;13;32] ++ L "()""|;"%string))%nat w = false -> w <> [] -> scib false w = false -> token_text w).
  { intros w A B C. apply Sp; auto. apply Forall_forall. intros c Hc D. assert (E : existsb (aeq c) (map chr [0;9;10;11;12;13;32]%nat ++ L "()""|;"%string) = true).
    { revert D. unfold delimC, wsC. destruct c as [[] [] [] [] [] [] [] []]; vm_compute; intros D; try reflexivity; exfalso;
      repeat match goal with H : _ \/ _ |- _ => destruct H as [H|H] end; try discriminate; try contradiction. }
    assert (F : existsb (fun c => existsb (aeq c) (map chr [0;9;10;11;12;13;32] ++ L "()""|;"%string))%nat w = true) by (apply existsb_exists; eauto). congruence. }
  eapply (rt_quant (xk true) px [] NT_FORALL boolS (L "forall") _ [quant_node (L "y") intS] [L "y"] [intS] [SoName (word "Int")]).
  - now left.
  - reflexivity.
  - reflexivity.
  - discriminate.
  - repeat constructor. apply W; [reflexivity|discriminate|reflexivity].
  - repeat constructor. intros [].
  - intros n [<-|[]]. repeat split; discriminate || reflexivity.
  - constructor; [|constructor]. apply (sb_basic px "Int" intS). cbn [In]. auto.
  - assert (Op : forall r k s nm ch, ~ In k no_op_kinds -> ch <> [] -> op_arity k = None -> token_text (kindToString k) -> special (kindToString k) = false ->
      mget (kindToString k) (p_fun px) = None -> Forall (rt (xk true) px r) ch -> oper_kind (xk true) (getOperKind (kindToString k)) [] ch = Ok (T k s nm ch) -> isErr (T k s nm ch) = false -> rt (xk true) px r (T k s nm ch)).
    { intros r k s nm ch A B C D E F G H J. apply rt_op; auto. rewrite C. discriminate. }
    assert (NI : forall k, existsb (keq k) no_op_kinds = false -> ~ In k no_op_kinds).
    { intros k A B. assert (existsb (keq k) no_op_kinds = true) by (apply existsb_exists; exists k; split; [exact B|destruct k; reflexivity]). congruence. }
    assert (Dc : forall r s n, token_text n -> n <> L "true" -> n <> L "false" -> assoc n r = None -> declared px n = Some (T NT_VAR s n []) -> rt (xk true) px r (T NT_VAR s n [])) by (intros; apply rt_decl; auto; left; reflexivity).
    apply Op; try reflexivity; [apply NI; reflexivity|discriminate|apply W; [reflexivity|discriminate|reflexivity]|].
    constructor; [apply Dc; try reflexivity; try discriminate; apply W; [reflexivity|discriminate|reflexivity]|]. constructor; [|constructor].
    apply Op; try reflexivity; [apply NI; reflexivity|discriminate|apply W; [reflexivity|discriminate|reflexivity]|].
    constructor; [apply Dc; try reflexivity; try discriminate; apply W; [reflexivity|discriminate|reflexivity]|]. constructor; [|constructor].
    apply Op; try reflexivity; [apply NI; reflexivity|discriminate|apply W; [reflexivity|discriminate|reflexivity]|].
    constructor; [apply rt_bound; [cbn; auto|apply W; [reflexivity|discriminate|reflexivity]|reflexivity]|].
    constructor; [apply Dc; try reflexivity; try discriminate; apply W; [reflexivity|discriminate|reflexivity]|]. constructor; [|constructor].
    apply (C32_integer (xk true) px _ (-3)). repeat split; discriminate || reflexivity.
  - reflexivity.
Qed.
