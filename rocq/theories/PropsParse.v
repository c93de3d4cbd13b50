(** C33, C34, C35, C47, C48: parsing expressions.  ParseSpec.v gives the syntax ([sx], spelt as tokens
    by [render]), what an expression stands for ([den]: let in parallel, innermost
    binding first, an operator is its constructor on the arguments in order) and the scoping
    discipline [scoped] under which the code keeps to it. *)
From Verif Require Import Base LexSpec LexProofs KindModel SortModel TermModel UtilModel UtilProofs BVModel BVSpec
  SimpModel OpModel OpSpec OpProofs LexModel ParseModel ParseSpec ParseProofs ParseProofs2 ParseTerm ParseLits ParseMore OpExamples.
Open Scope Z_scope.

(** ** C33 *)
(** mkExpr on any text of an expression *)
Theorem C33_mkExpr_partial : forall x p e t c' tx,
  top_state x p -> den x p false (p_ctr p) [] e t c' -> scoped p false [] [] e = Some [] ->
  lexes plain_word tx (render e) -> x_file x = false ->
  exists p', mkExpr x p tx = Ok (t, p') /\ top_state x p' /\ p_ctr p' = c' /\ same_decls p p'.
Proof. exact mk_expr_ok. Qed.
Print Assumptions C33_mkExpr_partial.
(** an expression inside a longer text: exactly the expression is consumed *)
Theorem C33_consumes_partial : forall x p e t c' s ks fuel,
  sp s = p -> top_state x p -> den x p false (p_ctr p) [] e t c' -> scoped p false [] [] e = Some [] ->
  at_toks (sl s) (render e ++ ks) -> (x_file x = true -> ks <> []) -> (pexpr_fuel s <= fuel)%nat ->
  exists s', pexpr fuel x s = Ok (t, s') /\
    at_toks (sl s') ks /\ top_state x (sp s') /\ p_ctr (sp s') = c' /\ same_decls p (sp s').
Proof. exact parse_expr_ok. Qed.
Print Assumptions C33_consumes_partial.
(** what literals stand for: numerals, binary and hexadecimal bit-vectors, strings *)
Theorem C33_numeral : forall x z, 0 <= z -> lit_of x (Idec z) (mkConstInt z).
Proof. exact lit_numeral. Qed.
Print Assumptions C33_numeral.
Theorem C33_binary : forall x w v, (0 < w)%nat -> fits w ->
  lit_of x (lit w v) (T NT_CONST (bvS (Z.of_nat w)) (lit w v) []).
Proof. exact lit_binary. Qed.
Print Assumptions C33_binary.
Theorem C33_hex : forall x ds v, ds <> [] -> hexnum ds = Some v ->
  lit_of x (L "#x" ++ ds) (T NT_CONST (bvS (4 * zlen ds)) (lit (4 * length ds) v) []).
Proof. exact lit_hex. Qed.
Print Assumptions C33_hex.
Theorem C33_string : forall x b, Forall plainC b -> lit_of x (UtilSpec.Q b) (T NT_CONST strS (UtilSpec.Q b) []).
Proof. exact lit_string. Qed.
Print Assumptions C33_string.
Theorem C33_decimal : forall x ds es, ds <> [] -> Forall UtilSpec.digitC ds -> Forall UtilSpec.digitC es ->
  lit_of x (ds ++ "."%char :: es) (mkConstReal (ds ++ "."%char :: es)).
Proof. exact lit_decimal. Qed.
Print Assumptions C33_decimal.

(** a concrete state: a, b Boolean variables, x an integer variable; lets kept (the default)
    or expanded *)
Definition px : pst := set_var [(L "a", pa); (L "b", pb); (L "x", xi)] pst0.
Definition xk (keep : bool) : pcfg := PCfg c0 false keep (fun _ _ => Exit) (fun _ _ _ => Exit) (fun s => s) (fun _ => []).
Lemma px_top k : top_state (xk k) px.
Proof. constructor; try reflexivity; try discriminate. Qed.
Definition nodeN (k : kind) (n : string) (ch : list term) : term := T k boolS (L n) ch.
Definition A (s : string) : sx := SAtom (word s).
(** (and a (not (<= x 3))) *)
Definition e33 : sx := SApp (word "and") [A "a"; SApp (word "not") [SApp (word "<=") [A "x"; A "3"]]].
Lemma tok_word s : is_tok (word s). Proof. split; discriminate. Qed.
Ltac dvar := apply d_decl; [apply tok_word|discriminate|discriminate|reflexivity|reflexivity|reflexivity].
Ltac dnum := apply d_lit; [apply tok_word|discriminate|discriminate|reflexivity|reflexivity| |reflexivity].
Ltac dargs := repeat first [apply ds_nil | eapply ds_cons; [dvar|] | eapply ds_cons; [dnum|]].
Lemma lex_word w t ks : w <> [] -> Forall (fun c => ~ delimC c) w -> Forall (fun c => ~ eC c) w ->
  starts (fun c => wsC c \/ c = "("%char \/ c = ")"%char) t -> lexes plain_word t ks -> lexes plain_word (w ++ t) (TWord w :: ks).
Proof.
  intros H1 H2 H3 H4 H5. apply lx_word; [exact H1|exact H2| | |exact H5].
  - destruct t as [|c t]; [exact Logic.I|]. cbn [starts] in *. unfold delimC. cbn [In]. intuition auto.
  - split; [exact H4|]. intros m e r -> He. exfalso. rewrite Forall_forall in H3. apply (H3 e); [|exact He].
    apply in_or_app. right. now left.
Qed.
Ltac lw := repeat first
  [ apply lx_nil | apply lx_l | apply lx_r | apply lx_ws; [unfold wsC; cbn; tauto|] ].
Ltac wd w := apply (lex_word (L w)); [discriminate
  | repeat constructor; unfold delimC, wsC; cbn; intuition discriminate
  | repeat constructor; unfold eC; intuition discriminate
  | cbn; unfold wsC; cbn; tauto|].
Definition t33 : term := nodeN NT_AND "and" [pa; nodeN NT_GT ">" [xi; mkConstInt 3]].
Lemma den33 : den (xk true) px false 0 [] e33 t33 0.
Proof.
  assert (E1 : den (xk true) px false 0 [] (SApp (word "<=") [A "x"; A "3"]) (nodeN NT_LE "<=" [xi; mkConstInt 3]) 0).
  { apply (d_op (xk true) px false 0 [] (word "<=") [A "x"; A "3"] [xi; mkConstInt 3] 0);
      [apply tok_word|reflexivity|left; reflexivity| |vm_compute; reflexivity|reflexivity].
    dargs. apply (C33_numeral (xk true) 3). lia. }
  assert (E2 : den (xk true) px false 0 [] (SApp (word "not") [SApp (word "<=") [A "x"; A "3"]]) (nodeN NT_GT ">" [xi; mkConstInt 3]) 0).
  { apply (d_op (xk true) px false 0 [] (word "not") _ [nodeN NT_LE "<=" [xi; mkConstInt 3]] 0);
      [apply tok_word|reflexivity|left; reflexivity| |vm_compute; reflexivity|reflexivity].
    eapply ds_cons; [exact E1|apply ds_nil]. }
  apply (d_op (xk true) px false 0 [] (word "and") _ [pa; nodeN NT_GT ">" [xi; mkConstInt 3]] 0);
      [apply tok_word|reflexivity|left; reflexivity| |vm_compute; reflexivity|reflexivity].
  eapply ds_cons; [dvar|]. eapply ds_cons; [exact E2|apply ds_nil].
Qed.
Example C33_ex : den (xk true) px false (p_ctr px) [] e33 t33 0 /\ scoped px false [] [] e33 = Some [].
Proof. split; [exact den33|reflexivity]. Qed.
Example C33_ex_text : mkExpr (xk true) px (L "(and a (not (<= x 3)))") = Ok (t33, px).
Proof. vm_compute. reflexivity. Qed.
Example C33_ex_lexes : lexes plain_word (L "(and a (not (<= x 3)))") (render e33).
Proof. cbn. lw. wd "and"%string. lw. wd "a"%string. lw. wd "not"%string. lw. wd "<="%string. lw. wd "x"%string. lw. wd "3"%string. lw. Qed.

(** ** C34: let.  [val r f]: the call returns a term whose truth value is [f], in every
    interpretation and environment of the free variables. *)
Definition yields (r : res (term * pst)) (f : Sem.interp -> Sem.env -> bool) : Prop :=
  exists t p', r = Ok (t, p') /\ forall I e, Sem.holds I e t = f I e.
Definition runs (keep : bool) (s : string) : res (term * pst) := mkExpr (xk keep) px (L s).
(** One let: the bound expressions are read in the environment outside, the body in that
    environment extended with all names; afterwards no let variable is left, and
    a kept let has the value of its body, a let variable the value of its term. *)
Theorem C34_let_partial : forall x p bs b ts t tx, x_file x = false -> top_state x p ->
  bs <> [] -> Forall (fun q => is_tok (fst q)) bs -> (forall bs' b', b <> SLet bs' b') ->
  let c := p_ctr p + 1 in
  dens x p true c [] (map snd bs) ts c ->
  den x p true c (combine (names bs) (let_vals x bs c ts) ++ []) b t c -> isErr t = false ->
  scoped p false [] [] (SLet bs b) = Some [] -> lexes plain_word tx (render (SLet bs b)) ->
  exists u p', mkExpr x p tx = Ok (u, p') /\ top_state x p' /\ same_decls p p' /\
    (x_keep x = false -> u = t) /\ forall I e, Sem.eval I e u = Sem.eval I e t.
Proof. exact let_ok. Qed.
Print Assumptions C34_let_partial.
Theorem C34_variable_value : forall x v c t I e, Sem.eval I e (let_val x v c t) = Sem.eval I e t.
Proof. exact let_val_eval. Qed.
Print Assumptions C34_variable_value.
(** every nesting of lets, quantifiers and operators: C33_mkExpr_partial.  Example: parallel
    binding; here both modes agree with SMT-LIB *)
Example C34_ex : exists t, den (xk false) px false 0 []
    (SLet [(word "u", A "a"); (word "v", SLet [(word "w", A "b")] (A "w"))] (SApp (word "and") [A "u"; A "v"])) t 1
  /\ t = nodeN NT_AND "and" [pa; pb]
  /\ runs false "(let ((u a) (v (let ((w b)) w))) (and u v))" = Ok (t, set_ctr 1 px).
Proof.
  exists (nodeN NT_AND "and" [pa; pb]). split; [|split; [reflexivity|vm_compute; reflexivity]].
  apply (d_let (xk false) px false 0 [] _ _ [T NT_LET_BIND_VAR_LIST boolS [] [pa; pb]] (nodeN NT_AND "and" [pa; pb]) 1); [reflexivity| |reflexivity].
  apply (dl_body (xk false) px 1 [] [(word "u", A "a"); (word "v", SLet [(word "w", A "b")] (A "w"))]
    (SApp (word "and") [A "u"; A "v"]) [pa; pb] (nodeN NT_AND "and" [pa; pb])); [discriminate|repeat constructor; discriminate| |discriminate|].
  - eapply ds_cons; [dvar|]. eapply ds_cons; [|apply ds_nil].
    apply (d_let (xk false) px true 1 [] _ _ [T NT_LET_BIND_VAR_LIST boolS [] [pb]] pb 1); [reflexivity| |reflexivity].
    apply (dl_body (xk false) px 1 [] [(word "w", A "b")] (A "w") [pb] pb); [discriminate|repeat constructor; discriminate| |discriminate|].
    + eapply ds_cons; [dvar|apply ds_nil].
    + apply d_bound; [apply tok_word|reflexivity|reflexivity].
  - apply (d_op (xk false) px true 1 _ (word "and") _ [pa; pb] 1);
      [apply tok_word|reflexivity|left; reflexivity| |vm_compute; reflexivity|reflexivity].
    eapply ds_cons; [apply d_bound; [apply tok_word|reflexivity|reflexivity]|].
    eapply ds_cons; [apply d_bound; [apply tok_word|reflexivity|reflexivity]|apply ds_nil].
Qed.
(** lets kept: an inner let's variable is used for the outer one of the same name.
    SMT-LIB: the value is (not a); the parser's answer is a. *)
Theorem C34_rebound_refuted : yields (runs true "(let ((x (let ((x a)) (not x)))) x)") (fun I e => Sem.holds I e pa).
Proof. eexists _, _. split; [vm_compute; reflexivity|]. intros I e. reflexivity. Qed.
Print Assumptions C34_rebound_refuted.
(** ... and it is visible outside its let, where SMT-LIB means the declared x (here: none,
    an error) *)
Theorem C34_leak_refuted : yields (runs true "(let ((y (let ((w a)) w))) (and y w))")
    (fun I e => Sem.holds I e pa) /\ runs true "(let ((y a)) (and y w))" = Exit.
Proof.
  split; [|vm_compute; reflexivity]. eexists _, _. split; [vm_compute; reflexivity|]. intros I e. cbn.
  unfold Sem.holds. cbn. destruct (Sem.truth _); reflexivity.
Qed.
Print Assumptions C34_leak_refuted.
(** a binding sees the bindings before it, in both modes *)
Theorem C34_sequential_refuted : yields (runs true "(let ((a b) (z a)) z)") (fun I e => Sem.holds I e pb) /\
  yields (runs false "(let ((a b) (z a)) z)") (fun I e => Sem.holds I e pb).
Proof. split; (eexists _, _; split; [vm_compute; reflexivity|]; intros I e; reflexivity). Qed.
Print Assumptions C34_sequential_refuted.
(** legal inputs that end the program: shadowing an enclosing let, and (lets kept) using a name
    in two lets side by side inside a third *)
Theorem C34_shadow_refuted : runs true "(let ((y a)) (let ((y b)) y))" = Exit /\
  runs false "(let ((y a)) (let ((y b)) y))" = Exit /\
  runs true "(let ((u (and (let ((y a)) y) (let ((y b)) y)))) u)" = Exit.
Proof. repeat split; vm_compute; reflexivity. Qed.
Print Assumptions C34_shadow_refuted.

(** ** C35: quantifiers *)
(** One quantifier: the body is read with every variable bound, then no variable is left *)
Theorem C35_quant_partial : forall x p (fa : bool) vs ss b t q c' tx, x_file x = false -> top_state x p ->
  Forall2 (fun (v : token * so) s => is_tok (fst v) /\ dsort p (snd v) s) vs ss ->
  den x p false (p_ctr p) (combine (names vs) (quant_nodes vs ss) ++ []) b t c' ->
  mkOper (x_c x) boolS (if fa then NT_FORALL else NT_EXISTS) (t :: quant_nodes vs ss) = Ok q ->
  scoped p false [] [] (SQuant fa vs b) = Some [] -> lexes plain_word tx (render (SQuant fa vs b)) ->
  exists p', mkExpr x p tx = Ok (q, p') /\ top_state x p' /\ same_decls p p'.
Proof.
  intros x p fa vs ss b t q c' tx Hf Ht Hv Hb Hq Hs Hx.
  destruct (mk_expr_ok x p (SQuant fa vs b) q c' tx Ht) as (p' & E & T' & _ & S'); eauto.
  eapply d_quant; eassumption.
Qed.
Print Assumptions C35_quant_partial.
(** the variables of a quantifier are those written, with their sorts, in order *)
Theorem C35_variables : forall vs ss, length vs = length ss ->
  map t_name (quant_nodes vs ss) = names vs /\ map t_sort (quant_nodes vs ss) = ss.
Proof. exact quant_nodes_ok. Qed.
Print Assumptions C35_variables.
Definition qv (n : string) (s : sort) : term := T NT_QUANT_VAR s (L n) [].
Example C35_ex : runs true "(forall ((x Bool) (w (_ BitVec 8))) (exists ((y Int)) (or x a)))" =
  Ok (nodeN NT_FORALL "forall" [nodeN NT_EXISTS "exists" [nodeN NT_OR "or" [qv "x" boolS; pa]; qv "y" intS];
        qv "x" boolS; qv "w" (bvS 8)], set_srt [(L "BV_8", bvS 8)] px)
  /\ scoped px false [] [] (SQuant true [(word "x", SoName (word "Bool")); (word "w", SoBV (L "8"))]
       (SQuant false [(word "y", SoName (word "Int"))] (SApp (word "or") [A "x"; A "a"]))) = Some [].
Proof. split; vm_compute; reflexivity. Qed.
(** the end of an inner quantifier over the same name takes the outer variable away *)
Theorem C35_rebind_refuted : runs true "(forall ((y Bool)) (and (exists ((y Bool)) a) y))" = Exit /\
  (* an inner variable of another sort is the outer variable *)
  runs true "(forall ((y Int)) (exists ((y Bool)) (or a y)))" = Exit /\
  (* a let variable hides an inner quantified one *)
  yields (runs true "(let ((y a)) (exists ((y Bool)) y))") (fun I e => Sem.holds I e (nodeN NT_EXISTS "exists" [pa; qv "y" boolS])).
Proof.
  split; [vm_compute; reflexivity|]. split; [vm_compute; reflexivity|].
  eexists _, _. split; [vm_compute; reflexivity|]. intros I e. reflexivity.
Qed.
Print Assumptions C35_rebind_refuted.

(** ** C47: names *)
(** a declared name stands for its declaration, also under the other spelling |x| or x *)
Theorem C47_lookup_partial : forall x p k t tx, x_file x = false -> top_state x p -> is_tok k ->
  raw k <> L "true" -> raw k <> L "false" -> declared p (raw k) = Some t -> isErr t = false ->
  lexes plain_word tx [k] -> exists p', mkExpr x p tx = Ok (t, p') /\ same_decls p p'.
Proof.
  intros x p k t tx Hf Ht Hk H1 H2 Hd He Hx.
  destruct (mk_expr_ok x p (SAtom k) t (p_ctr p) tx Ht) as (p' & E & _ & _ & S'); eauto.
  now apply d_decl.
Qed.
Print Assumptions C47_lookup_partial.
(** a name that is neither declared nor a literal ends the program *)
Theorem C47_undeclared : forall x p k tx, x_file x = false -> top_state x p -> is_tok k ->
  raw k <> L "true" -> raw k <> L "false" -> declared p (raw k) = None ->
  (forall s, pconst x (raw k) s = None) -> lexes plain_word tx [k] -> mkExpr x p tx = Exit.
Proof. exact undeclared_exit. Qed.
Print Assumptions C47_undeclared.
Example C47_ex : declared px (L "|a|") = Some pa /\ declared px (L "b") = Some pb /\ declared px (L "zz") = None /\
  pconst (xk true) (L "zz") (CS px (Lx [] SM_SYMBOL)) = None /\
  runs true "zz" = Exit /\ runs true "|a|" = Ok (pa, px).
Proof. repeat split; vm_compute; reflexivity. Qed.
(** a function or parameter hides a quantified variable of the same name *)
Theorem C47_function_hides_refuted : exists f p, p_fun p = [(L "y", f)] /\ t_sort f = boolS /\
  mkExpr (xk true) p (L "(exists ((y Bool)) y)") = Ok (nodeN NT_EXISTS "exists" [f; qv "y" boolS], p).
Proof. exists pb, (set_fun [(L "y", pb)] px). repeat split; vm_compute; reflexivity. Qed.
Print Assumptions C47_function_hides_refuted.
(** after (root-obj e i) undeclared names are accepted *)
Theorem C47_undeclared_refuted : exists t p', runs true "(+ (root-obj x 1) nowhere_declared)" = Ok (t, p') /\
  declared px (L "nowhere_declared") = None.
Proof. eexists _, _. split; vm_compute; reflexivity. Qed.
Print Assumptions C47_undeclared_refuted.
(** Array sorts are cached under a text that does not determine them: with user
    sorts named A, A_B, B_C and C, (Array A B_C) read after (Array A_B C) is the sort read first. *)
Definition us (n : string) : sort := Srt SK_DEC (L n) 0 [].
Definition pu : pst := set_srt [(L "A", us "A"); (L "A_B", us "A_B"); (L "B_C", us "B_C"); (L "C", us "C")] pst0.
Theorem C47_sort_cache_refuted : exists p',
  mkExpr (xk true) pu (L "(forall ((u (Array A_B C)) (v (Array A B_C))) true)") =
    Ok (nodeN NT_FORALL "forall" [TRUE; qv "u" (arrayS (us "A_B") (us "C")); qv "v" (arrayS (us "A_B") (us "C"))], p').
Proof. eexists. vm_compute. reflexivity. Qed.
Print Assumptions C47_sort_cache_refuted.

(** ** C48: every text *)
(** Reading an expression from any text, in any state, does not run forever: the only way not
    to return is a term constructor that does not. *)
Theorem C48_terminates_partial : forall x p t, mkExpr x p t = NoFuel -> stuck x.
Proof. exact mkExpr_ends. Qed.
Print Assumptions C48_terminates_partial.
(** texts that lead to undefined behaviour: an input that ends early, a missing argument,
    an empty let *)
Theorem C48_ub_refuted : runs true "(" = UB /\ runs true "(and a b" = UB /\ runs true "(not)" = UB /\
  runs true "(let () a)" = UB /\ runs false "(let ((y a)))" = UB.
Proof. repeat split; vm_compute; reflexivity. Qed.
Print Assumptions C48_ub_refuted.
