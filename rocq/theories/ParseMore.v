(** Consequences of the parser theorems for single constructs. *)
From Verif Require Import Base LexSpec LexProofs KindModel SortModel TermModel UtilModel Sem SemProofs
  SimpModel OpModel LexModel ParseModel ParseSpec ParseProofs ParseProofs2.
Open Scope Z_scope.

Lemma let_val_eval x v c t I e : Sem.eval I e (let_val x v c t) = Sem.eval I e t.
Proof. unfold let_val. destruct (x_keep x); reflexivity. Qed.
Lemma chain_eval ls t I e : Sem.eval I e (mkLetChain ls t) = Sem.eval I e t.
Proof.
  unfold mkLetChain. apply eval_op; [destruct ls; discriminate|reflexivity|].
  rewrite map_app. cbn [map op_sem]. destruct (map (Sem.eval I e) ls ++ [Sem.eval I e t]) eqn:E.
  - destruct (map _ ls); discriminate.
  - rewrite <- E. now rewrite last_last.
Qed.
Lemma let_ok x p bs b ts t tx : x_file x = false -> top_state x p ->
  bs <> [] -> Forall (fun q => is_tok (fst q)) bs -> (forall bs' b', b <> SLet bs' b') ->
  let c := p_ctr p + 1 in
  dens x p true c [] (map snd bs) ts c ->
  den x p true c (combine (names bs) (let_vals x bs c ts) ++ []) b t c -> isErr t = false ->
  scoped p false [] [] (SLet bs b) = Some [] -> lexes plain_word tx (render (SLet bs b)) ->
  exists u p', mkExpr x p tx = Ok (u, p') /\ top_state x p' /\ same_decls p p' /\
    (x_keep x = false -> u = t) /\ forall I e, Sem.eval I e u = Sem.eval I e t.
Proof.
  intros Hf Ht Hn Hk Hb c Hd Hy He Hs Hx. set (l := T NT_LET_BIND_VAR_LIST (t_sort (hd NULLT ts)) [] (let_vals x bs c ts)).
  destruct (mk_expr_ok x p (SLet bs b) (if x_keep x then mkLetChain [l] t else t) c tx Ht) as (p' & E & T' & _ & S'); auto.
  { eapply d_let; [reflexivity| |exact He]. fold c. apply dl_body; assumption. }
  eexists _, p'. split; [exact E|]. split; [exact T'|]. split; [exact S'|]. split.
  - intros ->. reflexivity.
  - intros I e. destruct (x_keep x); [apply chain_eval|reflexivity].
Qed.
Lemma quant_nodes_ok vs : forall ss, length vs = length ss ->
  map t_name (quant_nodes vs ss) = names vs /\ map t_sort (quant_nodes vs ss) = ss.
Proof.
  unfold quant_nodes, names. induction vs as [|v vs IH]; intros [|s ss] H; try discriminate; [split; reflexivity|].
  cbn. destruct (IH ss) as [-> ->]; [now injection H|]. split; reflexivity.
Qed.
Lemma undeclared_exit x p k tx : x_file x = false -> top_state x p -> is_tok k ->
  raw k <> L "true" -> raw k <> L "false" -> declared p (raw k) = None ->
  (forall s, pconst x (raw k) s = None) -> lexes plain_word tx [k] -> mkExpr x p tx = Exit.
Proof.
  intros Hf Ht Hk H1 H2 Hd Hc Hx. unfold mkExpr. destruct tx as [|a tx].
  { exfalso. apply lexes_len in Hx. cbn in Hx. lia. }
  set (s := CS p (scan (a :: tx))). assert (Ha : at_toks (sl s) [k]) by now apply at_scan.
  destruct (top_base x p Ht) as [B N].
  destruct (pexpr_fuel s) eqn:F; [unfold pexpr_fuel in F; lia|]. cbn [pexpr].
  destruct (atc_A s k [] Ha Hk) as [-> _]. cbn [negb].
  destruct (sym_tok x s k [] Ha Hk) as (l & -> & Hl); [congruence|]. cbn [bind fst snd].
  unfold pname. rewrite (seqs_no _ _ H1), (seqs_no _ _ H2). cbn [sp]. change (sp s) with p.
  rewrite (b_aph _ _ _ _ _ _ B), (lookup_free x p false (p_ctr p) [] [] p (raw k) B N eq_refl) by discriminate.
  rewrite Hd, Hc. reflexivity.
Qed.
