(** Further theorems for C12, C33, C40, C50, C51, C52, added after tests of the other theorems against wrong programs. *)
From Coq Require Import QArith Qcanon Permutation.
From Verif Require Import Base BVProofs2 LexSpec LexProofs KindModel SortModel TermModel UtilModel UtilSpec NumModel SimpModel OpModel Sem OpSpec OpProofs5 LexModel
  ParseModel ParseSpec ParseProofs ParseProofs2 ParseTerm ParseLits MeanLits CtorModel CtorSpec CtorProofs CtorProofs2 OpExamples PropsParse PropsCommand PropsCtor TraverseModel EvalModel EvalSpec EvalMore PropsEval.
Open Scope Z_scope.

(** ** C33: constants written as words *)
(** each row: the word, the kind, the sort and the name of the node *)
Definition word_constants (x : pcfg) : list (string * (kind * sort * string)) :=
  let num := if c_int (x_c x) then intS else realS in
  [("pi", (NT_CONST_PI, realS, "pi")); ("e", (NT_CONST_E, realS, "e"));
   ("inf", (NT_INFINITY, num, "INF")); ("+inf", (NT_POS_INFINITY, num, "+INF")); ("-inf", (NT_NEG_INFINITY, num, "-INF"));
   ("NaN", (NT_NAN, extS, "NaN")); ("+epsilon", (NT_POS_EPSILON, extS, "+EPSILON")); ("-epsilon", (NT_NEG_EPSILON, extS, "-EPSILON"));
   ("re.none", (NT_CONST, regS, "re.none")); ("re.all", (NT_CONST, regS, "re.all")); ("re.allchar", (NT_CONST, regS, "re.allchar"));
   ("RNE", (NT_CONST, rmS, "RNE")); ("roundNearestTiesToEven", (NT_CONST, rmS, "RNE")); ("RNA", (NT_CONST, rmS, "RNA")); ("roundNearestTiesToAway", (NT_CONST, rmS, "RNA"));
   ("RTP", (NT_CONST, rmS, "RTP")); ("roundTowardPositive", (NT_CONST, rmS, "RTP")); ("RTN", (NT_CONST, rmS, "RTN")); ("roundTowardNegative", (NT_CONST, rmS, "RTN"));
   ("RTZ", (NT_CONST, rmS, "RTZ")); ("roundTowardZero", (NT_CONST, rmS, "RTZ"))]%string.
Theorem C33_word_constants : forall x w k s n, In (w, (k, s, n)) (word_constants x) -> lit_of x (L w) (T k s (L n) []).
Proof.
  intros x w k s n H. cbn [word_constants In] in H. eexists.
  repeat (destruct H as [H|H]; [injection H as <- <- <- <-; reflexivity|]). destruct H.
Qed.
Print Assumptions C33_word_constants.
(** the special floating-point values of a sort: (_ NaN e g), (_ +oo e g), (_ +zero e g), ... *)
Definition fp_values : list (string * kind) :=
  [("NaN", NT_NAN); ("+oo", NT_POS_INFINITY); ("-oo", NT_NEG_INFINITY); ("+zero", NT_CONST); ("-zero", NT_CONST)]%string.
Definition fp_value_toks (w : string) (e g : Z) : list token := [TL; word "_"; word w; TWord (Idec e); TWord (Idec g); TR].
Theorem C33_fp_values : forall x p w k e g tx, In (w, k) fp_values -> 0 <= e < 2 ^ 64 -> 0 <= g < 2 ^ 64 -> x_file x = false ->
  lexes plain_word tx (fp_value_toks w e g) ->
  mkExpr x p tx = Ok (T k (fpS (L "FP") e g) (L "(_ " ++ L w ++ L " " ++ Idec e ++ L " " ++ Idec g ++ L ")") [], p).
Proof.
  intros x p w k e g tx Hw He Hg Hx Ht. assert (Hn : tx <> []) by (intros ->; apply lexes_len in Ht; cbn in Ht; lia).
  unfold mkExpr. destruct tx as [|c0 tx]; [congruence|]. set (s := CS p (scan (c0 :: tx))).
  assert (Ha : at_toks (sl s) (fp_value_toks w e g)) by now apply at_scan. unfold fp_value_toks in Ha.
  assert (Hu : exists f, pexpr_fuel s = S f) by (unfold pexpr_fuel; eexists; rewrite Nat.add_comm; reflexivity).
  destruct Hu as (f & ->). cbn [pexpr].
  destruct (atc_L _ _ Ha) as [-> _]. cbn [negb].
  destruct (lpar_tok _ _ Ha) as (l & -> & Hl). cbn [bind].
  destruct (atc_A (CS (sp s) l) _ _ Hl (word_tok _)) as [-> _].
  destruct (sym_tok x (CS (sp s) l) _ _ Hl (word_tok _)) as (l1 & -> & Hl1); [discriminate|].
  cbn [bind fst snd sp]. rewrite raw_word. change (seqs (L "_") "exists" || seqs (L "_") "forall") with false.
  change (seqs (L "_") "_") with true. cbn iota.
  destruct (sym_tok x (CS (sp s) l1) _ _ Hl1 (word_tok _)) as (l2 & -> & Hl2); [discriminate|].
  cbn [bind fst snd sp]. rewrite raw_word.
  assert (N : is_prefix (L "bv") (L w) = false /\ fp_special_name (L w) = true /\
    fp_special (L w) (Idec e) (Idec g) e g = T k (fpS (L "FP") e g) (L "(_ " ++ L w ++ L " " ++ Idec e ++ L " " ++ Idec g ++ L ")") []).
  { cbn [fp_values In] in Hw. repeat (destruct Hw as [Hw|Hw]; [injection Hw as <- <-; repeat split|]). destruct Hw. }
  destruct N as (-> & -> & N). cbn iota.
  destruct (sym_tok x (CS (sp s) l2) _ _ Hl2 (tword_tok _)) as (l3 & -> & Hl3); [discriminate|]. cbn [bind fst snd sp raw].
  destruct (sym_tok x (CS (sp s) l3) _ _ Hl3 (tword_tok _)) as (l4 & -> & Hl4); [discriminate|]. cbn [bind fst snd sp raw].
  rewrite !stoul_Idec by (unfold two64; lia). cbn [bind].
  destruct (rpar_tok (CS (sp s) l4) _ Hl4) as (l5 & -> & Hl5). cbn [bind fst snd sp]. rewrite N. reflexivity.
Qed.
Print Assumptions C33_fp_values.
Example C33_fp_values_ex : mkExpr (xk true) px (L "(_ +oo 8 24)") = Ok (T NT_POS_INFINITY (fpS (L "FP") 8 24) (L "(_ +oo 8 24)") [], px) /\
  lexes plain_word (L "(_ NaN 8 24)") (fp_value_toks "NaN" 8 24).
Proof. split; [vm_compute; reflexivity|]. change (Idec 8) with (L "8"). cbn. lw. wdd "_"%string. lw. wdd "NaN"%string. lw. wd "8"%string. lw. wd "24"%string. lw. Qed.

(** ** C40: the remainder *)
Theorem C40_mod_zero : forall x, n_mod false (NI x) (NI 0) = Throw DomainError.
Proof. reflexivity. Qed.
Print Assumptions C40_mod_zero.
(** what % computes for all signs: the remainder of division towards zero *)
Theorem C40_mod_truncated : forall x y, y <> 0 -> exists r q, n_mod false (NI x) (NI y) = Ok (NI r) /\ x = y * q + r /\ Z.abs r < Z.abs y /\ 0 <= r * x.
Proof.
  intros x y H. exists (Z.rem x y), (Z.quot x y). unfold n_mod, n_ip. cbn [condAssert bind]. rewrite (proj2 (Z.eqb_neq y 0) H).
  split; [reflexivity|]. split; [apply Z.quot_rem'|]. split; [now apply Z.rem_bound_abs|now apply Z.rem_sign_mul].
Qed.
Print Assumptions C40_mod_truncated.
Example C40_mod_ex : n_mod false (NI (-7)) (NI 2) = Ok (NI (-1)) /\ n_mod false (NI 7) (NI (-2)) = Ok (NI 1).
Proof. split; reflexivity. Qed.

(** ** C12: string literals *)
Theorem C12_string_literal : forall s, isString s = true <-> exists r, s = """"%char :: r /\ last s nul = """"%char.
Proof.
  intros s. unfold isString. destruct s as [|c r]; [split; [discriminate|intros (r & E & _); discriminate]|].
  rewrite andb_true_iff, !aeq_true. split; [intros [-> H]; now exists r|intros (r' & E & H); injection E as -> _; now split].
Qed.
Print Assumptions C12_string_literal.
Example C12_string_ex : isString (L """a b""") = true /\ isString [] = false /\ isString (L "abc") = false.
Proof. repeat split. Qed.

(** ** C51: a floating-point comparison of several arguments is the conjunction of the comparisons of neighbours *)
Fixpoint neighbour_pairs (ps : list term) : list (term * term) :=
  match ps with a :: ((b :: _) as tl) => (a, b) :: neighbour_pairs tl | _ => [] end.
Definition fp_comparisons : list string := ["fp.leq"; "fp.lt"; "fp.geq"; "fp.gt"; "fp.eq"]%string.
Theorem C51_fp_chain : forall x ptr p op e g ps, cfg_ok (x_c x) -> In op fp_comparisons -> (2 < length ps)%nat -> Forall (fun t => typed t (TFP e g)) ps ->
  mget (L op) (p_fun p) = None ->
  exists ts, Forall2 (fun ab t => parseOper (with_ops x ptr) p (L op) [] [fst ab; snd ab] = Ok t) (neighbour_pairs ps) ts /\
    decides (parseOper (with_ops x ptr) p (L op) [] ps) (fun I e => forallb (holds I e) ts).
Proof.
  intros x ptr p op e g ps Hc Ho Hl HF M.
  assert (X : exists k, In k [NT_FP_LE; NT_FP_LT; NT_FP_GE; NT_FP_GT; NT_FP_EQ] /\
    forall qs, parseOper (with_ops x ptr) p (L op) [] qs = mkFpCmps (x_c x) k qs).
  { cbn [fp_comparisons In] in Ho. repeat (destruct Ho as [ <- |Ho]; [eexists; split; [|intros qs; unfold parseOper; rewrite M; reflexivity]; cbn; tauto|]). destruct Ho. }
  destruct X as (k & Hk & X). set (c := x_c x) in *.
  assert (Y : forall a b, typed a (TFP e g) -> typed b (TFP e g) -> mkFpCmp c k a b = Ok (mkInternal c boolS k [a; b])).
  { intros a b A1 A2. unfold mkFpCmp. rewrite (sis_fp _ _ _ A1), (sis_fp _ _ _ A2). cbn [negb orb].
    apply mkOper_fp; [|discriminate|right; discriminate]. cbn [In] in Hk. repeat (destruct Hk as [ <- |Hk]; [reflexivity|]). destruct Hk. }
  set (ts := map (fun ab => mkInternal c boolS k [fst ab; snd ab]) (neighbour_pairs ps)).
  assert (Z : fp_chain c k ps = Ok ts /\ Forall (fun ab => typed (fst ab) (TFP e g) /\ typed (snd ab) (TFP e g)) (neighbour_pairs ps)).
  { subst ts. clear -Y HF. induction HF as [|a ps Ha HF IH]; [split; [reflexivity|constructor]|].
    destruct HF as [|b ps Hb HF]; [split; [reflexivity|constructor]|]. destruct IH as [IH1 IH2].
    change (fp_chain c k (a :: b :: ps)) with (t <- mkFpCmp c k a b ;; ts <- fp_chain c k (b :: ps) ;; Ok (t :: ts)).
    change (neighbour_pairs (a :: b :: ps)) with ((a, b) :: neighbour_pairs (b :: ps)).
    rewrite (Y a b Ha Hb). cbn [bind]. rewrite IH1. cbn [bind]. split; [reflexivity|constructor; auto]. }
  destruct Z as [Z1 Z2]. exists ts. split.
  - subst ts. clear Z1. induction Z2 as [|[a b] l [H1 H2] _ IH]; [constructor|]. cbn [map fst snd]. constructor; [|exact IH].
    cbn [fst snd]. rewrite X. unfold mkFpCmps. cbn [length Nat.leb]. rewrite BVProofs.condAssert_true. cbn [bind]. now apply Y.
  - rewrite X. assert (E : mkFpCmps c k ps = mkAnd c ts).
    { unfold mkFpCmps. replace (Nat.leb 2 (length ps)) with true by (symmetry; apply Nat.leb_le; lia). rewrite BVProofs.condAssert_true. cbn [bind].
      destruct ps as [|a [|b [|d ps]]]; cbn [length] in Hl; try lia. now rewrite Z1. }
    rewrite E. apply mkAnd_sound; [exact Hc|]. split.
    + intros t Ht Hct. exfalso. subst ts. apply in_map_iff in Ht. destruct Ht as (ab & <- & _). revert Hct. cbn [mkInternal isConst].
      cbn [In] in Hk. repeat (destruct Hk as [ <- |Hk]; [discriminate|]). destruct Hk.
    + intros t Ht. subst ts. apply in_map_iff in Ht. destruct Ht as (ab & <- & _). cbn [In] in Hk.
      repeat (destruct Hk as [ <- |Hk]; [split; reflexivity|]). destruct Hk.
Qed.
Print Assumptions C51_fp_chain.
Example C51_fp_chain_ex : match reads "(fp.lt f (fp.abs f) (fp.neg f))" with Ok t => map t_kind (t_ch t) | _ => [] end = [NT_FP_LT; NT_FP_LT].
Proof. vm_compute. reflexivity. Qed.

(** ** C52: fp.sqrt and fp.roundToIntegral test the sort of their number *)
Theorem C52_fp_rounding_rejected : forall x ptr p op ps t, In op ["fp.sqrt"; "fp.roundToIntegral"]%string -> ps = [t] \/ (exists m, ps = [m; t] /\ isErr m = false) ->
  s_kind (t_sort t) <> SK_FP -> isErr t = false -> mget (L op) (p_fun p) = None -> parseOper (with_ops x ptr) p (L op) [] ps = Exit.
Proof.
  intros x ptr p op ps t Ho Hp Hs He M.
  assert (S : sis SK_FP t = false). { unfold sis. now destruct (t_sort t) as [[] ? ? ?]. }
  cbn [In] in Ho. destruct Hp as [ -> |(m & -> & Hm)]; destruct Ho as [ <- |[ <- |[]]]; unfold parseOper; rewrite M; cbn; rewrite ?S, ?Hm, ?He; reflexivity.
Qed.
Print Assumptions C52_fp_rounding_rejected.
Example C52_fp_rounding_ex : reads "(fp.sqrt x)" = Exit /\ reads "(fp.roundToIntegral RNE u)" = Exit.
Proof. split; vm_compute; reflexivity. Qed.

(** ** C39: exclusive or under a partial assignment *)
(** variables and constants under an exclusive or; the model gives some of the variables Boolean terms whose
    comparisons have two arguments *)
Theorem C39_xor_partial : forall c ptr m n ch b o, cfg_ok c -> m_isEmpty m = false -> (2 <= length ch)%nat -> Forall bool_leaf ch ->
  (forall x v, In x ch -> isVar x = true -> m_get x m = Ok v -> isUnknown v = false -> negatable c v) ->
  evaluate c ptr m (T NT_XOR boolS n ch) = Ok (b, o) ->
  exists v, o = Some v /\ forall I e, (forall x, In x ch -> EvalSpec.agrees I e m x) -> holds I e v = xors (map (holds I e) ch).
Proof. intros c ptr m n ch b o Hc Em Hl F Hm H. exact (xor_eval c ptr m Hc Em boolS n ch eq_refl Hl F Hm b o H). Qed.
Print Assumptions C39_xor_partial.
Example C39_xor_ex :
  let q := bvar (L "q") in let m := getm (madd pa TRUE (Ok newModel)) in
  Forall bool_leaf [pa; q; FALSE] /\ (forall x v, In x [pa; q; FALSE] -> isVar x = true -> m_get x m = Ok v -> isUnknown v = false -> negatable c0 v) /\
  evaluate c0 (fun l => l) m (T NT_XOR boolS (L "xor") [pa; q; FALSE]) = Ok (true, Some (T NT_NOT boolS (L "not") [q])).
Proof.
  cbv zeta. split; [|split].
  - constructor; [right; right; exists NT_VAR, (L "a"); split; reflexivity|]. constructor; [right; right; exists NT_VAR, (L "q"); split; reflexivity|]. constructor; [right; left; reflexivity|constructor].
  - intros x v [<-|[<-|[<-|[]]]] _ E U; [|vm_compute in E; injection E as <-; discriminate U|vm_compute in E; injection E as <-; discriminate U].
    assert (v = TRUE) as -> by (vm_compute in E; injection E as <-; reflexivity). exact (negatable_const c0 true).
  - vm_compute. reflexivity.
Qed.
