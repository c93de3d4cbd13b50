(** Every command, then scripts. *)
From Verif Require Import Base LexSpec LexProofs KindModel SortModel TermModel UtilModel SimpModel OpModel LexModel
  ParseModel ParseSpec ParseProofs ParseProofs2 ParseLits ApplyModel CommandModel CommandSpec CommandProofs.
From Verif Require UtilSpec UtilProofs.
Open Scope Z_scope.

Lemma ren_ne e ks : ks <> [] -> render e ++ ks <> [].
Proof. intros H. destruct (render e); [exact H|discriminate]. Qed.
Lemma so_ne e ks : render_so e ++ ks <> [].
Proof. destruct e; discriminate. Qed.

Lemma attrs_ne l ks : ks <> [] -> render_attrs l ++ ks <> [].
Proof. intros H. destruct (render_attrs l); [exact H|discriminate]. Qed.
Ltac ne := intros; repeat first [discriminate | assumption | apply so_ne | apply attrs_ne | apply ren_ne].
Ltac seqr := repeat match goal with |- context [seqs (L ?a) ?b] =>
  let v := eval vm_compute in (seqs (L a) b) in change (seqs (L a) b) with v; cbn iota end.
Ltac dispatch Ha := unfold pcommand; cbv zeta;
  let l := fresh "l" in let Hl := fresh "Hl" in
  match type of Ha with at_toks (sl ?s) (word ?w :: _) =>
    match goal with |- context [sym ?x s] =>
      destruct (sym_tok x s _ _ Ha (word_tok w)) as (l & -> & Hl);
      [solve [ne]|
       cbn [bind fst snd sp]; rewrite (raw_word w); seqr] end end.

Definition does (b : pcfg) (file : bool) (s : cs) (g : ctx) (p' : pst) (g' : ctx) (ks : list token) : Prop :=
  exists s1 s2, pcommand b file s g = Ok (false, s1, g') /\ rparc s1 = Ok s2 /\ at_toks (sl s2) ks /\ hold p' (sp s2).

Lemma finish s ks p : at_toks (sl s) (TR :: ks) -> hold p (sp s) ->
  exists s2, rparc (skipc s) = Ok s2 /\ at_toks (sl s2) ks /\ hold p (sp s2).
Proof. intros Ha Hp. destruct (skip_end s [] ks Ha bal_nil) as (l & E & Hl). eauto. Qed.
Section Cmds.
Context (b : pcfg) (file : bool).

(** ** assert *)
Lemma assert_plain x s g e t c p ks : no_colon e -> means x p e t c -> hold p (sp s) ->
  at_toks (sl s) (render e ++ TR :: ks) ->
  exists s', pAssert x s g = Ok (s', set_as (g_as g ++ [t]) g) /\ at_toks (sl s') (TR :: ks) /\ hold (set_ctr c p) (sp s').
Proof.
  intros Hc Hm Hp Ha. unfold pAssert. rewrite (kw_none x s _ Ha) by (eapply nocol_app; eassumption). cbn [bind fst snd].
  destruct (expr_at x p e t c s _ Hp Hm Ha) as (s1 & -> & Ha1 & Hp1); [discriminate|]. cbn [bind fst snd].
  unfold opt_id. rewrite (kw_none x s1 _ Ha1 (nocol_TR _)). cbn [bind fst snd].
  rewrite (kw_none x s1 _ Ha1 (nocol_TR _)). cbn [bind fst snd]. exists s1. split; [|auto].
  destruct g. reflexivity.
Qed.
Lemma c_assert p g e t c s ks : no_colon e -> means (xo b file (g_opt g)) p e t c -> hold p (sp s) ->
  at_toks (sl s) (render_cmd (CAssert e) ++ TR :: ks) ->
  does b file s g (set_ctr c p) (set_as (g_as g ++ [t]) g) ks.
Proof.
  intros Hc Hm Hp Ha. cbn [render_cmd app] in Ha. unfold does. dispatch Ha.
  destruct (assert_plain _ (CS (sp s) l) g e t c p ks Hc Hm Hp Hl) as (s1 & -> & Ha1 & Hp1). cbn [bind fst snd].
  destruct (finish s1 ks _ Ha1 Hp1) as (s2 & E & Ha2 & Hp2). exists (skipc s1), s2. auto.
Qed.
Lemma c_named p g e n t c s ks : is_tok n -> raw n <> [] -> means (xo b file (g_opt g)) p e t c -> hold p (sp s) ->
  at_toks (sl s) (render_cmd (CAssertNamed e n) ++ TR :: ks) ->
  does b file s g (set_named (mset (raw n) t (p_named p)) (set_ctr c p)) (set_as (g_as g ++ [t]) g) ks.
Proof.
  intros Hn Hnn Hm Hp Ha. cbn [render_cmd app] in Ha. unfold does. dispatch Ha.
  repeat (rewrite <- app_assoc in Hl; cbn [app] in Hl).
  set (x := xo b file (g_opt g)) in *. unfold pAssert.
  rewrite (kw_none x (CS (sp s) l) _ Hl) by (exists TL; eexists; split; [reflexivity|discriminate]).
  cbn [bind fst snd].
  assert (E : exists s1, pexpr' x (CS (sp s) l) = Ok (t, s1) /\ at_toks (sl s1) (TR :: ks) /\
    hold (set_named (mset (raw n) t (p_named p)) (set_ctr c p)) (sp s1)).
  { unfold pexpr'. unfold pexpr_fuel at 1. cbn [sl].
    pose proof (at_len _ _ Hl) as Hln. cbn [length] in Hln. rewrite app_length in Hln.
    match goal with |- context [pexpr ?f x] => remember f as fu eqn:Ef end. destruct fu as [|f]; [lia|].
    cbn [pexpr]. destruct (atc_L (CS (sp s) l) _ Hl) as [-> _]. cbn [negb].
    destruct (lpar_tok (CS (sp s) l) _ Hl) as (l0 & E0 & Hl0). rewrite E0. cbn [bind sp].
    destruct (atc_A (CS (sp s) l0) _ _ Hl0 (word_tok _)) as [-> _].
    destruct (sym_tok x (CS (sp s) l0) _ _ Hl0 (word_tok _)) as (l1 & -> & Hl1).
    { intros _. apply ren_ne. discriminate. }
    cbn [bind fst snd sp]. rewrite raw_word. seqr. cbn [orb]. cbn iota. seqr.
    destruct Hp as (Hs & T & C). pose proof Hs as (A1 & A2 & A3 & A4 & A5 & A6). destruct Hm as [HD HS].
    destruct (parse_expr_len x (sp s) e t c (CS (sp s) l1) (word ":named" :: n :: TR :: TR :: ks) f eq_refl (T x))
      as (s' & E & Ha' & T' & C' & S'); auto.
    - rewrite C. apply (den_mono x p (sp s)); assumption.
    - rewrite <- HS. now apply scoped_same.
    - discriminate.
    - lia.
    - rewrite E. cbn [bind fst snd]. cbn [app] in Ha'.
      destruct (kw_named x s' _ Ha') as (l2 & -> & Hl2); [discriminate|]. cbn [bind fst snd].
      destruct (sym_tok x (CS (sp s') l2) _ _ Hl2 Hn) as (l3 & -> & Hl3); [discriminate|]. cbn [bind fst snd sp].
      set (s4 := onp _ _).
      destruct (rpar_tok s4 _ Hl3) as (l5 & -> & Hl5). cbn [bind]. eexists. split; [reflexivity|].
      split; [exact Hl5|]. subst s4. cbn [onp sp].
      assert (Hp' : hold (set_ctr c p) (sp s')).
      { split; [apply same_ctr, (same_trans p (sp s)); assumption|]. split; [|exact C']. intros y. eapply top_any; eassumption. }
      assert (Ee : p_named (sp s') = p_named p) by apply Hp'. rewrite Ee. now apply hold_named. }
  destruct E as (s1 & -> & Ha1 & Hp1). cbn [bind fst snd].
  unfold opt_id. rewrite (kw_none x s1 _ Ha1 (nocol_TR _)). cbn [bind fst snd].
  rewrite (kw_none x s1 _ Ha1 (nocol_TR _)). cbn [bind fst snd].
  destruct (finish s1 ks _ Ha1 Hp1) as (s2 & E & Ha2 & Hp2). exists (skipc s1), s2.
  split; [|auto]. destruct g; reflexivity.
Qed.

Lemma group_in id i m : in_group id i m = group_add id i m.
Proof. now destruct id. Qed.
Lemma c_id p g e i t c s ks : is_tok i -> means (xo b file (g_opt g)) p e t c -> hold p (sp s) ->
  at_toks (sl s) (render_cmd (CAssertId i e) ++ TR :: ks) ->
  does b file s g (set_ctr c p)
    (set_groups (in_group (raw i) (length (g_as g)) (g_groups g)) (set_as (g_as g ++ [t]) g)) ks.
Proof.
  intros Hi Hm Hp Ha. cbn [render_cmd app] in Ha. unfold does. dispatch Ha.
  set (x := xo b file (g_opt g)) in *. unfold pAssert.
  destruct (kw_some x (CS (sp s) l) AId _ Hl) as (l1 & -> & Hl1); [discriminate|]. cbn [kw_of bind fst snd sp].
  destruct (sym_tok x (CS (sp s) l1) _ _ Hl1 Hi) as (l2 & -> & Hl2). { intros _. apply ren_ne. discriminate. }
  cbn [bind fst snd sp].
  destruct (expr_at x p e t c (CS (sp s) l2) _ Hp Hm Hl2) as (s1 & -> & Ha1 & Hp1); [discriminate|]. cbn [bind fst snd].
  assert (E : (match raw i with [] => opt_id x s1 | _ :: _ => Ok (raw i, s1) end) = Ok (raw i, s1)).
  { destruct (raw i); [|reflexivity]. unfold opt_id. rewrite (kw_none x s1 _ Ha1 (nocol_TR _)). reflexivity. }
  rewrite E. cbn [bind fst snd].
  rewrite (kw_none x s1 _ Ha1 (nocol_TR _)). cbn [bind fst snd].
  destruct (finish s1 ks _ Ha1 Hp1) as (s2 & E2 & Ha2 & Hp2). exists (skipc s1), s2. rewrite group_in. auto.
Qed.
Lemma c_id2 p g e i t c s ks : is_tok i -> no_colon e -> means (xo b file (g_opt g)) p e t c -> hold p (sp s) ->
  at_toks (sl s) (render_cmd (CAssertIdAfter e i) ++ TR :: ks) ->
  does b file s g (set_ctr c p)
    (set_groups (in_group (raw i) (length (g_as g)) (g_groups g)) (set_as (g_as g ++ [t]) g)) ks.
Proof.
  intros Hi Hc Hm Hp Ha. cbn [render_cmd app] in Ha. rewrite <- app_assoc in Ha. cbn [app] in Ha. unfold does. dispatch Ha.
  set (x := xo b file (g_opt g)) in *. unfold pAssert.
  rewrite (kw_none x (CS (sp s) l) _ Hl) by (eapply nocol_app; eassumption). cbn [bind fst snd].
  destruct (expr_at x p e t c (CS (sp s) l) _ Hp Hm Hl) as (s1 & -> & Ha1 & Hp1); [discriminate|]. cbn [bind fst snd].
  unfold opt_id.
  destruct (kw_some x s1 AId _ Ha1) as (l1 & -> & Hl1); [discriminate|]. cbn [kw_of bind fst snd sp].
  destruct (sym_tok x (CS (sp s1) l1) _ _ Hl1 Hi) as (l2 & -> & Hl2); [discriminate|]. cbn [bind fst snd sp].
  rewrite (kw_none x (CS (sp s1) l2) _ Hl2 (nocol_TR _)). cbn [bind fst snd].
  destruct (finish (CS (sp s1) l2) ks _ Hl2 Hp1) as (s2 & E2 & Ha2 & Hp2). exists (skipc (CS (sp s1) l2)), s2. rewrite group_in. auto.
Qed.

(** ** assert-soft *)
Lemma weight_ok x v w : weight_of v w -> soft_weight x v = Ok w.
Proof.
  intros H. unfold soft_weight. destruct H as [|z Hz|ds es Hn Hd He].
  - reflexivity.
  - rewrite UtilProofs.Idec_isInt, UtilProofs.Idec_round. cbn [bind].
    destruct (Idec z) eqn:E; [|reflexivity]. pose proof (UtilProofs.Idec_isInt z) as I. rewrite E in I. discriminate.
  - set (v := ds ++ "."%char :: es).
    assert (R : isReal v = true).
    { apply UtilProofs.isReal_iff. split; [destruct ds; discriminate|]. left. now constructor. }
    assert (I : isInt v = false) by now apply dec_not_int.
    rewrite I, R. unfold pConstReal. rewrite R. cbn [orb].
    rewrite !(not_word isReal v) by (exact R || reflexivity). rewrite BVProofs.condAssert_true. cbn [bind].
    destruct v eqn:E; [|reflexivity]. subst v. now destruct ds.
Qed.
Lemma c_soft p g pre e post t c w s ks : attrs_ok [AId; AWeight] 2 pre -> attrs_ok [AId; AWeight] 2 post -> no_colon e ->
  means (xo b file (g_opt g)) p e t c -> weight_of (attr_val AWeight (pre ++ post)) w -> hold p (sp s) ->
  at_toks (sl s) (render_cmd (CAssertSoft pre e post) ++ TR :: ks) ->
  does b file s g (set_ctr c p)
      (set_sgroups (in_group (attr_val AId (pre ++ post)) (length (g_soft g)) (g_sgroups g))
         (set_soft (g_soft g ++ [t]) (g_wt g ++ [w]) g)) ks.
Proof.
  intros H1 H2 Hc Hm Hw Hp Ha. cbn [render_cmd app] in Ha. repeat rewrite <- app_assoc in Ha. unfold does. dispatch Ha.
  set (x := xo b file (g_opt g)) in *. unfold pAssertSoft.
  destruct (soft_ok x pre 2 [] [] (CS (sp s) l) _ H1 Hl) as (l1 & -> & Hl1); [eapply nocol_app; eassumption|].
  cbn [bind fst snd sp].
  destruct (expr_at x p e t c (CS (sp s) l1) _ Hp Hm Hl1) as (s1 & -> & Ha1 & Hp1); [apply attrs_ne; discriminate|].
  cbn [bind fst snd].
  destruct (soft_ok x post 2 (getd AId [] pre) (getd AWeight [] pre) s1 _ H2 Ha1 (nocol_TR _)) as (l2 & -> & Hl2).
  cbn [bind fst snd sp]. rewrite <- !getd_app, !getd_val. rewrite (weight_ok x _ w Hw). cbn [bind fst snd].
  destruct (finish (CS (sp s1) l2) ks _ Hl2 Hp1) as (s2 & E2 & Ha2 & Hp2). exists (skipc (CS (sp s1) l2)), s2. rewrite group_in. auto.
Qed.

(** ** objectives *)
Lemma comp_ok x logic (mx : bool) v c : comp_of logic mx v c ->
  (if is_nil v then defaultComp (c_dbg (x_c x)) logic (if mx then O_MAX else O_MIN) else Ok (getComp v)) = Ok c.
Proof.
  intros H. destruct H as [c H|v Hn].
  - cbn [is_nil]. unfold defaultComp in *. destruct mx; rewrite BVProofs.condAssert_true in *; exact H.
  - now destruct v.
Qed.
Lemma single_at p g pre e post t c mx o s ks x : attrs_ok [AId; AComp; AEps; AM] 4 pre -> attrs_ok [AId; AComp; AEps; AM] 4 post ->
  no_colon e -> means x p e t c -> objective_of (o_logic (g_opt g)) mx t (pre ++ post) o -> hold p (sp s) ->
  at_toks (sl s) (render_attrs pre ++ render e ++ render_attrs post ++ TR :: ks) ->
  exists s', pSingle x (if mx then O_MAX else O_MIN) s g = Ok (o, s', set_obj (g_obj g ++ [o]) g) /\
    at_toks (sl s') (TR :: ks) /\ hold (set_ctr c p) (sp s').
Proof.
  intros H1 H2 Hc Hm Ho Hp Ha. unfold pSingle.
  destruct (obj_ok x pre 4 (Attrs [] [] [] []) s _ H1 Ha) as (l1 & -> & Hl1); [eapply nocol_app; eassumption|].
  cbn [bind fst snd sp].
  destruct (expr_at x p e t c (CS (sp s) l1) _ Hp Hm Hl1) as (s1 & -> & Ha1 & Hp1); [apply attrs_ne; discriminate|].
  cbn [bind fst snd].
  destruct (obj_ok x post 4 (attrs_of (Attrs [] [] [] []) pre) s1 _ H2 Ha1 (nocol_TR _)) as (l2 & -> & Hl2).
  cbn [bind fst snd sp]. rewrite attrs_of_app. destruct Ho as [cc Hcc].
  assert (E : single_obj x (o_logic (g_opt g)) (if mx then O_MAX else O_MIN) t (attrs_of (Attrs [] [] [] []) (pre ++ post)) =
    Ok (Single (if mx then O_MAX else O_MIN) t cc
            (match attr_val AEps (pre ++ post) with [] => NULLT | _ => EPS_NODE end)
            (match attr_val AM (pre ++ post) with [] => NULLT | _ => inf_node NT_INFINITY intS end) (attr_val AId (pre ++ post)))).
  { unfold attrs_of, single_obj. cbn [a_comp a_eps a_m a_id]. rewrite !getd_val. pose proof (comp_ok x _ mx _ cc Hcc) as E.
    destruct mx; rewrite E; cbn [bind]; destruct (attr_val AEps _), (attr_val AM _); reflexivity. }
  rewrite E. cbn [bind fst snd]. exists (CS (sp s1) l2). auto.
Qed.
Lemma c_opt p g mx pre e post t c o s ks : attrs_ok [AId; AComp; AEps; AM] 4 pre -> attrs_ok [AId; AComp; AEps; AM] 4 post ->
  no_colon e -> means (xo b file (g_opt g)) p e t c -> objective_of (o_logic (g_opt g)) mx t (pre ++ post) o -> hold p (sp s) ->
  at_toks (sl s) (render_cmd (COptimize mx pre e post) ++ TR :: ks) ->
  does b file s g (set_ctr c p) (set_obj (g_obj g ++ [o]) g) ks.
Proof.
  intros H1 H2 Hc Hm Ho Hp Ha. cbn [render_cmd app] in Ha. repeat rewrite <- app_assoc in Ha. unfold does.
  assert (Hne : render_attrs pre ++ render e ++ render_attrs post ++ TR :: ks <> []).
  { apply attrs_ne, ren_ne, attrs_ne. discriminate. }
  set (R := render_attrs pre ++ _) in *.
  destruct mx; cbn [mx_name] in Ha; dispatch Ha.
  - destruct (single_at p g pre e post t c true o (CS (sp s) l) ks _ H1 H2 Hc Hm Ho Hp Hl) as (s1 & -> & Ha1 & Hp1). cbn [bind fst snd].
    destruct (finish s1 ks _ Ha1 Hp1) as (s2 & E2 & Ha2 & Hp2). exists (skipc s1), s2. auto.
  - destruct (single_at p g pre e post t c false o (CS (sp s) l) ks _ H1 H2 Hc Hm Ho Hp Hl) as (s1 & -> & Ha1 & Hp1). cbn [bind fst snd].
    destruct (finish s1 ks _ Ha1 Hp1) as (s2 & E2 & Ha2 & Hp2). exists (skipc s1), s2. auto.
Qed.
Lemma c_defobj p g n mx pre e post t c o s ks : is_tok n -> attrs_ok [AId; AComp; AEps; AM] 4 pre -> attrs_ok [AId; AComp; AEps; AM] 4 post ->
  no_colon e -> means (xo b file (g_opt g)) p e t c -> objective_of (o_logic (g_opt g)) mx t (pre ++ post) o ->
  mget (raw n) (g_omap g) = None -> hold p (sp s) ->
  at_toks (sl s) (render_cmd (CDefineObj n mx pre e post) ++ TR :: ks) ->
  does b file s g (set_ctr c p) (set_omap ((raw n, Some o) :: g_omap g) (set_obj (g_obj g ++ [o]) g)) ks.
Proof.
  intros Hn H1 H2 Hc Hm Ho Hf Hp Ha. cbn [render_cmd app] in Ha. repeat rewrite <- app_assoc in Ha. cbn [app] in Ha. unfold does.
  dispatch Ha. set (x := xo b file (g_opt g)) in *. unfold pDefObj.
  destruct (sym_tok x (CS (sp s) l) _ _ Hl Hn) as (l1 & -> & Hl1); [discriminate|]. cbn [bind fst snd sp].
  unfold opt_id. rewrite (kw_none x (CS (sp s) l1) _ Hl1) by (exists TL; eexists; split; [reflexivity|discriminate]).
  cbn [bind fst snd]. destruct (lpar_tok (CS (sp s) l1) _ Hl1) as (l2 & -> & Hl2). cbn [bind sp].
  destruct (sym_tok x (CS (sp s) l2) _ _ Hl2 (word_tok _)) as (l3 & -> & Hl3).
  { intros _. apply attrs_ne, ren_ne, attrs_ne. discriminate. }
  cbn [bind fst snd sp]. rewrite raw_word.
  destruct (single_at p g pre e post t c mx o (CS (sp s) l3) (TR :: ks) x H1 H2 Hc Hm Ho Hp Hl3) as (s1 & E & Ha1 & Hp1).
  assert (E' : (if seqs (L (mx_name mx)) "maximize" then pSingle x O_MAX (CS (sp s) l3) g
     else if seqs (L (mx_name mx)) "minimize" then pSingle x O_MIN (CS (sp s) l3) g else Exit)
     = Ok (o, s1, set_obj (g_obj g ++ [o]) g)) by (destruct mx; exact E).
  rewrite E'. cbn [bind fst snd]. destruct (rpar_tok s1 _ Ha1) as (l4 & -> & Hl4). cbn [bind fst snd].
  destruct (finish (CS (sp s1) l4) ks _ Hl4 Hp1) as (s2 & E2 & Ha2 & Hp2). exists (skipc (CS (sp s1) l4)), s2.
  rewrite mins_new by exact Hf. auto.
Qed.
Lemma gets_ok m ns os : Forall2 (fun n o => is_tok n /\ mget (raw n) m = Some (Some o)) ns os ->
  omap_gets m (map raw ns) = (map Some os, m).
Proof.
  induction 1 as [|n o ns os [H1 H2] H3 IH]; [reflexivity|]. cbn [map omap_gets]. unfold omap_get. rewrite H2. cbn [fst snd].
  rewrite IH. reflexivity.
Qed.
Lemma multi_at x k id ns os s g ks : (forall i, id = Some i -> is_tok i) ->
  Forall2 (fun n o => is_tok n /\ mget (raw n) (g_omap g) = Some (Some o)) ns os ->
  at_toks (sl s) (match id with Some i => [word ":id"; i] | None => [] end ++ TL :: ns ++ TR :: TR :: ks) ->
  exists l, pMulti x k s g = Ok (CS (sp s) l,
     set_obj (g_obj g ++ [Group k (match id with Some i => raw i | None => [] end) (map Some os)]) g)
    /\ at_toks l (TR :: ks).
Proof.
  intros Hi HF Ha. unfold pMulti.
  assert (E : exists l, opt_id x s = Ok (match id with Some i => raw i | None => [] end, CS (sp s) l) /\
     at_toks l (TL :: ns ++ TR :: TR :: ks)).
  { unfold opt_id. destruct id as [i|]; cbn [app] in Ha.
    - destruct (kw_some x s AId _ Ha) as (l1 & -> & Hl1); [discriminate|]. cbn [kw_of bind fst snd sp].
      destruct (sym_tok x (CS (sp s) l1) _ _ Hl1 (Hi i eq_refl)) as (l2 & -> & Hl2); [discriminate|]. eauto.
    - rewrite (kw_none x s _ Ha) by (exists TL; eexists; split; [reflexivity|discriminate]).
      exists (sl s). destruct s. auto. }
  destruct E as (l & -> & Hl). cbn [bind fst snd]. destruct (lpar_tok (CS (sp s) l) _ Hl) as (l1 & -> & Hl1). cbn [bind sp].
  destruct (syms_at' x ns (CS (sp s) l1) (TR :: ks)) as (l2 & -> & Hl2); [|exact Hl1|].
  { clear - HF. induction HF as [|n o ns os [H1 H2] H3 IH]; constructor; auto. }
  cbn [bind fst snd sp]. destruct (rpar_tok (CS (sp s) l2) _ Hl2) as (l3 & -> & Hl3). cbn [bind sp].
  unfold opt_id. rewrite (kw_none x (CS (sp s) l3) _ Hl3 (nocol_TR _)). cbn [bind fst snd].
  rewrite (gets_ok _ ns os HF). cbn [fst snd]. exists l3. split; [|exact Hl3]. destruct g; reflexivity.
Qed.
Lemma c_multi p g k nm id ns os s ks : multi_name k = Some nm -> (forall i, id = Some i -> is_tok i) ->
  Forall2 (fun n o => is_tok n /\ mget (raw n) (g_omap g) = Some (Some o)) ns os -> hold p (sp s) ->
  at_toks (sl s) (render_cmd (CMulti k id ns) ++ TR :: ks) ->
  does b file s g p (set_obj (g_obj g ++ [Group k (match id with Some i => raw i | None => [] end) (map Some os)]) g) ks.
Proof.
  intros Hk Hi HF Hp Ha. cbn [render_cmd app] in Ha. rewrite Hk in Ha. unfold does.
  repeat (rewrite <- app_assoc in Ha; cbn [app] in Ha).
  set (R := match id with Some i => [word ":id"; i] | None => [] end) in *.
  assert (Hne : R ++ TL :: ns ++ TR :: TR :: ks <> []) by (destruct R; discriminate).
  destruct k; try discriminate Hk; injection Hk as <-; dispatch Ha;
   (match goal with |- context [pMulti ?x ?k _ _] => destruct (multi_at x k id ns os (CS (sp s) l) g ks Hi HF Hl) as (l1 & -> & Hl1) end;
    cbn [bind fst snd sp];
    destruct (finish (CS (sp s) l1) ks _ Hl1 Hp) as (s2 & E2 & Ha2 & Hp2); exists (skipc (CS (sp s) l1)), s2; auto).
Qed.

(** ** declarations *)
Lemma var_ok p n t q ks l : hold p q -> mget n (p_var p) = None -> at_toks l (TR :: ks) ->
  exists s1, mkVar t n (CS q l) = (T NT_VAR t n [], s1) /\ sl s1 = l /\ hold (add_var n t p) (sp s1).
Proof.
  intros Hp Hn Ha. unfold mkVar. cbn [sp]. assert (E : p_var q = p_var p) by apply Hp. rewrite E, Hn.
  eexists. split; [reflexivity|]. cbn [onp sp sl]. split; [reflexivity|]. rewrite E, mins_new by exact Hn.
  now apply hold_var.
Qed.
Lemma c_const p g n t u s ks : is_tok n -> dsort p t u -> mget (raw n) (p_var p) = None -> hold p (sp s) ->
  at_toks (sl s) (render_cmd (CDeclareConst n t) ++ TR :: ks) -> does b file s g (add_var (raw n) u p) g ks.
Proof.
  intros Hn Ht Hv Hp Ha. cbn [render_cmd app] in Ha. unfold does. dispatch Ha.
  set (x := xo b file (g_opt g)) in *.
  destruct (sym_tok x (CS (sp s) l) _ _ Hl Hn) as (l1 & -> & Hl1). { intros _. apply so_ne. }
  cbn [bind fst snd sp].
  destruct (sort_at x p t u (CS (sp s) l1) _ Hp Ht Hl1) as (s1 & -> & Ha1 & Hp1); [discriminate|]. cbn [bind fst snd].
  destruct s1 as [q1 l2]. destruct (var_ok p (raw n) u q1 ks l2 Hp1 Hv Ha1) as (s2 & -> & E & Hp2). cbn [fst snd].
  change (isErr (T NT_VAR u (raw n) [])) with false. cbn iota. cbn [sl] in Ha1. rewrite <- E in Ha1.
  destruct (finish s2 ks _ Ha1 Hp2) as (s3 & E2 & Ha2 & Hp3). exists (skipc s2), s3. auto.
Qed.
Lemma c_fun0 p g n t u s ks : is_tok n -> dsort p t u -> mget (raw n) (p_var p) = None -> hold p (sp s) ->
  at_toks (sl s) (render_cmd (CDeclareFun n [] t) ++ TR :: ks) -> does b file s g (add_var (raw n) u p) g ks.
Proof.
  intros Hn Ht Hv Hp Ha. cbn [render_cmd app flat_map] in Ha. unfold does. dispatch Ha.
  set (x := xo b file (g_opt g)) in *.
  destruct (sym_tok x (CS (sp s) l) _ _ Hl Hn) as (l1 & -> & Hl1); [discriminate|].
  cbn [bind fst snd sp]. destruct (lpar_tok (CS (sp s) l1) _ Hl1) as (l2 & -> & Hl2). cbn [bind sp].
  destruct (atc_R (CS (sp s) l2) _ Hl2) as [-> _]. destruct (rpar_tok (CS (sp s) l2) _ Hl2) as (l3 & -> & Hl3). cbn [bind sp].
  destruct (sort_at x p t u (CS (sp s) l3) _ Hp Ht Hl3) as (s1 & -> & Ha1 & Hp1); [discriminate|]. cbn [bind fst snd].
  destruct s1 as [q1 l4]. destruct (var_ok p (raw n) u q1 ks l4 Hp1 Hv Ha1) as (s2 & -> & E & Hp2). cbn [fst snd].
  change (isErr (T NT_VAR u (raw n) [])) with false. cbn iota. cbn [sl] in Ha1. rewrite <- E in Ha1.
  destruct (finish s2 ks _ Ha1 Hp2) as (s3 & E2 & Ha2 & Hp3). exists (skipc s2), s3. auto.
Qed.
Lemma dec_params ss qs : Forall2 (fun u q => exists m, sort_str u = Ok m /\ q = T NT_FUNC_PARAM u m []) ss qs ->
  mapM dec_param ss = Ok qs.
Proof.
  induction 1 as [|u q ss qs (m & E & ->) H IH]; [reflexivity|]. cbn [mapM]. unfold dec_param at 1. rewrite E. cbn [bind].
  rewrite IH. reflexivity.
Qed.
Lemma fundec_ok p n ss qs u s : hold p (sp s) -> fresh_fun p n ->
  Forall2 (fun u q => exists m, sort_str u = Ok m /\ q = T NT_FUNC_PARAM u m []) ss qs ->
  exists s', mkFuncDec n ss u s = Ok (T NT_FUNC_DEC u n (NULLT :: qs), s') /\ sl s' = sl s /\
    hold (add_fun n (T NT_FUNC_DEC u n (NULLT :: qs)) p) (sp s').
Proof.
  intros Hp Hf HF. unfold mkFuncDec. assert (E : p_fun (sp s) = p_fun p) by apply Hp. unfold fresh_fun in Hf. rewrite E, Hf.
  rewrite (dec_params ss qs HF). cbn [bind]. eexists. split; [reflexivity|]. split; [reflexivity|].
  cbn [onp sp]. rewrite E, mins_new by exact Hf. now apply hold_fun.
Qed.
Lemma c_fun p g n ps t ss u qs s ks : is_tok n -> ps <> [] -> Forall2 (dsort p) ps ss -> dsort p t u -> fresh_fun p (raw n) ->
  Forall2 (fun u q => exists m, sort_str u = Ok m /\ q = T NT_FUNC_PARAM u m []) ss qs -> hold p (sp s) ->
  at_toks (sl s) (render_cmd (CDeclareFun n ps t) ++ TR :: ks) ->
  does b file s g (add_fun (raw n) (T NT_FUNC_DEC u (raw n) (NULLT :: qs)) p) (set_funs (g_funs g ++ [raw n]) g) ks.
Proof.
  intros Hn Hne HF Ht Hf HQ Hp Ha. cbn [render_cmd app flat_map] in Ha. rewrite <- app_assoc in Ha. cbn [app] in Ha. unfold does.
  dispatch Ha. set (x := xo b file (g_opt g)) in *.
  destruct (sym_tok x (CS (sp s) l) _ _ Hl Hn) as (l1 & -> & Hl1); [discriminate|].
  cbn [bind fst snd sp]. destruct (lpar_tok (CS (sp s) l1) _ Hl1) as (l2 & -> & Hl2). cbn [bind sp].
  assert (atc rpar (CS (sp s) l2) = false) as ->.
  { destruct ps as [|q ps]; [congruence|]. cbn [flat_map] in Hl2. destruct (so_first q) as (k & r & E & Hk).
    rewrite E in Hl2. cbn [app] in Hl2. eapply not_rpar; [exact Hl2|]. inversion HF; subst. eauto. }
  destruct (sorts_at' x p ps ss (CS (sp s) l2) _ HF Hp Hl2) as (s1 & -> & Ha1 & Hp1). cbn [bind fst snd].
  destruct (rpar_tok s1 _ Ha1) as (l3 & -> & Hl3). cbn [bind].
  destruct (sort_at x p t u (CS (sp s1) l3) _ Hp1 Ht Hl3) as (s2 & -> & Ha2 & Hp2); [discriminate|]. cbn [bind fst snd].
  destruct (fundec_ok p (raw n) ss qs u s2 Hp2 Hf HQ) as (s3 & -> & E & Hp3). cbn [bind fst snd].
  rewrite <- E in Ha2. destruct (finish s3 ks _ Ha2 Hp3) as (s4 & E2 & Ha4 & Hp4). exists (skipc s3), s4. auto.
Qed.
Lemma c_sort p g n a z s ks : is_tok n -> stoi a = Ok z -> 0 <= z -> fresh_sort p (raw n) -> hold p (sp s) ->
  at_toks (sl s) (render_cmd (CDeclareSort n a) ++ TR :: ks) ->
  does b file s g (add_srt (raw n) (Srt SK_DEC (raw n) z []) p) g ks.
Proof.
  intros Hn Hz Hz0 Hf Hp Ha. cbn [render_cmd app] in Ha. unfold does. dispatch Ha. set (x := xo b file (g_opt g)) in *.
  destruct (sym_tok x (CS (sp s) l) _ _ Hl Hn) as (l1 & -> & Hl1); [discriminate|]. cbn [bind fst snd sp].
  destruct (sym_tok x (CS (sp s) l1) _ _ Hl1 (tword_tok _)) as (l2 & -> & Hl2); [discriminate|]. cbn [bind fst snd sp raw].
  rewrite Hz. cbn [bind]. set (s1 := onp _ _).
  assert (Eu : u64 z = z).
  { unfold u64, two64. apply Z.mod_small. revert Hz. unfold stoi. destruct (strtol a); [|discriminate].
    destruct (_ && _) eqn:E; [|discriminate]. intros [= ->]. lia. }
  assert (Hp1 : hold (add_srt (raw n) (Srt SK_DEC (raw n) z []) p) (sp s1)).
  { subst s1. cbn [onp sp]. rewrite Eu. now apply hold_srt. }
  destruct (finish s1 ks _ Hl2 Hp1) as (s4 & E2 & Ha4 & Hp4). exists (skipc s1), s4. auto.
Qed.
Lemma c_defsort p g n t u s ks : is_tok n -> dsort p t u -> fresh_sort p (raw n) -> hold p (sp s) ->
  at_toks (sl s) (render_cmd (CDefineSort n t) ++ TR :: ks) -> does b file s g (add_srt (raw n) u p) g ks.
Proof.
  intros Hn Ht Hf Hp Ha. cbn [render_cmd app] in Ha. unfold does. dispatch Ha. set (x := xo b file (g_opt g)) in *.
  destruct (sym_tok x (CS (sp s) l) _ _ Hl Hn) as (l1 & -> & Hl1); [discriminate|].
  cbn [bind fst snd sp]. destruct (lpar_tok (CS (sp s) l1) _ Hl1) as (l2 & -> & Hl2). cbn [bind sp].
  destruct (syms_at' x [] (CS (sp s) l2) _ (Forall_nil _) Hl2) as (l3 & -> & Hl3). cbn [bind fst snd sp map].
  destruct (rpar_tok (CS (sp s) l3) _ Hl3) as (l4 & -> & Hl4). cbn [bind sp].
  destruct (sort_at x p t u (CS (sp s) l4) _ Hp Ht Hl4) as (s2 & -> & Ha2 & Hp2); [discriminate|]. cbn [bind fst snd].
  set (s1 := onp _ _). assert (Hp1 : hold (add_srt (raw n) u p) (sp s1)) by now apply hold_srt.
  destruct (finish s1 ks _ Ha2 Hp1) as (s4 & E2 & Ha4 & Hp4). exists (skipc s1), s4. auto.
Qed.

(** ** definitions *)
Lemma unknown p n s : hold p (sp s) -> fresh_fun p n -> known_fun n s = None.
Proof. intros Hp Hf. unfold known_fun. assert (E : p_fun (sp s) = p_fun p) by apply Hp. now rewrite E, Hf. Qed.
Lemma func_new k dbg p n ps u e s : hold p (sp s) -> fresh_fun p n ->
  exists s', mkFunc k dbg n ps u e s = Ok (T k u n (e :: ps), s') /\ sl s' = sl s /\ hold (add_fun n (T k u n (e :: ps)) p) (sp s').
Proof.
  intros Hp Hf. unfold mkFunc. assert (E : p_fun (sp s) = p_fun p) by apply Hp. unfold fresh_fun in Hf. rewrite E, Hf.
  eexists. split; [reflexivity|]. split; [reflexivity|]. cbn [onp sp]. rewrite E, mins_new by exact Hf. now apply hold_fun.
Qed.
Lemma func_upd k dbg p n ps u e d s : hold (add_fun n d p) (sp s) -> fresh_fun p n -> isk NT_FUNC_DEC d = true ->
  exists s', mkFunc k dbg n ps u e s = Ok (T k u n (e :: ps), s') /\ sl s' = sl s /\ hold (add_fun n (T k u n (e :: ps)) p) (sp s').
Proof.
  intros Hp Hf Hd. unfold mkFunc. assert (E : p_fun (sp s) = (n, d) :: p_fun p) by apply Hp. unfold fresh_fun in Hf.
  rewrite E, mget_cons, seq_refl, Hd. rewrite BVProofs.condAssert_true. cbn [bind].
  eexists. split; [reflexivity|]. split; [reflexivity|]. cbn [onp sp]. rewrite E, mset_top by exact Hf.
  apply (hold_fun _ _ ((n, T k u n (e :: ps)) :: p_fun p)) in Hp. exact Hp.
Qed.
Lemma c_defconst p g n t u e v c s ks : is_tok n -> dsort p t u -> fresh_fun p (raw n) -> means (xo b file (g_opt g)) p e v c ->
  hold p (sp s) -> at_toks (sl s) (render_cmd (CDefineConst n t e) ++ TR :: ks) ->
  does b file s g (add_fun (raw n) (T NT_FUNC_DEF u (raw n) [v]) (set_ctr c p)) (set_funs (g_funs g ++ [raw n]) g) ks.
Proof.
  intros Hn Ht Hf Hm Hp Ha. cbn [render_cmd app] in Ha. rewrite <- app_assoc in Ha. unfold does. dispatch Ha.
  set (x := xo b file (g_opt g)) in *.
  destruct (sym_tok x (CS (sp s) l) _ _ Hl Hn) as (l1 & -> & Hl1). { intros _. apply so_ne. }
  cbn [bind fst snd sp]. rewrite (unknown p (raw n) (CS (sp s) l1) Hp Hf).
  destruct (sort_at x p t u (CS (sp s) l1) _ Hp Ht Hl1) as (s1 & -> & Ha1 & Hp1); [ne|]. cbn [bind fst snd].
  destruct (expr_at x p e v c s1 _ Hp1 Hm Ha1) as (s2 & -> & Ha2 & Hp2); [discriminate|]. cbn [bind fst snd].
  destruct (func_new NT_FUNC_DEF (c_dbg (x_c x)) _ (raw n) [] u v s2 Hp2 Hf) as (s3 & -> & E & Hp3). cbn [bind fst snd].
  rewrite <- E in Ha2. destruct (finish s3 ks _ Ha2 Hp3) as (s4 & E2 & Ha4 & Hp4). exists (skipc s3), s4. auto.
Qed.
Lemma dsort_same p q t u : p_srt q = p_srt p -> dsort p t u -> dsort q t u.
Proof. intros E. apply dsort_mono. now rewrite E. Qed.
Lemma params_end l p p' s ks : p_fv p' = p_fv (with_params l p) -> hold p' (sp s) -> at_toks (sl s) (TR :: ks) -> p_fv p = [] ->
  exists s2, rparc (skipc (del_params (map param l) s)) = Ok s2 /\ at_toks (sl s2) ks /\ hold (set_fv (p_fv p) p') (sp s2).
Proof.
  intros E Hp Ha Hv. apply finish; [exact Ha|]. unfold del_params. cbn [onp sp].
  assert (E2 : p_fv (sp s) = p_fv p') by apply Hp. rewrite E2, E, params_gone, Hv. now apply hold_fv.
Qed.
Lemma c_deffun p g n ps ss t u e v c s ks : is_tok n -> params_ok p ps ss -> dsort p t u -> fresh_fun p (raw n) ->
  means (xo b file (g_opt g)) (with_params (combine (names ps) ss) p) e v c -> hold p (sp s) -> p_fv p = [] ->
  at_toks (sl s) (render_cmd (CDefineFun n ps t e) ++ TR :: ks) ->
  does b file s g
    (add_fun (raw n) (T NT_FUNC_DEF u (raw n) (v :: map param (combine (names ps) ss))) (set_ctr c p))
    (set_funs (g_funs g ++ [raw n]) g) ks.
Proof.
  intros Hn HP Ht Hf Hm Hp Hv Ha. cbn [render_cmd render_def app] in Ha. repeat (rewrite <- app_assoc in Ha; cbn [app] in Ha).
  unfold does. dispatch Ha. set (x := xo b file (g_opt g)) in *.
  destruct (sym_tok x (CS (sp s) l) _ _ Hl Hn) as (l1 & -> & Hl1); [discriminate|].
  cbn [bind fst snd sp]. rewrite (unknown p (raw n) (CS (sp s) l1) Hp Hf).
  destruct (lpar_tok (CS (sp s) l1) _ Hl1) as (l2 & -> & Hl2). cbn [bind sp].
  destruct (params_at' x ps ss p (CS (sp s) l2) _ HP Hp Hv Hl2) as (s1 & -> & Ha1 & Hp1). cbn [bind fst snd].
  destruct (rpar_tok s1 _ Ha1) as (l3 & -> & Hl3). cbn [bind].
  set (pp := with_params _ p) in *.
  destruct (sort_at x pp t u (CS (sp s1) l3) (render e ++ TR :: ks) Hp1) as (s2 & -> & Ha2 & Hp2);
    [eapply dsort_same; [|exact Ht]; reflexivity|exact Hl3|ne|]. cbn [bind fst snd].
  destruct (expr_at x pp e v c s2 _ Hp2 Hm Ha2) as (s3 & -> & Ha3 & Hp3); [discriminate|]. cbn [bind fst snd].
  destruct (func_new NT_FUNC_DEF (c_dbg (x_c x)) _ (raw n) (map param (combine (names ps) ss)) u v s3 Hp3 Hf) as (s4 & -> & E & Hp4).
  cbn [bind fst snd]. rewrite <- E in Ha3.
  destruct (params_end (combine (names ps) ss) p (add_fun (raw n) (T NT_FUNC_DEF u (raw n) (v :: map param (combine (names ps) ss))) (set_ctr c pp)) s4 ks eq_refl Hp4 Ha3 Hv) as (s5 & E5 & Ha5 & Hp5).
  eexists. exists s5. split; [reflexivity|]. split; [exact E5|]. split; [exact Ha5|exact Hp5].
Qed.
Lemma c_defrec p g n ps ss t u e v c qs s ks : is_tok n -> params_ok p ps ss -> dsort p t u -> fresh_fun p (raw n) ->
  Forall2 (fun v q => exists m, sort_str v = Ok m /\ q = T NT_FUNC_PARAM v m []) ss qs ->
  means (xo b file (g_opt g)) (add_fun (raw n) (T NT_FUNC_DEC u (raw n) (NULLT :: qs)) (with_params (combine (names ps) ss) p)) e v c ->
  hold p (sp s) -> p_fv p = [] ->
  at_toks (sl s) (render_cmd (CDefineFunRec n ps t e) ++ TR :: ks) ->
  does b file s g
    (add_fun (raw n) (T NT_FUNC_REC u (raw n) (v :: map param (combine (names ps) ss))) (set_ctr c p))
    (set_funs (g_funs g ++ [raw n]) g) ks.
Proof.
  intros Hn HP Ht Hf HQ Hm Hp Hv Ha. cbn [render_cmd render_def app] in Ha. repeat (rewrite <- app_assoc in Ha; cbn [app] in Ha).
  unfold does. dispatch Ha. set (x := xo b file (g_opt g)) in *.
  destruct (sym_tok x (CS (sp s) l) _ _ Hl Hn) as (l1 & -> & Hl1); [discriminate|].
  cbn [bind fst snd sp]. rewrite (unknown p (raw n) (CS (sp s) l1) Hp Hf).
  destruct (lpar_tok (CS (sp s) l1) _ Hl1) as (l2 & -> & Hl2). cbn [bind sp].
  destruct (params_at' x ps ss p (CS (sp s) l2) _ HP Hp Hv Hl2) as (s1 & -> & Ha1 & Hp1). cbn [bind fst snd].
  destruct (rpar_tok s1 _ Ha1) as (l3 & -> & Hl3). cbn [bind].
  assert (Es : map t_sort (map param (combine (names ps) ss)) = ss).
  { rewrite map_map. cbn [param t_sort]. rewrite combine_snd; [reflexivity|]. rewrite names_len.
    destruct HP as [_ HP]. clear - HP. induction HP; cbn; congruence. }
  rewrite Es. set (pp := with_params _ p) in *.
  destruct (sort_at x pp t u (CS (sp s1) l3) (render e ++ TR :: ks) Hp1) as (s2 & -> & Ha2 & Hp2);
    [eapply dsort_same; [|exact Ht]; reflexivity|exact Hl3|ne|]. cbn [bind fst snd].
  destruct (fundec_ok pp (raw n) ss qs u s2 Hp2 Hf HQ) as (s3 & -> & E3 & Hp3). cbn [bind fst snd]. rewrite <- E3 in Ha2.
  destruct (expr_at x _ e v c s3 _ Hp3 Hm Ha2) as (s4 & -> & Ha4 & Hp4); [discriminate|]. cbn [bind fst snd].
  destruct (func_upd NT_FUNC_REC (c_dbg (x_c x)) (set_ctr c pp) (raw n) (map param (combine (names ps) ss)) u v
     (T NT_FUNC_DEC u (raw n) (NULLT :: qs)) s4 Hp4 Hf eq_refl) as (s5 & -> & E5 & Hp5).
  cbn [bind fst snd]. rewrite <- E5 in Ha4.
  destruct (params_end (combine (names ps) ss) p (add_fun (raw n) (T NT_FUNC_REC u (raw n) (v :: map param (combine (names ps) ss))) (set_ctr c pp)) s5 ks eq_refl Hp5 Ha4 Hv) as (s6 & E6 & Ha6 & Hp6).
  eexists. exists s6. split; [reflexivity|]. split; [exact E6|]. split; [exact Ha6|exact Hp6].
Qed.

(** ** the rest *)
Lemma c_logic p g v s ks : is_tok v -> In (raw v) (map L logics) -> hold p (sp s) ->
  at_toks (sl s) (render_cmd (CSetLogic v) ++ TR :: ks) ->
  does b file s g p (set_opt (set_logic (raw v) (g_opt g)) g) ks.
Proof.
  intros Hn Hin Hp Ha. cbn [render_cmd app] in Ha. unfold does. dispatch Ha. set (x := xo b file (g_opt g)) in *.
  destruct (sym_tok x (CS (sp s) l) _ _ Hl Hn) as (l1 & -> & Hl1); [discriminate|]. cbn [bind fst snd sp].
  unfold setLogic. assert (in_names (raw v) logics = true) as ->.
  { apply in_map_iff in Hin. destruct Hin as (w & E & Hw). apply existsb_exists. exists w. split; [exact Hw|]. now apply seqs_spec. }
  cbn [fst snd]. destruct (rpar_tok (CS (sp s) l1) _ Hl1) as (l2 & E & Hl2). exists (CS (sp s) l1), (CS (sp s) l2). auto.
Qed.
Lemma c_flag w f p g s ks : at_toks (sl s) (word w :: TR :: ks) -> hold p (sp s) ->
  (w, f) = ("check-sat"%string, set_checksat) \/ (w, f) = ("get-model"%string, set_getmodel) \/ (w, f) = ("get-objectives"%string, set_getobj) ->
  does b file s g p (set_opt (f (g_opt g)) g) ks.
Proof.
  intros Ha Hp [H|[H|H]]; injection H as -> ->; unfold does; dispatch Ha;
   (destruct (finish (CS (sp s) l) ks _ Hl Hp) as (s2 & E2 & Ha2 & Hp2); exists (skipc (CS (sp s) l)), s2; auto).
Qed.
Lemma c_ignored p g c ts s ks : In c ignored -> balanced ts -> hold p (sp s) ->
  at_toks (sl s) (render_cmd (CIgnored c ts) ++ TR :: ks) -> does b file s g p g ks.
Proof.
  intros Hin Hb Hp Ha. cbn [render_cmd app] in Ha. unfold does.
  assert (Hne : ts ++ TR :: ks <> []) by now destruct ts.
  cbn [ignored In] in Hin.
  repeat (destruct Hin as [Hin|Hin]; [subst c; dispatch Ha; [..|
    match goal with |- context [in_names ?w ignored] => change (in_names w ignored) with true; cbn iota end;
    destruct (skip_end (CS (sp s) l) ts ks Hl Hb) as (l2 & E2 & Hl2); exists (skipc (CS (sp s) l)), (CS (sp s) l2); auto]|]).
  destruct Hin.
Qed.

Lemma step_fv p g c p' g' : step b file p g c p' g' -> p_fv p = [] -> p_fv p' = [].
Proof. intros H. destruct H; auto. Qed.
Lemma step_does p g c p' g' s ks : step b file p g c p' g' -> holds_decls p (sp s) ->
  at_toks (sl s) (render_cmd c ++ TR :: ks) -> does b file s g p' g' ks.
Proof.
  intros H Hp Ha. apply hold_decls in Hp. destruct Hp as [Hp Hv]. destruct H.
  - eapply c_assert; eassumption.
  - eapply c_named; eassumption.
  - eapply c_id; eassumption.
  - eapply c_id2; eassumption.
  - apply (c_soft p g pre e post t c w); assumption.
  - apply (c_opt p g mx pre e post t c o); assumption.
  - apply (c_defobj p g n mx pre e post t c o); assumption.
  - eapply c_multi; eassumption.
  - eapply c_const; eassumption.
  - eapply c_fun0; eassumption.
  - eapply c_fun; eassumption.
  - eapply c_sort; eassumption.
  - eapply c_defsort; eassumption.
  - eapply c_defconst; eassumption.
  - eapply c_deffun; eassumption.
  - eapply c_defrec; eassumption.
  - eapply c_logic; eassumption.
  - eapply c_flag; [exact Ha|exact Hp|auto].
  - eapply c_flag; [exact Ha|exact Hp|auto].
  - eapply c_flag; [exact Ha|exact Hp|auto].
  - eapply c_ignored; eassumption.
Qed.
Lemma render_cmd_len c : (1 <= length (render_cmd c))%nat.
Proof. destruct c; cbn [render_cmd render_def length]; lia. Qed.
Lemma script_ok l : forall p g p' g' s fuel, steps b file p g l p' g' -> holds_decls p (sp s) ->
  at_toks (sl s) (render_script l) -> (length l < fuel)%nat ->
  exists q, pscript fuel b file s g = Ok (q, g') /\ holds_decls p' q.
Proof.
  induction l as [|c l IH]; intros p g p' g' s fuel Hs Hp Ha Hu; (destruct fuel as [|fuel]; [cbn [length] in Hu; lia|]);
    cbn [pscript render_script flat_map length app] in *; inversion Hs; subst.
  - rewrite (cur_end _ Ha). change (aeq nul nul) with true. cbn iota. eauto.
  - fold (render_script l) in Ha. rewrite <- app_assoc in Ha. cbn [app] in Ha.
    assert (aeq (cur (sl s)) nul = false) as ->.
    { rewrite (cur_tok _ _ _ Ha). reflexivity. }
    destruct (lpar_tok _ _ Ha) as (l0 & -> & Hl0). cbn [bind].
    match goal with H : step _ _ p g c _ _ |- _ => pose proof (step_fv _ _ _ _ _ H (proj2 (proj1 (hold_decls _ _) Hp))) as Hfv;
      destruct (step_does _ _ _ _ _ (CS (sp s) l0) _ H Hp Hl0) as (s1 & s2 & -> & E & Ha2 & Hp2) end.
    cbn [bind fst snd]. rewrite E. cbn [bind].
    eapply IH; eauto; [|lia]. apply hold_decls. auto.
Qed.
End Cmds.
