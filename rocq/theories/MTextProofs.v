(** Proofs about parseModel. *)
From Verif Require Import Base LexSpec LexProofs KindModel SortModel TermModel SimpModel OpModel LexModel ParseModel ParseSpec ParseProofs
  CommandModel CommandSpec CommandProofs CommandProofs2 TraverseModel TraverseSpec MTextModel MTextSpec.
Open Scope nat_scope.

Lemma at_head s k ks : at_toks s (k :: ks) -> exists t', txt s = raw k ++ t'.
Proof.
  intros (t & H & ->). destruct (lexes_head _ _ _ H k ks eq_refl) as (t' & E & _). rewrite E. exists t'. reflexivity.
Qed.
Lemma md_par s k ks : at_toks s (k :: ks) -> k = TL \/ k = TR -> md s = SM_SYMBOL.
Proof.
  intros (t & H & ->) Hk. destruct (lexes_head _ _ _ H k ks eq_refl) as (t' & E & _). rewrite E. cbn [md].
  destruct Hk as [ -> | -> ]; reflexivity.
Qed.
Lemma skip4_par s k ks : at_toks (sl s) (k :: ks) -> k = TL \/ k = TR -> skip4 s = s.
Proof.
  intros H Hk. destruct (at_head _ _ _ H) as (t' & E). unfold skip4. destruct s as [p [t m]]. cbn [sl txt md sp] in *. rewrite E.
  destruct Hk as [ -> | -> ]; reflexivity.
Qed.

Lemma mname_ok x s n ks : at_toks (sl s) (n :: ks) -> is_tok n -> (x_file x = true -> ks <> []) ->
  exists l, mname x s = Ok (ename n, CS (sp s) l) /\ at_toks l ks.
Proof.
  intros H Hn Hf. unfold mname. destruct (sym_tok x s n ks H Hn Hf) as (l & E & Hl).
  assert (C : exists c r, raw n = c :: r /\ aeq c lpar = false /\ aeq c rpar = false /\ aeq c semi = false).
  { destruct H as (t & H & _). destruct (lexes_head _ _ _ H n ks eq_refl) as (t' & _ & _ & Hok). destruct Hn as [N1 N2].
    destruct n as [| |w|b|b]; try congruence; cbn [raw].
    - destruct Hok as (A & B & _). destruct w as [|c w]; [congruence|]. exists c, w. inversion B; subst. split; [reflexivity|].
      unfold delimC in *. cbn [In] in *. repeat split; apply aeq_false; intros ->; apply H2; unfold lpar, rpar, semi; tauto.
    - eexists _, _. split; [reflexivity|]. auto.
    - eexists _, _. split; [reflexivity|]. auto. }
  destruct C as (c & r & R & C1 & C2 & C3).
  assert (atc lpar s = false) as ->. { unfold atc. rewrite (cur_tok _ _ _ H), R. exact C1. }
  rewrite E. cbn [bind fst snd]. unfold ename. rewrite R. cbn [first]. rewrite C2, C3, !orb_false_r.
  exists l. split; [|exact Hl]. unfold quoted, bar. destruct (_ && _); reflexivity.
Qed.

Lemma wsC4 c : blankC c -> ws4 c = true.
Proof. unfold blankC, ws4. cbn [In]. intuition (rewrite <- H || rewrite <- H0; reflexivity). Qed.
Lemma drop4 w t : Forall blankC w -> drop ws4 (w ++ t) = drop ws4 t.
Proof. induction 1 as [|c w H _ IH]; [reflexivity|]. cbn [app drop]. now rewrite wsC4. Qed.
Lemma scan_ws u t : Forall wsC u -> scan (u ++ t) = scan t.
Proof.
  induction 1 as [|c u H _ IH]; [reflexivity|]. rewrite <- IH. cbn [app]. unfold scan. cbn [scan_loop].
  unfold wsC in H. cbn [In] in H.
  assert (aeq c nul = false) as -> by (apply aeq_false; intros ->; revert H; unfold code, nul; cbn; lia).
  unfold isnl, isblank. repeat (destruct H as [H|H]; [rewrite <- H; reflexivity|]). destruct H.
Qed.
Lemma not_model t ks0 : lexes plain_word t ks0 -> forall k ks, ks0 = k :: ks -> k = TL \/ k = TR -> is_model t = false.
Proof.
  intros H. induction H as [|c t ks' Hc H IH|b c t ks' Hb Hc H IH|b Hb|t ks' H IH|t ks' H IH
    |b t ks' Hb H IH|b t ks' Hb Hs H IH|w t ks' Hn Hw Hs Ho H IH]; intros k ks E K; try discriminate; try reflexivity.
  - destruct (ws4 c) eqn:W.
    + specialize (IH k ks E K). unfold is_model in *. cbn [drop]. now rewrite W.
    + unfold is_model. cbn [drop]. rewrite W. change (L "model") with ("m"%char :: L "odel"). cbn [is_prefix].
      assert (aeq "m"%char c = false) as ->; [|reflexivity]. apply aeq_false. intros <-. revert Hc. unfold wsC, code. cbn. intuition discriminate.
  - injection E as <- <-. destruct K; discriminate.
Qed.
Lemma header_ok b t kw l p o : (kw = true -> model_header t) -> lexes plain_word t (render_model kw l) ->
  exists s, mheader (xo b false o) (CS p (scan t)) = Ok (CS p s) /\ at_toks s (render_entries l ++ [TR]).
Proof.
  intros Hh Hl. pose proof (at_scan _ _ Hl) as Ha. unfold render_model in Ha. unfold mheader. set (s0 := CS p (scan t)).
  destruct (atc_L s0 _ Ha) as [E _]. rewrite E. destruct (lpar_tok s0 _ Ha) as (l1 & E1 & H1). rewrite E1. cbn [bind].
  destruct kw.
  - destruct (Hh eq_refl) as (u & w & c & r & Et & Hu & Hw & Hc).
    assert (X : txt (scan t) = lpar :: w ++ L "model" ++ c :: r).
    { rewrite Et, scan_ws by exact Hu. reflexivity. }
    cbn [sl s0]. rewrite X. cbn [tl]. unfold is_model. rewrite drop4 by exact Hw. change (drop ws4 (L "model" ++ c :: r)) with (L "model" ++ c :: r).
    change (is_prefix (L "model") (L "model" ++ c :: r)) with true. change (skipn 5 (L "model" ++ c :: r)) with (c :: r). cbn [first andb].
    assert (ws4 c || aeq c lpar = true) as ->. { destruct Hc as [Hc| ->]; [now rewrite (wsC4 _ Hc)|reflexivity]. }
    cbn [app] in H1. destruct (sym_tok (xo b false o) (CS (sp s0) l1) (word "model") _ H1 (word_tok _)) as (l2 & -> & H2); [discriminate|].
    cbn [bind snd]. eauto.
  - cbn [app] in H1, Ha.
    assert (is_model (tl (txt (sl s0))) = false) as ->.
    { destruct (lexes_head _ _ _ Hl _ _ eq_refl) as (t' & E' & Ht & _). cbn [sl s0]. rewrite E'. cbn [txt raw app tl].
      destruct l as [|e l]; [eapply not_model; [exact Ht|reflexivity|now right]|]. cbn [render_entries flat_map] in Ht.
      destruct e; cbn [render_entry app] in Ht; (eapply not_model; [exact Ht|reflexivity|now left]). }
    eauto.
Qed.

Lemma to_end_ok s a ks : at_toks (sl s) (a ++ TR :: ks) -> balanced a -> exists l, to_end s = Ok (CS (sp s) l) /\ at_toks l ks.
Proof. exact (skip_end s a ks). Qed.
Lemma mparam_ok x p n t u s ks : hold p (sp s) -> is_tok n -> dsort p t u ->
  at_toks (sl s) (TL :: n :: render_so t ++ TR :: ks) ->
  exists s', mparam x s = Ok (u, s') /\ at_toks (sl s') ks /\ hold p (sp s').
Proof.
  intros Hp Hn Ht Ha. unfold mparam. destruct (lpar_tok s _ Ha) as (l1 & -> & H1). cbn [bind].
  destruct (sym_tok x (CS (sp s) l1) _ _ H1 Hn) as (l2 & -> & H2); [intros _; apply so_ne|]. cbn [bind fst snd sp].
  destruct (sort_at x p t u (CS (sp s) l2) _ Hp Ht H2) as (s3 & -> & H3 & P3); [discriminate|]. cbn [bind fst snd].
  destruct (rpar_tok s3 _ H3) as (l4 & -> & H4). cbn [bind]. eauto.
Qed.
Lemma mparams_at x p : forall ps ss, sorts_of p ps ss -> forall s ks fuel, hold p (sp s) ->
  at_toks (sl s) (render_params ps ++ TR :: ks) -> length ps < fuel ->
  exists s', many fuel (mparam x) s = Ok (ss, s') /\ at_toks (sl s') (TR :: ks) /\ hold p (sp s').
Proof.
  induction 1 as [|[n t] u ps ss [Hn Ht] HF IH]; intros s ks fuel Hp Ha Hu; (destruct fuel as [|fuel]; [cbn [length] in Hu; lia|]); cbn [many].
  - cbn [render_params flat_map app] in Ha. assert (atc rpar s = true) as ->; [|eauto]. unfold atc. rewrite (cur_tok _ _ _ Ha). reflexivity.
  - cbn [fst snd] in *. unfold render_params in Ha. cbn [flat_map fst snd app] in Ha. rewrite <- !app_assoc in Ha. cbn [app] in Ha.
    rewrite (proj2 (atc_L s _ Ha)). destruct (mparam_ok x p n t u s _ Hp Hn Ht Ha) as (s1 & -> & H1 & P1). cbn [bind fst snd].
    destruct (IH s1 ks fuel P1 H1) as (s2 & -> & H2 & P2); [cbn [length] in Hu; lia|]. cbn [bind fst snd]. eauto.
Qed.
Lemma mparams_at' x p ps ss s ks : sorts_of p ps ss -> hold p (sp s) -> at_toks (sl s) (render_params ps ++ TR :: ks) ->
  exists s', many' (mparam x) s = Ok (ss, s') /\ at_toks (sl s') (TR :: ks) /\ hold p (sp s').
Proof.
  intros HF Hp Ha. unfold many'. apply (mparams_at x p ps ss HF s ks _ Hp Ha).
  pose proof (at_len _ _ Ha). rewrite app_length in H. pose proof (params_len ps). lia.
Qed.
Lemma tok_ne (k : token) ks : k :: ks <> []. Proof. discriminate. Qed.
Lemma app_ne (a : list token) k ks : a ++ k :: ks <> []. Proof. now destruct a. Qed.
#[local] Hint Resolve tok_ne app_ne so_ne : ne.

(** the head of an entry up to the closing parenthesis of the parameters *)
Lemma head_ok x p n ps ss s ks : hold p (sp s) -> is_tok n -> sorts_of p ps ss -> ks <> [] ->
  at_toks (sl s) (TL :: word "define-fun" :: n :: TL :: render_params ps ++ TR :: ks) ->
  exists l1 l2 l3 l4 s5 l6, lparc s = Ok (CS (sp s) l1) /\ sym x (CS (sp s) l1) = Ok (L "define-fun", CS (sp s) l2) /\
    mname x (CS (sp s) l2) = Ok (ename n, CS (sp s) l3) /\ lparc (CS (sp s) l3) = Ok (CS (sp s) l4) /\
    many' (mparam x) (CS (sp s) l4) = Ok (ss, s5) /\ rparc s5 = Ok (CS (sp s5) l6) /\ at_toks l6 ks /\ hold p (sp s5) /\
    atc rpar (CS (sp s) l4) = match ps with [] => true | _ => false end.
Proof.
  intros Hp Hn HF Hne Ha. destruct (lpar_tok s _ Ha) as (l1 & E1 & H1).
  destruct (sym_tok x (CS (sp s) l1) _ _ H1 (word_tok _)) as (l2 & E2 & H2); [discriminate|].
  destruct (mname_ok x (CS (sp s) l2) n _ H2 Hn) as (l3 & E3 & H3); [discriminate|].
  destruct (lpar_tok (CS (sp s) l3) _ H3) as (l4 & E4 & H4).
  destruct (mparams_at' x p ps ss (CS (sp s) l4) ks HF Hp H4) as (s5 & E5 & H5 & P5).
  destruct (rpar_tok s5 _ H5) as (l6 & E6 & H6).
  exists l1, l2, l3, l4, s5, l6. repeat (split; [assumption|]).
  destruct ps as [|q ps].
  - unfold atc. cbn [sl]. rewrite (cur_tok _ _ _ H4). reflexivity.
  - exact (proj2 (atc_L (CS (sp s) l4) _ H4)).
Qed.


Ltac hd_ x p n ps ss s rest Hp Hn HF Ha :=
  let l1 := fresh "l" in let l2 := fresh "l" in let l3 := fresh "l" in let l4 := fresh "l" in let E2 := fresh in let E3 := fresh in
  let E4 := fresh in let E5 := fresh in let E6 := fresh in
  destruct (head_ok x p n ps ss s rest Hp Hn HF) as (l1 & l2 & l3 & l4 & s5 & l6 & -> & E2 & E3 & E4 & E5 & E6 & H6 & P5 & A5); [solve [apply so_ne | auto with ne]|exact Ha|];
  cbn [bind]; rewrite E2; cbn [bind fst snd]; change (seqs (L "define-fun") "define-fun") with true; cbn [negb];
  rewrite E3; cbn [bind fst snd]; rewrite E4; cbn [bind]; rewrite ?A5; cbn [negb]; rewrite E5; cbn [bind fst snd]; rewrite E6; cbn [bind].

Lemma entry1_val x p fs n t u e s ks : hold p (sp s) -> is_tok n -> dsort p t u -> balanced (render e) ->
  at_toks (sl s) (render_entry (EVal n t e) ++ ks) ->
  exists s', entry1 x s fs = Ok (s', fs) /\ at_toks (sl s') ks /\ hold p (sp s').
Proof.
  intros Hp Hn Ht Hb Ha. unfold entry1. cbn [render_entry app] in Ha. rewrite <- !app_assoc in Ha. cbn [app] in Ha.
  hd_ x p n (@nil (token * so)) (@nil sort) s (render_so t ++ render e ++ TR :: ks) Hp Hn (Forall2_nil (fun (q : token * so) s => is_tok (fst q) /\ dsort p (snd q) s)) Ha.
  destruct (sort_at x p t u (CS (sp s5) l6) _ P5 Ht H6) as (s7 & -> & H7 & P7); [auto with ne|]. cbn [bind fst snd].
  destruct (to_end_ok s7 _ ks H7 Hb) as (l8 & -> & H8). cbn [bind]. eauto.
Qed.
Lemma entry1_fun x p fs n ps ss t u body qs s ks : hold p (sp s) -> is_tok n -> ps <> [] -> sorts_of p ps ss -> dsort p t u -> balanced body ->
  fresh_fun p (ename n) -> Forall2 (fun u q => exists m, sort_str u = Ok m /\ q = T NT_FUNC_PARAM u m []) ss qs ->
  at_toks (sl s) (render_entry (EFun n ps t body) ++ ks) ->
  exists s', entry1 x s fs = Ok (s', if mem (ename n) fs then fs else fs ++ [ename n]) /\ at_toks (sl s') ks /\
    hold (add_fun (ename n) (T NT_FUNC_DEC u (ename n) (NULLT :: qs)) p) (sp s').
Proof.
  intros Hp Hn Hne HF Ht Hb Hf HQ Ha. unfold entry1. cbn [render_entry app] in Ha. rewrite <- !app_assoc in Ha. cbn [app] in Ha.
  rewrite <- !app_assoc in Ha. cbn [app] in Ha. hd_ x p n ps ss s (render_so t ++ body ++ TR :: ks) Hp Hn HF Ha.
  destruct (sort_at x p t u (CS (sp s5) l6) _ P5 Ht H6) as (s7 & -> & H7 & P7); [auto with ne|]. cbn [bind fst snd].
  destruct (fundec_ok p (ename n) ss qs u s7 P7 Hf HQ) as (s8 & E8 & L8 & P8).
  destruct ss as [|s1 ss]; [inversion HF; subst; congruence|]. rewrite E8. cbn [bind fst snd]. rewrite <- L8 in H7.
  destruct (to_end_ok s8 _ ks H7 Hb) as (l9 & -> & H9). cbn [bind]. unfold mem. eauto.
Qed.
Lemma entry1_known x p fs n ps ss t u body f s ks : hold p (sp s) -> is_tok n -> ps <> [] -> sorts_of p ps ss -> dsort p t u -> balanced body ->
  mget (ename n) (p_fun p) = Some f -> at_toks (sl s) (render_entry (EFun n ps t body) ++ ks) -> entry1 x s fs = Exit.
Proof.
  intros Hp Hn Hne HF Ht Hb Hf Ha. unfold entry1. cbn [render_entry app] in Ha. rewrite <- !app_assoc in Ha. cbn [app] in Ha.
  rewrite <- !app_assoc in Ha. cbn [app] in Ha. hd_ x p n ps ss s (render_so t ++ body ++ TR :: ks) Hp Hn HF Ha.
  destruct (sort_at x p t u (CS (sp s5) l6) _ P5 Ht H6) as (s7 & -> & H7 & P7); [auto with ne|]. cbn [bind fst snd].
  destruct ss as [|s1 ss]; [inversion HF; subst; congruence|]. unfold mkFuncDec.
  assert (E : p_fun (sp s7) = p_fun p) by apply P7. now rewrite E, Hf.
Qed.
Lemma not_define c : raw c <> L "define-fun" -> seqs (raw c) "define-fun" = false.
Proof. intros H. unfold seqs. destruct (seq_str (raw c) (L "define-fun")) eqn:Q; [|reflexivity]. apply BVProofs2.seq_str_spec in Q. contradiction. Qed.
Lemma other_ok {A} x c ts s ks (a : A) f : is_tok c -> raw c <> L "define-fun" -> balanced ts -> at_toks (sl s) (render_entry (EOther c ts) ++ ks) ->
  exists l, (s1 <- lparc s ;; k <- sym x s1 ;; if negb (seqs (fst k) "define-fun") then s2 <- to_end (snd k) ;; Ok (s2, a) else f k)
    = Ok (CS (sp s) l, a) /\ at_toks l ks.
Proof.
  intros Hc Hr Hb Ha. cbn [render_entry app] in Ha. rewrite <- !app_assoc in Ha. cbn [app] in Ha. destruct (lpar_tok s _ Ha) as (l1 & -> & H1). cbn [bind].
  destruct (sym_tok x (CS (sp s) l1) _ _ H1 Hc) as (l2 & -> & H2); [intros _; apply app_ne|]. cbn [bind fst snd sp]. rewrite (not_define c Hr). cbn [negb].
  destruct (to_end_ok (CS (sp s) l2) _ ks H2 Hb) as (l3 & -> & H3). cbn [bind sp]. eauto.
Qed.

Lemma eloop_stop {A} f n s (a : A) ks : at_toks (sl s) (TR :: ks) -> eloop f (S n) s a = Ok (s, a, true).
Proof.
  intros H. cbn [eloop]. rewrite (skip4_par s TR ks H) by now right. assert (atc lpar s = false) as -> by (unfold atc; rewrite (cur_tok _ _ _ H); reflexivity). reflexivity.
Qed.
Lemma eloop_step {A} f n s (a : A) ks s' a' : at_toks (sl s) (TL :: ks) -> f s a = Ok (s', a') -> eloop f (S n) s a = eloop f n s' a'.
Proof.
  intros H E. cbn [eloop]. rewrite (skip4_par s TL ks H) by now left. rewrite (proj1 (atc_L s _ H)). cbn [negb]. now rewrite E.
Qed.
Lemma eloop_exit {A} f n s (a : A) ks : at_toks (sl s) (TL :: ks) -> f s a = Exit -> eloop f (S n) s a = Exit.
Proof.
  intros H E. cbn [eloop]. rewrite (skip4_par s TL ks H) by now left. rewrite (proj1 (atc_L s _ H)). cbn [negb]. now rewrite E.
Qed.
Lemma render_hd e : exists r, render_entry e = TL :: r. Proof. destruct e; cbn; eauto. Qed.
Lemma at_entry s e ks : at_toks s (render_entry e ++ ks) -> exists r, at_toks s (TL :: r).
Proof. destruct (render_hd e) as (r & ->). cbn [app]. eauto. Qed.

Lemma pass1_ok x l2 : forall p fs l p1 fs1 s, declares p fs l p1 fs1 -> hold p (sp s) ->
  at_toks (sl s) (render_entries l ++ l2) -> forall n, length l <= n ->
  exists s', (forall a, eloop (entry1 x) (n + a) s fs = eloop (entry1 x) (n - length l + a) s' fs1) /\ at_toks (sl s') l2 /\ hold p1 (sp s').
Proof.
  intros p fs l p1 fs1 s H. revert s. induction H as [p fs|p fs n t e u l p' fs' Hn Ht Hb H IH|p fs n ps ss t u body qs l p' fs' Hn Hne HF Ht Hb Hf HQ H IH|p fs c ks l p' fs' Hc Hr Hb H IH];
    intros s Hp Ha k Hk; cbn [render_entries flat_map app] in Ha; rewrite <- ?app_assoc in Ha; [|fold (render_entries l) in Ha..].
  - exists s. cbn [length]. rewrite Nat.sub_0_r. auto.
  - cbn [length] in *. destruct k as [|k]; [lia|]. destruct (at_entry _ _ _ Ha) as (r & Hr). 
    destruct (entry1_val x p fs n t u e s _ Hp Hn Ht Hb Ha) as (s1 & E1 & H1 & P1).
    destruct (IH s1 P1 H1 k) as (s2 & E2 & H2 & P2); [lia|]. exists s2. split; [|auto]. intros a. cbn [Nat.add Nat.sub].
    rewrite (eloop_step _ _ _ _ _ _ _ Hr E1). apply E2.
  - cbn [length] in *. destruct k as [|k]; [lia|]. destruct (at_entry _ _ _ Ha) as (r & Hr). 
    destruct (entry1_fun x p fs n ps ss t u body qs s _ Hp Hn Hne HF Ht Hb Hf HQ Ha) as (s1 & E1 & H1 & P1).
    destruct (IH s1 P1 H1 k) as (s2 & E2 & H2 & P2); [lia|]. exists s2. split; [|auto]. intros a. cbn [Nat.add Nat.sub].
    rewrite (eloop_step _ _ _ _ _ _ _ Hr E1). apply E2.
  - cbn [length] in *. destruct k as [|k]; [lia|]. destruct (at_entry _ _ _ Ha) as (r & Hr0). 
    destruct (other_ok x c ks s _ fs (fun k => n <- mname x (snd k) ;; s2 <- lparc (snd n) ;; ps <- many' (mparam x) s2 ;; s3 <- rparc (snd ps) ;;
      t <- psort' x s3 ;; match fst ps with
    | [] => s4 <- to_end (snd t) ;; Ok (s4, fs)
    | _ => f <- mkFuncDec (fst n) (fst ps) (fst t) (snd t) ;;
           s4 <- to_end (snd f) ;; Ok (s4, if existsb (seq_str (fst n)) fs then fs else fs ++ [fst n])
    end) Hc Hr Hb Ha) as (l1 & E1 & H1). fold (entry1 x s fs) in E1.
    destruct (IH (CS (sp s) l1) Hp H1 k) as (s2 & E2 & H2 & P2); [lia|]. exists s2. split; [|auto]. intros a. cbn [Nat.add Nat.sub].
    rewrite (eloop_step _ _ _ _ _ _ _ Hr0 E1). apply E2.
Qed.

(** ** the second pass *)
Lemma entry2_known x only p n t u e w v c s ks m m' : hold p (sp s) -> is_tok n -> dsort p t u -> mget (ename n) (p_var p) = Some w ->
  means x p e v c -> isErr v = false -> m_add w v m = Ok m' -> at_toks (sl s) (render_entry (EVal n t e) ++ ks) ->
  exists s', entry2 x only s m = Ok (s', m') /\ at_toks (sl s') ks /\ hold (set_ctr c p) (sp s').
Proof.
  intros Hp Hn Ht Hw Hm Hv Hadd Ha. unfold entry2. cbn [render_entry app] in Ha. rewrite <- !app_assoc in Ha. cbn [app] in Ha.
  hd_ x p n (@nil (token * so)) (@nil sort) s (render_so t ++ render e ++ TR :: ks) Hp Hn (Forall2_nil (fun (q : token * so) s => is_tok (fst q) /\ dsort p (snd q) s)) Ha.
  destruct (sort_at x p t u (CS (sp s5) l6) _ P5 Ht H6) as (s7 & -> & H7 & P7); [auto with ne|]. cbn [bind fst snd].
  assert (E : p_var (sp s7) = p_var p) by apply P7. rewrite E, Hw, andb_false_r. unfold mkVar. rewrite E, Hw. cbn [fst snd].
  destruct (expr_at x p e v c s7 _ P7 Hm H7) as (s8 & -> & H8 & P8); [discriminate|]. cbn [bind fst snd]. rewrite Hv, Hadd. cbn [bind].
  destruct (rpar_tok s8 _ H8) as (l9 & -> & H9). cbn [bind]. eauto.
Qed.
Lemma entry2_new x p n t u e v c s ks m m' : hold p (sp s) -> is_tok n -> dsort p t u -> mget (ename n) (p_var p) = None ->
  means x (add_var (ename n) u p) e v c -> isErr v = false -> m_add (T NT_VAR u (ename n) []) v m = Ok m' -> at_toks (sl s) (render_entry (EVal n t e) ++ ks) ->
  exists s', entry2 x false s m = Ok (s', m') /\ at_toks (sl s') ks /\ hold (set_ctr c (add_var (ename n) u p)) (sp s').
Proof.
  intros Hp Hn Ht Hw Hm Hv Hadd Ha. unfold entry2. cbn [render_entry app] in Ha. rewrite <- !app_assoc in Ha. cbn [app] in Ha.
  hd_ x p n (@nil (token * so)) (@nil sort) s (render_so t ++ render e ++ TR :: ks) Hp Hn (Forall2_nil (fun (q : token * so) s => is_tok (fst q) /\ dsort p (snd q) s)) Ha.
  destruct (sort_at x p t u (CS (sp s5) l6) _ P5 Ht H6) as (s7 & -> & H7 & P7); [auto with ne|]. cbn [bind fst snd andb].
  assert (E : p_var (sp s7) = p_var p) by apply P7. unfold mkVar. rewrite E, Hw. cbn [fst snd].
  assert (P7' : hold (add_var (ename n) u p) (sp (onp (fun p0 => set_var (mins (ename n) (T NT_VAR u (ename n) []) (p_var p0)) p0) s7))).
  { cbn [onp sp]. rewrite E, mins_new by exact Hw. now apply hold_var. }
  destruct (expr_at x _ e v c (onp (fun p0 => set_var (mins (ename n) (T NT_VAR u (ename n) []) (p_var p0)) p0) s7) (TR :: ks) P7' Hm H7) as (s8 & -> & H8 & P8); [discriminate|]. cbn [bind fst snd]. rewrite Hv, Hadd. cbn [bind].
  destruct (rpar_tok s8 _ H8) as (l9 & -> & H9). cbn [bind]. eauto.
Qed.
Lemma entry2_skip x p n t u e s ks m : hold p (sp s) -> is_tok n -> dsort p t u -> mget (ename n) (p_var p) = None -> balanced (render e) ->
  at_toks (sl s) (render_entry (EVal n t e) ++ ks) ->
  exists s', entry2 x true s m = Ok (s', m) /\ at_toks (sl s') ks /\ hold p (sp s').
Proof.
  intros Hp Hn Ht Hw Hb Ha. unfold entry2. cbn [render_entry app] in Ha. rewrite <- !app_assoc in Ha. cbn [app] in Ha.
  hd_ x p n (@nil (token * so)) (@nil sort) s (render_so t ++ render e ++ TR :: ks) Hp Hn (Forall2_nil (fun (q : token * so) s => is_tok (fst q) /\ dsort p (snd q) s)) Ha.
  destruct (sort_at x p t u (CS (sp s5) l6) _ P5 Ht H6) as (s7 & -> & H7 & P7); [auto with ne|]. cbn [bind fst snd].
  assert (E : p_var (sp s7) = p_var p) by apply P7. rewrite E, Hw. cbn [andb].
  destruct (to_end_ok s7 _ ks H7 Hb) as (l8 & -> & H8). cbn [bind]. eauto.
Qed.
Lemma entry2_fun x only p n ps ss t body s ks m : hold p (sp s) -> is_tok n -> ps <> [] -> sorts_of p ps ss -> balanced (render_so t ++ body) ->
  at_toks (sl s) (render_entry (EFun n ps t body) ++ ks) ->
  exists s', entry2 x only s m = Ok (s', m) /\ at_toks (sl s') ks /\ hold p (sp s').
Proof.
  intros Hp Hn Hne HF Hb Ha. unfold entry2. cbn [render_entry app] in Ha. rewrite <- !app_assoc in Ha. cbn [app] in Ha.
  rewrite <- !app_assoc in Ha. cbn [app] in Ha. hd_ x p n ps ss s (render_so t ++ body ++ TR :: ks) Hp Hn HF Ha.
  destruct ps; [congruence|]. cbn [negb]. rewrite app_assoc in H6. destruct (to_end_ok (CS (sp s5) l6) _ ks H6 Hb) as (l8 & E8 & H8). rewrite E8. cbn [bind]. exists (CS (sp s5) l8). auto.
Qed.

Definition adds (a : list (term * term)) : list update := map (fun q => UAdd (fst q) (snd q)) a.
Lemma pass2_ok x only l2 : forall p l p' a s m m', gives x only p l p' a -> hold p (sp s) -> m_run false (adds a) m = Ok m' ->
  at_toks (sl s) (render_entries l ++ TR :: l2) -> forall n, length l < n ->
  exists s', eloop (entry2 x only) n s m = Ok (s', m', true) /\ at_toks (sl s') (TR :: l2) /\ hold p' (sp s').
Proof.
  intros p l p' a s m m' H. revert s m m'.
  induction H as [p|p n t u e w v c l p' a Hn Ht Hw Hm Hv H IH|p n t u e v c l p' a Ho Hn Ht Hw Hm Hv H IH|p n t u e l p' a Ho Hn Ht Hw Hb H IH
    |p n ps ss t body l p' a Hn Hne HF Hb H IH|p c ks l p' a Hc Hr Hb H IH];
    intros s m m' Hp Hrun Ha k Hk; (destruct k as [|k]; [lia|]); cbn [render_entries flat_map app] in Ha; rewrite <- ?app_assoc in Ha;
    [|fold (render_entries l) in Ha; destruct (at_entry _ _ _ Ha) as (r & Hr0); cbn [length] in Hk ..].
  - cbn in Hrun. injection Hrun as ->. exists s. split; [eapply eloop_stop; exact Ha|auto].
  - unfold adds in Hrun. cbn [map] in Hrun. unfold m_run in Hrun. cbn [foldM m_apply fst snd] in Hrun.
    destruct (m_add w v m) as [m1| | | | |] eqn:E; try discriminate. cbn [bind] in Hrun.
    destruct (entry2_known x only p n t u e w v c s _ m m1 Hp Hn Ht Hw Hm Hv E Ha) as (s1 & E1 & H1 & P1).
    rewrite (eloop_step _ _ _ _ _ _ _ Hr0 E1). apply IH; auto. lia.
  - unfold adds in Hrun. cbn [map] in Hrun. unfold m_run in Hrun. cbn [foldM m_apply fst snd] in Hrun.
    destruct (m_add (T NT_VAR u (ename n) []) v m) as [m1| | | | |] eqn:E; try discriminate. cbn [bind] in Hrun. subst only.
    destruct (entry2_new x p n t u e v c s _ m m1 Hp Hn Ht Hw Hm Hv E Ha) as (s1 & E1 & H1 & P1).
    rewrite (eloop_step _ _ _ _ _ _ _ Hr0 E1). apply IH; auto. lia.
  - subst only. destruct (entry2_skip x p n t u e s _ m Hp Hn Ht Hw Hb Ha) as (s1 & E1 & H1 & P1).
    rewrite (eloop_step _ _ _ _ _ _ _ Hr0 E1). apply IH; auto. lia.
  - destruct (entry2_fun x only p n ps ss t body s _ m Hp Hn Hne HF Hb Ha) as (s1 & E1 & H1 & P1).
    rewrite (eloop_step _ _ _ _ _ _ _ Hr0 E1). apply IH; auto. lia.
  - destruct (other_ok x c ks s _ m (fun k => n <- mname x (snd k) ;; s2 <- lparc (snd n) ;;
    let has := negb (atc rpar s2) in
    ps <- many' (mparam x) s2 ;; s3 <- rparc (snd ps) ;;
    if has then s4 <- to_end s3 ;; Ok (s4, m)
    else
      t <- psort' x s3 ;;
      if only && match mget (fst n) (p_var (sp (snd t))) with Some _ => false | None => true end
      then s4 <- to_end (snd t) ;; Ok (s4, m)
      else
        let v := mkVar (fst t) (fst n) (snd t) in
        e <- pexpr' x (snd v) ;;
        m' <- (if isErr (fst e) then Ok m else m_add (fst v) (fst e) m) ;;
        s4 <- rparc (snd e) ;; Ok (s4, m')) Hc Hr Hb Ha) as (l1 & E1 & H1). fold (entry2 x only s m) in E1.
    rewrite (eloop_step _ _ _ _ _ _ _ Hr0 E1). apply IH; auto. lia.
Qed.

Lemma entries_len l : length l <= length (render_entries l).
Proof. induction l as [|e l IH]; [auto|]. cbn [render_entries flat_map length]. rewrite app_length. destruct (render_hd e) as (r & ->). cbn [length]. fold (render_entries l). lia. Qed.
Lemma model_len t kw l : lexes plain_word t (render_model kw l) -> length l < length t.
Proof. intros H. apply lexes_len in H. unfold render_model in H. cbn [length] in H. rewrite !app_length in H. pose proof (entries_len l). lia. Qed.

Lemma parseModel_ok b only p g t q kw l p1 fs1 p2 a m : holds_decls p (q_p q) -> q_g q = g ->
  (kw = true -> model_header t) -> lexes plain_word t (render_model kw l) ->
  declares p (g_funs g) l p1 fs1 -> gives (xo b false (g_opt g)) only p1 l p2 a -> m_run false (adds a) newModel = Ok m ->
  exists q', parseModel b t only q = Ok (m, q') /\ q_g q' = set_funs fs1 g /\ hold p2 (q_p q') /\ q_res q' = q_res q /\ q_file q' = q_file q.
Proof.
  intros Hp Hg Hh Hl Hd Hgi Hm. apply hold_decls in Hp. destruct Hp as [Hp _]. pose proof (model_len _ _ _ Hl) as Len.
  unfold parseModel. rewrite Hg. destruct t as [|c0 t0]; [cbn in Len; lia|]. set (t := c0 :: t0) in *. clearbody t.
  destruct (header_ok b t kw l (q_p q) (g_opt g) Hh Hl) as (s & -> & Hs).
  set (x := xo b false (g_opt g)) in *.
  destruct (pass1_ok x [TR] p (g_funs g) l p1 fs1 (CS (q_p q) s) Hd Hp Hs (length t)) as (s1 & E1 & H1 & P1); [lia|].
  replace (S (length t)) with (length t + 1) by lia. rewrite E1. replace (length t - length l + 1) with (S (length t - length l)) by lia.
  rewrite (eloop_stop _ _ _ _ _ H1). cbn [bind fst snd].
  assert (M : Lx (txt (sl (CS (q_p q) s))) (md (sl s1)) = s).
  { rewrite (md_par _ _ _ H1) by now right. cbn [sl]. rewrite <- (proj1 (conj (match l as l' return at_toks s (render_entries l' ++ [TR]) -> md s = SM_SYMBOL with
      | [] => fun H => md_par s TR [] H (or_intror eq_refl)
      | e :: l' => fun H => match at_entry s e (render_entries l' ++ [TR]) (eq_ind _ (at_toks s) H _ (eq_sym (app_assoc _ _ _))) with ex_intro _ r H' => md_par s TL r H' (or_introl eq_refl) end end Hs) Logic.I)).
    now destruct s. }
  rewrite M.
  destruct (pass2_ok x only [] p1 l p2 a (CS (sp s1) s) newModel m Hgi P1 Hm Hs (length t + 1)) as (s2 & -> & H2 & P2); [lia|].
  cbn [bind fst snd]. eexists. split; [reflexivity|]. cbn [q_g q_p q_res q_file]. auto.
Qed.

Lemma adds_known a : forall done, names_known (adds a) done.
Proof. induction a as [|q a IH]; intros done; cbn; auto. Qed.
Lemma last_after a n : forall z, fold_left (fun m u => upd1 u n m) (adds a) z = match last_given n a with Some v => MVal v | None => z end.
Proof.
  induction a as [|[w v] a IH]; intros z; [reflexivity|]. cbn [adds map fold_left last_given fst snd]. change (map _ a) with (adds a).
  rewrite IH. destruct (last_given n a); [reflexivity|]. cbn [upd1]. now destruct (seq_str (t_name w) n).
Qed.
Lemma last_result a n : m_result (after (adds a) n) = match last_given n a with Some v => v | None => UNKNOWN end.
Proof. unfold after. rewrite last_after. now destruct (last_given n a). Qed.

Lemma parseModel_known b only p g t q kw l1 n ps ss so u body l2 p1 fs1 f : holds_decls p (q_p q) -> q_g q = g ->
  (kw = true -> model_header t) -> lexes plain_word t (render_model kw (l1 ++ EFun n ps so body :: l2)) ->
  declares p (g_funs g) l1 p1 fs1 -> is_tok n -> ps <> [] -> sorts_of p1 ps ss -> dsort p1 so u -> balanced body ->
  mget (ename n) (p_fun p1) = Some f -> parseModel b t only q = Exit.
Proof.
  intros Hp Hg Hh Hl Hd Hn Hne HF Ht Hb Hf. apply hold_decls in Hp. destruct Hp as [Hp _]. pose proof (model_len _ _ _ Hl) as Len.
  rewrite app_length in Len. cbn [length] in Len.
  unfold parseModel. rewrite Hg. destruct t as [|c0 t0]; [cbn in Len; lia|]. set (t := c0 :: t0) in *. clearbody t.
  destruct (header_ok b t kw _ (q_p q) (g_opt g) Hh Hl) as (s & -> & Hs).
  set (x := xo b false (g_opt g)) in *. unfold render_entries in Hs. rewrite flat_map_app in Hs. fold (render_entries l1) in Hs. rewrite <- app_assoc in Hs.
  destruct (pass1_ok x _ p (g_funs g) l1 p1 fs1 (CS (q_p q) s) Hd Hp Hs (length t)) as (s1 & E1 & H1 & P1); [lia|].
  replace (S (length t)) with (length t + 1) by lia. rewrite E1. replace (length t - length l1 + 1) with (S (length t - length l1)) by lia.
  cbn [flat_map] in H1. rewrite <- app_assoc in H1. destruct (at_entry _ _ _ H1) as (r & Hr).
  rewrite (eloop_exit _ _ _ _ _ Hr); [reflexivity|]. eapply entry1_known; eassumption.
Qed.

(** a text whose first word behind the parenthesis is define-fun *)
Lemma not_model_word t ks0 : lexes plain_word t ks0 -> forall w ks, ks0 = TWord w :: ks -> hd nul w <> "m"%char -> is_model t = false.
Proof.
  intros H. induction H as [|c t ks' Hc H IH|b c t ks' Hb Hc H IH|b Hb|t ks' H IH|t ks' H IH
    |b t ks' Hb H IH|b t ks' Hb Hs H IH|w t ks' Hn Hw Hs Ho H IH]; intros w0 ks E K; try discriminate; try reflexivity.
  - destruct (ws4 c) eqn:W.
    + specialize (IH w0 ks E K). unfold is_model in *. cbn [drop]. now rewrite W.
    + unfold is_model. cbn [drop]. rewrite W. change (L "model") with ("m"%char :: L "odel"). cbn [is_prefix].
      assert (aeq "m"%char c = false) as ->; [|reflexivity]. apply aeq_false. intros <-. revert Hc. unfold wsC, code. cbn. intuition discriminate.
  - injection E as <- <-. destruct w as [|c w]; [congruence|]. cbn [hd] in K. unfold is_model. cbn [app drop].
    assert (ws4 c = false) as ->.
    { inversion Hw as [|? ? D _]; subst. destruct (ws4 c) eqn:Q; [|reflexivity]. exfalso. apply D. left. unfold ws4 in Q. unfold wsC. cbn [In].
      repeat (apply orb_true_iff in Q; destruct Q as [Q|Q]); apply Nat.eqb_eq in Q; rewrite Q; tauto. }
    change (L "model") with ("m"%char :: L "odel"). cbn [is_prefix].
    assert (aeq "m"%char c = false) as ->; [|reflexivity]. apply aeq_false. congruence.
Qed.
Lemma parseModel_bare b only t q w ks : lexes plain_word t (TL :: TWord w :: ks) -> hd nul w <> "m"%char ->
  parseModel b t only q = Ok (newModel, q).
Proof.
  intros H Hw. unfold parseModel. destruct t as [|c0 t0]; [reflexivity|]. set (t := c0 :: t0) in *. clearbody t.
  pose proof (at_scan _ _ H) as Ha. unfold mheader. set (s0 := CS (q_p q) (scan t)) in *.
  rewrite (proj1 (atc_L s0 _ Ha)). destruct (lpar_tok s0 _ Ha) as (l1 & -> & H1). cbn [bind].
  assert (is_model (tl (txt (sl s0))) = false) as ->.
  { destruct (lexes_head _ _ _ H _ _ eq_refl) as (t' & E' & Ht & _). cbn [sl s0]. rewrite E'. cbn [txt raw app tl]. eapply not_model_word; [exact Ht|reflexivity|exact Hw]. }
  assert (N : forall (A : Type) (f : cs -> A -> res (cs * A)) n p a m, exists s', eloop f (S n) (CS p (Lx (txt l1) m)) a = Ok (s', a, true) /\ sp s' = p /\ txt (sl s') = txt l1).
  { intros A f n p a m.
    assert (exists c r, txt l1 = c :: r /\ ~ delimC c) as (c & r & E & D).
    { destruct H1 as (t1 & X & Y). destruct (lexes_head _ _ _ X _ _ eq_refl) as (t2 & Z & _ & (Z1 & Z2 & _)). rewrite Y, Z. cbn [txt raw].
      destruct w as [|c w]; [congruence|]. inversion Z2; subst. cbn [app]. eauto. }
    cbn [eloop]. unfold skip4. cbn [sl sp txt md]. rewrite E. cbn [drop].
    assert (ws4 c = false) as ->.
    { destruct (ws4 c) eqn:Q; [|reflexivity]. exfalso. apply D. left. unfold ws4 in Q. unfold wsC. cbn [In].
      repeat (apply orb_true_iff in Q; destruct Q as [Q|Q]); apply Nat.eqb_eq in Q; rewrite Q; tauto. }
    unfold atc. cbn [sl cur txt]. assert (aeq c lpar = false) as ->. { apply aeq_false. intros ->. apply D. unfold delimC, lpar. cbn. tauto. }
    cbn [negb]. eexists. split; [reflexivity|]. cbn. auto. }
  set (x := xo b false (g_opt (q_g q))). change (sp s0) with (q_p q).
  destruct (N _ (entry1 x) (length t) (q_p q) (g_funs (q_g q)) (md l1)) as (s1 & E1 & P1 & T1).
  replace (Lx (txt l1) (md l1)) with l1 in E1 by now destruct l1. rewrite E1. cbn [bind fst snd sl]. rewrite P1.
  destruct (N _ (entry2 x only) (length t) (q_p q) newModel (md (sl s1))) as (s2 & E2 & P2 & _). rewrite E2. cbn [bind fst snd]. rewrite P2.
  destruct q as [qp qg qr qf]. cbn. now destruct qg.
Qed.

(** newEmptyModel *)
Lemma newEmpty_run vars : forall m, m_run false (map UAddVar vars) m = Ok (fold_left (fun m v => m_addVar v m) vars m).
Proof. induction vars as [|v vars IH]; intros m; [reflexivity|]. unfold m_run in *. cbn [map foldM m_apply bind fold_left]. apply IH. Qed.
