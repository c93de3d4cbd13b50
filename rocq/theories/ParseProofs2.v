(** Expressions, lets and quantifiers: pexpr returns the term of the specification. *)
From Verif Require Import Base LexSpec LexProofs KindModel SortModel TermModel UtilModel SimpModel OpModel LexModel
  ParseModel ParseSpec BVProofs2 ParseProofs.
Open Scope Z_scope.

(** ** peeking at the word behind a parenthesis *)
Lemma lexes_rpar ok t ks : lexes ok t ks -> In TR ks ->
  exists a b, t = a ++ ")"%char :: b /\ Forall (fun c => c <> nul) a.
Proof.
  induction 1 as [|c t ks Hc H IH|b c t ks Hb Hc H IH|b Hb|t ks H IH|t ks H IH|b t ks Hb H IH|b t ks Hb Hs H IH|w t ks Hn Hw Hs Ho H IH];
    intros HI.
  - destruct HI.
  - destruct (IH HI) as (a & b & -> & Ha). exists (c :: a), b. split; [reflexivity|].
    constructor; [now apply ws_nonul|exact Ha].
  - destruct (IH HI) as (a & b' & -> & Ha). exists ((";"%char :: b) ++ c :: a), b'.
    split; [cbn; now rewrite <- app_assoc|]. constructor; [discriminate|]. apply Forall_app. split.
    + revert Hb. apply Forall_impl. tauto.
    + constructor; [|exact Ha]. now apply ws_nonul, nl_ws.
  - destruct HI.
  - destruct HI as [HI|HI]; [discriminate|]. destruct (IH HI) as (a & b & -> & Ha).
    exists ("("%char :: a), b. split; [reflexivity|]. constructor; [discriminate|exact Ha].
  - exists [], t. split; [reflexivity|constructor].
  - destruct HI as [HI|HI]; [discriminate|]. destruct (IH HI) as (a & b' & -> & Ha).
    exists (("|"%char :: b) ++ "|"%char :: a), b'. split; [cbn; now rewrite <- app_assoc|].
    constructor; [discriminate|]. apply Forall_app. split; [revert Hb; apply Forall_impl; tauto|].
    constructor; [discriminate|exact Ha].
  - destruct HI as [HI|HI]; [discriminate|]. destruct (IH HI) as (a & b' & -> & Ha).
    exists ((quoteC :: b) ++ quoteC :: a), b'. split; [cbn; now rewrite <- app_assoc|].
    constructor; [discriminate|]. apply Forall_app. split.
    + clear - Hb. induction Hb; repeat constructor; auto; discriminate.
    + constructor; [discriminate|exact Ha].
  - destruct HI as [HI|HI]; [discriminate|]. destruct (IH HI) as (a & b' & -> & Ha).
    exists (w ++ a), b'. split; [now rewrite app_assoc|]. apply Forall_app. split; [|exact Ha].
    revert Hw. apply Forall_impl. intros c Hc ->. apply Hc. right. now right.
Qed.
Lemma sci_par acc : sci_start ("("%char :: acc) = false.
Proof.
  unfold sci_start. destruct (find_e _ 0) as [p|] eqn:E; [|reflexivity].
  destruct p as [|p]; [reflexivity|]. cbn [Nat.ltb Nat.leb andb firstn].
  assert (isReal ("("%char :: firstn p acc) = false) as ->; [|now rewrite andb_false_r].
  destruct (isReal _) eqn:F; [|reflexivity]. apply isReal_real in F. inversion F as [|? ? Hc _]; subst.
  destruct Hc as [Hc|Hc]; [cbn in Hc; lia|]. cbn in Hc. intuition discriminate.
Qed.
Lemma sym_par file a b : Forall (fun c => c <> nul) a -> forall acc,
  exists v l, sym_loop file false false 0 ("("%char :: acc) (a ++ ")"%char :: b) = Ok ("("%char :: v, l).
Proof.
  induction 1 as [|c a Hc Ha IH]; intros acc.
  - cbn [app sym_loop]. rewrite sci_par. do 2 eexists. reflexivity.
  - cbn [app sym_loop]. rewrite sci_par. cbn [orb]. rewrite (proj2 (aeq_false c nul) Hc).
    destruct (isblank c || isnl c); [do 2 eexists; reflexivity|].
    destruct (aeq c semi || aeq c bar || aeq c dq || aeq c lpar || aeq c rpar); [do 2 eexists; reflexivity|].
    apply (IH (acc ++ [c])).
Qed.
Lemma peek_par x s ks : at_toks (sl s) (TL :: TL :: ks) -> In TR ks ->
  exists v, peek x s = Ok ("("%char :: v).
Proof.
  intros (t & H & E) HI. unfold peek, peekSymbol.
  destruct (lexes_head _ _ _ H TL _ eq_refl) as (t' & E' & Ht & _). rewrite E, E'.
  cbn [raw app]. unfold cur. cbn [txt]. change (aeq "("%char lpar) with true. cbn iota. cbn [tl].
  destruct (lexes_head _ _ _ Ht TL _ eq_refl) as (t2 & E2 & Ht2 & _). rewrite E2. unfold getSymbol.
  cbn [txt md raw app mode_of].
  destruct (lexes_rpar _ _ _ Ht2 HI) as (a & b & -> & Ha).
  destruct (sym_par (x_file x) a b Ha []) as (v & l & ->). cbn [bind fst]. eauto.
Qed.
Lemma peek_tok x s k ks : at_toks (sl s) (TL :: k :: ks) -> is_tok k -> ks <> [] ->
  peek x s = Ok (raw k).
Proof.
  intros H Hk Hn. unfold peek, peekSymbol.
  destruct (at_lpar _ _ H) as (E & l & E1 & Hl). rewrite E. change (aeq lpar lpar) with true. cbn iota.
  assert (scan (tl (txt (sl s))) = l) as ->.
  { unfold parseLpar in E1. unfold cur in E. destruct (txt (sl s)); [discriminate|]. subst a.
    change (aeq lpar lpar) with true in E1. cbn iota in E1. now injection E1. }
  destruct Hk as [Hk1 Hk2].
  destruct (at_symbol (c_dbg (x_c x)) (x_file x) l k ks Hl) as (l' & E' & _); auto.
  - destruct k; auto; congruence.
  - rewrite E'. reflexivity.
Qed.
Lemma at_scanc s ks : at_toks (sl s) ks -> at_toks (sl (scanc s)) ks.
Proof. apply at_rescan. Qed.

(** ** the first tokens of an expression *)
Definition first_ok (e : sx) : Prop := exists k l, render e = k :: l /\ k <> TR /\
  (k = TL -> (forall bs b, e <> SLet bs b) ->
   exists k2 l2, l = k2 :: l2 /\ In TR l2 /\ (k2 = TL \/ is_tok k2 /\ raw k2 <> L "let")).
Lemma fp_first a e m : first_ok (SFp a e m).
Proof.
  exists TL. eexists. split; [reflexivity|]. split; [discriminate|]. intros _ _.
  eexists. eexists. split; [reflexivity|]. split; [|right; split; [apply word_tok|discriminate]].
  rewrite !in_app_iff. cbn. tauto.
Qed.
Lemma fps_first h e g : first_ok (SFps h e g).
Proof.
  exists TL. eexists. split; [reflexivity|]. split; [discriminate|]. intros _ _.
  eexists. eexists. split; [reflexivity|]. split; [cbn; tauto|]. right. split; [apply word_tok|discriminate].
Qed.
Lemma const_first s e : first_ok (SConst s e).
Proof.
  exists TL. eexists. split; [reflexivity|]. split; [discriminate|]. intros _ _.
  eexists. eexists. split; [reflexivity|]. split; [|now left].
  right. right. apply in_or_app. right. now left.
Qed.
Lemma den_first x g d c r e t c' : den x g d c r e t c' -> first_ok e.
Proof.
  assert (A : forall k, is_tok k -> first_ok (SAtom k)).
  { intros k [H1 H2]. exists k, []. repeat split; auto; congruence. }
  assert (B : forall h args, is_tok h -> special (raw h) = false -> first_ok (SApp h args)).
  { intros h args Hh Hs. exists TL, (h :: flat_map render args ++ [TR]). repeat split; try discriminate.
    intros _ _. exists h, (flat_map render args ++ [TR]). repeat split; auto.
    - apply in_or_app. right. now left.
    - right. split; [exact Hh|]. intros E. rewrite E in Hs. discriminate. }
  intros H. destruct H; auto.
  - exists TL. eexists. split; [reflexivity|]. split; [discriminate|]. intros _ _.
    eexists. eexists. split; [reflexivity|]. split; [|now left].
    right. right. apply in_or_app. right. now left.
  - exists TL. eexists. split; [reflexivity|]. split; [discriminate|]. intros _ _.
    eexists. eexists. split; [reflexivity|]. split; [cbn; tauto|]. right. split; [apply word_tok|discriminate].
  - apply fp_first.
  - apply fps_first.
  - apply const_first.
  - exists TL. eexists. split; [reflexivity|]. split; [discriminate|]. intros _ H'. now destruct (H' bs b).
  - exists TL. eexists. split; [reflexivity|]. split; [discriminate|]. intros _ _.
    eexists. eexists. split; [reflexivity|]. split.
    + right. apply in_or_app. right. now left.
    + right. split; [apply word_tok|]. destruct fa; discriminate.
Qed.

Section Main.
Context (x : pcfg) (g : pst).
Definition P (d : bool) c r e t c' : Prop := (d = true -> c' = c) /\ first_ok e /\
  forall s ks fuel D D', base x g d c D (sp s) -> bnd x g d r D (sp s) ->
  scoped g d D (map fst r) e = Some D' -> at_toks (sl s) (render e ++ ks) -> (x_file x = true -> ks <> []) ->
  (2 * length (render e) <= fuel)%nat ->
  exists s', pexpr fuel x s = Ok (t, s') /\ at_toks (sl s') ks /\ base x g d c' D' (sp s') /\ keeps (sp s) (sp s').
Inductive Pl : bool -> Z -> env -> list sx -> list term -> Z -> Prop :=
| Pl_nil d c r : Pl d c r [] [] c
| Pl_cons d c r e l t ts c1 c2 : P d c r e t c1 -> Pl d c1 r l ts c2 -> Pl d c r (e :: l) (t :: ts) c2.
Lemma Pl_c d c r l ts c' : Pl d c r l ts c' -> d = true -> c' = c.
Proof. induction 1 as [|d c r e l t ts c1 c2 (H & _) _ IH]; intros E; [reflexivity|]. rewrite (IH E). auto. Qed.
Lemma Pl_length d c r l ts c' : Pl d c r l ts c' -> length ts = length l.
Proof. induction 1; cbn [length]; auto. Qed.

Lemma s_all_mono d N l : forall D D', s_all g d N D l = Some D' -> mono N D D'.
Proof.
  induction l as [|e l IH]; intros D D' H; cbn [s_all] in H.
  - injection H as <-. apply mono_refl.
  - destruct (scoped g d D N e) eqn:E; [|discriminate].
    eapply mono_trans; [eapply scoped_mono; eassumption|now apply IH].
Qed.

Lemma pargs_ok d c r l ts c' : Pl d c r l ts c' -> forall s ks fuel D D',
  base x g d c D (sp s) -> bnd x g d r D (sp s) -> s_all g d (map fst r) D l = Some D' ->
  at_toks (sl s) (flat_map render l ++ TR :: ks) -> (2 * length (flat_map render l) + 1 <= fuel)%nat ->
  exists s', pargs fuel x s = Ok (ts, s') /\ at_toks (sl s') ks /\ base x g d c' D' (sp s') /\ keeps (sp s) (sp s').
Proof.
  induction 1 as [d c r|d c r e l t ts c1 c2 (Hc & Hf & He) _ IH]; intros s ks fuel D D' B N HS Ha Hu.
  - cbn [s_all] in HS. injection HS as <-. destruct fuel as [|f]; [lia|]. cbn [pargs flat_map app] in *.
    apply at_scanc in Ha. destruct (atc_R _ _ Ha) as [-> _].
    destruct (rpar_tok _ _ Ha) as (l & -> & Hl). cbn [bind]. eexists. split; [reflexivity|].
    split; [exact Hl|]. split; [exact B|apply keeps_refl].
  - cbn [s_all] in HS. destruct (scoped g d D (map fst r) e) as [D1|] eqn:E1; [|discriminate].
    cbn [flat_map] in Ha, Hu. rewrite <- app_assoc in Ha. rewrite app_length in Hu.
    destruct fuel as [|f]; [lia|]. cbn [pargs]. apply at_scanc in Ha.
    assert (atc rpar (scanc s) = false) as ->.
    { destruct Hf as (k & l0 & Er & Hk & _). rewrite Er in Ha. cbn [app] in Ha.
      destruct k; [now destruct (atc_L _ _ Ha)|congruence| | |]; eapply atc_A; eauto; split; discriminate. }
    assert (1 <= length (render e))%nat.
    { destruct Hf as (k & l0 & -> & _). cbn [length]. lia. }
    destruct (He (scanc s) (flat_map render l ++ TR :: ks) f D D1) as (s1 & -> & Ha1 & B1 & K1); auto.
    { intros _ E. now destruct (flat_map render l). }
    { lia. }
    cbn [bind fst snd].
    destruct (IH s1 ks f D1 D') as (s2 & -> & Ha2 & B2 & K2); auto.
    { eapply bnd_keep; eauto. apply (scoped_mono _ _ _ _ _ _ E1). }
    { lia. }
    cbn [bind fst snd]. eexists. split; [reflexivity|]. split; [exact Ha2|]. split; [exact B2|].
    eapply keeps_trans; eassumption.
Qed.

(** ** bindings *)
Definition ins (nm : str) (c : Z) (t : term) (p : pst) : pst :=
  if x_keep x then set_plet (mins (plet_name p nm) (let_node nm c t) (p_plet p)) p
  else set_let (mins nm t (p_let p)) p.
Lemma letget_ins nm c t p v : letget x p nm = None ->
  letget x (ins nm c t p) v = if seq_str nm v then Some (let_val x nm c t) else letget x p v.
Proof.
  unfold letget, ins, let_val. destruct (x_keep x); intros H.
  - cbn. change (plet_name (set_plet _ p) v) with (plet_name p v). rewrite mget_mins.
    destruct (seq_str nm v) eqn:E.
    + apply seq_str_spec in E. subst v. rewrite seq_refl, H. reflexivity.
    + assert (seq_str (plet_name p nm) (plet_name p v) = false) as ->; [|reflexivity].
      apply seq_neq. apply seq_neq in E. intros F. apply plet_name_inj in F. contradiction.
  - cbn. rewrite mget_mins. destruct (seq_str nm v) eqn:E; [|reflexivity].
    apply seq_str_spec in E. subst v. now rewrite H.
Qed.
Lemma base_ins nm c t p D : base x g true c D p -> ~ In nm D -> base x g true c (nm :: D) (ins nm c t p).
Proof.
  intros B Hn. assert (HN : letget x p nm = None).
  { destruct (letget x p nm) eqn:E; [|reflexivity]. exfalso. apply Hn. eapply (b_let _ _ _ _ _ _ B); eauto. }
  assert (B' : base x g true c D (ins nm c t p) \/ True) by tauto. clear B'.
  split; try (unfold ins; destruct (x_keep x); cbn; apply B).
  - intros _ v u. rewrite letget_ins by assumption. destruct (seq_str nm v) eqn:E.
    + apply seq_str_spec in E. subst v. intros _. now left.
    + intros H. right. eapply (b_let _ _ _ _ _ _ B); eauto.
  - intros v c' u Hc. unfold ins. destruct (x_keep x); cbn; [|now apply B]. rewrite mget_mins.
    destruct (seq_str _ _) eqn:E; [|now apply B]. apply seq_str_spec in E. unfold plet_name in E.
    apply plet_inj in E. destruct (b_c _ _ _ _ _ _ B) as [Ec _]. lia.
  - discriminate.
Qed.
Lemma bnd_ins nm c t r p D : base x g true c D p -> bnd x g true r D p -> ~ In nm D -> ~ In nm (map fst r) ->
  bnd x g true r (nm :: D) (ins nm c t p).
Proof.
  intros B N Hn Hr. assert (HN : letget x p nm = None).
  { destruct (letget x p nm) eqn:E; [|reflexivity]. exfalso. apply Hn. eapply (b_let _ _ _ _ _ _ B); eauto. }
  split.
  - intros v u Hv. destruct (n_bound _ _ _ _ _ _ N v u Hv) as [U H]. split; [exact U|].
    assert (nm <> v). { intros <-. apply assoc_None in Hr. congruence. }
    destruct H as [[_ H]|(H1 & H2 & H3 & H4)].
    + left. split; [reflexivity|]. rewrite letget_ins by assumption. now rewrite (proj2 (seq_neq nm v)).
    + right. assert (p_quant (ins nm c t p) = p_quant p /\ p_qd (ins nm c t p) = p_qd p) as [-> ->].
      { unfold ins. now destruct (x_keep x). }
      repeat split; auto. intros _ [E|E]; [contradiction|]. now apply (H3 eq_refl).
  - intros v Hv. assert (p_quant (ins nm c t p) = p_quant p) as ->.
    { unfold ins. now destruct (x_keep x). } now apply N.
Qed.
(** like [keeps], but the let table may have gained the names [ns] *)
Record wkeeps (ns : list str) (p p' : pst) : Prop := {
  w_let : forall v, x_keep x = true \/ ~ In v ns -> mget v (p_let p') = mget v (p_let p);
  w_plet : forall v t, mget v (p_plet p) = Some t -> mget v (p_plet p') = Some t;
  w_quant : forall v, mget v (p_quant p') = mget v (p_quant p);
  w_ld : p_ld p' = p_ld p; w_qd : p_qd p' = p_qd p; w_named : p_named p' = p_named p }.
Lemma wkeeps_refl p : wkeeps [] p p. Proof. split; auto. Qed.
Lemma wkeeps_step nm c t p p1 p2 ns : keeps p p1 -> letget x p1 nm = None -> wkeeps ns (ins nm c t p1) p2 ->
  wkeeps (nm :: ns) p p2.
Proof.
  intros [A1 A2 A3 A4 A5 A6] HN [B1 B2 B3 B4 B5 B6].
  assert (p_quant (ins nm c t p1) = p_quant p1 /\ p_qd (ins nm c t p1) = p_qd p1 /\ p_ld (ins nm c t p1) = p_ld p1
          /\ p_named (ins nm c t p1) = p_named p1) as (E1 & E2 & E3 & E4).
  { unfold ins. now destruct (x_keep x). }
  split; rewrite ?B4, ?B5, ?B6, ?E2, ?E3, ?E4; auto.
  - intros v Hv. cbn [In] in Hv. rewrite B1 by tauto. rewrite <- A1. unfold ins. destruct (x_keep x); [reflexivity|].
    destruct Hv as [Hv|Hv]; [discriminate|].
    cbn. rewrite mget_mins. now rewrite (proj2 (seq_neq nm v)) by tauto.
  - intros v u Hv. apply B2. unfold ins. destruct (x_keep x); cbn; [|auto]. rewrite mget_mins.
    rewrite (A2 _ _ Hv). now destruct (seq_str _ _).
  - intros v. now rewrite B3, E1.
Qed.
Definition keyname (p : pst) (v : str) : str := if x_keep x then plet_name p v else v.
Definition binds_toks (bs : list (token * sx)) : list token :=
  flat_map (fun q => TL :: fst q :: render (snd q) ++ [TR]) bs.

Lemma ctr_name p p' : p_ctr p = p_ctr p' -> forall v, keyname p v = keyname p' v.
Proof. intros E v. unfold keyname, plet_name. now rewrite E. Qed.

Lemma pbinds_ok c r : forall bs ts, Forall (fun q => is_tok (fst q)) bs -> Pl true c r (map snd bs) ts c ->
  forall s ks fuel D D1, base x g true c D (sp s) -> bnd x g true r D (sp s) ->
  s_binds g (map fst r) D bs = Some D1 -> at_toks (sl s) (binds_toks bs ++ TR :: ks) ->
  (2 * length (binds_toks bs) + 1 <= fuel)%nat ->
  exists s', pbinds fuel x s = Ok (combine (map (keyname (sp s)) (names bs)) (let_vals x bs c ts), s') /\
    at_toks (sl s') (TR :: ks) /\ base x g true c D1 (sp s') /\ bnd x g true r D1 (sp s') /\
    wkeeps (names bs) (sp s) (sp s') /\
    (forall v t, assoc v (combine (names bs) (let_vals x bs c ts)) = Some t -> letget x (sp s') v = Some t) /\
    (forall v t, letget x (sp s) v = Some t -> letget x (sp s') v = Some t) /\
    (forall v, In v (names bs) -> letget x (sp s) v = None /\ ~ In v (map fst r) /\ unboundable v = false).
Proof.
  induction bs as [|[k e] bs IH]; intros ts Hk HP s ks fuel D D1 B N HS Ha Hu; (destruct fuel as [|f]; [lia|]).
  - cbn [binds_toks flat_map app] in Ha. cbn [pbinds]. destruct (atc_R _ _ Ha) as [-> _].
    cbn [s_binds] in HS. injection HS as <-. eexists. split; [reflexivity|]. split; [exact Ha|].
    split; [exact B|]. split; [exact N|]. split; [apply wkeeps_refl|]. split; [discriminate|].
    split; [auto|]. intros v [].
  - inversion Hk as [|? ? Hk1 Hk2]; subst. cbn [fst] in Hk1. cbn [map snd] in HP.
    inversion HP as [|? ? ? ? ? t ts' c1 ? He HP']; subst.
    assert (c1 = c) as ->. { destruct He as (He & _). auto. }
    destruct He as (_ & Hf & He).
    cbn [binds_toks flat_map fst snd] in Ha, Hu. fold (binds_toks bs) in Ha, Hu.
    cbn [app] in Ha. repeat (rewrite <- app_assoc in Ha; cbn [app] in Ha).
    cbn [length] in Hu. repeat (rewrite app_length in Hu; cbn [length] in Hu).
    cbn [pbinds]. destruct (atc_L _ _ Ha) as [_ ->].
    destruct (lpar_tok _ _ Ha) as (l & -> & Hl). cbn [bind].
    destruct (sym_tok x (CS (sp s) l) k _ Hl Hk1) as (l1 & -> & Hl1).
    { intros _ E. now destruct (render e). }
    cbn [bind fst snd sp]. cbn [s_binds fst snd] in HS.
    destruct (scoped g true D (map fst r) e) as [D'|] eqn:Es; [|discriminate].
    destruct (mem (raw k) (D' ++ map fst r) || unboundable (raw k)) eqn:Em; [discriminate|].
    apply orb_false_iff in Em. destruct Em as [Em Eu]. apply mem_nIn in Em.
    assert (HnD' : ~ In (raw k) D') by (intros H; apply Em, in_or_app; now left).
    assert (Hnr : ~ In (raw k) (map fst r)) by (intros H; apply Em, in_or_app; now right).
    pose proof (scoped_mono _ _ _ _ _ _ Es) as [Hincl Hmono].
    assert (HnD : ~ In (raw k) D) by (intros H; apply HnD', Hincl, H).
    assert (HN : letget x (sp s) (raw k) = None).
    { destruct (letget x (sp s) (raw k)) eqn:E; [|reflexivity]. exfalso. apply HnD. eapply (b_let _ _ _ _ _ _ B); eauto. }
    change (if x_keep x then plet_name (sp s) (raw k) else raw k) with (keyname (sp s) (raw k)).
    assert ((if x_keep x then mget (keyname (sp s) (raw k)) (p_plet (sp s))
             else mget (keyname (sp s) (raw k)) (p_let (sp s))) = None) as ->.
    { revert HN. unfold letget, keyname. now destruct (x_keep x). }
    destruct (He (CS (sp s) l1) (TR :: binds_toks bs ++ TR :: ks) f D D') as (s1 & -> & Ha1 & B1 & K1); auto.
    { discriminate. } { lia. }
    cbn [bind fst snd]. cbn [sp] in K1.
    pose proof (bnd_keep x g true c c r D D' (sp s) (sp s1) N K1 B B1 (fun _ => eq_refl) Hmono) as N1.
    assert (HN1 : letget x (sp s1) (raw k) = None).
    { destruct (letget x (sp s1) (raw k)) eqn:E; [|reflexivity]. exfalso. apply HnD'. eapply (b_let _ _ _ _ _ _ B1); eauto. }
    assert (Ec : p_ctr (sp s) = p_ctr (sp s1)).
    { rewrite (proj1 (b_c _ _ _ _ _ _ B)), (proj1 (b_c _ _ _ _ _ _ B1)). reflexivity. }
    set (q := if x_keep x then mkLetVar (keyname (sp s) (raw k)) t s1
              else (t, onp (fun p => set_let (mins (keyname (sp s) (raw k)) t (p_let p)) p) s1)).
    assert (Eq : q = (let_val x (raw k) c t, CS (ins (raw k) c t (sp s1)) (sl s1))).
    { unfold q. rewrite (ctr_name _ _ Ec). unfold keyname, let_val, ins. revert HN1. unfold letget.
      destruct (x_keep x); intros HN1.
      - unfold mkLetVar. rewrite HN1. unfold let_node. unfold plet_name at 1.
        rewrite (proj1 (b_c _ _ _ _ _ _ B1)). f_equal. unfold onp. f_equal. f_equal. f_equal.
        unfold plet_name. now rewrite (proj1 (b_c _ _ _ _ _ _ B1)).
      - reflexivity. }
    rewrite Eq. clear q Eq. cbn [fst snd].
    destruct (rpar_tok (CS (ins (raw k) c t (sp s1)) (sl s1)) _ Ha1) as (l2 & -> & Hl2). cbn [bind sp].
    destruct (IH ts' Hk2 HP' (CS (ins (raw k) c t (sp s1)) l2) ks f (raw k :: D') D1) as
      (s2 & -> & Ha2 & B2 & N2 & K2 & A1 & A2 & A3); auto.
    { now apply base_ins. } { now apply bnd_ins. } { lia. }
    cbn [bind fst snd]. cbn [sp] in K2, A2, A3.
    assert (Ec2 : p_ctr (ins (raw k) c t (sp s1)) = p_ctr (sp s)).
    { rewrite Ec. unfold ins. now destruct (x_keep x). }
    exists s2. split.
    { cbn [names map combine let_vals fst snd]. do 3 f_equal.
      unfold let_vals. f_equal. apply map_ext. intros v. now apply ctr_name. }
    split; [exact Ha2|]. split; [exact B2|]. split; [exact N2|].
    split; [eapply wkeeps_step; eassumption|].
    assert (M : forall v u, letget x (sp s) v = Some u -> letget x (sp s1) v = Some u).
    { intros v u. unfold letget, plet_name. rewrite Ec. destruct (x_keep x); [apply (k_plet _ _ K1)|].
      now rewrite (k_let _ _ K1). }
    split; [|split].
    + intros v u. cbn [names map combine let_vals fst snd assoc].
      destruct (seq_str (raw k) v) eqn:E.
      * intros [= <-]. apply seq_str_spec in E. subst v. apply A2. rewrite letget_ins by assumption.
        now rewrite seq_refl.
      * apply A1.
    + intros v u H. apply A2. rewrite letget_ins by assumption.
      destruct (seq_str (raw k) v) eqn:E; [|auto].
      apply seq_str_spec in E. subst v. congruence.
    + intros v [ <- |H]; [cbn [fst]; auto|]. destruct (A3 v H) as (G1 & G2 & G3). split; [|auto].
      destruct (letget x (sp s) v) eqn:E; [|reflexivity]. apply M in E.
      rewrite letget_ins in G1 by assumption. destruct (seq_str (raw k) v); congruence.
Qed.

Lemma let_vals_len bs c ts : length ts = length bs -> length (let_vals x bs c ts) = length bs.
Proof. intros H. unfold let_vals. rewrite map_length, combine_length. lia. Qed.
Lemma names_len {A} (bs : list (token * A)) : length (names bs) = length bs.
Proof. apply map_length. Qed.
Lemma map_fst_combine {A B} (l : list A) : forall (m : list B), length l = length m -> map fst (combine l m) = l.
Proof. induction l as [|a l IH]; intros [|b m] H; try discriminate; [reflexivity|]. cbn. f_equal. apply IH. now injection H. Qed.
Lemma env_names bs c ts r : length ts = length bs ->
  map fst (combine (names bs) (let_vals x bs c ts) ++ r) = names bs ++ map fst r.
Proof. intros H. rewrite map_app, map_fst_combine; [reflexivity|]. now rewrite names_len, let_vals_len. Qed.

Lemma bnd_let c r bs ts D1 p : bnd x g true r D1 p -> length ts = length bs ->
  (forall v t, assoc v (combine (names bs) (let_vals x bs c ts)) = Some t -> letget x p v = Some t) ->
  (forall v, In v (names bs) -> unboundable v = false /\ ~ In v (map fst r)) ->
  bnd x g true (combine (names bs) (let_vals x bs c ts) ++ r) D1 p.
Proof.
  intros N HL HA HU. split.
  - intros v t. rewrite assoc_app. destruct (assoc v (combine _ _)) as [u|] eqn:E; cbn [orelse].
    + intros [= ->]. split; [|left; split; [reflexivity|now apply HA]].
      apply HU. destruct (in_dec (list_eq_dec ascii_dec) v (names bs)) as [H|H]; [exact H|].
      assert (assoc v (combine (names bs) (let_vals x bs c ts)) = None) as F; [|congruence].
      apply assoc_None. rewrite map_fst_combine; [exact H|]. now rewrite names_len, let_vals_len.
    + apply (n_bound _ _ _ _ _ _ N).
  - intros v. rewrite assoc_app. destruct (assoc v (combine _ _)) as [u|] eqn:E; cbn [orelse]; [discriminate|].
    apply N.
Qed.

Definition level_ok c r bs b ls t : Prop :=
  forall s ks fuel D D1 D2, base x g true c D (sp s) -> bnd x g true r D (sp s) ->
  s_binds g (map fst r) D bs = Some D1 -> scoped g true D1 (names bs ++ map fst r) b = Some D2 ->
  at_toks (sl s) (binds_toks bs ++ TR :: render b ++ TR :: ks) ->
  (2 * (length (binds_toks bs) + length (render b)) + 3 <= fuel)%nat ->
  exists s' ls', plet fuel x s = Ok (ls', Some t, s') /\ (x_keep x = true -> ls' = ls) /\
    at_toks (sl s') (TR :: ks) /\ base x g true c D2 (sp s') /\ keeps (sp s) (sp s').

(** leaving a level: the names bound there are erased again (when lets are not kept) *)
Lemma level_end c D2 (bs : list (token * sx)) p p' p2 : wkeeps (names bs) p p' -> keeps p' p2 -> base x g true c D2 p2 ->
  (forall v, In v (names bs) -> letget x p v = None) ->
  let q := if x_keep x then p2 else set_let (dels (map (keyname p) (names bs)) (p_let p2)) p2 in
  base x g true c D2 q /\ keeps p q.
Proof.
  intros W K B HN q. split.
  { split; try (unfold q; destruct (x_keep x); cbn; apply B); [|discriminate].
    intros _ v t H. apply (b_let _ _ _ _ _ _ B eq_refl v t). revert H. unfold q, letget.
    destruct (x_keep x); [auto|]. cbn. rewrite mget_dels. now destruct (mem _ _). }
  assert (Eq : p_quant q = p_quant p2 /\ p_plet q = p_plet p2 /\ p_ld q = p_ld p2 /\ p_qd q = p_qd p2 /\ p_named q = p_named p2).
  { unfold q. now destruct (x_keep x). }
  destruct Eq as (E1 & E2 & E3 & E4 & E5). split; rewrite ?E1, ?E2, ?E3, ?E4, ?E5.
  - intros v. unfold q. destruct (x_keep x) eqn:EK.
    + rewrite (k_let _ _ K). apply (w_let _ _ _ W). now left.
    + cbn. rewrite mget_dels. destruct (mem v (map (keyname p) (names bs))) eqn:Em.
      * apply mem_In in Em. apply in_map_iff in Em. destruct Em as (u & Eu & Hu). unfold keyname in Eu.
        rewrite EK in Eu. subst u. apply HN in Hu. unfold letget in Hu. now rewrite EK in Hu.
      * rewrite (k_let _ _ K). apply (w_let _ _ _ W). right. apply mem_nIn in Em. intros H. apply Em.
        apply in_map_iff. exists v. unfold keyname. now rewrite EK.
  - intros v t H. apply (k_plet _ _ K), (w_plet _ _ _ W), H.
  - intros v. rewrite (k_quant _ _ K). apply (w_quant _ _ _ W).
  - rewrite (k_ld _ _ K). apply (w_ld _ _ _ W).
  - rewrite (k_qd _ _ K). apply (w_qd _ _ _ W).
  - rewrite (k_named _ _ K). apply (w_named _ _ _ W).
Qed.

Lemma combine_snd {A B} (l : list A) : forall (m : list B), length l = length m -> map snd (combine l m) = m.
Proof. induction l as [|a l IH]; intros [|b m] H; try discriminate; [reflexivity|]. cbn. f_equal. apply IH. now injection H. Qed.
Lemma let_list bs c ts : bs <> [] -> length ts = length bs -> x_keep x = true ->
  mkLetList (let_vals x bs c ts) =
  Ok (T NT_LET_BIND_VAR_LIST (t_sort (hd NULLT ts)) [] (let_vals x bs c ts)).
Proof.
  intros Hn HL HK. destruct bs as [|[k e] bs]; [congruence|]. destruct ts as [|t ts]; [discriminate|].
  unfold let_vals. cbn [combine map mkLetList fst snd hd]. do 2 f_equal.
  unfold let_val. rewrite HK. reflexivity.
Qed.

(** one level of let, given what its body does *)
Lemma level_of_body c r bs b ts t ls : bs <> [] -> Forall (fun q => is_tok (fst q)) bs ->
  Pl true c r (map snd bs) ts c ->
  (forall s ks fuel D D', base x g true c D (sp s) -> bnd x g true (combine (names bs) (let_vals x bs c ts) ++ r) D (sp s) ->
     scoped g true D (names bs ++ map fst r) b = Some D' ->
     at_toks (sl s) (render b ++ TR :: ks) -> (2 * length (render b) + 1 <= fuel)%nat ->
     exists s' ls', pbody fuel x None s = Ok (ls', Some t, s') /\ (x_keep x = true -> ls' = ls) /\
       at_toks (sl s') (TR :: ks) /\ base x g true c D' (sp s') /\ keeps (sp s) (sp s')) ->
  level_ok c r bs b (T NT_LET_BIND_VAR_LIST (t_sort (hd NULLT ts)) [] (let_vals x bs c ts) :: ls) t.
Proof.
  intros Hn Hk HP HB s ks fuel D D1 D2 B N HS1 HS2 Ha Hu. destruct fuel as [|f]; [lia|]. cbn [plet].
  pose proof (Pl_length _ _ _ _ _ _ HP) as HL. rewrite map_length in HL.
  destruct (pbinds_ok c r bs ts Hk HP s _ f D D1 B N HS1 Ha) as
    (s1 & -> & Ha1 & B1 & N1 & W1 & A1 & A2 & A3); [lia|].
  cbn [bind fst snd].
  destruct (rpar_tok _ _ Ha1) as (l & -> & Hl). cbn [bind].
  assert (EL : length (map (keyname (sp s)) (names bs)) = length (let_vals x bs c ts)).
  { now rewrite map_length, names_len, let_vals_len. }
  rewrite combine_snd by exact EL. rewrite (map_fst_combine _ _ EL).
  assert (exists l0, (if x_keep x then l1 <- mkLetList (let_vals x bs c ts) ;; Ok [l1] else Ok []) = Ok l0 /\
     (x_keep x = true -> l0 = [T NT_LET_BIND_VAR_LIST (t_sort (hd NULLT ts)) [] (let_vals x bs c ts)])) as (l0 & -> & Hl0).
  { destruct (x_keep x) eqn:EK; [|eexists; split; [reflexivity|discriminate]].
    rewrite let_list by auto. eexists. split; [reflexivity|auto]. }
  cbn [bind].
  destruct (HB (CS (sp s1) l) ks f D1 D2) as (s2 & ls' & -> & Hls & Ha2 & B2 & K2); auto.
  { apply bnd_let; auto. intros v Hv. destruct (A3 v Hv) as (_ & G2 & G3). auto. }
  { lia. }
  cbn [bind fst snd]. cbn [sp] in K2.
  destruct (level_end c D2 bs (sp s) (sp s1) (sp s2) W1 K2 B2) as [G1 G2].
  { intros v Hv. now apply A3. }
  eexists. exists (l0 ++ ls'). split; [reflexivity|].
  split; [intros EK; now rewrite (Hl0 EK), (Hls EK)|].
  split; [destruct (x_keep x); exact Ha2|].
  revert G1 G2. destruct (x_keep x); cbn [onp sp]; auto.
Qed.
Lemma level_body c r bs b ts t : bs <> [] -> Forall (fun q => is_tok (fst q)) bs ->
  Pl true c r (map snd bs) ts c -> (forall bs' b', b <> SLet bs' b') ->
  P true c (combine (names bs) (let_vals x bs c ts) ++ r) b t c ->
  level_ok c r bs b [T NT_LET_BIND_VAR_LIST (t_sort (hd NULLT ts)) [] (let_vals x bs c ts)] t.
Proof.
  intros Hn Hk HP Hb (_ & Hf & He). apply level_of_body; auto.
  pose proof (Pl_length _ _ _ _ _ _ HP) as HL. rewrite map_length in HL.
  intros s ks fuel D D' B N HS Ha Hu. destruct fuel as [|f]; [lia|]. cbn [pbody].
  destruct (He s (TR :: ks) f D D') as (s' & E & Ha' & B' & K'); auto.
  { now rewrite env_names. } { discriminate. } { lia. }
  assert ((if atc lpar s then k <- peek x s ;; Ok (seqs k "let") else Ok false) = Ok false) as ->.
  { destruct (atc lpar s) eqn:EL; [|reflexivity].
    destruct Hf as (k & l & Er & Hk1 & Hk2). rewrite Er in Ha. cbn [app] in Ha.
    assert (k = TL) as ->.
    { destruct k; auto; [congruence| | |]; exfalso;
      (destruct (atc_A _ _ _ Ha) as [F _]; [split; discriminate|congruence]). }
    destruct (Hk2 eq_refl Hb) as (k2 & l2 & -> & HI & HC). cbn [app] in Ha.
    destruct HC as [-> |[HC1 HC2]].
    - destruct (peek_par x s _ Ha) as (v & ->); [apply in_or_app; now left|]. reflexivity.
    - rewrite (peek_tok x s k2 _ Ha HC1) by (destruct l2; discriminate). cbn [bind].
      now rewrite (seqs_no _ _ HC2). }
  cbn [bind].
  assert (atc rpar s = false) as ->.
  { destruct Hf as (k & l0 & Er & Hk0 & _). rewrite Er in Ha. cbn [app] in Ha.
    destruct k; [now destruct (atc_L _ _ Ha)|congruence| | |]; eapply atc_A; eauto; split; discriminate. }
  rewrite E. cbn [bind fst snd]. exists s', []. auto.
Qed.
Lemma level_let c r bs bs' b' ts ls t : bs <> [] -> Forall (fun q => is_tok (fst q)) bs ->
  Pl true c r (map snd bs) ts c ->
  level_ok c (combine (names bs) (let_vals x bs c ts) ++ r) bs' b' ls t ->
  level_ok c r bs (SLet bs' b')
    (T NT_LET_BIND_VAR_LIST (t_sort (hd NULLT ts)) [] (let_vals x bs c ts) :: ls) t.
Proof.
  intros Hn Hk HP HL. apply level_of_body; auto.
  pose proof (Pl_length _ _ _ _ _ _ HP) as EL. rewrite map_length in EL.
  intros s ks fuel D D' B N HS Ha Hu. destruct fuel as [|f]; [lia|]. cbn [pbody].
  cbn [render] in Ha, Hu. fold (binds_toks bs') in Ha, Hu. cbn [app length] in Ha, Hu.
  rewrite app_length in Hu; cbn [length] in Hu. rewrite app_length in Hu; cbn [length] in Hu.
  repeat (rewrite <- app_assoc in Ha; cbn [app] in Ha).
  destruct (atc_L _ _ Ha) as [-> _].
  rewrite (peek_tok x s _ _ Ha (word_tok _)) by discriminate. cbn [bind]. rewrite raw_word.
  change (seqs (L "let") "let") with true. cbn iota.
  destruct (lpar_tok _ _ Ha) as (l & -> & Hl). cbn [bind].
  destruct (sym_tok x (CS (sp s) l) _ _ Hl (word_tok _)) as (l1 & -> & Hl1); [discriminate|]. cbn [bind fst snd sp].
  destruct (lpar_tok (CS (sp s) l1) _ Hl1) as (l2 & -> & Hl2). cbn [bind sp].
  change (match s_binds g (names bs ++ map fst r) D bs' with
            | Some D1 => match scoped g true D1 (names bs' ++ names bs ++ map fst r) b' with
                         | Some D2 => Some D2 | None => None end
            | None => None end = Some D') in HS.
  destruct (s_binds g (names bs ++ map fst r) D bs') as [D1|] eqn:E1; [|discriminate].
  destruct (scoped g true D1 (names bs' ++ names bs ++ map fst r) b') as [D2|] eqn:E2; [|discriminate].
  injection HS as <-.
  destruct (HL (CS (sp s) l2) (TR :: ks) f D D1 D2) as (s1 & ls' & -> & Hls & Ha1 & B1 & K1); auto.
  { now rewrite env_names. } { now rewrite env_names. } { lia. }
  cbn [bind fst snd]. destruct (rpar_tok _ _ Ha1) as (l3 & -> & Hl3). cbn [bind].
  destruct f as [|f]; [lia|]. cbn [pbody].
  destruct (atc_R (CS (sp s1) l3) _ Hl3) as [G1 G2]. rewrite G1, G2. cbn [bind fst snd].
  exists (CS (sp s1) l3), (ls' ++ []). rewrite app_nil_r. auto.
Qed.

(** ** quantified variables *)
Lemma base_quant d c D p m : base x g d c D p -> base x g d c D (set_quant m p).
Proof. intros B. split; cbn; apply B. Qed.
Lemma base_qd d c D p m : base x g d c D p -> base x g d c D (set_qd m p).
Proof. intros B. split; cbn; apply B. Qed.
Record qkeeps (p p' : pst) : Prop := {
  q_let : forall v, mget v (p_let p') = mget v (p_let p);
  q_plet : forall v t, mget v (p_plet p) = Some t -> mget v (p_plet p') = Some t;
  q_ld : p_ld p' = p_ld p; q_qd : p_qd p' = p_qd p; q_named : p_named p' = p_named p }.
Definition vars_toks (vs : list (token * so)) : list token :=
  flat_map (fun q => TL :: fst q :: render_so (snd q) ++ [TR]) vs.
Lemma pvars_ok d c D : forall vs ss, Forall2 (fun v u => is_tok (fst v) /\ dsort g (snd v) u) vs ss ->
  forall s ks fuel, base x g d c D (sp s) -> nodupb (names vs) = true ->
  (forall v, In v (names vs) -> mget v (p_quant (sp s)) = None) ->
  at_toks (sl s) (vars_toks vs ++ TR :: ks) -> (length vs + 1 <= fuel)%nat ->
  exists s', pvars fuel x s = Ok (combine (names vs) (quant_nodes vs ss), s') /\
    at_toks (sl s') (TR :: ks) /\ base x g d c D (sp s') /\ qkeeps (sp s) (sp s') /\
    (forall v, mget v (p_quant (sp s')) =
               orelse (assoc v (combine (names vs) (quant_nodes vs ss))) (mget v (p_quant (sp s)))).
Proof.
  induction 1 as [|[k t] u vs ss [Hk Hd] HF IH]; intros s ks fuel B Hn HQ Ha Hu; (destruct fuel as [|f]; [cbn [length] in Hu; lia|]).
  - cbn [pvars]. cbn [vars_toks flat_map app] in Ha. destruct (atc_R _ _ Ha) as [-> _].
    eexists. split; [reflexivity|]. split; [exact Ha|]. split; [exact B|]. split; [split; auto|]. reflexivity.
  - cbn [vars_toks flat_map fst snd] in Ha. fold (vars_toks vs) in Ha. cbn [fst snd] in Hk, Hd.
    cbn [app] in Ha. repeat (rewrite <- app_assoc in Ha; cbn [app] in Ha).
    cbn [pvars]. destruct (atc_L _ _ Ha) as [_ ->].
    destruct (lpar_tok _ _ Ha) as (l & -> & Hl). cbn [bind].
    destruct (sym_tok x (CS (sp s) l) k _ Hl Hk) as (l1 & -> & Hl1).
    { intros _ E. now destruct (render_so t). }
    cbn [bind fst snd sp sl].
    replace (length (txt l1) * 2 + 2)%nat with (S (length (txt l1) * 2 + 1)) by lia.
    assert (Hdp : (so_depth t <= length (txt l1) * 2 + 1)%nat).
    { pose proof Hl1 as (tx & Hx & Ex). apply lexes_scan, lexes_len in Hx. cbn [sl] in Ex. rewrite <- Ex in Hx. rewrite app_length in Hx. pose proof (so_depth_len t). lia. }
    destruct (psort_ok x g d c D t (CS (sp s) l1) u _ (length (txt l1) * 2 + 1) Hdp B Hd Hl1) as (s1 & -> & Ha1 & B1 & K1); [discriminate|].
    cbn [bind fst snd]. cbn [sp] in K1.
    cbn [names map fst nodupb] in Hn. fold (names vs) in Hn. apply andb_true_iff in Hn. destruct Hn as [Hn1 Hn2].
    apply negb_true_iff, mem_nIn in Hn1.
    assert (Eq : mkQuantVar (raw k) u s1 = (quant_node (raw k) u, CS (set_quant (mins (raw k) (quant_node (raw k) u) (p_quant (sp s1))) (sp s1)) (sl s1))).
    { unfold mkQuantVar. rewrite (k_quant _ _ K1), HQ by now left. reflexivity. }
    rewrite Eq. cbn [fst snd].
    destruct (rpar_tok (CS (set_quant (mins (raw k) (quant_node (raw k) u) (p_quant (sp s1))) (sp s1)) (sl s1)) _ Ha1) as (l2 & -> & Hl2).
    cbn [bind sp].
    assert (HG : forall v, mget v (mins (raw k) (quant_node (raw k) u) (p_quant (sp s1))) =
                           if seq_str (raw k) v then Some (quant_node (raw k) u) else mget v (p_quant (sp s))).
    { intros v. rewrite mget_mins, (k_quant _ _ K1). destruct (seq_str (raw k) v) eqn:E; [|reflexivity].
      apply seq_str_spec in E. subst v. now rewrite HQ by now left. }
    destruct (IH (CS (set_quant (mins (raw k) (quant_node (raw k) u) (p_quant (sp s1))) (sp s1)) l2) ks f) as (s2 & -> & Ha2 & B2 & K2 & HM); auto.
    { now apply base_quant. }
    { intros v Hv. cbn [sp p_quant set_quant]. rewrite HG.
      assert (raw k <> v) as Hne by (intros <-; contradiction). rewrite (proj2 (seq_neq _ _) Hne).
      apply HQ. now right. }
    { cbn [length] in Hu. lia. }
    cbn [bind fst snd]. eexists. split; [reflexivity|]. split; [exact Ha2|]. split; [exact B2|].
    destruct K1 as [A1 A2 A3 A4 A5 A6], K2 as [G1 G2 G3 G4 G5]. cbn in G1, G2, G3, G4, G5.
    split; [split; try congruence; auto; intros v; rewrite ?G1; auto|].
    intros v. rewrite HM. cbn [sp p_quant set_quant]. rewrite HG.
    cbn [names map combine quant_nodes fst snd assoc].
    fold (names vs). fold (quant_nodes vs ss).
    destruct (seq_str (raw k) v) eqn:E; [|reflexivity].
    apply seq_str_spec in E. subst v.
    assert (assoc (raw k) (combine (names vs) (quant_nodes vs ss)) = None) as ->; [|reflexivity].
    apply assoc_None. intros H. apply Hn1. clear - H HF.
    revert H. generalize (quant_nodes vs ss) (names vs). intros m. induction m as [|a m IHm]; intros [|b l]; cbn; intuition.
Qed.

Lemma quant_nodes_len vs ss : length vs = length ss -> length (quant_nodes vs ss) = length vs.
Proof. intros H. unfold quant_nodes. rewrite map_length, combine_length. lia. Qed.

(** ** the main induction *)
Scheme den_m := Minimality for den Sort Prop
  with dens_m := Minimality for dens Sort Prop
  with dlet_m := Minimality for dlet Sort Prop.
Combined Scheme den_mut from den_m, dens_m, dlet_m.

Lemma atom_ok d c r k t : is_tok k -> isErr t = false -> atomD x g r (raw k) t -> P d c r (SAtom k) t c.
Proof.
  intros Hk He HA. split; [reflexivity|]. split.
  { exists k, []. split; [reflexivity|]. split; [apply Hk|]. intros -> . now destruct Hk. }
  intros s ks fuel D D' B N HS Ha Hf Hu. cbn [render app length] in *. destruct fuel as [|f]; [lia|].
  cbn [pexpr]. destruct (atc_A _ _ _ Ha Hk) as [-> _]. cbn [negb].
  destruct (sym_tok x s k ks Ha Hk Hf) as (l & -> & Hl). cbn [bind fst snd].
  cbn [scoped] in HS. destruct (d && mem (raw k) D && negb (mem (raw k) (map fst r))) eqn:E; [discriminate|].
  injection HS as <-.
  destruct (pname_ok x g d c r D (CS (sp s) l) (raw k) t B N E HA) as (s' & -> & Hs').
  cbn [bind fst snd]. unfold noerr. rewrite He. cbn [bind].
  destruct (srt_step_ok x g d c D _ _ Hs' B) as [B' K']. exists s'. split; [reflexivity|].
  destruct Hs' as [Hs' _]. split; [rewrite Hs'; exact Hl|]. split; [exact B'|exact K'].
Qed.

Lemma sp_word h v : special h = false -> In v ["exists"; "forall"; "_"; "fp"; "let"; "!"; "root-of-with-interval"; "root-obj";
                    "real_algebraic_number"]%string -> seqs h v = false.
Proof.
  intros H HI. unfold special in H. destruct (seqs h v) eqn:E; [|reflexivity].
  assert (existsb (seqs h) ["exists"; "forall"; "_"; "fp"; "let"; "!"; "root-of-with-interval"; "root-obj";
                    "real_algebraic_number"]%string = true); [|congruence].
  apply existsb_exists. eauto.
Qed.
Lemma app_ok d c r h args ts c' t : is_tok h -> special (raw h) = false ->
  Pl d c r args ts c' -> isErr t = false ->
  (forall p, p_fun p = p_fun g -> apply_op x p (raw h) ts = Ok t) ->
  P d c r (SApp h args) t c'.
Proof.
  intros Hh Hs HP He HO. split; [now apply (Pl_c _ _ _ _ _ _ HP)|]. split.
  { exists TL, (h :: flat_map render args ++ [TR]). split; [reflexivity|]. split; [discriminate|].
    intros _ _. exists h, (flat_map render args ++ [TR]). split; [reflexivity|]. split.
    - apply in_or_app. right. now left.
    - right. split; [exact Hh|]. intros E. rewrite E in Hs. discriminate. }
  intros s ks fuel D D' B N HS Ha Hf Hu. cbn [render app length] in *.
  rewrite app_length in Hu. cbn [length] in Hu. rewrite <- app_assoc in Ha. cbn [app] in Ha.
  destruct fuel as [|f]; [lia|]. cbn [pexpr]. destruct (atc_L _ _ Ha) as [-> _]. cbn [negb].
  destruct (lpar_tok _ _ Ha) as (l & -> & Hl). cbn [bind].
  destruct (atc_A (CS (sp s) l) _ _ Hl Hh) as [-> _].
  destruct (sym_tok x (CS (sp s) l) h _ Hl Hh) as (l1 & -> & Hl1).
  { intros _ E. now destruct (flat_map render args). }
  cbn [bind fst snd sp].
  rewrite !(sp_word _ _ Hs) by (cbn; tauto). cbn [orb].
  destruct f as [|f]; [lia|]. cbn [papp].
  assert (ph_name (raw h) = false) as ->.
  { unfold ph_name. now rewrite !(sp_word _ _ Hs) by (cbn; tauto). }
  change (s_all g d (map fst r) D args = Some D') in HS.
  destruct (pargs_ok d c r args ts c' HP (CS (sp s) l1) ks f D D' B N HS Hl1) as (s1 & -> & Ha1 & B1 & K1); [lia|].
  cbn [bind fst snd]. rewrite HO by apply B1. cbn [bind]. unfold noerr. rewrite He. cbn [bind].
  exists s1. auto.
Qed.
Lemma idx_ok d c r h ix args js ts c1 c' t : is_tok h -> raw h <> L "root-obj" ->
  mget (raw h) (p_fun g) = None -> Pl d c r ix js c1 -> Pl d c1 r args ts c' ->
  oper_kind x (getOperKind (raw h)) js ts = Ok t -> isErr t = false ->
  P d c r (SIdx h ix args) t c'.
Proof.
  intros Hh Hr Hm HPi HPa HO He. split.
  { intros E. rewrite (Pl_c _ _ _ _ _ _ HPa E). now apply (Pl_c _ _ _ _ _ _ HPi). }
  split.
  { exists TL. eexists. split; [reflexivity|]. split; [discriminate|]. intros _ _.
    eexists. eexists. split; [reflexivity|]. split; [|now left].
    right. right. apply in_or_app. right. now left. }
  intros s ks fuel D D' B N HS Ha Hf Hu. cbn [render app length] in *.
  rewrite app_length in Hu. cbn [length] in Hu. rewrite app_length in Hu. cbn [length] in Hu.
  repeat (rewrite <- app_assoc in Ha; cbn [app] in Ha).
  destruct fuel as [|f]; [lia|]. cbn [pexpr]. destruct (atc_L _ _ Ha) as [-> _]. cbn [negb].
  destruct (lpar_tok _ _ Ha) as (l & -> & Hl). cbn [bind].
  destruct (atc_L (CS (sp s) l) _ Hl) as [-> _].
  destruct (lpar_tok (CS (sp s) l) _ Hl) as (l0 & -> & Hl0). cbn [bind sp].
  destruct (sym_tok x (CS (sp s) l0) _ _ Hl0 (word_tok _)) as (l1 & -> & Hl1); [discriminate|].
  cbn [bind fst snd sp]. rewrite raw_word. change (seqs (L "_") "_") with true. cbn iota.
  destruct (sym_tok x (CS (sp s) l1) h _ Hl1 Hh) as (l2 & -> & Hl2).
  { intros _ E. now destruct (flat_map render ix). }
  cbn [bind fst snd sp].
  change (match s_all g d (map fst r) D ix with Some D1 => s_all g d (map fst r) D1 args | None => None end = Some D') in HS.
  destruct (s_all g d (map fst r) D ix) as [D1|] eqn:E1; [|discriminate].
  destruct (pargs_ok d c r ix js c1 HPi (CS (sp s) l2) _ f D D1 B N E1 Hl2) as (s1 & -> & Ha1 & B1 & K1); [lia|].
  cbn [bind fst snd]. cbn [sp] in K1.
  destruct (pargs_ok d c1 r args ts c' HPa s1 ks f D1 D' B1) as (s2 & -> & Ha2 & B2 & K2); auto.
  { eapply bnd_keep; eauto; [apply (Pl_c _ _ _ _ _ _ HPi)|]. apply (s_all_mono _ _ _ _ _ E1). }
  { lia. }
  cbn [bind fst snd]. unfold parseOper. rewrite (b_fun _ _ _ _ _ _ B2), Hm, (seqs_no _ _ Hr), HO. cbn [bind].
  unfold noerr. rewrite He. cbn [bind]. exists s2. split; [reflexivity|]. split; [exact Ha2|]. split; [exact B2|].
  eapply keeps_trans; eassumption.
Qed.
Lemma bv_ok d c r n w z b : stoul w = Ok z -> BVModel.natToBv_str (c_dbg (x_c x)) n z = Ok b ->
  P d c r (SBv n w) (T NT_CONST (bvS z) b []) c.
Proof.
  intros Hw Hb. split; [reflexivity|]. split.
  { exists TL. eexists. split; [reflexivity|]. split; [discriminate|]. intros _ _.
    eexists. eexists. split; [reflexivity|]. split; [cbn; tauto|]. right. split; [apply word_tok|discriminate]. }
  intros s ks fuel D D' B N HS Ha Hf Hu. cbn [render app length] in *.
  destruct fuel as [|f]; [lia|]. cbn [pexpr]. destruct (atc_L _ _ Ha) as [-> _]. cbn [negb].
  destruct (lpar_tok _ _ Ha) as (l & -> & Hl). cbn [bind].
  destruct (atc_A (CS (sp s) l) _ _ Hl (word_tok _)) as [-> _].
  destruct (sym_tok x (CS (sp s) l) _ _ Hl (word_tok _)) as (l1 & -> & Hl1); [discriminate|].
  cbn [bind fst snd sp]. rewrite raw_word. change (seqs (L "_") "exists" || seqs (L "_") "forall") with false.
  change (seqs (L "_") "_") with true. cbn iota.
  destruct (sym_tok x (CS (sp s) l1) _ _ Hl1 (tword_tok _)) as (l2 & -> & Hl2); [discriminate|].
  cbn [bind fst snd sp raw]. change (is_prefix (L "bv") (L "bv" ++ n)) with true. cbn iota.
  destruct (sym_tok x (CS (sp s) l2) _ _ Hl2 (tword_tok _)) as (l3 & -> & Hl3); [discriminate|].
  cbn [bind fst snd sp raw]. rewrite Hw. cbn [bind]. change (skipn 2 (L "bv" ++ n)) with n.
  cbn [scoped] in HS. injection HS as <-.
  assert (0 <= z).
  { revert Hw. unfold stoul. destruct (strtol w); [|discriminate]. destruct (_ <? _); [|discriminate].
    intros [= <-]. unfold u64, two64. apply Z.mod_pos_bound. lia. }
  destruct (pConstBv_ok x g n z (CS (sp s) l3) b) as (s' & -> & Hs'); auto; [eapply base_srt; eassumption|].
  cbn [bind fst snd]. destruct (srt_step_ok x g d c D _ _ Hs' B) as [B' K'].
  destruct Hs' as [Hs' _]. cbn [sl] in Hs'. rewrite <- Hs' in Hl3.
  destruct (rpar_tok _ _ Hl3) as (l4 & -> & Hl4). cbn [bind].
  eexists. split; [reflexivity|]. split; [exact Hl4|]. split; [exact B'|exact K'].
Qed.
Lemma fp_ok d c r a e m ta te tm we wm c' : Pl d c r [a; e; m] [ta; te; tm] c' ->
  t_sort ta = bvS 1 -> t_sort te = bvS we -> t_sort tm = bvS wm ->
  isErr ta = false -> isErr te = false -> isErr tm = false ->
  P d c r (SFp a e m)
    (T NT_CONST (fpS (L "FP") we ((wm + 1) mod two64)) (L "(fp_bit_representation)") [ta; te; tm]) c'.
Proof.
  intros HP S1 S2 S3 N1 N2 N3. split; [now apply (Pl_c _ _ _ _ _ _ HP)|]. split; [apply fp_first|].
  inversion HP as [|d0 c0 r0 e0 l0 t0 ts0 c1 c2 (X1 & _ & Y1) HP1]; subst.
  inversion HP1 as [|d0 c0 r0 e0 l0 t0 ts0 c2 c3 (X2 & _ & Y2) HP2]; subst.
  inversion HP2 as [|d0 c0 r0 e0 l0 t0 ts0 c3 c4 (X3 & _ & Y3) HP3]; subst.
  inversion HP3; subst.
  intros s ks fuel D D' B N HS Ha Hf Hu. cbn [render app length] in *.
  repeat (rewrite app_length in Hu; cbn [length] in Hu).
  repeat (rewrite <- app_assoc in Ha; cbn [app] in Ha).
  destruct fuel as [|f]; [lia|]. cbn [pexpr]. destruct (atc_L _ _ Ha) as [-> _]. cbn [negb].
  destruct (lpar_tok _ _ Ha) as (l & -> & Hl). cbn [bind].
  destruct (atc_A (CS (sp s) l) _ _ Hl (word_tok _)) as [-> _].
  destruct (sym_tok x (CS (sp s) l) _ _ Hl (word_tok _)) as (l1 & -> & Hl1).
  { intros _ E. apply (f_equal (@length _)) in E. rewrite !app_length in E. cbn [length] in E. lia. }
  cbn [bind fst snd sp]. rewrite raw_word. change (seqs (L "fp") "exists" || seqs (L "fp") "forall") with false.
  change (seqs (L "fp") "_") with false. change (seqs (L "fp") "fp") with true. cbn iota.
  cbn [scoped] in HS. destruct (scoped g d D (map fst r) a) as [D1|] eqn:E1; [|discriminate].
  destruct (scoped g d D1 (map fst r) e) as [D2|] eqn:E2; [|discriminate].
  destruct (Y1 (CS (sp s) l1) _ f D D1 B N E1 Hl1) as (s1 & -> & Ha1 & B1 & K1).
  { intros _ E. apply (f_equal (@length _)) in E. rewrite !app_length in E. cbn [length] in E. lia. } { lia. }
  cbn [bind fst snd]. cbn [sp] in K1.
  assert (M1 : bnd x g d r D1 (sp s1)) by (eapply bnd_keep; eauto; apply (scoped_mono _ _ _ _ _ _ E1)).
  destruct (Y2 s1 _ f D1 D2 B1 M1 E2 Ha1) as (s2 & -> & Ha2 & B2 & K2).
  { intros _ E. apply (f_equal (@length _)) in E. rewrite !app_length in E. cbn [length] in E. lia. } { lia. }
  cbn [bind fst snd].
  assert (M2 : bnd x g d r D2 (sp s2)) by (eapply bnd_keep; eauto; apply (scoped_mono _ _ _ _ _ _ E2)).
  destruct (Y3 s2 _ f D2 D' B2 M2 HS Ha2) as (s3 & -> & Ha3 & B3 & K3).
  { discriminate. } { lia. }
  cbn [bind fst snd]. unfold mkFpConst. rewrite N1, N2, N3. unfold sis, width. rewrite S1, S2, S3. cbn [s_kind bvS].
  unfold u64.
  match goal with |- context [bind ?A _] => replace A with (Ok (T NT_CONST (fpS (L "FP") we ((wm + 1) mod two64)) (L "(fp_bit_representation)") [ta; te; tm])) by reflexivity end.
  cbn [bind].
  destruct (rpar_tok _ _ Ha3) as (l4 & -> & Hl4). cbn [bind].
  eexists. split; [reflexivity|]. split; [exact Hl4|]. split; [exact B3|].
  cbn [sp]. eapply keeps_trans; [exact K1|]. eapply keeps_trans; eassumption.
Qed.
Lemma fps_ok d c r h eb gb e gg t : is_tok h -> stoul eb = Ok e -> stoul gb = Ok gg -> fp_named (raw h) eb gb e gg t ->
  P d c r (SFps h eb gb) t c.
Proof.
  intros Hh He Hg HN. split; [reflexivity|]. split; [apply fps_first|].
  intros s ks fuel D D' B N HS Ha Hf Hu. cbn [render app length] in *.
  destruct fuel as [|f]; [lia|]. cbn [pexpr]. destruct (atc_L _ _ Ha) as [-> _]. cbn [negb].
  destruct (lpar_tok _ _ Ha) as (l & -> & Hl). cbn [bind].
  destruct (atc_A (CS (sp s) l) _ _ Hl (word_tok _)) as [-> _].
  destruct (sym_tok x (CS (sp s) l) _ _ Hl (word_tok _)) as (l1 & -> & Hl1); [discriminate|].
  cbn [bind fst snd sp]. rewrite raw_word. change (seqs (L "_") "exists" || seqs (L "_") "forall") with false.
  change (seqs (L "_") "_") with true. cbn iota.
  destruct (sym_tok x (CS (sp s) l1) h _ Hl1 Hh) as (l2 & -> & Hl2); [discriminate|].
  cbn [bind fst snd sp].
  assert (HX : is_prefix (L "bv") (raw h) = false /\ fp_special_name (raw h) = true /\ fp_special (raw h) eb gb e gg = t).
  { destruct HN as [nm eb gb e gg [ -> | -> ]|eb gb e gg|eb gb e gg|nm eb gb e gg [ -> |[ -> | -> ]]]; auto. }
  destruct HX as (-> & -> & HX).
  destruct (sym_tok x (CS (sp s) l2) _ _ Hl2 (tword_tok _)) as (l3 & -> & Hl3); [discriminate|].
  cbn [bind fst snd sp raw].
  destruct (sym_tok x (CS (sp s) l3) _ _ Hl3 (tword_tok _)) as (l4 & -> & Hl4); [discriminate|].
  cbn [bind fst snd sp raw]. rewrite He, Hg. cbn [bind].
  cbn [scoped] in HS. injection HS as <-.
  destruct (rpar_tok (CS (sp s) l4) _ Hl4) as (l5 & -> & Hl5). cbn [bind]. rewrite HX.
  eexists. split; [reflexivity|]. split; [exact Hl5|]. split; [exact B|apply keeps_refl].
Qed.
Lemma const_ok d c r t e i v te c' : dsort g t (arrayS i v) -> P d c r e te c' ->
  P d c r (SConst t e) (T NT_CONST_ARRAY (arrayS i v) (L "const_array") [te]) c'.
Proof.
  intros Hd (Hc & _ & He). split; [exact Hc|]. split; [apply const_first|].
  intros s ks fuel D D' B N HS Ha Hf Hu. cbn [render app length] in *.
  repeat (rewrite app_length in Hu; cbn [length] in Hu).
  repeat (rewrite <- app_assoc in Ha; cbn [app] in Ha).
  destruct fuel as [|f]; [lia|]. cbn [pexpr]. destruct (atc_L _ _ Ha) as [-> _]. cbn [negb].
  destruct (lpar_tok _ _ Ha) as (l & -> & Hl). cbn [bind].
  destruct (atc_L (CS (sp s) l) _ Hl) as [-> _].
  destruct (lpar_tok (CS (sp s) l) _ Hl) as (l0 & -> & Hl0). cbn [bind sp].
  destruct (sym_tok x (CS (sp s) l0) _ _ Hl0 (word_tok _)) as (l1 & -> & Hl1); [discriminate|].
  cbn [bind fst snd sp]. rewrite raw_word. change (seqs (L "as") "_") with false. change (seqs (L "as") "as") with true. cbn iota.
  destruct (sym_tok x (CS (sp s) l1) _ _ Hl1 (word_tok _)) as (l2 & -> & Hl2).
  { intros _ E. now destruct (render_so t). }
  cbn [bind fst snd sp sl]. rewrite raw_word. change (seqs (L "const") "const") with true. cbn iota.
  replace (length (txt l2) * 2 + 2)%nat with (S (length (txt l2) * 2 + 1)) by lia.
  assert (Hdp : (so_depth t <= length (txt l2) * 2 + 1)%nat).
  { pose proof Hl2 as (tx & Hx & Ex). apply lexes_scan, lexes_len in Hx. cbn [sl] in Ex. rewrite <- Ex in Hx. rewrite app_length in Hx. pose proof (so_depth_len t). lia. }
  destruct (psort_ok x g d c D t (CS (sp s) l2) _ _ (length (txt l2) * 2 + 1) Hdp B Hd Hl2) as (s1 & -> & Ha1 & B1 & K1); [discriminate|].
  cbn [bind fst snd]. cbn [sp] in K1.
  destruct (rpar_tok _ _ Ha1) as (l3 & -> & Hl3). cbn [bind].
  cbn [scoped] in HS.
  destruct (He (CS (sp s1) l3) (TR :: ks) f D D' B1) as (s2 & -> & Ha2 & B2 & K2); auto.
  { eapply bnd_keep; eauto. } { discriminate. } { lia. }
  cbn [bind fst snd]. unfold mkConstArray. change (s_is SK_ARRAY (arrayS i v)) with true. cbn [bind].
  destruct (rpar_tok _ _ Ha2) as (l4 & -> & Hl4). cbn [bind].
  eexists. split; [reflexivity|]. split; [exact Hl4|]. split; [exact B2|].
  cbn [sp] in K2 |- *. eapply keeps_trans; eassumption.
Qed.
Definition enter (p : pst) : pst :=
  set_ld (S (p_ld p)) (if Nat.eqb (p_ld p) 0 then set_ctr (p_ctr p + 1) p else p).
Lemma enter_base (d : bool) c D p : base x g d c D p ->
  base x g true (if d then c else c + 1) (if d then D else []) (enter p).
Proof.
  intros B. pose proof (b_d _ _ _ _ _ _ B) as Hd. pose proof (b_c _ _ _ _ _ _ B) as [Hc Hc0].
  assert (E : Nat.eqb (p_ld p) 0 = negb d).
  { rewrite <- Hd. destruct (p_ld p); reflexivity. }
  unfold enter. rewrite E. destruct d; cbn [negb].
  - split; cbn; try apply B; try reflexivity.
  - split; cbn; try apply B; try reflexivity.
    + lia.
    + intros _ v t. unfold letget, plet_name. cbn. destruct (x_keep x); intros H.
      * exfalso. revert H. rewrite Hc. apply (b_fresh _ _ _ _ _ _ B). lia.
      * rewrite (b_let0 _ _ _ _ _ _ B) in H; [discriminate|reflexivity].
    + intros v c' t Hc'. apply (b_fresh _ _ _ _ _ _ B). lia.
    + discriminate.
Qed.
Lemma enter_bnd (d : bool) c r D p : base x g d c D p -> bnd x g d r D p ->
  bnd x g true r (if d then D else []) (enter p).
Proof.
  intros B N. pose proof (b_d _ _ _ _ _ _ B) as Hd.
  assert (Eq : p_quant (enter p) = p_quant p /\ p_qd (enter p) = p_qd p).
  { unfold enter. now destruct (Nat.eqb _ _). }
  destruct Eq as [E1 E2]. split; [|intros v; rewrite E1; apply N].
  intros v t Hv. destruct (n_bound _ _ _ _ _ _ N v t Hv) as [U H]. split; [exact U|]. rewrite E1, E2.
  destruct H as [[-> H]|(H1 & H2 & H3 & H4)].
  - left. split; [reflexivity|]. revert H. unfold enter. apply Nat.ltb_lt in Hd.
    destruct (Nat.eqb_spec (p_ld p) 0); [lia|]. auto.
  - right. repeat split; auto. intros _. destruct d; [now apply H3|intros []].
Qed.
Lemma let_ok (d : bool) c r bs b ls t c1 : c1 = (if d then c else c + 1) ->
  level_ok c1 r bs b ls t -> isErr t = false ->
  P d c r (SLet bs b) (if x_keep x then mkLetChain ls t else t) c1.
Proof.
  intros -> HL He. split; [now intros ->|]. split.
  { exists TL. eexists. split; [reflexivity|]. split; [discriminate|]. intros _ H'. now destruct (H' bs b). }
  intros s ks fuel D D' B N HS Ha Hf Hu. cbn [render app length] in *. fold (binds_toks bs) in Ha, Hu.
  rewrite app_length in Hu; cbn [length] in Hu. rewrite app_length in Hu; cbn [length] in Hu.
  repeat (rewrite <- app_assoc in Ha; cbn [app] in Ha).
  destruct fuel as [|f]; [lia|]. cbn [pexpr]. destruct (atc_L _ _ Ha) as [-> _]. cbn [negb].
  destruct (lpar_tok _ _ Ha) as (l & -> & Hl). cbn [bind].
  destruct (atc_A (CS (sp s) l) _ _ Hl (word_tok _)) as [-> _].
  destruct (sym_tok x (CS (sp s) l) _ _ Hl (word_tok _)) as (l1 & -> & Hl1); [discriminate|].
  cbn [bind fst snd sp]. rewrite raw_word. change (seqs (L "let") "exists" || seqs (L "let") "forall") with false.
  change (seqs (L "let") "_") with false. change (seqs (L "let") "fp") with false.
  change (seqs (L "let") "let") with true. cbn iota.
  change (onp (fun p => set_ld (S (p_ld p)) (if Nat.eqb (p_ld p) 0 then set_ctr (p_ctr p + 1) p else p)) (CS (sp s) l1))
    with (CS (enter (sp s)) l1).
  destruct (lpar_tok (CS (enter (sp s)) l1) _ Hl1) as (l2 & -> & Hl2). cbn [bind sp].
  change (match s_binds g (map fst r) (if d then D else []) bs with
            | Some D1 => match scoped g true D1 (names bs ++ map fst r) b with
                         | Some D2 => Some (if d then D2 else D) | None => None end
            | None => None end = Some D') in HS.
  destruct (s_binds g (map fst r) (if d then D else []) bs) as [D1|] eqn:E1; [|discriminate].
  destruct (scoped g true D1 (names bs ++ map fst r) b) as [D2|] eqn:E2; [|discriminate].
  injection HS as <-.
  destruct (HL (CS (enter (sp s)) l2) ks f (if d then D else []) D1 D2) as (s1 & ls' & -> & Hls & Ha1 & B1 & K1); auto.
  { now apply enter_base. } { eapply enter_bnd; eassumption. } { lia. }
  cbn [bind fst snd]. cbn [sp] in K1.
  assert (Er : (if x_keep x then mkLetChain ls' t else t) = (if x_keep x then mkLetChain ls t else t)).
  { destruct (x_keep x); [now rewrite Hls|reflexivity]. }
  rewrite Er. cbn [bind].
  assert (En : isErr (if x_keep x then mkLetChain ls t else t) = false).
  { destruct (x_keep x); [reflexivity|exact He]. }
  unfold noerr. rewrite En. cbn [bind].
  destruct (rpar_tok (onp (fun p => set_ld (Nat.pred (p_ld p)) p) s1) _ Ha1) as (l3 & -> & Hl3). cbn [bind onp sp].
  eexists. split; [reflexivity|]. split; [exact Hl3|]. cbn [sp].
  destruct K1 as [A1 A2 A3 A4 A5 A6].
  assert (Ee : p_let (enter (sp s)) = p_let (sp s) /\ p_plet (enter (sp s)) = p_plet (sp s) /\
     p_quant (enter (sp s)) = p_quant (sp s) /\ p_ld (enter (sp s)) = S (p_ld (sp s)) /\ p_qd (enter (sp s)) = p_qd (sp s)
     /\ p_named (enter (sp s)) = p_named (sp s)).
  { unfold enter. now destruct (Nat.eqb _ _). }
  destruct Ee as (F1 & F2 & F3 & F4 & F5 & F6). rewrite ?F1, ?F2, ?F3, ?F4, ?F5, ?F6 in *.
  assert (K : keeps (sp s) (set_ld (Nat.pred (p_ld (sp s1))) (sp s1))).
  { split; cbn; auto. rewrite A4. reflexivity. }
  split; [|exact K].
  pose proof (b_d _ _ _ _ _ _ B) as Hd.
  destruct d.
  - split; cbn; try apply B1.
    + rewrite A4. exact Hd.
  - split; cbn; try apply B1.
    + rewrite A4. exact Hd.
    + discriminate.
    + intros _ v. rewrite A1. now apply (b_let0 _ _ _ _ _ _ B).
Qed.

Lemma quant_ok d c r (fa : bool) vs ss b t c' q :
  Forall2 (fun v u => is_tok (fst v) /\ dsort g (snd v) u) vs ss ->
  P d c (combine (names vs) (quant_nodes vs ss) ++ r) b t c' ->
  mkOper (x_c x) boolS (if fa then NT_FORALL else NT_EXISTS) (t :: quant_nodes vs ss) = Ok q ->
  P d c r (SQuant fa vs b) q c'.
Proof.
  intros HF (Hc & _ & He) HO. split; [exact Hc|]. split.
  { exists TL. eexists. split; [reflexivity|]. split; [discriminate|]. intros _ _.
    eexists. eexists. split; [reflexivity|]. split.
    + right. apply in_or_app. right. now left.
    + right. split; [apply word_tok|]. destruct fa; discriminate. }
  intros s ks fuel D D' B N HS Ha Hf Hu. cbn [render app length] in *. fold (vars_toks vs) in Ha, Hu.
  rewrite app_length in Hu; cbn [length] in Hu. rewrite app_length in Hu; cbn [length] in Hu.
  repeat (rewrite <- app_assoc in Ha; cbn [app] in Ha).
  assert (HV : (length vs <= length (vars_toks vs))%nat).
  { clear. induction vs as [|v vs IH]; [reflexivity|]. cbn [vars_toks flat_map]. fold (vars_toks vs).
    cbn [app length]. rewrite app_length. lia. }
  destruct fuel as [|f]; [lia|]. cbn [pexpr]. destruct (atc_L _ _ Ha) as [-> _]. cbn [negb].
  destruct (lpar_tok _ _ Ha) as (l & -> & Hl). cbn [bind].
  destruct (atc_A (CS (sp s) l) _ _ Hl (word_tok _)) as [-> _].
  destruct (sym_tok x (CS (sp s) l) _ _ Hl (word_tok _)) as (l1 & -> & Hl1); [discriminate|].
  cbn [bind fst snd sp]. rewrite raw_word.
  assert (seqs (L (if fa then "forall" else "exists")) "exists" || seqs (L (if fa then "forall" else "exists")) "forall" = true) as ->
    by now destruct fa.
  assert (seqs (L (if fa then "forall" else "exists")) "forall" = fa) as -> by now destruct fa.
  cbn iota. set (p1 := set_qd (S (p_qd (sp s))) (sp s)).
  change (onp (fun p => set_qd (S (p_qd p)) p) (CS (sp s) l1)) with (CS p1 l1).
  destruct f as [|f]; [lia|]. cbn [pquant].
  destruct (lpar_tok (CS p1 l1) _ Hl1) as (l2 & -> & Hl2). cbn [bind sp].
  cbn [scoped] in HS. fold (names vs) in HS.
  destruct (nodupb (names vs)) eqn:En; [|discriminate].
  destruct (forallb _ (names vs)) eqn:Ef; [|discriminate]. cbn [andb] in HS.
  rewrite forallb_forall in Ef.
  assert (HQ : forall v, In v (names vs) -> mget v (p_quant (sp s)) = None /\ ~ In v (map fst r) /\
            (d = true -> ~ In v D) /\ unboundable v = false /\ is_fun g v = false).
  { intros v Hv. specialize (Ef v Hv). apply negb_true_iff in Ef. rewrite !orb_false_iff in Ef.
    destruct Ef as (((E1 & E2) & E3) & E4). apply mem_nIn in E1.
    split; [apply (n_free _ _ _ _ _ _ N), assoc_None, E1|]. split; [exact E1|].
    split; [|auto]. intros ->. now apply mem_nIn in E2. }
  assert (B0 : base x g d c D p1) by now apply base_qd.
  assert (EL : length (names vs) = length (quant_nodes vs ss)).
  { rewrite names_len, quant_nodes_len; [reflexivity|]. clear - HF. induction HF; cbn; congruence. }
  destruct (pvars_ok d c D vs ss HF (CS p1 l2) (render b ++ TR :: ks) f B0 En) as (s1 & -> & Ha1 & B1 & K1 & HM).
  { intros v Hv. now apply HQ. } { exact Hl2. } { lia. }
  cbn [bind fst snd].
  destruct (rpar_tok _ _ Ha1) as (l3 & -> & Hl3). cbn [bind].
  rewrite combine_snd by exact EL. rewrite (map_fst_combine _ _ EL). cbn [sp] in HM, K1.
  assert (N1 : bnd x g d (combine (names vs) (quant_nodes vs ss) ++ r) D (sp s1)).
  { split.
    - intros v u. rewrite assoc_app. destruct (assoc v (combine _ _)) as [u'|] eqn:E; cbn [orelse].
      + intros [= ->].
        assert (Hv : In v (names vs)).
        { destruct (in_dec (list_eq_dec ascii_dec) v (names vs)) as [H|H]; [exact H|].
          assert (assoc v (combine (names vs) (quant_nodes vs ss)) = None) as F; [|congruence].
          apply assoc_None. now rewrite map_fst_combine. }
        destruct (HQ v Hv) as (_ & _ & G1 & G2 & G3). split; [exact G2|]. right.
        rewrite HM, E. split; [reflexivity|]. rewrite (q_qd _ _ K1). split; [cbn; lia|]. auto.
      + intros Hv. destruct (n_bound _ _ _ _ _ _ N v u Hv) as [U H]. split; [exact U|].
        destruct H as [[Ed H]|(H1 & H2 & H3 & H4)].
        * left. split; [exact Ed|]. revert H. unfold letget, plet_name.
          rewrite (proj1 (b_c _ _ _ _ _ _ B1)), (proj1 (b_c _ _ _ _ _ _ B)).
          destruct (x_keep x); [apply (q_plet _ _ K1)|]. now rewrite (q_let _ _ K1).
        * right. rewrite HM, E. split; [exact H1|]. rewrite (q_qd _ _ K1). split; [cbn; lia|]. auto.
    - intros v. rewrite assoc_app, HM. destruct (assoc v (combine _ _)); cbn [orelse]; [discriminate|].
      apply N. }
  destruct (He (CS (sp s1) l3) (TR :: ks) f D D') as (s2 & -> & Ha2 & B2 & K2); auto.
  { now rewrite map_app, map_fst_combine. } { discriminate. } { lia. }
  cbn [bind fst snd]. rewrite HO. cbn [bind fst snd]. cbn [sp] in K2.
  destruct (rpar_tok (onp (fun p => set_quant (dels (names vs) (p_quant p)) p) s2) _ Ha2) as (l4 & -> & Hl4).
  cbn [bind onp sp sl]. eexists. split; [reflexivity|]. split; [exact Hl4|]. cbn [sp].
  split; [apply base_qd, base_quant, B2|].
  destruct K1 as [A1 A2 A3 A4 A5], K2 as [G1 G2 G3 G4 G5 G6].
  split; cbn.
  - intros v. now rewrite G1, A1.
  - intros v u H. apply G2, A2, H.
  - intros v. rewrite mget_dels, G3, HM. destruct (mem v (names vs)) eqn:E.
    + apply mem_In in E. symmetry. now apply HQ.
    + apply mem_nIn in E. assert (assoc v (combine (names vs) (quant_nodes vs ss)) = None) as ->; [|reflexivity].
      apply assoc_None. now rewrite map_fst_combine.
  - now rewrite G4, A3.
  - rewrite G5, A4. reflexivity.
  - now rewrite G6, A5.
Qed.

Lemma den_P : (forall d c r e t c', den x g d c r e t c' -> P d c r e t c')
  /\ (forall d c r l ts c', dens x g d c r l ts c' -> Pl d c r l ts c')
  /\ (forall c r bs b ls t, dlet x g c r bs b ls t -> level_ok c r bs b ls t).
Proof.
  apply den_mut.
  - intros d c r k E Hk. apply atom_ok; [exact Hk|reflexivity|]. left. auto.
  - intros d c r k E Hk. apply atom_ok; [exact Hk|reflexivity|]. right. left. auto.
  - intros d c r k t Hk E He. apply atom_ok; auto. right. right. left. exact E.
  - intros d c r k t Hk E1 E2 E3 E4 He. apply atom_ok; auto. right. right. right. auto.
  - intros d c r k t Hk E1 E2 E3 E4 E5 He. apply atom_ok; auto. right. right. right. auto 8.
  - intros d c r h args ts c' t Hh Hs Hm _ HP HO He. apply (app_ok d c r h args ts); auto.
    intros p Ep. apply apply_op_ok; auto. now rewrite Ep.
  - intros d c r h args ts c' f t Hh Hs Hco Hm _ HP HO He. apply (app_ok d c r h args ts); auto.
    intros p Ep. rewrite <- Ep in Hm. now rewrite (apply_fun_ok x p _ f ts Hco Hm).
  - intros. eapply idx_ok; eauto.
  - intros. now apply bv_ok.
  - intros. now apply fp_ok.
  - intros. eapply fps_ok; eauto.
  - intros. now apply const_ok.
  - intros. now apply let_ok.
  - intros. eapply quant_ok; eauto.
  - constructor.
  - intros d c r e l t ts c1 c2 _ H1 _ H2. econstructor; eauto.
  - intros. now apply level_body.
  - intros. now apply level_let.
Qed.
End Main.

(** ** from the top *)
Lemma top_base x p : top_state x p -> base x p false (p_ctr p) [] p /\ bnd x p false [] [] p.
Proof.
  intros T. split.
  - split; auto; try apply T; try discriminate.
    + rewrite (ts_ld _ _ T). reflexivity.
    + split; [reflexivity|apply T].
    + intros _. apply T.
  - split; [discriminate|]. intros v _. apply T.
Qed.
Lemma base_top x p p' c D : base x p false c D p' -> keeps p p' -> top_state x p -> top_state x p'.
Proof.
  intros B K T. split.
  - rewrite (k_ld _ _ K). apply T.
  - intros v. rewrite (k_let _ _ K). apply T.
  - intros v. rewrite (k_quant _ _ K). apply T.
  - apply B.
  - destruct (b_c _ _ _ _ _ _ B) as [-> H]. exact H.
  - destruct (b_c _ _ _ _ _ _ B) as [-> H]. apply B.
  - apply B.
  - apply B.
  - apply B.
  - apply B.
Qed.
Lemma parse_expr_len x p e t c' s ks fuel : sp s = p -> top_state x p -> den x p false (p_ctr p) [] e t c' ->
  scoped p false [] [] e = Some [] -> at_toks (sl s) (render e ++ ks) -> (x_file x = true -> ks <> []) ->
  (2 * length (render e) <= fuel)%nat ->
  exists s', pexpr fuel x s = Ok (t, s') /\
    at_toks (sl s') ks /\ top_state x (sp s') /\ p_ctr (sp s') = c' /\ same_decls p (sp s').
Proof.
  intros <- T HD HS Ha Hf HU. destruct (top_base x (sp s) T) as [B N].
  destruct (proj1 (den_P x (sp s)) _ _ _ _ _ _ HD) as (_ & _ & H).
  destruct (H s ks fuel [] [] B N HS Ha Hf HU) as (s' & E & Ha' & B' & K').
  exists s'. split; [exact E|]. split; [exact Ha'|]. split; [eapply base_top; eassumption|].
  split; [apply B'|]. repeat split; try apply B'. apply K'.
Qed.
Lemma parse_expr_ok x p e t c' s ks fuel : sp s = p -> top_state x p -> den x p false (p_ctr p) [] e t c' ->
  scoped p false [] [] e = Some [] -> at_toks (sl s) (render e ++ ks) -> (x_file x = true -> ks <> []) ->
  (pexpr_fuel s <= fuel)%nat ->
  exists s', pexpr fuel x s = Ok (t, s') /\
    at_toks (sl s') ks /\ top_state x (sp s') /\ p_ctr (sp s') = c' /\ same_decls p (sp s').
Proof.
  intros E T HD HS Ha Hf HU0. apply (parse_expr_len x p e t c' s ks fuel); auto.
  destruct Ha as (tx & Hx & E'). apply lexes_scan, lexes_len in Hx. rewrite <- E' in Hx.
  rewrite app_length in Hx. unfold pexpr_fuel in HU0. lia.
Qed.
Lemma mk_expr_ok x p e t c' tx : top_state x p -> den x p false (p_ctr p) [] e t c' ->
  scoped p false [] [] e = Some [] -> lexes plain_word tx (render e) -> x_file x = false ->
  exists p', mkExpr x p tx = Ok (t, p') /\ top_state x p' /\ p_ctr p' = c' /\ same_decls p p'.
Proof.
  intros T HD HS Hx Hf. unfold mkExpr. destruct tx as [|a tx].
  { exfalso. apply lexes_len in Hx. destruct (den_first _ _ _ _ _ _ _ _ HD) as (k & l & E & _). rewrite E in Hx. cbn in Hx. lia. }
  set (s := CS p (scan (a :: tx))).
  destruct (parse_expr_ok x p e t c' s [] (pexpr_fuel s) eq_refl T HD HS) as (s' & E & _ & T' & C' & S').
  - rewrite app_nil_r. now apply at_scan.
  - congruence.
  - reflexivity.
  - rewrite E. cbn [bind fst snd]. eauto.
Qed.
