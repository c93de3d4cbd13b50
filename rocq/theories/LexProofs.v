(** The scanner against the lexical specification. *)
From Verif Require Import Base UtilModel LexModel LexSpec.

Lemma aeq_true a b : aeq a b = true <-> a = b.
Proof. apply Ascii.eqb_eq. Qed.
Lemma aeq_false a b : aeq a b = false <-> a <> b.
Proof. apply Ascii.eqb_neq. Qed.
Lemma aeq_refl a : aeq a a = true.
Proof. now apply aeq_true. Qed.

Lemma isnl_iff c : isnl c = true <-> nlC c.
Proof.
  unfold isnl, nlC. rewrite !orb_true_iff, !Nat.eqb_eq. cbn [In].
  split; intros H; intuition lia.
Qed.
Lemma isws_iff c : isblank c || isnl c = true <-> wsC c.
Proof.
  unfold isblank, isnl, wsC. rewrite !orb_true_iff, !Nat.eqb_eq. cbn [In].
  split; intros H; intuition lia.
Qed.
Lemma isnl_false c : isnl c = false <-> ~ nlC c.
Proof. rewrite <- isnl_iff. destruct (isnl c); split; congruence. Qed.
Lemma isws_false c : isblank c || isnl c = false <-> ~ wsC c.
Proof. rewrite <- isws_iff. destruct (isblank c || isnl c); split; congruence. Qed.
Lemma nl_ws c : nlC c -> wsC c.
Proof. unfold nlC, wsC. cbn. intuition. Qed.
Lemma ws_nonul c : wsC c -> c <> nul.
Proof. intros H ->. unfold wsC in H. cbn in H. intuition discriminate. Qed.

(** concrete characters *)
Ltac chr := repeat match goal with
  | |- context[aeq ?a ?b] => first [ rewrite (aeq_refl a)
      | rewrite (proj2 (aeq_false a b)) by congruence ]
  end.

Lemma scan_ws c t : wsC c -> scan (c :: t) = scan t.
Proof.
  intros H. unfold scan. cbn [scan_loop].
  rewrite (proj2 (aeq_false _ _) (ws_nonul c H)).
  destruct (isnl c) eqn:E; [reflexivity|].
  apply isws_iff in H. rewrite E, orb_false_r in H. now rewrite H.
Qed.
Lemma scan_comment b c t : Forall (fun x => ~ nlC x /\ x <> nul) b -> nlC c ->
  scan_loop SM_COMMENT (b ++ c :: t) = scan t.
Proof.
  intros H Hc. induction H as [|x b [H1 H2] _ IH]; cbn [app scan_loop].
  - rewrite (proj2 (aeq_false _ _) (ws_nonul c (nl_ws c Hc))).
    apply isnl_iff in Hc. now rewrite Hc.
  - rewrite (proj2 (aeq_false _ _) H2), (proj2 (isnl_false _) H1). exact IH.
Qed.
Lemma scan_comment_end b : Forall (fun x => ~ nlC x /\ x <> nul) b ->
  txt (scan_loop SM_COMMENT b) = [].
Proof.
  intros H. induction H as [|x b [H1 H2] _ IH]; cbn [scan_loop]; [reflexivity|].
  now rewrite (proj2 (aeq_false _ _) H2), (proj2 (isnl_false _) H1).
Qed.
Lemma scan_semi t : scan (";"%char :: t) = scan_loop SM_COMMENT t.
Proof. reflexivity. Qed.

(** the scan mode in which a token is read *)
Definition mode_of (k : token) : mode :=
  match k with TQuoted _ => SM_COMP_SYM | TString _ => SM_STRING | _ => SM_SYMBOL end.

Definition tok_ok (ok : str -> str -> Prop) (k : token) (t : str) : Prop :=
  match k with
  | TL | TR => True
  | TWord w => w <> [] /\ Forall (fun x => ~ delimC x) w /\ starts delimC t /\ ok w t
  | TQuoted b => Forall (fun x => x <> "|"%char /\ x <> nul) b
  | TString b => str_body b /\ starts (fun c => c <> quoteC) t
  end.

Lemma ndelim c : ~ delimC c -> isblank c = false /\ isnl c = false /\ c <> nul /\
  c <> lpar /\ c <> rpar /\ c <> semi /\ c <> bar /\ c <> dq.
Proof.
  intros H. assert (Hw : ~ wsC c) by (intros X; apply H; now left).
  apply isws_false in Hw. apply orb_false_iff in Hw. destruct Hw as [-> ->].
  repeat split; intros ->; apply H; unfold delimC, lpar, rpar, semi, bar, dq, quoteC; cbn;
    intuition.
Qed.

Lemma scan_word c t : ~ delimC c -> scan (c :: t) = Lx (c :: t) SM_SYMBOL.
Proof.
  intros H. destruct (ndelim c H) as (H1 & H2 & H3 & H4 & H5 & H6 & H7 & H8).
  unfold scan. cbn [scan_loop]. rewrite H1, H2.
  rewrite !(proj2 (aeq_false _ _)) by assumption. reflexivity.
Qed.

Lemma lexes_head ok t ks0 : lexes ok t ks0 -> forall k ks, ks0 = k :: ks ->
  exists t', scan t = Lx (raw k ++ t') (mode_of k) /\ lexes ok t' ks /\ tok_ok ok k t'.
Proof.
  intros H. induction H as [|c t ks' Hc H IH|b c t ks' Hb Hc H IH|b Hb|t ks' H IH|t ks' H IH
    |b t ks' Hb H IH|b t ks' Hb Hs H IH|w t ks' Hn Hw Hs Ho H IH]; intros k ks E; try discriminate.
  - rewrite (scan_ws c t Hc). now apply IH.
  - rewrite scan_semi, (scan_comment b c t Hb Hc). now apply IH.
  - injection E as <- <-. exists t. repeat split; auto.
  - injection E as <- <-. exists t. repeat split; auto.
  - injection E as <- <-. exists t. cbn [raw mode_of tok_ok app]. rewrite <- app_assoc.
    repeat split; auto.
  - injection E as <- <-. exists t. cbn [raw mode_of tok_ok app]. rewrite <- app_assoc.
    repeat split; auto.
  - injection E as <- <-. exists t. cbn [raw mode_of tok_ok].
    destruct w as [|c w]; [contradiction|]. cbn [app].
    rewrite scan_word by (now inversion Hw). repeat split; auto.
Qed.
Lemma lexes_end ok t ks0 : lexes ok t ks0 -> ks0 = [] -> txt (scan t) = [].
Proof.
  intros H. induction H as [|c t ks' Hc H IH|b c t ks' Hb Hc H IH|b Hb|t ks' H IH|t ks' H IH
    |b t ks' Hb H IH|b t ks' Hb Hs H IH|w t ks' Hn Hw Hs Ho H IH]; intros E; try discriminate.
  - reflexivity.
  - rewrite (scan_ws c t Hc). now apply IH.
  - rewrite scan_semi, (scan_comment b c t Hb Hc). now apply IH.
  - rewrite scan_semi. now apply scan_comment_end.
Qed.

(** ** the position invariant *)
Definition at_toks (s : lx) (ks : list token) : Prop :=
  exists t, lexes plain_word t ks /\ s = scan t.

Lemma at_scan t ks : lexes plain_word t ks -> at_toks (scan t) ks.
Proof. intros H. now exists t. Qed.

Lemma cur_tok s k ks : at_toks s (k :: ks) ->
  cur s = match raw k with c :: _ => c | [] => nul end.
Proof.
  intros (t & H & ->). destruct (lexes_head _ _ _ H k ks eq_refl) as (t' & E & _ & Hk).
  rewrite E. unfold cur. cbn [txt]. destruct k; cbn [raw app]; try reflexivity.
  destruct w; [now destruct Hk as [Hk _]|reflexivity].
Qed.
Lemma cur_end s : at_toks s [] -> cur s = nul.
Proof. intros (t & H & ->). unfold cur. now rewrite (lexes_end _ _ _ H eq_refl). Qed.

Definition is_atom (k : token) : bool := match k with TL | TR => false | _ => true end.
Lemma cur_atom s k ks : at_toks s (k :: ks) -> is_atom k = true ->
  cur s <> lpar /\ cur s <> rpar /\ cur s <> nul.
Proof.
  intros H Hk. pose proof (cur_tok s k ks H) as ->.
  destruct H as (t & H & ->). destruct (lexes_head _ _ _ H k ks eq_refl) as (t' & E & _ & Hk').
  destruct k; try discriminate; cbn [raw] in *.
  - destruct w as [|c w]; [now destruct Hk' as [Hk' _]|].
    destruct Hk' as (_ & Hw & _). inversion Hw as [|x y Hc Hw']; subst.
    apply ndelim in Hc. tauto.
  - repeat split; discriminate.
  - repeat split; discriminate.
Qed.
Lemma at_lpar s ks : at_toks s (TL :: ks) ->
  cur s = lpar /\ exists s', parseLpar s = Ok s' /\ at_toks s' ks.
Proof.
  intros H. split; [exact (cur_tok s TL ks H)|].
  destruct H as (t & H & ->). destruct (lexes_head _ _ _ H TL ks eq_refl) as (t' & E & Ht & _).
  exists (scan t'). rewrite E. unfold parseLpar. cbn [txt raw app]. unfold lpar. rewrite aeq_refl.
  split; [reflexivity|]. now exists t'.
Qed.
Lemma at_rpar s ks : at_toks s (TR :: ks) ->
  cur s = rpar /\ exists s', parseRpar s = Ok s' /\ at_toks s' ks.
Proof.
  intros H. split; [exact (cur_tok s TR ks H)|].
  destruct H as (t & H & ->). destruct (lexes_head _ _ _ H TR ks eq_refl) as (t' & E & Ht & _).
  exists (scan t'). rewrite E. unfold parseRpar. cbn [txt raw app]. unfold rpar. rewrite aeq_refl.
  split; [reflexivity|]. now exists t'.
Qed.

(** ** words *)
Lemma find_e_some s : forall i p, find_e s i = Some p ->
  (i <= p)%nat /\ exists m e r, s = m ++ e :: r /\ length m = (p - i)%nat /\ eC e.
Proof.
  induction s as [|c s IH]; intros i p H; cbn [find_e] in H; [discriminate|].
  destruct (aeq c "E"%char || aeq c "e"%char) eqn:E.
  - injection H as <-. split; [lia|]. exists [], c, s. repeat split; cbn; [lia|].
    apply orb_true_iff in E. rewrite !aeq_true in E. exact E.
  - destruct (IH _ _ H) as (H1 & m & e & r & -> & H2 & H3). split; [lia|].
    exists (c :: m), e, r. repeat split; cbn; [lia|assumption].
Qed.
Lemma digit_real c : isdigit c = true -> realC c.
Proof.
  unfold isdigit, realC. rewrite andb_true_iff, !Nat.leb_le. intros [H1 H2]. left. now split.
Qed.
Lemma sign_real c : is_sign c = true -> realC c.
Proof.
  unfold is_sign, realC. rewrite orb_true_iff, !aeq_true. cbn. intros [->| ->]; right; tauto.
Qed.
Lemma real_loop_real s : forall d, real_loop s d = true -> Forall realC s.
Proof.
  induction s as [|c s IH]; intros d H; [constructor|]. cbn [real_loop] in H.
  destruct (aeq c "."%char && negb d) eqn:E.
  - apply andb_true_iff in E. rewrite aeq_true in E. destruct E as [-> _].
    constructor; [right; now left|]. eapply IH, H.
  - destruct (isdigit c) eqn:Ed; [|discriminate]. constructor; [now apply digit_real|].
    eapply IH, H.
Qed.
Lemma isReal_real s : isReal s = true -> Forall realC s.
Proof.
  destruct s as [|c s]; intros H; [constructor|]. unfold isReal in H.
  destruct (is_sign c) eqn:E.
  - constructor; [now apply sign_real|]. eapply real_loop_real, H.
  - eapply real_loop_real, H.
Qed.
Lemma sci_start_no acc w : (exists r, w = acc ++ r) ->
  (forall m e r, w = m ++ e :: r -> eC e -> m = [] \/ exists c, In c m /\ ~ realC c) ->
  sci_start acc = false.
Proof.
  intros (r & ->) H. unfold sci_start. destruct (find_e acc 0) as [p|] eqn:E; [|reflexivity].
  destruct (find_e_some _ _ _ E) as (_ & m & e & r' & -> & Hl & He).
  destruct (Nat.ltb 0 p) eqn:Ep; [|reflexivity]. apply Nat.ltb_lt in Ep.
  destruct (isReal (firstn p (m ++ e :: r'))) eqn:Er; [|now rewrite !andb_false_r].
  rewrite Nat.sub_0_r in Hl. subst p. rewrite firstn_app, firstn_all, Nat.sub_diag in Er.
  cbn [firstn] in Er. rewrite app_nil_r in Er. apply isReal_real in Er.
  destruct (H m e (r' ++ r)) as [->|(c & Hc & Hn)].
  - now rewrite <- app_assoc.
  - exact He.
  - cbn in Ep. lia.
  - rewrite Forall_forall in Er. now destruct Hn; apply Er.
Qed.

Lemma sym_loop_word file w t : forall acc rest, acc <> [] -> w = acc ++ rest ->
  Forall (fun x => ~ delimC x) rest -> plain_word w t ->
  (file = true -> t <> []) ->
  sym_loop file false false 0 acc (rest ++ t) = Ok (w, scan t).
Proof.
  intros acc rest. revert acc. induction rest as [|c rest IH]; intros acc Ha -> Hr Hp Hf.
  - rewrite app_nil_r. cbn [app].
    assert (Hs : sci_start acc = false).
    { apply (sci_start_no acc (acc ++ [])); [now exists []|]. apply Hp. }
    destruct t as [|c t]; cbn [sym_loop].
    + unfold at_eof. destruct file; [now destruct Hf|reflexivity].
    + destruct Hp as [Hc _]. cbn [starts] in Hc. rewrite Hs. cbn [orb].
      destruct Hc as [Hc|[-> | ->]].
      * rewrite (proj2 (aeq_false _ _) (ws_nonul c Hc)), (proj2 (isws_iff c) Hc).
        now rewrite scan_ws.
      * reflexivity.
      * reflexivity.
  - cbn [app sym_loop]. inversion Hr as [|x y Hc Hr']; subst.
    destruct (ndelim c Hc) as (H1 & H2 & H3 & H4 & H5 & H6 & H7 & H8).
    assert (Hs : sci_start acc = false).
    { apply (sci_start_no acc (acc ++ c :: rest)); [now exists (c :: rest)|]. apply Hp. }
    rewrite Hs, H1, H2. cbn [orb]. rewrite !(proj2 (aeq_false _ _)) by assumption. cbn [orb].
    apply IH; auto; [now destruct acc|]. now rewrite <- app_assoc.
Qed.

Lemma comp_loop_body file b : forall acc t, Forall (fun x => x <> "|"%char /\ x <> nul) b ->
  comp_loop file acc (b ++ "|"%char :: t) = Ok (acc ++ b ++ ["|"%char], scan t).
Proof.
  induction b as [|c b IH]; intros acc t H; cbn [app comp_loop].
  - reflexivity.
  - inversion H as [|x y [H1 H2] H']; subst.
    rewrite !(proj2 (aeq_false _ _)) by assumption.
    rewrite (IH (acc ++ [c]) t H'). now rewrite <- app_assoc.
Qed.
Lemma str_loop_body file b : str_body b -> forall acc t, starts (fun c => c <> quoteC) t ->
  str_loop file acc (b ++ quoteC :: t) = Ok (acc ++ b ++ [quoteC], scan t).
Proof.
  intros H. induction H as [|c b Hc Hn H IH|b H IH]; intros acc t Ht; cbn [app str_loop].
  - destruct t as [|d t]; [reflexivity|]. cbn [starts] in Ht.
    change (aeq quoteC nul) with false. change (aeq quoteC dq) with true. cbn iota.
    now rewrite (proj2 (aeq_false d dq)) by exact Ht.
  - rewrite (proj2 (aeq_false c nul)) by assumption. rewrite (proj2 (aeq_false c dq)) by exact Hc.
    rewrite (IH (acc ++ [c]) t Ht). now rewrite <- app_assoc.
  - change (aeq quoteC nul) with false. change (aeq quoteC dq) with true. cbn iota.
    rewrite (IH (acc ++ [quoteC; quoteC]) t Ht). now rewrite <- app_assoc.
Qed.

Lemma lexes_len ok t ks : lexes ok t ks -> (length ks <= length t)%nat.
Proof.
  intros H. induction H; cbn [length]; rewrite ?app_length; cbn [length]; try rewrite app_length; cbn [length]; try lia.
  destruct w; [contradiction|]. cbn [length]. lia.
Qed.
(** reading one word, quoted symbol or string; a file must not end right after a word *)
Lemma at_symbol dbg file s k ks : at_toks s (k :: ks) -> is_atom k = true ->
  (file = true -> ks <> []) ->
  exists s', getSymbol dbg file s = Ok (raw k, s') /\ at_toks s' ks.
Proof.
  intros (t & H & ->) Hk Hf. destruct (lexes_head _ _ _ H k ks eq_refl) as (t' & E & Ht & Hok).
  exists (scan t'). split; [|now exists t']. rewrite E. unfold getSymbol. cbn [txt md].
  destruct k as [| |w|b|b]; try discriminate; cbn [raw mode_of tok_ok] in *.
  - destruct Hok as (Hn & Hw & _ & Hp). destruct w as [|c w]; [contradiction|]. cbn [app].
    inversion Hw as [|x y Hc Hw']; subst.
    apply (sym_loop_word file (c :: w) t' [c] w); auto; [discriminate|].
    intros Ef ->. apply Hf in Ef. apply lexes_len in Ht. destruct ks; [contradiction|cbn in Ht; lia].
  - cbn [app]. rewrite <- app_assoc. cbn [app]. now rewrite comp_loop_body.
  - cbn [app]. rewrite <- app_assoc. cbn [app]. destruct Hok as [Hb Hs].
    now rewrite str_loop_body.
Qed.

(** ** whole texts *)
Lemma read_all_ok dbg file : forall ks s fuel, at_toks s ks -> (length ks < fuel)%nat ->
  (file = true -> last ks TR = TR) ->
  read_all fuel dbg file false s = Ok (map raw ks).
Proof.
  induction ks as [|k ks IH]; intros s fuel H Hf Hl; (destruct fuel as [|fuel]; [lia|]); cbn [read_all].
  - rewrite (cur_end s H). reflexivity.
  - cbn [length] in Hf.
    assert (Hl' : file = true -> last ks TR = TR).
    { intros E. specialize (Hl E). destruct ks; [reflexivity|exact Hl]. }
    destruct (is_atom k) eqn:Ek.
    + destruct (cur_atom s k ks H Ek) as (H1 & H2 & H3).
      rewrite !(proj2 (aeq_false _ _)) by assumption.
      destruct (at_symbol dbg file s k ks H Ek) as (s' & -> & Hs').
      { intros E ->. specialize (Hl E). cbn in Hl. subst k. discriminate. }
      cbn [bind snd fst]. rewrite (IH s' fuel Hs') by (lia || assumption). reflexivity.
    + destruct k; try discriminate.
      * destruct (at_lpar s ks H) as (-> & s' & -> & Hs').
        change (aeq lpar nul) with false. change (aeq lpar lpar) with true. cbn iota. cbn [bind].
        rewrite (IH s' fuel Hs') by (lia || assumption). reflexivity.
      * destruct (at_rpar s ks H) as (-> & s' & -> & Hs').
        change (aeq rpar nul) with false. change (aeq rpar lpar) with false.
        change (aeq rpar rpar) with true. cbn iota. cbn [bind].
        rewrite (IH s' fuel Hs') by (lia || assumption). reflexivity.
Qed.
Lemma read_text_ok dbg file t ks : lexes plain_word t ks -> (file = true -> last ks TR = TR) ->
  read_text dbg file false t = Ok (map raw ks).
Proof.
  intros H Hl. unfold read_text. apply read_all_ok; [now apply at_scan| |exact Hl].
  apply lexes_len in H. lia.
Qed.

(** ** the specification is a function of the text *)
Lemma lexes_weaken (ok ok' : str -> str -> Prop) t ks :
  (forall w u, ok w u -> ok' w u) -> lexes ok t ks -> lexes ok' t ks.
Proof. intros Hi H. induction H; try (econstructor; eauto; fail). Qed.

(** ** skipToRpar *)
Lemma skip_ws c lv t : wsC c -> skip_loop SM_COMMON lv (c :: t) = skip_loop SM_COMMON lv t.
Proof.
  intros H. cbn [skip_loop]. rewrite (proj2 (aeq_false _ _) (ws_nonul c H)).
  destruct (isnl c); [reflexivity|].
  assert (Hd : forall d, In d [lpar; rpar; semi; bar; dq] -> c <> d).
  { intros d Hd ->. unfold wsC in H. cbn in Hd, H.
    destruct Hd as [<-|[<-|[<-|[<-|[<-|[]]]]]]; cbn in H; intuition discriminate. }
  rewrite !(proj2 (aeq_false _ _)) by (apply Hd; cbn; tauto). reflexivity.
Qed.
Lemma skip_comment b c lv t : Forall (fun x => ~ nlC x /\ x <> nul) b -> nlC c ->
  skip_loop SM_COMMENT lv (b ++ c :: t) = skip_loop SM_COMMON lv t.
Proof.
  intros H Hc. induction H as [|x b [H1 H2] _ IH]; cbn [app skip_loop].
  - rewrite (proj2 (aeq_false _ _) (ws_nonul c (nl_ws c Hc))).
    apply isnl_iff in Hc. now rewrite Hc.
  - rewrite (proj2 (aeq_false _ _) H2), (proj2 (isnl_false _) H1). exact IH.
Qed.
Lemma skip_quoted b lv t : Forall (fun x => x <> "|"%char /\ x <> nul) b ->
  skip_loop SM_COMP_SYM lv (b ++ "|"%char :: t) = skip_loop SM_COMMON lv t.
Proof.
  intros H. induction H as [|x b [H1 H2] _ IH]; cbn [app skip_loop]; [reflexivity|].
  rewrite !(proj2 (aeq_false _ _)) by assumption. destruct (isnl x); exact IH.
Qed.
Lemma skip_string b : str_body b -> forall lv t,
  skip_loop SM_STRING lv (b ++ quoteC :: t) = skip_loop SM_COMMON lv t.
Proof.
  intros H. induction H as [|c b Hc Hn H IH|b H IH]; intros lv t; cbn [app skip_loop].
  - reflexivity.
  - rewrite (proj2 (aeq_false c nul)) by assumption. rewrite (proj2 (aeq_false c dq)) by exact Hc.
    destruct (isnl c); apply IH.
  - change (aeq quoteC nul) with false. change (isnl quoteC) with false.
    change (aeq quoteC dq) with true. cbn iota. apply IH.
Qed.
Lemma skip_word w lv t : Forall (fun x => ~ delimC x) w ->
  skip_loop SM_COMMON lv (w ++ t) = skip_loop SM_COMMON lv t.
Proof.
  intros H. induction H as [|c w Hc _ IH]; [reflexivity|]. cbn [app skip_loop].
  destruct (ndelim c Hc) as (H1 & H2 & H3 & H4 & H5 & H6 & H7 & H8).
  rewrite H2, !(proj2 (aeq_false _ _)) by assumption. exact IH.
Qed.

(** level of the tokens left to skip *)
Inductive skips : nat -> list token -> list token -> Prop :=
| sk_done : forall ks, skips 0 (TR :: ks) ks
| sk_l : forall n ks r, skips (S n) ks r -> skips n (TL :: ks) r
| sk_r : forall n ks r, skips n ks r -> skips (S n) (TR :: ks) r
| sk_a : forall n k ks r, is_atom k = true -> skips n ks r -> skips n (k :: ks) r.

Lemma skip_ok ok t ks : lexes ok t ks -> forall lv r, skips lv ks r ->
  exists t', skip_loop SM_COMMON lv t = Lx (rpar :: t') SM_COMMON /\ lexes ok t' r.
Proof.
  intros H. induction H as [|c t ks' Hc H IH|b c t ks' Hb Hc H IH|b Hb|t ks' H IH|t ks' H IH
    |b t ks' Hb H IH|b t ks' Hb Hs H IH|w t ks' Hn Hw Hs Ho H IH]; intros lv r Hsk.
  - inversion Hsk.
  - rewrite (skip_ws c lv t Hc). now apply IH.
  - change (skip_loop SM_COMMON lv (";"%char :: b ++ c :: t))
      with (skip_loop SM_COMMENT lv (b ++ c :: t)).
    rewrite (skip_comment b c lv t Hb Hc). now apply IH.
  - inversion Hsk.
  - change (skip_loop SM_COMMON lv ("("%char :: t)) with (skip_loop SM_COMMON (S lv) t).
    inversion Hsk as [ | n k r' H' | | n k' k r' Hk H']; subst; [|discriminate]. now apply IH.
  - inversion Hsk as [ks | | n k r' H' | n k' k r' Hk H']; subst; [| |discriminate].
    + exists t. split; [reflexivity|assumption].
    + change (skip_loop SM_COMMON (S n) (")"%char :: t)) with (skip_loop SM_COMMON n t). now apply IH.
  - change (skip_loop SM_COMMON lv ("|"%char :: b ++ "|"%char :: t))
      with (skip_loop SM_COMP_SYM lv (b ++ "|"%char :: t)).
    rewrite skip_quoted by assumption. inversion Hsk; subst. now apply IH.
  - change (skip_loop SM_COMMON lv (quoteC :: b ++ quoteC :: t))
      with (skip_loop SM_STRING lv (b ++ quoteC :: t)).
    rewrite skip_string by assumption. inversion Hsk; subst. now apply IH.
  - rewrite skip_word by assumption. inversion Hsk; subst. now apply IH.
Qed.

Lemma skips_app a : balanced a -> forall n b r, skips n b r -> skips n (a ++ b) r.
Proof.
  intros H. induction H as [|a b Ha IHa Hb IHb|k b H1 H2 H IH]; intros n c r Hs.
  - exact Hs.
  - cbn [app]. apply sk_l. rewrite <- app_assoc. apply IHa. cbn [app]. apply sk_r. now apply IHb.
  - cbn [app]. apply sk_a; [now destruct k|]. now apply IH.
Qed.
Lemma skip_balanced a : balanced a -> forall ks, skips 0 (a ++ TR :: ks) ks.
Proof. intros H ks. apply skips_app; [exact H|constructor]. Qed.

(** from any position inside a command, right after a token: what follows are
    complete s-expressions and the closing parenthesis *)
Lemma at_skip s a ks : at_toks s (a ++ TR :: ks) -> balanced a ->
  cur (skipToRpar s) = rpar /\ exists s', parseRpar (skipToRpar s) = Ok s' /\ at_toks s' ks.
Proof.
  intros (t & H & ->) Ha.
  assert (Hsk : skips 0 (a ++ TR :: ks) ks) by now apply skip_balanced.
  assert (exists u, lexes plain_word u (a ++ TR :: ks) /\ txt (scan t) = u) as (u & Hu & Eu).
  { assert (Hne : exists k l, a ++ TR :: ks = k :: l)
      by (destruct a as [|k a]; [now exists TR, ks|now exists k, (a ++ TR :: ks)]).
    destruct Hne as (k & l & Ek). rewrite Ek in *.
    destruct (lexes_head _ _ _ H k l eq_refl) as (t' & E & Ht & Hok).
    exists (raw k ++ t'). rewrite E. split; [|reflexivity].
    destruct k as [| |w|b|b]; cbn [raw app tok_ok] in *.
    - now constructor.
    - now constructor.
    - destruct Hok as (H1 & H2 & H3 & H4). now constructor.
    - rewrite <- app_assoc. now constructor.
    - rewrite <- app_assoc. destruct Hok. now constructor. }
  destruct (skip_ok _ _ _ Hu 0%nat ks Hsk) as (t' & E & Ht').
  unfold skipToRpar. rewrite Eu, E. split; [reflexivity|]. exists (scan t'). split; [reflexivity|now exists t'].
Qed.

(** ** every text: tokens are consecutive pieces of the input *)
Lemma scan_loop_gap t : forall m, m = SM_COMMON \/ m = SM_COMMENT ->
  exists g, t = g ++ txt (scan_loop m t) /\
    (m = SM_COMMON -> blank_text g) /\ (m = SM_COMMENT -> blank_text (";"%char :: g)).
Proof.
  induction t as [|c t IH]; intros m Hm; cbn [scan_loop].
  - exists []. split; [reflexivity|]. split; intros; [constructor|]. apply (bt_comment []). constructor.
  - destruct (aeq c nul) eqn:En.
    { exists []. split; [reflexivity|]. split; intros; [constructor|]. apply (bt_comment []). constructor. }
    apply aeq_false in En. destruct (isnl c) eqn:El.
    + destruct (IH SM_COMMON (or_introl eq_refl)) as (g & E & Hg & _).
      exists (c :: g). split; [cbn [app]; now rewrite <- E|]. specialize (Hg eq_refl).
      apply isnl_iff in El. split; intros _.
      * apply bt_ws; [now apply nl_ws|exact Hg].
      * apply (bt_line [] c g); [constructor|exact El|exact Hg].
    + apply isnl_false in El. destruct Hm as [-> | ->].
      * destruct (isblank c) eqn:Eb.
        { destruct (IH SM_COMMON (or_introl eq_refl)) as (g & E & Hg & _).
          exists (c :: g). split; [cbn [app]; now rewrite <- E|]. split; [|discriminate]. intros _.
          apply bt_ws; [|now apply Hg]. apply isws_iff. now rewrite Eb. }
        destruct (aeq c semi) eqn:Es.
        { apply aeq_true in Es. subst c.
          destruct (IH SM_COMMENT (or_intror eq_refl)) as (g & E & _ & Hg).
          exists (semi :: g). split; [cbn [app]; now rewrite <- E|]. split; [|discriminate]. intros _.
          now apply Hg. }
        exists []. split; [|split; [intros _; constructor|discriminate]].
        destruct (aeq c bar); [reflexivity|]. destruct (aeq c dq); reflexivity.
      * destruct (IH SM_COMMENT (or_intror eq_refl)) as (g & E & _ & Hg).
        exists (c :: g). split; [cbn [app]; now rewrite <- E|]. split; [discriminate|]. intros _.
        specialize (Hg eq_refl). inversion Hg as [|x y Hw|b Hb|b x y Hb Hx Hy]; subst.
        -- exfalso. unfold wsC in Hw. cbn in Hw. intuition discriminate.
        -- apply bt_comment. constructor; [now split|assumption].
        -- apply (bt_line (c :: b)); [constructor; [now split|assumption]|assumption..].
Qed.
Lemma scan_gap t : exists g, t = g ++ txt (scan t) /\ blank_text g.
Proof.
  destruct (scan_loop_gap t SM_COMMON (or_introl eq_refl)) as (g & E & Hg & _).
  exists g. split; [exact E|now apply Hg].
Qed.

Definition piece (acc rest k : str) (s' : lx) : Prop :=
  exists a g, k = acc ++ a /\ rest = a ++ g ++ txt s' /\ blank_text g.
Lemma piece_cons acc c r k s' : piece (acc ++ [c]) r k s' -> piece acc (c :: r) k s'.
Proof.
  intros (a & g & E & E' & Hg). exists (c :: a), g. repeat split; auto.
  - now rewrite <- app_assoc in E.
  - cbn [app]. now rewrite <- E'.
Qed.
Lemma piece_scan acc rest : piece acc rest acc (scan rest).
Proof.
  destruct (scan_gap rest) as (g & E & Hg). exists [], g. rewrite app_nil_r. now repeat split.
Qed.
Lemma piece_skip acc c r : wsC c -> piece acc (c :: r) acc (scan r).
Proof.
  intros H. destruct (scan_gap r) as (g & E & Hg). exists [], (c :: g). rewrite app_nil_r.
  repeat split; [|now apply bt_ws]. cbn [app]. now rewrite <- E.
Qed.
Lemma piece_stay acc rest m : piece acc rest acc (Lx rest m).
Proof. exists [], []. rewrite app_nil_r. repeat split. constructor. Qed.
Lemma eof_piece file acc rest k s' : at_eof file acc rest = Ok (k, s') -> piece acc rest k s'.
Proof. unfold at_eof. destruct file; [discriminate|]. intros [= <- <-]. apply piece_scan. Qed.

Lemma sym_piece file rest : forall sci open lv acc k s',
  sym_loop file sci open lv acc rest = Ok (k, s') -> piece acc rest k s'.
Proof.
  induction rest as [|c r IH]; intros sci open lv acc k s' H; cbn [sym_loop] in H.
  - now apply eof_piece in H.
  - destruct (aeq c nul); [now apply eof_piece in H|]. cbv zeta in H.
    destruct (sci || sci_start acc).
    + destruct (aeq c lpar); [apply piece_cons; eapply IH, H|].
      destruct (aeq c rpar && open).
      { destruct (lv - 1 =? 0); [|apply piece_cons; eapply IH, H].
        injection H as <- <-. apply piece_cons, piece_scan. }
      destruct (isblank c); [apply piece_cons; eapply IH, H|].
      destruct (isnl c || aeq c semi || aeq c bar || aeq c dq).
      { injection H as <- <-. apply piece_stay. }
      apply piece_cons; eapply IH, H.
    + destruct (isblank c || isnl c) eqn:Ew.
      { injection H as <- <-. apply piece_skip. now apply isws_iff. }
      destruct (aeq c semi || aeq c bar || aeq c dq || aeq c lpar || aeq c rpar).
      { injection H as <- <-. apply piece_stay. }
      apply piece_cons; eapply IH, H.
Qed.
Lemma comp_piece file rest : forall acc k s',
  comp_loop file acc rest = Ok (k, s') -> piece acc rest k s'.
Proof.
  induction rest as [|c r IH]; intros acc k s' H; cbn [comp_loop] in H.
  - now apply eof_piece in H.
  - destruct (aeq c nul); [now apply eof_piece in H|].
    destruct (aeq c bar); [|apply piece_cons, IH, H].
    injection H as <- <-. apply piece_cons, piece_scan.
Qed.
Lemma str_piece file : forall n rest, (length rest <= n)%nat -> forall acc k s',
  str_loop file acc rest = Ok (k, s') -> piece acc rest k s'.
Proof.
  induction n as [|n IH]; intros rest Hn acc k s' H;
    (destruct rest as [|c r]; cbn [str_loop] in H; [now apply eof_piece in H|]);
    cbn [length] in Hn; [lia|].
  destruct (aeq c nul); [now apply eof_piece in H|].
  destruct (aeq c dq).
  - destruct r as [|d r'].
    + injection H as <- <-. apply piece_cons, piece_scan.
    + destruct (aeq d dq).
      * apply IH in H; [|cbn [length] in Hn; lia].
        apply piece_cons, piece_cons. now rewrite <- app_assoc.
      * injection H as <- <-. apply piece_cons, piece_scan.
  - apply IH in H; [|lia]. now apply piece_cons.
Qed.
Lemma other_piece dbg file rest : forall acc k s',
  other_loop dbg file acc rest = Ok (k, s') -> piece acc rest k s'.
Proof.
  induction rest as [|c r IH]; intros acc k s' H; cbn [other_loop] in H.
  - now apply eof_piece in H.
  - destruct (aeq c nul); [now apply eof_piece in H|]. destruct dbg; [discriminate|].
    cbn in H. apply piece_cons, IH, H.
Qed.
Lemma getSymbol_piece dbg file s k s' : getSymbol dbg file s = Ok (k, s') ->
  k <> [] /\ exists g, txt s = k ++ g ++ txt s' /\ blank_text g.
Proof.
  unfold getSymbol. destruct (txt s) as [|c r]; [discriminate|]. intros H.
  assert (Hp : piece [c] r k s').
  { destruct (md s); eauto using sym_piece, comp_piece, other_piece.
    eapply str_piece; [reflexivity|exact H]. }
  destruct Hp as (a & g & -> & -> & Hg). split; [discriminate|].
  exists g. split; [reflexivity|assumption].
Qed.

(** [res] of the loops: never undefined, never out of fuel *)
Definition calm {A} (r : res A) : Prop := r <> UB /\ r <> NoFuel.
Lemma eof_calm file acc rest : calm (at_eof file acc rest).
Proof. unfold at_eof. destruct file; split; discriminate. Qed.
Lemma sym_calm file rest : forall sci open lv acc, calm (sym_loop file sci open lv acc rest).
Proof.
  induction rest as [|c r IH]; intros sci open lv acc; cbn [sym_loop]; [apply eof_calm|].
  destruct (aeq c nul); [apply eof_calm|]. cbv zeta.
  repeat match goal with |- calm (if ?b then _ else _) => destruct b end; auto; split; discriminate.
Qed.
Lemma comp_calm file rest : forall acc, calm (comp_loop file acc rest).
Proof.
  induction rest as [|c r IH]; intros acc; cbn [comp_loop]; [apply eof_calm|].
  destruct (aeq c nul); [apply eof_calm|]. destruct (aeq c bar); auto; split; discriminate.
Qed.
Lemma str_calm file : forall n rest, (length rest <= n)%nat -> forall acc, calm (str_loop file acc rest).
Proof.
  induction n as [|n IH]; intros rest Hn acc;
    (destruct rest as [|c r]; cbn [str_loop]; [apply eof_calm|]); cbn [length] in Hn; [lia|].
  destruct (aeq c nul); [apply eof_calm|]. destruct (aeq c dq).
  - destruct r as [|d r']; [split; discriminate|].
    destruct (aeq d dq); [apply IH; cbn [length] in Hn; lia|split; discriminate].
  - apply IH; lia.
Qed.
Lemma other_calm dbg file rest : forall acc, calm (other_loop dbg file acc rest).
Proof.
  induction rest as [|c r IH]; intros acc; cbn [other_loop]; [apply eof_calm|].
  destruct (aeq c nul); [apply eof_calm|]. destruct dbg; cbn; [split; discriminate|apply IH].
Qed.
Lemma getSymbol_calm dbg file s : txt s <> [] -> calm (getSymbol dbg file s).
Proof.
  intros H. unfold getSymbol. destruct (txt s) as [|c r]; [contradiction|].
  destruct (md s); auto using sym_calm, comp_calm, other_calm.
  now apply (str_calm file (length r)).
Qed.
Lemma getSymbol_UB dbg file s : getSymbol dbg file s = UB <-> txt s = [].
Proof.
  split; [|intros E; unfold getSymbol; now rewrite E].
  intros H. destruct (txt s) eqn:E; [reflexivity|].
  now destruct (getSymbol_calm dbg file s); [rewrite E|].
Qed.
Lemma scan_len t : (length (txt (scan t)) <= length t)%nat.
Proof. destruct (scan_gap t) as (g & E & _). rewrite E at 2. rewrite app_length. lia. Qed.

Lemma scan_len' t : (length (txt (scan (txt (scan t)))) <= length t)%nat.
Proof. pose proof (scan_len t). pose proof (scan_len (txt (scan t))). lia. Qed.
Lemma read_all_calm dbg file rs : forall fuel s, (length (txt s) < fuel)%nat ->
  calm (read_all fuel dbg file rs s).
Proof.
  induction fuel as [|f IH]; intros s0 Hf; [lia|]. cbn [read_all]. cbv zeta.
  set (s := if rs then scan (txt s0) else s0).
  assert (Hs : (length (txt s) < S f)%nat).
  { unfold s. destruct rs; [|exact Hf]. pose proof (scan_len (txt s0)). lia. }
  clearbody s. clear Hf. rename Hs into Hf.
  destruct (aeq (cur s) nul) eqn:En; [split; discriminate|].
  assert (Hne : txt s <> []).
  { intros E. unfold cur in En. now rewrite E in En. }
  destruct (txt s) as [|c r] eqn:E; [contradiction|]. cbn [length] in Hf. unfold cur.
  rewrite E. pose proof (scan_len r) as Hr.
  destruct (aeq c lpar) eqn:El.
  { unfold parseLpar. rewrite E, El. cbn [bind].
    destruct (IH (scan r)) as [H1 H2]; [lia|].
    destruct (read_all f dbg file rs (scan r)); cbn [bind]; split; congruence. }
  destruct (aeq c rpar) eqn:Er.
  { unfold parseRpar. rewrite E, Er. cbn [bind].
    destruct (IH (scan r)) as [H1 H2]; [lia|].
    destruct (read_all f dbg file rs (scan r)); cbn [bind]; split; congruence. }
  assert (Hc : calm (getSymbol dbg file s)) by (apply getSymbol_calm; now rewrite E).
  destruct (getSymbol dbg file s) as [[k s']| | | | |] eqn:Eg; cbn [bind]; try (split; discriminate).
  - cbn [snd fst]. destruct (getSymbol_piece dbg file s k s' Eg) as (Hk & g & Et & _).
    destruct (IH s') as [H1 H2].
    { rewrite E in Et. apply (f_equal (@length ascii)) in Et. rewrite !app_length in Et. cbn [length] in Et.
      destruct k; [contradiction|]. cbn [length] in Et. lia. }
    destruct (read_all f dbg file rs s'); cbn [bind]; split; congruence.
  - now destruct Hc.
  - now destruct Hc.
Qed.
Lemma read_all_spelled dbg file rs : forall fuel s l, read_all fuel dbg file rs s = Ok l ->
  gaps (txt s) l.
Proof.
  induction fuel as [|f IH]; intros s0 l H; [discriminate|]. cbn [read_all] in H. cbv zeta in H.
  set (s := if rs then scan (txt s0) else s0) in H.
  assert (Hs : exists g, txt s0 = g ++ txt s /\ blank_text g).
  { unfold s. destruct rs; [apply scan_gap|]. exists []. split; [reflexivity|constructor]. }
  clearbody s. destruct Hs as (g & E0 & Hg). rewrite E0. apply gp_skip; [exact Hg|].
  destruct (aeq (cur s) nul) eqn:En.
  { injection H as <-. apply gp_end. unfold cur in En. apply aeq_true in En.
    destruct (txt s) as [|c r]; [now left|]. subst c. right. now exists r. }
  unfold parseLpar, parseRpar in H.
  destruct (txt s) as [|c r] eqn:E; [unfold cur in En; now rewrite E in En|].
  unfold cur in H. rewrite E in H. destruct (scan_gap r) as (g' & Er & Hg').
  destruct (aeq c lpar) eqn:El.
  { apply aeq_true in El. subst c. cbn [bind] in H.
    destruct (read_all f dbg file rs (scan r)) as [l'| | | | |] eqn:Ea; try discriminate.
    cbn [bind] in H. injection H as <-.
    apply (gp_tok [lpar] r l'); [discriminate|]. rewrite Er. apply gp_skip; [exact Hg'|]. eapply IH, Ea. }
  destruct (aeq c rpar) eqn:Ep.
  { apply aeq_true in Ep. subst c. cbn [bind] in H.
    destruct (read_all f dbg file rs (scan r)) as [l'| | | | |] eqn:Ea; try discriminate.
    cbn [bind] in H. injection H as <-.
    apply (gp_tok [rpar] r l'); [discriminate|]. rewrite Er. apply gp_skip; [exact Hg'|]. eapply IH, Ea. }
  destruct (getSymbol dbg file s) as [[k s']| | | | |] eqn:Eg; try discriminate.
  cbn [bind snd fst] in H. destruct (getSymbol_piece dbg file s k s' Eg) as (Hk & g2 & Et & Hg2).
  destruct (read_all f dbg file rs s') as [l'| | | | |] eqn:Ea; try discriminate.
  cbn [bind] in H. injection H as <-. rewrite <- E, Et.
  apply (gp_tok k _ l' Hk). apply gp_skip; [exact Hg2|]. eapply IH, Ea.
Qed.
Lemma read_text_calm dbg file rs t : calm (read_text dbg file rs t).
Proof. apply read_all_calm. pose proof (scan_len t). lia. Qed.
Lemma read_text_spelled dbg file rs t l : read_text dbg file rs t = Ok l -> gaps t l.
Proof.
  intros H. destruct (scan_gap t) as (g & E & Hg). rewrite E. apply gp_skip; [exact Hg|].
  eapply read_all_spelled, H.
Qed.

(** ** reading with a rescan before every token: only scientific notation matters *)
Lemma lexes_scan ok t ks : lexes ok t ks -> lexes ok (txt (scan t)) ks.
Proof.
  intros H. destruct ks as [|k ks].
  - rewrite (lexes_end _ _ _ H eq_refl). constructor.
  - destruct (lexes_head _ _ _ H k ks eq_refl) as (t' & E & Ht & Hok). rewrite E. cbn [txt].
    destruct k as [| |w|b|b]; cbn [raw app tok_ok] in *.
    + now constructor.
    + now constructor.
    + destruct Hok as (H1 & H2 & H3 & H4). now constructor.
    + rewrite <- app_assoc. now constructor.
    + rewrite <- app_assoc. destruct Hok. now constructor.
Qed.
Lemma sym_loop_any file ok w t ks : lexes ok t ks -> forall acc rest, acc <> [] -> w = acc ++ rest ->
  Forall (fun x => ~ delimC x) rest -> starts delimC t -> no_sci w t -> (file = true -> t <> []) ->
  exists s', sym_loop file false false 0 acc (rest ++ t) = Ok (w, s') /\ lexes ok (txt s') ks.
Proof.
  intros Hl acc rest. revert acc. induction rest as [|c rest IH]; intros acc Ha -> Hr Hd Hp Hf.
  - rewrite app_nil_r. cbn [app].
    assert (Hs : sci_start acc = false).
    { apply (sci_start_no acc (acc ++ [])); [now exists []|]. apply Hp. }
    destruct t as [|c t]; cbn [sym_loop].
    + unfold at_eof. destruct file; [now destruct Hf|]. exists (scan []). split; [reflexivity|exact Hl].
    + rewrite Hs. cbn [orb]. cbn [starts] in Hd.
      destruct (aeq c nul) eqn:En.
      { exfalso. apply aeq_true in En. subst c. clear -Hl.
        pose proof (lexes_scan _ _ _ Hl) as H'. destruct ks as [|k ks].
        - pose proof (lexes_end _ _ _ Hl eq_refl) as X. cbn in X. discriminate.
        - destruct (lexes_head _ _ _ Hl k ks eq_refl) as (t' & E & _ & Hk).
          destruct k as [| |w|b|b]; cbn in E; try discriminate. }
      destruct (isblank c || isnl c) eqn:Ew.
      * exists (scan t). split; [reflexivity|]. apply isws_iff in Ew.
        rewrite <- (scan_ws c t Ew). now apply lexes_scan.
      * apply isws_false in Ew. apply aeq_false in En.
        destruct Hd as [Hd|[Hd|Hd]]; [contradiction| |contradiction].
        replace (aeq c semi || aeq c bar || aeq c dq || aeq c lpar || aeq c rpar) with true.
        { eexists. split; [reflexivity|exact Hl]. }
        cbn in Hd. destruct Hd as [<-|[<-|[<-|[<-|[<-|[]]]]]]; reflexivity.
  - cbn [app sym_loop]. inversion Hr as [|x y Hc Hr']; subst.
    destruct (ndelim c Hc) as (H1 & H2 & H3 & H4 & H5 & H6 & H7 & H8).
    assert (Hs : sci_start acc = false).
    { apply (sci_start_no acc (acc ++ c :: rest)); [now exists (c :: rest)|]. apply Hp. }
    rewrite Hs, H1, H2. cbn [orb]. rewrite !(proj2 (aeq_false _ _)) by assumption. cbn [orb].
    apply IH; auto; [now destruct acc|]. now rewrite <- app_assoc.
Qed.
Lemma read_all_rescan dbg file : forall ks s fuel, lexes no_sci (txt s) ks -> (length ks < fuel)%nat ->
  (file = true -> last ks TR = TR) ->
  read_all fuel dbg file true s = Ok (map raw ks).
Proof.
  induction ks as [|k ks IH]; intros s fuel H Hf Hl; (destruct fuel as [|fuel]; [lia|]); cbn [read_all]; cbv zeta.
  - unfold cur. rewrite (lexes_end _ _ _ H eq_refl). reflexivity.
  - cbn [length] in Hf.
    assert (Hl' : file = true -> last ks TR = TR).
    { intros E. specialize (Hl E). destruct ks; [reflexivity|exact Hl]. }
    destruct (lexes_head _ _ _ H k ks eq_refl) as (t' & E & Ht & Hok). rewrite E.
    unfold cur. cbn [txt]. destruct k as [| |w|b|b]; cbn [raw app tok_ok mode_of map] in *.
    + change (parseLpar (Lx ("("%char :: t') SM_SYMBOL)) with (Ok (scan t')).
      change (aeq "("%char nul) with false. change (aeq "("%char lpar) with true. cbn iota. cbn [bind].
      rewrite IH; auto using lexes_scan. lia.
    + change (parseRpar (Lx (")"%char :: t') SM_SYMBOL)) with (Ok (scan t')).
      change (aeq ")"%char nul) with false. change (aeq ")"%char lpar) with false.
      change (aeq ")"%char rpar) with true. cbn iota. cbn [bind].
      rewrite IH; auto using lexes_scan. lia.
    + destruct Hok as (Hn & Hw & Hs & Hp). destruct w as [|c w]; [contradiction|]. cbn [app].
      inversion Hw as [|x y Hc Hw']; subst.
      destruct (ndelim c Hc) as (H1 & H2 & H3 & H4 & H5 & H6 & H7 & H8).
      rewrite !(proj2 (aeq_false _ _)) by assumption. cbn [getSymbol txt md].
      destruct (sym_loop_any file no_sci (c :: w) t' ks Ht [c] w) as (s' & -> & Hs'); auto;
        [discriminate| |].
      { intros Ef ->. apply lexes_len in Ht. destruct ks; [|cbn in Ht; lia].
        specialize (Hl Ef). discriminate. }
      cbn [bind snd fst]. rewrite IH; auto. lia.
    + cbn -[comp_loop scan nul bar]. rewrite <- app_assoc. cbn [app].
      change (aeq "|"%char nul) with false. cbn iota.
      rewrite comp_loop_body by exact Hok. cbn [bind snd fst].
      rewrite IH; auto using lexes_scan. lia.
    + cbn -[str_loop scan nul quoteC]. rewrite <- app_assoc. cbn [app].
      change (aeq quoteC nul) with false. change (aeq quoteC lpar) with false.
      change (aeq quoteC rpar) with false. cbn iota. destruct Hok as [Hb Hs].
      rewrite str_loop_body by assumption. cbn [bind snd fst].
      rewrite IH; auto using lexes_scan. lia.
Qed.
Lemma read_text_rescan dbg file t ks : lexes no_sci t ks -> (file = true -> last ks TR = TR) ->
  read_text dbg file true t = Ok (map raw ks).
Proof.
  intros H Hl. unfold read_text. apply read_all_rescan; [now apply lexes_scan| |exact Hl].
  apply lexes_len in H. lia.
Qed.
Lemma at_rescan s ks : at_toks s ks -> at_toks (scan (txt s)) ks.
Proof. intros (t & H & ->). exists (txt (scan t)). split; [now apply lexes_scan|reflexivity]. Qed.

(** ** the specification determines the tokens *)
Lemma run_unique (P : ascii -> Prop) a : forall b s t, Forall (fun x => ~ P x) a ->
  Forall (fun x => ~ P x) b -> starts P s -> starts P t -> a ++ s = b ++ t -> a = b /\ s = t.
Proof.
  induction a as [|c a IH]; intros b s t Ha Hb Hs Ht E.
  - destruct b as [|d b]; [now split|]. cbn in E. subst s. inversion Hb; subst. cbn in Hs. contradiction.
  - destruct b as [|d b].
    + cbn in E. subst t. inversion Ha; subst. cbn in Ht. contradiction.
    + cbn in E. injection E as <- E. inversion Ha; inversion Hb; subst.
      destruct (IH b s t) as [-> ->]; auto.
Qed.
Lemma str_unique a : str_body a -> forall b s t, str_body b -> starts (fun c => c <> quoteC) s ->
  starts (fun c => c <> quoteC) t -> a ++ quoteC :: s = b ++ quoteC :: t -> a = b /\ s = t.
Proof.
  intros Ha. induction Ha as [|c a Hc Hn Ha IH|a Ha IH]; intros b s t Hb Hs Ht E.
  - inversion Hb; subst; cbn in E; injection E as E; subst; auto.
    + congruence.
    + cbn in Hs. congruence.
  - inversion Hb as [|d b' Hd Hn' Hb'|b' Hb']; subst; cbn in E; injection E as E1 E2; try congruence.
    subst d. destruct (IH b' s t) as [-> ->]; auto.
  - inversion Hb as [|d b' Hd Hn' Hb'|b' Hb']; subst; cbn in E.
    + injection E as E. subst t. cbn in Ht. congruence.
    + injection E as E1 E2. congruence.
    + injection E as E. destruct (IH b' s t) as [-> ->]; auto.
Qed.
Lemma lexes_unique ok ok' : forall ks t ks', lexes ok t ks -> lexes ok' t ks' -> ks = ks'.
Proof.
  induction ks as [|k ks IH]; intros t ks' H H'.
  - destruct ks' as [|k' ks']; [reflexivity|].
    pose proof (lexes_end _ _ _ H eq_refl) as E.
    destruct (lexes_head _ _ _ H' k' ks' eq_refl) as (t' & E' & _ & Hk). rewrite E' in E. cbn in E.
    destruct k'; cbn in E; try discriminate. destruct Hk as [Hk _]. now destruct w.
  - destruct (lexes_head _ _ _ H k ks eq_refl) as (u & E & Hu & Hk).
    destruct ks' as [|k' ks'].
    { pose proof (lexes_end _ _ _ H' eq_refl) as E'. rewrite E in E'. cbn in E'.
      destruct k; cbn in E'; try discriminate. destruct Hk as [Hk _]. now destruct w. }
    destruct (lexes_head _ _ _ H' k' ks' eq_refl) as (u' & E' & Hu' & Hk').
    rewrite E in E'. injection E' as Er Em.
    assert (Hd : forall (c : ascii) w, (c = "("%char \/ c = ")"%char) ->
              Forall (fun x => ~ delimC x) (c :: w) -> False).
    { intros c w Hc Hw. inversion Hw as [|x y Hx Hy]; subst. apply Hx. right. left. cbn. intuition. }
    assert (k = k' /\ u = u') as [-> ->].
    { destruct k as [| |w|b|b], k' as [| |w'|b'|b']; cbn [raw mode_of tok_ok app] in *; try discriminate.
      - injection Er as Er. now subst.
      - destruct Hk' as (Hn & Hw & _). destruct w'; [contradiction|]. cbn in Er. injection Er as <- _.
        destruct (Hd "("%char w'); auto.
      - injection Er as Er. now subst.
      - destruct Hk' as (Hn & Hw & _). destruct w'; [contradiction|]. cbn in Er. injection Er as <- _.
        destruct (Hd ")"%char w'); auto.
      - destruct Hk as (Hn & Hw & _). destruct w; [contradiction|]. cbn in Er. injection Er as -> _.
        destruct (Hd "("%char w); auto.
      - destruct Hk as (Hn & Hw & _). destruct w; [contradiction|]. cbn in Er. injection Er as -> _.
        destruct (Hd ")"%char w); auto.
      - destruct Hk as (_ & H1 & H2 & _), Hk' as (_ & H3 & H4 & _).
        destruct (run_unique delimC w w' u u') as [-> ->]; auto.
      - injection Er as Er. rewrite <- !app_assoc in Er. cbn [app] in Er.
        destruct (run_unique (fun x => ~ (x <> "|"%char /\ x <> nul)) b b' ("|"%char :: u) ("|"%char :: u'))
          as [-> E2]; try (cbn; intros [X _]; now apply X); try assumption.
        + eapply Forall_impl; [|exact Hk]. intros x Hx Hn. now apply Hn.
        + eapply Forall_impl; [|exact Hk']. intros x Hx Hn. now apply Hn.
        + now injection E2 as ->.
      - injection Er as Er. rewrite <- !app_assoc in Er. cbn [app] in Er.
        destruct Hk as [H1 H2], Hk' as [H3 H4]. destruct (str_unique b H1 b' u u') as [-> ->]; auto. }
    f_equal. eapply IH; eauto.
Qed.
