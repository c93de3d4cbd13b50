(** The command loop does what the specification says. *)
From Verif Require Import Base LexSpec LexProofs KindModel SortModel TermModel UtilModel SimpModel OpModel LexModel
  ParseModel ParseSpec ParseProofs ParseProofs2 ParseLits ApplyModel CommandModel CommandSpec.
From Verif Require UtilSpec UtilProofs.
Open Scope Z_scope.

(** ** declarations *)
Lemma dsort_mono p q t u : (forall v t, mget v (p_srt p) = Some t -> mget v (p_srt q) = Some t) ->
  dsort p t u -> dsort q t u.
Proof. intros M H. induction H; [now constructor|apply ds_decl; auto|now constructor|now constructor|now apply ds_arr]. Qed.
Lemma declared_same p q v : p_fun q = p_fun p -> p_fv q = p_fv p -> p_var q = p_var p -> declared q v = declared p v.
Proof. intros A B C. unfold declared. now rewrite A, B, C. Qed.
Lemma den_mono x p q : p_fun q = p_fun p -> p_fv q = p_fv p -> p_var q = p_var p ->
  (forall v t, mget v (p_srt p) = Some t -> mget v (p_srt q) = Some t) ->
  (forall d c r e t c', den x p d c r e t c' -> den x q d c r e t c')
  /\ (forall d c r l ts c', dens x p d c r l ts c' -> dens x q d c r l ts c')
  /\ (forall c r bs b ls t, dlet x p c r bs b ls t -> dlet x q c r bs b ls t).
Proof.
  intros A B C D. apply den_mut.
  - intros. now apply d_true.
  - intros. now apply d_false.
  - intros. now apply d_bound.
  - intros. apply d_decl; auto. now rewrite (declared_same p q).
  - intros. apply d_lit; auto. now rewrite (declared_same p q).
  - intros. eapply d_op; eauto. now rewrite A.
  - intros. eapply d_fun; eauto. now rewrite A.
  - intros. eapply d_idx; eauto. now rewrite A.
  - intros. now apply d_bv.
  - intros. eapply d_fp; eauto.
  - intros. eapply d_fps; eauto.
  - intros. apply d_const; auto. revert H. now apply dsort_mono.
  - intros. now apply d_let.
  - intros d c r fa vs ss b t c' u HF _ IHd HO.
    assert (HF' : Forall2 (fun (v : token * so) s => is_tok (fst v) /\ dsort q (snd v) s) vs ss).
    { clear - HF D. induction HF as [|v s vs ss [H1 H2] H3 IH]; constructor; auto.
      split; [exact H1|]. revert H2. now apply dsort_mono. }
    apply (d_quant x q d c r fa vs ss b t c' u); auto.
  - constructor.
  - intros. econstructor; eauto.
  - intros. now apply dl_body.
  - intros. now apply dl_let.
Qed.
Lemma is_fun_same p q v : p_fun q = p_fun p -> p_fv q = p_fv p -> is_fun q v = is_fun p v.
Proof. intros A B. unfold is_fun. now rewrite A, B. Qed.
Lemma scoped_same p q : p_fun q = p_fun p -> p_fv q = p_fv p -> forall e d D N, scoped q d D N e = scoped p d D N e.
Proof.
  intros A B. induction e as [k|h args IH|h ix args IHi IHa|n w|a e m IH1 IH2 IH3|h e gg|so e IH|bs b IHb IHe|fa vs b IH] using sx_ind'; intros d D N.
  - reflexivity.
  - change (s_all q d N D args = s_all p d N D args). revert D.
    induction IH as [|e l He Hl IHl]; intros D; [reflexivity|]. cbn [s_all]. rewrite He.
    destruct (scoped p d D N e); [apply IHl|reflexivity].
  - change (match s_all q d N D ix with Some D1 => s_all q d N D1 args | None => None end =
            match s_all p d N D ix with Some D1 => s_all p d N D1 args | None => None end).
    assert (F : forall l, Forall (fun e => forall d D N, scoped q d D N e = scoped p d D N e) l ->
              forall D, s_all q d N D l = s_all p d N D l).
    { clear - p. intros l IH. induction IH as [|e l He Hl IHl]; intros D; [reflexivity|]. cbn [s_all]. rewrite He.
      destruct (scoped p d D N e); [apply IHl|reflexivity]. }
    rewrite (F ix IHi). destruct (s_all p d N D ix); [apply (F args IHa)|reflexivity].
  - reflexivity.
  - cbn [scoped]. rewrite IH1. destruct (scoped p d D N a) as [D1|]; [|reflexivity].
    rewrite IH2. destruct (scoped p d D1 N e) as [D2|]; [apply IH3|reflexivity].
  - reflexivity.
  - cbn [scoped]. apply IH.
  - change (match s_binds q N (if d then D else []) bs with
            | Some D1 => match scoped q true D1 (names bs ++ N) b with
                         | Some D2 => Some (if d then D2 else D) | None => None end
            | None => None end =
            match s_binds p N (if d then D else []) bs with
            | Some D1 => match scoped p true D1 (names bs ++ N) b with
                         | Some D2 => Some (if d then D2 else D) | None => None end
            | None => None end).
    assert (F : forall D, s_binds q N D bs = s_binds p N D bs).
    { clear - IHb. induction IHb as [|e l He Hl IHl]; intros D; [reflexivity|]. cbn [s_binds]. rewrite He.
      destruct (scoped p true D N (snd e)); [|reflexivity].
      destruct (_ || _); [reflexivity|apply IHl]. }
    rewrite F. destruct (s_binds p N _ bs); [|reflexivity]. now rewrite IHe.
  - cbn [scoped]. rewrite IH.
    assert (E : forallb (fun v => negb (mem v N || d && mem v D || unboundable v || is_fun q v)) (names vs)
              = forallb (fun v => negb (mem v N || d && mem v D || unboundable v || is_fun p v)) (names vs)).
    { generalize (names vs). intros l. induction l as [|v l IHl]; [reflexivity|].
      cbn [forallb]. now rewrite IHl, (is_fun_same p q). }
    now rewrite E.
Qed.

(** the tables of the parser hold the declarations [p] *)
Definition hold (p q : pst) : Prop := same_decls p q /\ (forall x, top_state x q) /\ p_ctr q = p_ctr p.
Lemma hold_decls p q : holds_decls p q <-> hold p q /\ p_fv p = [].
Proof. unfold holds_decls, hold. tauto. Qed.
Lemma top_any x y p : top_state x p -> top_state y p. Proof. intros H. split; apply H. Qed.
Lemma same_trans p q r : same_decls p q -> same_decls q r -> same_decls p r.
Proof.
  intros (A1 & A2 & A3 & A4 & A5 & A6) (B1 & B2 & B3 & B4 & B5 & B6).
  repeat split; try congruence; auto. intros v H. rewrite B6, A6; auto.
Qed.
Lemma same_ctr c p q : same_decls p q -> same_decls (set_ctr c p) q.
Proof. exact (fun H => H). Qed.

Lemma expr_at x p e t c s ks : hold p (sp s) -> means x p e t c -> at_toks (sl s) (render e ++ ks) -> ks <> [] ->
  exists s', pexpr' x s = Ok (t, s') /\ at_toks (sl s') ks /\ hold (set_ctr c p) (sp s').
Proof.
  intros ((A1 & A2 & A3 & A4 & A5 & A6) & T & C) [HD HS] Ha Hk.
  destruct (parse_expr_ok x (sp s) e t c s ks (pexpr_fuel s) eq_refl (T x)) as (s' & E & Ha' & T' & C' & S'); auto.
  - rewrite C. apply (den_mono x p (sp s)); assumption.
  - rewrite <- HS. now apply scoped_same.
  - exists s'. split; [exact E|]. split; [exact Ha'|]. split; [|split].
    + apply same_ctr. apply (same_trans p (sp s)); [|exact S']. repeat split; assumption.
    + intros y. eapply top_any; eassumption.
    + exact C'.
Qed.
Lemma at_len s ks : at_toks s ks -> (length ks <= length (txt s))%nat.
Proof. intros (t & H & ->). apply lexes_scan in H. now apply lexes_len in H. Qed.
Lemma sort_at x p t u s ks : hold p (sp s) -> dsort p t u -> at_toks (sl s) (render_so t ++ ks) -> ks <> [] ->
  exists s', psort' x s = Ok (u, s') /\ at_toks (sl s') ks /\ hold p (sp s').
Proof.
  intros ((A1 & A2 & A3 & A4 & A5 & A6) & T & C) HD Ha Hk. unfold psort'.
  rewrite Nat.add_comm. cbn [Nat.add].
  destruct (top_base x (sp s) (T x)) as [B N].
  destruct (psort_ok x (sp s) false (p_ctr (sp s)) [] t s u ks (S (length (txt (sl s)) * 2))) as (s' & E & Ha' & B' & K'); auto.
  - apply at_len in Ha. rewrite app_length in Ha. pose proof (so_depth_len t). lia.
  - eapply dsort_mono; eassumption.
  - exists s'. split; [exact E|]. split; [exact Ha'|]. split; [|split].
    + apply (same_trans p (sp s)); [repeat split; assumption|]. repeat split; try apply B'. apply K'.
    + intros y. apply (top_any x). eapply base_top; eauto.
    + rewrite <- C. apply B'.
Qed.
Lemma skip_end s a ks : at_toks (sl s) (a ++ TR :: ks) -> balanced a ->
  exists l, rparc (skipc s) = Ok (CS (sp s) l) /\ at_toks l ks.
Proof.
  intros Ha Hb. destruct (at_skip (sl s) a ks Ha Hb) as (_ & l & E & Hl). exists l. unfold rparc, skipc. cbn [sl].
  now rewrite E.
Qed.

(** ** keywords *)
Definition nocol (ks : list token) : Prop := exists k l, ks = k :: l /\ hd nul (raw k) <> ":"%char.
Lemma cur_hd s k ks : at_toks s (k :: ks) -> cur s = hd nul (raw k).
Proof. intros H. rewrite (cur_tok _ _ _ H). now destruct (raw k). Qed.
Lemma kw_none x s ks : at_toks (sl s) ks -> nocol ks -> tryKeyword x s = Ok (KW_NULL, s).
Proof.
  intros H (k & l & -> & Hc). unfold tryKeyword, atc. rewrite (cur_hd _ _ _ H), (proj2 (aeq_false _ _) Hc). reflexivity.
Qed.
Definition kw_of (k : akind) : kw :=
  match k with AId => KW_ID | AWeight => KW_WEIGHT | AComp => KW_COMP | AEps => KW_EPSILON | AM => KW_M end.
Lemma kw_some x s k ks : at_toks (sl s) (akw k :: ks) -> ks <> [] ->
  exists l, tryKeyword x s = Ok (kw_of k, CS (sp s) l) /\ at_toks l ks.
Proof.
  intros H Hk. unfold tryKeyword, atc. rewrite (cur_hd _ _ _ H).
  assert (aeq (hd nul (raw (akw k))) ":"%char = true) as -> by now destruct k.
  unfold parseKeyword. destruct (sym_tok x s _ _ H) as (l & -> & Hl); [destruct k; apply word_tok|auto|].
  exists l. cbn [bind fst snd]. split; [|exact Hl]. destruct k; reflexivity.
Qed.
Lemma kw_named x s ks : at_toks (sl s) (word ":named" :: ks) -> ks <> [] ->
  exists l, tryKeyword x s = Ok (KW_NAMED, CS (sp s) l) /\ at_toks l ks.
Proof.
  intros H Hk. unfold tryKeyword, atc. rewrite (cur_hd _ _ _ H).
  change (aeq (hd nul (raw (word ":named"))) ":"%char) with true. cbn iota.
  unfold parseKeyword. destruct (sym_tok x s _ _ H (word_tok _)) as (l & -> & Hl); [auto|].
  exists l. cbn [bind fst snd]. split; [reflexivity|exact Hl].
Qed.
Lemma nocol_TR ks : nocol (TR :: ks). Proof. exists TR, ks. split; [reflexivity|discriminate]. Qed.
Lemma nocol_app e ks x p t c : no_colon e -> means x p e t c -> nocol (render e ++ ks).
Proof.
  intros H [HD _]. destruct (den_first _ _ _ _ _ _ _ _ HD) as (k & l & E & _). unfold no_colon in H. rewrite E in *.
  exists k, (l ++ ks). split; [reflexivity|exact H].
Qed.
Lemma nocol_ne ks : nocol ks -> ks <> []. Proof. intros (k & l & -> & _). discriminate. Qed.

(** the last value of an attribute, [d] if there is none *)
Definition getd (k : akind) (d : str) (l : list attr) : str :=
  last (map (fun a => raw (snd a)) (filter (fun a => ak_eqb (fst a) k) l)) d.
Lemma getd_val k l : getd k [] l = attr_val k l. Proof. reflexivity. Qed.
Lemma last_cons {A} (a : A) l d : last (a :: l) d = last l a.
Proof. revert a d. induction l as [|b l IH]; intros a d; [reflexivity|]. change (last (a :: b :: l) d) with (last (b :: l) d). now rewrite !IH. Qed.
Lemma getd_cons k d a l : getd k d (a :: l) = getd k (if ak_eqb (fst a) k then raw (snd a) else d) l.
Proof. unfold getd. cbn [filter]. destruct (ak_eqb (fst a) k); [|reflexivity]. cbn [map]. apply last_cons. Qed.
Lemma getd_app k l : forall d m, getd k d (l ++ m) = getd k (getd k d l) m.
Proof. induction l as [|a l IH]; intros d m; [reflexivity|]. cbn [app]. now rewrite !getd_cons, IH. Qed.

Lemma attr_step x s a rest ks : is_tok (snd a) -> at_toks (sl s) (render_attrs (a :: rest) ++ ks) -> ks <> [] ->
  exists l m, tryKeyword x s = Ok (kw_of (fst a), CS (sp s) l) /\ sym x (CS (sp s) l) = Ok (raw (snd a), CS (sp s) m)
    /\ at_toks m (render_attrs rest ++ ks).
Proof.
  intros Ht H Hk. cbn [render_attrs flat_map app] in H.
  fold (render_attrs rest) in H.
  destruct (kw_some x s _ _ H) as (l & E & Hl); [discriminate|].
  destruct (sym_tok x (CS (sp s) l) _ _ Hl Ht) as (m & E' & Hm).
  { intros _ F. destruct (render_attrs rest); [contradiction|discriminate]. }
  exists l, m. auto.
Qed.
Lemma soft_ok x : forall l n id wt s ks, attrs_ok [AId; AWeight] n l -> at_toks (sl s) (render_attrs l ++ ks) -> nocol ks ->
  exists l', soft_kws n x id wt s = Ok (getd AId id l, getd AWeight wt l, CS (sp s) l') /\ at_toks l' ks.
Proof.
  induction l as [|a l IH]; intros n id wt s ks [Hn HF] Ha Hk.
  - cbn [render_attrs flat_map app] in Ha. exists (sl s). destruct s as [p l]. cbn [sp sl] in *. split; [|exact Ha].
    destruct n as [|n]; [reflexivity|]. cbn [soft_kws]. rewrite (kw_none x (CS p l) ks Ha Hk). reflexivity.
  - apply Forall_cons_iff in HF. destruct HF as [[Hin Ht] HF]. cbn [length] in Hn. destruct n as [|n]; [lia|].
    destruct (attr_step x s a l ks Ht Ha (nocol_ne _ Hk)) as (l1 & l2 & E1 & E2 & Ha2).
    assert (Hok : attrs_ok [AId; AWeight] n l) by (split; [lia|exact HF]).
    cbn [soft_kws]. rewrite E1. cbn [bind fst snd]. rewrite !getd_cons.
    destruct Hin as [Hin|[Hin|[]]]; rewrite <- Hin; cbn [kw_of ak_eqb]; rewrite E2; cbn [bind fst snd];
      apply (IH n _ _ (CS (sp s) l2) ks Hok Ha2 Hk).
Qed.
Definition attrs_of (a : attrs) (l : list attr) : attrs :=
  Attrs (getd AComp (a_comp a) l) (getd AEps (a_eps a) l) (getd AM (a_m a) l) (getd AId (a_id a) l).
Lemma obj_ok x : forall l n a s ks, attrs_ok [AId; AComp; AEps; AM] n l -> at_toks (sl s) (render_attrs l ++ ks) -> nocol ks ->
  exists l', obj_kws n x a s = Ok (attrs_of a l, CS (sp s) l') /\ at_toks l' ks.
Proof.
  induction l as [|b l IH]; intros n a s ks [Hn HF] Ha Hk.
  - cbn [render_attrs flat_map app] in Ha. exists (sl s). destruct s as [p l]. cbn [sp sl] in *. split; [|exact Ha].
    destruct a. destruct n as [|n]; [reflexivity|]. cbn [obj_kws]. rewrite (kw_none x (CS p l) ks Ha Hk). reflexivity.
  - apply Forall_cons_iff in HF. destruct HF as [[Hin Ht] HF]. cbn [length] in Hn. destruct n as [|n]; [lia|].
    destruct (attr_step x s b l ks Ht Ha (nocol_ne _ Hk)) as (l1 & l2 & E1 & E2 & Ha2).
    assert (Hok : attrs_ok [AId; AComp; AEps; AM] n l) by (split; [lia|exact HF]).
    cbn [obj_kws]. rewrite E1. cbn [bind fst snd]. unfold attrs_of. rewrite !getd_cons.
    destruct Hin as [Hin|[Hin|[Hin|[Hin|[]]]]]; rewrite <- Hin; cbn [kw_of ak_eqb]; rewrite E2; cbn [bind fst snd];
      match goal with |- exists l', obj_kws n x ?a' _ = _ /\ _ => apply (IH n a' (CS (sp s) l2) ks Hok Ha2 Hk) end.
Qed.
Lemma attrs_of_app a l m : attrs_of (attrs_of a l) m = attrs_of a (l ++ m).
Proof. unfold attrs_of. cbn. now rewrite !getd_app. Qed.

(** ** lists *)
Lemma syms_at x : forall ns s ks fuel, Forall is_tok ns -> at_toks (sl s) (ns ++ TR :: ks) -> (length ns < fuel)%nat ->
  exists l, many fuel (sym x) s = Ok (map raw ns, CS (sp s) l) /\ at_toks l (TR :: ks).
Proof.
  induction ns as [|n ns IH]; intros s ks fuel HF Ha Hl; (destruct fuel as [|fuel]; [lia|]); cbn [many app length] in *.
  - destruct (atc_R _ _ Ha) as [-> _]. exists (sl s). now destruct s.
  - apply Forall_cons_iff in HF. destruct HF as [Hn HF]. destruct (atc_A _ _ _ Ha Hn) as [_ ->].
    destruct (sym_tok x s _ _ Ha Hn) as (l & -> & Hl1). { intros _ F. now destruct ns. }
    cbn [bind fst snd]. destruct (IH (CS (sp s) l) ks fuel HF Hl1) as (l' & -> & Hl'); [lia|].
    cbn [bind fst snd]. exists l'. auto.
Qed.
Lemma syms_at' x ns s ks : Forall is_tok ns -> at_toks (sl s) (ns ++ TR :: ks) ->
  exists l, many' (sym x) s = Ok (map raw ns, CS (sp s) l) /\ at_toks l (TR :: ks).
Proof.
  intros HF Ha. apply syms_at; auto. apply at_len in Ha. rewrite app_length in Ha. cbn [length] in Ha. lia.
Qed.
Lemma so_first t : exists k l, render_so t = k :: l /\ (forall g u, dsort g t u -> k <> TR).
Proof.
  destruct t as [k|n|e h|a b]; cbn [render_so].
  - exists k, []. split; [reflexivity|]. intros g u H. inversion H as [k' u' [_ H1]|k' u' [_ H1]| | |]; auto.
  - eexists. eexists. split; [reflexivity|]. discriminate.
  - eexists. eexists. split; [reflexivity|]. discriminate.
  - eexists. eexists. split; [reflexivity|]. discriminate.
Qed.
Lemma not_rpar s k ks : at_toks (sl s) (k :: ks) -> k <> TR -> atc rpar s = false.
Proof.
  intros H Hk. destruct k; try (eapply atc_L; eassumption); try congruence;
    eapply atc_A; try eassumption; split; discriminate.
Qed.
Lemma sorts_at x p : forall ts us, Forall2 (dsort p) ts us -> forall s ks fuel, hold p (sp s) ->
  at_toks (sl s) (flat_map render_so ts ++ TR :: ks) -> (length ts < fuel)%nat ->
  exists s', many fuel (psort' x) s = Ok (us, s') /\ at_toks (sl s') (TR :: ks) /\ hold p (sp s').
Proof.
  induction 1 as [|t u ts us Ht HF IH]; intros s ks fuel Hp Ha Hl; (destruct fuel as [|fuel]; [cbn [length] in Hl; lia|]); cbn [many flat_map app length] in *.
  - destruct (atc_R _ _ Ha) as [-> _]. exists s. auto.
  - rewrite <- app_assoc in Ha.
    assert (atc rpar s = false) as ->.
    { destruct (so_first t) as (k & l & E & Hk). rewrite E in Ha. eapply not_rpar; [exact Ha|eauto]. }
    destruct (sort_at x p t u s _ Hp Ht Ha) as (s1 & -> & Ha1 & Hp1). { now destruct (flat_map render_so ts). }
    cbn [bind fst snd]. destruct (IH s1 ks fuel Hp1 Ha1) as (s2 & -> & Ha2 & Hp2); [lia|].
    cbn [bind fst snd]. exists s2. auto.
Qed.
Lemma so_len ts : (length ts <= length (flat_map render_so ts))%nat.
Proof. induction ts as [|t ts IH]; [reflexivity|]. cbn [flat_map length]. rewrite app_length. destruct (so_first t) as (k & l & -> & _). cbn [length]. lia. Qed.
Lemma sorts_at' x p ts us s ks : Forall2 (dsort p) ts us -> hold p (sp s) ->
  at_toks (sl s) (flat_map render_so ts ++ TR :: ks) ->
  exists s', many' (psort' x) s = Ok (us, s') /\ at_toks (sl s') (TR :: ks) /\ hold p (sp s').
Proof.
  intros HF Hp Ha. apply sorts_at with ts; auto. apply at_len in Ha. rewrite app_length in Ha. pose proof (so_len ts). lia.
Qed.

(** ** changes of the tables *)
Lemma hold_var p q m : hold p q -> hold (set_var m p) (set_var m q).
Proof.
  intros ((A1 & A2 & A3 & A4 & A5 & A6) & T & C). split; [repeat split; assumption|]. split; [|exact C].
  intros x. specialize (T x). split; cbn; apply T.
Qed.
Lemma hold_fun p q m : hold p q -> hold (set_fun m p) (set_fun m q).
Proof.
  intros ((A1 & A2 & A3 & A4 & A5 & A6) & T & C). split; [repeat split; assumption|]. split; [|exact C].
  intros x. specialize (T x). split; cbn; apply T.
Qed.
Lemma hold_fv p q m : hold p q -> hold (set_fv m p) (set_fv m q).
Proof.
  intros ((A1 & A2 & A3 & A4 & A5 & A6) & T & C). split; [repeat split; assumption|]. split; [|exact C].
  intros x. specialize (T x). split; cbn; apply T.
Qed.
Lemma hold_named p q m : hold p q -> hold (set_named m p) (set_named m q).
Proof.
  intros ((A1 & A2 & A3 & A4 & A5 & A6) & T & C). split; [repeat split; assumption|]. split; [|exact C].
  intros x. specialize (T x). split; cbn; apply T.
Qed.
Lemma cache_bv n : cache_key (L "BV_" ++ n) = true. Proof. reflexivity. Qed.
Lemma cache_fp n : cache_key (L "FP_" ++ n) = true. Proof. reflexivity. Qed.
Lemma cache_arr n : cache_key (L "ARRAY_" ++ n) = true. Proof. reflexivity. Qed.
Lemma key_ne n k : cache_key n = false -> cache_key k = true -> seq_str n k = false.
Proof. intros A B. apply seq_neq. intros ->. congruence. Qed.
Lemma hold_srt p q n t : hold p q -> fresh_sort p n -> hold (add_srt n t p) (set_srt (mins n t (p_srt q)) q).
Proof.
  intros ((A1 & A2 & A3 & A4 & A5 & A6) & T & C) [F1 F2].
  assert (E : mins n t (p_srt q) = (n, t) :: p_srt q) by (unfold mins; now rewrite (A6 n F2), F1).
  rewrite E. split; [|split; [|exact C]].
  - repeat split; try assumption; cbn [p_srt set_srt add_srt].
    + intros v u. rewrite !mget_cons. destruct (seq_str n v); auto.
    + intros v Hv. rewrite !mget_cons. destruct (seq_str n v); auto.
  - intros x. specialize (T x). split; cbn [p_ld p_let p_quant p_aph p_ctr p_plet p_srt set_srt]; try apply T.
    + intros w u Hw. rewrite mget_cons, (key_ne n _ F2 (cache_bv _)). now apply T.
    + intros w u v. rewrite mget_cons, (key_ne n _ F2 (cache_bv _)). apply T.
    + intros e h u v. rewrite mget_cons, (key_ne n _ F2 (cache_fp _)). apply T.
    + intros u v a b w. rewrite mget_cons, (key_ne n _ F2 (cache_arr _)). apply T.
Qed.
Lemma mins_new {A} n (a : A) m : mget n m = None -> mins n a m = (n, a) :: m.
Proof. intros H. unfold mins. now rewrite H. Qed.
Lemma mdel_none {A} n (m : smap A) : mget n m = None -> mdel n m = m.
Proof.
  induction m as [|[k a] m IH]; [reflexivity|]. rewrite mget_cons. unfold mdel. cbn [filter fst].
  destruct (seq_str k n); [discriminate|]. intros H. cbn [negb]. f_equal. now apply IH.
Qed.
Lemma mset_top {A} n (a b : A) m : mget n m = None -> mset n a ((n, b) :: m) = (n, a) :: m.
Proof. intros H. unfold mset, mdel. cbn [filter fst]. rewrite seq_refl. cbn [negb]. f_equal. now apply mdel_none. Qed.
Lemma dels_nil {A} ks : dels ks (@nil (str * A)) = [].
Proof. induction ks; [reflexivity|]. exact IHks. Qed.
Lemma mdel_in {A} k (q : str * A) m : In q (mdel k m) -> In q m /\ fst q <> k.
Proof. unfold mdel. rewrite filter_In, negb_true_iff. intros [H1 H2]. split; [exact H1|]. now apply seq_neq. Qed.
Lemma dels_in {A} ks : forall (q : str * A) m, In q (dels ks m) -> In q m /\ ~ In (fst q) ks.
Proof.
  induction ks as [|k ks IH]; intros q m; [cbn; auto|]. change (dels (k :: ks) m) with (dels ks (mdel k m)).
  intros H. apply IH in H. destruct H as [H1 H2]. apply mdel_in in H1. destruct H1 as [H1 H3].
  split; [exact H1|]. intros [H|H]; [congruence|tauto].
Qed.
Lemma dels_all {A} ks (m : smap A) : (forall q, In q m -> In (fst q) ks) -> dels ks m = [].
Proof.
  intros H. destruct (dels ks m) as [|q l] eqn:E; [reflexivity|]. exfalso.
  assert (In q (dels ks m)) as Hq by (rewrite E; now left). apply dels_in in Hq. destruct Hq as [H1 H2]. apply H2, H, H1.
Qed.

(** ** parameters *)
Lemma set_fv_fv m m' p : set_fv m (set_fv m' p) = set_fv m p. Proof. reflexivity. Qed.
Lemma params_at x : forall ps ss p s ks fuel, NoDup (names ps) ->
  Forall2 (fun (q : token * so) u => is_tok (fst q) /\ dsort p (snd q) u) ps ss -> hold p (sp s) ->
  (forall v, In v (names ps) -> mget v (p_fv p) = None) ->
  at_toks (sl s) (render_params ps ++ TR :: ks) -> (length ps < fuel)%nat ->
  exists s', many fuel (pparam x) s = Ok (map param (combine (names ps) ss), s') /\ at_toks (sl s') (TR :: ks) /\
    hold (set_fv (rev (map (fun q => (fst q, param q)) (combine (names ps) ss)) ++ p_fv p) p) (sp s').
Proof.
  induction ps as [|[n t] ps IH]; intros ss p s ks fuel HN HF Hp Hv Ha Hl; (destruct fuel as [|fuel]; [cbn [length] in Hl; lia|]).
  - cbn [many render_params flat_map app names map combine rev] in *. destruct (atc_R _ _ Ha) as [-> _].
    exists s. split; [reflexivity|]. split; [exact Ha|]. destruct p. exact Hp.
  - inversion HF as [|q u qs us [Hn Ht] HF']; subst. cbn [fst snd] in *.
    cbn [many render_params flat_map app length] in *. fold (render_params ps) in Ha.
    repeat (rewrite <- app_assoc in Ha; cbn [app fst snd] in Ha).
    destruct (atc_L _ _ Ha) as [_ ->]. unfold pparam at 1.
    destruct (lpar_tok _ _ Ha) as (l & -> & Hl0). cbn [bind].
    destruct (sym_tok x (CS (sp s) l) n _ Hl0 Hn) as (l1 & -> & Hl1). { intros _ F. now destruct (render_so t). }
    cbn [bind fst snd sp].
    destruct (sort_at x p t u (CS (sp s) l1) _ Hp Ht Hl1) as (s2 & -> & Ha2 & Hp2); [discriminate|]. cbn [bind fst snd].
    assert (Ef : p_fv (sp s2) = p_fv p) by apply Hp2.
    inversion HN as [|v vs Hnin HN']; subst.
    assert (Em : mget (raw n) (p_fv p) = None) by (apply Hv; now left).
    rewrite Ef, Em.
    set (s3 := onp _ s2).
    destruct (rpar_tok s3 _ Ha2) as (l4 & -> & Hl4). cbn [bind fst snd].
    set (p1 := set_fv ((raw n, param (raw n, u)) :: p_fv p) p).
    assert (Hp3 : hold p1 (sp s3)).
    { subst s3 p1. rewrite onp_sp, Ef, mins_new by exact Em. apply hold_fv, Hp2. }
    destruct (IH us p1 (CS (sp s3) l4) ks fuel HN') as (s5 & -> & Ha5 & Hp5); auto.
    { clear - HF'. induction HF' as [|q0 u0 ps0 us0 [H1 H2] H3 IH0]; constructor; auto. split; [exact H1|].
      revert H2. apply dsort_mono. auto. }
    { intros v Hin. subst p1. cbn [p_fv set_fv]. rewrite mget_cons.
      assert (seq_str (raw n) v = false) as -> by (apply seq_neq; intros <-; apply Hnin; exact Hin). apply Hv. now right. }
    { lia. }
    cbn [bind fst snd]. exists s5. split; [reflexivity|]. split; [exact Ha5|].
    cbn [names map combine rev]. rewrite <- app_assoc. exact Hp5.
Qed.
Lemma params_len ps : (length ps <= length (render_params ps))%nat.
Proof. induction ps as [|t ps IH]; [reflexivity|]. cbn [render_params flat_map length app]. fold (render_params ps). rewrite app_length. lia. Qed.
Lemma params_at' x ps ss p s ks : params_ok p ps ss -> hold p (sp s) -> p_fv p = [] ->
  at_toks (sl s) (render_params ps ++ TR :: ks) ->
  exists s', many' (pparam x) s = Ok (map param (combine (names ps) ss), s') /\ at_toks (sl s') (TR :: ks) /\
    hold (with_params (combine (names ps) ss) p) (sp s').
Proof.
  intros [HN HF] Hp Hv Ha.
  destruct (params_at x ps ss p s ks (S (length (txt (sl s)))) HN HF Hp) as (s' & E & Ha' & Hp'); auto.
  - now rewrite Hv.
  - apply at_len in Ha. rewrite app_length in Ha. pose proof (params_len ps). lia.
  - exists s'. split; [exact E|]. split; [exact Ha'|]. rewrite Hv, app_nil_r in Hp'. exact Hp'.
Qed.
Lemma params_gone l p : dels (map t_name (map param l)) (p_fv (with_params l p)) = [].
Proof.
  apply dels_all. intros q. unfold with_params. cbn [p_fv set_fv]. rewrite <- in_rev, in_map_iff.
  intros (a & <- & H). cbn [fst]. rewrite map_map. apply in_map_iff. exists a. auto.
Qed.
