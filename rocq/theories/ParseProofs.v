(** The parser against the specification of ParseSpec.v. *)
From Coq Require Import DecimalPos.
From Verif Require Import Base LexSpec LexProofs KindModel SortModel TermModel UtilModel SimpModel OpModel LexModel
  ParseModel ParseSpec BVProofs2 UtilProofs OpProofs.
Open Scope Z_scope.

(** ** name tables *)
Lemma seq_refl s : seq_str s s = true.
Proof. now apply seq_str_spec. Qed.
Lemma seq_neq a b : seq_str a b = false <-> a <> b.
Proof. pose proof (seq_str_spec a b). destruct (seq_str a b); intuition congruence. Qed.
Lemma seqs_spec a b : seqs a b = true <-> a = L b.
Proof. apply seq_str_spec. Qed.
Lemma mget_cons {A} k k' (a : A) m : mget k ((k', a) :: m) = if seq_str k' k then Some a else mget k m.
Proof. reflexivity. Qed.
Lemma mget_mdel {A} k k' (m : smap A) : mget k (mdel k' m) = if seq_str k' k then None else mget k m.
Proof.
  induction m as [|[u a] m IH]; cbn [mdel filter mget fst]; [now destruct (seq_str k' k)|].
  fold (mdel k' m). destruct (seq_str u k') eqn:E; cbn [negb].
  - apply seq_str_spec in E. subst u. rewrite IH. now destruct (seq_str k' k).
  - rewrite mget_cons, IH. destruct (seq_str u k) eqn:F; [|reflexivity].
    apply seq_str_spec in F. subst u. destruct (seq_str k' k) eqn:G; [|reflexivity].
    apply seq_str_spec in G. subst. now rewrite seq_refl in E.
Qed.
Lemma mget_mins {A} k k' (a : A) m :
  mget k (mins k' a m) = if seq_str k' k then (match mget k m with Some b => Some b | None => Some a end) else mget k m.
Proof.
  unfold mins. destruct (mget k' m) eqn:E.
  - destruct (seq_str k' k) eqn:F; [|reflexivity]. apply seq_str_spec in F. subst. now rewrite E.
  - rewrite mget_cons. destruct (seq_str k' k) eqn:F; [|reflexivity]. apply seq_str_spec in F. subst. now rewrite E.
Qed.
Lemma mget_dels {A} ks : forall k (m : smap A), mget k (dels ks m) = if mem k ks then None else mget k m.
Proof.
  induction ks as [|k' ks IH]; intros k m; [reflexivity|].
  cbn [dels fold_left]. fold (dels ks (mdel k' m)). rewrite IH, mget_mdel. unfold mem. cbn [existsb].
  assert (seq_str k k' = seq_str k' k) as ->.
  { destruct (seq_str k' k) eqn:E; [apply seq_str_spec in E; subst; apply seq_refl|].
    apply seq_neq in E. apply seq_neq. congruence. }
  destruct (existsb (seq_str k) ks), (seq_str k' k); reflexivity.
Qed.
Lemma mem_In v l : mem v l = true <-> In v l.
Proof.
  unfold mem. rewrite existsb_exists. split.
  - intros (y & H & E). apply seq_str_spec in E. now subst.
  - intros H. exists v. split; [exact H|apply seq_refl].
Qed.
Lemma mem_nIn v l : mem v l = false <-> ~ In v l.
Proof. rewrite <- mem_In. destruct (mem v l); intuition congruence. Qed.
Lemma assoc_app v r1 r2 : assoc v (r1 ++ r2) = orelse (assoc v r1) (assoc v r2).
Proof. induction r1 as [|[u t] r1 IH]; [reflexivity|]. cbn [app assoc]. destruct (seq_str u v); [reflexivity|exact IH]. Qed.
Lemma assoc_None v r : assoc v r = None <-> ~ In v (map fst r).
Proof.
  induction r as [|[u t] r IH]; cbn [assoc map fst In]; [tauto|].
  destruct (seq_str u v) eqn:E; [apply seq_str_spec in E; subst; intuition congruence|].
  apply seq_neq in E. rewrite IH. tauto.
Qed.

(** ** positions *)
Lemma sym_tok x s k ks : at_toks (sl s) (k :: ks) -> is_tok k -> (x_file x = true -> ks <> []) ->
  exists l, sym x s = Ok (raw k, CS (sp s) l) /\ at_toks l ks.
Proof.
  intros H [H1 H2] Hf. unfold sym.
  destruct (at_symbol (c_dbg (x_c x)) (x_file x) (sl s) k ks H) as (l & -> & Hl); auto.
  - destruct k; auto; congruence.
  - exists l. auto.
Qed.
Lemma lpar_tok s ks : at_toks (sl s) (TL :: ks) ->
  exists l, lparc s = Ok (CS (sp s) l) /\ at_toks l ks.
Proof. intros H. destruct (at_lpar _ _ H) as (_ & l & E & Hl). exists l. unfold lparc. now rewrite E. Qed.
Lemma rpar_tok s ks : at_toks (sl s) (TR :: ks) ->
  exists l, rparc s = Ok (CS (sp s) l) /\ at_toks l ks.
Proof. intros H. destruct (at_rpar _ _ H) as (_ & l & E & Hl). exists l. unfold rparc. now rewrite E. Qed.
Lemma atc_L s ks : at_toks (sl s) (TL :: ks) -> atc lpar s = true /\ atc rpar s = false.
Proof. intros H. destruct (at_lpar _ _ H) as (E & _). unfold atc. rewrite E. split; reflexivity. Qed.
Lemma atc_R s ks : at_toks (sl s) (TR :: ks) -> atc rpar s = true /\ atc lpar s = false.
Proof. intros H. destruct (at_rpar _ _ H) as (E & _). unfold atc. rewrite E. split; reflexivity. Qed.
Lemma atc_A s k ks : at_toks (sl s) (k :: ks) -> is_tok k -> atc lpar s = false /\ atc rpar s = false.
Proof.
  intros H [H1 H2]. destruct (cur_atom (sl s) k ks H) as (A & B & _).
  - destruct k; auto; congruence.
  - unfold atc. split; now apply aeq_false.
Qed.
Lemma word_tok s : is_tok (word s). Proof. split; discriminate. Qed.
Lemma tword_tok w : is_tok (TWord w). Proof. split; discriminate. Qed.
Lemma raw_word s : raw (word s) = L s. Proof. reflexivity. Qed.
Lemma onp_sl f s : sl (onp f s) = sl s. Proof. reflexivity. Qed.
Lemma onp_sp f s : sp (onp f s) = f (sp s). Proof. reflexivity. Qed.

(** ** invariants *)
Definition letget (x : pcfg) (p : pst) (v : str) : option term :=
  if x_keep x then mget (plet_name p v) (p_plet p) else mget v (p_let p).
Record base (x : pcfg) (g : pst) (d : bool) (c : Z) (D : list str) (p : pst) : Prop := {
  b_fun : p_fun p = p_fun g; b_fv : p_fv p = p_fv g; b_var : p_var p = p_var g;
  b_aph : p_aph p = false;
  b_srt : forall v t, mget v (p_srt g) = Some t -> mget v (p_srt p) = Some t;
  b_srt' : forall v, cache_key v = false -> mget v (p_srt p) = mget v (p_srt g);
  b_bv : forall w t, 0 <= w -> mget (L "BV_" ++ Idec w) (p_srt p) = Some t -> t = bvS w;
  b_bv' : forall n u t, bv_of n = Ok u -> mget (L "BV_" ++ n) (p_srt p) = Some t -> t = u;
  b_fp : forall e h u t, ~ In "_"%char e -> fp_of e h = Ok u ->
    mget (L "FP_" ++ e ++ L "_" ++ h) (p_srt p) = Some t -> t = u;
  b_arr : forall u v a b t, key_sort u -> key_sort v -> sort_str u = Ok a -> sort_str v = Ok b ->
    mget (L "ARRAY_" ++ a ++ L "_" ++ b) (p_srt p) = Some t -> t = arrayS u v;
  b_d : Nat.ltb 0 (p_ld p) = d;
  b_c : p_ctr p = c /\ 0 <= c;
  b_let : d = true -> forall v t, letget x p v = Some t -> In v D;
  b_fresh : forall v c' t, c < c' -> mget (v ++ SUFFIX ++ Idec c') (p_plet p) <> Some t;
  b_let0 : d = false -> forall v, mget v (p_let p) = None }.
Record bnd (x : pcfg) (g : pst) (d : bool) (r : env) (D : list str) (p : pst) : Prop := {
  n_bound : forall v t, assoc v r = Some t -> unboundable v = false /\
     ((d = true /\ letget x p v = Some t) \/
      (mget v (p_quant p) = Some t /\ (0 < p_qd p)%nat /\ (d = true -> ~ In v D) /\ is_fun g v = false));
  n_free : forall v, assoc v r = None -> mget v (p_quant p) = None }.
Record keeps (p p' : pst) : Prop := {
  k_let : forall v, mget v (p_let p') = mget v (p_let p);
  k_plet : forall v t, mget v (p_plet p) = Some t -> mget v (p_plet p') = Some t;
  k_quant : forall v, mget v (p_quant p') = mget v (p_quant p);
  k_ld : p_ld p' = p_ld p; k_qd : p_qd p' = p_qd p; k_named : p_named p' = p_named p }.
Lemma keeps_refl p : keeps p p. Proof. split; auto. Qed.
Lemma keeps_trans p q r : keeps p q -> keeps q r -> keeps p r.
Proof.
  intros [A B C D E F] [A' B' C' D' E' F'].
  split; intros; rewrite ?A', ?C', ?D', ?E', ?F'; auto.
Qed.
Lemma bnd_keep x g (d : bool) c c' r D D' p p' : bnd x g d r D p -> keeps p p' -> base x g d c D p ->
  base x g d c' D' p' -> (d = true -> c' = c) ->
  (forall v, In v (map fst r) -> In v D' -> In v D) -> bnd x g d r D' p'.
Proof.
  intros [HB HF] K B B' Hc Hi. split.
  - intros v t Hv. destruct (HB v t Hv) as [U H]. split; [exact U|].
    assert (In v (map fst r)) as Hn.
    { destruct (assoc_None v r) as [_ G]. destruct (in_dec (list_eq_dec ascii_dec) v (map fst r)); [assumption|].
      rewrite G in Hv by assumption. discriminate. }
    destruct H as [[Ed H]|(H1 & H2 & H3 & H4)].
    + left. split; [exact Ed|]. revert H. unfold letget, plet_name.
      rewrite (proj1 (b_c _ _ _ _ _ _ B)), (proj1 (b_c _ _ _ _ _ _ B')), (Hc Ed).
      destruct (x_keep x); [apply (k_plet _ _ K)|]. now rewrite (k_let _ _ K).
    + right. rewrite (k_quant _ _ K), (k_qd _ _ K). repeat split; auto.
      intros Ed Hin. apply (H3 Ed). auto.
  - intros v Hv. rewrite (k_quant _ _ K). auto.
Qed.

(** ** scoping facts *)
Definition s_all g d N := fix all (D : list str) (l : list sx) : option (list str) :=
    match l with
    | [] => Some D
    | e :: l' => match scoped g d D N e with Some D' => all D' l' | None => None end
    end.
Definition s_binds g N := fix binds (D : list str) (l : list (token * sx)) : option (list str) :=
        match l with
        | [] => Some D
        | q :: l' =>
            match scoped g true D N (snd q) with
            | Some D' => if mem (raw (fst q)) (D' ++ N) || unboundable (raw (fst q)) then None
                         else binds (raw (fst q) :: D') l'
            | None => None
            end
        end.
Lemma sx_ind' (P : sx -> Prop) :
  (forall k, P (SAtom k)) ->
  (forall h args, Forall P args -> P (SApp h args)) ->
  (forall h ix args, Forall P ix -> Forall P args -> P (SIdx h ix args)) ->
  (forall n w, P (SBv n w)) ->
  (forall a e m, P a -> P e -> P m -> P (SFp a e m)) ->
  (forall h e g, P (SFps h e g)) ->
  (forall s e, P e -> P (SConst s e)) ->
  (forall bs b, Forall (fun q => P (snd q)) bs -> P b -> P (SLet bs b)) ->
  (forall fa vs b, P b -> P (SQuant fa vs b)) ->
  forall e, P e.
Proof.
  intros H1 H2 H3 H4 H7 H8 H9 H5 H6. fix IH 1. intros [k|h args|h ix args|n w|a e m|h e g|s e|bs b|fa vs b].
  - apply H1.
  - apply H2. induction args; constructor; auto.
  - apply H3; [induction ix|induction args]; constructor; auto.
  - apply H4.
  - apply H7; apply IH.
  - apply H8.
  - apply H9, IH.
  - apply H5; [|apply IH]. induction bs as [|[k e] bs IHb]; constructor; auto; apply IH.
  - apply H6, IH.
Qed.
Definition mono (N D D' : list str) : Prop := incl D D' /\ forall v, In v N -> In v D' -> In v D.
Lemma mono_refl N D : mono N D D. Proof. split; [apply incl_refl|auto]. Qed.
Lemma mono_trans N D E F : mono N D E -> mono N E F -> mono N D F.
Proof. intros [A B] [C G]. split; [now apply incl_tran with E|auto]. Qed.
Lemma scoped_mono g e : forall d D N D', scoped g d D N e = Some D' -> mono N D D'.
Proof.
  induction e as [k|h args IH|h ix args IHi IHa|n w|a e m IH1 IH2 IH3|h e gg|so e IH|bs b IHb IHe|fa vs b IH] using sx_ind'; intros d D N D' H.
  - cbn [scoped] in H. destruct (_ && _ && _); [discriminate|]. injection H as <-. apply mono_refl.
  - change (s_all g d N D args = Some D') in H.
    revert D D' H. induction IH as [|e l He Hl IHl]; intros D D' H; cbn [s_all] in H.
    + injection H as <-. apply mono_refl.
    + destruct (scoped g d D N e) as [D1|] eqn:E; [|discriminate].
      eapply mono_trans; [eapply He; eassumption|now apply IHl].
  - change (match s_all g d N D ix with Some D1 => s_all g d N D1 args | None => None end = Some D') in H.
    assert (A : forall l, Forall (fun e => forall d D N D', scoped g d D N e = Some D' -> mono N D D') l ->
              forall D D', s_all g d N D l = Some D' -> mono N D D').
    { clear. intros l IH. induction IH as [|e l He Hl IHl]; intros D D' H; cbn [s_all] in H.
      - injection H as <-. apply mono_refl.
      - destruct (scoped g d D N e) as [D1|] eqn:E; [|discriminate].
        eapply mono_trans; [eapply He; eassumption|now apply IHl]. }
    destruct (s_all g d N D ix) as [D1|] eqn:E; [|discriminate].
    exact (mono_trans _ _ _ _ (A ix IHi _ _ E) (A args IHa _ _ H)).
  - cbn [scoped] in H. injection H as <-. apply mono_refl.
  - cbn [scoped] in H. destruct (scoped g d D N a) as [D1|] eqn:E1; [|discriminate].
    destruct (scoped g d D1 N e) as [D2|] eqn:E2; [|discriminate].
    exact (mono_trans _ _ _ _ (IH1 _ _ _ _ E1) (mono_trans _ _ _ _ (IH2 _ _ _ _ E2) (IH3 _ _ _ _ H))).
  - cbn [scoped] in H. injection H as <-. apply mono_refl.
  - cbn [scoped] in H. exact (IH _ _ _ _ H).
  - change (match s_binds g N (if d then D else []) bs with
            | Some D1 => match scoped g true D1 (names bs ++ N) b with
                         | Some D2 => Some (if d then D2 else D) | None => None end
            | None => None end = Some D') in H.
    destruct (s_binds g N (if d then D else []) bs) as [D1|] eqn:E; [|discriminate].
    destruct (scoped g true D1 (names bs ++ N) b) as [D2|] eqn:E2; [|discriminate].
    injection H as <-. destruct d; [|apply mono_refl].
    apply (mono_trans N D D1).
    + clear E2. revert D D1 E. induction IHb as [|q l He Hl IHl]; intros D D1 E; cbn [s_binds] in E.
      * injection E as <-. apply mono_refl.
      * destruct (scoped g true D N (snd q)) as [D'|] eqn:E'; [|discriminate].
        destruct (mem (raw (fst q)) (D' ++ N) || unboundable (raw (fst q))) eqn:Em; [discriminate|].
        apply orb_false_iff in Em. destruct Em as [Em _]. apply mem_nIn in Em.
        apply (mono_trans N D D'); [eapply He; eassumption|].
        apply (mono_trans N D' (raw (fst q) :: D')); [|now apply IHl].
        split; [now apply incl_tl, incl_refl|]. intros v Hv [ <- |H]; [|exact H].
        exfalso. apply Em. apply in_or_app. now right.
    + destruct (IHe _ _ _ _ E2) as [A B]. split; [exact A|]. intros v Hv. apply B, in_or_app. now right.
  - cbn [scoped] in H. fold (names vs) in H.
    match type of H with (if ?b then _ else _) = _ => destruct b; [|discriminate] end.
    destruct (IH _ _ _ _ H) as [A B]. split; [exact A|]. intros v Hv. apply B, in_or_app. now right.
Qed.

(** ** the names of let variables *)
Lemma Idec_chars i : Forall (fun c => c <> "_"%char) (Idec i).
Proof.
  assert (A : forall d, Forall (fun c => c <> "_"%char) (udec d)).
  { intros d. pose proof (udec_digits d) as H. revert H. apply Forall_impl. intros c Hc ->.
    unfold UtilSpec.digitC in Hc. cbn in Hc. lia. }
  unfold Idec. destruct (Z.to_int i); [apply A|]. constructor; [discriminate|apply A].
Qed.
Lemma plet_inj v v' c c' : v ++ SUFFIX ++ Idec c = v' ++ SUFFIX ++ Idec c' -> v = v' /\ c = c'.
Proof.
  intros H. apply (f_equal (@rev ascii)) in H. rewrite !rev_app_distr in H.
  rewrite <- !app_assoc in H.
  apply (run_unique (fun a => a = "_"%char)) in H.
  - destruct H as [H1 H2]. assert (E : Idec c = Idec c') by (rewrite <- (rev_involutive (Idec c)), H1; apply rev_involutive).
    split; [|now apply Idec_inj].
    apply app_inv_head in H2. now rewrite <- (rev_involutive v), H2, rev_involutive.
  - apply Forall_rev, Idec_chars.
  - apply Forall_rev, Idec_chars.
  - reflexivity.
  - reflexivity.
Qed.
Lemma plet_name_inj p v v' : plet_name p v = plet_name p v' -> v = v'.
Proof. intros H. now apply plet_inj in H. Qed.

(** ** numerals *)
Lemma digits_prefix_num s : Forall UtilSpec.digitC s -> forall a,
  digits_prefix s a = fold_left (fun a c => a * 10 + UtilSpec.digit_of c) s a.
Proof.
  induction 1 as [|c s Hc Hs IH]; intros a; [reflexivity|]. cbn [digits_prefix fold_left].
  assert (isdigit c = true) as -> by (now apply isdigit_spec).
  apply IH.
Qed.
Lemma strtol_Idec z : 0 <= z -> strtol (Idec z) = Some z.
Proof.
  intros Hz. assert (A : forall s, s <> [] -> Forall UtilSpec.digitC s -> strtol s = Some (UtilSpec.num_of s)).
  { intros s Hn H. destruct s as [|c s]; [congruence|]. inversion H as [|? ? Hc Hs]; subst.
    unfold strtol. assert (skip_space (c :: s) = c :: s) as ->.
    { cbn [skip_space]. assert (isspace c = false) as ->; [|reflexivity].
      unfold UtilSpec.digitC in Hc. unfold isspace, code.
      destruct (Nat.eqb_spec (code c) 32); [lia|]. cbn [orb].
      destruct (Nat.leb_spec 9 (code c)); destruct (Nat.leb_spec (code c) 13); cbn; try lia; reflexivity. }
    cbn zeta. assert (aeq c "-"%char = false) as ->.
    { apply aeq_false. intros ->. unfold UtilSpec.digitC in Hc. cbn in Hc. lia. }
    assert (aeq c "+"%char = false) as ->.
    { apply aeq_false. intros ->. unfold UtilSpec.digitC in Hc. cbn in Hc. lia. }
    assert (isdigit c = true) as -> by (now apply isdigit_spec).
    now rewrite digits_prefix_num. }
  unfold Idec. destruct z as [|p|p]; cbn [Z.to_int]; [reflexivity| |lia].
  rewrite A by (apply udec_digits || apply udec_nonnil, to_uint_nonnil).
  rewrite udec_num, Unsigned.of_to. reflexivity.
Qed.

(** ** cached sorts *)
Definition srt_base (g : pst) (m : smap sort) : Prop :=
  ((forall v t, mget v (p_srt g) = Some t -> mget v m = Some t) /\
   (forall v, cache_key v = false -> mget v m = mget v (p_srt g))) /\
  (forall w t, 0 <= w -> mget (L "BV_" ++ Idec w) m = Some t -> t = bvS w) /\
  (forall n u t, bv_of n = Ok u -> mget (L "BV_" ++ n) m = Some t -> t = u) /\
  (forall e h u t, ~ In "_"%char e -> fp_of e h = Ok u ->
     mget (L "FP_" ++ e ++ L "_" ++ h) m = Some t -> t = u) /\
  (forall u v a b t, key_sort u -> key_sort v -> sort_str u = Ok a -> sort_str v = Ok b ->
     mget (L "ARRAY_" ++ a ++ L "_" ++ b) m = Some t -> t = arrayS u v).
Lemma base_srt x g d c D p : base x g d c D p -> srt_base g (p_srt p).
Proof. intros B. repeat split; apply B. Qed.
Lemma base_set x g d c D p m : base x g d c D p -> srt_base g m -> base x g d c D (set_srt m p).
Proof. intros B ((H1 & H1') & H2 & H3 & H4 & H5). split; cbn; try apply B; auto. Qed.
Lemma keeps_set m p : keeps p (set_srt m p). Proof. split; reflexivity || auto. Qed.

Lemma bv_of_Idec w u : 0 <= w -> bv_of (Idec w) = Ok u -> u = bvS w.
Proof.
  intros Hw H. unfold bv_of, stoi in H. rewrite strtol_Idec in H by assumption.
  destruct ((-2147483648 <=? w) && (w <=? 2147483647)) eqn:E; cbn [bind] in H; [|discriminate].
  injection H as <-. f_equal. unfold u64, two64. apply Z.mod_small. lia.
Qed.
Ltac arr_other H5 := intros ? ? ? ? ? ? ? ? ?; rewrite mget_mins;
  let E := fresh "E" in destruct (seq_str _ _) eqn:E; [apply seq_str_spec in E; discriminate|now apply H5].
Lemma srt_bv g m w : 0 <= w -> srt_base g m -> srt_base g (mins (L "BV_" ++ Idec w) (bvS w) m).
Proof.
  intros Hw ((H1 & H1') & H2 & H3 & H4 & H5). repeat split.
  - intros v t Hv. rewrite mget_mins, (H1 v t Hv). now destruct (seq_str _ _).
  - intros v Hv. rewrite mget_mins, (H1' v Hv). destruct (seq_str _ _) eqn:E; [|reflexivity].
    apply seq_str_spec in E. subst v. discriminate.
  - intros w' t Hw'. rewrite mget_mins. destruct (seq_str _ _) eqn:E; [|apply H2; assumption].
    apply seq_str_spec in E. apply app_inv_head in E. apply Idec_inj in E. subst w'.
    destruct (mget _ m) eqn:G; [|congruence]. intros [= <-]. eapply H2; eassumption.
  - intros n u t Hn. rewrite mget_mins. destruct (seq_str _ _) eqn:E; [|apply H3; assumption].
    apply seq_str_spec in E. apply app_inv_head in E. subst n.
    apply bv_of_Idec in Hn; [|assumption]. subst u.
    destruct (mget _ m) eqn:G; [|congruence]. intros [= <-]. eapply H2; eassumption.
  - intros e h u t He Hn. rewrite mget_mins. destruct (seq_str _ _) eqn:E; [|apply H4; assumption].
    apply seq_str_spec in E. discriminate.
  - arr_other H5.
Qed.
Lemma srt_bv' g m n u : bv_of n = Ok u -> srt_base g m -> srt_base g (mins (L "BV_" ++ n) u m).
Proof.
  intros Hw ((H1 & H1') & H2 & H3 & H4 & H5). repeat split.
  - intros v t Hv. rewrite mget_mins, (H1 v t Hv). now destruct (seq_str _ _).
  - intros v Hv. rewrite mget_mins, (H1' v Hv). destruct (seq_str _ _) eqn:E; [|reflexivity].
    apply seq_str_spec in E. subst v. discriminate.
  - intros w' t Hw'. rewrite mget_mins. destruct (seq_str _ _) eqn:E; [|apply H2; assumption].
    apply seq_str_spec in E. apply app_inv_head in E. subst n.
    destruct (mget _ m) eqn:G; [intros [= <-]; eapply H2; eassumption|].
    intros [= <-]. now apply bv_of_Idec.
  - intros n' u' t Hn. rewrite mget_mins. destruct (seq_str _ _) eqn:E; [|apply H3; assumption].
    apply seq_str_spec in E. apply app_inv_head in E. subst n'.
    destruct (mget _ m) eqn:G; [intros [= <-]; eapply H3; eassumption|congruence].
  - intros e h u' t He Hn. rewrite mget_mins. destruct (seq_str _ _) eqn:E; [|apply H4; assumption].
    apply seq_str_spec in E. discriminate.
  - arr_other H5.
Qed.
Lemma srt_fp g m e h u : ~ In "_"%char e -> fp_of e h = Ok u -> srt_base g m ->
  srt_base g (mins (L "FP_" ++ e ++ L "_" ++ h) u m).
Proof.
  intros He Hw ((H1 & H1') & H2 & H3 & H4 & H5). repeat split.
  - intros v t Hv. rewrite mget_mins, (H1 v t Hv). now destruct (seq_str _ _).
  - intros v Hv. rewrite mget_mins, (H1' v Hv). destruct (seq_str _ _) eqn:E; [|reflexivity].
    apply seq_str_spec in E. subst v. discriminate.
  - intros w' t Hw'. rewrite mget_mins. destruct (seq_str _ _) eqn:E; [|apply H2; assumption].
    apply seq_str_spec in E. discriminate.
  - intros n' u' t Hn. rewrite mget_mins. destruct (seq_str _ _) eqn:E; [|apply H3; assumption].
    apply seq_str_spec in E. discriminate.
  - intros e' h' u' t He' Hn. rewrite mget_mins. destruct (seq_str _ _) eqn:E; [|apply H4; assumption].
    apply seq_str_spec in E. apply app_inv_head in E.
    apply (run_unique (fun a => a = "_"%char)) in E; try reflexivity.
    + destruct E as [-> E]. apply app_inv_head in E. subst h'.
      destruct (mget _ m) eqn:G; [intros [= <-]; eapply H4; eassumption|congruence].
    + apply Forall_forall. intros a Ha ->. contradiction.
    + apply Forall_forall. intros a Ha ->. contradiction.
  - arr_other H5.
Qed.

(** the printed names of two index sorts determine them *)
Definition stops (s : str) : Prop := match s with [] => True | c :: _ => sep c /\ c <> "("%char end.
Definition wordy (w : str) : Prop := Forall (fun c => ~ sep c) w.
Lemma wordy_app w w' s s' : wordy w -> wordy w' -> stops s -> stops s' -> w ++ s = w' ++ s' -> w = w' /\ s = s'.
Proof.
  revert w'. induction w as [|c w IH]; intros [|c' w'] W W' S S' E; cbn [app] in E.
  - auto.
  - subst s. inversion W'; subst. cbn in S. tauto.
  - subst s'. inversion W; subst. cbn in S'. tauto.
  - injection E as <- E. inversion W; inversion W'; subst. destruct (IH w') as [-> ->]; auto.
Qed.
Lemma wordy_par w s s' : wordy w -> stops s -> w ++ s = "("%char :: s' -> False.
Proof.
  intros W S E. destruct w as [|c w]; cbn [app] in E; [subst s; cbn in S; tauto|]. injection E as -> E. inversion W; subst. apply H1. unfold sep. tauto.
Qed.
Lemma Idec_wordy z : 0 <= z -> wordy (Idec z).
Proof.
  intros H. unfold Idec. destruct z as [|p|p]; cbn [Z.to_int]; [repeat constructor; unfold sep; intuition discriminate| |lia].
  eapply Forall_impl; [|apply udec_digits]. intros c F. unfold sep, UtilSpec.digitC in *.
  intros [ -> |[ -> |[ -> | -> ]]]; cbn in F; lia.
Qed.
(** the words among them *)
Lemma key_word u : key_sort u -> (exists w, sort_str u = Ok w /\ wordy w /\ (In u basic_key \/ u = Srt SK_DEC w 0 [] /\ mget w basic_sorts = None)) \/
  (exists w, 0 <= w /\ u = bvS w) \/ (exists e m, 0 <= e /\ 0 <= m /\ u = fpS (L "FP") e m) \/ exists i e, key_sort i /\ key_sort e /\ u = arrayS i e.
Proof.
  intros [s H|w H|e m H H'|n H H'|i e H H']; [left| |right; right; left|left|right; right; right].
  - assert (exists w, sort_str s = Ok w /\ wordy w) as (w & E & W).
    { cbn [basic_key In] in H. repeat destruct H as [H|H]; try contradiction; subst s; eexists; (split; [reflexivity|]); repeat constructor; unfold sep; intuition discriminate. }
    exists w. auto.
  - right. left. eauto.
  - eauto.
  - exists n. split; [reflexivity|]. auto.
  - eauto.
Qed.
Lemma key_words u u' w : key_sort u -> key_sort u' -> In u basic_key \/ u = Srt SK_DEC w 0 [] /\ mget w basic_sorts = None ->
  In u' basic_key \/ u' = Srt SK_DEC w 0 [] /\ mget w basic_sorts = None -> sort_str u = Ok w -> sort_str u' = Ok w -> u = u'.
Proof.
  intros _ _ [H|[ -> H]] [H'|[ -> H']] E E'; [| | |reflexivity].
  - cbn [basic_key In] in H, H'. repeat destruct H as [H|H]; try contradiction; subst u; injection E as <-; repeat destruct H' as [H'|H']; try contradiction; subst u'; try discriminate E'; reflexivity.
  - cbn [basic_key In] in H. repeat destruct H as [H|H]; try contradiction; subst u; injection E as <-; discriminate H'.
  - cbn [basic_key In] in H'. repeat destruct H' as [H'|H']; try contradiction; subst u'; injection E' as <-; discriminate H.
Qed.
Lemma key_str u : key_sort u -> exists a, sort_str u = Ok a.
Proof.
  induction 1 as [s H|w H|e m H H'|n H H'|i e H (a & Ea) H' (b & Eb)]; try (eexists; reflexivity).
  - cbn [basic_key In] in H. repeat destruct H as [H|H]; try contradiction; subst s; eexists; reflexivity.
  - cbn [arrayS sort_str]. rewrite Ea, Eb. eexists; reflexivity.
Qed.
Lemma key_unique u : key_sort u -> forall u' a a' s s', key_sort u' -> sort_str u = Ok a -> sort_str u' = Ok a' -> stops s -> stops s' ->
  a ++ s = a' ++ s' -> u = u' /\ s = s'.
Proof.
  assert (SR : forall s, stops (")"%char :: s)) by (intros s; cbn; unfold sep; split; [tauto|discriminate]).
  assert (SS : forall s, stops (" "%char :: s)) by (intros s; cbn; unfold sep; split; [tauto|discriminate]).
  intros K. induction K as [u H|w H|e m H H'|n H H'|i e H IHi H' IHe]; intros u' a a' s s' K' E E' S S' Q.
  1,4: match type of K' with key_sort ?v => idtac end;
    match goal with |- ?u0 = _ /\ _ => assert (K0 : key_sort u0) by (try (now apply ks_basic); now apply ks_dec) end;
    destruct (key_word _ K0) as [(w & Ew & W & C)|[(w & _ & X)|[(e & m & _ & _ & X)|(i & e & _ & _ & X)]]];
    [|try discriminate X; cbn [basic_key In] in H; repeat destruct H as [H|H]; try contradiction; subst; discriminate ..];
    rewrite E in Ew; injection Ew as <-;
    destruct (key_word u' K') as [(w' & Ew' & W' & C')|[(w' & _ & ->)|[(e' & m' & _ & _ & ->)|(i' & e' & _ & _ & ->)]]];
    [rewrite E' in Ew'; injection Ew' as <-; destruct (wordy_app a a' s s' W W' S S' Q) as [ <- <- ]; split; [eapply key_words; eassumption|reflexivity]
    | cbn [bvS sort_str] in E'; injection E' as <-; exfalso; exact (wordy_par _ _ _ W S Q)
    | cbn [fpS sort_str] in E'; injection E' as <-; exfalso; exact (wordy_par _ _ _ W S Q)
    | cbn [arrayS sort_str] in E'; destruct (sort_str i'); try discriminate E'; cbn [bind] in E'; destruct (sort_str e'); try discriminate E'; injection E' as <-; exfalso; exact (wordy_par _ _ _ W S Q)].
  - cbn [bvS sort_str s_arity] in E. injection E as <-.
    destruct (key_word u' K') as [(w' & Ew' & W' & C')|[(w' & H2 & ->)|[(e' & m' & _ & _ & ->)|(i' & e' & _ & _ & ->)]]].
    + rewrite E' in Ew'; injection Ew' as <-. exfalso. exact (wordy_par _ _ _ W' S' (eq_sym Q)).
    + cbn [bvS sort_str s_arity] in E'. injection E' as <-. change (L "(_ BitVec " ++ (Idec w ++ L ")") ++ s = L "(_ BitVec " ++ (Idec w' ++ L ")") ++ s') in Q. apply app_inv_head in Q. rewrite <- !app_assoc in Q.
      apply wordy_app in Q; try (now apply Idec_wordy); try apply SR. destruct Q as [Q1 Q2]. apply Idec_inj in Q1. apply app_inv_head in Q2. now subst.
    + cbn [fpS sort_str s_arity] in E'. injection E' as <-. discriminate Q.
    + cbn [arrayS sort_str] in E'; destruct (sort_str i'); try discriminate E'; cbn [bind] in E'; destruct (sort_str e'); try discriminate E'; injection E' as <-. discriminate Q.
  - cbn [fpS sort_str s_arity] in E. injection E as <-.
    destruct (key_word u' K') as [(w' & Ew' & W' & C')|[(w' & H2 & ->)|[(e' & m' & H2 & H3 & ->)|(i' & e' & _ & _ & ->)]]].
    + rewrite E' in Ew'; injection Ew' as <-. exfalso. exact (wordy_par _ _ _ W' S' (eq_sym Q)).
    + cbn [bvS sort_str s_arity] in E'. injection E' as <-. discriminate Q.
    + cbn [fpS sort_str s_arity] in E'. injection E' as <-.
      change (L "(_ FloatingPoint " ++ (Idec e ++ L " " ++ Idec m ++ L ")") ++ s = L "(_ FloatingPoint " ++ (Idec e' ++ L " " ++ Idec m' ++ L ")") ++ s') in Q. apply app_inv_head in Q. rewrite <- !app_assoc in Q.
      apply wordy_app in Q; try (now apply Idec_wordy); try apply SS. destruct Q as [Q1 Q2]. apply Idec_inj in Q1. apply app_inv_head in Q2.
      apply wordy_app in Q2; try (now apply Idec_wordy); try apply SR. destruct Q2 as [Q2 Q3]. apply Idec_inj in Q2. apply app_inv_head in Q3. now subst.
    + cbn [arrayS sort_str] in E'; destruct (sort_str i'); try discriminate E'; cbn [bind] in E'; destruct (sort_str e'); try discriminate E'; injection E' as <-. discriminate Q.
  - cbn [arrayS sort_str] in E. destruct (sort_str i) as [x| | | | |] eqn:Ex; try discriminate E. cbn [bind] in E. destruct (sort_str e) as [y| | | | |] eqn:Ey; try discriminate E. cbn [bind] in E. injection E as <-.
    destruct (key_word u' K') as [(w' & Ew' & W' & C')|[(w' & H2 & ->)|[(e' & m' & H2 & H3 & ->)|(i' & e' & H2 & H3 & ->)]]].
    + rewrite E' in Ew'; injection Ew' as <-. exfalso. exact (wordy_par _ _ _ W' S' (eq_sym Q)).
    + cbn [bvS sort_str s_arity] in E'. injection E' as <-. discriminate Q.
    + cbn [fpS sort_str s_arity] in E'. injection E' as <-. discriminate Q.
    + cbn [arrayS sort_str] in E'. destruct (sort_str i') as [x'| | | | |] eqn:Ex'; try discriminate E'. cbn [bind] in E'. destruct (sort_str e') as [y'| | | | |] eqn:Ey'; try discriminate E'. cbn [bind] in E'. injection E' as <-.
      change (L "(Array " ++ (x ++ L " " ++ y ++ L ")") ++ s = L "(Array " ++ (x' ++ L " " ++ y' ++ L ")") ++ s') in Q. apply app_inv_head in Q. rewrite <- !app_assoc in Q.
      destruct (IHi i' x x' _ _ H2 eq_refl Ex' (SS _) (SS _) Q) as [ <- Q2]. apply (app_inv_head (L " ")) in Q2.
      destruct (IHe e' y y' _ _ H3 eq_refl Ey' (SR _) (SR _) Q2) as [ <- Q3]. apply (app_inv_head (L ")")) in Q3. now subst.
Qed.
Lemma srt_arr g m u v a b : key_sort u -> key_sort v -> sort_str u = Ok a -> sort_str v = Ok b -> srt_base g m ->
  srt_base g (mins (L "ARRAY_" ++ a ++ L "_" ++ b) (arrayS u v) m).
Proof.
  intros Hu Hv Ea Eb ((H1 & H1') & H2 & H3 & H4 & H5). repeat split.
  - intros w t Hw. rewrite mget_mins, (H1 w t Hw). now destruct (seq_str _ _).
  - intros w Hw. rewrite mget_mins, (H1' w Hw). destruct (seq_str _ _) eqn:E; [|reflexivity].
    apply seq_str_spec in E. subst w. discriminate.
  - intros w' t Hw'. rewrite mget_mins. destruct (seq_str _ _) eqn:E; [|apply H2; assumption].
    apply seq_str_spec in E. discriminate.
  - intros n' u' t Hn. rewrite mget_mins. destruct (seq_str _ _) eqn:E; [|apply H3; assumption].
    apply seq_str_spec in E. discriminate.
  - intros e h u' t He Hn. rewrite mget_mins. destruct (seq_str _ _) eqn:E; [|apply H4; assumption].
    apply seq_str_spec in E. discriminate.
  - intros u' v' a' b' t Hu' Hv' Ea' Eb'. rewrite mget_mins. destruct (seq_str _ _) eqn:E; [|now apply H5].
    apply seq_str_spec in E. apply app_inv_head in E.
    assert (SU : forall s, stops ("_"%char :: s)) by (intros s; cbn; unfold sep; split; [tauto|discriminate]).
    destruct (key_unique u Hu u' a a' _ _ Hu' Ea Ea' (SU _) (SU _) E) as [ <- E2]. apply (app_inv_head (L "_")) in E2.
    rewrite Ea in Ea'. injection Ea' as <-.
    destruct (key_unique v Hv v' b b' [] [] Hv' Eb Eb' Logic.I Logic.I) as [ <- _]; [now rewrite E2|]. subst b'.
    destruct (mget _ m) eqn:G; [intros [= <-]; eapply H5; eassumption|congruence].
Qed.

(** the state after a step that only touches the table of sorts *)
Definition srt_step (x : pcfg) (g : pst) (s s' : cs) : Prop :=
  sl s' = sl s /\ exists m, sp s' = set_srt m (sp s) /\ (srt_base g (p_srt (sp s)) -> srt_base g m).
Lemma set_srt_id p : set_srt (p_srt p) p = p. Proof. now destruct p. Qed.
Lemma srt_step_refl x g s : srt_step x g s s.
Proof. split; [reflexivity|]. exists (p_srt (sp s)). rewrite set_srt_id. auto. Qed.
Lemma srt_step_ok x g d c D s s' : srt_step x g s s' -> base x g d c D (sp s) ->
  base x g d c D (sp s') /\ keeps (sp s) (sp s').
Proof.
  intros (_ & m & -> & H) B. split; [|apply keeps_set].
  apply base_set; [exact B|]. apply H. eapply base_srt; eassumption.
Qed.

(** bit-vector constants *)
Lemma pConstBv_ok x g v w s b : 0 <= w -> srt_base g (p_srt (sp s)) ->
  BVModel.natToBv_str (c_dbg (x_c x)) v w = Ok b ->
  exists s', pConstBv x v w s = Ok (T NT_CONST (bvS w) b [], s') /\ srt_step x g s s'.
Proof.
  intros Hw HS Hb. unfold pConstBv, cached. destruct (mget _ _) eqn:E; cbn [bind fst snd]; rewrite Hb; cbn [bind].
  - destruct HS as (_ & H2 & _). apply H2 in E; [|assumption]. subst s0. eexists. split; [reflexivity|apply srt_step_refl].
  - eexists. split; [reflexivity|]. split; [reflexivity|]. eexists. split; [reflexivity|]. now apply srt_bv.
Qed.
Lemma isBV_len v : isBV v = true -> 2 <= zlen v.
Proof. unfold isBV, zlen. destruct v as [|a [|b v]]; cbn [length]; intros H; try discriminate; lia. Qed.
Lemma pconst_ok x g v t s : srt_base g (p_srt (sp s)) -> lit_of x v t ->
  exists s', pconst x v s = Some (Ok (t, s')) /\ srt_step x g s s'.
Proof.
  intros HS (s0 & H). revert H. unfold pconst. cbn zeta.
  assert (R : forall t', Some (Ok (t', CS pst0 (Lx [] SM_SYMBOL))) = Some (Ok (t, s0)) ->
            exists s', Some (Ok (t', s)) = Some (Ok (t, s')) /\ srt_step x g s s').
  { intros t' [= -> _]. eexists. split; [reflexivity|apply srt_step_refl]. }
  repeat (match goal with |- (if ?b then _ else _) = _ -> _ => destruct b eqn:? end; [apply R|]).
  destruct (isInt v).
  { destruct (Integer_of_str v); cbn [bind]; intros H; try discriminate. now apply R. }
  destruct (isReal v).
  { destruct (pConstReal x v); cbn [bind]; intros H; try discriminate. now apply R. }
  destruct (isScientificNotation v).
  { destruct (pConstReal x _); cbn [bind]; intros H; try discriminate. now apply R. }
  destruct (isBV v) eqn:EB.
  { apply isBV_len in EB. cbn zeta.
    match goal with |- context [bind ?w _] => set (W := w) end.
    destruct W as [w| | | | |] eqn:EW; cbn [bind]; intros H; try discriminate.
    assert (0 <= w).
    { subst W. revert EW. repeat match goal with |- (if ?b then _ else _) = _ -> _ => destruct b end;
        try (intros [= <-]; lia).
      destruct (Integer_of_str _); cbn [bind]; intros E; try discriminate. injection E as <-. unfold zlen. lia. }
    unfold pConstBv, cached in H. cbn [p_srt pst0 mget sp bind fst snd] in H.
    destruct (BVModel.natToBv_str (c_dbg (x_c x)) v w) as [b0| | | | |] eqn:Eb; cbn [bind] in H; try discriminate.
    injection H as <- _. destruct (pConstBv_ok x g v w s b0) as (s' & E & Hs'); auto.
    exists s'. now rewrite E. }
  destruct (isFP v); [discriminate|].
  destruct (isString v).
  { destruct (mkConstStr v); cbn [bind]; intros H; try discriminate. now apply R. }
  repeat (match goal with |- (if ?b then _ else _) = _ -> _ => destruct b eqn:? end; [apply R|]).
  discriminate.
Qed.

(** ** names *)
Lemma lookup_eq x p v : lookup x p v =
  orelse (if Nat.ltb 0 (p_ld p) then letget x p v else None)
  (orelse (mget v (p_fun p)) (orelse (mget v (p_fv p))
  (orelse (if Nat.ltb 0 (p_qd p) then mget v (p_quant p) else None)
  (orelse (mget v (p_var p)) (orelse (if barred v then mget (unbar v) (p_var p) else None)
            (if isNumber v then None else mget (bar :: v ++ [bar]) (p_var p))))))).
Proof.
  unfold lookup, letget. cbn zeta. destruct (x_keep x), (Nat.ltb 0 (p_ld p)); cbn [orelse];
  repeat match goal with |- context [match ?m with Some _ => _ | None => _ end] => destruct m; cbn [orelse]; try reflexivity end.
Qed.
Lemma lookup_bound x g (d : bool) c r D p v t : base x g d c D p -> bnd x g d r D p ->
  assoc v r = Some t -> lookup x p v = Some t.
Proof.
  intros B N H. rewrite lookup_eq. rewrite (b_d _ _ _ _ _ _ B).
  destruct (n_bound _ _ _ _ _ _ N v t H) as [_ [[-> E]|(E1 & E2 & E3 & E4)]].
  - now rewrite E.
  - assert ((if d then letget x p v else None) = None) as ->.
    { destruct d; [|reflexivity]. destruct (letget x p v) eqn:E; [|reflexivity].
      exfalso. apply (E3 eq_refl). eapply (b_let _ _ _ _ _ _ B); eauto. }
    unfold is_fun in E4. rewrite (b_fun _ _ _ _ _ _ B), (b_fv _ _ _ _ _ _ B).
    destruct (mget v (p_fun g)), (mget v (p_fv g)); try discriminate. cbn [orelse].
    assert (Nat.ltb 0 (p_qd p) = true) as -> by now apply Nat.ltb_lt. now rewrite E1.
Qed.
Lemma lookup_free x g (d : bool) c r D p v : base x g d c D p -> bnd x g d r D p ->
  assoc v r = None -> (d = true -> ~ In v D) -> lookup x p v = declared g v.
Proof.
  intros B N H HD. rewrite lookup_eq. rewrite (b_d _ _ _ _ _ _ B).
  assert ((if d then letget x p v else None) = None) as ->.
  { destruct d; [|reflexivity]. destruct (letget x p v) eqn:E; [|reflexivity].
    exfalso. apply (HD eq_refl). eapply (b_let _ _ _ _ _ _ B); eauto. }
  rewrite (n_free _ _ _ _ _ _ N v H), (b_fun _ _ _ _ _ _ B), (b_fv _ _ _ _ _ _ B), (b_var _ _ _ _ _ _ B).
  unfold declared. cbn [orelse]. now destruct (Nat.ltb 0 (p_qd p)).
Qed.
Lemma unb_name v : unboundable v = false -> seqs v "true" = false /\ seqs v "false" = false.
Proof. unfold unboundable. intros H. now apply orb_false_iff in H. Qed.
Lemma seqs_no v s : v <> L s -> seqs v s = false.
Proof. intros H. apply seq_neq. exact H. Qed.
Definition atomD x g r (v : str) (t : term) : Prop :=
  (v = L "true" /\ t = TRUE) \/ (v = L "false" /\ t = FALSE) \/ assoc v r = Some t \/
  (v <> L "true" /\ v <> L "false" /\ assoc v r = None /\
   (declared g v = Some t \/ declared g v = None /\ lit_of x v t)).
Lemma pname_ok x g (d : bool) c r D s v t : base x g d c D (sp s) -> bnd x g d r D (sp s) ->
  (d && mem v D && negb (mem v (map fst r)) = false) -> atomD x g r v t ->
  exists s', pname x v s = Ok (t, s') /\ srt_step x g s s'.
Proof.
  intros B N HS HA. unfold pname.
  destruct HA as [[-> ->]|[[-> ->]|[H|(H1 & H2 & H3 & H4)]]].
  - eexists. split; [reflexivity|apply srt_step_refl].
  - eexists. split; [reflexivity|apply srt_step_refl].
  - destruct (unb_name v (proj1 (n_bound _ _ _ _ _ _ N v t H))) as [-> ->].
    rewrite (b_aph _ _ _ _ _ _ B), (lookup_bound x g d c r D (sp s) v t B N H).
    eexists. split; [reflexivity|apply srt_step_refl].
  - rewrite (seqs_no _ _ H1), (seqs_no _ _ H2), (b_aph _ _ _ _ _ _ B).
    rewrite (lookup_free x g d c r D (sp s) v B N H3).
    + destruct H4 as [-> |[-> H4]].
      * eexists. split; [reflexivity|apply srt_step_refl].
      * destruct (pconst_ok x g v t s) as (s' & E & Hs'); auto; [eapply base_srt; eassumption|].
        rewrite E. eauto.
    + intros -> HD. apply assoc_None in H3. apply mem_nIn in H3. apply mem_In in HD.
      rewrite HD, H3 in HS. discriminate.
Qed.

(** ** operators *)
Lemma fast_oper nm k : fast_kind nm = Some k -> getOperKind nm = k.
Proof.
  unfold fast_kind.
  repeat (match goal with |- context [seqs nm ?s] => destruct (seqs nm s) eqn:?E end;
    [apply seqs_spec in E; subst nm; intros [= <-]; reflexivity|clear E]).
  discriminate.
Qed.
Lemma fast_core nm : fast_kind nm = None <-> core_op nm = false.
Proof.
  unfold fast_kind, core_op. cbn [existsb].
  repeat (match goal with |- context [seqs nm ?s] => destruct (seqs nm s) end; cbn [orb];
    [split; intros; discriminate|]). split; reflexivity.
Qed.
Lemma apply_op_ok x p nm ts t : special nm = false -> core_op nm = true \/ mget nm (p_fun p) = None ->
  oper_kind x (getOperKind nm) [] ts = Ok t -> apply_op x p nm ts = Ok t.
Proof.
  intros HS HC H. unfold apply_op. destruct (fast_kind nm) as [k|] eqn:E.
  - rewrite (fast_oper nm k E) in H. destruct k; try exact H.
    cbn [oper_kind] in H. unfold mkIteV in *. destruct ts as [|a [|b [|e [|]]]]; try discriminate.
    unfold condAssert. cbn [length Nat.eqb]. destruct (c_dbg (x_c x)); exact H.
  - apply fast_core in E. destruct HC as [HC|HC]; [congruence|]. unfold parseOper. rewrite HC.
    assert (seqs nm "root-obj" = false) as ->; [|exact H].
    revert HS. unfold special. cbn [existsb]. rewrite !orb_false_iff. tauto.
Qed.
Lemma apply_fun_ok x p nm f ts : core_op nm = false -> mget nm (p_fun p) = Some f ->
  apply_op x p nm ts = x_apply x f ts.
Proof. intros HC H. unfold apply_op. apply fast_core in HC. rewrite HC. unfold parseOper. now rewrite H. Qed.

(** ** sorts *)
Fixpoint so_depth (t : so) : nat := match t with SoArr a b => S (Nat.max (so_depth a) (so_depth b)) | _ => O end.
Lemma so_depth_len t : (so_depth t <= length (render_so t))%nat.
Proof. induction t as [| | |a IHa b IHb]; cbn [so_depth render_so length]; try lia. rewrite !app_length. cbn [length]. lia. Qed.
Lemma so_ne t ks : ks <> [] -> render_so t ++ ks <> [].
Proof. destruct t; discriminate. Qed.
Lemma psort_ok x g (d : bool) c D : forall t s u ks fuel, (so_depth t <= fuel)%nat -> base x g d c D (sp s) -> dsort g t u ->
  at_toks (sl s) (render_so t ++ ks) -> ks <> [] ->
  exists s', psort (S fuel) x s = Ok (u, s') /\ at_toks (sl s') ks /\
             base x g d c D (sp s') /\ keeps (sp s) (sp s').
Proof.
  induction t as [k|n|e h|ta IHa tb IHb]; intros s u ks fuel Hfu B Hd Ha Hk; cbn [render_so app] in Ha.
  - assert (Ht : is_tok k) by now inversion Hd.
    cbn [psort]. destruct (atc_A s k ks Ha Ht) as [-> ->]. cbn [negb].
    destruct (sym_tok x s k ks Ha Ht) as (l & -> & Hl); auto. cbn [bind fst snd sp].
    inversion Hd as [k' u' _ H1|k' u' _ H1 H2| | |]; subst; rewrite H1.
    + eexists. split; [reflexivity|]. split; [exact Hl|]. split; [exact B|apply keeps_refl].
    + rewrite (b_srt _ _ _ _ _ _ B _ _ H2).
      eexists. split; [reflexivity|]. split; [exact Hl|]. split; [exact B|apply keeps_refl].
  - cbn [psort]. destruct (atc_L s _ Ha) as [E1 ->]. rewrite E1. cbn [negb].
    destruct (lpar_tok s _ Ha) as (l & -> & Hl). cbn [bind].
    destruct (sym_tok x (CS (sp s) l) _ _ Hl (word_tok "_")) as (l1 & -> & Hl1); [discriminate|]. cbn [bind fst snd sp].
    rewrite raw_word.
    destruct (sym_tok x (CS (sp s) l1) _ _ Hl1 (word_tok _)) as (l2 & E2 & Hl2); [discriminate|].
    change (seqs (L "_") "Array") with false. change (seqs (L "_") "_") with true.
    change (seqs (L "_") "Datatype" || seqs (L "_") "Set" || seqs (L "_") "Relation" || seqs (L "_") "Bag"
                       || seqs (L "_") "Sequence" || seqs (L "_") "UF") with false.
    change (seqs (L "_") "RegEx") with false. cbn iota.
    rewrite E2. cbn [bind fst snd sp]. rewrite raw_word.
    change (seqs (L "BitVec") "BitVec") with true. cbn iota.
    destruct (sym_tok x (CS (sp s) l2) _ _ Hl2 (tword_tok _)) as (l3 & E3 & Hl3); [discriminate|].
    rewrite E3. cbn [bind fst snd sp raw].
    inversion Hd as [| |n' u' H1| |]; subst. unfold cached. cbn [sp].
    destruct (mget _ _) as [u'|] eqn:Em; cbn [bind fst snd].
    + apply (b_bv' _ _ _ _ _ _ B n u u' H1) in Em. subst u'.
      destruct (rpar_tok (CS (sp s) l3) _ Hl3) as (l4 & E4 & Hl4). rewrite E4. cbn [bind].
      eexists. split; [reflexivity|]. split; [exact Hl4|]. split; [exact B|apply keeps_refl].
    + rewrite H1. cbn [bind fst snd].
      destruct (rpar_tok (onp (fun p => set_srt (mins (L "BV_" ++ n) u (p_srt p)) p) (CS (sp s) l3)) _ Hl3) as (l4 & E4 & Hl4).
      rewrite E4. cbn [bind].
      eexists. split; [reflexivity|]. split; [exact Hl4|]. cbn [sp onp].
      split; [|apply keeps_set]. apply base_set; [exact B|]. apply srt_bv'; [exact H1|]. eapply base_srt; eassumption.
  - cbn [psort]. destruct (atc_L s _ Ha) as [E1 ->]. rewrite E1. cbn [negb].
    destruct (lpar_tok s _ Ha) as (l & -> & Hl). cbn [bind].
    destruct (sym_tok x (CS (sp s) l) _ _ Hl (word_tok "_")) as (l1 & -> & Hl1); [discriminate|]. cbn [bind fst snd sp].
    rewrite raw_word.
    destruct (sym_tok x (CS (sp s) l1) _ _ Hl1 (word_tok _)) as (l2 & E2 & Hl2); [discriminate|].
    change (seqs (L "_") "Array") with false. change (seqs (L "_") "_") with true.
    change (seqs (L "_") "Datatype" || seqs (L "_") "Set" || seqs (L "_") "Relation" || seqs (L "_") "Bag"
                       || seqs (L "_") "Sequence" || seqs (L "_") "UF") with false.
    change (seqs (L "_") "RegEx") with false. cbn iota.
    rewrite E2. cbn [bind fst snd sp]. rewrite raw_word.
    change (seqs (L "FloatingPoint") "BitVec") with false.
    change (seqs (L "FloatingPoint") "FloatingPoint") with true. cbn iota.
    destruct (sym_tok x (CS (sp s) l2) _ _ Hl2 (tword_tok _)) as (l3 & E3 & Hl3); [discriminate|].
    rewrite E3. cbn [bind fst snd sp raw].
    destruct (sym_tok x (CS (sp s) l3) _ _ Hl3 (tword_tok _)) as (l4 & E4 & Hl4); [discriminate|].
    rewrite E4. cbn [bind fst snd sp raw].
    inversion Hd as [| | |e' h' u' H0 H1|]; subst. unfold cached. cbn [sp].
    destruct (mget _ _) as [u'|] eqn:Em; cbn [bind fst snd].
    + apply (b_fp _ _ _ _ _ _ B e h u u' H0 H1) in Em. subst u'.
      destruct (rpar_tok (CS (sp s) l4) _ Hl4) as (l5 & E5 & Hl5). rewrite E5. cbn [bind].
      eexists. split; [reflexivity|]. split; [exact Hl5|]. split; [exact B|apply keeps_refl].
    + rewrite H1. cbn [bind fst snd].
      destruct (rpar_tok (onp (fun p => set_srt (mins (L "FP_" ++ e ++ L "_" ++ h) u (p_srt p)) p) (CS (sp s) l4)) _ Hl4) as (l5 & E5 & Hl5).
      rewrite E5. cbn [bind].
      eexists. split; [reflexivity|]. split; [exact Hl5|]. cbn [sp onp].
      split; [|apply keeps_set]. apply base_set; [exact B|]. apply srt_fp; auto. eapply base_srt; eassumption.
  - inversion Hd as [| | | |a' b' u1 v1 Da Db Ku Kv]; subst. destruct fuel as [|fuel]; [cbn [so_depth] in Hfu; lia|].
    cbn [so_depth] in Hfu. remember (S fuel) as fu eqn:Efu.
    cbn [psort]. destruct (atc_L s _ Ha) as [E1 ->]. rewrite E1. cbn [negb].
    destruct (lpar_tok s _ Ha) as (l & -> & Hl). cbn [bind].
    rewrite <- !app_assoc in Hl.
    destruct (sym_tok x (CS (sp s) l) _ _ Hl (word_tok "Array")) as (l1 & -> & Hl1).
    { intros _. apply so_ne, so_ne. discriminate. }
    cbn [bind fst snd sp]. rewrite raw_word. change (seqs (L "Array") "Array") with true. cbn iota. subst fu.
    destruct (IHa (CS (sp s) l1) u1 _ fuel ltac:(lia) B Da Hl1) as (s2 & -> & Ha2 & B2 & K2). { apply so_ne. discriminate. }
    cbn [bind fst snd].
    destruct (IHb s2 v1 _ fuel ltac:(lia) B2 Db Ha2) as (s3 & -> & Ha3 & B3 & K3). { discriminate. }
    cbn [bind fst snd]. cbn [sp] in K2. pose proof (keeps_trans _ _ _ K2 K3) as K.
    destruct (key_str u1 Ku) as (na & Ena). destruct (key_str v1 Kv) as (nb & Enb). rewrite Ena, Enb. cbn [bind].
    unfold cached. destruct (mget _ _) as [u'|] eqn:Em; cbn [bind fst snd].
    + apply (b_arr _ _ _ _ _ _ B3 u1 v1 na nb u' Ku Kv Ena Enb) in Em. subst u'.
      destruct (rpar_tok s3 _ Ha3) as (l4 & E4 & Hl4). rewrite E4. cbn [bind].
      eexists. split; [reflexivity|]. split; [exact Hl4|]. split; [exact B3|exact K].
    + destruct (rpar_tok (onp (fun p => set_srt (mins (L "ARRAY_" ++ na ++ L "_" ++ nb) (arrayS u1 v1) (p_srt p)) p) s3) _ Ha3) as (l4 & E4 & Hl4).
      rewrite E4. cbn [bind].
      eexists. split; [reflexivity|]. split; [exact Hl4|]. cbn [sp onp].
      split; [|eapply keeps_trans; [exact K|apply keeps_set]]. apply base_set; [exact B3|]. apply srt_arr; auto. eapply base_srt; eassumption.
Qed.
