(** Proofs for ErrSpec.v. *)
From Verif Require Import Base BVProofs2 LexSpec LexProofs KindModel SortModel TermModel UtilModel SimpModel OpModel LexModel
  ParseModel ParseSpec ParseProofs ParseProofs2 ParseTerm ParseLits ParseMore CtorModel CtorSpec CtorProofs3 ApplyModel CommandModel CommandSpec CommandProofs CommandProofs2 CommandTerm CommandMore ErrSpec.
Open Scope Z_scope.

(** ** names that are no literals *)
Lemma pre_no v w : ~ In v (map L predefined) -> In w predefined -> seqs v w = false.
Proof.
  intros H Hw. unfold seqs. destruct (seq_str v (L w)) eqn:E; [|reflexivity]. apply seq_str_spec in E. subst v. exfalso. apply H. now apply in_map.
Qed.
Definition lf (v : str) : bool := letter (hd nul v).
Lemma letter_cases c : letter c = true -> is_sign c = false /\ isdigit c = false /\ aeq c "."%char = false /\ aeq c "#"%char = false /\ aeq c "("%char = false /\ aeq c """"%char = false.
Proof. destruct c as [[] [] [] [] [] [] [] []]; vm_compute; intuition discriminate. Qed.
Lemma letter_none x v s : lf v = true -> ~ In v (map L predefined) -> pconst x v s = None.
Proof.
  intros H N. unfold pconst. cbn zeta.
  repeat match goal with |- context [seqs v ?w] => first [rewrite (pre_no v w N) by (cbn; tauto) | rewrite (not_word lf v w H) by reflexivity] end. cbn [orb].
  destruct v as [|c v]; [discriminate H|]. destruct (letter_cases c H) as (A1 & A2 & A3 & A4 & A5 & A6).
  assert (R : forall w, isReal (c :: w) = false). { intros w. unfold isReal. rewrite A1. cbn [real_loop]. rewrite A3, A2. reflexivity. }
  assert (isInt (c :: v) = false) as -> by (cbn [isInt]; now rewrite A1, A2). rewrite R.
  assert (isScientificNotation (c :: v) = false) as ->.
  { unfold isScientificNotation. destruct (find_e (c :: v) 0) as [[|e]|]; try reflexivity. cbn [firstn]. now rewrite R. }
  assert (isBV (c :: v) = false) as ->. { destruct v as [|k [|]]; try reflexivity. cbn [isBV]. now rewrite A4. }
  assert (isFP (c :: v) = false) as ->. { unfold isFP. change (is_prefix (L "(fp") (c :: v)) with (aeq "("%char c && is_prefix (L "fp") v). assert (aeq "("%char c = false) as -> by (apply aeq_false; intros <-; discriminate A5). now rewrite andb_false_r. }
  assert (isString (c :: v) = false) as ->. { cbn [isString]. now rewrite A6. }
  reflexivity.
Qed.

(** ** expressions *)
Section Exprs.
Context (x : pcfg) (p : pst).
Lemma wrong_first c e : wrong x p c e -> exists k r, render e = k :: r /\ k <> TR.
Proof. intros H. destruct H as [c k Hk| | |]; cbn [render]; [exists k, []; split; [reflexivity|apply Hk]| | |]; eexists _, _; (split; [reflexivity|discriminate]). Qed.
Lemma scoped_s l : scoped_all p l -> s_all p false [] [] l = Some [].
Proof. induction l as [|e l IH]; [reflexivity|]. intros [H1 H2]. cbn [s_all]. rewrite H1. now apply IH. Qed.
Lemma dens_Pl d c r l us c' : dens x p d c r l us c' -> Pl x p d c r l us c'.
Proof. induction 1 as [|d c r e l t ts c1 c2 He Hl IH]; [constructor|]. econstructor; [apply (proj1 (den_P x p)); eassumption|exact IH]. Qed.
Definition stops (c : Z) (e : sx) : Prop := forall s ks fuel, base x p false c [] (sp s) -> bnd x p false [] [] (sp s) -> at_toks (sl s) (render e ++ ks) -> (x_file x = true -> ks <> []) ->
  (2 * length (render e) <= fuel)%nat -> pexpr fuel x s = Exit.
Lemma pargs_exit l us c c' e l' : Pl x p false c [] l us c' -> scoped_all p l -> (exists k r, render e = k :: r /\ k <> TR) -> stops c' e ->
  forall s ks fuel, base x p false c [] (sp s) -> bnd x p false [] [] (sp s) -> at_toks (sl s) (flat_map render (l ++ e :: l') ++ TR :: ks) ->
  (2 * length (flat_map render (l ++ e :: l')) + 1 <= fuel)%nat -> pargs fuel x s = Exit.
Proof.
  intros HP. remember false as d eqn:Ed. remember [] as r eqn:Er. induction HP as [d c r|d c r e1 l t ts c1 c2 (Hc & Hf & He) HP IH]; subst d r; intros HS HF HE s ks fuel B N Ha Hu.
  - cbn [app flat_map] in *. rewrite <- app_assoc in Ha. rewrite app_length in Hu. destruct fuel as [|f]; [lia|]. cbn [pargs]. apply at_scanc in Ha.
    destruct HF as (k & r & Ek & Nk). assert (atc rpar (scanc s) = false) as ->.
    { rewrite Ek in Ha. cbn [app] in Ha. now apply (not_rpar _ _ _ Ha). }
    rewrite (HE (scanc s) (flat_map render l' ++ TR :: ks) f); [reflexivity|exact B|exact N|exact Ha|intros _ E; now destruct (flat_map render l')|lia].
  - destruct HS as [HS1 HS2]. cbn [app flat_map] in *. rewrite <- app_assoc in Ha. rewrite app_length in Hu. destruct fuel as [|f]; [lia|]. cbn [pargs]. apply at_scanc in Ha.
    destruct Hf as (k & r & Ek & Nk & _). assert (1 <= length (render e1))%nat by (rewrite Ek; cbn; lia).
    assert (atc rpar (scanc s) = false) as ->. { rewrite Ek in Ha. cbn [app] in Ha. now apply (not_rpar _ _ _ Ha). }
    destruct (He (scanc s) (flat_map render (l ++ e :: l') ++ TR :: ks) f [] []) as (s1 & -> & Ha1 & B1 & K1); auto.
    { intros E. now destruct (flat_map render (l ++ e :: l')). }
    { lia. }
    cbn [bind fst snd]. rewrite (IH eq_refl eq_refl HS2 HF HE s1 ks f); [reflexivity|exact B1| |exact Ha1|lia].
    eapply bnd_keep; eauto.
Qed.
Lemma app_exit c h args : is_tok h -> special (raw h) = false ->
  (forall s ks fuel, base x p false c [] (sp s) -> bnd x p false [] [] (sp s) -> at_toks (sl s) (flat_map render args ++ TR :: ks) ->
     (2 * length (flat_map render args) + 1 <= fuel)%nat ->
     pargs fuel x s = Exit \/ exists us s', pargs fuel x s = Ok (us, s') /\ apply_op x (sp s') (raw h) us = Exit) ->
  stops c (SApp h args).
Proof.
  intros Hh Hs HA s ks fuel B N Ha Hf Hu. cbn [render app length] in *. rewrite app_length in Hu. cbn [length] in Hu. rewrite <- app_assoc in Ha. cbn [app] in Ha.
  destruct fuel as [|f]; [lia|]. cbn [pexpr]. destruct (atc_L _ _ Ha) as [-> _]. cbn [negb].
  destruct (lpar_tok _ _ Ha) as (l & -> & Hl). cbn [bind].
  destruct (atc_A (CS (sp s) l) _ _ Hl Hh) as [-> _].
  destruct (sym_tok x (CS (sp s) l) h _ Hl Hh) as (l1 & -> & Hl1).
  { intros _ E. now destruct (flat_map render args). }
  cbn [bind fst snd sp]. rewrite !(sp_word _ _ Hs) by (cbn; tauto). cbn [orb].
  destruct f as [|f]; [lia|]. cbn [papp].
  assert (ph_name (raw h) = false) as ->. { unfold ph_name. now rewrite !(sp_word _ _ Hs) by (cbn; tauto). }
  destruct (HA (CS (sp s) l1) ks f B N Hl1 ltac:(lia)) as [->|(us & s' & -> & E)]; [reflexivity|]. cbn [bind fst snd]. now rewrite E.
Qed.
Lemma assoc_str_L h : ~ In h (map (fun q => L (fst q)) oper_key_map) -> getOperKind h = NT_UNKNOWN.
Proof.
  intros H. unfold getOperKind. assert (E : assoc_str h oper_key_map = None); [|now rewrite E]. clear -H. induction oper_key_map as [|[w k] l IH]; [reflexivity|].
  cbn [map In fst] in H. cbn [assoc_str]. destruct (seq_str (L w) h) eqn:S; [apply seq_str_spec in S; exfalso; apply H; now left|]. apply IH. tauto.
Qed.
Lemma no_op_exit q h us : no_operator p h -> p_fun q = p_fun p -> apply_op x q (raw h) us = Exit.
Proof.
  intros (Hh & Sp & Hf & Ho) E. unfold apply_op.
  assert (F : fast_kind (raw h) = None).
  { assert (W : forall w, In (L w) (map (fun q => L (fst q)) oper_key_map) -> seqs (raw h) w = false).
    { intros w Hw. unfold seqs. destruct (seq_str (raw h) (L w)) eqn:Q; [|reflexivity]. apply seq_str_spec in Q. rewrite Q in Ho. contradiction. }
    unfold fast_kind. rewrite !W by (vm_compute; tauto). reflexivity. }
  rewrite F. unfold parseOper. rewrite E, Hf. assert (seqs (raw h) "root-obj" = false) as -> by (apply (sp_word _ _ Sp); cbn; tauto).
  rewrite (assoc_str_L _ Ho). reflexivity.
Qed.
Lemma fast_oper nm k : fast_kind nm = Some k -> getOperKind nm = k /\ seqs nm "root-obj" = false.
Proof.
  unfold fast_kind. intros H.
  repeat match type of H with (if seqs nm ?w then _ else _) = _ =>
    let E := fresh "E" in destruct (seqs nm w) eqn:E;
    [unfold seqs in E; apply seq_str_spec in E; subst nm; injection H as <-; split; vm_compute; reflexivity|] end.
  discriminate H.
Qed.
Lemma oper_ops y k ptr fa ps : (forall k fa ps, x_oper y k fa ps = theory_oper (x_c y) ptr k fa ps) -> oper_kind (with_ops y ptr) k fa ps = oper_kind y k fa ps.
Proof. intros H. destruct k; try reflexivity; cbn [oper_kind with_ops x_oper x_c]; symmetry; apply H. Qed.
Lemma sort_exit q op us : op <> "ite"%string -> library_ops x -> ill_sorted_args x p op us -> p_fun q = p_fun p -> special (L op) = false -> apply_op x q (L op) us = Exit.
Proof.
  intros Ni (ptr & HL) (tys & r & H1 & H2 & H3 & H4 & H5 & H6 & H7 & H8 & H9) E Sp.
  assert (R : seqs (L op) "root-obj" = false) by (apply (sp_word _ _ Sp); cbn; tauto).
  pose proof (ill_sorted x ptr p op [] us tys r H1 H2 H3 H4 H5 H6 H7 H8 H9) as X.
  unfold parseOper in X. rewrite H8, R in X. cbn [idx map] in X. rewrite (oper_ops x _ ptr _ _ HL) in X.
  unfold apply_op. destruct (fast_kind (L op)) as [k|] eqn:F; [|unfold parseOper; now rewrite E, H8, R].
  destruct (fast_oper _ _ F) as [K _]. rewrite K in X.
  assert (k <> NT_ITE).
  { intros ->. apply Ni. clear -F. unfold fast_kind in F.
    repeat match type of F with (if seqs ?nm ?w then _ else _) = _ =>
      let E := fresh "E" in destruct (seqs nm w) eqn:E; [try discriminate F|] end; [|discriminate F].
    unfold seqs in E4. apply seq_str_spec in E4. unfold L in E4. apply (f_equal string_of_list_ascii) in E4. now rewrite !string_of_list_ascii_of_string in E4. }
  destruct k; try exact X. congruence.
Qed.
Lemma wrong_stops c e : wrong x p c e -> stops c e.
Proof.
  induction 1 as [c k (Hk & HL & HN & HD)|c h args us c' HO HD HS|c h op args us c' Hh Ho Sp Ni HL HD HS HI|c h l us c' e l' Hh Sp HD HS HW IH].
  - intros s ks fuel B N Ha Hf Hu. cbn [render app length] in *. destruct fuel as [|f]; [lia|]. cbn [pexpr]. destruct (atc_A _ _ _ Ha Hk) as [-> _]. cbn [negb].
    destruct (sym_tok x s k ks Ha Hk Hf) as (l & -> & Hl). cbn [bind fst snd]. unfold pname.
    repeat match goal with |- context [seqs (raw k) ?w] => rewrite (pre_no (raw k) w HN) by (cbn; tauto) end. cbn [sp].
    rewrite (b_aph _ _ _ _ _ _ B), (lookup_free x p false c [] [] (sp s) (raw k) B N eq_refl) by discriminate.
    rewrite HD. rewrite letter_none by assumption. reflexivity.
  - apply app_exit; [apply HO|apply HO|]. intros s ks fuel B N Ha Hu. right.
    destruct (pargs_ok x p false c [] args us c' (dens_Pl _ _ _ _ _ _ HD) s ks fuel [] [] B N (scoped_s _ HS) Ha Hu) as (s' & E & _ & B' & _).
    exists us, s'. split; [exact E|]. apply no_op_exit; [exact HO|apply B'].
  - apply app_exit; [exact Hh|exact Sp|]. intros s ks fuel B N Ha Hu. right.
    destruct (pargs_ok x p false c [] args us c' (dens_Pl _ _ _ _ _ _ HD) s ks fuel [] [] B N (scoped_s _ HS) Ha Hu) as (s' & E & _ & B' & _).
    exists us, s'. split; [exact E|]. rewrite Ho in *. apply sort_exit; auto. apply B'.
  - apply app_exit; [exact Hh|exact Sp|]. intros s ks fuel B N Ha Hu. left.
    now apply (pargs_exit l us c c' e l' (dens_Pl _ _ _ _ _ _ HD) HS (wrong_first _ _ HW) IH s ks).
Qed.
End Exprs.
Lemma undeclared_same p q k : same_decls p q -> undeclared p k -> undeclared q k.
Proof. intros (A1 & A2 & A3 & _) (H1 & H2 & H3 & H4). split; [exact H1|]. split; [exact H2|]. split; [exact H3|]. now rewrite (declared_same p q). Qed.
Lemma scoped_all_same p q l : same_decls p q -> scoped_all p l -> scoped_all q l.
Proof. intros E. pose proof E as (A1 & A2 & _). induction l as [|e l IH]; [exact (fun H => H)|]. intros [H1 H2]. split; [rewrite <- H1; now apply scoped_same|now apply IH]. Qed.
Lemma wrong_same x p q c e : same_decls p q -> wrong x p c e -> wrong x q c e.
Proof.
  intros E. pose proof E as (A1 & A2 & A3 & A4 & A5 & A6).
  induction 1 as [c k Hk|c h args us c' (H1 & H2 & H3 & H4) HD HS|c h op args us c' Hh Ho Sp Ni HL HD HS HI|c h l us c' e l' Hh Sp HD HS HW IH].
  - apply wr_name. eapply undeclared_same; eassumption.
  - eapply wr_op; [|apply (den_mono x p q); eassumption|eapply scoped_all_same; eassumption]. repeat split; try apply H1; auto. now rewrite A1.
  - eapply wr_sort; eauto; [apply (den_mono x p q); eassumption|eapply scoped_all_same; eassumption|].
    destruct HI as (tys & r & H1 & H2 & H3 & H4 & H5 & H6 & H7 & H8 & H9). exists tys, r. rewrite A1. repeat split; auto.
  - eapply wr_arg; eauto; [apply (den_mono x p q); eassumption|eapply scoped_all_same; eassumption].
Qed.
Lemma wrong_at x p e s ks : hold p (sp s) -> wrong x p (p_ctr p) e -> at_toks (sl s) (render e ++ ks) -> (x_file x = true -> ks <> []) -> pexpr' x s = Exit.
Proof.
  intros (E & T & C) HW Ha Hf. destruct (top_base x (sp s) (T x)) as [B N]. apply (wrong_same x p (sp s)) in HW; [|exact E]. rewrite <- C in HW.
  unfold pexpr'. apply (wrong_stops x (sp s) _ _ HW s ks _ B N Ha Hf).
  destruct Ha as (tx & Hx & E'). apply lexes_scan, lexes_len in Hx. rewrite <- E' in Hx. rewrite app_length in Hx. unfold pexpr_fuel. lia.
Qed.

(** ** commands *)
Lemma wrong_nocol x p c e ks : no_colon e -> wrong x p c e -> nocol (render e ++ ks).
Proof.
  intros H HW. destruct (wrong_first _ _ _ _ HW) as (k & l & E & _). unfold no_colon in H. rewrite E in *.
  exists k, (l ++ ks). split; [reflexivity|exact H].
Qed.
Lemma no_sort_at x p k s ks : hold p (sp s) -> no_sort p k -> at_toks (sl s) (k :: ks) -> ks <> [] -> psort' x s = Exit.
Proof.
  intros ((_ & _ & _ & _ & _ & A6) & _) (Hk & Hb & Hn & Hc) Ha Hne. unfold psort'. rewrite Nat.add_comm. cbn [Nat.add psort].
  destruct (atc_A _ _ _ Ha Hk) as [-> ->]. cbn [negb]. destruct (sym_tok x s k ks Ha Hk ltac:(auto)) as (l & -> & Hl). cbn [bind fst snd sp].
  now rewrite Hb, A6, Hn.
Qed.
Lemma params_dup x : forall ps ss p s q u ks fuel, NoDup (names ps) ->
  Forall2 (fun (q : token * so) u => is_tok (fst q) /\ dsort p (snd q) u) ps ss -> hold p (sp s) ->
  (forall v, In v (names ps) -> mget v (p_fv p) = None) -> is_tok (fst q) -> dsort p (snd q) u ->
  In (raw (fst q)) (names ps) \/ mget (raw (fst q)) (p_fv p) <> None ->
  at_toks (sl s) (render_params (ps ++ [q]) ++ ks) -> (length ps < fuel)%nat -> many fuel (pparam x) s = Exit.
Proof.
  induction ps as [|[n t] ps IH]; intros ss p s q0 u0 ks fuel HN HF Hp Hv Hq Hs Hd Ha Hl; (destruct fuel as [|fuel]; [cbn [length] in Hl; lia|]).
  - destruct Hd as [[]|Hd]. destruct q0 as [n t]. cbn [many render_params flat_map app fst snd] in *.
    repeat (rewrite <- app_assoc in Ha; cbn [app fst snd] in Ha).
    destruct (atc_L _ _ Ha) as [_ ->]. unfold pparam at 1.
    destruct (lpar_tok _ _ Ha) as (l & -> & Hl0). cbn [bind].
    destruct (sym_tok x (CS (sp s) l) n _ Hl0 Hq) as (l1 & -> & Hl1). { intros _ F. now destruct (render_so t). }
    cbn [bind fst snd sp].
    destruct (sort_at x p t u0 (CS (sp s) l1) _ Hp Hs Hl1) as (s2 & -> & Ha2 & Hp2); [discriminate|]. cbn [bind fst snd].
    assert (Ef : p_fv (sp s2) = p_fv p) by apply Hp2. rewrite Ef. now destruct (mget (raw n) (p_fv p)).
  - inversion HF as [|q u qs us [Hn Ht] HF']; subst. cbn [fst snd] in *.
    cbn [many render_params flat_map app length] in *. fold (render_params (ps ++ [q0])) in Ha.
    repeat (rewrite <- app_assoc in Ha; cbn [app fst snd] in Ha).
    destruct (atc_L _ _ Ha) as [_ ->]. unfold pparam at 1.
    destruct (lpar_tok _ _ Ha) as (l & -> & Hl0). cbn [bind].
    destruct (sym_tok x (CS (sp s) l) n _ Hl0 Hn) as (l1 & -> & Hl1). { intros _ F. now destruct (render_so t). }
    cbn [bind fst snd sp].
    destruct (sort_at x p t u (CS (sp s) l1) _ Hp Ht Hl1) as (s2 & -> & Ha2 & Hp2); [discriminate|]. cbn [bind fst snd].
    assert (Ef : p_fv (sp s2) = p_fv p) by apply Hp2.
    inversion HN as [|v vs Hnin HN']; subst.
    assert (Em : mget (raw n) (p_fv p) = None) by (apply Hv; now left).
    rewrite Ef, Em.
    set (s3 := onp _ s2).
    destruct (rpar_tok s3 _ Ha2) as (l4 & -> & Hl4). cbn [bind fst snd].
    set (p1 := set_fv ((raw n, param (raw n, u)) :: p_fv p) p).
    assert (Hp3 : hold p1 (sp s3)).
    { subst s3 p1. rewrite onp_sp, Ef, mins_new by exact Em. apply hold_fv, Hp2. }
    rewrite (IH us p1 (CS (sp s3) l4) q0 u0 ks fuel HN'); [reflexivity| |exact Hp3| |exact Hq|revert Hs; apply dsort_mono; auto| |exact Hl4|].
    { clear - HF'. induction HF' as [|q1 u1 ps0 us0 [H1 H2] H3 IH0]; constructor; auto. split; [exact H1|].
      revert H2. apply dsort_mono. auto. }
    { intros v Hin. subst p1. cbn [p_fv set_fv]. rewrite mget_cons.
      assert (seq_str (raw n) v = false) as -> by (apply seq_neq; intros <-; apply Hnin; exact Hin). apply Hv. now right. }
    { subst p1. cbn [p_fv set_fv]. destruct Hd as [[Hd|Hd]|Hd]; [right; rewrite mget_cons|now left|right; rewrite mget_cons].
      - cbn [fst] in Hd. rewrite Hd, seq_refl. discriminate.
      - now destruct (seq_str (raw n) (raw (fst q0))). }
    { lia. }
Qed.
Lemma known_at p n f s : hold p (sp s) -> mget n (p_fun p) = Some f -> known_fun n s = Some (if isk NT_FUNC_DEF f then Exit else Ok tt).
Proof. intros Hp Hf. unfold known_fun. assert (E : p_fun (sp s) = p_fun p) by apply Hp. now rewrite E, Hf. Qed.
Lemma not_rpar_exit s k ks : at_toks (sl s) (k :: ks) -> k <> TR -> rparc s = Exit.
Proof.
  intros Ha Hk. unfold rparc, parseRpar. pose proof (not_rpar _ _ _ Ha Hk) as E. unfold atc, cur in E.
  destruct (txt (sl s)) as [|c r]; [reflexivity|]. cbn [hd] in E. now rewrite E.
Qed.
Lemma no_seqs c w : ~ In (raw c) (map L commands) -> In w commands -> seqs (raw c) w = false.
Proof. intros H Hw. unfold seqs. destruct (seq_str (raw c) (L w)) eqn:E; [|reflexivity]. apply seq_str_spec in E. exfalso. apply H. rewrite E. now apply in_map. Qed.
(** the command ends the program, at the latest at its closing parenthesis *)
Definition fails (b : pcfg) (file : bool) (s : cs) (g : ctx) : Prop :=
  pcommand b file s g = Exit \/ exists s1 g1, pcommand b file s g = Ok (false, s1, g1) /\ rparc s1 = Exit.
Lemma in_no c l : ~ In (raw c) (map L commands) -> (forall w, In w l -> In w commands) -> in_names (raw c) l = false.
Proof.
  intros H Hl. unfold in_names. destruct (existsb _ l) eqn:E; [|reflexivity]. apply existsb_exists in E. destruct E as (w & Hw & E).
  apply seq_str_spec in E. exfalso. apply H. rewrite E. apply in_map, Hl, Hw.
Qed.
Lemma at_end l : at_toks l [] -> txt l = [].
Proof.
  intros (t & H & ->). now rewrite (lexes_end _ _ _ H eq_refl).
Qed.
Lemma kw_end x s : txt (sl s) = [] -> tryKeyword x s = Ok (KW_NULL, s).
Proof. intros H. unfold tryKeyword, atc, cur. now rewrite H. Qed.
Lemma expr_end x p e t c s : x_file x = false -> hold p (sp s) -> means x p e t c -> at_toks (sl s) (render e) -> exists s', pexpr' x s = Ok (t, s') /\ txt (sl s') = [].
Proof.
  intros Hx ((A1 & A2 & A3 & A4 & A5 & A6) & T & C) [HD HS] Ha.
  destruct (parse_expr_ok x (sp s) e t c s [] (pexpr_fuel s) eq_refl (T x)) as (s' & E & Ha' & _); auto.
  - rewrite C. apply (den_mono x p (sp s)); assumption.
  - rewrite <- HS. now apply scoped_same.
  - now rewrite app_nil_r.
  - congruence.
  - exists s'. split; [exact E|]. now apply at_end.
Qed.
Lemma bad_fails b file p g s ks : p_fv p = [] -> hold p (sp s) -> bad (xo b file (g_opt g)) p ks -> at_toks (sl s) ks -> fails b file s g.
Proof.
  intros Hv Hp HB. set (x := xo b file (g_opt g)) in *.
  destruct HB as [c ks Hc Hn Hk|v ks Hc Hn Hk|w n f ks Hw Hn Hf Hd Hk|w n f k ks Hw Hn Hf Hk|n f ps ss t u ks Hn Hf Hne HF Ht Hk|w n ps ss q u ks Hw Hn Hf HP Hq Hs Hd
    |n k ks Hn Hso Hk|n k ks Hn Hso Hk|e ks Hc HW Hk|w e ks Hw Hc HW Hk|n ps ss t u e ks Hn HP Ht Hf HW Hk|n t u e ks Hn Ht Hf HW Hk|e t c Hx Hc Hm|w Hx Hw]; intros Ha; unfold fails.
  - left. unfold pcommand. cbv zeta. destruct (sym_tok (xo b file (g_opt g)) s c ks Ha Hc ltac:(auto)) as (l & -> & Hl). cbn [bind fst snd].
    rewrite (in_no c ignored Hn) by (intros w; cbn; tauto).
    repeat match goal with |- context [seqs (raw c) ?w] => rewrite (no_seqs c w Hn) by (cbn; tauto) end. reflexivity.
  - left. dispatch Ha. fold x. destruct (sym_tok x (CS (sp s) l) v _ Hl Hc ltac:(auto)) as (l1 & -> & Hl1). cbn [bind fst snd].
    unfold setLogic. assert (in_names (raw v) logics = false) as ->; [|reflexivity].
    unfold in_names. destruct (existsb _ logics) eqn:E; [|reflexivity]. apply existsb_exists in E. destruct E as (w & Hw & E).
    apply seq_str_spec in E. exfalso. apply Hn. rewrite E. now apply in_map.
  - left. destruct Hw as [ <- |[ <- |[ <- |[]]]]; dispatch Ha; fold x; (destruct (sym_tok x (CS (sp s) l) n _ Hl Hn ltac:(auto)) as (l1 & -> & Hl1)); cbn [bind fst snd sp];
      rewrite (known_at p (raw n) f (CS (sp s) l1) Hp Hf); unfold isk; rewrite Hd; reflexivity.
  - destruct Hw as [ <- |[ <- |[ <- |[]]]]; dispatch Ha; fold x; (destruct (sym_tok x (CS (sp s) l) n _ Hl Hn) as (l1 & -> & Hl1); [discriminate|]); cbn [bind fst snd sp];
      rewrite (known_at p (raw n) f (CS (sp s) l1) Hp Hf); (destruct (isk NT_FUNC_DEF f); [now left|]); right; cbn [bind]; eexists; eexists; (split; [reflexivity|]);
      eapply not_rpar_exit; eauto.
  - left. dispatch Ha. fold x. destruct (sym_tok x (CS (sp s) l) n _ Hl Hn) as (l1 & -> & Hl1); [discriminate|].
    cbn [bind fst snd sp]. destruct (lpar_tok (CS (sp s) l1) _ Hl1) as (l2 & -> & Hl2). cbn [bind sp].
    assert (atc rpar (CS (sp s) l2) = false) as ->.
    { destruct ps as [|q ps]; [congruence|]. cbn [flat_map] in Hl2. destruct (so_first q) as (k & r & E & Hk0).
      rewrite E in Hl2. cbn [app] in Hl2. eapply not_rpar; [exact Hl2|]. inversion HF; subst. eauto. }
    destruct (sorts_at' x p ps ss (CS (sp s) l2) _ HF Hp Hl2) as (s1 & -> & Ha1 & Hp1). cbn [bind fst snd].
    destruct (rpar_tok s1 _ Ha1) as (l3 & -> & Hl3). cbn [bind].
    destruct (sort_at x p t u (CS (sp s1) l3) _ Hp1 Ht Hl3) as (s2 & -> & Ha2 & Hp2); [exact Hk|]. cbn [bind fst snd].
    unfold mkFuncDec. assert (E : p_fun (sp s2) = p_fun p) by apply Hp2. now rewrite E, Hf.
  - left. destruct HP as [HN HF].
    assert (D : forall l2, at_toks l2 (render_params (ps ++ [q]) ++ ks) -> many' (pparam x) (CS (sp s) l2) = Exit).
    { intros l2 Hl2. apply (params_dup x ps ss p (CS (sp s) l2) q u ks (S (length (txt l2))) HN HF Hp); auto.
      - now rewrite Hv.
      - apply at_len in Hl2. rewrite app_length in Hl2. pose proof (params_len (ps ++ [q])). rewrite app_length in H. lia. }
    destruct Hw as [ <- |[ <- |[]]]; dispatch Ha; fold x; (destruct (sym_tok x (CS (sp s) l) n _ Hl Hn) as (l1 & -> & Hl1); [discriminate|]); cbn [bind fst snd sp];
      rewrite (unknown p (raw n) (CS (sp s) l1) Hp Hf); (destruct (lpar_tok (CS (sp s) l1) _ Hl1) as (l2 & -> & Hl2)); cbn [bind sp]; now rewrite (D l2 Hl2).
  - left. dispatch Ha. fold x. destruct (sym_tok x (CS (sp s) l) n _ Hl Hn) as (l1 & -> & Hl1); [discriminate|]. cbn [bind fst snd sp].
    now rewrite (no_sort_at x p k (CS (sp s) l1) ks Hp Hso Hl1 Hk).
  - left. dispatch Ha. fold x. destruct (sym_tok x (CS (sp s) l) n _ Hl Hn) as (l1 & -> & Hl1); [discriminate|]. cbn [bind fst snd sp].
    destruct (lpar_tok (CS (sp s) l1) _ Hl1) as (l2 & -> & Hl2). cbn [bind sp].
    destruct (atc_R (CS (sp s) l2) _ Hl2) as [-> _]. destruct (rpar_tok (CS (sp s) l2) _ Hl2) as (l3 & -> & Hl3). cbn [bind sp].
    now rewrite (no_sort_at x p k (CS (sp s) l3) ks Hp Hso Hl3 Hk).
  - left. dispatch Ha. fold x. unfold pAssert. rewrite (kw_none x (CS (sp s) l) _ Hl) by (eapply wrong_nocol; eassumption). cbn [bind fst snd].
    now rewrite (wrong_at x p e (CS (sp s) l) ks Hp HW Hl ltac:(auto)).
  - left. destruct Hw as [ <- |[ <- |[]]]; dispatch Ha; fold x; unfold pSingle; cbn [obj_kws]; rewrite (kw_none x (CS (sp s) l) _ Hl) by (eapply wrong_nocol; eassumption);
      cbn [bind fst snd]; now rewrite (wrong_at x p e (CS (sp s) l) ks Hp HW Hl ltac:(auto)).
  - left. dispatch Ha. fold x. destruct (sym_tok x (CS (sp s) l) n _ Hl Hn) as (l1 & -> & Hl1); [discriminate|].
    cbn [bind fst snd sp]. rewrite (unknown p (raw n) (CS (sp s) l1) Hp Hf).
    destruct (lpar_tok (CS (sp s) l1) _ Hl1) as (l2 & -> & Hl2). cbn [bind sp].
    destruct (params_at' x ps ss p (CS (sp s) l2) _ HP Hp Hv Hl2) as (s1 & -> & Ha1 & Hp1). cbn [bind fst snd].
    destruct (rpar_tok s1 _ Ha1) as (l3 & -> & Hl3). cbn [bind].
    set (pp := with_params _ p) in *.
    destruct (sort_at x pp t u (CS (sp s1) l3) (render e ++ ks) Hp1) as (s2 & -> & Ha2 & Hp2);
      [eapply dsort_same; [|exact Ht]; reflexivity|exact Hl3|now apply ren_ne|]. cbn [bind fst snd].
    now rewrite (wrong_at x pp e s2 ks Hp2 HW Ha2 ltac:(auto)).
  - left. dispatch Ha. fold x. destruct (sym_tok x (CS (sp s) l) n _ Hl Hn) as (l1 & -> & Hl1). { intros _. apply so_ne. }
    cbn [bind fst snd sp]. rewrite (unknown p (raw n) (CS (sp s) l1) Hp Hf).
    destruct (sort_at x p t u (CS (sp s) l1) _ Hp Ht Hl1) as (s2 & -> & Ha2 & Hp2); [now apply ren_ne|]. cbn [bind fst snd].
    now rewrite (wrong_at x p e s2 ks Hp2 HW Ha2 ltac:(auto)).
  - right. unfold pcommand. cbv zeta. fold x. destruct (sym_tok x s _ _ Ha (word_tok "assert") ltac:(congruence)) as (l & -> & Hl). cbn [bind fst snd sp]. rewrite raw_word. seqr.
    destruct (den_first _ _ _ _ _ _ _ _ (proj1 Hm)) as (k & r & E & _).
    unfold pAssert. rewrite (kw_none x (CS (sp s) l) _ Hl) by (unfold no_colon in Hc; rewrite E in *; now exists k, r). cbn [bind fst snd].
    destruct (expr_end x p e t c (CS (sp s) l) Hx Hp Hm Hl) as (s' & -> & Es). cbn [bind fst snd].
    unfold opt_id. rewrite !(kw_end x s' Es). cbn [bind fst snd]. rewrite !(kw_end x s' Es). cbn [bind fst snd]. eexists. eexists. split; [reflexivity|].
    unfold rparc, skipc, skipToRpar. cbn [sl]. now rewrite Es.
  - right. unfold pcommand. cbv zeta. fold x. destruct (sym_tok x s _ _ Ha (word_tok w) ltac:(congruence)) as (l & -> & Hl). cbn [bind fst snd sp]. apply at_end in Hl.
    assert (Z : rparc (skipc (CS (sp s) l)) = Exit) by (unfold rparc, skipc, skipToRpar; cbn [sl]; now rewrite Hl).
    repeat (destruct Hw as [ <- |Hw]; [rewrite raw_word; seqr; try change (in_names (L _) ignored) with true; cbn [bind]; eexists; eexists; (split; [reflexivity|exact Z])|]). destruct Hw.
Qed.

(** ** parser calls *)
Lemma script_bad b file l p g p' g' s ks fuel : steps b file p g l p' g' -> holds_decls p (sp s) -> bad (xo b file (g_opt g')) p' ks ->
  at_toks (sl s) (render_script l ++ TL :: ks) -> (length l < fuel)%nat -> pscript fuel b file s g = Exit.
Proof.
  intros Hs Hp HB Ha Hu. replace fuel with (length l + S (fuel - length l - 1))%nat by lia.
  destruct (script_pre b file l _ _ _ _ _ _ (S (fuel - length l - 1)) Hs Hp Ha) as (s' & -> & Hp' & Ha').
  cbn [pscript]. rewrite (cur_tok _ _ _ Ha'). cbn [raw]. change (aeq "("%char nul) with false. cbn iota.
  destruct (lpar_tok _ _ Ha') as (l0 & -> & Hl0). cbn [bind].
  apply hold_decls in Hp'. destruct Hp' as [Hp' Hv'].
  destruct (bad_fails b file p' g' (CS (sp s') l0) ks Hv' Hp' HB Hl0) as [-> |(s1 & g1 & -> & E)]; [reflexivity|]. cbn [bind fst snd]. now rewrite E.
Qed.
Lemma parseStr_bad b l p g p' g' t q ks : t <> [] -> holds_decls p (q_p q) -> q_g q = g ->
  lexes plain_word t (render_script l ++ TL :: ks) -> steps b (q_file q) p g l p' g' -> bad (xo b (q_file q) (g_opt g')) p' ks -> parseStr b t q = Exit.
Proof.
  intros Hn Hp <- Hl Hs HB. unfold parseStr. destruct t as [|c t]; [congruence|].
  rewrite (script_bad b (q_file q) l _ _ _ _ (CS (q_p q) (scan (c :: t))) ks (S (length (c :: t))) Hs Hp HB); [reflexivity|now apply at_scan|].
  pose proof (script_toks l (TL :: ks)) as H. apply text_len in Hl. lia.
Qed.
Lemma parseFile_bad b l p g p' g' t q ks : holds_decls p (q_p q) -> q_g q = g ->
  lexes plain_word t (render_script l ++ TL :: ks) -> steps b true p g l p' g' -> bad (xo b true (g_opt g')) p' ks -> parseFile b t q = Exit.
Proof.
  intros Hp <- Hl Hs HB. unfold parseFile.
  rewrite (script_bad b true l _ _ _ _ (CS (q_p q) (scan t)) ks (S (length t)) Hs Hp HB); [reflexivity|now apply at_scan|].
  pose proof (script_toks l (TL :: ks)) as H. apply text_len in Hl. lia.
Qed.
Lemma mkExpr_wrong x p e tx : top_state x p -> wrong x p (p_ctr p) e -> lexes plain_word tx (render e) -> x_file x = false -> mkExpr x p tx = Exit.
Proof.
  intros T HW Hx Hf. unfold mkExpr. destruct tx as [|a tx].
  { exfalso. apply lexes_len in Hx. destruct (wrong_first _ _ _ _ HW) as (k & l & E & _). rewrite E in Hx. cbn in Hx. lia. }
  destruct (top_base x p T) as [B N].
  rewrite (wrong_stops x p _ _ HW (CS p (scan (a :: tx))) [] _ B N); [reflexivity|rewrite app_nil_r; now apply at_scan|congruence|].
  unfold pexpr_fuel. cbn [sl]. apply lexes_scan, lexes_len in Hx. lia.
Qed.
