(** Proofs for MeanSpec.v: let and the expansion of defined functions keep terms well-formed. *)
From Coq Require Import QArith Qcanon Permutation.
From Verif Require Import Base LexSpec KindModel SortModel TermModel BVModel BVSpec UtilModel UtilSpec Sem SemProofs DagProofs SortProofs
  SimpModel OpModel OpSpec OpProofs OpProofs2 OpProofs3 OpProofs4 OpProofs5 OpProofs6 OpProofs7 ShapeProofs TypedSpec TypedProofs
  PostModel PostProofs ApplyModel ApplySpec ApplyProofs MeanProofs MeanProofs2 MeanBv.
Open Scope Z_scope.
Section F.
Context {fl : Flag}.

(** ** let *)
Definition nolet : Prop := l_clausal fl = false.
Lemma newk_let k : nolet -> In k [NT_LET_BIND_VAR; NT_LET_CHAIN] -> newk k = true.
Proof. intros Hf Hk. unfold newk, nolet in *. rewrite Hf. repeat (destruct Hk as [ <- | Hk ]; [reflexivity|]). contradiction. Qed.
Lemma gd_bind_s c r n s t : nolet -> rsort r s -> gd c r t -> gd c r (T NT_LET_BIND_VAR s n [t]).
Proof.
  intros Hf Hs (N & W & T). apply gd_new; [apply newk_let; [exact Hf|cbn; tauto]|exact N| |intros x [ <- | [] ]; exact T].
  apply (W_app NT_LET_BIND_VAR _ n r [r]); [now apply S_bind|exact Hs|f2].
Qed.
Lemma gd_bind c r n t : nolet -> gd c r t -> gd c r (T NT_LET_BIND_VAR (t_sort t) n [t]).
Proof. intros Hf G. apply gd_bind_s; [exact Hf| |exact G]. destruct G as (N & W & _). now apply wt_sort. Qed.
(** the list of bindings of one let *)
Definition good_list (c : cfg) (t : term) : Prop := wt CL t /\ tok c t.
Lemma good_blist c s n rs us : nolet -> us <> [] -> Forall2 (gd c) rs us -> basic_sort s -> good_list c (T NT_LET_BIND_VAR_LIST s n us).
Proof.
  intros Hfl Hu F Hs.
  assert (W : wt CL (T NT_LET_BIND_VAR_LIST s n us)).
  { apply (W_app NT_LET_BIND_VAR_LIST s n CL rs).
    - apply S_blist; [intros ->; inversion F; subst; now apply Hu|]. intros X. clear -F X. induction F as [|r u rs us G F IH]; [contradiction|].
      destruct X as [X|X]; [subst r; destruct G as (N & _); now apply N|now apply IH].
    - cbn [rsort]. destruct Hs as [ -> | [ -> | [ -> | [ -> | (w & ->) ]]]]; reflexivity.
    - clear -F. induction F as [|r u rs us G F IH]; constructor; [apply G|exact IH]. }
  split; [exact W|]. apply tok_new.
  - constructor; try (intros X; discriminate X).
    + intros X. cbn [t_sort] in X. destruct Hs as [ -> | [ -> | [ -> | [ -> | (w & ->) ]]]]; discriminate X.
    + reflexivity.
    + apply (wt_lits CL). constructor; [exact W|constructor].
    + intros X. assert (s = boolS) as -> by (destruct Hs as [ Hs | [ Hs | [ Hs | [ Hs | (w & Hs) ]]]]; subst s; [reflexivity|discriminate X|discriminate X|discriminate X|discriminate X]).
      split; [reflexivity|]. intros I e. rewrite eval_app by (auto; reflexivity). unfold app_sem. cbn [op_sem]. eexists. reflexivity.
    + intros [X|X]; discriminate X.
  - split; [discriminate|]. split; [discriminate|]. split; [intros _; exact Hs|]. intros E. unfold nolet in Hfl. congruence.
  - intros u Hu'. clear -F Hu'. induction F as [|r v rs us G F IH]; [contradiction|]. destruct Hu' as [ <- | Hu' ]; [apply G|now apply IH].
Qed.
Lemma gd_sorts c r t : gd c r t -> basic_sort (t_sort t).
Proof. intros (N & W & _). pose proof (wt_sort r t W N) as S. unfold basic_sort. destruct r; cbn [rsort] in S; try congruence; try tauto. right; right; right; right. eauto. Qed.
Lemma gd_chain_s c r s n ls t : nolet -> rsort r s -> ls <> [] -> Forall (good_list c) ls -> gd c r t -> gd c r (T NT_LET_CHAIN s n (ls ++ [t])).
Proof.
  intros Hf Hs Hl F (N & W & T). apply gd_new; [apply newk_let; [exact Hf|cbn; tauto]|exact N| |].
  - apply (W_app NT_LET_CHAIN s n r (repeat CL (length ls) ++ [r])).
    + apply S_chain; [destruct ls; [congruence|cbn; lia]|exact N].
    + exact Hs.
    + apply Forall2_app; [|f2]. apply TypedProofs.Forall2_repeat. split; [reflexivity|]. eapply Forall_impl; [|exact F]. intros a [A _]. exact A.
  - intros x Hx. apply in_app_or in Hx. destruct Hx as [Hx|[ <- | [] ]]; [|exact T]. apply (proj1 (Forall_forall _ _) F) in Hx. apply Hx.
Qed.

(** ** one node of an expanded body *)
(** well-formed, or a list of bindings *)
Definition gl (c : cfg) (r : cl) (t : term) : Prop := wt r t /\ tok c t.
Lemma gl_gd c r t : r <> CL -> gl c r t -> gd c r t. Proof. intros N H. now split. Qed.
Lemma gd_gl c r t : gd c r t -> gl c r t. Proof. intros (_ & H). exact H. Qed.
Lemma gl_all c rs us : ~ In CL rs -> Forall2 (gl c) rs us -> Forall2 (gd c) rs us.
Proof.
  intros N F. induction F as [|r u rs us G F IH]; constructor; [apply gl_gd; [intros ->; apply N; now left|exact G]|]. apply IH. intros X. apply N. now right.
Qed.
Definition node_cond (k : kind) (s : sort) (rs : list cl) : Prop :=
  (k = NT_IMPLIES -> length rs = 2%nat) /\ (k = NT_LET_BIND_VAR_LIST -> basic_sort s) /\
  (In k [NT_EQ; NT_DISTINCT] -> length rs = 2%nat /\ (l_clausal fl = true -> ~ In CB rs)) /\ (l_clausal fl = true -> kin k not_clausal = false).
Lemma F2_gds c r n us : Forall2 (gd c) (repeat r n) us -> length us = n /\ Forall (gd c r) us.
Proof. intros F. apply (proj1 (TypedProofs.Forall2_repeat (gd c) r n us) F). Qed.
Ltac ar F := let G := fresh "G" in let F' := fresh "F" in inversion F as [|? ? ? ? G F']; subst; clear F; rename F' into F.
Lemma no_CL r n : r <> CL -> ~ In CL (repeat r n).
Proof. intros N X. apply repeat_spec in X. congruence. Qed.
Lemma mkOper_gl c s k r rs us t : cfg_ok c -> sig k r rs -> rsort r s -> node_cond k s rs -> Forall2 (gl c) rs us -> mkOper c s k us = Ok t -> gl c r t.
Proof.
  intros Hc Sg Hs (CI2 & CL2 & CE & CC) F E.
  assert (LET : letk k = true -> us <> [] -> t = T k s (kindToString k) us).
  { intros LK Hu. unfold mkOper in E. rewrite simp_let in E by assumption. cbn [bind unk] in E. change (isUnknown UNKNOWN) with true in E. cbv iota in E. injection E as <-.
    assert (X : isCommutative k = false) by (unfold letk in LK; destruct k; try discriminate LK; reflexivity). unfold mkInternal. now rewrite X. }
  destruct Sg as [|k n Hk Hn|n Hn Hn'|r Hr|k r n Hk Hr Hn|k Hk|k r n Hk Hr Hn|r Hr|r Hr|rs Hr Hr'|n r Hn Hr|k w Hk|k w n Hk Hn|k w Hk|w w' Hf|w].
  - apply gl_all in F; [|intros [X|[]]; discriminate X]. ar F. inversion F; subst. cbn [rsort] in Hs. subst s. apply gd_gl.
    destruct (mkOper_not_shape c boolS y t E) as [ -> | [ -> | -> ]]; [apply gd_TRUE|apply gd_FALSE|now apply gd_not].
  - apply gl_all in F; [|now apply no_CL]. apply F2_gds in F. destruct F as [ <- F]. cbn [rsort] in Hs. subst s. apply gd_gl.
    destruct (boolk_of k (length us)) as [B1 B2]; [repeat (destruct Hk as [ <- | Hk ]; [cbn; tauto|]); contradiction|exact Hn|].
    destruct (mkOper_shape c boolS k us t Hn B1 B2 E) as [ -> | [ -> | -> ]]; [apply gd_TRUE|apply gd_FALSE|].
    unfold mkInternal. assert (X : isCommutative k = true) by (repeat (destruct Hk as [ <- | Hk ]; [reflexivity|]); contradiction). rewrite X. pose proof (ok_sort c Hc us) as P.
    apply gd_conn; [exact Hk| |rewrite (Permutation_length P); exact Hn|now apply (Permutation_Forall (Permutation_sym P))].
    intros ->. unfold Flag in *. destruct (l_clausal fl); [discriminate (CC eq_refl)|reflexivity].
  - apply gl_all in F; [|now apply no_CL]. specialize (CI2 eq_refl). rewrite repeat_length in CI2. subst n. ar F. ar F. inversion F; subst. cbn [rsort] in Hs. subst s. apply gd_gl.
    destruct (boolk_of NT_IMPLIES 2) as [B1 B2]; [cbn; tauto|lia|].
    destruct (mkOper_shape c boolS NT_IMPLIES [y; y0] t ltac:(cbn; lia) B1 B2 E) as [ -> | [ -> | -> ]]; [apply gd_TRUE|apply gd_FALSE|].
    unfold mkInternal. change (isCommutative NT_IMPLIES) with false. cbv iota. destruct G as (_ & Wa & Ta), G0 as (_ & Wb & Tb).
    apply gd_new0; [reflexivity|discriminate| | |intros x [ <- | [ <- | [] ]]; assumption].
    + apply (W_app NT_IMPLIES boolS _ CB (repeat CB 2)); [apply S_imp; lia|reflexivity|cbn [repeat]; f2].
    + split; [discriminate|]. split; [reflexivity|]. split; [discriminate|]. intros _. split; [reflexivity|discriminate].
  - apply gl_all in F; [|intros [X|[X|[X|[]]]]; congruence]. ar F. ar F. ar F. inversion F; subst. apply gd_gl.
    rename y into b, y0 into l, y1 into m. unfold mkOper in E. cbn [simp] in E. unfold simp3 in E.
    change (is_eqk NT_ITE) with false in E. change (is_disk NT_ITE) with false in E. change (kin NT_ITE (NT_IMPLIES :: leftfold_kinds)) with false in E. cbv iota in E.
    destruct (isTrue b); [cbn [bind] in E; injection E as <-; destruct (gd_err c r l G0) as [_ ->]; exact G0|].
    destruct (isFalse b); [cbn [bind] in E; injection E as <-; destruct (gd_err c r m G1) as [_ ->]; exact G1|].
    cbn in E. injection E as <-. destruct G as (_ & Wb & Tb), G0 as (N & Wl & Tl), G1 as (_ & Wm & Tm).
    apply gd_new; [now apply newk_plain|exact N| |intros x [ <- | [ <- | [ <- | [] ]]]; assumption].
    apply (W_app NT_ITE s _ r [CB; r; r]); [now apply S_ite|exact Hs|f2].
  - apply gl_all in F; [|now apply no_CL]. destruct (CE Hk) as [L2 NB]. rewrite repeat_length in L2. subst n. ar F. ar F. inversion F; subst. cbn [rsort] in Hs. subst s. apply gd_gl.
    apply (mkOper2_gd c k r y y0 t); auto; [apply in_or_app; now left|destruct Hk as [ <- | [ <- | [] ]]; discriminate|]. intros Ef ->. apply (NB Ef). now left.
  - apply gl_all in F; [|intros [X|[X|[]]]; discriminate X]. ar F. ar F. inversion F; subst. cbn [rsort] in Hs. subst s. apply gd_gl.
    apply (mkOper2_gd c k CR y y0 t); auto; [apply in_or_app; now right|discriminate].
  - apply gl_all in F; [|apply no_CL; destruct Hr as [ -> | -> ]; discriminate]. apply F2_gds in F. destruct F as [ <- F]. apply gd_gl. now apply (mkOper_arith_gd c k r s us t).
  - apply gl_all in F; [|intros [X|[]]; destruct Hr; congruence]. ar F. inversion F; subst. apply gd_gl. rename y into b, G into Gb. pose proof Gb as (N & W & _). pose proof (wt_li r b W) as Lb.
    unfold mkOper in E. cbn [simp] in E. unfold simp1 in E. cbn [kin existsb float1_kinds nary1_kinds keq orb] in E.
    destruct (isCInt b) eqn:Cb.
    + destruct (li_int b Lb Cb) as (s' & z & Hs' & ->). rewrite toInt_ic in E by assumption. cbn [bind] in E. injection E as <-. now apply gd_int.
    + destruct (isCReal b) eqn:Rb; [rewrite (li_real_int b Lb Rb) in Cb; discriminate|]. cbn [bind unk] in E. change (isUnknown UNKNOWN) with true in E. cbv iota in E.
      injection E as <-. unfold mkInternal. change (isCommutative NT_NEG) with false. cbv iota. now apply gd_neg.
  - apply gl_all in F; [|intros [X|[]]; congruence]. ar F. inversion F; subst. rewrite (LET eq_refl ltac:(discriminate)). apply gd_gl, gd_bind_s; [|exact Hs|exact G].
    unfold nolet. unfold Flag in *. destruct (l_clausal fl); [discriminate (CC eq_refl)|reflexivity].
  - assert (Nu : us <> []) by (apply (F2_ne _ _ _ F Hr)). apply gl_all in F; [|exact Hr']. rewrite (LET eq_refl Nu). apply (good_blist c s _ rs us); [|exact Nu|exact F|now apply CL2].
    unfold nolet. unfold Flag in *. destruct (l_clausal fl); [discriminate (CC eq_refl)|reflexivity].
  - apply Forall2_app_inv_l in F. destruct F as (ls & us' & F1 & F2 & ->). inversion F2 as [|? u ? us0 Gu F3]; subst. inversion F3; subst. clear F2 F3.
    apply (proj1 (TypedProofs.Forall2_repeat (gl c) CL n ls)) in F1. destruct F1 as [Ln F1].
    rewrite (LET eq_refl ltac:(now destruct ls)). apply gd_gl, gd_chain_s; [|exact Hs|intros ->; cbn in Ln; lia|exact F1|now apply gl_gd].
    unfold nolet. unfold Flag in *. destruct (l_clausal fl); [discriminate (CC eq_refl)|reflexivity].
  - apply gl_all in F; [|intros [X|[]]; discriminate X]. apply gd_gl.
    destruct (bvop_gives c s k (CV w) [CV w] us) as (t' & E' & G' & _); [| exact Hc | |now apply S_bv1|discriminate|exact Hs|exact F|rewrite E in E'; injection E' as <-; exact G'].
    + intros Ef. specialize (CC Ef). destruct Hk as [ <- | [ <- | [] ]]; [reflexivity|discriminate CC].
    + left. inversion F as [|? ? ? ? _ F']; subst. inversion F'; subst. split; [destruct Hk as [ <- | [ <- | [] ]]; cbn; tauto|reflexivity].
  - pose proof F as F0. apply gl_all in F; [|now apply no_CL]. apply gd_gl.
    destruct (bvop_gives c s k (CV w) (repeat (CV w) n) us) as (t' & E' & G' & _); [| exact Hc | |now apply S_bvn|discriminate|exact Hs|exact F|rewrite E in E'; injection E' as <-; exact G'].
    + intros _. clear -Hk. repeat (destruct Hk as [ <- | Hk ]; [reflexivity|]). contradiction.
    + right; right. apply F2_gds in F. destruct F as [ <- F]. now split.
  - apply gl_all in F; [|intros [X|[X|[]]]; discriminate X]. ar F. ar F. inversion F; subst. cbn [rsort] in Hs. subst s. apply gd_gl.
    assert (B1 : In k boolk) by (repeat (destruct Hk as [ <- | Hk ]); try contradiction; cbn; tauto).
    destruct (mkOper_shape c boolS k [y; y0] t (le_n 2) B1 (or_introl eq_refl) E) as [ -> | [ -> | -> ]]; [apply gd_TRUE|apply gd_FALSE|].
    assert (X : isCommutative k = false) by (repeat (destruct Hk as [ <- | Hk ]); try contradiction; reflexivity). unfold mkInternal. rewrite X.
    destruct G as (_ & Wa & Ta), G0 as (_ & Wb & Tb). apply gd_new.
    + repeat (destruct Hk as [ <- | Hk ]); try contradiction; now apply newk_plain.
    + discriminate.
    + apply (W_app k boolS _ CB [CV w; CV w]); [now apply S_bvcmp|reflexivity|cbn [repeat]; f2].
    + intros x [ <- | [ <- | [] ]]; assumption.
  - apply gl_all in F; [|intros [X|[X|[]]]; discriminate X]. apply gd_gl.
    destruct (bvop_gives c s NT_BV_CONCAT (CV (w + w')) [CV w; CV w'] us) as (t' & E' & G' & _); [reflexivity| exact Hc | |now apply S_concat|discriminate|exact Hs|exact F|rewrite E in E'; injection E' as <-; exact G'].
    right; left. inversion F as [|? ? ? ? _ F']; subst. inversion F' as [|? ? ? ? _ F'']; subst. inversion F''; subst. now split.
  - apply gl_all in F; [|intros [X|[]]; discriminate X]. apply gd_gl.
    destruct (bvop_gives c s NT_BV_TO_NAT CI [CV w] us) as (t' & E' & G' & _); [| exact Hc | |apply S_bv2nat|discriminate|exact Hs|exact F|rewrite E in E'; injection E' as <-; exact G'].
    + intros Ef. specialize (CC Ef). discriminate CC.
    + left. inversion F as [|? ? ? ? _ F']; subst. inversion F'; subst. split; [cbn; tauto|reflexivity].
Qed.
End F.

(** ** a body rebuilt with other leaves *)
Section Rebuilt.
Context (fb fn : language) (c : cfg) (leaf : term -> option (res term)) (drop : term -> bool) (build : term -> list term -> res term) (E : interp -> env -> env).
Hypothesis Hcl : l_clausal fb = l_clausal fn.
Lemma mapR_gl rs ch us : Forall2 (fun r t => forall u, post leaf drop build t = Ok u -> @gl fn c r u) rs ch -> mapR (post leaf drop build) ch = Ok us -> Forall2 (@gl fn c) rs us.
Proof.
  intros F. revert us. induction F as [|r t rs ch H F IH]; intros us M; cbn [mapR] in M; [injection M as <-; constructor|].
  destruct (post leaf drop build t) as [u| | | | |] eqn:P; cbn [bind] in M; try discriminate M. fold (mapR (post leaf drop build) ch) in M.
  destruct (mapR (post leaf drop build) ch) as [vs| | | | |]; cbn [bind] in M; try discriminate M. injection M as <-. constructor; [now apply H|now apply IH].
Qed.
Lemma post_gl r t : cfg_ok c -> wt r t -> @tok fb c t -> (forall x, subterm x t -> leaf_ok c leaf drop build E x) ->
  (forall x, subterm x t -> is_leaf_var (t_kind x) = true -> exists a, @tok fn c a /\ leaf x = Some (Ok a)) ->
  forall u, post leaf drop build t = Ok u -> @gl fn c r u.
Proof.
  intros Hc W. induction W as [k s n r A B| | |s z A|k s n r rs ch A B F IH|s n r rs ch A B D F IH|t W IH|w v A B] using wt_ind'; intros HT HL HV u P.
  - destruct (HL _ (Sub_refl _)) as (H & _). destruct (H r A eq_refl B) as (u' & L1 & Wu & V). destruct (HV _ (Sub_refl _) A) as (a & Ta & L2).
    rewrite post_eq, L1 in P. injection P as <-. rewrite L1 in L2. injection L2 as ->. now split.
  - destruct (HL _ (Sub_refl _)) as (_ & H & _). rewrite post_eq, H in P by reflexivity. injection P as <-. apply gd_gl, gd_TRUE.
  - destruct (HL _ (Sub_refl _)) as (_ & H & _). rewrite post_eq, H in P by reflexivity. injection P as <-. apply gd_gl, gd_FALSE.
  - destruct (HL _ (Sub_refl _)) as (_ & H & _). rewrite post_eq, H in P by reflexivity. injection P as <-. apply gd_gl. apply gd_new; [now apply newk_plain|discriminate|now apply W_int|contradiction].
  - assert (IH' : Forall2 (fun r t => forall u, post leaf drop build t = Ok u -> @gl fn c r u) rs ch).
    { clear -IH HL HV HT.
      assert (HC : forall y, In y ch -> @tok fb c y /\ (forall x, subterm x y -> leaf_ok c leaf drop build E x) /\ (forall x, subterm x y -> is_leaf_var (t_kind x) = true -> exists a, @tok fn c a /\ leaf x = Some (Ok a))).
      { intros y Hy. split; [now apply (@tok_ch fb c (T k s n ch))|]. split; intros x Hx; [apply HL|apply HV]; now apply (Sub_ch x y). }
      clear HL HV HT. induction IH as [|q y rs ch P IH IH2]; constructor; [destruct (HC y (or_introl eq_refl)) as (A1 & A2 & A3); now apply P|]. apply IH2. intros z Hz. apply HC. now right. }
    destruct (HL _ (Sub_refl _)) as (_ & _ & H & _). destruct (H r rs A (rsort_not_array r (T k s n ch) B)) as (L0 & Dr & Bu). cbn [t_kind t_sort] in Bu.
    rewrite post_eq, L0 in P. unfold kids in P. rewrite Dr in P. cbn [t_ch] in P. destruct (mapR (post leaf drop build) ch) as [us| | | | |] eqn:Q; cbn [bind] in P; try discriminate P.
    rewrite Bu in P. pose proof (mapR_gl rs ch us IH' Q) as Fu. apply (@mkOper_gl fn c s k r rs us u Hc A B); [|exact Fu|exact P].
    destruct HT as [TT PL]. destruct (PL _ (Sub_refl _)) as (_ & P1 & P2 & P3). cbn [t_kind t_ch t_sort] in P1, P2, P3.
    assert (LEN : length rs = length ch) by (now apply F2_len in F).
    split; [intros K; rewrite LEN; now apply P1|]. split; [exact P2|]. split.
    + intros K. assert (KE : isEq (T k s n ch) = true \/ isDistinct (T k s n ch) = true) by (destruct K as [ <- | [ <- | [] ]]; [left|right]; reflexivity).
      split.
      * destruct (n_eq c _ (TT _ (Sub_refl _)) KE) as (a & b & Ech & _). cbn [t_ch] in Ech. rewrite LEN, Ech. reflexivity.
      * intros Ef X. unfold Flag in *. rewrite <- Hcl in Ef. destruct (P3 Ef) as [_ NB]. cbn [t_ch] in NB. apply orb_true_iff in KE. specialize (NB KE).
        clear -F X NB. induction F as [|q y rs ch Wy F IH]; [contradiction|]. destruct X as [ -> | X ].
        -- pose proof (wt_sort CB y Wy ltac:(discriminate)) as S. cbn in S. specialize (NB y (or_introl eq_refl)). unfold isBoolParam, sis in NB. rewrite S in NB. discriminate NB.
        -- apply IH; [exact X|]. intros z Hz. apply NB. now right.
    + intros Ef. unfold Flag in *. rewrite <- Hcl in Ef. apply (P3 Ef).
  - assert (IH' : Forall2 (fun r t => forall u, post leaf drop build t = Ok u -> @gl fn c r u) rs ch).
    { clear -IH HL HV HT.
      assert (HC : forall y, In y ch -> @tok fb c y /\ (forall x, subterm x y -> leaf_ok c leaf drop build E x) /\ (forall x, subterm x y -> is_leaf_var (t_kind x) = true -> exists a, @tok fn c a /\ leaf x = Some (Ok a))).
      { intros y Hy. split; [now apply (@tok_ch fb c (T NT_UF_APPLY s n ch))|]. split; intros x Hx; [apply HL|apply HV]; now apply (Sub_ch x y). }
      clear HL HV HT. induction IH as [|q y rs ch P IH IH2]; constructor; [destruct (HC y (or_introl eq_refl)) as (A1 & A2 & A3); now apply P|]. apply IH2. intros z Hz. apply HC. now right. }
    destruct (HL _ (Sub_refl _)) as (_ & _ & _ & H). destruct (H eq_refl) as (L0 & Dr & Bu). cbn [t_name t_sort] in Bu.
    rewrite post_eq, L0 in P. unfold kids in P. rewrite Dr in P. cbn [t_ch] in P. destruct (mapR (post leaf drop build) ch) as [us| | | | |] eqn:Q; cbn [bind] in P; try discriminate P.
    rewrite Bu in P. injection P as <-. pose proof (mapR_gl rs ch us IH' Q) as Fu.
    assert (Nu : us <> []) by (apply (F2_ne _ _ _ Fu); intros ->; inversion F; subst; congruence).
    apply gd_gl. apply gd_new; [now apply newk_plain|destruct r; try discriminate; contradiction| |].
    + apply (W_uf s n r rs us); [exact Nu|exact B|exact D|]. clear -Fu. induction Fu as [|a b l m [X _] F IH]; constructor; assumption.
    + clear -Fu. intros x Hx. induction Fu as [|a b l m [_ X] F IH]; [contradiction|]. destruct Hx as [ <- | Hx ]; [exact X|now apply IH].
  - destruct (IH HT HL HV u P) as [W1 T1]. split; [now apply W_sub|exact T1].
  - destruct (HL _ (Sub_refl _)) as (_ & H & _). rewrite post_eq, H in P by reflexivity. injection P as <-. apply gd_gl. now apply gd_bc.
Qed.
End Rebuilt.

(** ** applications of defined functions *)
Lemma closed_plain cl fs t : plain (Language cl (Some fs)) t -> closed_over fs t.
Proof. intros P x Hx K. destruct (P x Hx) as (H & _). exact (H K). Qed.
Theorem apply_gd (fn : language) c o r s n body fs ps : cfg_ok c -> x_fun o = true -> @gd (Language (l_clausal fn) (Some fs)) c r body -> args_ok fs ps -> Forall (@tok fn c) ps ->
  exists t, applyFun c o (T NT_FUNC_DEF s n (body :: fs)) ps = Ok t /\ @gd fn c r t /\
    forall I e, eval I e t = eval I (upd e fs (map (eval I e) ps)) body.
Proof.
  intros Hc Ho (N & W & HT) HA FT. pose proof (closed_plain _ fs body (proj2 HT)) as CL0.
  destruct (applyFun_ok c o r s n body fs ps Hc Ho W N HA CL0) as (t & E & _ & V). exists t. split; [exact E|]. split; [|exact V].
  destruct (applyFun_run c o r s n body fs ps Hc Ho W HA CL0) as (lf & dr & bu & E' & HL & HV). rewrite E' in E.
  split; [exact N|]. apply (post_gl (Language (l_clausal fn) (Some fs)) fn c lf dr bu _ eq_refl r body Hc W HT HL); [|exact E].
  intros x Hx K. destruct (HV x Hx K) as (a & Ha & La). exists a. split; [|exact La]. rewrite Forall_forall in FT. now apply FT.
Qed.
