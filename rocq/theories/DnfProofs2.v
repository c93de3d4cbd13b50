(** Disjunctive normal form, part 2: negation normal form, distribution, flattening. *)
From Coq Require Import QArith Qcanon Permutation ZifyBool ZifyNat.
From Verif Require Import Base KindModel SortModel TermModel BVModel BVSpec UtilModel UtilSpec DagProofs SortProofs
  Sem SemProofs ArrayModel SimpModel OpModel OpSpec OpProofs OpProofs2 OpProofs3 OpProofs4 OpProofs5 OpProofs6 OpProofs7
  ShapeProofs ConvModel ConvSpec ConvProofs WalkProofs GoodProofs SplitProofs CnfModel CnfSpec CnfProofs CnfProofs2 CnfProofs3 DnfModel DnfSpec DnfProofs.
Open Scope Z_scope.

(** ** negation normal form *)
Inductive nlm (w : bool) : term -> Prop :=
| NL_lit t : slit t -> nlm w t
| NL_j (conj : bool) n ch : (2 <= length ch)%nat -> (w = true -> (length ch <= 2)%nat) -> (forall x, In x ch -> nlm w x) -> nlm w (T (jk conj) boolS n ch).
Section W.
Context (w : bool).
Lemma jk_good conj n ch : goodB (T (jk conj) boolS n ch).
Proof. destruct conj; apply goodB_node; try reflexivity; discriminate. Qed.
Lemma nlm_good t : nlm w t -> goodB t.
Proof. intros [t' S|conj n ch L N C]; [now apply slit_good|apply jk_good]. Qed.
Lemma junction_nlm c (conj : bool) ps : cfg_ok c -> (w = true -> (length ps <= 2)%nat) -> (forall p, In p ps -> nlm w p) ->
  exists r, mkJunction c (jk conj) ps = Ok r /\ nlm w r /\ forall I e, holds I e r = jsem conj (holds I e) ps.
Proof.
  intros Hc HN H. assert (HB : bool_args ps) by (apply goodB_args; intros p Hp; now apply nlm_good, H).
  destruct (mkJunction_sound c conj ps Hc HB) as (r & E & V). exists r. split; [destruct conj; exact E|].
  assert (E' : mkJunction c (jk conj) ps = Ok r) by (destruct conj; exact E). split; [|intros I e; rewrite V; now destruct conj].
  apply mkJunction_shape in E'; [|exact Hc|exact HB]. destruct E' as [ -> | [ -> | [Hin|(qs & -> & L & Hi & ND & _)] ]].
  - apply NL_lit. constructor.
  - apply NL_lit. constructor.
  - now apply H.
  - apply NL_j; [exact L|intros Hw; specialize (HN Hw); pose proof (NoDup_incl_length ND Hi); lia|auto].
Qed.
Definition nnf_ok (c : cfg) (b : bool) (t : term) : Prop :=
  exists r, nnf c t b = Ok r /\ nlm w r /\ forall I e, holds I e r = xorb b (holds I e t).
Lemma nnf_slit_ok c b t : slit t -> isNot t = false -> nnf_ok c b t.
Proof.
  intros S N. unfold nnf_ok.
  assert (E : nnf c t b = if b then mkNot c t else Ok t).
  { destruct S as [ | |t' [k n H]|n t' H]; [reflexivity|reflexivity| |discriminate N].
    destruct (var_kinds5 k H) as [ -> | [ -> | [ -> | [ -> | -> ]]]]; reflexivity. }
  rewrite E. destruct b.
  - destruct (mkNot_slit c t S) as (u & -> & Su & B & V). exists u. split; [reflexivity|]. split; [now apply NL_lit|].
    intros I e. rewrite V. now destruct (holds I e t).
  - exists t. split; [reflexivity|]. split; [now apply NL_lit|]. intros I e. now rewrite xorb_false_l.
Qed.
Lemma nnfs_nlm c b l : (forall x, In x l -> nnf_ok c b x) ->
  exists rs, nnfs c b l = Ok rs /\ length rs = length l /\ (forall r, In r rs -> nlm w r) /\ forall I e, map (holds I e) rs = map (fun x => xorb b (holds I e x)) l.
Proof.
  induction l as [|x l IH]; intros H.
  - exists []. split; [reflexivity|]. split; [reflexivity|]. split; [intros r []|reflexivity].
  - destruct (H x (or_introl eq_refl)) as (r & E & N & V). destruct IH as (rs & E' & L' & N' & V'); [intros y Hy; apply H; now right|].
    exists (r :: rs). split; [cbn [nnfs]; fold (nnfs c b); rewrite E; cbn [bind]; rewrite E'; reflexivity|]. split; [cbn; lia|].
    split; [intros y [ <- | Hy ]; auto|intros I e; cbn [map]; now rewrite V, V'].
Qed.
Lemma nnf_j c (conj b : bool) n ch : cfg_ok c -> ch <> [] -> (w = true -> (length ch <= 2)%nat) -> (forall x, In x ch -> nnf_ok c b x) ->
  nnf_ok c b (T (jk conj) boolS n ch).
Proof.
  intros Hc NE HN H. destruct (nnfs_nlm c b ch H) as (rs & E & Ln & N & V).
  destruct (junction_nlm c (xorb b conj) rs Hc) as (r & Er & Nr & Vr); [now rewrite Ln|exact N|].
  assert (X : nnf c (T (jk conj) boolS n ch) b = (bs <- nnfs c b ch ;; mkJunction c (jk (xorb b conj)) bs)) by (destruct conj, b; reflexivity).
  unfold nnf_ok. rewrite X, E. cbn [bind]. exists r. split; [exact Er|]. split; [exact Nr|].
  intros I e. rewrite Vr. specialize (V I e).
  destruct conj, b; cbn [jk xorb jsem]; rewrite ?holds_and, ?holds_or by exact NE; cbn [xorb];
    rewrite ?(forallb_mapid (holds I e) rs), ?(existsb_mapid (holds I e) rs), V, ?(forallb_maps (xorb true)), ?(forallb_maps (xorb false)), ?(existsb_maps (xorb true)), ?(existsb_maps (xorb false)).
  - rewrite (existsb_ext' _ (fun x => negb (holds I e x))) by reflexivity. apply existsb_negb.
  - rewrite (forallb_ext' _ (holds I e)) by (intros x; apply xorb_false_l). now destruct (forallb (holds I e) ch).
  - rewrite (forallb_ext' _ (fun x => negb (holds I e x))) by reflexivity. apply forallb_negb.
  - rewrite (existsb_ext' _ (holds I e)) by (intros x; apply xorb_false_l). now destruct (existsb (holds I e) ch).
Qed.
Lemma nnf_af c t : cfg_ok c -> af w t -> forall b, nnf_ok c b t.
Proof.
  intros Hc. induction t as [k s n ch IH] using term_ind'. rewrite Forall_forall in IH. intros F b.
  inversion F as [ | |t V|m a A|m ps NE N C|m ps NE N C]; subst.
  - apply nnf_slit_ok; [constructor|reflexivity].
  - apply nnf_slit_ok; [constructor|reflexivity].
  - apply nnf_slit_ok; [now constructor|]. destruct V as [k' n' H']. destruct (var_kinds5 k' H') as [ -> | [ -> | [ -> | [ -> | -> ]]]]; reflexivity.
  - destruct (IH a (or_introl eq_refl) A (negb b)) as (r & E & N & V). exists r. split; [exact E|]. split; [exact N|].
    intros I e. rewrite V, (holds_not (T NT_NOT boolS n [a]) a I e) by reflexivity. now destruct b, (holds I e a).
  - apply (nnf_j c true b n ch Hc NE N). intros x Hx. apply IH; auto.
  - apply (nnf_j c false b n ch Hc NE N). intros x Hx. apply IH; auto.
Qed.
End W.

(** ** results of distribution *)
Inductive ct : term -> Prop :=
| C_lit t : slit t -> ct t
| C_and n ch : ch <> [] -> (forall x, In x ch -> ct x) -> ct (T NT_AND boolS n ch).
Inductive wd : term -> Prop :=
| WD_ct t : ct t -> wd t
| WD_or n ch : ch <> [] -> (forall x, In x ch -> ct x) -> wd (T NT_OR boolS n ch).
Lemma ct_good t : ct t -> goodB t.
Proof. intros [t' S|n ch NE C]; [now apply slit_good|exact (jk_good true n ch)]. Qed.
Lemma wd_good t : wd t -> goodB t.
Proof. intros [t' S|n ch NE C]; [now apply ct_good|exact (jk_good false n ch)]. Qed.
Lemma ct_tree t : ct t -> conj_tree t.
Proof.
  induction t as [k s n ch IH] using term_ind'. rewrite Forall_forall in IH. intros H.
  inversion H as [t S|m ch' NE C]; subst; [apply Ct_lit; now apply slit_lit|]. apply Ct_and. intros l Hl. apply IH; auto.
Qed.
Lemma wd_weak t : wd t -> weak_dnf t.
Proof. intros [t' C|n ch NE C]; [apply Wd_term; now apply ct_tree|]. apply Wd_or. intros x Hx. now apply ct_tree, C. Qed.
Lemma slit_kind t : slit t -> isk NT_OR t = false /\ isk NT_AND t = false.
Proof.
  intros [ | |t' [k n H]|n t' H]; try (split; reflexivity). destruct (var_kinds5 k H) as [ -> | [ -> | [ -> | [ -> | -> ]]]]; split; reflexivity.
Qed.
Lemma ct_or t : ct t -> isk NT_OR t = false.
Proof. intros [t' S|n ch NE C]; [now apply slit_kind|reflexivity]. Qed.
Lemma wd_or t : wd t -> isk NT_OR t = true -> exists n ch, t = T NT_OR boolS n ch /\ ch <> [] /\ forall x, In x ch -> ct x.
Proof. intros [t' C|n ch NE C] H; [rewrite (ct_or t' C) in H; discriminate H|]. exists n, ch. auto. Qed.
Lemma wd_ct t : wd t -> isk NT_OR t = false -> ct t.
Proof. intros [t' C|n ch NE C] H; [exact C|discriminate H]. Qed.
Lemma wd_ch t x : wd t -> In x (t_ch t) -> ct x.
Proof.
  intros [t' [t2 S|n ch NE C]|n ch NE C] Hx; [|now apply C|now apply C].
  apply C_lit. destruct S as [ | |t3 [k n H]|n t3 H]; cbn [t_ch] in Hx; try (destruct Hx as [ <- | [] ]; now apply SL_var); destruct Hx.
Qed.
Lemma and_ct c ps : cfg_ok c -> (forall p, In p ps -> ct p) ->
  exists r, mkAnd c ps = Ok r /\ ct r /\ forall I e, holds I e r = forallb (holds I e) ps.
Proof.
  intros Hc H. assert (HB : bool_args ps) by (apply goodB_args; intros p Hp; now apply ct_good, H).
  destruct (mkJunction_sound c true ps Hc HB) as (r & E & V). exists r. split; [exact E|]. split; [|exact V].
  apply (mkJunction_shape c true) in E; [|exact Hc|exact HB]. destruct E as [ -> | [ -> | [Hin|(qs & -> & L & Hi & ND & _)] ]].
  - apply C_lit. constructor.
  - apply C_lit. constructor.
  - now apply H.
  - apply C_and; [intros ->; cbn in L; lia|auto].
Qed.
Lemma or_wd c ps : cfg_ok c -> (forall p, In p ps -> ct p) ->
  exists r, mkOr c ps = Ok r /\ wd r /\ forall I e, holds I e r = existsb (holds I e) ps.
Proof.
  intros Hc H. assert (HB : bool_args ps) by (apply goodB_args; intros p Hp; now apply ct_good, H).
  destruct (mkJunction_sound c false ps Hc HB) as (r & E & V). exists r. split; [exact E|]. split; [|exact V].
  apply (mkJunction_shape c false) in E; [|exact Hc|exact HB]. destruct E as [ -> | [ -> | [Hin|(qs & -> & L & Hi & ND & _)] ]].
  - apply WD_ct, C_lit. constructor.
  - apply WD_ct, C_lit. constructor.
  - now apply WD_ct, H.
  - apply WD_or; [intros ->; cbn in L; lia|auto].
Qed.
Lemma cube_ok x : ct x -> (forall y, In y (cube x) -> ct y) /\ forall I e, forallb (holds I e) (cube x) = holds I e x.
Proof.
  intros [t S|n ch NE C]; unfold cube.
  - destruct (slit_kind t S) as [_ ->]. split; [intros y [ <- | [] ]; now apply C_lit|]. intros I e. cbn. now rewrite andb_true_r.
  - change (isk NT_AND (T NT_AND boolS n ch)) with true. cbn [t_ch]. split; [exact C|]. intros I e. now rewrite holds_and.
Qed.
Lemma mapM_and {A} c (f : A -> list term) (g : interp -> env -> A -> bool) ps : cfg_ok c ->
  (forall p, In p ps -> (forall y, In y (f p) -> ct y) /\ forall I e, forallb (holds I e) (f p) = g I e p) ->
  exists ts, mapM (fun p => mkAnd c (f p)) ps = Ok ts /\ (forall t, In t ts -> ct t) /\ forall I e, existsb (holds I e) ts = existsb (g I e) ps.
Proof.
  intros Hc. induction ps as [|p ps IH]; intros H.
  - exists []. split; [reflexivity|]. split; [intros ? []|reflexivity].
  - destruct (H p (or_introl eq_refl)) as [C V]. destruct (and_ct c (f p) Hc C) as (r & Er & Cr & Vr).
    destruct IH as (ts & Et & Ct & Vt); [intros q Hq; apply H; now right|]. exists (r :: ts). cbn [mapM]. rewrite Er. cbn [bind]. rewrite Et.
    split; [reflexivity|]. split; [intros t [ <- | Ht ]; auto|]. intros I e. cbn [existsb]. now rewrite Vr, V, Vt.
Qed.
Lemma pairs_sem (f : term -> bool) l m : existsb (fun p : term * term => f (fst p) && f (snd p)) (flat_map (fun x => map (fun y => (x, y)) m) l) = existsb f l && existsb f m.
Proof.
  induction l as [|x l IH]; [reflexivity|]. cbn [flat_map existsb]. rewrite existsb_app, IH.
  assert (X : existsb (fun p : term * term => f (fst p) && f (snd p)) (map (fun y => (x, y)) m) = f x && existsb f m).
  { clear. induction m as [|y m IH]; [now rewrite andb_false_r|]. cbn [map existsb fst snd]. rewrite IH. now destruct (f x). }
  rewrite X. now destruct (f x), (existsb f l), (existsb f m).
Qed.
Lemma distribute_ok c d o : cfg_ok c -> wd d -> wd o ->
  exists r, distribute c d o = Ok r /\ wd r /\ forall I e, holds I e r = existsb (holds I e) (t_ch d) && existsb (holds I e) (t_ch o).
Proof.
  intros Hc Hd Ho. unfold distribute.
  destruct (mapM_and c (fun p : term * term => cube (fst p) ++ cube (snd p)) (fun I e p => holds I e (fst p) && holds I e (snd p))
    (flat_map (fun x => map (fun y => (x, y)) (t_ch o)) (t_ch d)) Hc) as (ts & E & C & V).
  - intros [x y] Hp. apply in_flat_map in Hp. destruct Hp as (x' & Hx & Hp). apply in_map_iff in Hp. destruct Hp as (y' & Hp & Hy). injection Hp as <- <-.
    destruct (cube_ok x' (wd_ch d x' Hd Hx)) as [C1 V1]. destruct (cube_ok y' (wd_ch o y' Ho Hy)) as [C2 V2]. cbn [fst snd]. split.
    + intros z Hz. apply in_app_or in Hz. destruct Hz; auto.
    + intros I e. now rewrite forallb_app, V1, V2.
  - rewrite E. cbn [bind]. destruct (or_wd c ts Hc C) as (r & Er & Wr & Vr). exists r. split; [exact Er|]. split; [exact Wr|].
    intros I e. rewrite Vr, V. apply (pairs_sem (holds I e)).
Qed.
Lemma addTerms_ok c d xs : cfg_ok c -> wd d -> (forall x, In x xs -> ct x) ->
  exists r, addTerms c d xs = Ok r /\ wd r /\ forall I e, holds I e r = existsb (holds I e) (t_ch d) && forallb (holds I e) xs.
Proof.
  intros Hc Hd Hx. unfold addTerms.
  destruct (mapM_and c (fun y => cube y ++ xs) (fun I e y => holds I e y && forallb (holds I e) xs) (t_ch d) Hc) as (ts & E & C & V).
  - intros y Hy. destruct (cube_ok y (wd_ch d y Hd Hy)) as [C1 V1]. split; [intros z Hz; apply in_app_or in Hz; destruct Hz; auto|].
    intros I e. now rewrite forallb_app, V1.
  - rewrite E. cbn [bind]. destruct (or_wd c ts Hc C) as (r & Er & Wr & Vr). exists r. split; [exact Er|]. split; [exact Wr|].
    intros I e. rewrite Vr, V. generalize (t_ch d). intros l. induction l as [|y l IH]; [reflexivity|]. cbn [existsb]. rewrite IH. now destruct (holds I e y), (forallb (holds I e) xs), (existsb (holds I e) l).
Qed.
Lemma foldM_dist c os : cfg_ok c -> (forall o, In o os -> wd o) -> forall d, wd d -> exists r, foldM (distribute c) d os = Ok r /\ wd r.
Proof.
  intros Hc. induction os as [|o os IH]; intros H d Hd; [now exists d|].
  destruct (distribute_ok c d o Hc Hd (H o (or_introl eq_refl))) as (r & E & W & _). cbn [foldM]. rewrite E. cbn [bind]. apply IH; [intros; apply H; now right|exact W].
Qed.
Lemma or_sem t I e : wd t -> isk NT_OR t = true -> holds I e t = existsb (holds I e) (t_ch t).
Proof. intros H K. destruct (wd_or t H K) as (n & ch & -> & NE & _). now rewrite holds_or. Qed.
Lemma split_sem (f : term -> bool) (p : term -> bool) l : forallb f (filter p l) && forallb f (filter (fun u => negb (p u)) l) = forallb f l.
Proof. induction l as [|x l IH]; [reflexivity|]. cbn [filter forallb]. destruct (p x); cbn [negb forallb]; rewrite <- IH; destruct (f x); cbn; try reflexivity. apply andb_false_r. Qed.
Lemma filter_len (p : term -> bool) l : (length (filter p l) + length (filter (fun u => negb (p u)) l) = length l)%nat.
Proof. induction l as [|x l IH]; [reflexivity|]. cbn [filter length]. destruct (p x); cbn [negb length]; lia. Qed.
Lemma dnfAnd_ok c us : cfg_ok c -> (forall u, In u us -> wd u) ->
  exists r, dnfAnd c us = Ok r /\ wd r /\ ((length us <= 2)%nat -> forall I e, holds I e r = forallb (holds I e) us).
Proof.
  intros Hc H. unfold dnfAnd. set (os := filter (isk NT_OR) us). set (xs := filter (fun u => negb (isk NT_OR u)) us).
  assert (Ho : forall o, In o os -> wd o /\ isk NT_OR o = true) by (intros o X; apply filter_In in X; destruct X; auto).
  assert (Hx : forall x, In x xs -> ct x) by (intros x X; apply filter_In in X; destruct X as [X1 X2]; apply wd_ct; [auto|now destruct (isk NT_OR x)]).
  pose proof (filter_len (isk NT_OR) us) as HL. fold os in HL. fold xs in HL.
  assert (HS : forall I e, forallb (holds I e) us = forallb (holds I e) os && forallb (holds I e) xs) by (intros I e; symmetry; apply split_sem).
  clearbody os xs. destruct os as [|d os].
  - destruct (and_ct c xs Hc Hx) as (r & E & C & V). exists r. split; [exact E|]. split; [now apply WD_ct|]. intros _ I e. rewrite V, HS. reflexivity.
  - destruct (Ho d (or_introl eq_refl)) as [Wd Kd].
    destruct (foldM_dist c os Hc (fun o Hin => proj1 (Ho o (or_intror Hin))) d Wd) as (d' & E & W). rewrite E. cbn [bind].
    destruct xs as [|x xs].
    + exists d'. split; [reflexivity|]. split; [exact W|]. intros Hlen I e. rewrite HS. destruct os as [|o [|o2 os]]; [| |cbn [length] in HL; lia].
      * cbn in E. injection E as <-. cbn. now rewrite !andb_true_r.
      * destruct (Ho o (or_intror (or_introl eq_refl))) as [Wo Ko]. destruct (distribute_ok c d o Hc Wd Wo) as (r & E2 & _ & V). cbn [foldM] in E. rewrite E2 in E. cbn [bind] in E. injection E as <-.
        rewrite V, <- (or_sem d I e Wd Kd), <- (or_sem o I e Wo Ko). cbn. now rewrite !andb_true_r.
    + destruct (addTerms_ok c d' (x :: xs) Hc W Hx) as (r & Er & Wr & Vr). exists r. split; [exact Er|]. split; [exact Wr|].
      intros Hlen I e. rewrite HS. destruct os as [|o os]; [|cbn [length] in HL; lia]. cbn in E. injection E as <-.
      rewrite Vr, <- (or_sem d I e Wd Kd). cbn [forallb]. now rewrite andb_true_r.
Qed.
Lemma dnfOr_ok c us : cfg_ok c -> (forall u, In u us -> wd u) ->
  exists r, dnfOr c us = Ok r /\ wd r /\ forall I e, holds I e r = existsb (holds I e) us.
Proof.
  intros Hc H. unfold dnfOr. destruct (or_wd c (flat_map (fun u => if isk NT_OR u then t_ch u else [u]) us) Hc) as (r & E & W & V).
  - intros p Hp. apply in_flat_map in Hp. destruct Hp as (u & Hu & Hp). destruct (isk NT_OR u) eqn:K; [exact (wd_ch u p (H u Hu) Hp)|].
    destruct Hp as [ <- | [] ]. exact (wd_ct u (H u Hu) K).
  - exists r. split; [exact E|]. split; [exact W|]. intros I e. rewrite V. clear - H. induction us as [|u us IH]; [reflexivity|].
    cbn [flat_map existsb]. rewrite existsb_app, IH by (intros; apply H; now right). f_equal. destruct (isk NT_OR u) eqn:K; [|cbn; apply orb_false_r].
    symmetry. apply or_sem; [apply H; now left|exact K].
Qed.
Lemma jk_lit conj n ch : isLiteral (T (jk conj) boolS n ch) = Ok false /\ isAtom (T (jk conj) boolS n ch) = Ok false.
Proof. destruct conj; (split; [reflexivity|destruct ch; reflexivity]). Qed.
Lemma dist_ok w c t : cfg_ok c -> nlm w t -> exists r, dist c t = Ok r /\ wd r /\ (w = true -> forall I e, holds I e r = holds I e t).
Proof.
  intros Hc. induction t as [k s n ch IH] using term_ind'. rewrite Forall_forall in IH. intros F.
  inversion F as [t S|conj m ps L N C]; subst.
  - exists (T k s n ch). split; [cbn [dist]; rewrite (slit_isLiteral _ S); reflexivity|]. split; [now apply WD_ct, C_lit|reflexivity].
  - destruct (jk_lit conj n ch) as [EL EA].
    assert (G : exists us, dist_list (dist c) ch = Ok us /\ length us = length ch /\ (forall u, In u us -> wd u) /\ (w = true -> forall I e, map (holds I e) us = map (holds I e) ch)).
    { clear - IH C. induction ch as [|x ch IHl]; [exists []; repeat split; intros ? []|].
      destruct (IH x (or_introl eq_refl) (C x (or_introl eq_refl))) as (r & E & W & V).
      destruct IHl as (us & E2 & L2 & W2 & V2); [intros y Hy; apply IH; now right|intros y Hy; apply C; now right|].
      exists (r :: us). split; [cbn [dist_list]; fold (dist_list (dist c)); rewrite E; cbn [bind]; rewrite E2; reflexivity|]. split; [cbn; lia|].
      split; [intros u [ <- | Hu ]; auto|]. intros Hw I e. cbn [map]. now rewrite (V Hw), (V2 Hw). }
    destruct G as (us & E & Ln & Wu & Vu). assert (NE : ch <> []) by (intros ->; cbn in L; lia).
    destruct conj.
    + destruct (dnfAnd_ok c us Hc Wu) as (r & Er & Wr & Vr). exists r. split; [|split; [exact Wr|]].
      * cbn [dist jk]. cbn [jk] in EL, EA. rewrite EL. cbn [bind]. rewrite EA. cbn [bind orb]. change (isk NT_TEMP_VAR (T NT_AND boolS n ch)) with false. cbv iota. rewrite E. exact Er.
      * intros Hw I e. rewrite Vr by (rewrite Ln; auto). cbn [jk]. rewrite holds_and by exact NE. now rewrite !forallb_mapid, (Vu Hw).
    + destruct (dnfOr_ok c us Hc Wu) as (r & Er & Wr & Vr). exists r. split; [|split; [exact Wr|]].
      * cbn [dist jk]. cbn [jk] in EL, EA. rewrite EL. cbn [bind]. rewrite EA. cbn [bind orb]. change (isk NT_TEMP_VAR (T NT_OR boolS n ch)) with false. cbv iota. rewrite E. exact Er.
      * intros Hw I e. rewrite Vr. cbn [jk]. rewrite holds_or by exact NE. now rewrite !existsb_mapid, (Vu Hw).
Qed.

(** ** flattening *)
Definition fl_good (c : cfg) (t : term) : Prop := exists r, flattenDNF c t = Ok r /\ ct r /\ forall I e, holds I e r = holds I e t.
Lemma dedup_sem (conj : bool) (f : term -> bool) l : jsem conj f (dedup [] l) = jsem conj f l.
Proof.
  assert (G : forall l seen, jsem conj f (dedup seen l) = true -> jsem conj f seen = true -> conj = true -> jsem conj f l = true).
  { destruct conj; [|intros; discriminate]. clear l. cbn [jsem]. induction l as [|x l IH]; intros seen H Hs _; [reflexivity|]. cbn [dedup] in H. cbn [forallb].
    destruct (existsb (teq x) seen) eqn:E.
    - rewrite (IH seen H Hs eq_refl), andb_true_r. apply existsb_exists in E. destruct E as (y & Hy & E). apply teq_spec in E. subst y. exact (proj1 (forallb_forall f seen) Hs x Hy).
    - cbn [forallb] in H. apply andb_true_iff in H. destruct H as [H1 H2]. rewrite H1. cbn. apply (IH (x :: seen)); [exact H2|cbn; now rewrite H1|reflexivity]. }
  assert (G2 : forall l seen, jsem conj f l = true -> jsem conj f seen = false -> conj = false -> jsem conj f (dedup seen l) = true).
  { destruct conj; [intros; discriminate|]. clear l G. cbn [jsem]. induction l as [|x l IH]; intros seen H Hs _; [discriminate H|]. cbn [dedup]. cbn [existsb] in H.
    destruct (existsb (teq x) seen) eqn:E.
    - apply existsb_exists in E. destruct E as (y & Hy & E). apply teq_spec in E. subst y.
      assert (F : f x = false) by (destruct (f x) eqn:Fx; [|reflexivity]; rewrite <- Hs; symmetry; apply existsb_exists; exists x; auto). rewrite F in H. now apply IH.
    - cbn [existsb]. destruct (f x) eqn:Fx; [reflexivity|]. apply (IH (x :: seen)); [exact H|cbn; now rewrite Fx|reflexivity]. }
  assert (Inc : incl (dedup [] l) l) by (intros x Hx; now apply dedup_incl in Hx).
  destruct conj; cbn [jsem] in *.
  - destruct (forallb f l) eqn:E; [apply forallb_forall; intros x Hx; exact (proj1 (forallb_forall f l) E x (Inc x Hx))|].
    destruct (forallb f (dedup [] l)) eqn:E2; [|reflexivity]. rewrite (G l [] E2 eq_refl eq_refl) in E. discriminate E.
  - destruct (existsb f l) eqn:E; [exact (G2 l [] E eq_refl eq_refl)|]. destruct (existsb f (dedup [] l)) eqn:E2; [|reflexivity].
    apply existsb_exists in E2. destruct E2 as (x & Hx & Fx). rewrite <- E. symmetry. apply existsb_exists. exists x. auto.
Qed.
Lemma flat_step c (conj : bool) us : cfg_ok c -> (forall u, In u us -> ct u) ->
  exists r, match dedup [] us with [u] => Ok u | vs => mkJunction c (jk conj) vs end = Ok r /\ (conj = true -> ct r) /\ wd r /\ forall I e, holds I e r = jsem conj (holds I e) us.
Proof.
  intros Hc H. assert (Hd : forall u, In u (dedup [] us) -> ct u) by (intros u Hu; apply H; now apply dedup_incl in Hu).
  assert (G : exists r, mkJunction c (jk conj) (dedup [] us) = Ok r /\ (conj = true -> ct r) /\ wd r /\ forall I e, holds I e r = jsem conj (holds I e) us).
  { destruct conj.
    - destruct (and_ct c _ Hc Hd) as (r & E & C & V). exists r. split; [exact E|]. split; [auto|]. split; [now apply WD_ct|]. intros I e. rewrite V. exact (dedup_sem true (holds I e) us).
    - destruct (or_wd c _ Hc Hd) as (r & E & C & V). exists r. split; [exact E|]. split; [discriminate|]. split; [exact C|]. intros I e. rewrite V. exact (dedup_sem false (holds I e) us). }
  destruct (dedup [] us) as [|u [|v vs]]; exact G.
Qed.
Definition fls (f : term -> res term) := fix go2 (m : list term) : res (list term) :=
  match m with [] => Ok [] | y :: m' => u <- f y ;; us <- go2 m' ;; Ok (u :: us) end.
Lemma fls_ok c l : (forall x, In x l -> fl_good c x) -> exists us, fls (flattenDNF c) l = Ok us /\ (forall u, In u us -> ct u) /\ forall I e, map (holds I e) us = map (holds I e) l.
Proof.
  induction l as [|x l IH]; intros H; [exists []; split; [reflexivity|split; [intros ? []|reflexivity]]|]. destruct (H x (or_introl eq_refl)) as (r & E & C & V).
  destruct IH as (us & E2 & C2 & V2); [intros; apply H; now right|]. exists (r :: us). cbn [fls]. fold (fls (flattenDNF c)). rewrite E. cbn [bind]. rewrite E2.
  split; [reflexivity|]. split; [intros u [ <- | Hu ]; auto|]. intros I e. cbn. now rewrite V, V2.
Qed.
Lemma fl_ch_ok c (conj : bool) l : (forall x, In x l -> ct x /\ fl_good c x /\ forall y, In y (t_ch x) -> fl_good c y) ->
  exists us, fl_children (flattenDNF c) (jk conj) l = Ok us /\ (forall u, In u us -> ct u) /\ forall I e, jsem conj (holds I e) us = jsem conj (holds I e) l.
Proof.
  induction l as [|x l IH]; intros H; [exists []; split; [reflexivity|split; [intros ? []|reflexivity]]|]. destruct (H x (or_introl eq_refl)) as (Cx & Gx & Gy).
  destruct IH as (us & E2 & C2 & V2); [intros; apply H; now right|].
  assert (A : exists vs, (match x with T k' _ _ ch => if keq k' (jk conj) then fls (flattenDNF c) ch else u <- flattenDNF c x ;; Ok [u] end) = Ok vs /\ (forall u, In u vs -> ct u) /\
    forall I e, jsem conj (holds I e) vs = holds I e x).
  { destruct x as [k' s' n' ch']. destruct (keq k' (jk conj)) eqn:K.
    - apply keq_spec in K. subst k'. destruct (fls_ok c ch' Gy) as (vs & E & C & V). exists vs. split; [exact E|]. split; [exact C|]. intros I e.
      destruct conj; [|pose proof (ct_or _ Cx) as X; discriminate X].
      inversion Cx as [t S|m ch NE C']; subst; [destruct (slit_kind _ S) as [_ X]; discriminate X|]. cbn [jsem jk]. rewrite holds_and by exact NE. now rewrite !forallb_mapid, V.
    - destruct Gx as (r & E & C & V). rewrite E. exists [r]. split; [reflexivity|]. split; [intros u [ <- | [] ]; exact C|]. intros I e.
      destruct conj; cbn [jsem forallb existsb]; rewrite V; [apply andb_true_r|apply orb_false_r]. }
  destruct A as (vs & E & C & V). exists (vs ++ us). cbn [fl_children]. fold (fl_children (flattenDNF c) (jk conj)). fold (fls (flattenDNF c)).
  rewrite E. cbn [bind]. rewrite E2. cbn [bind]. split; [reflexivity|]. split; [intros u Hu; apply in_app_or in Hu; destruct Hu; auto|].
  intros I e. rewrite jsem_app, V, V2. now destruct conj.
Qed.
Lemma flat_node_eq c (conj : bool) n ch : flattenDNF c (T (jk conj) boolS n ch) =
  (us <- fl_children (flattenDNF c) (jk conj) ch ;; match dedup [] us with [u] => Ok u | vs => mkJunction c (jk conj) vs end).
Proof. destruct conj; reflexivity. Qed.
Lemma flat_ct c t : cfg_ok c -> (ct t -> fl_good c t) /\ (ct t -> forall y, In y (t_ch t) -> fl_good c y).
Proof.
  intros Hc. induction t as [k s n ch IH] using term_ind'. rewrite Forall_forall in IH.
  assert (B : ct (T k s n ch) -> forall y, In y ch -> ct y /\ fl_good c y).
  { intros F y Hy. assert (Cy : ct y) by (exact (wd_ch _ y (WD_ct _ F) Hy)). split; [exact Cy|]. exact (proj1 (IH y Hy) Cy). }
  split; [|intros F y Hy; exact (proj2 (B F y Hy))].
  intros F. inversion F as [t S|m ch' NE C]; subst.
  - exists (T k s n ch). destruct (slit_kind _ S) as [K1 K2]. unfold isk in K1, K2. cbn [t_kind] in K1, K2.
    split; [cbn [flattenDNF]; rewrite K1, K2; reflexivity|]. split; [exact F|reflexivity].
  - unfold fl_good. change NT_AND with (jk true). rewrite flat_node_eq.
    destruct (fl_ch_ok c true ch) as (us & E & Cu & Vu); [intros x Hx; split; [exact (C x Hx)|split; [exact (proj2 (B F x Hx))|exact (proj2 (IH x Hx) (C x Hx))]]|].
    rewrite E. cbn [bind]. destruct (flat_step c true us Hc Cu) as (r & Er & Cr & _ & Vr). exists r. split; [exact Er|]. split; [now apply Cr|].
    intros I e. rewrite Vr, Vu. cbn [jk jsem]. now rewrite holds_and.
Qed.
Lemma flat_wd c t : cfg_ok c -> wd t -> exists r, flattenDNF c t = Ok r /\ wd r /\ forall I e, holds I e r = holds I e t.
Proof.
  intros Hc [t' C|n ch NE C].
  - destruct (proj1 (flat_ct c t' Hc) C) as (r & E & Cr & V). exists r. split; [exact E|]. split; [now apply WD_ct|exact V].
  - change NT_OR with (jk false). rewrite flat_node_eq.
    destruct (fl_ch_ok c false ch) as (us & E & Cu & Vu); [intros x Hx; split; [now apply C|split; [exact (proj1 (flat_ct c x Hc) (C x Hx))|exact (proj2 (flat_ct c x Hc) (C x Hx))]]|].
    rewrite E. cbn [bind]. destruct (flat_step c false us Hc Cu) as (r & Er & _ & Wr & Vr). exists r. split; [exact Er|]. split; [exact Wr|].
    intros I e. rewrite Vr, Vu. cbn [jk jsem]. now rewrite holds_or.
Qed.
Lemma toDNF_ok w c t : cfg_ok c -> dfm w t -> unshared t ->
  exists r, toDNF c t = Ok r /\ wd r /\ (w = true -> forall I e, holds I e r = holds I e t).
Proof.
  intros Hc F U. destruct (elimAll_ok w c t Hc F U) as (u & E & A & V). destruct (nnf_af w c u Hc A false) as (v & Ev & Nv & Vv).
  destruct (dist_ok w c v Hc Nv) as (x & Ex & Wx & Vx). destruct (flat_wd c x Hc Wx) as (r & Er & Wr & Vr).
  exists r. unfold toDNF, toNNF, applyDNF. rewrite E. cbn [bind]. rewrite Ev. cbn [bind]. rewrite Ex. cbn [bind]. split; [exact Er|]. split; [exact Wr|].
  intros Hw I e. now rewrite Vr, (Vx Hw), Vv, xorb_false_l, V.
Qed.
(** ** the conjunction of several formulas *)
Lemma nodup_flat_in (l : list term) : NoDup (flat_map chs l) -> forall x y z, In x l -> In y l -> x <> y -> In z (chs x) -> ~ In z (chs y).
Proof.
  induction l as [|a l IH]; intros ND x y z Hx Hy D Zx Zy; [destruct Hx|]. cbn [flat_map] in ND.
  assert (K : forall u v, In v (chs a) -> In u l -> ~ In v (chs u)).
  { clear - ND. intros u v Hv Hu Hvu. induction (chs a) as [|p ps IHp]; [destruct Hv|]. inversion ND as [|? ? N1 N2]; subst.
    destruct Hv as [ -> | Hv ]; [|now apply IHp]. apply N1, in_or_app. right. apply in_flat_map. exists u. now split. }
  destruct Hx as [ <- | Hx ], Hy as [ <- | Hy ]; [congruence|exact (K y z Zx Hy Zy)|exact (K x z Zy Hx Zx)|].
  exact (IH (nodup_app_r _ _ ND) x y z Hx Hy D Zx Zy).
Qed.
Lemma nodup_sub (l qs : list term) : NoDup (flat_map chs l) -> NoDup qs -> incl qs l -> NoDup (flat_map chs qs).
Proof.
  intros ND. induction qs as [|q qs IH]; intros NQ Hi; [constructor|]. inversion NQ as [|? ? N1 N2]; subst. cbn [flat_map].
  assert (IH' : NoDup (flat_map chs qs)) by (apply IH; [exact N2|intros x Hx; apply Hi; now right]).
  assert (Nq : NoDup (chs q)).
  { clear - ND Hi. specialize (Hi q (or_introl eq_refl)). induction l as [|a l IHl]; [destruct Hi|]. cbn [flat_map] in ND.
    destruct Hi as [ -> | Hi ]; [now apply nodup_app_l in ND|]. apply IHl; [now apply nodup_app_r in ND|exact Hi]. }
  assert (Dj : forall z, In z (chs q) -> ~ In z (flat_map chs qs)).
  { intros z Hz F. apply in_flat_map in F. destruct F as (y & Hy & Zy). apply (nodup_flat_in l ND q y z); auto; [apply Hi; now left|apply Hi; now right|].
    intros ->. contradiction. }
  clear - Nq Dj IH'. induction (chs q) as [|p ps IHp]; [exact IH'|]. inversion Nq as [|? ? M1 M2]; subst. cbn. constructor.
  - intros F. apply in_app_or in F. destruct F as [F|F]; [contradiction|]. exact (Dj p (or_introl eq_refl) F).
  - apply IHp; [exact M2|intros z Hz; apply Dj; now right].
Qed.
Lemma toDNFs_ok w c ts : cfg_ok c -> (w = true -> (length ts <= 2)%nat) -> (forall t, In t ts -> dfm w t) -> NoDup (flat_map chs ts) ->
  exists r, toDNFs c ts = Ok r /\ wd r /\ (w = true -> forall I e, holds I e r = forallb (holds I e) ts).
Proof.
  intros Hc HN F ND. assert (HB : bool_args ts) by (apply goodB_args; intros p Hp; now apply (dfm_good w), F).
  destruct (mkJunction_sound c true ts Hc HB) as (t & E & V).
  assert (G : dfm w t /\ unshared t).
  { pose proof E as E'. apply (mkJunction_shape c true) in E'; [|exact Hc|exact HB]. destruct E' as [ -> | [ -> | [Hin|(qs & -> & L & Hi & NQ & _)] ]].
    - split; [apply DF_true|constructor].
    - split; [apply DF_false|constructor].
    - split; [now apply F|]. unfold unshared. clear - ND Hin. induction ts as [|a l IHl]; [destruct Hin|]. cbn [flat_map] in ND.
      destruct Hin as [ -> | Hi ]; [now apply nodup_app_l in ND|]. apply IHl; [now apply nodup_app_r in ND|exact Hi].
    - split; [apply DF_and; [intros ->; cbn in L; lia|intros Hw; specialize (HN Hw); pose proof (NoDup_incl_length NQ Hi); lia|auto]|].
      unfold unshared. rewrite chs_node. cbn [jk]. change (rewritten (T NT_AND boolS (kindToString NT_AND) qs)) with false. cbn [app]. exact (nodup_sub ts qs ND NQ Hi). }
  destruct (toDNF_ok w c t Hc (proj1 G) (proj2 G)) as (r & Er & Wr & Vr). exists r. unfold toDNFs, mkAnd. rewrite E. cbn [bind]. split; [exact Er|]. split; [exact Wr|].
  intros Hw I e. now rewrite (Vr Hw), V.
Qed.
