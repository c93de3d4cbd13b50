(** Proofs about the well-sorted fragment of TypedSpec.v. *)
From Coq Require Import QArith Qcanon Permutation.
From Verif Require Import Base KindModel SortModel TermModel BVModel BVSpec UtilModel UtilSpec Sem SemProofs DagProofs SortProofs
  SimpModel OpModel OpSpec BVProofs BVProofs2 BVProofs3 BVProofs4 OpProofs OpProofs2 OpProofs3 OpProofs4 ShapeProofs TypedSpec.
Open Scope Z_scope.

Lemma wt_ind' (P : cl -> term -> Prop) :
  (forall k s n r, is_leaf_var k = true -> vsort r s -> P r (T k s n [])) ->
  P CB TRUE -> P CB FALSE ->
  (forall s z, s = intS \/ s = intorealS -> P CI (T NT_CONST s (Idec z) [])) ->
  (forall k s n r rs ch, sig k r rs -> rsort r s -> Forall2 wt rs ch -> Forall2 P rs ch -> P r (T k s n ch)) ->
  (forall s n r rs ch, ch <> [] -> ~ In CL rs -> vsort r s -> Forall2 wt rs ch -> Forall2 P rs ch -> P r (T NT_UF_APPLY s n ch)) ->
  (forall t, wt CI t -> P CI t -> P CR t) ->
  (forall w v, (0 < w)%nat -> fits w -> P (CV w) (T NT_CONST (bvS (Z.of_nat w)) (lit w v) [])) ->
  forall r t, wt r t -> P r t.
Proof.
  intros H1 H2 H3 H4 H5 H6 H7 H8. fix IH 3. intros r t W. destruct W as [k s n r A B| | |s z A|k s n r rs ch A B F|s n r rs ch A B D F|t W|w v A B].
  - now apply H1.
  - exact H2.
  - exact H3.
  - now apply H4.
  - apply (H5 k s n r rs ch A B F). clear A B. induction F as [|x y l m W F IHF]; constructor; [now apply IH|exact IHF].
  - apply (H6 s n r rs ch A B D F). clear A B D. induction F as [|x y l m W F IHF]; constructor; [now apply IH|exact IHF].
  - apply H7; [exact W|now apply IH].
  - now apply H8.
Qed.

Lemma Forall2_repeat {A B} (R : A -> B -> Prop) a n l : Forall2 R (repeat a n) l <-> (length l = n /\ Forall (R a) l).
Proof.
  revert l. induction n as [|n IH]; intros l; cbn [repeat]; split.
  - intros H. inversion H; subst. split; [reflexivity|constructor].
  - intros [H _]. destruct l; [constructor|discriminate].
  - intros H. inversion H; subst. destruct (proj1 (IH _) H4) as [L F]. split; [cbn; now f_equal|now constructor].
  - intros [L F]. destruct l as [|b l]; [discriminate|]. inversion F; subst. constructor; [assumption|]. apply IH. split; [now injection L|assumption].
Qed.
Lemma F2_len {A B} (R : A -> B -> Prop) l m : Forall2 R l m -> length l = length m.
Proof. induction 1; cbn; congruence. Qed.

(** ** values *)
Lemma sig_ne k r rs : sig k r rs -> rs <> [] /\ quantk k = false.
Proof.
  intros H. destruct H as [|k n Hk Hn|n Hn Hn'|r Hr|k r n Hk Hr Hn|k Hk|k r n Hk Hr Hn|r Hr|r Hr|rs Hr Hr'|n r Hn Hr|k w Hk|k w nn Hk Hnn|k w Hk|w w' Hf|w]; split; try discriminate; try reflexivity; try assumption;
    try (destruct n; [lia|discriminate]); try (destruct nn; [lia|discriminate]);
    try (repeat (destruct Hk as [ <- | Hk ]); try contradiction; reflexivity).
Qed.
Lemma F2_ne {A B} (R : A -> B -> Prop) l m : Forall2 R l m -> l <> [] -> m <> [].
Proof. intros H. inversion H; subst; [congruence|discriminate]. Qed.
Lemma vnum_sum r vs : r = CI \/ r = CR -> Forall (vcl r) vs -> vcl r (VNum (sumq vs)).
Proof.
  intros [ -> | -> ] H; [|eexists; reflexivity]. induction H as [|v vs [z ->] H IH].
  - exists 0. reflexivity.
  - destruct IH as [y IH]. injection IH as IH. exists (z + y). unfold sumq in *. cbn [fold_right num]. rewrite IH. now rewrite ZQ_add.
Qed.
Lemma vnum_prod r vs : r = CI \/ r = CR -> Forall (vcl r) vs -> vcl r (VNum (prodq vs)).
Proof.
  intros [ -> | -> ] H; [|eexists; reflexivity]. induction H as [|v vs [z ->] H IH].
  - exists 1. reflexivity.
  - destruct IH as [y IH]. injection IH as IH. exists (z * y). unfold prodq in *. cbn [fold_right num]. rewrite IH. now rewrite ZQ_mul.
Qed.
Lemma vnum_sub r v vs : r = CI \/ r = CR -> vcl r v -> Forall (vcl r) vs -> vcl r (VNum (subq v vs)).
Proof.
  intros [ -> | -> ] Hv H; [|eexists; reflexivity]. unfold subq. destruct Hv as [z ->]. cbn [num]. revert z.
  induction H as [|w vs [y ->] H IH]; intros z; cbn [fold_left num]; [now exists z|]. rewrite ZQ_sub. apply IH.
Qed.
(** bit-vector values *)
Lemma uv_vcl w z : vcl (CV w) (VBV w (uv w z)).
Proof. exists (uv w z). split; [|reflexivity]. apply uv_range. Qed.
Lemma bv2_vcl f w vs : vs <> [] -> Forall (vcl (CV w)) vs -> exists v, bv2 f vs = Some v /\ vcl (CV w) v.
Proof.
  intros N F. destruct F as [|v vs Hv F]; [congruence|]. pose proof Hv as (z & Hz & ->). cbn [bv2]. eexists. split; [reflexivity|].
  assert (G : forall a, vcl (CV w) a -> vcl (CV w) (fold_left (fun acc u => VBV w (uv w (f w (bvv acc) (bvv u)))) vs a)).
  { clear. induction vs as [|u vs IH]; intros a Ha; cbn [fold_left]; [exact Ha|]. apply IH, uv_vcl. }
  now apply G.
Qed.
Lemma sig_val k r rs vs : sig k r rs -> r <> CL -> Forall2 vcl rs vs ->
  exists v, op_sem k vs = Some v /\ vcl r v.
Proof.
  intros H N F. destruct H as [|k n Hk Hn|n Hn Hn'|r Hr|k r n Hk Hr Hn|k Hk|k r n Hk Hr Hn|r Hr|r Hr|rs Hr Hr'|n r Hn Hr|k w Hk|k w nn Hk Hnn|k w Hk|w w' Hf|w].
  - inversion F as [|? v ? l V G]; subst. inversion G; subst. cbn. eexists. split; [reflexivity|eexists; reflexivity].
  - apply Forall2_repeat in F. destruct F as [L F]. repeat (destruct Hk as [ <- | Hk ]); try contradiction; cbn [op_sem]; eexists; (split; [reflexivity|eexists; reflexivity]).
  - apply Forall2_repeat in F. destruct F as [L F]. destruct vs as [|a [|b vs]]; cbn [length] in L; try lia. cbn [op_sem]. eexists; (split; [reflexivity|eexists; reflexivity]).
  - inversion F as [|? v ? l V G]; subst. inversion G as [|? v2 ? l2 V2 G2]; subst. inversion G2 as [|? v3 ? l3 V3 G3]; subst. inversion G3; subst.
    cbn [op_sem]. eexists. split; [reflexivity|]. now destruct (truth v).
  - apply Forall2_repeat in F. destruct F as [L F]. destruct vs as [|a [|b vs]]; cbn [length] in L; try lia.
    repeat (destruct Hk as [ <- | Hk ]); try contradiction; cbn [op_sem cmpop]; eexists; (split; [reflexivity|eexists; reflexivity]).
  - inversion F as [|? v ? l V G]; subst. inversion G as [|? v2 ? l2 V2 G2]; subst. inversion G2; subst.
    repeat (destruct Hk as [ <- | Hk ]); try contradiction; cbn [op_sem cmpop]; eexists; (split; [reflexivity|eexists; reflexivity]).
  - apply Forall2_repeat in F. destruct F as [L F]. destruct vs as [|a [|b vs]]; cbn [length] in L; try lia.
    repeat (destruct Hk as [ <- | Hk ]); try contradiction; cbn [op_sem].
    + eexists; split; [reflexivity|now apply vnum_sum].
    + eexists; split; [reflexivity|now apply vnum_prod].
    + eexists; split; [reflexivity|]. inversion F; subst. now apply vnum_sub.
  - inversion F as [|? v ? l V G]; subst. inversion G; subst. cbn [op_sem]. eexists. split; [reflexivity|].
    destruct Hr as [ -> | -> ]; [|eexists; reflexivity]. destruct V as [z ->]. exists (- z). cbn [num]. now rewrite ZQ_opp.
  - inversion F as [|? v ? l V G]; subst. inversion G; subst. cbn [op_sem]. eexists. split; [reflexivity|assumption].
  - congruence.
  - apply Forall2_app_inv_l in F. destruct F as (l1 & l2 & F1 & F2 & ->). inversion F2 as [|? v ? l V G]; subst. inversion G; subst.
    cbn [op_sem]. destruct (l1 ++ [v]) eqn:E; [now destruct l1|]. eexists. split; [reflexivity|]. rewrite <- E, last_last. assumption.
  - inversion F as [|? v ? l V G]; subst. inversion G; subst. destruct V as (z & Hz & ->).
    repeat (destruct Hk as [ <- | Hk ]); try contradiction; cbn [op_sem]; eexists; (split; [reflexivity|apply uv_vcl]).
  - apply Forall2_repeat in F. destruct F as [L F]. rewrite op_sem_bv8 by exact Hk. apply bv2_vcl; [|exact F]. destruct vs; [cbn in L; lia|discriminate].
  - inversion F as [|? v ? l V G]; subst. inversion G as [|? v2 ? l2 V2 G2]; subst. inversion G2; subst.
    repeat (destruct Hk as [ <- | Hk ]); try contradiction; cbn [op_sem cmpop]; eexists; (split; [reflexivity|eexists; reflexivity]).
  - inversion F as [|? v ? l V G]; subst. inversion G as [|? v2 ? l2 V2 G2]; subst. inversion G2; subst.
    destruct V as (z & Hz & ->), V2 as (z2 & Hz2 & ->). cbn [op_sem fold_left bvw bvv]. eexists. split; [reflexivity|].
    eexists. split; [|reflexivity]. rewrite Nat2Z.inj_add, Z.pow_add_r by lia. nia.
  - inversion F as [|? v ? l V G]; subst. inversion G; subst. destruct V as (z & Hz & ->). cbn [op_sem]. eexists. split; [reflexivity|eexists; reflexivity].
Qed.
Lemma coerce_vcl r s v : vsort r s -> vcl r (coerce s v).
Proof. destruct r; cbn [vsort]; [intros ->; cbn; eauto|intros ->; cbn; eauto|intros ->; cbn; eauto|contradiction|].
  intros ->. unfold coerce, bvS. cbn -[uv Z.to_nat Z.of_nat vcl]. rewrite Nat2Z.id. apply uv_vcl. Qed.
Lemma vsort_ne r s : vsort r s -> r <> CL. Proof. destruct r; [discriminate|discriminate|discriminate|contradiction|discriminate]. Qed.
Lemma wt_val I e r t : wt r t -> vcl r (eval I e t).
Proof.
  intros W. induction W as [k s n r A B| | |s z A|k s n r rs ch A B F IH|s n r rs ch A B D F IH|t W IH|w v A B] using wt_ind'.
  - cbn [eval]. unfold leaf_sem. rewrite A. now apply coerce_vcl.
  - exists true. reflexivity.
  - exists false. reflexivity.
  - exists z. now apply eval_ic.
  - destruct r as [| | | |w'] eqn:R; [| | |constructor|].
    all: destruct (sig_ne k _ rs A) as [Hn Hq];
      destruct (sig_val k _ rs (map (eval I e) ch) A ltac:(discriminate)) as (v & E & V);
        [clear -IH; induction IH; constructor; assumption|];
      rewrite (eval_op I e k s n ch v); [exact V|now apply (F2_ne _ _ _ F)|exact Hq|exact E].
  - rewrite eval_app by (auto; reflexivity). unfold app_sem. cbn [op_sem]. now apply coerce_vcl.
  - destruct IH as [z IH]. rewrite IH. now exists (ZQ z).
  - fold (bc w v). rewrite eval_bc. apply uv_vcl.
Qed.
Lemma wt_numeric r t : r = CI \/ r = CR -> wt r t -> numeric t.
Proof. intros [ -> | -> ] W I e; pose proof (wt_val I e _ t W) as H; cbn in H; destruct H; eauto. Qed.

(** ** constants *)
Lemma leaf_not_const k : is_leaf_var k = true -> kin k const_kinds = false.
Proof. destruct k; intros H; try discriminate H; reflexivity. Qed.
Lemma sig_not_const k r rs : sig k r rs -> kin k const_kinds = false /\ keq k NT_UNKNOWN = false /\ keq k NT_ERROR = false.
Proof.
  intros H. destruct H as [|k n Hk Hn|n Hn Hn'|r Hr|k r n Hk Hr Hn|k Hk|k r n Hk Hr Hn|r Hr|r Hr|rs Hr Hr'|n r Hn Hr|k w Hk|k w nn Hk Hnn|k w Hk|w w' Hf|w]; try (repeat split; reflexivity);
    repeat (destruct Hk as [ <- | Hk ]); try contradiction; repeat split; reflexivity.
Qed.
Lemma wt_li r t : wt r t -> li t.
Proof.
  intros W. induction W as [k s n r A B| | |s z A|k s n r rs ch A B F IH|s n r rs ch A B D F IH|t W IH|w v A B] using wt_ind'.
  - assert (C : isConst (T k s n []) = false) by (now apply leaf_not_const). split; intros H; congruence.
  - split; [intros _; constructor|reflexivity].
  - split; [intros _; constructor|reflexivity].
  - now apply (li_ic s z).
  - destruct (sig_not_const _ _ _ A) as [C _]. assert (C' : isConst (T k s n ch) = false) by exact C. split; intros H; congruence.
  - split; intros H; discriminate H.
  - exact IH.
  - split; [intros _; now constructor|reflexivity].
Qed.
Lemma wt_not_unk r t : wt r t -> isUnknown t = false /\ isErr t = false.
Proof.
  intros W. induction W as [k s n r A B| | |s z A|k s n r rs ch A B F IH|s n r rs ch A B D F IH|t W IH|w v A B] using wt_ind'; try (split; reflexivity).
  - destruct k; try discriminate A; split; reflexivity.
  - destruct (sig_not_const _ _ _ A) as (_ & U & E). split; [exact U|exact E].
  - exact IH.
Qed.
Lemma wt_lits r ps : Forall (wt r) ps -> lits_ok ps /\ no_real ps.
Proof.
  intros H. split; intros p Hp; pose proof (proj1 (Forall_forall _ _) H p Hp) as W; destruct (wt_li r p W) as [A B]; assumption.
Qed.
Lemma wt_sort r t : wt r t -> r <> CL -> rsort r (t_sort t).
Proof.
  intros W. induction W as [k s n r A B| | |s z A|k s n r rs ch A B F IH|s n r rs ch A B D F IH|t W IH|w v A B] using wt_ind'; intros N; cbn [t_sort rsort]; try reflexivity; try tauto.
  - destruct r; cbn in *; tauto.
  - destruct r; cbn in *; tauto.
  - apply IH. discriminate.
Qed.
Lemma wt_not_array r t : wt r t -> r <> CL -> isArray t = false.
Proof.
  intros W N. pose proof (wt_sort r t W N) as H. unfold isArray, sis. destruct r; cbn [rsort] in H; try congruence.
  - rewrite H. reflexivity.
  - destruct H as [ H | [ H | H ]]; rewrite H; reflexivity.
  - destruct H as [ H | [ H | H ]]; rewrite H; reflexivity.
  - rewrite H. reflexivity.
Qed.

(** ** the generic constructor stays in the fragment *)
Lemma wt_perm r ps qs : Permutation ps qs -> Forall (wt r) ps -> Forall (wt r) qs.
Proof. intros P H. now apply (Permutation_Forall P). Qed.
Lemma simp2_arith_wt c k r a b t : cfg_ok c -> In k [NT_ADD; NT_MUL; NT_SUB] -> r = CI \/ r = CR -> (isUnknown a = true \/ wt r a) -> wt r b ->
  simp2 c k a b = Ok t -> isUnknown t = true \/ wt r t.
Proof.
  intros Hc Hk Hr Ha Hb H.
  assert (CIr : forall z, wt r (mkConstInt z)).
  { intros z. assert (W : wt CI (mkConstInt z)) by (apply W_int; auto). destruct Hr as [ -> | -> ]; [exact W|now apply W_sub]. }
  assert (Lb : li b) by (now apply (wt_li r)).
  assert (La : li a \/ isUnknown a = true) by (destruct Ha as [U|W]; [now right|left; now apply (wt_li r)]).
  assert (RR : isCReal a && isCReal b = true -> isCInt a && isCInt b = true).
  { intros X. apply andb_true_iff in X. destruct X as [X Y]. rewrite (li_real_int b Lb Y). destruct La as [La|U].
    - now rewrite (li_real_int a La X).
    - destruct (unk_tests a U) as (_ & Q & _). congruence. }
  assert (NG : forall u, mkNeg c b = Ok u -> wt r u).
  { intros u. unfold mkNeg, simp1. cbn [kin existsb float1_kinds nary1_kinds keq orb]. destruct (isCInt b) eqn:Cb.
    - destruct (li_int b Lb Cb) as (s & z & Hs & ->). rewrite toInt_ic by assumption. cbn [bind]. intros E. injection E as <-. apply CIr.
    - destruct (isCReal b) eqn:Rb; [rewrite (li_real_int b Lb Rb) in Cb; discriminate|]. cbn [bind unk]. change (isUnknown UNKNOWN) with true. cbv iota.
      intros E. injection E as <-. apply (W_app NT_NEG (t_sort b) _ r [r]); [now constructor| |constructor; [exact Hb|constructor]].
      apply wt_sort; [exact Hb|destruct Hr as [ -> | -> ]; discriminate]. }
  repeat (destruct Hk as [ <- | Hk ]); try contradiction; cbn [simp2] in H; destruct (arithOk a b); cbn [negb] in H;
    try (injection H as <-; now left).
  - destruct (isCInt a && isCInt b) eqn:C.
    + destruct (toInt c a) as [x| | | | |]; cbn [bind] in H; try discriminate H. destruct (toInt c b) as [y| | | | |]; cbn [bind] in H; try discriminate H.
      injection H as <-. right. apply CIr.
    + destruct (isCReal a && isCReal b); [specialize (RR eq_refl); discriminate|]. injection H as <-. now left.
  - destruct (isCInt a && isCInt b) eqn:C.
    + destruct (toInt c a) as [x| | | | |]; cbn [bind] in H; try discriminate H. destruct (toInt c b) as [y| | | | |]; cbn [bind] in H; try discriminate H.
      injection H as <-. right. apply CIr.
    + destruct (isCReal a && isCReal b); [specialize (RR eq_refl); discriminate|]. injection H as <-. now left.
  - destruct (isCInt a && isCInt b) eqn:C.
    + destruct (toInt c a) as [x| | | | |]; cbn [bind] in H; try discriminate H. destruct (toInt c b) as [y| | | | |]; cbn [bind] in H; try discriminate H.
      injection H as <-. right. apply CIr.
    + destruct (isCReal a && isCReal b); [specialize (RR eq_refl); discriminate|].
      destruct (isZero c a) as [za| | | | |]; cbn [bind] in H; try discriminate H. destruct za; [right; now apply NG|].
      destruct (isZero c b) as [zb| | | | |]; cbn [bind] in H; try discriminate H. destruct zb; injection H as <-; [exact Ha|now left].
Qed.
Lemma simp_fold_wt c k r ps t :
  (forall a b t, (isUnknown a = true \/ wt r a) -> wt r b -> simp2 c k a b = Ok t -> isUnknown t = true \/ wt r t) ->
  kin k leftfold_kinds = true -> (2 <= length ps)%nat -> Forall (wt r) ps ->
  simp c k ps = Ok t -> isUnknown t = true \/ wt r t.
Proof.
  intros ST K Hl F H.
  destruct (leftfold_kind k K) as (E1 & E2 & E3).
  destruct ps as [|a [|b [|d [|x ps]]]]; cbn [length] in Hl; try lia; inversion F as [|? ? Wa F1]; subst; inversion F1 as [|? ? Wb F2]; subst.
  - cbn [simp] in H. exact (ST a b t (or_intror Wa) Wb H).
  - cbn [simp] in H. unfold simp3 in H. rewrite E1, E2 in H.
    assert (K' : kin k (NT_IMPLIES :: leftfold_kinds) = true) by (unfold kin in *; cbn [existsb]; now rewrite K, orb_true_r).
    rewrite K' in H. inversion F2 as [|? ? Wd _]; subst. destruct (simp2 c k a b) as [u| | | | |] eqn:E; cbn [bind] in H; try discriminate H.
    pose proof (ST a b u (or_intror Wa) Wb E) as U. exact (ST u d t U Wd H).
  - cbn [simp] in H. unfold simpN in H. rewrite E1, E2, E3, K in H. clear K E1 E2 E3 F Hl. inversion F2 as [|? ? Wd Fl]; subst.
    assert (G : forall l acc, wt r acc -> Forall (wt r) l -> fold_simp c k acc l = Ok t -> isUnknown t = true \/ wt r t).
    { clear -ST. induction l as [|p l IH]; intros acc W F H; cbn [fold_simp] in H; [injection H as <-; now right|].
      inversion F as [|? ? Wp Fl]; subst. destruct (simp2 c k acc p) as [u| | | | |] eqn:E; cbn [bind] in H; try discriminate H.
      destruct (ST acc p u (or_intror W) Wp E) as [U|U].
      - rewrite U in H. injection H as <-. now left.
      - destruct (isUnknown u); [injection H as <-; now left|]. now apply (IH u). }
    apply (G _ a Wa F1 H).
Qed.
Lemma simp_arith_wt c k r ps t : cfg_ok c -> In k [NT_ADD; NT_MUL; NT_SUB] -> r = CI \/ r = CR -> (2 <= length ps)%nat -> Forall (wt r) ps ->
  simp c k ps = Ok t -> isUnknown t = true \/ wt r t.
Proof.
  intros Hc Hk Hr. apply simp_fold_wt; [|repeat (destruct Hk as [ <- | Hk ]); try contradiction; reflexivity].
  intros a b u. now apply simp2_arith_wt.
Qed.
Lemma wt_bvv w t : wt (CV w) t -> bv_valued w t.
Proof. intros W I e. exact (wt_val I e (CV w) t W). Qed.
Lemma wt_bvc w t : wt (CV w) t -> isCBV t = true -> exists v, (0 < w)%nat /\ fits w /\ t = bc w v.
Proof. intros W C. apply lb_const; [|exact C]. split; [apply (wt_li _ _ W)|now apply wt_bvv]. Qed.
Lemma simp2_bv_wt c k w a b t : In k bvn_kinds -> (isUnknown a = true \/ wt (CV w) a) -> wt (CV w) b ->
  simp2 c k a b = Ok t -> isUnknown t = true \/ wt (CV w) t.
Proof.
  intros Hk Ha Hb H. destruct (isCBV a && isCBV b) eqn:C.
  - pose proof C as C'. apply andb_true_iff in C'. destruct C' as [Cl Cr]. destruct Ha as [U|Wa].
    { exfalso. apply keq_spec in U. unfold isCBV, isConst in Cl. rewrite U in Cl. discriminate Cl. }
    destruct (wt_bvc w a Wa Cl) as (x & Hw & Hf & ->). destruct (wt_bvc w b Hb Cr) as (y & _ & _ & ->).
    assert (E : simp2 c k (bc w x) (bc w y) = Ok (bc w (bvf k x y))).
    { rewrite <- mkConstBv_lit with (c := c) by assumption.
      destruct Hk as [ <- | [ <- | [ <- | [ <- | [ <- | [ <- | [ <- | [ <- | [] ]]]]]]]]; cbn [simp2]; rewrite C; cbn [t_name bc].
      - rewrite bvAnd_ok. reflexivity.
      - rewrite bvOr_ok. reflexivity.
      - rewrite bvXor_ok. reflexivity.
      - rewrite bvNand_ok. reflexivity.
      - rewrite bvNor_ok. reflexivity.
      - rewrite bvXnor_ok. reflexivity.
      - rewrite bvAdd_ok by assumption. reflexivity.
      - rewrite bvMul_ok by assumption. reflexivity. }
    rewrite E in H. injection H as <-. right. now apply W_bv.
  - assert (E : simp2 c k a b = unk).
    { destruct Hk as [ <- | [ <- | [ <- | [ <- | [ <- | [ <- | [ <- | [ <- | [] ]]]]]]]]; cbn [simp2]; rewrite C; reflexivity. }
    rewrite E in H. injection H as <-. now left.
Qed.
Lemma simp_bvn_wt c k w ps t : In k bvn_kinds -> (2 <= length ps)%nat -> Forall (wt (CV w)) ps ->
  simp c k ps = Ok t -> isUnknown t = true \/ wt (CV w) t.
Proof.
  intros Hk. apply simp_fold_wt; [|repeat (destruct Hk as [ <- | Hk ]); try contradiction; reflexivity].
  intros a b u. now apply simp2_bv_wt.
Qed.

(** the signature as a domain of folding *)
Lemma F2_all r n us : Forall2 wt (repeat r n) us -> length us = n /\ Forall (wt r) us.
Proof. apply Forall2_repeat. Qed.
Lemma CR_of r t : r = CI \/ r = CR -> wt r t -> wt CR t.
Proof. intros [ -> | -> ] W; [now apply W_sub|exact W]. Qed.
Ltac args F := repeat match type of F with
  | Forall2 _ [] _ => inversion F; subst; clear F
  | Forall2 _ (_ :: _) _ => let G := fresh "F" in let W := fresh "W" in inversion F as [|? ? ? ? W G]; subst; clear F; rename G into F
  end.
Lemma wt_lits2 us : (forall u, In u us -> exists r, wt r u) -> lits_ok us /\ no_real us.
Proof. intros H. split; intros p Hp; destruct (H p Hp) as [r W]; destruct (wt_li r p W) as [A B]; assumption. Qed.
Lemma F2_in rs us : Forall2 wt rs us -> forall u, In u us -> exists r, wt r u /\ In r rs.
Proof. induction 1 as [|r u rs us W F IH]; intros v Hv; [contradiction|]. destruct Hv as [ <- | Hv ]; [exists r; split; [exact W|now left]|]. destruct (IH v Hv) as (q & A & B). exists q. split; [exact A|now right]. Qed.
Definition letk (k : kind) : bool := kin k [NT_LET_BIND_VAR; NT_LET_BIND_VAR_LIST; NT_LET_CHAIN].
Lemma sig_dom c k r rs us : sig k r rs -> letk k = false -> Forall2 wt rs us -> fold_dom c k us.
Proof.
  intros H N F. destruct (wt_lits2 us) as [L R]; [intros u Hu; destruct (F2_in _ _ F u Hu) as (q & W & _); now exists q|].
  split; [exact L|].
  destruct H as [|k n Hk Hn|n Hn Hn'|r Hr|k r n Hk Hr Hn|k Hk|k r n Hk Hr Hn|r Hr|r Hr|rs Hr Hr'|n r Hn Hr|k w Hk|k w nn Hk Hnn|k w Hk|w w' Hf|w]; try discriminate N;
    try (apply F2_all in F; destruct F as [ <- F]).
  - now apply F2_len in F.
  - repeat (destruct Hk as [ <- | Hk ]); try contradiction; exact Hn.
  - split; assumption.
  - now apply F2_len in F.
  - assert (X : forall p, In p us -> isArray p = false).
    { intros p Hp. apply (wt_not_array r); [|exact Hr]. now apply (proj1 (Forall_forall _ _) F). }
    repeat (destruct Hk as [ <- | Hk ]); try contradiction; [|split; [exact Hn|now left]]. split; [exact Hn|]. split; [now left|exact X].
  - apply F2_len in F. cbn in F. repeat (destruct Hk as [ <- | Hk ]); try contradiction; (split; [now symmetry|now left]).
  - assert (X : Forall numeric us) by (eapply Forall_impl; [|exact F]; intros p W; now apply (wt_numeric r)).
    repeat (destruct Hk as [ <- | Hk ]); try contradiction; repeat split; assumption.
  - apply F2_len in F. cbn in F. split; [now symmetry|exact R].
  - apply F2_len in F. cbn in F. repeat (destruct Hk as [ <- | Hk ]); try contradiction; now symmetry.
  - assert (X : (2 <= length us)%nat /\ exists w, Forall (bv_valued w) us).
    { split; [exact Hnn|]. exists w. eapply Forall_impl; [|exact F]. intros p W. now apply wt_bvv. }
    repeat (destruct Hk as [ <- | Hk ]); try contradiction; exact X.
  - assert (X : length us = 2%nat /\ exists w, Forall (bv_valued w) us).
    { args F. split; [reflexivity|]. exists w. repeat (constructor; [now apply wt_bvv|]). constructor. }
    repeat (destruct Hk as [ <- | Hk ]); try contradiction; exact X.
  - args F. exists w, w'. split; [now apply wt_bvv|]. split; [now apply wt_bvv|exact Hf].
  - apply F2_len in F. now symmetry.
Qed.
Lemma simp_let c k us : letk k = true -> us <> [] -> simp c k us = unk.
Proof.
  intros H N. destruct us as [|a [|b [|d [|x us]]]]; [congruence| | | |]; unfold letk in H; destruct k; try discriminate H; reflexivity.
Qed.
Lemma boolk_of k n : In k [NT_AND; NT_OR; NT_XOR; NT_IMPLIES; NT_EQ; NT_DISTINCT] -> (2 <= n)%nat ->
  In k boolk /\ (n = 2%nat \/ kin k (eq_kinds ++ distinct_kinds ++ [NT_AND; NT_OR; NT_IMPLIES; NT_XOR]) = true).
Proof. intros Hk Hn. split; [|right]; repeat (destruct Hk as [ <- | Hk ]); try contradiction; try reflexivity; cbn; tauto. Qed.
Lemma mkOper_wt c s k r rs us : cfg_ok c -> sig k r rs -> rsort r s -> Forall2 wt rs us ->
  exists t, mkOper c s k us = Ok t /\ wt r t /\ forall I e, eval I e t = eval I e (T k s (kindToString k) us).
Proof.
  intros Hc H Hs F. destruct (letk k) eqn:LK.
  { unfold mkOper. rewrite simp_let; [|exact LK|apply (F2_ne _ _ _ F); now apply (sig_ne k r rs)]. cbn [bind unk]. change (isUnknown UNKNOWN) with true. cbv iota.
    assert (X : isCommutative k = false) by (unfold letk in LK; destruct k; try discriminate LK; reflexivity).
    unfold mkInternal. rewrite X. eexists. split; [reflexivity|]. split; [|reflexivity]. now apply (W_app k s _ r rs). }
  destruct (mkOper_sound c s k us Hc (sig_dom c k r rs us H LK F)) as (t & E & V). exists t. split; [exact E|]. split; [|exact V].
  pose proof H as H0.
  destruct H as [|k n Hk Hn|n Hn Hn'|r Hr|k r n Hk Hr Hn|k Hk|k r n Hk Hr Hn|r Hr|r Hr|rs Hr Hr'|n r Hn Hr|k w Hk|k w nn Hk Hnn|k w Hk|w w' Hf|w]; try discriminate LK.
  - args F. cbn [rsort] in Hs. subst s. destruct (mkOper_not_shape c _ _ t E) as [ -> | [ -> | -> ]]; [exact W_true|exact W_false|].
    apply (W_app _ _ _ CB [CB]); [constructor|reflexivity|constructor; [assumption|constructor]].
  - apply F2_all in F. destruct F as [ <- F].
    destruct (boolk_of k (length us)) as [B1 B2]; [destruct Hk as [ <- | [ <- | [ <- | [] ]]]; cbn; tauto|exact Hn|].
    destruct (mkOper_shape c s k us t Hn B1 B2 E) as [ -> | [ -> | -> ]]; [exact W_true|exact W_false|].
    unfold mkInternal. assert (X : isCommutative k = true) by (repeat (destruct Hk as [ <- | Hk ]); try contradiction; reflexivity). rewrite X.
    apply (W_app k s _ CB (repeat CB (length us))); [exact H0|exact Hs|]. apply Forall2_repeat. pose proof (ok_sort c Hc us) as P.
    split; [now apply Permutation_length|]. apply (wt_perm CB us); [now apply Permutation_sym|exact F].
  - apply F2_all in F. destruct F as [ <- F].
    destruct (boolk_of NT_IMPLIES (length us)) as [B1 B2]; [cbn; tauto|exact Hn|].
    destruct (mkOper_shape c s NT_IMPLIES us t Hn B1 B2 E) as [ -> | [ -> | -> ]]; [exact W_true|exact W_false|].
    apply (W_app NT_IMPLIES s _ CB (repeat CB (length us))); [exact H0|exact Hs|]. apply Forall2_repeat. split; [reflexivity|exact F].
  - args F. unfold mkOper in E. cbn [simp] in E. unfold simp3 in E.
    change (is_eqk NT_ITE) with false in E. change (is_disk NT_ITE) with false in E. change (kin NT_ITE (NT_IMPLIES :: leftfold_kinds)) with false in E. cbv iota in E.
    destruct (isTrue y) eqn:T1; [cbn [bind] in E; injection E as <-; destruct (wt_not_unk r _ W0) as [ -> _]; exact W0|].
    destruct (isFalse y) eqn:T2; [cbn [bind] in E; injection E as <-; destruct (wt_not_unk r _ W1) as [ -> _]; exact W1|].
    cbn in E. injection E as <-. apply (W_app NT_ITE s _ r [CB; r; r]); [exact H0|exact Hs|repeat (constructor; [assumption|]); constructor].
  - apply F2_all in F. destruct F as [ <- F].
    destruct (boolk_of k (length us)) as [B1 B2]; [destruct Hk as [ <- | [ <- | [] ]]; cbn; tauto|exact Hn|].
    destruct (mkOper_shape c s k us t Hn B1 B2 E) as [ -> | [ -> | -> ]]; [exact W_true|exact W_false|].
    unfold mkInternal. assert (X : isCommutative k = true) by (repeat (destruct Hk as [ <- | Hk ]); try contradiction; reflexivity). rewrite X.
    apply (W_app k s _ CB (repeat r (length us))); [exact H0|exact Hs|]. apply Forall2_repeat. pose proof (ok_sort c Hc us) as P.
    split; [now apply Permutation_length|]. apply (wt_perm r us); [now apply Permutation_sym|exact F].
  - args F. assert (B1 : In k boolk) by (repeat (destruct Hk as [ <- | Hk ]); try contradiction; cbn; tauto).
    match type of E with mkOper c s k ?us = _ => destruct (mkOper_shape c s k us t (le_n 2) B1 (or_introl eq_refl) E) as [ -> | [ -> | -> ]] end; [exact W_true|exact W_false|].
    unfold mkInternal. assert (X : isCommutative k = false) by (repeat (destruct Hk as [ <- | Hk ]); try contradiction; reflexivity). rewrite X.
    apply (W_app k s _ CB [CR; CR]); [exact H0|exact Hs|repeat (constructor; [assumption|]); constructor].
  - apply F2_all in F. destruct F as [ <- F]. unfold mkOper in E. destruct (simp c k us) as [u| | | | |] eqn:Es; cbn [bind] in E; try discriminate E.
    destruct (simp_arith_wt c k r us u Hc Hk Hr Hn F Es) as [U|U].
    + rewrite U in E. injection E as <-. unfold mkInternal. apply (W_app k s _ r (repeat r (length us))); [exact H0|exact Hs|]. apply Forall2_repeat.
      destruct (isCommutative k); [|split; [reflexivity|exact F]]. pose proof (ok_sort c Hc us) as P.
      split; [now apply Permutation_length|]. apply (wt_perm r us); [now apply Permutation_sym|exact F].
    + destruct (wt_not_unk r u U) as [U' _]. rewrite U' in E. injection E as <-. exact U.
  - args F. unfold mkOper in E. cbn [simp] in E. unfold simp1 in E. cbn [kin existsb float1_kinds nary1_kinds keq orb] in E.
    pose proof (wt_li r _ W) as Lb. destruct (isCInt y) eqn:Cb.
    + destruct (li_int y Lb Cb) as (s' & z & Hs' & ->). rewrite toInt_ic in E by assumption. cbn [bind] in E.
      assert (G : Ok (mkConstInt (- z)) = Ok t) by exact E. injection G as <-.
      assert (W' : wt CI (mkConstInt (- z))) by (apply W_int; auto). destruct Hr as [ -> | -> ]; [exact W'|now apply W_sub].
    + destruct (isCReal y) eqn:Rb; [rewrite (li_real_int y Lb Rb) in Cb; discriminate|]. cbn [bind unk] in E.
      assert (G : Ok (T NT_NEG s (kindToString NT_NEG) [y]) = Ok t) by exact E. injection G as <-.
      apply (W_app NT_NEG s _ r [r]); [exact H0|exact Hs|constructor; [assumption|constructor]].
  - args F. rename y into p. unfold mkOper in E. cbn [simp] in E. destruct (isCBV p) eqn:C.
    + destruct (wt_bvc w p W C) as (v & Hw & Hf & ->).
      assert (E' : simp1 c k (bc w v) = Ok (bc w (match k with NT_BV_NOT => Z.lnot v | _ => - v end))).
      { rewrite <- mkConstBv_lit with (c := c) by assumption.
        destruct Hk as [ <- | [ <- | [] ]]; unfold simp1; cbn [kin existsb float1_kinds nary1_kinds keq orb]; rewrite C; cbn [t_name bc].
        - rewrite bvNot_ok. reflexivity.
        - rewrite bvNeg_ok. reflexivity. }
      rewrite E' in E. cbn [bind] in E. change (isUnknown (bc w _)) with false in E. cbv iota in E. injection E as <-. now apply W_bv.
    + assert (E' : simp1 c k p = unk).
      { destruct Hk as [ <- | [ <- | [] ]]; unfold simp1; cbn [kin existsb float1_kinds nary1_kinds keq orb]; rewrite C; reflexivity. }
      rewrite E' in E. cbn [bind unk] in E. change (isUnknown UNKNOWN) with true in E. cbv iota in E. injection E as <-.
      assert (X : isCommutative k = false) by (repeat (destruct Hk as [ <- | Hk ]); try contradiction; reflexivity). unfold mkInternal. rewrite X.
      apply (W_app k s _ (CV w) [CV w]); [exact H0|exact Hs|constructor; [assumption|constructor]].
  - apply F2_all in F. destruct F as [ <- F]. unfold mkOper in E. destruct (simp c k us) as [u| | | | |] eqn:Es; cbn [bind] in E; try discriminate E.
    destruct (simp_bvn_wt c k w us u Hk Hnn F Es) as [U|U].
    + rewrite U in E. injection E as <-. unfold mkInternal. apply (W_app k s _ (CV w) (repeat (CV w) (length us))); [exact H0|exact Hs|]. apply Forall2_repeat.
      destruct (isCommutative k); [|split; [reflexivity|exact F]]. pose proof (ok_sort c Hc us) as P.
      split; [now apply Permutation_length|]. apply (wt_perm (CV w) us); [now apply Permutation_sym|exact F].
    + destruct (wt_not_unk _ u U) as [U' _]. rewrite U' in E. injection E as <-. exact U.
  - args F. assert (B1 : In k boolk) by (repeat (destruct Hk as [ <- | Hk ]); try contradiction; cbn; tauto).
    match type of E with mkOper c s k ?us = _ => destruct (mkOper_shape c s k us t (le_n 2) B1 (or_introl eq_refl) E) as [ -> | [ -> | -> ]] end; [exact W_true|exact W_false|].
    unfold mkInternal. assert (X : isCommutative k = false) by (repeat (destruct Hk as [ <- | Hk ]); try contradiction; reflexivity). rewrite X.
    apply (W_app k s _ CB [CV w; CV w]); [exact H0|exact Hs|repeat (constructor; [assumption|]); constructor].
  - args F. rename y into p. rename y0 into q. unfold mkOper in E. cbn [simp] in E. destruct (isCBV p && isCBV q) eqn:C.
    + pose proof C as C'. apply andb_true_iff in C'. destruct C' as [Cl Cr].
      destruct (wt_bvc w p W Cl) as (a & Hw & Hfw & ->). destruct (wt_bvc w' q W0 Cr) as (b & Hw' & Hfw' & ->).
      cbn [simp2] in E. rewrite C in E. cbn [t_name bc] in E. rewrite bvConcat_ok in E by assumption. cbn [bind] in E. fold (bc w a) in E. fold (bc w' b) in E.
      rewrite !width_bc in E. cbn [bind] in E. pose proof Hf as Hf'. unfold fits in Hf'. rewrite u64_id in E by (unfold two64; lia).
      replace (Z.of_nat w + Z.of_nat w') with (Z.of_nat (w + w')) in E by lia.
      rewrite mkConstBv_lit in E by (unfold fits; lia). cbn [bind] in E. change (isUnknown (bc _ _)) with false in E. cbv iota in E. injection E as <-.
      apply W_bv; [lia|exact Hf].
    + cbn [simp2] in E. rewrite C in E. cbn [bind unk] in E. change (isUnknown UNKNOWN) with true in E. cbv iota in E. injection E as <-.
      apply (W_app NT_BV_CONCAT s _ (CV (w + w')) [CV w; CV w']); [exact H0|exact Hs|repeat (constructor; [assumption|]); constructor].
  - args F. rename y into p. unfold mkOper in E. cbn [simp] in E. unfold simp1 in E. cbn [kin existsb float1_kinds nary1_kinds keq orb] in E. destruct (isCBV p) eqn:C.
    + destruct (wt_bvc w p W C) as (v & Hw & Hf & ->). cbn [t_name bc] in E. rewrite bvToNat_ok in E. cbn [bind] in E.
      assert (G : Ok (mkConstInt (uv w v)) = Ok t) by exact E. injection G as <-. apply W_int. auto.
    + cbn [bind unk] in E. change (isUnknown UNKNOWN) with true in E. cbv iota in E. injection E as <-.
      apply (W_app NT_BV_TO_NAT s _ CI [CV w]); [exact H0|exact Hs|constructor; [assumption|constructor]].
Qed.

(** ** the value depends on the values of the arguments only *)
Definition agree (r : cl) (a b : value) : Prop := r = CL \/ a = b.
Lemma eval_agree I e f k s n s' n' r rs xs us : sig k r rs -> r <> CL -> Forall2 wt rs xs -> Forall2 wt rs us ->
  Forall2 (fun r p => agree r (eval I e (fst p)) (eval I f (snd p))) rs (combine xs us) ->
  eval I e (T k s n xs) = eval I f (T k s' n' us).
Proof.
  intros H N F G A. destruct (sig_ne k r rs H) as [Hn Hq].
  assert (VF : Forall2 vcl rs (map (eval I e) xs)) by (clear -F; induction F; cbn; constructor; [now apply wt_val|assumption]).
  assert (VG : Forall2 vcl rs (map (eval I f) us)) by (clear -G; induction G; cbn; constructor; [now apply wt_val|assumption]).
  destruct (sig_val k r rs _ H N VF) as (v & Ev & _). destruct (sig_val k r rs _ H N VG) as (vG & Ew & _).
  rewrite (eval_op I e k s n xs v), (eval_op I f k s' n' us vG); try assumption; try (now apply (F2_ne _ _ _ F)); try (now apply (F2_ne _ _ _ G)).
  enough (X : op_sem k (map (eval I e) xs) = op_sem k (map (eval I f) us)) by congruence.
  assert (EQ : ~ In CL rs -> map (eval I e) xs = map (eval I f) us).
  { intros Hc. clear -F G A Hc. revert us G A. induction F as [|q x rs xs W F IH]; intros us G A; inversion G; subst; [reflexivity|].
    cbn [combine] in A. inversion A as [|? ? ? ? A1 A2]; subst. cbn [map]. f_equal.
    - destruct A1 as [A1|A1]; [subst; exfalso; apply Hc; now left|exact A1].
    - apply IH; [intros Z; apply Hc; now right|assumption|assumption]. }
  destruct (kin k [NT_LET_CHAIN]) eqn:LC.
  - destruct H as [|k n0 Hk Hn'|n0 Hn' Hn''|r Hr|k r n0 Hk Hr Hn'|k Hk|k r n0 Hk Hr Hn'|r Hr|r Hr|rs Hr Hr'|n0 r Hn' Hr|k w Hk|k w nn Hk Hnn|k w Hk|w w' Hf|w];
      try discriminate LC; try (exfalso; repeat (destruct Hk as [ <- | Hk ]); try contradiction; discriminate LC).
    apply Forall2_app_inv_l in F. destruct F as (x1 & x2 & F1 & F2 & ->). inversion F2 as [|? x ? l Wx F3]; subst. inversion F3; subst.
    apply Forall2_app_inv_l in G. destruct G as (u1 & u2 & G1 & G2 & ->). inversion G2 as [|? u ? l' Wu G3]; subst. inversion G3; subst.
    rewrite !map_app in *. cbn [map] in *. cbn [op_sem].
    assert (LE : length x1 = length u1) by (apply F2_len in F1, G1; congruence).
    assert (Exu : eval I e x = eval I f u).
    { assert (C : combine (x1 ++ [x]) (u1 ++ [u]) = combine x1 u1 ++ [(x, u)]).
      { clear -LE. revert u1 LE. induction x1 as [|a x1 IH]; intros [|b u1] LE; try discriminate LE; [reflexivity|]. cbn. f_equal. apply IH. now injection LE. }
      rewrite C in A. apply Forall2_app_inv_l in A. destruct A as (c1 & c2 & A1 & A2 & E). inversion A2 as [|? p ? l AA A3]; subst. inversion A3; subst.
      apply app_inj_tail in E. destruct E as [_ <-]. destruct AA as [AA|AA]; [congruence|exact AA]. }
    destruct (map (eval I e) x1 ++ [eval I e x]) eqn:E1; [now destruct (map (eval I e) x1)|].
    destruct (map (eval I f) u1 ++ [eval I f u]) eqn:E2; [now destruct (map (eval I f) u1)|].
    rewrite <- E1, <- E2, !last_last. now rewrite Exu.
  - f_equal. apply EQ. intros Hc.
    destruct H as [|k n0 Hk Hn'|n0 Hn' Hn''|r Hr|k r n0 Hk Hr Hn'|k Hk|k r n0 Hk Hr Hn'|r Hr|r Hr|rs Hr Hr'|n0 r Hn' Hr|k w Hk|k w nn Hk Hnn|k w Hk|w w' Hf|w]; try discriminate LC; try congruence;
      try (apply repeat_spec in Hc; try congruence; destruct Hr as [ -> | -> ]; discriminate);
      cbn in Hc; try (destruct Hr as [ -> | -> ]); intuition congruence.
Qed.
