(** Proofs about let expansion. *)
From Coq Require Import QArith Qcanon Permutation.
From Verif Require Import Base KindModel SortModel TermModel Sem SemProofs SimpModel OpModel OpSpec OpProofs OpProofs2 OpProofs3 OpProofs4 OpProofs5 OpProofs6 OpProofs7 ShapeProofs TypedSpec TypedProofs ApplySpec
  TraverseProofs LetModel LetSpec.
From Coq Require Import Lia.
Open Scope nat_scope.

Lemma Ok_inj {A} (a b : A) : Ok a = Ok b -> a = b. Proof. congruence. Qed.
Section LX.
Context (c : cfg).
(** the recursion behind the loop *)
Definition xlist (f : term -> res (term * bool)) : list term -> res (list (term * bool)) :=
  fix go (l : list term) := match l with [] => Ok [] | x :: l' => r <- f x ;; rs <- go l' ;; Ok (r :: rs) end.
Fixpoint xlet (t : term) : res (term * bool) :=
  match t with T k s n ch => rs <- xlist xlet ch ;; xbuild c (T k s n ch) rs end.
Lemma xlet_eq t : xlet t = (rs <- xlist xlet (t_ch t) ;; xbuild c t rs). Proof. now destruct t. Qed.
Lemma xlist_cons f x l : xlist f (x :: l) = (r <- f x ;; rs <- xlist f l ;; Ok (r :: rs)). Proof. reflexivity. Qed.

Definition sound (V : xmemo) : Prop := forall t r, xfind t V = Some r -> xlet t = Ok r.
Definition grows (V W : xmemo) : Prop := forall t r, xfind t V = Some r -> xfind t W = Some r.
Lemma grows_refl V : grows V V. Proof. intros t r H. exact H. Qed.
Lemma grows_trans U V W : grows U V -> grows V W -> grows U W. Proof. intros A B t r H. apply B, A, H. Qed.
Lemma scan_known V ch rs : (forall x, In x ch -> xfind x V <> None) -> sound V -> xlist xlet ch = Ok rs -> scan_ch V ch = inl rs.
Proof.
  revert rs. induction ch as [|x ch IH]; intros rs H S E; [cbn in E; apply Ok_inj in E; now subst|].
  rewrite xlist_cons in E. cbn [scan_ch]. destruct (xfind x V) as [r|] eqn:F; [|exfalso; now apply (H x (or_introl eq_refl))].
  rewrite (S x r F) in E. cbn [bind] in E. destruct (xlist xlet ch) as [rs'| | | | |]; cbn [bind] in E; try discriminate E.
  apply Ok_inj in E. subst. rewrite (IH rs' (fun y Hy => H y (or_intror Hy)) S eq_refl). reflexivity.
Qed.
Lemma scan_miss V don x todo : (forall y, In y don -> xfind y V <> None) -> xfind x V = None -> scan_ch V (don ++ x :: todo) = inr x.
Proof.
  induction don as [|y don IH]; intros H E; cbn [app scan_ch]; [now rewrite E|].
  destruct (xfind y V) eqn:F; [|exfalso; now apply (H y (or_introl eq_refl))]. rewrite IH; [reflexivity| |exact E]. intros z Hz. apply H. now right.
Qed.
Definition only (n : nat) (V W : xmemo) : Prop := forall u, xfind u W <> None -> xfind u V <> None \/ tsize u <= n.
Definition steps (t : term) : Prop := forall r V rest, xlet t = Ok r -> sound V ->
  exists k V', k < 2 * tsize t /\ sound V' /\ grows V V' /\ only (tsize t) V V' /\ xfind t V' = Some r /\
    forall f, let_loop c (k + f) (t :: rest) V = let_loop c f rest V'.
Lemma steps_ch t rest : forall todo don V, t_ch t = don ++ todo -> (forall x, In x todo -> steps x) ->
  (exists rs, xlist xlet todo = Ok rs) -> sound V -> xfind t V = None -> (forall x, In x don -> xfind x V <> None) ->
  exists k V', k <= 2 * sizes todo /\ sound V' /\ grows V V' /\ only (sizes todo) V V' /\ (forall x, In x (t_ch t) -> xfind x V' <> None) /\
    forall f, let_loop c (k + f) (t :: rest) V = let_loop c f (t :: rest) V'.
Proof.
  induction todo as [|x todo IH]; intros don V E HS [rs HX] SV HT HD.
  - exists 0, V. split; [cbn; lia|]. split; [exact SV|]. split; [apply grows_refl|]. split; [intros u; now left|].
    rewrite app_nil_r in E. rewrite E. split; [exact HD|reflexivity].
  - rewrite xlist_cons in HX. destruct (xlet x) as [r| | | | |] eqn:Ex; cbn [bind] in HX; try discriminate HX.
    destruct (xlist xlet todo) as [rs'| | | | |] eqn:El; cbn [bind] in HX; try discriminate HX.
    assert (E' : t_ch t = (don ++ [x]) ++ todo) by (rewrite <- app_assoc; exact E).
    change (sizes (x :: todo)) with (tsize x + sizes todo).
    destruct (xfind x V) as [r'|] eqn:F.
    + destruct (IH (don ++ [x]) V E' (fun y Hy => HS y (or_intror Hy)) (ex_intro _ rs' eq_refl) SV HT) as (k & V' & A & B & C & O & D & G).
      { intros y Hy. apply in_app_or in Hy. destruct Hy as [Hy|[ <- | [] ]]; [now apply HD|congruence]. }
      exists k, V'. split; [lia|]. split; [exact B|]. split; [exact C|]. split; [|split; [exact D|exact G]].
      intros u Hu. destruct (O u Hu); [now left|right; lia].
    + destruct (HS x (or_introl eq_refl) r V (t :: rest) Ex SV) as (k & V1 & A & B & C & O & D & G).
      assert (T1 : xfind t V1 = None).
      { destruct (xfind t V1) eqn:T1; [|reflexivity]. exfalso. destruct (O t) as [X|X]; [congruence|congruence|].
        assert (Hx : In x (t_ch t)) by (rewrite E; apply in_elt). apply size_in in Hx. pose proof (tsize_eq t). lia. }
      destruct (IH (don ++ [x]) V1 E' (fun y Hy => HS y (or_intror Hy)) (ex_intro _ rs' eq_refl) B T1) as (k2 & V2 & A2 & B2 & C2 & O2 & D2 & G2).
      { intros y Hy. apply in_app_or in Hy. destruct Hy as [Hy|[ <- | [] ]]; [|congruence]. specialize (HD y Hy).
        destruct (xfind y V) as [q|] eqn:Y; [|congruence]. rewrite (C y q Y). discriminate. }
      exists (S k + k2), V2. split; [lia|]. split; [exact B2|]. split; [eapply grows_trans; eassumption|]. split.
      { intros u Hu. destruct (O2 u Hu) as [X|X]; [destruct (O u X); [now left|right; lia]|right; lia]. }
      split; [exact D2|]. intros f. rewrite <- G2, <- G. rewrite <- Nat.add_assoc. cbn [Nat.add let_loop]. rewrite HT, E, (scan_miss V don x todo HD F). reflexivity.
Qed.
Lemma steps_all t : steps t.
Proof.
  induction t as [k s n ch IH] using term_ind'. rewrite Forall_forall in IH. intros r V rest HX SV.
  destruct (xfind (T k s n ch) V) as [r'|] eqn:F.
  - exists 1, V. pose proof (tsize_eq (T k s n ch)). split; [lia|]. split; [exact SV|]. split; [apply grows_refl|]. split; [intros u; now left|].
    pose proof (SV _ _ F) as X. rewrite HX in X. apply Ok_inj in X. subst r'. split; [exact F|]. intros f. cbn [Nat.add let_loop]. now rewrite F.
  - rewrite xlet_eq in HX. cbn [t_ch] in HX. destruct (xlist xlet ch) as [rs| | | | |] eqn:El; cbn [bind] in HX; try discriminate HX.
    destruct (steps_ch (T k s n ch) rest ch [] V eq_refl IH (ex_intro _ rs El) SV F) as (k1 & V1 & A & B & C & O & D & G); [intros x []|].
    cbn [t_ch] in D.
    assert (T1 : xfind (T k s n ch) V1 = None).
    { destruct (xfind (T k s n ch) V1) eqn:T1; [|reflexivity]. exfalso. destruct (O (T k s n ch)) as [X|X]; [congruence|congruence|].
      pose proof (tsize_eq (T k s n ch)) as Y. cbn [t_ch] in Y. lia. }
    exists (k1 + 1), ((T k s n ch, r) :: V1). pose proof (tsize_eq (T k s n ch)) as Y. cbn [t_ch] in Y. split; [lia|].
    assert (HH : xlet (T k s n ch) = Ok r) by (rewrite xlet_eq; cbn [t_ch]; rewrite El; exact HX).
    split; [|split; [|split; [|split]]].
    + intros u q. cbn [xfind]. destruct (teq u (T k s n ch)) eqn:Q; [|apply B]. apply teq_spec in Q. subst u. intros Z. injection Z as <-. exact HH.
    + intros u q Hu. cbn [xfind]. destruct (teq u (T k s n ch)) eqn:Q; [|now apply C]. apply teq_spec in Q. subst u. congruence.
    + intros u. cbn [xfind]. destruct (teq u (T k s n ch)) eqn:Q; [apply teq_spec in Q; subst u; right; lia|].
      intros Hu. destruct (O u Hu); [now left|right; lia].
    + cbn [xfind]. now rewrite teq_refl.
    + intros f. rewrite <- Nat.add_assoc, G. cbn [Nat.add let_loop]. rewrite T1. cbn [t_ch]. rewrite (scan_known V1 ch rs D B El). rewrite HX. reflexivity.
Qed.
Lemma let_run_eq t r : xlet t = Ok r -> let_run c t = Ok (fst r).
Proof.
  intros H. unfold let_run. destruct (steps_all t r [] [] H) as (k & V & A & _ & _ & _ & F & G); [intros u q X; discriminate X|].
  replace (S (2 * tsize t)) with (k + S (2 * tsize t - k)) by lia. rewrite G. cbn [let_loop bind]. now rewrite F.
Qed.
(** nothing to expand *)
Lemma without_ch k t x : without k t -> In x (t_ch t) -> without k x.
Proof. intros H Hx p Hp. apply H. now apply (Sub_ch p x). Qed.
Lemma xlet_none t : without NT_LET_BIND_VAR t -> xlet t = Ok (t, false).
Proof.
  induction t as [k s n ch IH] using term_ind'. intros H. rewrite xlet_eq. cbn [t_ch].
  assert (E : xlist xlet ch = Ok (map (fun x => (x, false)) ch)).
  { assert (HC : forall x, In x ch -> without NT_LET_BIND_VAR x) by (intros x Hx; now apply (without_ch _ (T k s n ch))).
    clear H. induction IH as [|x l Hx F IHl]; [reflexivity|]. rewrite xlist_cons, (Hx (HC x (or_introl eq_refl))). cbn [bind].
    rewrite IHl; [reflexivity|]. intros y Hy. apply HC. now right. }
  rewrite E. cbn [bind]. unfold xbuild. assert (isk NT_LET_BIND_VAR (T k s n ch) = false) as ->.
  { unfold isk. destruct (keq _ _) eqn:K; [|reflexivity]. apply DagProofs.keq_spec in K. exfalso. now apply (H _ (Sub_refl _)). }
  assert (existsb snd (map (fun x : term => (x, false)) ch) = false) as ->; [|reflexivity]. clear. induction ch; [reflexivity|exact IHch].
Qed.
(** ** what the constructor builds contains no let variable if its arguments do not *)
Definition nolet := without NT_LET_BIND_VAR.
Lemma nolet_leaf t : t_ch t = [] -> t_kind t <> NT_LET_BIND_VAR -> nolet t.
Proof. intros H N p Hp. inversion Hp as [|? y ? Hy]; subst; [exact N|]. rewrite H in Hy. destruct Hy. Qed.
Lemma nolet_node k s n ch : k <> NT_LET_BIND_VAR -> (forall x, In x ch -> nolet x) -> nolet (T k s n ch).
Proof. intros N H p Hp. inversion Hp as [|? y ? Hy Hs]; subst; [exact N|]. apply (H y Hy). exact Hs. Qed.
Lemma nolet_int z : nolet (mkConstInt z). Proof. apply nolet_leaf; [reflexivity|discriminate]. Qed.
Lemma nolet_real q : nolet (mkConstReal q). Proof. apply nolet_leaf; [reflexivity|discriminate]. Qed.
Lemma internal_nolet s k us : cfg_ok c -> k <> NT_LET_BIND_VAR -> (forall x, In x us -> nolet x) -> nolet (mkInternal c s k us).
Proof.
  intros Hc N H. unfold mkInternal. apply nolet_node; [exact N|]. destruct (isCommutative k); [|exact H].
  intros x Hx. apply H. apply (Permutation_in x (ok_sort c Hc us)). exact Hx.
Qed.
Lemma neg1_nolet p t : simp1 c NT_NEG p = Ok t -> isUnknown t = true \/ nolet t.
Proof.
  unfold simp1. change (kin NT_NEG float1_kinds) with false. change (kin NT_NEG nary1_kinds) with false. cbv iota zeta.
  destruct (isCInt p).
  - destruct (toInt c p); cbn [bind]; intros H; try discriminate H. apply Ok_inj in H. subst. right. apply nolet_int.
  - destruct (isCReal p); intros H; [|left; unfold unk in H; apply Ok_inj in H; now subst]. unfold realop in H. apply Ok_inj in H. subst. right. apply nolet_real.
Qed.
Lemma mkNeg_nolet p t : nolet p -> mkNeg c p = Ok t -> nolet t.
Proof.
  intros N. unfold mkNeg. destruct (simp1 c NT_NEG p) as [u| | | | |] eqn:E; cbn [bind]; intros H; try discriminate H. apply Ok_inj in H. subst t.
  destruct (neg1_nolet p u E) as [U|U].
  - rewrite U. apply nolet_node; [discriminate|]. intros x [ <- | [] ]. exact N.
  - destruct (isUnknown u); [|exact U]. apply nolet_node; [discriminate|]. intros x [ <- | [] ]. exact N.
Qed.
Lemma arith2_nolet k a b t : In k [NT_ADD; NT_MUL; NT_SUB] -> (isUnknown a = true \/ nolet a) -> nolet b -> simp2 c k a b = Ok t -> isUnknown t = true \/ nolet t.
Proof.
  intros Hk Ha Hb H.
  repeat (destruct Hk as [ <- | Hk ]); try contradiction; cbn [simp2] in H;
  repeat match type of H with
  | (if ?b then _ else _) = _ => destruct b
  | mkNeg _ _ = _ => right; exact (mkNeg_nolet _ _ Hb H)
  | bind ?m _ = _ => destruct m; cbn [bind] in H; try discriminate H
  | unk = Ok _ => unfold unk in H
  | realop _ _ _ = _ => unfold realop in H
  | Ok _ = Ok _ => apply Ok_inj in H; subst
  end; try (left; reflexivity); try (right; first [apply nolet_int|apply nolet_real|assumption]); assumption.
Qed.
Lemma arithN_nolet k ps t : In k [NT_ADD; NT_MUL; NT_SUB] -> 2 <= length ps -> (forall p, In p ps -> nolet p) -> simp c k ps = Ok t -> isUnknown t = true \/ nolet t.
Proof.
  intros Hk Hl N H. assert (K : kin k leftfold_kinds = true) by (repeat (destruct Hk as [ <- | Hk ]); try contradiction; reflexivity).
  destruct (leftfold_kind k K) as (E1 & E2 & E3).
  destruct ps as [|a [|b [|d [|x ps]]]]; cbn [length] in Hl; try lia.
  - cbn [simp] in H. apply (arith2_nolet k a b t Hk); [right; apply N; now left|apply N; right; now left|exact H].
  - cbn [simp] in H. unfold simp3 in H. rewrite E1, E2 in H.
    assert (K' : kin k (NT_IMPLIES :: leftfold_kinds) = true) by (unfold kin in *; cbn [existsb]; now rewrite K, orb_true_r).
    rewrite K' in H. destruct (simp2 c k a b) as [u| | | | |] eqn:E; cbn [bind] in H; try discriminate H.
    apply (arith2_nolet k u d t Hk); [|apply N; right; right; now left|exact H].
    apply (arith2_nolet k a b u Hk); [right; apply N; now left|apply N; right; now left|exact E].
  - cbn [simp] in H. unfold simpN in H. rewrite E1, E2, E3, K in H.
    assert (G : forall l acc, nolet acc -> (forall p, In p l -> nolet p) -> fold_simp c k acc l = Ok t -> isUnknown t = true \/ nolet t).
    { clear -Hk. induction l as [|p l IH]; intros acc W F H; cbn [fold_simp] in H; [apply Ok_inj in H; subst; now right|].
      destruct (simp2 c k acc p) as [u| | | | |] eqn:E; cbn [bind] in H; try discriminate H.
      destruct (arith2_nolet k acc p u Hk (or_intror W) (F p (or_introl eq_refl)) E) as [U|U].
      - rewrite U in H. apply Ok_inj in H. subst. now left.
      - destruct (isUnknown u); [apply Ok_inj in H; subst; now left|]. apply (IH u U); [intros q Hq; apply F; now right|exact H]. }
    apply (G (b :: d :: x :: ps) a (N a (or_introl eq_refl)) (fun p Hp => N p (or_intror Hp)) H).
Qed.
Lemma constBv_nolet v w t : mkConstBv c v w = Ok t -> nolet t.
Proof.
  unfold mkConstBv. intros H. destruct (BVModel.natToBv_str _ _ _); cbn [bind] in H; try discriminate H. apply Ok_inj in H. subst t.
  apply nolet_leaf; [reflexivity|discriminate].
Qed.
Ltac nol := repeat match goal with
  | H : mkConstBv _ _ _ = Ok _ |- _ => right; exact (constBv_nolet _ _ _ H)
  | H : unk = Ok _ |- _ => left; unfold unk in H; apply Ok_inj in H; subst; reflexivity
  | H : bind ?m _ = Ok _ |- _ => destruct m; cbn [bind] in H; try discriminate H
  | H : (if ?b then _ else _) = Ok _ |- _ => destruct b
  end.
Lemma bv2_nolet k a b t : In k (NT_BV_CONCAT :: bvn_kinds) -> simp2 c k a b = Ok t -> isUnknown t = true \/ nolet t.
Proof.
  intros Hk H. repeat (destruct Hk as [ <- | Hk ]; [cbn [simp2] in H; nol|]). contradiction.
Qed.
Lemma bvN_nolet k ps t : In k bvn_kinds -> (2 <= length ps)%nat -> (forall x, In x ps -> nolet x) -> simp c k ps = Ok t -> isUnknown t = true \/ nolet t.
Proof.
  intros Hk Hl N H. assert (K : kin k leftfold_kinds = true) by (repeat (destruct Hk as [ <- | Hk ]); try contradiction; reflexivity).
  destruct (leftfold_kind k K) as (E1 & E2 & E3). assert (Hk' : In k (NT_BV_CONCAT :: bvn_kinds)) by (now right).
  destruct ps as [|a [|b [|d [|x ps]]]]; cbn [length] in Hl; try lia.
  - exact (bv2_nolet k a b t Hk' H).
  - cbn [simp] in H. unfold simp3 in H. rewrite E1, E2 in H.
    assert (K' : kin k (NT_IMPLIES :: leftfold_kinds) = true) by (unfold kin in *; cbn [existsb]; now rewrite K, orb_true_r).
    rewrite K' in H. destruct (simp2 c k a b) as [u| | | | |] eqn:E; cbn [bind] in H; try discriminate H.
    exact (bv2_nolet k u d t Hk' H).
  - cbn [simp] in H. unfold simpN in H. rewrite E1, E2, E3, K in H.
    assert (G : forall l acc, nolet acc -> fold_simp c k acc l = Ok t -> isUnknown t = true \/ nolet t).
    { clear -Hk'. induction l as [|p l IH]; intros acc W H; cbn [fold_simp] in H; [apply Ok_inj in H; subst; now right|].
      destruct (simp2 c k acc p) as [u| | | | |] eqn:E; cbn [bind] in H; try discriminate H.
      destruct (bv2_nolet k acc p u Hk' E) as [U|U].
      - rewrite U in H. apply Ok_inj in H. subst. now left.
      - destruct (isUnknown u); [apply Ok_inj in H; subst; now left|]. exact (IH u U H). }
    exact (G (b :: d :: x :: ps) a (N a (or_introl eq_refl)) H).
Qed.
Lemma bv1_nolet k p t : In k [NT_BV_NOT; NT_BV_NEG; NT_BV_TO_NAT] -> simp1 c k p = Ok t -> isUnknown t = true \/ nolet t.
Proof.
  intros Hk H. repeat (destruct Hk as [ <- | Hk ]); try contradiction; unfold simp1 in H;
    match type of H with context [kin ?k float1_kinds] => change (kin k float1_kinds) with false in H; change (kin k nary1_kinds) with false in H end;
    cbv iota zeta in H; nol.
  apply Ok_inj in H. subst t. right. apply nolet_int.
Qed.
Lemma mkOper_nolet s k r rs us t : cfg_ok c -> sig k r rs -> k <> NT_LET_BIND_VAR -> length us = length rs -> (forall x, In x us -> nolet x) -> mkOper c s k us = Ok t -> nolet t.
Proof.
  intros Hc H NK L N E.
  assert (NT : nolet TRUE) by (apply nolet_leaf; [reflexivity|discriminate]). assert (NF : nolet FALSE) by (apply nolet_leaf; [reflexivity|discriminate]).
  pose proof (internal_nolet s k us Hc NK N) as NI.
  destruct H as [|k n Hk Hn|n Hn Hn'|r Hr|k r n Hk Hr Hn|k Hk|k r n Hk Hr Hn|r Hr|r Hr|rs Hr Hr'|n r Hn Hr|k w Hk|k w nn Hk Hnn|k w Hk|w w' Hf|w]; try rewrite repeat_length in L.
  - destruct us as [|p [|]]; try discriminate L. destruct (mkOper_not_shape c _ _ t E) as [ -> | [ -> | -> ]]; [exact NT|exact NF|]. apply nolet_node; assumption.
  - subst n. destruct (boolk_of k (length us)) as [B1 B2]; [destruct Hk as [ <- | [ <- | [ <- | [] ]]]; cbn; tauto|exact Hn|].
    destruct (mkOper_shape c s k us t Hn B1 B2 E) as [ -> | [ -> | -> ]]; assumption.
  - subst n. destruct (boolk_of NT_IMPLIES (length us)) as [B1 B2]; [cbn; tauto|exact Hn|].
    destruct (mkOper_shape c s NT_IMPLIES us t Hn B1 B2 E) as [ -> | [ -> | -> ]]; assumption.
  - destruct us as [|y [|y0 [|y1 [|]]]]; try discriminate L. unfold mkOper in E. cbn [simp] in E. unfold simp3 in E.
    change (is_eqk NT_ITE) with false in E. change (is_disk NT_ITE) with false in E. change (kin NT_ITE (NT_IMPLIES :: leftfold_kinds)) with false in E. cbv iota in E.
    destruct (isTrue y); [cbn [bind] in E; apply Ok_inj in E; subst t; destruct (isUnknown y0); [exact NI|apply N; right; now left]|].
    destruct (isFalse y); [cbn [bind] in E; apply Ok_inj in E; subst t; destruct (isUnknown y1); [exact NI|apply N; right; right; now left]|].
    cbn in E. apply Ok_inj in E. subst t. exact NI.
  - subst n. destruct (boolk_of k (length us)) as [B1 B2]; [destruct Hk as [ <- | [ <- | [] ]]; cbn; tauto|exact Hn|].
    destruct (mkOper_shape c s k us t Hn B1 B2 E) as [ -> | [ -> | -> ]]; assumption.
  - destruct us as [|p [|q [|]]]; try discriminate L. assert (B1 : In k boolk) by (repeat (destruct Hk as [ <- | Hk ]); try contradiction; cbn; tauto).
    destruct (mkOper_shape c s k [p; q] t (le_n 2) B1 (or_introl eq_refl) E) as [ -> | [ -> | -> ]]; assumption.
  - subst n. unfold mkOper in E. destruct (simp c k us) as [u| | | | |] eqn:Es; cbn [bind] in E; try discriminate E. apply Ok_inj in E. subst t.
    destruct (arithN_nolet k us u Hk Hn N Es) as [U|U]; [now rewrite U|]. now destruct (isUnknown u).
  - destruct us as [|p [|]]; try discriminate L. unfold mkOper in E. change (simp c NT_NEG [p]) with (simp1 c NT_NEG p) in E.
    destruct (simp1 c NT_NEG p) as [u| | | | |] eqn:Es; cbn [bind] in E; try discriminate E. apply Ok_inj in E. subst t.
    destruct (neg1_nolet p u Es) as [U|U]; [now rewrite U|]. now destruct (isUnknown u).
  - congruence.
  - unfold mkOper in E. rewrite simp_let in E; [|reflexivity|intros ->; destruct rs; [congruence|discriminate L]]. cbn [bind unk] in E. apply Ok_inj in E. subst t. exact NI.
  - unfold mkOper in E. rewrite simp_let in E; [|reflexivity|intros ->; rewrite app_length in L; cbn in L; lia]. cbn [bind unk] in E. apply Ok_inj in E. subst t. exact NI.
  - destruct us as [|p [|]]; try discriminate L. unfold mkOper in E. change (simp c k [p]) with (simp1 c k p) in E.
    destruct (simp1 c k p) as [u| | | | |] eqn:Es; cbn [bind] in E; try discriminate E. apply Ok_inj in E. subst t.
    destruct (bv1_nolet k p u) as [U|U]; [cbn in *; tauto|exact Es|now rewrite U|]. now destruct (isUnknown u).
  - subst nn. unfold mkOper in E. destruct (simp c k us) as [u| | | | |] eqn:Es; cbn [bind] in E; try discriminate E. apply Ok_inj in E. subst t.
    destruct (bvN_nolet k us u Hk Hnn N Es) as [U|U]; [now rewrite U|]. now destruct (isUnknown u).
  - destruct us as [|p [|q [|]]]; try discriminate L. assert (B1 : In k boolk) by (repeat (destruct Hk as [ <- | Hk ]); try contradiction; cbn; tauto).
    destruct (mkOper_shape c s k [p; q] t (le_n 2) B1 (or_introl eq_refl) E) as [ -> | [ -> | -> ]]; assumption.
  - destruct us as [|p [|q [|]]]; try discriminate L. unfold mkOper in E. change (simp c NT_BV_CONCAT [p; q]) with (simp2 c NT_BV_CONCAT p q) in E.
    destruct (simp2 c NT_BV_CONCAT p q) as [u| | | | |] eqn:Es; cbn [bind] in E; try discriminate E. apply Ok_inj in E. subst t.
    destruct (bv2_nolet NT_BV_CONCAT p q u (or_introl eq_refl) Es) as [U|U]; [now rewrite U|]. now destruct (isUnknown u).
  - destruct us as [|p [|]]; try discriminate L. unfold mkOper in E. change (simp c NT_BV_TO_NAT [p]) with (simp1 c NT_BV_TO_NAT p) in E.
    destruct (simp1 c NT_BV_TO_NAT p) as [u| | | | |] eqn:Es; cbn [bind] in E; try discriminate E. apply Ok_inj in E. subst t.
    destruct (bv1_nolet NT_BV_TO_NAT p u) as [U|U]; [cbn; tauto|exact Es|now rewrite U|]. now destruct (isUnknown u).
Qed.

(** ** the value *)
Definition agr (r : cl) (u t : term) : Prop := forall I e, agree r (eval I e u) (eval I e t).
Definition expanded (r : cl) (t : term) : Prop := exists u b, xlet t = Ok (u, b) /\ wt r u /\ agr r u t /\ nolet u /\ (b = false -> u = t).
Lemma agr_refl r t : agr r t t. Proof. intros I e. now right. Qed.
Lemma expanded_list rs ch : Forall2 expanded rs ch -> exists us, xlist xlet ch = Ok us /\ Forall2 wt rs (map fst us) /\
  Forall2 (fun r p => forall I e, agree r (eval I e (fst p)) (eval I e (snd p))) rs (combine (map fst us) ch) /\ (forall x, In x (map fst us) -> nolet x) /\
  (existsb snd us = false -> map fst us = ch).
Proof.
  induction 1 as [|r t rs ch (u & b & P & W & A & N & B) H (us & Q & F & G & K & U)].
  - exists []. split; [reflexivity|]. split; [constructor|]. split; [constructor|]. split; [intros x []|reflexivity].
  - exists ((u, b) :: us). rewrite xlist_cons, P. cbn [bind]. rewrite Q. cbn [bind map fst combine]. split; [reflexivity|]. split; [now constructor|].
    split; [now constructor|]. split; [intros x [ <- | Hx ]; auto|]. cbn [existsb snd]. intros Z. apply orb_false_iff in Z. destruct Z as [Z1 Z2].
    rewrite (B Z1), (U Z2). reflexivity.
Qed.
Lemma uf_ch t x : uf_without_let t -> In x (t_ch t) -> uf_without_let x.
Proof. intros H Hx p Hp. apply H. now apply (Sub_ch p x). Qed.
Lemma self r t : wt r t -> nolet t -> expanded r t.
Proof. intros W N. exists t, false. split; [now apply xlet_none|]. split; [exact W|]. split; [apply agr_refl|]. split; [exact N|reflexivity]. Qed.
Lemma expand_wt r t : cfg_ok c -> wt r t -> uf_without_let t -> expanded r t.
Proof.
  intros Hc W. induction W as [k s n r A B| | |s z A|k s n r rs ch A B F IH|s n r rs ch A B D F IH|t W IH|w v A B] using wt_ind'; intros HL.
  - apply self; [now apply W_var|]. apply nolet_leaf; [reflexivity|]. cbn [t_kind]. intros ->. discriminate A.
  - apply self; [exact W_true|]. apply nolet_leaf; [reflexivity|discriminate].
  - apply self; [exact W_false|]. apply nolet_leaf; [reflexivity|discriminate].
  - apply self; [now apply W_int|]. apply nolet_leaf; [reflexivity|discriminate].
  - assert (IH' : Forall2 expanded rs ch).
    { clear -IH HL. assert (HC : forall y, In y ch -> uf_without_let y) by (intros y Hy; now apply (uf_ch (T k s n ch))).
      clear HL. induction IH as [|q y rs ch P IH IH2]; constructor; [apply P; apply HC; now left|]. apply IH2. intros z Hz. apply HC. now right. }
    destruct (expanded_list rs ch IH') as (us & Q & Fu & G & N & U). unfold expanded. rewrite xlet_eq. cbn [t_ch]. rewrite Q. cbn [bind]. unfold xbuild.
    destruct (isk NT_LET_BIND_VAR (T k s n ch)) eqn:K.
    + unfold isk in K. cbn [t_kind] in K. apply DagProofs.keq_spec in K. subst k. inversion A as [| | | | | | | |r' Hr| | | | | | |]; subst; try discriminate.
      all: try match goal with H : In _ [_; _; _] |- _ => repeat (destruct H as [H|H]; [discriminate H|]); destruct H end.
      all: try match goal with H : In _ [_; _] |- _ => repeat (destruct H as [H|H]; [discriminate H|]); destruct H end.
      all: try match goal with H : In _ arith_comp_kinds |- _ => cbn in H; repeat (destruct H as [H|H]; [discriminate H|]); destruct H end.
      all: try match goal with H : In _ bvn_kinds |- _ => cbn in H; repeat (destruct H as [H|H]; [discriminate H|]); destruct H end.
      all: try match goal with H : In _ bv_comp_kinds |- _ => cbn in H; repeat (destruct H as [H|H]; [discriminate H|]); destruct H end.
      destruct us as [|q us]; [inversion Fu|]. destruct us as [|q2 us]; [|inversion Fu as [|? ? ? ? X Y]; subst; inversion Y].
      inversion F as [|? x0 ? l0 X Y]; subst. inversion Y; subst. cbn [map combine] in *. inversion G as [|? ? ? ? G1 _]; subst. cbn [fst snd] in G1.
      exists (fst q), true. split; [reflexivity|]. split; [now inversion Fu|]. split.
      * intros I e. destruct (G1 I e) as [Z|Z]; [contradiction|]. right. rewrite Z. rewrite eval_app; [|discriminate|reflexivity]. reflexivity.
      * split; [apply N; now left|discriminate].
    + destruct (existsb snd us) eqn:CH.
      * destruct (mkOper_wt c s k r rs (map fst us) Hc A B Fu) as (u & M & Wu & V). cbn [t_sort t_kind]. rewrite M. cbn [bind]. exists u, true.
        split; [reflexivity|]. split; [exact Wu|]. split.
        { intros I e. destruct r as [| | | |w']; [| | |left; reflexivity|]. all: right; rewrite V;
            apply (eval_agree I e e k s _ s n _ rs (map fst us) ch A); try discriminate; try assumption;
            clear -G; remember (combine (map fst us) ch) as l eqn:El; clear El; induction G; constructor; [now apply H|assumption]. }
        split; [|discriminate]. apply (mkOper_nolet s k r rs (map fst us) u Hc A); [|symmetry; now apply (F2_len _ _ _ Fu)|exact N|exact M].
        intros ->. discriminate K.
      * exists (T k s n ch), false. split; [reflexivity|]. split; [now apply (W_app k s n r rs)|]. split; [apply agr_refl|]. split; [|reflexivity].
        rewrite <- (U eq_refl). apply nolet_node; [intros ->; discriminate K|exact N].
  - apply self; [now apply (W_uf s n r rs)|]. apply (HL _ (Sub_refl _)). reflexivity.
  - destruct (IH HL) as (u & b & P & Wu & V & N & E). exists u, b. split; [exact P|]. split; [now apply W_sub|]. split; [|split; [exact N|exact E]].
    intros I e. destruct (V I e) as [X|X]; [discriminate|now right].
  - apply self; [now apply W_bv|]. apply nolet_leaf; [reflexivity|discriminate].
Qed.
Lemma chain_parts r s n ch : wt r (T NT_LET_CHAIN s n ch) -> r <> CL -> exists bs b, ch = bs ++ [b] /\ bs <> [] /\ wt r b.
Proof.
  intros W. remember (T NT_LET_CHAIN s n ch) as t eqn:E. revert s n ch E.
  induction W as [k s n r A B| | |s z A|k s n r rs ch A B F _|s n r rs ch A B D F _|t W IH|w v A B] using wt_ind'; intros s' n' ch' E N; try discriminate E.
  - injection E as -> -> -> ->. discriminate A.
  - injection E as -> -> -> ->. inversion A as [| | | | | | | | | |m r' Hm Hr| | | | |]; subst;
      try match goal with H : In _ [_; _; _] |- _ => repeat (destruct H as [H|H]; [discriminate H|]); destruct H end;
      try match goal with H : In _ [_; _] |- _ => repeat (destruct H as [H|H]; [discriminate H|]); destruct H end;
      try match goal with H : In _ arith_comp_kinds |- _ => cbn in H; repeat (destruct H as [H|H]; [discriminate H|]); destruct H end;
      try match goal with H : In _ bvn_kinds |- _ => cbn in H; repeat (destruct H as [H|H]; [discriminate H|]); destruct H end;
      try match goal with H : In _ bv_comp_kinds |- _ => cbn in H; repeat (destruct H as [H|H]; [discriminate H|]); destruct H end.
    apply Forall2_app_inv_l in F. destruct F as (l1 & l2 & F1 & F2 & ->). inversion F2 as [|? b ? l3 Wb F3]; subst. inversion F3; subst.
    exists l1, b. split; [reflexivity|]. split; [|exact Wb]. intros ->. apply F2_len in F1. rewrite repeat_length in F1. cbn in F1. lia.
  - destruct (IH s' n' ch' E) as (bs & b & X & Y & Z); [discriminate|]. exists bs, b. split; [exact X|]. split; [exact Y|now apply W_sub].
Qed.
Lemma chain_value I e s n bs b : bs <> [] -> eval I e (T NT_LET_CHAIN s n (bs ++ [b])) = eval I e b.
Proof.
  intros H. rewrite eval_app; [|destruct bs; discriminate|reflexivity]. unfold app_sem. cbn [op_sem]. rewrite map_app. cbn [map].
  destruct (map (eval I e) bs ++ [eval I e b]) eqn:E; [destruct (map (eval I e) bs); discriminate E|]. rewrite <- E. now rewrite last_last.
Qed.
Theorem expandLet_ok r t : cfg_ok c -> wt r t -> r <> CL -> uf_without_let t -> t_kind t = NT_LET_CHAIN ->
  exists u, expandLet c true t = Ok u /\ wt r u /\ (forall I e, eval I e u = eval I e t) /\ nolet u.
Proof.
  intros Hc W N U K. destruct t as [k s n ch]. cbn [t_kind] in K. subst k. destruct (chain_parts r s n ch W N) as (bs & b & -> & Hb & Wb).
  unfold expandLet. unfold isk at 1 2 3. cbn [t_kind keq andb orb t_ch]. change (isk NT_LET (T NT_LET_CHAIN s n (bs ++ [b]))) with false. cbv iota.
  assert (L : (2 <=? length (bs ++ [b])) = true) by (apply Nat.leb_le; rewrite app_length; destruct bs; [congruence|cbn; lia]).
  change (keq NT_LET_CHAIN NT_LET || keq NT_LET_CHAIN NT_LET_CHAIN) with true. cbv iota.
  rewrite L. unfold condAssert. assert (X : forall d : bool, (if d && negb true then Abort else Ok tt) = Ok tt) by (intros []; reflexivity).
  try rewrite X. rewrite rev_app_distr. cbn [rev app].
  destruct (expand_wt r b Hc Wb) as (u & f & E & Wu & V & NL & _).
  { apply (uf_ch (T NT_LET_CHAIN s n (bs ++ [b]))); [exact U|]. apply in_or_app. right. now left. }
  exists u. split; [|split; [exact Wu|split; [|exact NL]]].
  - destruct (c_dbg c); cbn; exact (let_run_eq b (u, f) E).
  - intros I e. rewrite chain_value by exact Hb. destruct (V I e); [contradiction|assumption].
Qed.
End LX.
