(** Proofs for C69, part 1: the constructors keep terms tidy: no operator is left applied to
    constants only. *)
From Coq Require Import QArith Qcanon Permutation.
From Verif Require Import Base LexSpec KindModel SortModel TermModel BVModel BVSpec UtilModel UtilSpec Sem SemProofs DagProofs SortProofs
  SimpModel OpModel OpSpec OpProofs OpProofs2 OpProofs3 OpProofs4 OpProofs5 OpProofs6 OpProofs7 ShapeProofs TypedSpec TypedProofs
  TraverseModel EvalModel EvalSpec EvalProofs EvalProofs2 EvalProofs3 EvalProofs4
  LexModel ParseModel ParseSpec CommandModel CommandSpec CtorModel MeanSpec MeanProofs MeanProofs2 MeanBv MeanProofs3.
Open Scope Z_scope.

Definition fold_kinds : list kind :=
  [NT_NOT; NT_AND; NT_OR; NT_XOR; NT_IMPLIES; NT_ITE; NT_EQ; NT_DISTINCT] ++ arith_comp_kinds ++ [NT_ADD; NT_MUL; NT_SUB; NT_NEG] ++
  [NT_BV_NOT; NT_BV_NEG] ++ bvn_kinds ++ bv_comp_kinds ++ [NT_BV_TO_NAT].
Definition open_list (ch : list term) : Prop := Exists (fun x => isConst x = false) ch.
(** the constants that may occur *)
Class Decls := decls : term -> Prop.
Inductive tidy {D : Decls} : term -> Prop :=
| Ti_leaf k s n : k <> NT_FUNC_PARAM -> (k = NT_CONST -> s <> intS) -> (kin k var_kinds = true -> decls (T k s n [])) -> tidy (T k s n [])
| Ti_app k s n ch : kin k fold_kinds = true -> Forall tidy ch -> open_list ch -> tidy (T k s n ch).
Section D.
Context {D : Decls}.
Lemma tidy_ch t x : tidy t -> In x (t_ch t) -> tidy x.
Proof. intros H Hx. destruct H as [|k s n ch K F O]; [contradiction|]. rewrite Forall_forall in F. now apply F. Qed.
Lemma tidy_open t : tidy t -> t_ch t <> [] -> open_list (t_ch t).
Proof. intros H N. destruct H; [now elim N|assumption]. Qed.
Lemma tidy_T : tidy TRUE. Proof. apply Ti_leaf; discriminate. Qed.
Lemma tidy_F : tidy FALSE. Proof. apply Ti_leaf; discriminate. Qed.
Lemma tidy_int z : tidy (mkConstInt z).
Proof. apply Ti_leaf; [discriminate| |discriminate]. intros _ X. apply (f_equal s_kind) in X. discriminate X. Qed.
Lemma tidy_lit r v : islit r v -> tidy v.
Proof. intros H. destruct H; [apply tidy_T|apply tidy_F|apply tidy_int|]. apply Ti_leaf; [discriminate| |discriminate]. intros _ X. apply (f_equal s_kind) in X. discriminate X. Qed.
Definition ec (r : cl) : ety := match r with CB => EB | CV w => EV w | _ => EI end.
(** a constant of a class is the constant the library builds *)
Lemma const_lit r t : r <> CL -> wt r t -> tidy t -> isConst t = true -> islit (ec r) t.
Proof.
  intros N W Ti C. pose proof (wt_const r t W C) as K. destruct r as [| | | |w]; cbn [ec].
  - destruct K as [ -> | -> ]; constructor.
  - destruct K as (s & z & [ -> | -> ] & ->); [|apply L_int]. inversion Ti as [? ? ? _ X _|]; subst; [now elim (X eq_refl)|discriminate].
  - destruct K as (s & z & [ -> | -> ] & ->); [|apply L_int]. inversion Ti as [? ? ? _ X _|]; subst; [now elim (X eq_refl)|discriminate].
  - congruence.
  - destruct K as (v & A & B & ->). now apply L_bv.
Qed.
Lemma open_or ch : open_list ch \/ Forall (fun x => isConst x = true) ch.
Proof.
  induction ch as [|x ch [IH|IH]]; [now right|left; now apply Exists_cons_tl|].
  destruct (isConst x) eqn:E; [right; now constructor|left; now apply Exists_cons_hd].
Qed.
Lemma open_perm l m : Permutation l m -> open_list l -> open_list m.
Proof. intros P H. unfold open_list in *. rewrite Exists_exists in *. destruct H as (x & Hx & C). exists x. split; [now apply (Permutation_in _ P)|exact C]. Qed.

End D.
Section F.
Context {fl : Flag} {DD : Decls}.
Definition gt (c : cfg) (r : cl) (t : term) : Prop := gd c r t /\ tidy t.
Lemma gt_gd c r us : Forall (gt c r) us -> Forall (gd c r) us.
Proof. intros F. eapply Forall_impl; [|exact F]. intros a H. apply H. Qed.
Lemma gt_ti c r us : Forall (gt c r) us -> Forall tidy us.
Proof. intros F. eapply Forall_impl; [|exact F]. intros a H. apply H. Qed.
Lemma gt_lits c r us : Forall (gt c r) us -> Forall (fun x => isConst x = true) us -> lits (ec r) us.
Proof.
  intros F C. apply Forall_forall. intros x Hx. rewrite Forall_forall in F, C. destruct (F x Hx) as ((N & W & _) & Ti). apply const_lit; auto.
Qed.
Lemma gt_lit c r u : gt c r u -> isConst u = true -> islit (ec r) u.
Proof. intros ((N & W & _) & Ti) C. now apply const_lit. Qed.
(** a node built by mkOper *)
Definition sorted (c : cfg) (k : kind) (us : list term) : list term := if isCommutative k then c_sort c us else us.
Lemma node_tidy c s k us : cfg_ok c -> kin k fold_kinds = true -> Forall tidy us -> open_list us -> tidy (mkInternal c s k us).
Proof.
  intros Hc K F O. unfold mkInternal. destruct (isCommutative k).
  - pose proof (ok_sort c Hc us) as P. apply Permutation_sym in P. apply Ti_app; [exact K|now apply (Permutation_Forall P)|now apply (open_perm us)].
  - now apply Ti_app.
Qed.
Lemma oper_tidy c s r k us t : cfg_ok c -> kin k fold_kinds = true -> Forall tidy us ->
  (Forall (fun x => isConst x = true) us -> exists v, simp c k us = Ok v /\ islit r v) ->
  (forall u, simp c k us = Ok u -> isUnknown u = true \/ tidy u) ->
  mkOper c s k us = Ok t -> tidy t.
Proof.
  intros Hc K F Y S E. unfold mkOper in E. destruct (simp c k us) as [u| | | | |] eqn:Es; cbn [bind] in E; try discriminate E. destruct (isUnknown u) eqn:U.
  - injection E as <-. apply node_tidy; auto. destruct (open_or us) as [O|C]; [exact O|]. destruct (Y C) as (v & Ev & Hv). injection Ev as <-. destruct (islit_const r u Hv). congruence.
  - injection E as <-. destruct (S u eq_refl) as [X|X]; [congruence|exact X].
Qed.
(** binary folding gives n-ary folding *)
Lemma nary_lits c r k : kin k leftfold_kinds = true -> (forall a b, islit r a -> islit r b -> exists v, simp2 c k a b = Ok v /\ islit r v) ->
  forall us, (2 <= length us)%nat -> lits r us -> exists v, simp c k us = Ok v /\ islit r v.
Proof.
  intros K Y us Hl L. destruct (leftfold_kind k K) as (E1 & E2 & E3).
  destruct us as [|a [|b [|d [|x us]]]]; cbn [length] in Hl; try lia; inversion L as [|? ? La L1]; subst; inversion L1 as [|? ? Lb L2]; subst.
  - exact (Y a b La Lb).
  - inversion L2 as [|? ? Ld _]; subst. cbn [simp]. unfold simp3. rewrite E1, E2.
    assert (K' : kin k (NT_IMPLIES :: leftfold_kinds) = true) by (unfold kin in *; cbn [existsb]; now rewrite K, orb_true_r). rewrite K'.
    destruct (Y a b La Lb) as (v & -> & Lv). cbn [bind]. exact (Y v d Lv Ld).
  - cbn [simp]. unfold simpN. rewrite E1, E2, E3, K. clear L Hl L2 Lb.
    assert (G : forall l acc, islit r acc -> lits r l -> exists v, fold_simp c k acc l = Ok v /\ islit r v).
    { clear -Y. induction l as [|p l IH]; intros acc W F; cbn [fold_simp]; [now exists acc|].
      inversion F as [|? ? Wp Fl]; subst. destruct (Y acc p W Wp) as (v & -> & Lv). cbn [bind]. destruct (islit_const r v Lv) as [_ ->]. now apply IH. }
    exact (G _ a La L1).
Qed.
Lemma bool2 c k a b : In k [NT_AND; NT_OR; NT_XOR] -> islit EB a -> islit EB b -> exists v, simp2 c k a b = Ok v /\ islit EB v.
Proof.
  intros Hk La Lb. destruct (islit_B a La) as (x & ->), (islit_B b Lb) as (y & ->).
  repeat (destruct Hk as [ <- | Hk ]; [destruct x, y; eexists; (split; [reflexivity|]); constructor|]). contradiction.
Qed.

(** ** the constructors *)
Lemma not_const_bool c u : gt c CB u -> isTrue u = false -> isFalse u = false -> isConst u = false.
Proof.
  intros G T F. destruct (isConst u) eqn:C; [|reflexivity]. pose proof (gt_lit c CB u G C) as H. destruct (islit_B u H) as (b & ->). destruct b; discriminate.
Qed.
Lemma two_open a b : isConst a = false \/ isConst b = false -> open_list [a; b].
Proof. intros [H|H]; [now apply Exists_cons_hd|apply Exists_cons_tl; now apply Exists_cons_hd]. Qed.
Lemma junction_tidy c (conj : bool) us t : cfg_ok c -> Forall (gt c CB) us -> mkJunction c (jk conj) us = Ok t -> tidy t.
Proof.
  intros Hc F E. apply mkJunction_shape in E; [|exact Hc|now apply (gd_bargs c), gt_gd]. rewrite Forall_forall in F.
  destruct E as [ -> | [ -> | [H|(qs & -> & Hl & Hi & _ & Q)] ]]; [apply tidy_T|apply tidy_F|now apply F|].
  apply Ti_app; [destruct conj; reflexivity| |].
  - apply Forall_forall. intros x Hx. now apply F, Hi.
  - destruct qs as [|q qs]; [cbn in Hl; lia|]. apply Exists_cons_hd. destruct (Q q (or_introl eq_refl)). apply (not_const_bool c); auto. apply F, Hi. now left.
Qed.
Lemma xor_tidy c us t : cfg_ok c -> Forall (gt c CB) us -> mkXor c us = Ok t -> tidy t.
Proof.
  intros Hc F E. pose proof (gt_gd c CB us F) as Fg. unfold mkXor in E. destruct us as [|a [|b us]]; [injection E as <-; apply tidy_F|injection E as <-; inversion F as [|? ? X _]; apply X|].
  set (l := a :: b :: us) in *. destruct (xor_loop_ok l (proj1 (gd_lits c CB l Fg)) (gd_noerr c CB l Fg)) as (qs & Eq & Hi & _). rewrite Eq in E.
  assert (Fq : Forall (gt c CB) qs) by (rewrite Forall_forall in *; intros x Hx; now apply F, Hi). destruct qs as [|x [|y qs]].
  - injection E as <-. apply tidy_F.
  - injection E as <-. inversion Fq as [|? ? X _]; apply X.
  - destruct (boolk_of NT_XOR (length (x :: y :: qs))) as [B1 B2]; [cbn; tauto|cbn; lia|].
    apply (oper_tidy c boolS EB NT_XOR (x :: y :: qs) t Hc eq_refl (gt_ti c CB _ Fq)) in E; [exact E| |].
    + intros C. apply nary_lits; [reflexivity|intros; apply bool2; auto; cbn; tauto|cbn; lia|exact (gt_lits c CB _ Fq C)].
    + intros u Eu. apply (simp_shape c NT_XOR (x :: y :: qs) u ltac:(cbn; lia) B1 B2) in Eu. destruct Eu as [ -> | [ -> | -> ]]; [right; apply tidy_T|right; apply tidy_F|now left].
Qed.
Lemma implies_tidy c a b t : cfg_ok c -> gt c CB a -> gt c CB b -> mkImplies c [a; b] = Ok t -> tidy t.
Proof.
  intros Hc Ga Gb E. unfold mkImplies in E. cbn [length Nat.ltb Nat.leb last removelast imp_loop] in E.
  destruct (gd_err c CB a (proj1 Ga)) as [Ea _]. destruct (gd_err c CB b (proj1 Gb)) as [Eb _]. rewrite Ea in E.
  destruct (isFalse a) eqn:Fa; [injection E as <-; apply tidy_T|]. destruct (isTrue a) eqn:Ta; rewrite Eb in E; [injection E as <-; apply Gb|].
  destruct (boolk_of NT_IMPLIES 2) as [B1 B2]; [cbn; tauto|lia|].
  cbn [app] in E. destruct (mkOper_shape c boolS NT_IMPLIES [a; b] t ltac:(cbn; lia) B1 B2 E) as [ -> | [ -> | -> ]]; [apply tidy_T|apply tidy_F|].
  apply node_tidy; [exact Hc|reflexivity|constructor; [apply Ga|constructor; [apply Gb|constructor]]|]. apply two_open. left. now apply (not_const_bool c).
Qed.
Lemma ite_tidy c r b l m t : gt c CB b -> gt c r l -> gt c r m -> mkIte c b l m = Ok t -> tidy t.
Proof.
  intros Gb Gl Gm E. unfold mkIte in E. destruct (gd_err c CB b (proj1 Gb)) as [Eb _]. destruct (gd_err c r l (proj1 Gl)) as [El Ul]. destruct (gd_err c r m (proj1 Gm)) as [Em Um].
  rewrite Eb, El, Em in E. unfold mkOper in E. cbn [simp] in E. unfold simp3 in E.
  change (is_eqk NT_ITE) with false in E. change (is_disk NT_ITE) with false in E. change (kin NT_ITE (NT_IMPLIES :: leftfold_kinds)) with false in E. cbv iota in E.
  destruct (isTrue b) eqn:Tb; [cbn [bind] in E; rewrite Ul in E; injection E as <-; apply Gl|].
  destruct (isFalse b) eqn:Fb; [cbn [bind] in E; rewrite Um in E; injection E as <-; apply Gm|].
  cbn in E. injection E as <-. apply Ti_app; [reflexivity| |apply Exists_cons_hd; now apply (not_const_bool c)].
  constructor; [apply Gb|constructor; [apply Gl|constructor; [apply Gm|constructor]]].
Qed.
(** equalities, distinct and comparisons of two arguments *)
Lemma eqlit c r k a b : In k [NT_EQ; NT_DISTINCT] -> r <> EB -> islit r a -> islit r b -> exists v, simp2 c k a b = Ok v /\ islit EB v.
Proof.
  intros Hk N La Lb. destruct r as [| |w]; [congruence| |].
  - destruct (islit_I a La) as (x & ->), (islit_I b Lb) as (y & ->).
    assert (Ci : forall z, isCInt (ic intorealS z) = true) by (intros z; apply isCInt_ic; auto).
    destruct Hk as [ <- | [ <- | [] ]]; cbn [simp2]; rewrite !Ci; cbn [andb]; rewrite !toInt_ic by auto; cbn [bind]; eexists; (split; [reflexivity|apply islit_mkB]).
  - destruct (islit_V w a La) as (x & _ & _ & ->), (islit_V w b Lb) as (y & _ & _ & ->).
    destruct Hk as [ <- | [ <- | [] ]]; cbn [simp2]; eexists; (split; [reflexivity|apply islit_mkB]).
Qed.
Lemma ecB r : r <> CB -> ec r <> EB.
Proof. destruct r; cbn; congruence. Qed.
Lemma open_not_all us : open_list us -> Forall (fun x => isConst x = true) us -> False.
Proof. intros O C. unfold open_list in O. rewrite Exists_exists in O. destruct O as (x & Hx & O). rewrite Forall_forall in C. specialize (C x Hx). congruence. Qed.
Lemma mkOper2_tidy c k r a b t : In k ([NT_EQ; NT_DISTINCT] ++ arith_comp_kinds) -> (kin k arith_comp_kinds = true -> r = CR) -> r <> CB \/ open_list [a; b] ->
  cfg_ok c -> gt c r a -> gt c r b -> mkOper c boolS k [a; b] = Ok t -> tidy t.
Proof.
  intros Hk Hr Ho Hc Ga Gb E.
  assert (B1 : In k boolk) by (cbn [In app arith_comp_kinds] in Hk; cbn; tauto).
  assert (F : Forall (gt c r) [a; b]) by (constructor; [exact Ga|constructor; [exact Gb|constructor]]).
  apply (oper_tidy c boolS EB k [a; b] t Hc) in E; [exact E| | | |].
  - apply in_app_or in Hk. destruct Hk as [Hk|Hk]; repeat (destruct Hk as [ <- | Hk ]; [reflexivity|]); contradiction.
  - exact (gt_ti c r _ F).
  - intros C. destruct Ho as [Ho|Ho]; [|destruct (open_not_all _ Ho C)]. pose proof (gt_lits c r _ F C) as L.
    inversion L as [|? ? La L1]; subst. inversion L1 as [|? ? Lb _]; subst. apply in_app_or in Hk. destruct Hk as [Hk|Hk].
    + apply (eqlit c (ec r)); auto. now apply ecB.
    + assert (KK : kin k arith_comp_kinds = true) by (repeat (destruct Hk as [ <- | Hk ]; [reflexivity|]); contradiction).
      rewrite (Hr KK) in La, Lb. destruct (y_cmp c k a b Hk La Lb) as (v & Ev & Lv & _). exists v. split; assumption.
  - intros u Eu. apply (simp_shape c k [a; b] u (le_n 2) B1 (or_introl eq_refl)) in Eu. destruct Eu as [ -> | [ -> | -> ]]; [right; apply tidy_T|right; apply tidy_F|now left].
Qed.
Lemma mkCmp_tidy c k a b t : In k arith_comp_kinds -> cfg_ok c -> gt c CR a -> gt c CR b -> mkCmp c k a b = Ok t -> tidy t.
Proof.
  intros Hk Hc Ga Gb E. unfold mkCmp in E.
  assert (M : mkOper c boolS k [a; b] = Ok t -> tidy t).
  { intros Y. apply (mkOper2_tidy c k CR a b t); auto; [apply in_or_app; now right|left; discriminate]. }
  destruct (sort_eq (t_sort a) (t_sort b)) as [[|]| | | | |]; cbn [bind] in E; try discriminate E.
  - destruct (teq a b); [|now apply M]. injection E as <-. destruct (refl_val k); [apply tidy_T|apply tidy_F].
  - destruct (canExempt _ _); [now apply M|discriminate E].
Qed.
Lemma mkBvCmp_tidy c k w a b t : In k bv_comp_kinds -> cfg_ok c -> gt c (CV w) a -> gt c (CV w) b -> mkBvCmp c k a b = Ok t -> tidy t.
Proof.
  intros Hk Hc Ga Gb E. unfold mkBvCmp in E.
  assert (F : Forall (gt c (CV w)) [a; b]) by (constructor; [exact Ga|constructor; [exact Gb|constructor]]).
  assert (M : mkOper c boolS k [a; b] = Ok t -> tidy t).
  { intros Y. assert (B1 : In k boolk) by (repeat (destruct Hk as [ <- | Hk ]); try contradiction; cbn; tauto).
    apply (oper_tidy c boolS EB k [a; b] t Hc) in Y; [exact Y| | | |].
    - repeat (destruct Hk as [ <- | Hk ]; [reflexivity|]); contradiction.
    - exact (gt_ti c _ _ F).
    - intros C. pose proof (gt_lits c _ _ F C) as L. inversion L as [|? ? La L1]; subst. inversion L1 as [|? ? Lb _]; subst.
      destruct (y_bvcmp c k w a b Hk La Lb) as (v & Ev & Lv & _). exists v. split; assumption.
    - intros u Eu. apply (simp_shape c k [a; b] u (le_n 2) B1 (or_introl eq_refl)) in Eu. destruct Eu as [ -> | [ -> | -> ]]; [right; apply tidy_T|right; apply tidy_F|now left]. }
  destruct (negb (sis SK_BV a) || negb (sis SK_BV b)); [discriminate E|].
  destruct (negb (keq k NT_BV_ULT) && isCBV a && isCBV b).
  - destruct (bvComp _ _ _ _) as [x| | | | |]; cbn [bind] in E; try discriminate E. injection E as <-. destruct x; [apply tidy_T|apply tidy_F].
  - destruct (teq a b); [|now apply M]. injection E as <-. destruct (refl_val k); [apply tidy_T|apply tidy_F].
Qed.
Lemma mkDistinctV_tidy c r a b t : cfg_ok c -> r <> CB \/ open_list [a; b] -> gt c r a -> gt c r b -> mkDistinctV c [a; b] = Ok t -> tidy t.
Proof.
  intros Hc Ho (Ga & Ia) (Gb & Ib) H. unfold mkDistinctV in H. cbn [length Nat.ltb Nat.leb] in H.
  pose proof Ga as (Nr & Wa & Ta & _). pose proof Gb as (_ & Wb & Tb & _). destruct (wt_comparable c r a b Nr Wa Wb) as [Cm _].
  destruct (check2 c a b (tree_node c a Ta) (tree_node c b Tb) Cm) as (s & Es & C1 & C2).
  rewrite Es in H. cbn [bind first_err] in H. rewrite (n_err c a (tree_node c a Ta)), C1 in H. cbn [bind] in H.
  rewrite (n_err c b (tree_node c b Tb)), C2 in H. cbn [bind eq_params] in H. rewrite C1 in H. cbn [bind eq_params] in H.
  rewrite C2 in H. cbn [bind] in H.
  destruct (isFalse a) eqn:Fa, (isFalse b) eqn:Fb.
  - injection H as <-. apply tidy_F.
  - injection H as <-. first [exact Ia|exact Ib].
  - injection H as <-. first [exact Ia|exact Ib].
  - cbn [length Nat.ltb Nat.leb] in H. apply (mkOper2_tidy c NT_DISTINCT r a b t); auto; [cbn; tauto|discriminate|split; assumption|split; assumption].
Qed.
Lemma gt_T c : gt c CB TRUE. Proof. split; [apply gd_TRUE|apply tidy_T]. Qed.
Lemma gt_F c : gt c CB FALSE. Proof. split; [apply gd_FALSE|apply tidy_F]. Qed.
Lemma gt_child c r p x : tidy p -> In x (t_ch p) -> gd c r x -> gt c r x.
Proof. intros T H G. split; [exact G|now apply (tidy_ch p)]. Qed.
Theorem not_eq_tidy c : cfg_ok c -> forall f,
  (forall p t, gt c CB p -> mkNotF f c p = Ok t -> tidy t) /\
  (forall p t, gt c CB p -> cmpk p -> negF f c p = Ok t -> tidy t) /\
  (forall r a b t, nb r -> gt c r a -> gt c r b -> mkEqF f c a b = Ok t -> tidy t).
Proof.
  intros Hc. induction f as [|f (IN & IG & IE)]; [repeat split; intros; discriminate|]. split; [|split].
  - intros p t GT H. destruct GT as [G Tp]. pose proof (gd_node c CB p G) as HN. cbn [mkNotF] in H. rewrite (gd_bool c p G) in H. cbn [negb] in H.
    destruct (isNot p) eqn:N.
    { destruct (n_not c p HN N) as (q & Ech & Bq). unfold child0 in H. rewrite Ech in H. cbn [length Nat.eqb] in H.
      assert (t = q) as ->. { unfold condAssert in H. destruct (c_dbg c); cbn in H; congruence. }
      apply (tidy_ch p q Tp). rewrite Ech. now left. }
    destruct (isTrue p) eqn:TT; [injection H as <-; apply tidy_F|]. destruct (isFalse p) eqn:FF; [injection H as <-; apply tidy_T|].
    destruct (isArithComp_ok c p HN) as (b & Eb & Hb). rewrite Eb in H. cbn [bind] in H.
    destruct (isBVComp p) eqn:BC. { apply isk_kind in BC. pose proof (n_bvcomp c p HN BC). pose proof (gd_bool c p G). congruence. }
    rewrite orb_false_r in H. destruct (b || isStrComp p) eqn:CC.
    + apply (IG p t (conj G Tp)); [|exact H]. apply orb_true_iff in CC. destruct CC as [ -> | CC ]; [|now apply isStrComp_cmpk].
      destruct (Hb eq_refl) as [X|[X|X]]; [now left|now right; left|right; right]. unfold kin in *. rewrite !existsb_app, X. reflexivity.
    + apply mkOper_not_shape in H. destruct H as [ -> | [ -> | -> ]]; [apply tidy_T|apply tidy_F|]. apply Ti_app; [reflexivity|constructor; [exact Tp|constructor]|].
      apply Exists_cons_hd. now apply (not_const_bool c).
  - intros p t GT HK H. destruct GT as [G Tp]. pose proof (gd_node c CB p G) as HN. cbn [negF] in H. rewrite (n_err c p HN) in H.
    destruct (isEq p) eqn:Eq.
    { destruct (n_eq c p HN (or_introl Eq)) as (l & r & Ech & _). rewrite Ech in H.
      destruct (eq_children c p l r G (or_introl Eq) Ech) as (q & Gl & Gr & Hnb). apply (mkDistinctV_tidy c q l r t); [exact Hc| | | |exact H].
      - right. rewrite <- Ech. apply tidy_open; [exact Tp|rewrite Ech; discriminate].
      - apply (gt_child c q p); [exact Tp|rewrite Ech; cbn; tauto|exact Gl].
      - apply (gt_child c q p); [exact Tp|rewrite Ech; cbn; tauto|exact Gr]. }
    destruct (isDistinct p) eqn:D.
    { destruct (n_eq c p HN (or_intror D)) as (l & r & Ech & Cm & _ & _). rewrite Ech in H.
      destruct (eq_children c p l r G (or_intror D) Ech) as (q & Gl & Gr & Hnb).
      unfold mkEqV_ in H. cbn [length Nat.ltb Nat.leb] in H.
      destruct (check2 c l r (gd_node c q l Gl) (gd_node c q r Gr) (proj1 Cm)) as (s & Es & _). rewrite Es in H. cbn [bind] in H.
      apply (IE q l r t); [exact Hnb| | |exact H]; (apply (gt_child c q p); [exact Tp|rewrite Ech; cbn; tauto|assumption]). }
    destruct HK as [HK|[HK|HK]]; [congruence|congruence|].
    destruct (kin (t_kind p) arith_comp_kinds) eqn:AC.
    + destruct (n_cmp c p HN AC) as (l & r & Ech & _). destruct (cmp_children c p l r G AC Ech) as [Gl Gr].
      apply (gt_child c CR p) in Gl; [|exact Tp|rewrite Ech; cbn; tauto]. apply (gt_child c CR p) in Gr; [|exact Tp|rewrite Ech; cbn; tauto].
      cbv zeta in H. unfold child01 in H. rewrite Ech in H.
      destruct (t_kind p); try discriminate AC; cbn [bind fst snd] in H; (apply mkCmp_tidy in H; auto; cbn; tauto).
    + unfold kin in HK. rewrite !existsb_app in HK. unfold kin in AC. rewrite AC in HK. cbn [orb] in HK. apply orb_true_iff in HK. destruct HK as [HK|HK].
      * destruct (n_bv c p HN HK) as (l & r & w0 & Ech & _). destruct (bv_children c p l r G HK Ech) as (w & Gl & Gr).
        apply (gt_child c (CV w) p) in Gl; [|exact Tp|rewrite Ech; cbn; tauto]. apply (gt_child c (CV w) p) in Gr; [|exact Tp|rewrite Ech; cbn; tauto].
        cbv zeta in H. unfold child01 in H. rewrite Ech in H.
        destruct (t_kind p); try discriminate HK; cbn [bind fst snd] in H; (apply (mkBvCmp_tidy c _ w) in H; auto; cbn; tauto).
      * exfalso. destruct G as (_ & W & _). clear -W HK. inversion W; subst; cbn [t_kind] in HK; try discriminate HK.
        -- destruct k; discriminate.
        -- match goal with H : sig _ _ _ |- _ => inversion H; subst end; try discriminate HK;
             (match goal with H : In k _ |- _ => cbn in H; repeat (destruct H as [ <- | H ]; [discriminate HK|]); contradiction end).
  - intros q l r t Hnb GTl GTr H. pose proof GTl as [Gl Til]. pose proof GTr as [Gr Tir]. pose proof Gl as (Nq & Wl & Tl). pose proof Gr as (_ & Wr & Tr).
    destruct (wt_comparable c q l r Nq Wl Wr) as [Hs _].
    assert (BT : forall u, gd c q u -> isTrue u = true \/ isFalse u = true -> q = CB).
    { intros u (_ & W & _) F. apply (wt_class q u W Nq). unfold isTrue, isFalse in F. destruct F as [F|F]; apply andb_true_iff in F; apply F. }
    cbn [mkEqF] in H. rewrite Hs in H. cbn [bind negb] in H.
    destruct (isTrue l && isTrue r); [injection H as <-; apply tidy_T|].
    destruct (isFalse l && isFalse r); [injection H as <-; apply tidy_T|].
    destruct (isTrue l && isFalse r); [injection H as <-; apply tidy_F|].
    destruct (isFalse l && isTrue r); [injection H as <-; apply tidy_F|].
    destruct (isTrue l) eqn:B1; [injection H as <-; assumption|].
    destruct (isFalse l) eqn:B2; [pose proof (BT l Gl (or_intror B2)); subst q; now apply (IN r t)|].
    destruct (isTrue r) eqn:B3; [injection H as <-; assumption|].
    destruct (isFalse r) eqn:B4; [pose proof (BT r Gr (or_intror B4)); subst q; now apply (IN l t)|].
    destruct (isNot l && isNot r) eqn:NN.
    + apply andb_true_iff in NN. destruct NN as [N1 N2].
      destruct (n_not c l (gd_node c q l Gl) N1) as (a & Ea & Ba). destruct (n_not c r (gd_node c q r Gr) N2) as (b & Eb & Bb).
      assert (q = CB) as ->.
      { apply (wt_class q l Wl Nq). destruct l as [k s n ch]. cbn [t_ch] in Ea. subst ch. apply keq_spec in N1. cbn in N1. subst k.
        clear -Wl Nq. remember (TermModel.T NT_NOT s n [a]) as u eqn:Eu. revert Nq Eu.
        induction Wl as [k s' n' r A B| | |s' z A|k s' n' r rs ch A B F _|s' n' r rs ch A B D F _|t W IH|w v A B] using wt_ind'; intros Nq Eu; try discriminate Eu.
        - injection Eu as -> -> -> ->. assert (r = CB) as ->; [|cbn in B; subst; reflexivity].
          inversion A; subst; try reflexivity; try (match goal with H : In NT_NOT _ |- _ => cbn in H; repeat (destruct H as [H|H]; [discriminate H|]); contradiction end).
        - apply IH; [discriminate|exact Eu]. }
      unfold child0 in H. rewrite Ea, Eb in H. cbn [length Nat.eqb] in H.
      assert (CA : condAssert (c_dbg c) true = Ok tt) by (unfold condAssert; destruct (c_dbg c); reflexivity).
      rewrite ?CA in H. cbn [bind] in H. apply (IE CB a b t); [exact Hnb| | |exact H].
      * apply (gt_child c CB l); [exact Til|rewrite Ea; now left|now apply (not_child c l)].
      * apply (gt_child c CB r); [exact Tir|rewrite Eb; now left|now apply (not_child c r)].
    + apply (mkOper2_tidy c NT_EQ q l r t); auto; [cbn; tauto|discriminate|].
      destruct q; try (left; discriminate). right. apply two_open. left. now apply (not_const_bool c).
Qed.
Lemma eqk_tidy c r a b t : nb r -> cfg_ok c -> gt c r a -> gt c r b -> mkEqV c [a; b] = Ok t -> tidy t.
Proof.
  intros Hnb Hc Ga Gb E. pose proof Ga as ((Nr & Wa & Ta & _) & _). pose proof Gb as ((_ & Wb & Tb & _) & _). pose proof (wt_comparable c r a b Nr Wa Wb) as Cm.
  unfold mkEqV, mkEqV_ in E. cbn [length Nat.ltb Nat.leb] in E. destruct (check2 c a b (tree_node c a Ta) (tree_node c b Tb) (proj1 Cm)) as (s & Es & _). rewrite Es in E. cbn [bind] in E.
  unfold mkEq in E. now apply (not_eq_tidy c Hc) with (r := r) in E.
Qed.
(** ** arithmetic *)
Lemma num_open c r b : r = CI \/ r = CR -> gt c r b -> isCInt b = false -> isConst b = false.
Proof.
  intros Hr G C. destruct (isConst b) eqn:K; [|reflexivity]. pose proof (gt_lit c r b G K) as L.
  assert (ec r = EI) as X by (destruct Hr as [ -> | -> ]; reflexivity). rewrite X in L. destruct (islit_I b L) as (z & ->). rewrite isCInt_ic in C by auto. discriminate.
Qed.
Lemma mkNeg_gt c r b t : r = CI \/ r = CR -> gt c r b -> mkNeg c b = Ok t -> gt c r t.
Proof.
  intros Hr G E. split; [now apply (mkNeg_gd c r b t Hr (proj1 G))|]. revert E.
  pose proof G as ((N & W & _) & Tb). pose proof (wt_li r b W) as Lb. unfold mkNeg, simp1. cbn [kin existsb float1_kinds nary1_kinds keq orb].
  destruct (isCInt b) eqn:Cb.
  - destruct (li_int b Lb Cb) as (s & z & Hs & ->). rewrite toInt_ic by assumption. cbn [bind]. intros E. injection E as <-. apply tidy_int.
  - destruct (isCReal b) eqn:Rb; [rewrite (li_real_int b Lb Rb) in Cb; discriminate|]. cbn [bind unk]. change (isUnknown UNKNOWN) with true. cbv iota.
    intros E. injection E as <-. apply Ti_app; [reflexivity|constructor; [exact Tb|constructor]|]. apply Exists_cons_hd. now apply (num_open c r).
Qed.
Lemma gt_int c r z : r = CI \/ r = CR -> gt c r (mkConstInt z).
Proof. intros H. split; [now apply gd_int|apply tidy_int]. Qed.
Lemma simp2_arith_gt c k r a b t : cfg_ok c -> In k [NT_ADD; NT_MUL; NT_SUB] -> r = CI \/ r = CR -> (isUnknown a = true \/ gt c r a) -> gt c r b ->
  simp2 c k a b = Ok t -> isUnknown t = true \/ gt c r t.
Proof.
  intros Hc Hk Hr Ha Hb H.
  assert (Lb : li b) by (apply (wt_li r); apply Hb).
  assert (La : li a \/ isUnknown a = true) by (destruct Ha as [U|W]; [now right|left; apply (wt_li r); apply W]).
  assert (RR : isCReal a && isCReal b = true -> isCInt a && isCInt b = true).
  { intros X. apply andb_true_iff in X. destruct X as [X Y]. rewrite (li_real_int b Lb Y). destruct La as [La|U].
    - now rewrite (li_real_int a La X).
    - destruct (unk_tests a U) as (_ & Q & _). congruence. }
  repeat (destruct Hk as [ <- | Hk ]); try contradiction; cbn [simp2] in H; destruct (arithOk a b); cbn [negb] in H;
    try (injection H as <-; now left);
    (destruct (isCInt a && isCInt b) eqn:C;
     [destruct (toInt c a) as [x| | | | |]; cbn [bind] in H; try discriminate H; destruct (toInt c b) as [y| | | | |]; cbn [bind] in H; try discriminate H;
      injection H as <-; right; now apply gt_int|]);
    (destruct (isCReal a && isCReal b); [specialize (RR eq_refl); discriminate|]); [injection H as <-; now left|injection H as <-; now left|].
  destruct (isZero c a) as [za| | | | |]; cbn [bind] in H; try discriminate H. destruct za; [right; now apply (mkNeg_gt c r b)|].
  destruct (isZero c b) as [zb| | | | |]; cbn [bind] in H; try discriminate H. destruct zb; injection H as <-; [exact Ha|now left].
Qed.
Lemma simp_arith_gt c k r ps t : cfg_ok c -> In k [NT_ADD; NT_MUL; NT_SUB] -> r = CI \/ r = CR -> (2 <= length ps)%nat -> Forall (gt c r) ps ->
  simp c k ps = Ok t -> isUnknown t = true \/ gt c r t.
Proof.
  intros Hc Hk Hr Hl F H. assert (K : kin k leftfold_kinds = true) by (repeat (destruct Hk as [ <- | Hk ]); try contradiction; reflexivity).
  destruct (leftfold_kind k K) as (E1 & E2 & E3).
  destruct ps as [|a [|b [|d [|x ps]]]]; cbn [length] in Hl; try lia; inversion F as [|? ? Wa F1]; subst; inversion F1 as [|? ? Wb F2]; subst.
  - cbn [simp] in H. exact (simp2_arith_gt c k r a b t Hc Hk Hr (or_intror Wa) Wb H).
  - cbn [simp] in H. unfold simp3 in H. rewrite E1, E2 in H.
    assert (K' : kin k (NT_IMPLIES :: leftfold_kinds) = true) by (unfold kin in *; cbn [existsb]; now rewrite K, orb_true_r).
    rewrite K' in H. inversion F2 as [|? ? Wd _]; subst. destruct (simp2 c k a b) as [u| | | | |] eqn:E; cbn [bind] in H; try discriminate H.
    pose proof (simp2_arith_gt c k r a b u Hc Hk Hr (or_intror Wa) Wb E) as U. exact (simp2_arith_gt c k r u d t Hc Hk Hr U Wd H).
  - cbn [simp] in H. unfold simpN in H. rewrite E1, E2, E3, K in H. clear K E1 E2 E3 F Hl. inversion F2 as [|? ? Wd Fl]; subst.
    assert (G : forall l acc, gt c r acc -> Forall (gt c r) l -> fold_simp c k acc l = Ok t -> isUnknown t = true \/ gt c r t).
    { clear -Hc Hk Hr. induction l as [|p l IH]; intros acc W F H; cbn [fold_simp] in H; [injection H as <-; now right|].
      inversion F as [|? ? Wp Fl]; subst. destruct (simp2 c k acc p) as [u| | | | |] eqn:E; cbn [bind] in H; try discriminate H.
      destruct (simp2_arith_gt c k r acc p u Hc Hk Hr (or_intror W) Wp E) as [U|U].
      - rewrite U in H. injection H as <-. now left.
      - destruct (isUnknown u); [injection H as <-; now left|]. now apply (IH u). }
    apply (G _ a Wa F1 H).
Qed.
Lemma ec_num r : r = CI \/ r = CR -> ec r = EI. Proof. intros [ -> | -> ]; reflexivity. Qed.
Lemma mkOper_arith_tidy c k r s ps t : cfg_ok c -> In k [NT_ADD; NT_MUL; NT_SUB] -> r = CI \/ r = CR -> (2 <= length ps)%nat -> Forall (gt c r) ps ->
  mkOper c s k ps = Ok t -> tidy t.
Proof.
  intros Hc Hk Hr Hl F E. apply (oper_tidy c s EI k ps t Hc) in E; [exact E| |exact (gt_ti c r _ F)| |].
  - repeat (destruct Hk as [ <- | Hk ]; [reflexivity|]); contradiction.
  - intros C. pose proof (gt_lits c r _ F C) as L. rewrite (ec_num r Hr) in L. apply nary_lits; [|intros a b La Lb|exact Hl|exact L].
    + repeat (destruct Hk as [ <- | Hk ]; [reflexivity|]); contradiction.
    + destruct (y_arith c k a b ltac:(cbn in Hk |- *; tauto) La Lb) as (v & Ev & Lv & _). exists v. split; assumption.
  - intros u Eu. destruct (simp_arith_gt c k r ps u Hc Hk Hr Hl F Eu) as [U|U]; [now left|right; apply U].
Qed.
Lemma gt_incl c r us vs : incl vs us -> Forall (gt c r) us -> Forall (gt c r) vs.
Proof. intros H F. apply Forall_forall. intros x Hx. apply (proj1 (Forall_forall _ _) F). now apply H. Qed.
Lemma add_tidy c r us t : cfg_ok c -> c_int c = true -> c_real c = false -> r = CI \/ r = CR -> (2 <= length us)%nat -> Forall (gt c r) us -> mkAdd c us = Ok t -> tidy t.
Proof.
  intros Hc Hi Hn Hr Hl F E. unfold mkAdd in E. destruct us as [|a [|b us]]; cbn [length] in Hl; try lia.
  set (l := a :: b :: us) in *. pose proof (gd_nargs c r l Hr (gt_gd c r l F)) as NA. destruct (num_sorts l NA ltac:(discriminate)) as (s & Es & Hs). rewrite Es in E. cbn [bind] in E.
  destruct (add_loop_ok c s l Hc Hs NA) as (qs & Eq & Hin & _). rewrite Eq in E. cbn [bind] in E.
  pose proof (gt_incl c r l qs Hin F) as Fq. destruct qs as [|x [|y qs]].
  - rewrite Hn, Hi in E. injection E as <-. apply tidy_int.
  - injection E as <-. inversion Fq as [|? ? X _]. apply X.
  - cbn [theory_sort bind] in E. apply (mkOper_arith_tidy c NT_ADD r s (x :: y :: qs) t); auto; first [cbn; tauto | cbn; lia].
Qed.
Lemma mul_tidy c r us t : cfg_ok c -> c_int c = true -> c_real c = false -> r = CI \/ r = CR -> (2 <= length us)%nat -> Forall (gt c r) us -> mkMul c us = Ok t -> tidy t.
Proof.
  intros Hc Hi Hn Hr Hl F E. unfold mkMul in E. destruct us as [|a [|b us]]; cbn [length] in Hl; try lia.
  set (l := a :: b :: us) in *. pose proof (gd_nargs c r l Hr (gt_gd c r l F)) as NA. destruct (num_sorts l NA ltac:(discriminate)) as (s & Es & Hs).
  assert (CA : condAssert (c_dbg c) (Nat.leb 2 (length l)) = Ok tt) by (unfold l; cbn [length Nat.leb]; unfold condAssert; destruct (c_dbg c); reflexivity).
  rewrite CA, Es in E. cbn [bind] in E.
  assert (HT : c_int c || c_real c = true) by now rewrite Hi.
  pose proof (mul_loop_ok c s l Hc HT Hs NA) as HM. destruct (mul_loop c (Some s) l) as [[x|qs]| | | | |] eqn:EL; cbn [bind] in E; try discriminate E.
  + injection E as <-. rewrite (mul_loop_int c s l x Hi NA Hs Hc EL). apply tidy_int.
  + destruct HM as [Hin _]. pose proof (gt_incl c r l qs Hin F) as Fq. destruct qs as [|x [|y [|z qs]]].
    * rewrite Hi in E. injection E as <-. apply tidy_int.
    * injection E as <-. inversion Fq as [|? ? X _]. apply X.
    * cbn [theory_sort bind] in E.
      destruct (isCInt x && isCInt y) eqn:CC.
      { destruct (toInt c x) as [v| | | | |]; cbn [bind] in E; try discriminate E. destruct (toInt c y) as [w| | | | |]; cbn [bind] in E; try discriminate E.
        injection E as <-. apply tidy_int. }
      inversion Fq as [|? ? Gx Fq']; subst. inversion Fq' as [|? ? Gy _]; subst.
      destruct (isCReal x && isCReal y) eqn:RR.
      { apply andb_true_iff in RR. destruct RR as [R1 R2].
        rewrite (li_real_int x (wt_li r x ltac:(apply Gx)) R1), (li_real_int y (wt_li r y ltac:(apply Gy)) R2) in CC. discriminate. }
      apply (mkOper_arith_tidy c NT_MUL r s [x; y] t); auto; first [cbn; tauto | cbn; lia].
    * cbn [theory_sort bind] in E. apply (mkOper_arith_tidy c NT_MUL r s (x :: y :: z :: qs) t); auto; first [cbn; tauto | cbn; lia].
Qed.
Lemma sub_tidy c r p ps t : cfg_ok c -> c_int c = true -> c_real c = false -> r = CI \/ r = CR -> Forall (gt c r) (p :: ps) -> mkSub c (p :: ps) = Ok t -> tidy t.
Proof.
  intros Hc Hi Hn Hr F E. unfold mkSub in E. inversion F as [|? ? Gp F']; subst. destruct ps as [|b ps]; [now apply (mkNeg_gt c r p)|].
  set (l := p :: b :: ps) in *. pose proof (gd_nargs c r l Hr (gt_gd c r l F)) as NA. destruct (num_sorts l NA ltac:(discriminate)) as (s & Es & Hs). rewrite Es in E. cbn [bind] in E.
  rewrite (sub_check_ok s l Hs NA) in E. cbn [bind theory_sort] in E.
  assert (GEN : mkOper c s NT_SUB l = Ok t -> tidy t).
  { intros X. apply (mkOper_arith_tidy c NT_SUB r s l t); auto; first [cbn; tauto | cbn; lia]. }
  inversion F' as [|? ? Gb F'']; subst. destruct ps as [|d ps]; [|now apply GEN].
  destruct ((s_is SK_INT s || s_is SK_INTOREAL s) && isCInt p && isCInt b) eqn:CC.
  { destruct (toInt c p) as [v| | | | |]; cbn [bind] in E; try discriminate E. destruct (toInt c b) as [w| | | | |]; cbn [bind] in E; try discriminate E.
    injection E as <-. apply tidy_int. }
  destruct (s_is SK_REAL s && isCReal p && isCReal b) eqn:RR.
  { exfalso. apply andb_true_iff in RR. destruct RR as [RR Rb]. apply andb_true_iff in RR. destruct RR as [Rs Rp].
    destruct (wt_li r p ltac:(apply Gp)) as [_ N1]. destruct (wt_li r b ltac:(apply Gb)) as [_ N2].
    assert (P0 : sis SK_REAL p = false) by (apply N1; unfold isCReal in Rp; now destruct (isConst p)).
    assert (P1 : sis SK_REAL b = false) by (apply N2; unfold isCReal in Rb; now destruct (isConst b)).
    unfold getSort, l in Es. destruct NA as (_ & _ & NA). rewrite (proj1 (NA p (or_introl eq_refl))) in Es. injection Es as Es. cbn [existsb] in Es.
    rewrite P0, P1 in Es. cbn in Es. subst s. discriminate Rs. }
  destruct (isZero c p) as [za| | | | |]; cbn [bind] in E; try discriminate E. destruct za; [now apply (mkNeg_gt c r b)|].
  destruct (isZero c b) as [zb| | | | |]; cbn [bind] in E; try discriminate E. destruct zb; [injection E as <-; apply Gp|now apply GEN].
Qed.
(** ** bit-vectors *)
Lemma isc_tidy s n : s <> intS -> tidy (T NT_CONST s n []).
Proof. intros H. apply Ti_leaf; [discriminate|auto|discriminate]. Qed.
Lemma bvop_tidy c s k r rs us t : cfg_ok c -> bvcase k (length us) -> k <> NT_BV_CONCAT -> Forall tidy us ->
  (Forall (fun x => isConst x = true) us -> exists v, simp c k us = Ok v /\ islit rs v) ->
  (forall u, mkOper c s k us = Ok u -> wt r u) -> (exists w, r = CV w) \/ k = NT_BV_TO_NAT -> mkOper c s k us = Ok t -> tidy t.
Proof.
  intros Hc Hk Nk F Y W Hr E. pose proof (W t E) as Wt. apply (oper_tidy c s rs k us t Hc) in E; [exact E| |exact F|exact Y|].
  - destruct Hk as [(Hk & _)|[( -> & _)|(Hk & _)]]; [|congruence|]; repeat (destruct Hk as [ <- | Hk ]; [reflexivity|]); contradiction.
  - intros u Eu. unfold mkOper in E. rewrite Eu in E. cbn [bind] in E. destruct (isUnknown u) eqn:U; [now left|]. injection E as <-. right.
    destruct Hr as [(w & ->)| ->].
    + assert (C : isc u).
      { destruct (bvop_shape c s k us u Hk) as [X|X]; [unfold mkOper; rewrite Eu; cbn [bind]; now rewrite U|exact X|]. exfalso.
        assert (XX : isUnknown u = true \/ isc u).
        { destruct Hk as [(Hk1 & L1)|[( -> & L2)|(Hk3 & L3)]]; [|congruence|now apply (bvN_isc c k us)].
          destruct us as [|p [|]]; try discriminate L1. apply (bv1_isc c k p); [exact Hk1|]. rewrite <- Eu. reflexivity. }
        destruct XX as [XX|(s' & n & XX)]; [congruence|]. rewrite XX in X. unfold mkInternal in X. injection X as X _ _ _. subst k.
        destruct Hk as [(Hk & _)|[( Hk & _)|(Hk & _)]]; [|discriminate|]; repeat (destruct Hk as [Hk|Hk]; [discriminate Hk|]); contradiction. }
      destruct C as (s' & n & ->). apply isc_tidy. intros ->. pose proof (wt_sort (CV w) _ Wt ltac:(discriminate)) as X. apply (f_equal s_kind) in X. discriminate X.
    + destruct Hk as [(Hk & L1)|[(Hk & _)|(Hk & _)]]; [|discriminate|repeat (destruct Hk as [Hk|Hk]; [discriminate Hk|]); contradiction].
      destruct us as [|p [|]]; try discriminate L1. cbn [simp] in Eu. unfold simp1 in Eu.
      change (kin NT_BV_TO_NAT float1_kinds) with false in Eu; change (kin NT_BV_TO_NAT nary1_kinds) with false in Eu. cbv iota zeta in Eu.
      destruct (isCBV p); [|unfold unk in Eu; injection Eu as <-; discriminate U]. destruct (bvToNat _ _) as [z| | | | |]; cbn [bind] in Eu; try discriminate Eu. injection Eu as <-. apply tidy_int.
Qed.
End F.
