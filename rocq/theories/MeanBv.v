(** Proofs for MeanSpec.v: bit-vector operators applied to well-sorted terms. *)
From Coq Require Import QArith Qcanon Permutation.
From Verif Require Import Base LexSpec KindModel SortModel TermModel BVModel BVSpec BVProofs UtilModel UtilSpec Sem SemProofs DagProofs SortProofs
  SimpModel OpModel OpSpec OpProofs OpProofs2 OpProofs3 OpProofs4 OpProofs5 OpProofs6 OpProofs7 ShapeProofs TypedSpec TypedProofs
  LexModel ParseModel ParseSpec CommandModel CommandSpec CtorModel MeanSpec MeanProofs MeanProofs2.
Open Scope Z_scope.

Definition isc (t : term) : Prop := exists s n, t = T NT_CONST s n [].
Section F.
Context {fl : Flag}.
Lemma gd_bc c w v : (0 < w)%nat -> fits w -> gd c (CV w) (bc w v).
Proof. intros Hw Hf. apply gd_new; [now apply newk_plain|discriminate|now apply W_bv|contradiction]. Qed.
End F.
Section Shape.
Context (c : cfg).
Lemma constBv_isc v w t : mkConstBv c v w = Ok t -> isc t.
Proof.
  unfold mkConstBv. intros H. destruct (natToBv_str _ _ _) as [b| | | | |]; cbn [bind] in H; try discriminate H. injection H as <-. now exists (bvS w), b.
Qed.
Ltac sol := repeat match goal with
  | H : mkConstBv _ _ _ = Ok _ |- _ => right; exact (constBv_isc _ _ _ H)
  | H : unk = Ok _ |- _ => left; unfold unk in H; injection H as <-; reflexivity
  | H : bind ?m _ = Ok _ |- _ => destruct m; cbn [bind] in H; try discriminate H
  | H : (if ?b then _ else _) = Ok _ |- _ => destruct b
  end.
Lemma bv2_isc k a b t : In k (NT_BV_CONCAT :: bvn_kinds) -> simp2 c k a b = Ok t -> isUnknown t = true \/ isc t.
Proof. intros Hk H. repeat (destruct Hk as [ <- | Hk ]; [cbn [simp2] in H; sol|]). contradiction. Qed.
Lemma bvN_isc k ps t : In k bvn_kinds -> (2 <= length ps)%nat -> simp c k ps = Ok t -> isUnknown t = true \/ isc t.
Proof.
  intros Hk Hl H. assert (K : kin k leftfold_kinds = true) by (repeat (destruct Hk as [ <- | Hk ]); try contradiction; reflexivity).
  destruct (leftfold_kind k K) as (E1 & E2 & E3). assert (Hk' : In k (NT_BV_CONCAT :: bvn_kinds)) by (now right).
  destruct ps as [|a [|b [|d [|x ps]]]]; cbn [length] in Hl; try lia.
  - exact (bv2_isc k a b t Hk' H).
  - cbn [simp] in H. unfold simp3 in H. rewrite E1, E2 in H.
    assert (K' : kin k (NT_IMPLIES :: leftfold_kinds) = true) by (unfold kin in *; cbn [existsb]; now rewrite K, orb_true_r).
    rewrite K' in H. destruct (simp2 c k a b) as [u| | | | |] eqn:E; cbn [bind] in H; try discriminate H.
    exact (bv2_isc k u d t Hk' H).
  - cbn [simp] in H. unfold simpN in H. rewrite E1, E2, E3, K in H.
    assert (G : forall l acc, l <> [] \/ isc acc -> fold_simp c k acc l = Ok t -> isUnknown t = true \/ isc t).
    { clear -Hk'. induction l as [|p l IH]; intros acc W H; cbn [fold_simp] in H.
      - injection H as <-. destruct W as [W|W]; [congruence|now right].
      - destruct (simp2 c k acc p) as [u| | | | |] eqn:E; cbn [bind] in H; try discriminate H.
        destruct (bv2_isc k acc p u Hk' E) as [U|U].
        + rewrite U in H. injection H as <-. now left.
        + destruct (isUnknown u); [injection H as <-; now left|]. exact (IH u (or_intror U) H). }
    exact (G (b :: d :: x :: ps) a ltac:(left; discriminate) H).
Qed.
Lemma bv1_isc k p t : In k [NT_BV_NOT; NT_BV_NEG; NT_BV_TO_NAT] -> simp1 c k p = Ok t -> isUnknown t = true \/ isc t.
Proof.
  intros Hk H. repeat (destruct Hk as [ <- | Hk ]); try contradiction; unfold simp1 in H;
    match type of H with context [kin ?k float1_kinds] => change (kin k float1_kinds) with false in H; change (kin k nary1_kinds) with false in H end;
    cbv iota zeta in H; sol.
  injection H as <-. right. now eexists _, _.
Qed.
Definition bvcase (k : kind) (n : nat) : Prop :=
  (In k [NT_BV_NOT; NT_BV_NEG; NT_BV_TO_NAT] /\ n = 1%nat) \/ (k = NT_BV_CONCAT /\ n = 2%nat) \/ (In k bvn_kinds /\ (2 <= n)%nat).
Lemma bvop_shape s k us t : bvcase k (length us) -> mkOper c s k us = Ok t -> isc t \/ t = mkInternal c s k us.
Proof.
  intros D E. unfold mkOper in E. destruct (simp c k us) as [u| | | | |] eqn:Es; cbn [bind] in E; try discriminate E. injection E as <-.
  assert (X : isUnknown u = true \/ isc u).
  { destruct D as [(Hk1 & L1)|[( -> & L2)|(Hk3 & L3)]].
    - destruct us as [|p [|]]; try discriminate L1. apply (bv1_isc k p); [exact Hk1|]. rewrite <- Es. reflexivity.
    - destruct us as [|p [|q [|]]]; try discriminate L2. apply (bv2_isc NT_BV_CONCAT p q); [now left|exact Es].
    - now apply (bvN_isc k us). }
  destruct X as [X|X]; [rewrite X; now right|]. destruct (isUnknown u); [now right|now left].
Qed.
End Shape.
Section F2.
Context {fl : Flag}.
Lemma bvop_gives c s k r rs us : (l_clausal fl = true -> kin k [NT_BV_NEG; NT_BV_TO_NAT] = false) -> cfg_ok c -> bvcase k (length us) -> sig k r rs -> r <> CL -> rsort r s -> Forall2 (gd c) rs us ->
  gives c r (mkOper c s k us) (fun I e => eval I e (T k s (kindToString k) us)).
Proof.
  intros Hcl Hc Hk H N Hs F.
  assert (Fw : Forall2 wt rs us) by (clear -F; induction F as [|a b l m (_ & W & _) F IH]; constructor; assumption).
  assert (Ft : forall x, In x us -> tok c x).
  { clear -F. intros x Hx. induction F as [|a b l m G F IH]; [contradiction|]. destruct Hx as [ <- | Hx ]; [apply G|now apply IH]. }
  destruct (mkOper_wt c s k r rs us Hc H Hs Fw) as (t & E & W & V). exists t. split; [exact E|]. split; [|exact V].
  destruct (bvop_shape c s k us t Hk E) as [(s' & n & ->)|Et].
  - apply gd_new; [now apply newk_plain|exact N|exact W|contradiction].
  - subst t. unfold mkInternal in W |- *. apply gd_new; [|exact N|exact W|].
    + clear -Hk Hcl. destruct Hk as [(Hk & _)|[( -> & _)|(Hk & _)]]; [|now apply newk_plain|].
      * destruct Hk as [ <- | [ <- | [ <- | [] ]]]; [now apply newk_plain| |]; unfold newk; unfold Flag in *; (destruct (l_clausal fl); [specialize (Hcl eq_refl); discriminate Hcl|reflexivity]).
      * repeat (destruct Hk as [ <- | Hk ]; [now apply newk_plain|]); contradiction.
    + destruct (isCommutative k); [|exact Ft]. intros x Hx. apply Ft. now apply (Permutation_in _ (ok_sort c Hc us)).
Qed.

(** ** values *)
Lemma sub_small w a : 0 <= a < 2 ^ Z.of_nat w -> uv w (Z.lnot a) = 2 ^ Z.of_nat w - 1 - a.
Proof.
  intros H. unfold uv, Z.lnot, Z.pred. symmetry. apply (Z.mod_unique_pos _ _ (-1)); lia.
Qed.
Lemma land_range w a b : 0 <= a < 2 ^ Z.of_nat w -> 0 <= b < 2 ^ Z.of_nat w -> 0 <= Z.land a b < 2 ^ Z.of_nat w.
Proof.
  intros A B. split; [apply Z.land_nonneg; lia|]. rewrite <- (Z.mod_small a (2 ^ Z.of_nat w) A), <- Z.land_ones, <- Z.land_assoc, (Z.land_comm _ b), Z.land_assoc, Z.land_ones by lia.
  apply Z.mod_pos_bound. lia.
Qed.
Lemma bits_range w x : 0 <= x -> (forall i, Z.of_nat w <= i -> Z.testbit x i = false) -> 0 <= x < 2 ^ Z.of_nat w.
Proof.
  intros X H. split; [exact X|]. destruct (Z.eq_dec x 0) as [ -> | N]; [apply Z.pow_pos_nonneg; lia|]. apply Z.log2_lt_pow2; [lia|].
  destruct (Z_lt_le_dec (Z.log2 x) (Z.of_nat w)) as [L|L]; [exact L|]. specialize (H _ L). rewrite Z.bit_log2 in H by lia. discriminate.
Qed.
Lemma high w a i : 0 <= a < 2 ^ Z.of_nat w -> Z.of_nat w <= i -> Z.testbit a i = false.
Proof.
  intros A L. destruct (Z.eq_dec a 0) as [ -> | N]; [apply Z.bits_0|]. apply Z.bits_above_log2; [lia|]. apply Z.lt_le_trans with (Z.of_nat w); [|exact L].
  apply Z.log2_lt_pow2; lia.
Qed.
Lemma lor_range w a b : 0 <= a < 2 ^ Z.of_nat w -> 0 <= b < 2 ^ Z.of_nat w -> 0 <= Z.lor a b < 2 ^ Z.of_nat w.
Proof. intros A B. apply bits_range; [apply Z.lor_nonneg; lia|]. intros i L. now rewrite Z.lor_spec, (high w a), (high w b). Qed.
Lemma lxor_range w a b : 0 <= a < 2 ^ Z.of_nat w -> 0 <= b < 2 ^ Z.of_nat w -> 0 <= Z.lxor a b < 2 ^ Z.of_nat w.
Proof. intros A B. apply bits_range; [apply Z.lxor_nonneg; lia|]. intros i L. now rewrite Z.lxor_spec, (high w a), (high w b). Qed.
Lemma bv_fold_bv2 w f g vs : vs <> [] -> Forall (vcl (CV w)) vs ->
  (forall a b, 0 <= a < 2 ^ Z.of_nat w -> 0 <= b < 2 ^ Z.of_nat w -> uv w (f w a b) = g (2 ^ Z.of_nat w) a b) ->
  bv2 f vs = Some (bv_fold g vs).
Proof.
  intros N F H. destruct F as [|v vs Hv F]; [congruence|]. destruct Hv as (a & Ha & ->). cbn [bv2 bv_fold]. f_equal. clear N. revert a Ha.
  induction F as [|v vs (b & Hb & ->) F IH]; intros a Ha; cbn [fold_left]; [reflexivity|]. cbn [bvv bits]. rewrite H by assumption.
  apply IH. rewrite <- H by assumption. apply uv_range.
Qed.
Lemma signed_sv w x : 0 <= x < 2 ^ Z.of_nat w -> signed (VBV w x) = svv (VBV w x).
Proof.
  intros H. unfold signed, svv, sv, msb. cbn [bvw bvv]. unfold uv. rewrite Z.mod_small by exact H.
  destruct (Z.ltb_spec x (2 ^ (Z.of_nat w - 1))), (Z.leb_spec (2 ^ (Z.of_nat w - 1)) x); (reflexivity || lia).
Qed.
Definition bv_name (k : kind) : string :=
  match k with
  | NT_BV_AND => "bvand" | NT_BV_OR => "bvor" | NT_BV_XOR => "bvxor" | NT_BV_NAND => "bvnand" | NT_BV_NOR => "bvnor" | NT_BV_XNOR => "bvxnor"
  | NT_BV_ADD => "bvadd" | NT_BV_MUL => "bvmul" | NT_BV_NOT => "bvnot" | NT_BV_NEG => "bvneg"
  | NT_BV_ULT => "bvult" | NT_BV_ULE => "bvule" | NT_BV_UGT => "bvugt" | NT_BV_UGE => "bvuge"
  | NT_BV_SLT => "bvslt" | NT_BV_SLE => "bvsle" | NT_BV_SGT => "bvsgt" | NT_BV_SGE => "bvsge"
  | NT_BV_CONCAT => "concat" | NT_BV_TO_NAT => "bv2nat" | _ => ""
  end%string.
Lemma bvn_val k w vs : In k bvn_kinds -> vs <> [] -> Forall (vcl (CV w)) vs -> op_sem k vs = Some (op_val (L (bv_name k)) vs).
Proof.
  intros Hk N F. repeat (destruct Hk as [ <- | Hk ]; [cbn [op_sem bv_name]; match goal with |- _ = Some (op_val ?h _) => unfold op_val, seqs end; cbn -[bv2 bv_fold Z.land Z.lor Z.lxor Z.lnot Z.sub Z.add Z.mul Z.modulo];
    apply (bv_fold_bv2 w); [exact N|exact F|]; intros a b A B|]); [..|contradiction].
  - unfold uv. apply Z.mod_small. now apply land_range.
  - unfold uv. apply Z.mod_small. now apply lor_range.
  - unfold uv. apply Z.mod_small. now apply lxor_range.
  - apply sub_small. now apply land_range.
  - apply sub_small. now apply lor_range.
  - apply sub_small. now apply lxor_range.
  - reflexivity.
  - reflexivity.
Qed.
Lemma bv1_val k w v : In k [NT_BV_NOT; NT_BV_NEG] -> vcl (CV w) v -> op_sem k [v] = Some (op_val (L (bv_name k)) [v]).
Proof.
  intros Hk (a & Ha & ->). destruct Hk as [ <- | [ <- | [] ]]; cbn [op_sem bv_name]; unfold op_val, seqs; cbn -[Z.lnot Z.sub Z.modulo Z.opp uv].
  - now rewrite sub_small.
  - reflexivity.
Qed.
Lemma bvcmp_val k w u v : In k bv_comp_kinds -> vcl (CV w) u -> vcl (CV w) v -> op_val (L (bv_name k)) [u; v] = VBool (bvcmpr k u v).
Proof.
  intros Hk (a & Ha & ->) (b & Hb & ->). pose proof (signed_sv w a Ha) as S1. pose proof (signed_sv w b Hb) as S2.
  repeat (destruct Hk as [ <- | Hk ]; [cbn [bv_name bvcmpr]; unfold op_val, seqs; cbn -[Z.ltb Z.leb signed bits bult bule bslt bsle]; unfold bslt, bsle; rewrite ?S1, ?S2; reflexivity|]). contradiction.
Qed.
Lemma concat_val w w' u v : vcl (CV w) u -> vcl (CV w') v -> op_sem NT_BV_CONCAT [u; v] = Some (op_val (L "concat") [u; v]).
Proof. intros (a & Ha & ->) (b & Hb & ->). reflexivity. Qed.
Lemma bv2nat_val w v : vcl (CV w) v -> op_sem NT_BV_TO_NAT [v] = Some (op_val (L "bv2nat") [v]).
Proof. intros (a & Ha & ->). reflexivity. Qed.

(** ** the operators as the parser builds them *)
Lemma gdv_sort c w u : gd c (CV w) u -> t_sort u = bvS (Z.of_nat w).
Proof. intros (N & W & _). exact (wt_sort _ u W N). Qed.
Lemma gdv_sis c w u : gd c (CV w) u -> sis SK_BV u = true.
Proof. intros G. unfold sis. now rewrite (gdv_sort c w u G). Qed.
Lemma gdv_vals c w us I e : Forall (gd c (CV w)) us -> Forall (vcl (CV w)) (map (eval I e) us).
Proof. intros F. apply Forall_map. eapply Forall_impl; [|exact F]. intros a (_ & W & _). now apply wt_val. Qed.
Lemma gives_ext c r m f g : (forall I e, f I e = g I e) -> gives c r m f -> gives c r m g.
Proof. intros H (t & E & G & V). exists t. split; [exact E|]. split; [exact G|]. intros I e. now rewrite V. Qed.
Lemma find_srt (f : term -> bool) ps s : Forall (fun t => t_sort t = s) ps ->
  option_map t_sort (find f ps) = None \/ option_map t_sort (find f ps) = Some s.
Proof.
  induction 1 as [|t ps E H IH]; [left; reflexivity|]. cbn [find]. destruct (f t); [right; cbn; now rewrite E|exact IH].
Qed.
Lemma nary_bv c w b us : Forall (gd c (CV w)) us -> nary_loop PBv b us = Ok None.
Proof.
  induction 1 as [|t ps G F IH]; [reflexivity|]. cbn [nary_loop okp]. destruct (gd_err c _ t G) as [ -> _]. rewrite (gdv_sis c w t G). cbn [negb]. now rewrite andb_false_r.
Qed.
Lemma bv_nary_gives c k e w us : cfg_ok c -> In k bvn_kinds -> (2 <= length us)%nat -> Forall (gd c (CV w)) us ->
  gives c (CV w) (bv_nary c k e us) (fun I v => op_val (L (bv_name k)) (map (eval I v) us)).
Proof.
  intros Hc Hk Hl F.
  assert (E : bv_nary c k e us = mkOper c (bvS (Z.of_nat w)) k us).
  { destruct us as [|a [|b [|d us]]]; cbn [length] in Hl; try lia.
    - cbn [bv_nary]. unfold bv_bin. inversion F as [|? ? Ga F']; subst. inversion F' as [|? ? Gb _]; subst.
      rewrite (gdv_sis c w a Ga), (gdv_sis c w b Gb), (gdv_sort c w a Ga). reflexivity.
    - cbn [bv_nary]. set (ps := a :: b :: d :: us) in *.
      assert (S : Forall (fun t => t_sort t = bvS (Z.of_nat w)) ps) by (eapply Forall_impl; [|exact F]; intros t; apply gdv_sort).
      assert (GS : getSort ps = Ok (option_map t_sort (find (fun x => negb (isConst x)) ps))).
      { unfold getSort, numS, sis. unfold ps at 1. inversion S as [|? ? Sa _]; subst. rewrite Sa. reflexivity. }
      rewrite GS. cbn [bind]. rewrite (nary_bv c w _ ps F). cbn [bind].
      destruct (find_srt (fun x => negb (isConst x)) ps _ S) as [ -> | -> ]; cbn [sort_or]; [|reflexivity].
      inversion S as [|? ? Sa _]; subst. cbn [hd ps]. now rewrite Sa. }
  rewrite E. apply (gives_ext c (CV w) _ (fun I v => eval I v (T k (bvS (Z.of_nat w)) (kindToString k) us))).
  - intros I v. apply eval_op.
    + intros ->. cbn in Hl. lia.
    + clear -Hk. repeat (destruct Hk as [ <- | Hk ]; [reflexivity|]). contradiction.
    + apply (bvn_val k w); [exact Hk|destruct us; [cbn in Hl; lia|discriminate]|now apply (gdv_vals c)].
  - apply (bvop_gives c _ k (CV w) (repeat (CV w) (length us))); [intros _; clear -Hk; repeat (destruct Hk as [ <- | Hk ]; [reflexivity|]); contradiction|exact Hc|right; right; now split|now apply S_bvn|discriminate|reflexivity|].
    apply TypedProofs.Forall2_repeat. split; [reflexivity|exact F].
Qed.
Lemma take1 c p : args c 1 [p] = Ok [p].
Proof. unfold args. cbn [length Nat.eqb take_args bind]. unfold condAssert. destruct (c_dbg c); reflexivity. Qed.
Lemma bv1_gives c k w p : (l_clausal fl = true -> k = NT_BV_NOT) -> cfg_ok c -> In k [NT_BV_NOT; NT_BV_NEG] -> gd c (CV w) p ->
  gives c (CV w) (theory_oper c (fun l => l) k [] [p]) (fun I v => op_val (L (bv_name k)) [eval I v p]).
Proof.
  intros Hcl Hc Hk G.
  assert (E : theory_oper c (fun l => l) k [] [p] = mkOper c (bvS (Z.of_nat w)) k [p]).
  { pose proof (gdv_sort c w p G) as Sp. pose proof (gdv_sis c w p G) as Si.
    destruct Hk as [ <- | [ <- | [] ]]; cbn [theory_oper ctor un r_chk length]; rewrite take1; cbn [bind]; unfold mk_row; cbn [r_err andb r_chk allok okp out_sort r_out nth un];
      rewrite ?Si; (match goal with |- _ = mkOper c _ ?k [p] => transitivity (mkOper c (t_sort p) k [p]) end; [reflexivity|now rewrite Sp]). }
  rewrite E. apply (gives_ext c (CV w) _ (fun I v => eval I v (T k (bvS (Z.of_nat w)) (kindToString k) [p]))).
  - intros I v. apply eval_op; [discriminate|destruct Hk as [ <- | [ <- | [] ]]; reflexivity|]. apply (bv1_val k w); [exact Hk|]. apply wt_val, G.
  - apply (bvop_gives c _ k (CV w) [CV w]); [intros Ef; now rewrite (Hcl Ef)|exact Hc| |now apply S_bv1|discriminate|reflexivity|constructor; [exact G|constructor]].
    left. split; [|reflexivity]. destruct Hk as [ <- | [ <- | [] ]]; cbn; tauto.
Qed.
Lemma bv2nat_gives c w p : l_clausal fl <> true -> cfg_ok c -> gd c (CV w) p ->
  gives c CI (theory_oper c (fun l => l) NT_BV_TO_NAT [] [p]) (fun I v => op_val (L "bv2nat") [eval I v p]).
Proof.
  intros Hcl Hc G.
  assert (E : theory_oper c (fun l => l) NT_BV_TO_NAT [] [p] = mkOper c intS NT_BV_TO_NAT [p]).
  { cbn [theory_oper ctor un r_chk length]. rewrite take1. cbn [bind]. unfold mk_row. cbn [r_err andb r_chk allok okp out_sort r_out un]. now rewrite (gdv_sis c w p G). }
  rewrite E. apply (gives_ext c CI _ (fun I v => eval I v (T NT_BV_TO_NAT intS (kindToString NT_BV_TO_NAT) [p]))).
  - intros I v. apply eval_op; [discriminate|reflexivity|]. apply (bv2nat_val w). apply wt_val, G.
  - apply (bvop_gives c _ NT_BV_TO_NAT CI [CV w]); [intros Ef; contradiction|exact Hc| |apply S_bv2nat|discriminate|now left|constructor; [exact G|constructor]].
    left. split; [cbn; tauto|reflexivity].
Qed.
Lemma concat_gives c w w' p q : cfg_ok c -> fits (w + w') -> gd c (CV w) p -> gd c (CV w') q ->
  gives c (CV (w + w')) (mkBvConcat c [p; q]) (fun I v => op_val (L "concat") [eval I v p; eval I v q]).
Proof.
  intros Hc Hf Gp Gq.
  assert (E : mkBvConcat c [p; q] = mkOper c (bvS (Z.of_nat (w + w'))) NT_BV_CONCAT [p; q]).
  { unfold mkBvConcat. cbn [concat_loop]. destruct (gd_err c _ p Gp) as [ -> _]. destruct (gd_err c _ q Gq) as [ -> _].
    rewrite (gdv_sis c w p Gp), (gdv_sis c w' q Gq). cbn [negb]. unfold width. rewrite (gdv_sort c w p Gp), (gdv_sort c w' q Gq). cbn [widthS bvS s_ch bind s_arity].
    change (child_arity (bvS (Z.of_nat w)) 0) with (Ok (Z.of_nat w)). change (child_arity (bvS (Z.of_nat w')) 0) with (Ok (Z.of_nat w')). cbn [bind].
    unfold fits in Hf. rewrite ?Z.add_0_l. rewrite (u64_id (Z.of_nat w)) by (unfold two64; lia). rewrite u64_id by (unfold two64; lia). now rewrite Nat2Z.inj_add. }
  rewrite E. apply (gives_ext c _ _ (fun I v => eval I v (T NT_BV_CONCAT (bvS (Z.of_nat (w + w'))) (kindToString NT_BV_CONCAT) [p; q]))).
  - intros I v. apply eval_op; [discriminate|reflexivity|]. apply (concat_val w w'); [apply wt_val, Gp|apply wt_val, Gq].
  - apply (bvop_gives c _ NT_BV_CONCAT (CV (w + w')) [CV w; CV w']); [reflexivity|exact Hc| |now apply S_concat|discriminate|reflexivity|].
    + right; left. now split.
    + constructor; [exact Gp|]. constructor; [exact Gq|constructor].
Qed.
Lemma bvcmp_gives c k w a b : cfg_ok c -> In k bv_comp_kinds -> gd c (CV w) a -> gd c (CV w) b ->
  gives c CB (mkBvCmp c k a b) (fun I e => op_val (L (bv_name k)) [eval I e a; eval I e b]).
Proof.
  intros Hc Hk Ga Gb. pose proof Ga as (Nr & Wa & Ta & _). pose proof Gb as (_ & Wb & Tb & _).
  apply (gives_ext c CB _ (fun I e => VBool (bvcmpr k (eval I e a) (eval I e b)))).
  - intros I e. symmetry. apply (bvcmp_val k w); [exact Hk|now apply wt_val|now apply wt_val].
  - apply (gives_bool c _ (fun I e => bvcmpr k (eval I e a) (eval I e b))).
    + intros t E. now apply (mkBvCmp_gd c k w a b t).
    + apply (mkBvCmp_sound c k w); [exact Hc|exact Hk|now apply (lo_node c), tree_node|now apply (lo_node c), tree_node|now apply (gdv_sis c w)|now apply (gdv_sis c w)|now apply wt_bvv|now apply wt_bvv].
Qed.
End F2.
