(** Evaluation: constants. *)
From Coq Require Import QArith Qcanon Qround Permutation ZifyBool ZifyNat.
From Verif Require Import Base KindModel SortModel TermModel BVModel BVSpec BVProofs BVProofs2 BVProofs4 BVProofs5
  UtilModel UtilSpec UtilProofs UtilProofs2 DagProofs SortProofs Sem SemProofs ArrayModel SimpModel OpModel OpSpec
  OpProofs OpProofs2 OpProofs3 OpProofs4 OpProofs5 TypedProofs TraverseModel EvalModel EvalSpec.
Open Scope Z_scope.

Lemma islit_const r v : islit r v -> isConst v = true /\ isUnknown v = false.
Proof. intros []; split; reflexivity. Qed.
Lemma islit_B v : islit EB v -> exists b : bool, v = if b then TRUE else FALSE.
Proof. intros H. inversion H; [exists true|exists false]; reflexivity. Qed.
Lemma islit_I v : islit EI v -> exists z, v = ic intorealS z.
Proof. intros H. inversion H. exists z. reflexivity. Qed.
Lemma islit_V w v : islit (EV w) v -> exists a, (0 < w)%nat /\ fits w /\ v = bc w a.
Proof. intros H. inversion H; subst. eexists. split; [assumption|split; [assumption|reflexivity]]. Qed.
Lemma islit_mkB (b : bool) : islit EB (if b then TRUE else FALSE). Proof. destruct b; constructor. Qed.
Lemma islit_ic z : islit EI (ic intorealS z). Proof. apply L_int. Qed.
Lemma islit_bc w a : (0 < w)%nat -> fits w -> islit (EV w) (bc w a). Proof. apply L_bv. Qed.
Lemma islit_lo r v : islit r v -> lo v.
Proof. intros H _. inversion H; subst; constructor; auto. Qed.
Lemma islit_li v : islit EI v -> li v.
Proof. intros H. destruct (islit_I v H) as (z & ->). apply li_ic. auto. Qed.
Lemma islit_lb w v : islit (EV w) v -> lb w v.
Proof. intros H. destruct (islit_V w v H) as (a & W & F & ->). now apply lb_bc. Qed.

(** ** one and two arguments *)
Definition yields (r : ety) (k : kind) (vs : list term) (x : res term) : Prop :=
  exists v, x = Ok v /\ islit r v /\ forall I e, op_sem k (map (eval I e) vs) = Some (eval I e v).
Lemma okr_yields (P : term -> Prop) r k vs x v : okr P k vs x -> x = Ok v -> islit r v -> yields r k vs x.
Proof.
  intros (t & E & D) E' H. rewrite E in E'. injection E' as ->. exists v. split; [exact E|]. split; [exact H|].
  destruct D as [D|[_ D]]; [|exact D]. destruct (islit_const r v H) as [_ U]. congruence.
Qed.
Lemma yields_oper c s r k vs : yields r k vs (simp c k vs) -> yields r k vs (mkOper c s k vs).
Proof.
  intros (v & E & H & D). exists v. split; [|auto]. unfold mkOper. rewrite E. cbn [bind].
  destruct (islit_const r v H) as [_ ->]. reflexivity.
Qed.
Lemma y_int1 c k v : In k [NT_NEG; NT_ABS; NT_CEIL; NT_FLOOR; NT_ROUND; NT_TO_INT] -> islit EI v -> yields EI k [v] (simp c k [v]).
Proof.
  intros Hk H. pose proof (islit_li v H) as L. destruct (islit_I v H) as (z & ->).
  assert (O : okr lo k [ic intorealS z] (simp c k [ic intorealS z])).
  { apply simp1_num; [|exact L]. cbn in Hk |- *. tauto. }
  assert (X : exists y, simp c k [ic intorealS z] = Ok (ic intorealS y)).
  { change (simp c k [ic intorealS z]) with (simp1 c k (ic intorealS z)).
    repeat (destruct Hk as [ <- | Hk ]); try contradiction; unfold simp1; cbn [kin existsb float1_kinds nary1_kinds keq orb];
      rewrite isCInt_ic by auto; rewrite ?toInt_ic by auto; cbn [bind]; try (eexists; reflexivity).
    destruct (z <? 0); eexists; reflexivity. }
  destruct X as (y & X). eapply okr_yields; [exact O|exact X|apply islit_ic].
Qed.
Lemma y_prop c k v : In k [NT_IS_INT; NT_IS_EVEN; NT_IS_ODD] -> islit EI v -> yields EB k [v] (simp c k [v]).
Proof.
  intros Hk H. pose proof (islit_li v H) as L. pose proof (islit_lo _ v H) as L'. destruct (islit_I v H) as (z & ->).
  assert (C : isCInt (ic intorealS z) = true) by (apply isCInt_ic; auto).
  assert (O : okr lo k [ic intorealS z] (simp c k [ic intorealS z])).
  { destruct Hk as [ <- | Hk ]; [apply simp1_num; [cbn; tauto|exact L]|apply simp1_par; [exact Hk|exact L'|exact C]]. }
  assert (X : exists b : bool, simp c k [ic intorealS z] = Ok (if b then TRUE else FALSE)).
  { change (simp c k [ic intorealS z]) with (simp1 c k (ic intorealS z)).
    repeat (destruct Hk as [ <- | Hk ]); try contradiction; unfold simp1; cbn [kin existsb float1_kinds nary1_kinds keq orb];
      rewrite C; rewrite ?toInt_ic by auto; cbn [bind]; [exists true; reflexivity| |];
      rewrite ?isEven_ok, ?isOdd_ok; cbn [bind]; eexists; reflexivity. }
  destruct X as (b & X). eapply okr_yields; [exact O|exact X|apply islit_mkB].
Qed.
Lemma y_not c v : islit EB v -> yields EB NT_NOT [v] (simp c NT_NOT [v]).
Proof. intros H. destruct (islit_B v H) as (b & ->). destruct b; [exists FALSE|exists TRUE]; (split; [reflexivity|]; split; [constructor|reflexivity]). Qed.
Lemma y_bv1 c k w v : In k [NT_BV_NOT; NT_BV_NEG] -> islit (EV w) v -> yields (EV w) k [v] (simp c k [v]).
Proof.
  intros Hk H. pose proof (islit_lo _ v H) as L'. destruct (islit_V w v H) as (a & W & F & ->).
  assert (O : okr lo k [bc w a] (simp c k [bc w a])) by (apply simp1_bv; assumption).
  assert (X : exists y, simp c k [bc w a] = Ok (bc w y)).
  { change (simp c k [bc w a]) with (simp1 c k (bc w a)).
    repeat (destruct Hk as [ <- | Hk ]); try contradiction; unfold simp1; cbn [kin existsb float1_kinds nary1_kinds keq orb];
      change (isCBV (bc w a)) with true; cbv iota; cbn [t_name bc]; rewrite ?bvNot_ok, ?bvNeg_ok by assumption; cbn [bind];
      fold (bc w a); rewrite width_bc; cbn [bind]; rewrite mkConstBv_lit by assumption; eexists; reflexivity. }
  destruct X as (y & X). eapply okr_yields; [exact O|exact X|now apply islit_bc].
Qed.
Lemma y_bvnat c w v : islit (EV w) v -> yields EI NT_BV_TO_NAT [v] (simp c NT_BV_TO_NAT [v]).
Proof.
  intros H. pose proof (islit_lo _ v H) as L'. destruct (islit_V w v H) as (a & W & F & ->).
  assert (O : okr lo NT_BV_TO_NAT [bc w a] (simp c NT_BV_TO_NAT [bc w a])) by (apply simp1_bvz; [cbn; auto|exact L']).
  assert (X : exists y, simp c NT_BV_TO_NAT [bc w a] = Ok (ic intorealS y)).
  { change (simp c NT_BV_TO_NAT [bc w a]) with (simp1 c NT_BV_TO_NAT (bc w a)).
    unfold simp1; cbn [kin existsb float1_kinds nary1_kinds keq orb]. change (isCBV (bc w a)) with true; cbv iota; cbn [t_name bc].
    rewrite bvToNat_ok. cbn [bind]. eexists; reflexivity. }
  destruct X as (y & X). eapply okr_yields; [exact O|exact X|apply islit_ic].
Qed.
Lemma y_imp c a b : islit EB a -> islit EB b -> yields EB NT_IMPLIES [a; b] (simp c NT_IMPLIES [a; b]).
Proof.
  intros Ha Hb. destruct (islit_B a Ha) as (x & ->). destruct (islit_B b Hb) as (y & ->).
  destruct x, y; eexists; (split; [reflexivity|]; split; [constructor|reflexivity]).
Qed.
Lemma y_cmp c k a b : In k arith_comp_kinds -> islit EI a -> islit EI b -> yields EB k [a; b] (simp c k [a; b]).
Proof.
  intros Hk Ha Hb. destruct (islit_I a Ha) as (x & ->). destruct (islit_I b Hb) as (y & ->).
  change (simp c k [ic intorealS x; ic intorealS y]) with (simp2 c k (ic intorealS x) (ic intorealS y)).
  exists (if (match k with NT_LE => x <=? y | NT_LT => x <? y | NT_GE => y <=? x | _ => y <? x end) then TRUE else FALSE).
  split; [|split; [apply islit_mkB|]].
  - repeat (destruct Hk as [ <- | Hk ]); try contradiction; cbn [simp2]; unfold arithOk; rewrite !isCRoot_ic; cbn [negb andb];
      rewrite !isCInt_ic by auto; cbn [andb]; rewrite !toInt_ic by auto; reflexivity.
  - intros I e. rewrite eval_mkB. cbn [map]. rewrite !eval_ic by auto.
    repeat (destruct Hk as [ <- | Hk ]); try contradiction; cbn [op_sem cmpop chain]; rewrite andb_true_r; unfold vge, vgt, vle, vlt; cbn [num];
      rewrite ?ZQ_le, ?ZQ_lt; reflexivity.
Qed.
Lemma y_arith c k a b : In k [NT_ADD; NT_MUL; NT_IAND; NT_SUB] -> islit EI a -> islit EI b -> yields EI k [a; b] (simp c k [a; b]).
Proof.
  intros Hk Ha Hb. destruct (islit_I a Ha) as (x & ->). destruct (islit_I b Hb) as (y & ->).
  change (simp c k [ic intorealS x; ic intorealS y]) with (simp2 c k (ic intorealS x) (ic intorealS y)).
  exists (ic intorealS (match k with NT_ADD => x + y | NT_MUL => x * y | NT_IAND => Z.land x y | _ => x - y end)).
  split; [|split; [apply islit_ic|]].
  - repeat (destruct Hk as [ <- | Hk ]); try contradiction; cbn [simp2]; unfold arithOk; rewrite ?isCRoot_ic; cbn [negb andb];
      rewrite !isCInt_ic by auto; cbn [andb]; rewrite !toInt_ic by auto; reflexivity.
  - intros I e. cbn [map]. rewrite !eval_ic by auto.
    repeat (destruct Hk as [ <- | Hk ]); try contradiction; cbn [op_sem sumq prodq fold_right fold_left num].
    + do 2 f_equal. rewrite <- ZQ_add. ring.
    + do 2 f_equal. rewrite <- ZQ_mul. ring.
    + rewrite !qfloor_ZQ. reflexivity.
    + unfold subq. cbn [fold_left num]. rewrite <- ZQ_sub. reflexivity.
Qed.
Lemma y_bvn c k w a b : In k bv8 -> islit (EV w) a -> islit (EV w) b -> yields (EV w) k [a; b] (simp c k [a; b]).
Proof.
  intros Hk Ha Hb. pose proof (bv_ok c k w a b Hk (islit_lb _ _ Ha) (islit_lb _ _ Hb)) as O.
  destruct (islit_V w a Ha) as (x & W & F & ->). destruct (islit_V w b Hb) as (y & _ & _ & ->).
  change (simp c k [bc w x; bc w y]) with (simp2 c k (bc w x) (bc w y)).
  assert (E : simp2 c k (bc w x) (bc w y) = Ok (bc w (bvf k x y))).
  { rewrite <- mkConstBv_lit with (c := c) by assumption.
    destruct Hk as [ <- | [ <- | [ <- | [ <- | [ <- | [ <- | [ <- | [ <- | [] ]]]]]]]]; cbn [simp2];
      change (isCBV (bc w x)) with true; change (isCBV (bc w y)) with true; cbn [t_name bc andb].
    - rewrite bvAnd_ok. reflexivity.
    - rewrite bvOr_ok. reflexivity.
    - rewrite bvXor_ok. reflexivity.
    - rewrite bvNand_ok. reflexivity.
    - rewrite bvNor_ok. reflexivity.
    - rewrite bvXnor_ok. reflexivity.
    - rewrite bvAdd_ok by assumption. reflexivity.
    - rewrite bvMul_ok by assumption. reflexivity. }
  eapply okr_yields; [exact O|exact E|now apply islit_bc].
Qed.
Lemma bvcmp_op k v w : In k bv_comp_kinds -> bvw v = bvw w -> op_sem k [v; w] = Some (VBool (bvcmpr k v w)).
Proof. intros Hk _. repeat (destruct Hk as [ <- | Hk ]); try contradiction; cbn [op_sem cmpop chain bvcmpr]; now rewrite andb_true_r. Qed.
Lemma y_bvcmp c k w a b : In k bv_comp_kinds -> islit (EV w) a -> islit (EV w) b -> yields EB k [a; b] (simp c k [a; b]).
Proof.
  intros Hk Ha Hb.
  assert (E : simp c k [a; b] = if isCBV a && isCBV b then x <- bvComp (c_dbg c) (t_name a) (t_name b) (bvcmp_of k) ;; mkB x else unk).
  { repeat (destruct Hk as [ <- | Hk ]); try contradiction; reflexivity. }
  assert (Ca : isCBV a = true) by (destruct (islit_V w a Ha) as (x & _ & _ & ->); reflexivity).
  assert (Cb : isCBV b = true) by (destruct (islit_V w b Hb) as (x & _ & _ & ->); reflexivity).
  rewrite Ca, Cb in E. cbn [andb] in E.
  destruct (bvcomp_ok c k w a b Hk (islit_lb _ _ Ha) (islit_lb _ _ Hb) Ca Cb) as (x & X & V). rewrite X in E. cbn [bind] in E.
  exists (if x then TRUE else FALSE). split; [exact E|]. split; [apply islit_mkB|]. intros I e. rewrite eval_mkB. cbn [map].
  rewrite bvcmp_op; [|exact Hk|]. { now rewrite (V I e). }
  destruct (islit_V w a Ha) as (x' & _ & _ & ->). destruct (islit_V w b Hb) as (y & _ & _ & ->). now rewrite !eval_bc.
Qed.
