(** Proofs for C67: the assertions recorded for a well-sorted script are formulas in the sense of
    ConvSpec.v and, in the clausal language, of CnfSpec.v. *)
From Coq Require Import QArith Qcanon Permutation.
From Verif Require Import Base LexSpec KindModel SortModel TermModel BVModel BVSpec UtilModel UtilSpec Sem SemProofs DagProofs SortProofs
  SimpModel OpModel OpSpec OpProofs OpProofs2 OpProofs3 OpProofs4 OpProofs5 OpProofs6 OpProofs7 ShapeProofs TypedSpec TypedProofs
  ConvModel ConvSpec CnfModel CnfSpec
  LexModel ParseModel ParseSpec CommandModel CommandSpec MeanSpec MeanProofs MeanProofs2 MeanBv MeanProofs3 MeanProofs4 MeanProofs5.
Open Scope Z_scope.

Ltac sigcases2 A :=
  destruct A as [|k m Hk Hm|m Hm Hm'|r Hr1|k r m Hk Hr1 Hm|k Hk|k r m Hk Hr1 Hm|r Hr1|r Hr1|rs Hr1 Hr'|m r Hm Hr1|k w1 Hk|k w1 nn Hk Hnn|k w1 Hk|w1 w2 Hfit|w1].
Ltac kcases Hk tac := repeat (destruct Hk as [ <- | Hk ]; [tac|]); contradiction.
(** terms that are no arithmetic, bit-vector or string terms *)
Lemma theory_CB t : wt CB t -> theory_arg t = false.
Proof.
  intros W. pose proof (wt_sort CB t W ltac:(discriminate)) as S. cbn [rsort] in S.
  assert (E : forall k, sis k t = skeq SK_BOOL k) by (intros k; unfold sis; now rewrite S).
  assert (X : kin (t_kind t) arith_kinds = false /\ kin (t_kind t) str_op_kinds = false).
  { clear S E. remember CB as r eqn:R. destruct W as [k s n r A B| | |s z A|k s n r rs ch A B F|s n r rs ch A B D F|t W|w v A B]; try discriminate R; try (split; reflexivity).
    - destruct k; try discriminate A; split; reflexivity.
    - cbn [t_kind]. sigcases2 A; try discriminate R; try (split; reflexivity); try (kcases Hk ltac:(split; reflexivity)).
      all: destruct Hr1; congruence. }
  destruct X as [X1 X2]. unfold theory_arg, isArithTerm, isV, isCStr, isStrOp, numS. rewrite !E, X1, X2. cbn. rewrite !andb_false_r. reflexivity.
Qed.
Lemma class_bool r t : wt r t -> r <> CL -> r <> CB -> isBoolParam t = false.
Proof.
  intros W N M. destruct (isBoolParam t) eqn:E; [|reflexivity]. exfalso. apply M. now apply (wt_class r t).
Qed.

Section F.
Context {fl : Flag}.
Hypothesis HP : l_params fl = None.
Lemma gd_boolean c t : gd c CB t -> boolean t.
Proof. intros (_ & W & _) I e. exact (wt_val I e CB t W). Qed.
Lemma gd_sub_ch c r t x : tok c t -> In x (t_ch t) -> r <> CL -> wt r x -> gd c r x.
Proof. apply gd_ch. Qed.
Lemma imp_two c n ch : tok c (T NT_IMPLIES boolS n ch) -> length ch = 2%nat.
Proof. intros [_ P]. destruct (P _ (Sub_refl _)) as (_ & H & _). now apply H. Qed.

(** ** formulas *)
Lemma atom_gd c t : gd c CB t -> conn (t_kind t) = false -> fml c t.
Proof.
  intros G HK. apply F_atom. pose proof G as (_ & W & T). constructor; [exact HK|apply T|now apply (gd_bool c)|].
  intros E l r Ech Th. apply orb_true_iff in E. destruct (eq_children c t l r G E Ech) as (q & (Nq & Wl & _) & _ & _).
  destruct (isBoolParam l) eqn:B; [|reflexivity]. pose proof (wt_class q l Wl Nq B) as ->. now rewrite (theory_CB l Wl) in Th.
Qed.
Lemma fml_gd c t : gd c CB t -> fml c t.
Proof.
  induction t as [k s n ch IH] using term_ind'. rewrite Forall_forall in IH. intros G.
  destruct (conn k) eqn:HK; [|now apply atom_gd]. pose proof G as (_ & W & HT).
  assert (CH : forall x, In x ch -> wt CB x -> fml c x).
  { intros x Hx Wx. apply IH; [exact Hx|]. now apply (gd_ch c CB (T k s n ch) x HT Hx ltac:(discriminate)). }
  pose proof (wt_sort CB _ W ltac:(discriminate)) as Ss. cbn [rsort t_sort] in Ss. subst s.
  inversion W as [? ? ? ? A B| | | |? ? ? ? rs ? A B F| | |]; subst; try discriminate HK; [destruct k; discriminate|]. clear W B.
  assert (FB : forall m, rs = repeat CB m -> (forall p, In p ch -> fml c p) /\ length ch = m).
  { intros m ->. apply TypedProofs.Forall2_repeat in F. destruct F as [El F]. split; [|exact El]. intros p Hp. apply CH; [exact Hp|]. rewrite Forall_forall in F. now apply F. }
  inversion A; subst; try discriminate HK;
    try (match goal with H : In k _ |- _ => exfalso; repeat (destruct H as [ <- | H ]; [discriminate HK|]); contradiction end).
  - inversion F as [|? x ? ? Wx F1]; subst. inversion F1; subst. apply F_not, CH; [now left|exact Wx].
  - destruct (FB n0 eq_refl) as [Hp El]. assert (NE : ch <> []) by (intros ->; cbn in El; lia).
    repeat (match goal with H : In k _ |- _ => destruct H as [ <- | H ] end); try contradiction; [now apply F_and|now apply F_or|discriminate HK].
  - destruct (FB n0 eq_refl) as [Hp El]. pose proof (imp_two c n ch HT) as E2. destruct ch as [|a [|b [|]]]; try discriminate E2.
    apply F_imp; apply Hp; cbn; tauto.
  - inversion F as [|? x ? ? Wx F1]; subst. inversion F1 as [|? y ? ? Wy F2]; subst. inversion F2 as [|? z ? ? Wz F3]; subst. inversion F3; subst.
    apply F_ite; apply CH; cbn; tauto.
Qed.

(** ** the clausal language *)
Definition num_cl (r : cl) : Prop := r = CI \/ r = CR.
Lemma wt_numS r t : num_cl r -> wt r t -> numS t = true.
Proof.
  intros Hr W. assert (N : r <> CL) by (destruct Hr; subst; discriminate). pose proof (num_sort r _ Hr (wt_sort r t W N)) as S. unfold numS, sis.
  destruct S as [ -> | [ -> | -> ]]; reflexivity.
Qed.
Lemma arith_gd r t c : l_clausal fl = true -> wt r t -> num_cl r -> tok c t -> isArithTerm t = true.
Proof.
  intros Hf W. induction W as [k s n r A B| | |s z A|k s n r rs ch A B F _|s n r rs ch A B D F _|t W IH|w v A B] using wt_ind'; intros Hr HT;
    try (destruct Hr; discriminate).
  - destruct HT as [_ P]. destruct (P _ (Sub_refl _)) as (K & _). specialize (K A). unfold var_node in K. rewrite HP in K. cbn [t_kind] in K.
    assert (V : isVar (T k s n []) = true) by (destruct k; try discriminate A; try discriminate K; reflexivity).
    unfold isArithTerm. rewrite V. unfold sis. cbn [t_sort]. destruct Hr as [ -> | -> ]; cbn [vsort] in B; subst s; cbn; now rewrite !orb_true_r.
  - unfold isArithTerm. destruct A as [ -> | -> ]; reflexivity.
  - destruct HT as [_ P]. destruct (P _ (Sub_refl _)) as (_ & _ & _ & PC). destruct (PC Hf) as [K _]. cbn [t_kind] in K.
    assert (NS : numS (T k s n ch) = true).
    { apply (wt_numS r); [exact Hr|]. now apply (W_app k s n r rs ch). }
    revert NS. unfold isArithTerm. intros ->. clear F. sigcases2 A; try (destruct Hr; discriminate); try (now rewrite orb_true_r); try discriminate K; try reflexivity.
    kcases Hk ltac:(reflexivity).
  - unfold isArithTerm. rewrite (wt_numS r (T NT_UF_APPLY s n ch)); [now rewrite !orb_true_r|exact Hr|]. now apply (W_uf s n r rs ch).
  - apply IH; [now left|exact HT].
Qed.
Lemma bvterm_gd w t c : l_clausal fl = true -> wt (CV w) t -> tok c t -> isBVTerm t = true /\ isArithTerm t = false /\ isV SK_STR t = false /\ isCStr t = false /\ isStrOp t = false.
Proof.
  intros Hf W HT. pose proof (wt_sort (CV w) t W ltac:(discriminate)) as S. cbn [rsort] in S.
  assert (E : forall k, sis k t = skeq SK_BV k) by (intros k; unfold sis; now rewrite S).
  assert (X : kin (t_kind t) arith_kinds = false /\ kin (t_kind t) str_op_kinds = false /\
              (kin (t_kind t) bv_op_kinds || isVar t || isConst t || kin (t_kind t) [NT_ITE; NT_MAX; NT_MIN; NT_UF_APPLY] = true)).
  { clear S E. remember (CV w) as r eqn:R. destruct W as [k s n r A B| | |s z A|k s n r rs ch A B F|s n r rs ch A B D F|t W|w' v A B]; try discriminate R; try (repeat split; reflexivity).
    - destruct HT as [_ P]. destruct (P _ (Sub_refl _)) as (K & _). specialize (K A). unfold var_node in K. rewrite HP in K. cbn [t_kind] in K. destruct k; try discriminate A; try discriminate K; repeat split; reflexivity.
    - destruct HT as [_ P]. destruct (P _ (Sub_refl _)) as (_ & _ & _ & PC). destruct (PC Hf) as [K _]. cbn [t_kind] in K. unfold isVar, isConst. cbn [t_kind].
      sigcases2 A; try discriminate R; try discriminate K; try (repeat split; reflexivity); try (repeat (destruct Hk as [ <- | Hk ]; [first [discriminate K|repeat split; reflexivity]|]); contradiction);
        try (destruct Hr1; congruence). }
  destruct X as (X1 & X2 & X3). unfold isBVTerm, isArithTerm, isV, isCStr, isStrOp, numS, isCBV, isUF, isk. rewrite !E, X1, X2. change (skeq SK_BV SK_BV) with true. change (skeq SK_BV SK_INT) with false. change (skeq SK_BV SK_REAL) with false. change (skeq SK_BV SK_INTOREAL) with false. change (skeq SK_BV SK_STR) with false. cbn [orb].
  rewrite ?andb_false_r, ?andb_true_r, ?orb_false_r. repeat split; auto.
Qed.
Lemma CB_sort c t : gd c CB t -> t_sort t = boolS.
Proof. intros (_ & W & _). exact (wt_sort CB t W ltac:(discriminate)). Qed.
(** equalities, comparisons and Boolean applications *)
Lemma tatom_gd c k s n ch : l_clausal fl = true -> gd c CB (T k s n ch) -> kin k ([NT_EQ; NT_DISTINCT; NT_UF_APPLY] ++ arith_comp_kinds ++ bv_comp_kinds) = true -> tatom c (T k s n ch).
Proof.
  intros Hf G HK. pose proof G as (_ & W & HT). pose proof (CB_sort c _ G) as Ss. cbn [t_sort] in Ss. subst s.
  pose proof (gd_boolean c _ G) as Bt.
  assert (NUM : forall a b, ch = [a; b] -> kin k (eq_kinds ++ distinct_kinds ++ arith_comp_kinds) = true -> (exists r, num_cl r /\ wt r a /\ wt r b) -> tatom c (T k boolS n ch)).
  { intros a b -> Hk (r & Hr & Wa & Wb). apply TA_num.
    - split; [exact Hk|]. split; [reflexivity|]. split; [apply HT|]. exists a, b. split; [reflexivity|]. split; [now apply (wt_numS r)|]. split; [now apply (wt_numS r)|].
      split; now apply (wt_numeric r).
    - intros x [ <- | [ <- | [] ]]; [apply (arith_gd r a c Hf Wa Hr)|apply (arith_gd r b c Hf Wb Hr)]; apply (tok_ch c _ _ HT); cbn; tauto. }
  assert (EQ : isEq (T k boolS n ch) = true \/ isDistinct (T k boolS n ch) = true -> tatom c (T k boolS n ch)).
  { intros E. destruct HT as [TT P]. destruct (n_eq c _ (TT _ (Sub_refl _)) E) as (a & b & Ech & _). cbn [t_ch] in Ech. subst ch.
    destruct (eq_children c _ a b G E eq_refl) as (q & Ga & Gb & Nb). pose proof Ga as (Nq & Wa & Ta). pose proof Gb as (_ & Wb & Tb).
    destruct q as [| | | |w]; [exfalso; now apply (Nb Hf)| | |congruence|].
    - apply (NUM a b eq_refl); [|exists CI; split; [now left|now split]].
      unfold isEq, isDistinct in E. cbn [t_kind] in E. unfold kin in *. rewrite !existsb_app. destruct E as [ -> | -> ]; rewrite ?orb_true_r; reflexivity.
    - apply (NUM a b eq_refl); [|exists CR; split; [now right|now split]].
      unfold isEq, isDistinct in E. cbn [t_kind] in E. unfold kin in *. rewrite !existsb_app. destruct E as [ -> | -> ]; rewrite ?orb_true_r; reflexivity.
    - destruct (bvterm_gd w a c Hf Wa Ta) as (B1 & B2 & B3 & B4 & B5).
      assert (EE : isEq (T k boolS n [a; b]) || isDistinct (T k boolS n [a; b]) = true) by (apply orb_true_iff; exact E).
      assert (AC : kin k arith_comp_kinds = false /\ kin k str_comp_kinds = false).
      { clear -EE. unfold isEq, isDistinct in EE. cbn [t_kind] in EE. destruct k; try discriminate EE; split; reflexivity. }
      destruct AC as [AC SC].
      apply TA_other; [| | |reflexivity|exact Bt].
      + unfold isAtom, isArithAtom, isArithComp. rewrite EE. cbn [child0 t_ch bind]. rewrite B2. unfold isBVCompOp. cbn [t_ch]. rewrite EE, B1. cbn. now rewrite !orb_true_r.
      + unfold isArithComp. rewrite EE. cbn [child0 t_ch bind t_kind]. now rewrite B2, AC.
      + unfold isStrComp, isStrEq. cbn [t_ch t_kind]. rewrite SC, B3, B4, B5. cbn. apply andb_false_r. }
  unfold kin in HK. rewrite !existsb_app, !orb_true_iff in HK. destruct HK as [HK|[HK|HK]].
  - destruct k; try discriminate HK; [apply EQ; now left|apply EQ; now right|].
    apply TA_other; [|reflexivity|reflexivity|reflexivity|exact Bt]. destruct ch; reflexivity.
  - destruct (n_cmp c _ (proj1 HT _ (Sub_refl _)) HK) as (a & b & Ech & _). destruct (cmp_children c (T k boolS n ch) a b G HK Ech) as ((_ & Wa & _) & (_ & Wb & _)).
    cbn [t_ch] in Ech. apply (NUM a b Ech); [|exists CR; split; [now right|split; assumption]].
    unfold kin in *. rewrite !existsb_app, HK, !orb_true_r. reflexivity.
  - apply TA_other; [| | |reflexivity|exact Bt].
    + destruct k; try discriminate HK; reflexivity || (unfold isAtom, isArithAtom, isArithComp; cbn; destruct ch; reflexivity).
    + destruct k; try discriminate HK; reflexivity.
    + destruct k; try discriminate HK; reflexivity.
Qed.
Lemma cfm_gd c t : l_clausal fl = true -> gd c CB t -> forall b, cfm c b t.
Proof.
  intros Hf. induction t as [k s n ch IH] using term_ind'. rewrite Forall_forall in IH. intros G b. pose proof G as (_ & W & HT).
  assert (CH : forall x, In x ch -> wt CB x -> forall b, cfm c b x).
  { intros x Hx Wx. apply IH; [exact Hx|]. now apply (gd_ch c CB (T k s n ch) x HT Hx ltac:(discriminate)). }
  pose proof (CB_sort c _ G) as Ss. cbn [t_sort] in Ss. subst s.
  pose proof HT as [_ P]. destruct (P _ (Sub_refl _)) as (K1 & I2 & _ & PC). destruct (PC Hf) as [K2 _]. unfold var_node in K1. rewrite HP in K1. cbn [t_kind t_ch] in K1, K2, I2. clear P PC.
  pose proof (tatom_gd c k boolS n ch Hf G) as TA. clear Hf G HT IH.
  inversion W as [? ? ? ? A B| | | |? ? ? ? rs ? A B F|? ? ? rs ? A B D F| |]; subst.
  - apply CF_var, Bool_var. specialize (K1 A). destruct k; try discriminate A; try discriminate K1; reflexivity.
  - apply CF_true.
  - apply CF_false.
  - clear W B.
    assert (FB : forall m, rs = repeat CB m -> (forall b p, In p ch -> cfm c b p) /\ length ch = m).
    { intros m ->. apply TypedProofs.Forall2_repeat in F. destruct F as [El F]. split; [|exact El]. intros b' p Hp. apply CH; [exact Hp|]. rewrite Forall_forall in F. now apply F. }
    inversion A; subst; try discriminate K2; try (match goal with H : CB = CI \/ _ |- _ => destruct H; discriminate end);
      try (match goal with H : In k _ |- _ => repeat (destruct H as [ <- | H ]; [apply CF_atom, TA; reflexivity|]); contradiction end).
    + inversion F as [|? x ? ? Wx F1]; subst. inversion F1; subst. apply CF_not, CH; [now left|exact Wx].
    + destruct (FB n0 eq_refl) as [Hp El]. assert (NE : ch <> []) by (intros ->; cbn in El; lia).
      repeat (match goal with H : In k _ |- _ => destruct H as [ <- | H ] end); try contradiction; [apply CF_and; [exact NE|now apply Hp]|apply CF_or; [exact NE|now apply Hp]|discriminate K2].
    + destruct (FB n0 eq_refl) as [Hp El]. pose proof (I2 eq_refl) as E2. destruct ch as [|p [|q [|]]]; try discriminate E2.
      apply CF_imp; apply Hp; cbn; tauto.
    + inversion F as [|? x ? ? Wx F1]; subst. inversion F1 as [|? y ? ? Wy F2]; subst. inversion F2 as [|? z ? ? Wz F3]; subst. inversion F3; subst.
      apply CF_ite; apply CH; cbn; tauto.
  - apply CF_atom, TA. reflexivity.
Qed.
Lemma below_gd c t n : gd c CB t -> below n t.
Proof. intros (_ & _ & _ & P) p Hp i _ ->. destruct (P _ Hp) as (K & _). specialize (K eq_refl). unfold var_node in K. rewrite HP in K. discriminate K. Qed.
End F.
Lemma asserted_fml f ts (c : cfg) : Forall (asserted f) ts -> forall t, In t ts -> fml c t.
Proof. intros F t Ht. rewrite Forall_forall in F. exact (@fml_gd (Language f None) c t (F t Ht c)). Qed.
Lemma asserted_cfm ts c : Forall (asserted true) ts -> forall t, In t ts -> cfm c false t.
Proof. intros F t Ht. rewrite Forall_forall in F. exact (@cfm_gd (Language true None) eq_refl c t eq_refl (F t Ht c) false). Qed.
Lemma asserted_below f ts (c : cfg) n : Forall (asserted f) ts -> forall t, In t ts -> below n t.
Proof. intros F t Ht. rewrite Forall_forall in F. exact (@below_gd (Language f None) eq_refl c t n (F t Ht c)). Qed.
