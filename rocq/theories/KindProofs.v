From Coq Require Import QArith Qcanon.
From Verif Require Import Base KindModel SortModel DagProofs TermModel BVSpec Sem SemProofs DagSpec.
Open Scope Z_scope.

Ltac each := match goal with H : In ?k _ |- _ => cbn [In cmp_kinds fp_cmp_kinds] in H;
  repeat (destruct H as [<- | H]); [..|destruct H] end.

Lemma neg_complement k : In k cmp_kinds -> forall a b,
  exists r, rel2 k a b r /\ rel2 (getNegatedKind k) a b (negb r).
Proof.
  unfold rel2. intros H a b. each; cbn [getNegatedKind op_sem pairwise forallb]; rewrite ?cmpop2, ?andb_true_r;
    (eexists; split; [reflexivity|]); f_equal; f_equal; rewrite ?negb_involutive;
    unfold vge, vgt, vle, vlt, bule, bult, bsle, bslt, vstr_lt, vstr_le;
    rewrite ?Qcleb_negb, ?negb_involutive, ?Z.leb_antisym, ?negb_involutive; reflexivity.
Qed.
Lemma neg_invol k : getNegatedKind k <> NT_UNKNOWN -> getNegatedKind (getNegatedKind k) = k.
Proof. destruct k; cbn; congruence. Qed.
Lemma neg_domain k : getNegatedKind k <> NT_UNKNOWN <-> In k (cmp_kinds ++ fp_cmp_kinds).
Proof.
  split.
  - intros H. destruct k; cbn in H; try congruence; cbn; tauto.
  - cbn. intros H. repeat (destruct H as [<- | H]); try discriminate; destruct H.
Qed.
Lemma fp_cases a : a = FNaN \/ a <> FNaN.
Proof. destruct a; [left|right|right]; congruence. Qed.
Lemma fp_total a b : a <> FNaN -> b <> FNaN -> fp_lt a b = negb (fp_le b a).
Proof.
  intros Ha Hb. destruct a as [|[]|[] x], b as [|[]|[] y]; try congruence; cbn; try reflexivity;
    apply Qcltb_negb.
Qed.
Lemma fp_total' a b : a <> FNaN -> b <> FNaN -> fp_le a b = negb (fp_lt b a).
Proof. intros Ha Hb. rewrite fp_total by assumption. now rewrite negb_involutive. Qed.
Lemma fp_nan_l b r : In r [fp_le; fp_lt] -> r FNaN b = false /\ r b FNaN = false.
Proof. intros [<- |[<- |[]]]; split; destruct b as [|[]|[] ?]; reflexivity. Qed.
Lemma neg_fp k : In k fp_cmp_kinds -> forall a b,
  exists r s, rel2 k a b r /\ rel2 (getNegatedKind k) a b s /\
    (s = negb r <-> notNaN a /\ notNaN b).
Proof.
  unfold rel2, notNaN. intros H a b.
  assert (A := fp_nan_l (fpval a)). assert (B := fp_nan_l (fpval b)).
  destruct (A fp_le) as [A1 A2]; [cbn; tauto|]. destruct (A fp_lt) as [A3 A4]; [cbn; tauto|].
  destruct (B fp_le) as [B1 B2]; [cbn; tauto|]. destruct (B fp_lt) as [B3 B4]; [cbn; tauto|]. clear A B.
  each; cbn [getNegatedKind op_sem]; rewrite ?cmpop2; (do 2 eexists; split; [reflexivity|split; [reflexivity|]]);
    unfold onfp;
    (destruct (fp_cases (fpval a)) as [Ea|Ea];
      [rewrite ?Ea, ?B1, ?B2, ?B3, ?B4; split; [discriminate|intros [? ?]; congruence]|]);
    (destruct (fp_cases (fpval b)) as [Eb|Eb];
      [rewrite ?Eb, ?A1, ?A2, ?A3, ?A4; split; [discriminate|intros [? ?]; congruence]|]);
    (split; [intros _; split; assumption|intros _]);
    first [apply fp_total; assumption|apply fp_total'; assumption].
Qed.

Lemma flip_swaps k : In k (cmp_kinds ++ fp_cmp_kinds) -> k <> NT_BV_SLT -> forall a b,
  exists r, rel2 k a b r /\ rel2 (getFlipKind k) b a r.
Proof.
  unfold rel2. intros H Hn a b. cbn [app cmp_kinds fp_cmp_kinds In] in H.
  repeat (destruct H as [<- | H]); [..|destruct H]; try congruence;
    cbn [getFlipKind op_sem pairwise forallb]; rewrite ?cmpop2, ?andb_true_r;
    (eexists; split; [reflexivity|]); f_equal; f_equal; rewrite ?(veqb_sym b a); reflexivity.
Qed.
Lemma flip_slt a b : exists r s, rel2 NT_BV_SLT a b r /\ rel2 (getFlipKind NT_BV_SLT) b a s /\
  (r = s <-> svv a <> svv b).
Proof.
  unfold rel2. cbn [getFlipKind op_sem]. rewrite !cmpop2. do 2 eexists. split; [reflexivity|].
  split; [reflexivity|]. unfold bslt, bsle.
  destruct (Z.ltb_spec (svv a) (svv b)), (Z.leb_spec (svv a) (svv b)); split; try congruence; lia.
Qed.
Lemma eq3_neg : exists a b c, op_sem NT_EQ [a; b; c] = Some (VBool false) /\
  op_sem (getNegatedKind NT_EQ) [a; b; c] = Some (VBool false).
Proof. exists (VNum (ZQ 0)), (VNum (ZQ 0)), (VNum (ZQ 1)). split; reflexivity. Qed.

(** ** operator names *)
Definition no_trip : list kind :=
  [NT_BV_TO_INT; NT_INT_TO_BV; NT_STR_INDEXOF_REG; NT_ROOT_OBJ; NT_ROOT_OF_WITH_INTERVAL].
Lemma oper_trip : forall nm k, In (nm, k) oper_key_map -> ~ In k no_trip ->
  getOperKind (kindToString k) = k.
Proof.
  intros nm k H Hn.
  assert (G : forallb (fun p => keq (getOperKind (kindToString (snd p))) (snd p) || existsb (keq (snd p)) no_trip)
                oper_key_map = true) by (vm_compute; reflexivity).
  rewrite forallb_forall in G. specialize (G _ H). cbn [snd] in G. apply orb_true_iff in G.
  destruct G as [G|G]; [now apply keq_spec|]. exfalso. apply Hn.
  apply existsb_exists in G. destruct G as (x & Hx & Ex). apply keq_spec in Ex. now subst.
Qed.
Lemma oper_names_distinct : forall k k', kindToString k = kindToString k' ->
  getOperKind (kindToString k) = k -> getOperKind (kindToString k') = k' -> k = k'.
Proof. intros k k' E H H'. rewrite <- H, <- H', E. reflexivity. Qed.
Lemma oper_first : forall nm k, In (nm, k) oper_key_map ->
  getOperKind (L nm) = k \/ nm = "arcsec"%string.
Proof.
  intros nm k H.
  assert (G : forallb (fun p => keq (getOperKind (L (fst p))) (snd p) || String.eqb (fst p) "arcsec")
                oper_key_map = true) by (vm_compute; reflexivity).
  rewrite forallb_forall in G. specialize (G _ H). cbn [fst snd] in G. apply orb_true_iff in G.
  destruct G as [G|G]; [left; now apply keq_spec|right; now apply String.eqb_eq].
Qed.
