(** Proofs about the typed constructors. *)
From Coq Require Import String Lia Permutation.
From Verif Require Import Base KindModel SortModel TermModel BVModel SimpModel OpModel ArrSimpModel OpSpec OpProofs
  ParseModel CtorModel CtorSpec.
Open Scope Z_scope.

(** ** folding leaves open applications alone *)
Lemma flags p : isConst p = false ->
  isCInt p = false /\ isCReal p = false /\ isCBV p = false /\ isCStr p = false /\ isTrue p = false /\ isFalse p = false.
Proof.
  intros H. unfold isCInt, isCReal, isCBV, isCStr. rewrite H. cbn [andb]. do 4 (split; [reflexivity|]).
  unfold isTrue, isFalse, isk in *. split; destruct (t_kind p) eqn:E; try reflexivity;
    unfold isConst in H; rewrite E in H; discriminate H.
Qed.
Definition closed1 : list kind := nary1_kinds ++ [NT_IS_PRIME; NT_IS_EVEN; NT_IS_ODD; NT_FACT].
Definition closed2 : list kind :=
  [NT_EQ; NT_EQ_BOOL; NT_EQ_OTHER; NT_DISTINCT; NT_DISTINCT_BOOL; NT_DISTINCT_OTHER; NT_AND; NT_OR; NT_IMPLIES;
   NT_XOR; NT_SUB; NT_IS_DIVISIBLE; NT_GCD; NT_LCM; NT_MAX; NT_MIN; NT_ITE].
Lemma simp1_open c k p : isConst p = false -> kin k closed1 = false -> simp1 c k p = unk.
Proof.
  intros H K. destruct (flags p H) as (A & B & D & E & F & G).
  unfold simp1, isNumC. rewrite A, B, D, E, F, G. cbn [orb andb].
  destruct (kin k float1_kinds) eqn:X; [reflexivity|].
  destruct k; try discriminate K; reflexivity.
Qed.
Lemma isZero_bv c r : isCBV r = true -> isZero c r = Ok false.
Proof.
  unfold isCBV, isZero. intros H. apply andb_prop in H. destruct H as [A B].
  unfold isCReal, isCInt, sis, s_is, skeq in *. rewrite Z.eqb_eq in B. rewrite B. cbn.
  rewrite Bool.andb_false_r. now destruct (isCRoot r).
Qed.
Lemma simp2_open c k l r : isConst l = false \/ isConst r = false -> kin k closed2 = false -> simp2 c k l r = unk.
Proof.
  intros H K. unfold simp2.
  assert (A : isCInt l && isCInt r = false) by (destruct H as [H|H]; destruct (flags _ H) as (A1 & _); rewrite A1; auto using Bool.andb_false_r).
  assert (B : isCReal l && isCReal r = false) by (destruct H as [H|H]; destruct (flags _ H) as (? & B1 & _); rewrite B1; auto using Bool.andb_false_r).
  assert (D : isCInt l && isCReal r = false) by (destruct H as [H|H]; destruct (flags _ H) as (B1 & D1 & _); rewrite ?B1, ?D1; auto using Bool.andb_false_r).
  assert (E : isCReal l && isCInt r = false) by (destruct H as [H|H]; destruct (flags _ H) as (B' & D' & _); rewrite ?B', ?D'; auto using Bool.andb_false_r).
  assert (F : isCStr l && isCStr r = false) by (destruct H as [H|H]; destruct (flags _ H) as (? & ? & ? & F1 & _); rewrite F1; auto using Bool.andb_false_r).
  assert (G : isCBV l && isCBV r = false) by (destruct H as [H|H]; destruct (flags _ H) as (? & ? & G1 & _); rewrite G1; auto using Bool.andb_false_r).
  assert (M : isCStr l && isCInt r = false) by (destruct H as [H|H]; destruct (flags _ H) as (M1 & ? & ? & N1 & _); rewrite ?M1, ?N1; auto using Bool.andb_false_r).
  rewrite A, B, D, E, F, G, M. cbn [orb andb].
  destruct k; try discriminate K; try reflexivity; try (destruct (arithOk l r); reflexivity);
    destruct (isCBV r) eqn:Z; try (rewrite (isZero_bv c r Z)); cbn [bind]; try reflexivity;
    rewrite Bool.andb_true_r in G; rewrite ?G; reflexivity.
Qed.
Lemma simp3_open c k l m r : isConst l = false \/ isConst m = false -> kin k closed2 = false -> simp3 c k l m r = unk.
Proof.
  intros H K. unfold simp3. pose proof (simp2_open c k l m H K) as S.
  pose proof (simp2_open c k UNKNOWN r (or_introl eq_refl) K) as S'.
  assert (F : isCStr l && isCStr m = false) by (destruct H as [H|H]; destruct (flags _ H) as (? & ? & ? & F1 & _); rewrite F1; auto using Bool.andb_false_r).
  assert (M : isCStr l && isCInt m = false) by (destruct H as [H|H]; destruct (flags _ H) as (M1 & ? & ? & N1 & _); rewrite ?M1, ?N1; auto using Bool.andb_false_r).
  assert (G : isCBV l && isCInt m = false) by (destruct H as [H|H]; destruct (flags _ H) as (N1 & ? & G1 & _); rewrite ?G1, ?N1; auto using Bool.andb_false_r).
  rewrite F, M, G. cbn [andb].
  destruct (is_eqk k) eqn:X; [destruct k; discriminate|].
  destruct (is_disk k) eqn:Y; [destruct k; discriminate|].
  destruct (kin k (NT_IMPLIES :: leftfold_kinds)).
  - rewrite S. exact S'.
  - destruct k; try discriminate K; reflexivity.
Qed.
Lemma simp_open c k ps : open_args ps -> kin k closed1 = false \/ (length ps <> 1)%nat -> kin k closed2 = false ->
  simp c k ps = unk.
Proof.
  intros H K1 K2. destruct ps as [|a [|b [|d [|e qs]]]]; cbn [open_args] in H.
  - destruct H.
  - destruct K1 as [K1|K1]; [now apply simp1_open|now contradiction K1].
  - now apply simp2_open.
  - now apply simp3_open.
  - cbn [simp]. unfold simpN. destruct (is_eqk k) eqn:X; [destruct k; discriminate|].
    destruct (is_disk k) eqn:Y; [destruct k; discriminate|].
    destruct (keq k NT_IMPLIES) eqn:Z; [destruct k; discriminate|].
    destruct (kin k leftfold_kinds); [|reflexivity].
    cbn [fold_simp]. rewrite (simp2_open c k a b H K2). reflexivity.
Qed.
Lemma mkOper_open c s k ps : open_args ps -> kin k closed1 = false \/ (length ps <> 1)%nat -> kin k closed2 = false ->
  mkOper c s k ps = Ok (mkInternal c s k ps).
Proof. intros A B C. unfold mkOper. rewrite simp_open by assumption. reflexivity. Qed.

(** kinds never folded *)
Definition fp_re_kinds : list kind :=
  [NT_FP_ABS; NT_FP_NEG; NT_FP_REM; NT_FP_DIV; NT_FP_FMA; NT_FP_SQRT; NT_FP_ROUND_TO_INTEGRAL; NT_FP_ADD; NT_FP_SUB;
   NT_FP_MUL; NT_FP_MIN; NT_FP_MAX; NT_FP_LE; NT_FP_LT; NT_FP_GE; NT_FP_GT; NT_FP_EQ; NT_FP_TO_UBV; NT_FP_TO_SBV;
   NT_FP_TO_REAL; NT_FP_TO_FP; NT_FP_TO_FP_UNSIGNED; NT_FP_IS_NORMAL; NT_FP_IS_SUBNORMAL; NT_FP_IS_ZERO; NT_FP_IS_INF;
   NT_FP_IS_NAN; NT_FP_IS_NEG; NT_FP_IS_POS; NT_REG_CONCAT; NT_REG_UNION; NT_REG_INTER; NT_REG_DIFF; NT_REG_STAR;
   NT_REG_PLUS; NT_REG_OPT; NT_REG_RANGE; NT_REG_LOOP; NT_REG_COMPLEMENT].
Lemma simp_fp c k ps : kin k fp_re_kinds = true -> ps <> [] -> kin k nary1_kinds = false \/ (length ps <> 1)%nat ->
  simp c k ps = unk.
Proof.
  intros K N K1. destruct ps as [|a [|b [|d [|e qs]]]].
  - congruence.
  - destruct K1 as [K1|K1]; [|now contradiction K1]. cbn [simp]. unfold simp1. rewrite K1.
    destruct k; try discriminate K; try discriminate K1; reflexivity.
  - destruct k; try discriminate K; reflexivity.
  - destruct k; try discriminate K; reflexivity.
  - destruct k; try discriminate K; reflexivity.
Qed.
Lemma mkOper_fp c s k ps : kin k fp_re_kinds = true -> ps <> [] -> kin k nary1_kinds = false \/ (length ps <> 1)%nat ->
  mkOper c s k ps = Ok (mkInternal c s k ps).
Proof. intros A B C. unfold mkOper. rewrite simp_fp by assumption. reflexivity. Qed.
