(** Shapes of the terms returned by the Boolean constructors. *)
From Coq Require Import QArith Qcanon Permutation ZifyBool ZifyNat.
From Verif Require Import Base KindModel SortModel TermModel BVModel BVSpec UtilModel UtilSpec DagProofs SortProofs
  Sem SemProofs ArrayModel SimpModel OpModel OpSpec OpProofs OpProofs2 OpProofs3 OpProofs4 OpProofs5 OpProofs6 OpProofs7.
Open Scope Z_scope.

Definition cst3 (t : term) : Prop := t = TRUE \/ t = FALSE \/ t = UNKNOWN.
Definition boolk : list kind :=
  eq_kinds ++ distinct_kinds ++ [NT_AND; NT_OR; NT_IMPLIES; NT_XOR] ++ arith_comp_kinds ++ str_comp_kinds ++ bv_comp_kinds.

Lemma mkB_cst b t : mkB b = Ok t -> cst3 t.
Proof. unfold mkB, cst3. intros H. injection H as <-. destruct b; auto. Qed.
Lemma unk_cst t : unk = Ok t -> cst3 t.
Proof. unfold unk, cst3. intros H. injection H as <-. auto. Qed.
Ltac shp := repeat match goal with
  | H : mkB _ = Ok _ |- _ => exact (mkB_cst _ _ H)
  | H : unk = Ok _ |- _ => exact (unk_cst _ H)
  | H : Ok TRUE = Ok _ |- _ => injection H as <-; left; reflexivity
  | H : Ok FALSE = Ok _ |- _ => injection H as <-; right; left; reflexivity
  | H : bind ?m _ = Ok _ |- _ => destruct m; cbn [bind] in H; try discriminate H
  | H : (if ?b then _ else _) = Ok _ |- _ => destruct b
  end.
Lemma simp2_shape c k l r t : In k boolk -> simp2 c k l r = Ok t -> cst3 t.
Proof.
  intros Hk H. cbn [boolk eq_kinds distinct_kinds arith_comp_kinds str_comp_kinds bv_comp_kinds app] in Hk.
  repeat (destruct Hk as [ <- | Hk ]; [cbn [simp2 kin existsb] in H; shp|]). contradiction.
Qed.
Lemma simp3_shape c k l m r t : In k boolk -> kin k (eq_kinds ++ distinct_kinds ++ [NT_AND; NT_OR; NT_IMPLIES; NT_XOR]) = true ->
  simp3 c k l m r = Ok t -> cst3 t.
Proof.
  intros Hk Hk' H. unfold simp3 in H. destruct (is_eqk k) eqn:E; [shp|]. destruct (is_disk k) eqn:D; [shp|].
  assert (X : kin k (NT_IMPLIES :: leftfold_kinds) = true) by (destruct k; try discriminate Hk'; try discriminate E; try discriminate D; reflexivity).
  rewrite X in H. destruct (simp2 c k l m) as [a| | | | |]; cbn [bind] in H; try discriminate H. now apply (simp2_shape c k a r).
Qed.
Lemma simp_eq_shape c k : In k boolk -> forall f ps t, simp_eq f c k ps = Ok t -> cst3 t.
Proof.
  intros Hk. induction f as [|f IH]; intros ps t H; cbn [simp_eq] in H; [discriminate H|].
  destruct (first_const ps 0) as [[i p0]|]; [|shp].
  destruct (eq_scan c k p0 i ps) as [o| | | | |]; cbn [bind] in H; try discriminate H.
  destruct o as [[|q [|q' qs]]|].
  - shp. - now apply (simp2_shape c k q p0). - destruct (Nat.eqb _ _); [shp|]. now apply IH in H. - shp.
Qed.
Lemma fold_shape c k : In k boolk -> forall ps acc t, cst3 acc -> fold_simp c k acc ps = Ok t -> cst3 t.
Proof.
  intros Hk. induction ps as [|p ps IH]; intros acc t Ha H; cbn [fold_simp] in H; [injection H as <-; exact Ha|].
  destruct (simp2 c k acc p) as [a| | | | |] eqn:E; cbn [bind] in H; try discriminate H.
  destruct (isUnknown a); [shp|]. apply IH in H; [exact H|]. now apply (simp2_shape c k acc p).
Qed.
Lemma imp_scan_shape ps : forall b t, imp_scan ps b = Ok t -> cst3 t.
Proof.
  induction ps as [|p ps IH]; intros b t H; cbn [imp_scan] in H; [shp|].
  destruct ps; [shp|]. destruct (isFalse p); [shp|]. now apply IH in H.
Qed.
Lemma simp_shape c k ps t : (2 <= length ps)%nat -> In k boolk ->
  (length ps = 2%nat \/ kin k (eq_kinds ++ distinct_kinds ++ [NT_AND; NT_OR; NT_IMPLIES; NT_XOR]) = true) ->
  simp c k ps = Ok t -> cst3 t.
Proof.
  intros Hl Hk Hs H. destruct ps as [|a [|b [|d [|x ps]]]]; cbn [length] in *; try lia.
  - now apply (simp2_shape c k a b).
  - destruct Hs as [Hs|Hs]; [discriminate Hs|]. now apply (simp3_shape c k a b d).
  - destruct Hs as [Hs|Hs]; [discriminate Hs|]. cbn [simp] in H. unfold simpN in H.
    destruct (is_eqk k) eqn:E; [now apply (simp_eq_shape c k Hk) in H|]. destruct (is_disk k) eqn:D.
    { destruct (dis_all c k (a :: b :: d :: x :: ps) false) as [[[|]|]| | | | |]; cbn [bind] in H; try discriminate H; shp. }
    destruct (keq k NT_IMPLIES) eqn:Im; [now apply imp_scan_shape in H|].
    destruct (kin k leftfold_kinds); [|shp]. cbn [fold_simp] in H.
    destruct (simp2 c k a b) as [u| | | | |] eqn:Eu; cbn [bind] in H; try discriminate H. destruct (isUnknown u); [shp|].
    apply (fold_shape c k Hk (d :: x :: ps) u t); [now apply (simp2_shape c k a b)|exact H].
Qed.
Lemma mkOper_shape c s k ps t : (2 <= length ps)%nat -> In k boolk ->
  (length ps = 2%nat \/ kin k (eq_kinds ++ distinct_kinds ++ [NT_AND; NT_OR; NT_IMPLIES; NT_XOR]) = true) ->
  mkOper c s k ps = Ok t -> t = TRUE \/ t = FALSE \/ t = mkInternal c s k ps.
Proof.
  intros Hl Hk Hs H. unfold mkOper in H. destruct (simp c k ps) as [r| | | | |] eqn:E; cbn [bind] in H; try discriminate H.
  destruct (simp_shape c k ps r Hl Hk Hs E) as [ -> | [ -> | -> ]]; injection H as <-; auto.
Qed.
Lemma mkOper_not_shape c s p t : mkOper c s NT_NOT [p] = Ok t -> t = TRUE \/ t = FALSE \/ t = T NT_NOT s (kindToString NT_NOT) [p].
Proof.
  unfold mkOper. cbn [simp]. unfold simp1. cbn [kin existsb float1_kinds nary1_kinds keq orb]. intros H.
  destruct (isTrue p); [cbn in H; injection H as <-; auto|]. destruct (isFalse p); cbn in H; injection H as <-; auto.
Qed.

(** ** conjunction and disjunction *)
Lemma bool_loop_shape (conj : bool) ps : bool_args ps ->
  match bool_loop (if conj then isTrue else isFalse) (if conj then isFalse else isTrue) (if conj then FALSE else TRUE) ps with
  | Ok (inl t) => t = if conj then FALSE else TRUE
  | Ok (inr qs) => incl qs ps /\ forall q, In q qs -> (if conj then isTrue else isFalse) q = false /\ (if conj then isFalse else isTrue) q = false
  | _ => False
  end.
Proof.
  intros HB. induction ps as [|p ps IH]; cbn [bool_loop].
  - split; [intros x H; exact H|intros q []].
  - destruct HB as [HL HS]. destruct (HS p (or_introl eq_refl)) as [S1 S2]. apply lits_ok_cons in HL. destruct HL as [L1 L2].
    rewrite S1, S2. cbn [negb].
    assert (HB' : bool_args ps) by (split; [exact L2|intros q Hq; apply HS; now right]). specialize (IH HB').
    destruct ((if conj then isTrue else isFalse) p) eqn:U.
    + destruct (bool_loop _ _ _ ps) as [[t|qs]| | | | |]; try contradiction; [exact IH|].
      destruct IH as [A B]. split; [intros x Hx; right; now apply A|exact B].
    + destruct ((if conj then isFalse else isTrue) p) eqn:Z; [reflexivity|].
      destruct (bool_loop _ _ _ ps) as [[t|qs]| | | | |]; try contradiction; cbn [bind]; [exact IH|].
      destruct IH as [A B]. split; [intros x [ <- | Hx ]; [now left|right; now apply A]|].
      intros q [ <- | Hq ]; [now split|now apply B].
Qed.
Definition jk (conj : bool) : kind := if conj then NT_AND else NT_OR.
Lemma mkJunction_shape c (conj : bool) ps t : cfg_ok c -> bool_args ps -> mkJunction c (jk conj) ps = Ok t ->
  t = TRUE \/ t = FALSE \/ In t ps \/
  exists qs, t = T (jk conj) boolS (kindToString (jk conj)) qs /\ (2 <= length qs)%nat /\ incl qs ps /\ NoDup qs /\
             forall q, In q qs -> isTrue q = false /\ isFalse q = false.
Proof.
  intros Hc HB H. unfold mkJunction, jk in H. replace (keq (if conj then NT_AND else NT_OR) NT_AND) with conj in H by (now destruct conj).
  destruct ps as [|a [|b ps]].
  - injection H as <-. destruct conj; auto.
  - injection H as <-. right; right; left. now left.
  - set (l := a :: b :: ps) in *. pose proof (bool_loop_shape conj l HB) as S.
    destruct (bool_loop _ _ _ l) as [[x|qs]| | | | |]; try contradiction; cbn [bind] in H.
    + injection H as <-. subst x. destruct conj; auto.
    + destruct S as [Si Sq].
      assert (ND : forall ps seen, NoDup (dedup seen ps) /\ forall x, In x (dedup seen ps) -> ~ In x seen).
      { clear. induction ps as [|p ps IH]; intros seen; cbn [dedup]; [split; [constructor|intros x []]|].
        destruct (existsb (teq p) seen) eqn:E; [apply IH|]. destruct (IH (p :: seen)) as [A B]. split.
        - constructor; [intros F; exact (B p F (or_introl eq_refl))|exact A].
        - intros x [ <- | Hx ]; [intros F; apply existsb_teq in F; congruence|intros F; exact (B x Hx (or_intror F))]. }
      destruct (ND qs []) as [ND1 _].
      assert (Di : incl (dedup [] qs) l) by (intros x Hx; apply Si; now apply dedup_incl in Hx).
      assert (Dq : forall q, In q (dedup [] qs) -> isTrue q = false /\ isFalse q = false).
      { intros q Hq. apply dedup_incl in Hq. destruct (Sq q Hq). destruct conj; auto. }
      destruct (dedup [] qs) as [|x [|y qs']].
      * injection H as <-. destruct conj; auto.
      * injection H as <-. right; right; left. apply Di. now left.
      * assert (Hk : In (if conj then NT_AND else NT_OR) boolk) by (destruct conj; cbn; tauto).
        apply mkOper_shape in H; [|cbn [length]; lia|exact Hk|right; now destruct conj].
        destruct H as [ -> | [ -> | -> ]]; auto. right; right; right.
        exists (c_sort c (x :: y :: qs')). split; [unfold mkInternal, jk; now destruct conj|].
        pose proof (ok_sort c Hc (x :: y :: qs')) as P. split; [rewrite (Permutation_length P); cbn [length]; lia|].
        split; [intros z Hz; apply Di; now apply (Permutation_in _ P)|]. split; [now apply (Permutation_NoDup (Permutation_sym P))|].
        intros q Hq. apply Dq. now apply (Permutation_in _ P).
Qed.
