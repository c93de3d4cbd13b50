(** Results of the Boolean constructors are themselves usable as Boolean arguments. *)
From Coq Require Import QArith Qcanon Permutation ZifyBool ZifyNat.
From Verif Require Import Base KindModel SortModel TermModel BVModel BVSpec UtilModel UtilSpec DagProofs SortProofs
  Sem SemProofs ArrayModel SimpModel OpModel OpSpec OpProofs OpProofs2 OpProofs3 OpProofs4 OpProofs5 OpProofs6 OpProofs7
  ShapeProofs ConvModel ConvSpec ConvProofs.
Open Scope Z_scope.

Lemma tree_goodB c p : tree_ok c p -> isBoolParam p = true -> goodB p.
Proof. intros HT HB. pose proof (tree_node c p HT) as HN. split; [now apply (lo_node c)|split; [exact HB|apply HN]]. Qed.
Lemma boolk_good k n ch : In k boolk -> goodB (T k boolS n ch).
Proof.
  intros H. apply goodB_node; [|reflexivity|]; cbn in H; repeat (destruct H as [ <- | H ]; [reflexivity || discriminate|]); contradiction.
Qed.
Lemma mkOper_good c k ps t : (2 <= length ps)%nat -> In k boolk ->
  (length ps = 2%nat \/ kin k (eq_kinds ++ distinct_kinds ++ [NT_AND; NT_OR; NT_IMPLIES; NT_XOR]) = true) ->
  mkOper c boolS k ps = Ok t -> goodB t.
Proof.
  intros Hl Hk Hs H. apply mkOper_shape in H; auto. destruct H as [ -> | [ -> | -> ]]; [apply goodB_TRUE|apply goodB_FALSE|]. now apply boolk_good.
Qed.
Lemma mkCmp_good c k l r t : In k arith_comp_kinds -> mkCmp c k l r = Ok t -> goodB t.
Proof.
  intros Hk X. unfold mkCmp in X.
  assert (M : mkOper c boolS k [l; r] = Ok t -> goodB t).
  { intros Y. apply mkOper_good in Y; [exact Y|cbn; lia|cbn in Hk |- *; tauto|now left]. }
  destruct (sort_eq (t_sort l) (t_sort r)) as [[|]| | | | |]; cbn [bind] in X; try discriminate X.
  - destruct (teq l r); [|now apply M]. injection X as <-. destruct (refl_val k); [apply goodB_TRUE|apply goodB_FALSE].
  - destruct (canExempt _ _); [now apply M|discriminate X].
Qed.
Lemma mkStrCmp_good c k l r t : In k str_comp_kinds -> mkStrCmp c k l r = Ok t -> goodB t.
Proof.
  intros Hk X. unfold mkStrCmp in X. destruct (negb (sis SK_STR l) || negb (sis SK_STR r)); [discriminate X|].
  destruct (teq l r); [injection X as <-; destruct (refl_val k); [apply goodB_TRUE|apply goodB_FALSE]|].
  apply mkOper_good in X; [exact X|cbn; lia|cbn in Hk |- *; tauto|now left].
Qed.
Lemma mkBvCmp_good c k l r t : In k bv_comp_kinds -> mkBvCmp c k l r = Ok t -> goodB t.
Proof.
  intros Hk X. unfold mkBvCmp in X. destruct (negb (sis SK_BV l) || negb (sis SK_BV r)); [discriminate X|].
  destruct (negb (keq k NT_BV_ULT) && isCBV l && isCBV r).
  { destruct (bvComp _ _ _ _) as [b| | | | |]; cbn [bind] in X; try discriminate X. injection X as <-. destruct b; [apply goodB_TRUE|apply goodB_FALSE]. }
  destruct (teq l r); [injection X as <-; destruct (refl_val k); [apply goodB_TRUE|apply goodB_FALSE]|].
  apply mkOper_good in X; [exact X|cbn; lia|cbn in Hk |- *; tauto|now left].
Qed.
Lemma mkDistinctV_good c l r t : tree_ok c l -> tree_ok c r -> comparable c l r -> mkDistinctV c [l; r] = Ok t -> goodB t.
Proof.
  intros Tl Tr Cm H. unfold mkDistinctV in H. cbn [length Nat.ltb Nat.leb] in H.
  destruct (check2 c l r (tree_node c l Tl) (tree_node c r Tr) (proj1 Cm)) as (s & Es & C1 & C2).
  rewrite Es in H. cbn [bind first_err] in H. rewrite (n_err c l (tree_node c l Tl)), C1 in H. cbn [bind] in H.
  rewrite (n_err c r (tree_node c r Tr)), C2 in H. cbn [bind eq_params] in H. rewrite C1 in H. cbn [bind eq_params] in H.
  rewrite C2 in H. cbn [bind] in H.
  assert (B1 : isFalse l = true -> goodB r).
  { intros F. apply (tree_goodB c); [exact Tr|]. apply (bool_of_compat r (t_sort l)).
    - rewrite compat_sym; [apply Cm|eapply node_fp; apply tree_node; eassumption|eapply node_fp; apply tree_node; eassumption].
    - unfold isFalse in F. apply andb_true_iff in F. now apply s_is_iff. }
  assert (B2 : isFalse r = true -> goodB l).
  { intros F. apply (tree_goodB c); [exact Tl|]. apply (bool_of_compat l (t_sort r)); [apply Cm|].
    unfold isFalse in F. apply andb_true_iff in F. now apply s_is_iff. }
  destruct (isFalse l) eqn:Fl, (isFalse r) eqn:Fr.
  - injection H as <-. apply goodB_FALSE.
  - injection H as <-. auto.
  - injection H as <-. auto.
  - cbn [length Nat.ltb Nat.leb] in H. apply mkOper_good in H; [exact H|cbn; lia|cbn; tauto|now left].
Qed.
Theorem not_eq_good c : cfg_ok c -> forall f,
  (forall p t, tree_ok c p -> isBoolParam p = true -> mkNotF f c p = Ok t -> goodB t) /\
  (forall p t, tree_ok c p -> cmpk p -> negF f c p = Ok t -> goodB t) /\
  (forall l r t, tree_ok c l -> tree_ok c r -> comparable c l r -> mkEqF f c l r = Ok t -> goodB t).
Proof.
  intros Hc. induction f as [|f (IN & IG & IE)]; [repeat split; intros; discriminate|]. split; [|split].
  - intros p t HT HB H. pose proof (tree_node c p HT) as HN. cbn [mkNotF] in H. rewrite HB in H. cbn [negb] in H.
    destruct (isNot p) eqn:N.
    { destruct (n_not c p HN N) as (q & Ech & Bq). unfold child0 in H. rewrite Ech in H. cbn [length Nat.eqb] in H.
      assert (t = q) as ->. { unfold condAssert in H. destruct (c_dbg c); cbn in H; congruence. }
      apply (tree_goodB c); [|exact Bq]. apply (tree_ch c p); [exact HT|rewrite Ech; now left]. }
    destruct (isTrue p); [injection H as <-; apply goodB_FALSE|]. destruct (isFalse p); [injection H as <-; apply goodB_TRUE|].
    destruct (isArithComp_ok c p HN) as (b & Eb & Hb). rewrite Eb in H. cbn [bind] in H.
    destruct (isBVComp p) eqn:BC. { apply isk_kind in BC. rewrite (n_bvcomp c p HN BC) in HB. discriminate HB. }
    rewrite orb_false_r in H. destruct (b || isStrComp p) eqn:CC.
    + apply (IG p t HT); [|exact H]. apply orb_true_iff in CC. destruct CC as [ -> | CC ]; [|now apply isStrComp_cmpk].
      destruct (Hb eq_refl) as [X|[X|X]]; [now left|now right; left|right; right]. unfold kin in *. rewrite !existsb_app, X. reflexivity.
    + apply mkOper_not_shape in H. destruct H as [ -> | [ -> | -> ]]; [apply goodB_TRUE|apply goodB_FALSE|].
      apply goodB_node; [reflexivity|reflexivity|discriminate].
  - intros p t HT HK H. pose proof (tree_node c p HT) as HN. cbn [negF] in H. rewrite (n_err c p HN) in H.
    destruct (isEq p) eqn:Eq.
    { destruct (n_eq c p HN (or_introl Eq)) as (l & r & Ech & Cm & _ & _). rewrite Ech in H.
      apply (mkDistinctV_good c l r t); auto; apply (tree_ch c p); try exact HT; rewrite Ech; cbn; tauto. }
    destruct (isDistinct p) eqn:D.
    { destruct (n_eq c p HN (or_intror D)) as (l & r & Ech & Cm & _ & _). rewrite Ech in H.
      assert (Tl : tree_ok c l) by (apply (tree_ch c p); [exact HT|rewrite Ech; cbn; tauto]).
      assert (Tr : tree_ok c r) by (apply (tree_ch c p); [exact HT|rewrite Ech; cbn; tauto]).
      unfold mkEqV_ in H. cbn [length Nat.ltb Nat.leb] in H.
      destruct (check2 c l r (tree_node c l Tl) (tree_node c r Tr) (proj1 Cm)) as (s & Es & _). rewrite Es in H. cbn [bind] in H.
      now apply (IE l r t). }
    destruct HK as [HK|[HK|HK]]; [congruence|congruence|].
    cbv zeta in H. destruct (child01 p) as [[l r]| | | | |];
      destruct (t_kind p); try discriminate HK; cbn [bind fst snd] in H; try discriminate H;
      first [apply mkCmp_good in H; [exact H|cbn; tauto] | apply mkBvCmp_good in H; [exact H|cbn; tauto] | apply mkStrCmp_good in H; [exact H|cbn; tauto]].
  - intros l r t Tl Tr Cm H. pose proof (tree_node c l Tl) as Nl. pose proof (tree_node c r Tr) as Nr. pose proof Cm as Cm0. destruct Cm as [Hs Hx].
    assert (BR : isBoolParam l = true -> isBoolParam r = true).
    { intros B. rewrite compat_sym in Hs by (eapply node_fp; eassumption). apply (bool_of_compat _ _ Hs). now apply s_is_iff. }
    assert (BL : isBoolParam r = true -> isBoolParam l = true).
    { intros B. apply (bool_of_compat _ _ Hs). now apply s_is_iff. }
    assert (TL : isTrue l = true -> isBoolParam l = true) by (unfold isTrue; intros X; apply andb_true_iff in X; apply X).
    assert (TR : isTrue r = true -> isBoolParam r = true) by (unfold isTrue; intros X; apply andb_true_iff in X; apply X).
    assert (FL : isFalse l = true -> isBoolParam l = true) by (unfold isFalse; intros X; apply andb_true_iff in X; apply X).
    assert (FR : isFalse r = true -> isBoolParam r = true) by (unfold isFalse; intros X; apply andb_true_iff in X; apply X).
    cbn [mkEqF] in H. rewrite Hs in H. cbn [bind negb] in H.
    destruct (isTrue l && isTrue r); [injection H as <-; apply goodB_TRUE|].
    destruct (isFalse l && isFalse r); [injection H as <-; apply goodB_TRUE|].
    destruct (isTrue l && isFalse r); [injection H as <-; apply goodB_FALSE|].
    destruct (isFalse l && isTrue r); [injection H as <-; apply goodB_FALSE|].
    destruct (isTrue l); [injection H as <-; apply (tree_goodB c); auto|].
    destruct (isFalse l); [apply (IN r t Tr); auto|].
    destruct (isTrue r); [injection H as <-; apply (tree_goodB c); auto|].
    destruct (isFalse r); [apply (IN l t Tl); auto|].
    destruct (isNot l && isNot r) eqn:NN.
    + apply andb_true_iff in NN. destruct NN as [N1 N2].
      destruct (n_not c l Nl N1) as (a & Ea & Ba). destruct (n_not c r Nr N2) as (b & Eb & Bb).
      assert (Ta : tree_ok c a) by (apply (tree_ch c l); [exact Tl|rewrite Ea; cbn; tauto]).
      assert (Tb : tree_ok c b) by (apply (tree_ch c r); [exact Tr|rewrite Eb; cbn; tauto]).
      unfold child0 in H. rewrite Ea, Eb in H. cbn [length Nat.eqb] in H.
      assert (CA : condAssert (c_dbg c) true = Ok tt) by (unfold condAssert; destruct (c_dbg c); reflexivity).
      rewrite ?CA in H. cbn [bind] in H. apply (IE a b t Ta Tb); [|exact H].
      destruct (n_bool c a (tree_node c a Ta) Ba) as [Sa Va]. destruct (n_bool c b (tree_node c b Tb) Bb) as [Sb Vb].
      split; [rewrite Sa, Sb; reflexivity|]. left. intros p [ <- | [ <- | [] ]] _; unfold sis; rewrite ?Sa, ?Sb; reflexivity.
    + apply mkOper_good in H; [exact H|cbn; lia|cbn; tauto|now left].
Qed.
Lemma mkNot_good c p t : cfg_ok c -> tree_ok c p -> isBoolParam p = true -> mkNot c p = Ok t -> goodB t.
Proof. intros Hc HT HB. apply (not_eq_good c Hc); assumption. Qed.
Lemma mkEq_good c l r t : cfg_ok c -> tree_ok c l -> tree_ok c r -> comparable c l r -> mkEq c l r = Ok t -> goodB t.
Proof. intros Hc Tl Tr Cm. apply (not_eq_good c Hc); assumption. Qed.
Lemma mkJunction_good c conj ps t : cfg_ok c -> (forall p, In p ps -> goodB p) -> mkJunction c (jk conj) ps = Ok t -> goodB t.
Proof.
  intros Hc HP H. apply mkJunction_shape in H; [|exact Hc|now apply goodB_args].
  destruct H as [ -> | [ -> | [H|(qs & -> & _)] ]]; [apply goodB_TRUE|apply goodB_FALSE|auto|].
  destruct conj; apply goodB_node; try reflexivity; discriminate.
Qed.

(** ** rebuilding a connective over equivalent arguments *)
Notation skel_kind := conn_arity.
(** the truth of a connective depends only on the truth of its arguments *)
Definition skel_sem (k : kind) (bs : list bool) : bool :=
  match k, bs with
  | NT_NOT, [b] => negb b
  | NT_AND, _ => forallb (fun b => b) bs
  | NT_OR, _ => existsb (fun b => b) bs
  | NT_XOR, _ => xors bs
  | NT_IMPLIES, _ => imps bs
  | NT_ITE, [a; b; d] => if a then b else d
  | _, _ => false
  end.
Lemma forallb_mapid (f : term -> bool) l : forallb f l = forallb (fun b => b) (map f l).
Proof. induction l; cbn; [reflexivity|now rewrite IHl]. Qed.
Lemma existsb_mapid (f : term -> bool) l : existsb f l = existsb (fun b => b) (map f l).
Proof. induction l; cbn; [reflexivity|now rewrite IHl]. Qed.
Lemma skel_holds k s n ch I e : skel_kind k (length ch) = true -> holds I e (T k s n ch) = skel_sem k (map (holds I e) ch).
Proof.
  intros H. assert (NE : ch <> []) by (intros ->; destruct k; discriminate H).
  destruct k; try discriminate H; cbn [conn_arity] in H.
  - rewrite holds_and by exact NE. cbn [skel_sem]. apply forallb_mapid.
  - rewrite holds_or by exact NE. cbn [skel_sem]. apply existsb_mapid.
  - destruct ch as [|a [|b l]]; try discriminate H. cbn [map skel_sem]. now apply holds_not.
  - rewrite (holds_op I e NT_IMPLIES s n ch (VBool (impl (map (eval I e) ch)))); [|exact NE|reflexivity|].
    + cbn [truth skel_sem]. rewrite impl_imps, map_map. reflexivity.
    + apply imp_op. rewrite map_length. apply andb_true_iff in H. destruct H as [H _]. now apply Nat.leb_le in H.
  - rewrite (holds_op I e NT_XOR s n ch (VBool (xorl (map (eval I e) ch)))); [|exact NE|reflexivity|destruct ch as [|? [|? ?]]; try congruence; try discriminate H; reflexivity].
    cbn [truth skel_sem]. rewrite xorl_xors, map_map. reflexivity.
  - destruct ch as [|a [|b [|d [|? ?]]]]; try discriminate H. cbn [map skel_sem].
    rewrite (holds_op I e NT_ITE s n [a; b; d] (if truth (eval I e a) then eval I e b else eval I e d)); [|exact NE|reflexivity|reflexivity].
    unfold holds. now destruct (truth (eval I e a)).
Qed.
Lemma rebuild c k n ch us : cfg_ok c -> skel_kind k (length ch) = true -> (forall u, In u us -> goodB u) ->
  (forall I e, map (holds I e) us = map (holds I e) ch) ->
  exists u, mkOper c boolS k us = Ok u /\ goodB u /\ forall I e, holds I e u = holds I e (T k boolS n ch).
Proof.
  intros Hc HK HG HV. assert (Hn : length us = length ch).
  { specialize (HV I0 (fun _ => VBool true)). apply (f_equal (@length bool)) in HV. now rewrite !map_length in HV. }
  assert (LO : lits_ok us) by (intros p Hp C; destruct (HG p Hp) as (A & _); exact (A C)).
  assert (FD : fold_dom c k us).
  { split; [exact LO|]. destruct k; try discriminate HK; cbn [conn_arity] in HK; rewrite Hn; lia. }
  destruct (mkOper_sound c boolS k us Hc FD) as (u & E & V). exists u. split; [exact E|]. split.
  - destruct (Nat.leb 2 (length us) && negb (keq k NT_ITE)) eqn:B.
    + apply andb_true_iff in B. destruct B as [B1 B2]. apply Nat.leb_le in B1. apply mkOper_good in E; auto.
      * destruct k; try discriminate HK; try discriminate B2; cbn; try tauto. cbn in HK. apply Nat.eqb_eq in HK. lia.
      * destruct k; try discriminate HK; try discriminate B2; try (right; reflexivity). cbn in HK. apply Nat.eqb_eq in HK. lia.
    + destruct (keq k NT_ITE) eqn:KI.
      * apply keq_spec in KI. subst k. cbn [conn_arity] in HK. apply Nat.eqb_eq in HK. rewrite HK in Hn. destruct us as [|a [|b [|d [|? ?]]]]; try discriminate Hn.
        unfold mkOper in E. cbn [simp] in E. unfold simp3 in E. cbn in E.
        destruct (isTrue a); cbn in E.
        { destruct (isUnknown b) eqn:U; injection E as <-; [apply goodB_node; try reflexivity; discriminate|apply HG; cbn; tauto]. }
        destruct (isFalse a); cbn in E.
        { destruct (isUnknown d) eqn:U; injection E as <-; [apply goodB_node; try reflexivity; discriminate|apply HG; cbn; tauto]. }
        injection E as <-. apply goodB_node; try reflexivity; discriminate.
      * assert (k = NT_NOT) as ->.
        { rewrite andb_true_r in B. apply Nat.leb_gt in B. destruct k; try discriminate HK; try discriminate KI; try reflexivity; cbn [conn_arity] in HK; exfalso; lia. }
        cbn [conn_arity] in HK. apply Nat.eqb_eq in HK. rewrite HK in Hn. destruct us as [|a [|b l]]; try discriminate Hn.
        apply mkOper_not_shape in E. destruct E as [ -> | [ -> | -> ]]; [apply goodB_TRUE|apply goodB_FALSE|].
        apply goodB_node; [reflexivity|reflexivity|discriminate].
  - intros I e. unfold holds at 1. rewrite V. fold (holds I e (T k boolS (kindToString k) us)).
    rewrite !skel_holds by (rewrite ?Hn; exact HK). now rewrite HV.
Qed.
