(** Conjunctive normal form: the theory atoms. *)
From Coq Require Import QArith Qcanon Permutation ZifyBool ZifyNat.
From Verif Require Import Base KindModel SortModel TermModel BVModel BVSpec UtilModel UtilSpec DagProofs SortProofs
  Sem SemProofs ArrayModel SimpModel OpModel OpSpec OpProofs OpProofs2 OpProofs3 OpProofs4 OpProofs5 OpProofs6 OpProofs7
  ShapeProofs ConvModel ConvSpec ConvProofs WalkProofs GoodProofs SplitProofs CnfModel CnfSpec CnfProofs.
Open Scope Z_scope.

Definition ak : list kind := NT_EQ :: NT_DISTINCT :: arith_comp_kinds.
Lemma ak_node_tree c k n l r : In k ak -> tree_ok c l -> tree_ok c r -> comparable c l r -> isArray l = false -> isArray r = false ->
  tree_ok c (T k boolS n [l; r]).
Proof.
  intros Hk Tl Tr Cm Al Ar. destruct Hk as [ <- | [ <- | Hk ]]; [apply cmp_node_tree; auto; now left| |apply cmp_node_tree; auto; now right].
  intros p Hp. apply subterm_inv in Hp. destruct Hp as [ -> | (x & Hx & Hp) ].
  - constructor; try (cbn; discriminate).
    + reflexivity.
    + intros q [ <- | [] ] C. discriminate C.
    + intros _. split; [reflexivity|]. intros I e. eexists. apply eval2; [reflexivity|]. cbn. reflexivity.
    + intros _. exists l, r. auto.
  - destruct Hx as [ <- | [ <- | [] ]]; auto.
Qed.
Lemma ak_tatom c k n l r : In k ak -> two_nums c l r -> isArithTerm l = true -> isArithTerm r = true -> tatom c (T k boolS n [l; r]).
Proof.
  intros Hk H Al Ar. pose proof H as [Tl Tr Cm Nl Nr Vl Vr].
  destruct (num_not l Nl) as (_ & _ & Rl). destruct (num_not r Nr) as (_ & _ & Rr).
  apply TA_num; [|intros x [ <- | [ <- | [] ]]; assumption].
  split; [cbn in Hk |- *; repeat (destruct Hk as [ <- | Hk ]; [reflexivity|]); contradiction|].
  split; [reflexivity|]. split; [now apply ak_node_tree|]. exists l, r. auto 10.
Qed.
Lemma two_nums_sym c l r : two_nums c l r -> two_nums c r l.
Proof. intros [Tl Tr Cm Nl Nr Vl Vr]. constructor; auto. apply comparable_sym; auto; now apply tree_node. Qed.
Lemma ak_build c k l r t : cfg_ok c -> In k ak -> two_nums c l r -> isArithTerm l = true -> isArithTerm r = true ->
  mkOper c boolS k [l; r] = Ok t -> t = TRUE \/ t = FALSE \/ (tatom c t /\ incl (t_ch t) [l; r]).
Proof.
  intros Hc Hk H Al Ar M. apply mkOper_shape in M; [|cbn; lia|cbn in Hk |- *; tauto|now left].
  destruct M as [ -> | [ -> | -> ]]; auto. right; right. unfold mkInternal.
  destruct (isCommutative k); [|split; [now apply ak_tatom|cbn; apply incl_refl]].
  pose proof (ok_sort c Hc [l; r]) as P. apply Permutation_sym, Permutation_length_2_inv in P.
  destruct P as [ -> | -> ]; (split; [apply ak_tatom; auto; now apply two_nums_sym|]); intros x Hx; cbn in Hx |- *; tauto.
Qed.
Lemma num_kinds k : kin k (eq_kinds ++ distinct_kinds ++ arith_comp_kinds) = true ->
  kin k [NT_NOT; NT_AND; NT_OR; NT_XOR; NT_IMPLIES; NT_ITE; NT_TEMP_VAR; NT_ERROR; NT_BV_COMP; NT_CONST_TRUE; NT_CONST_FALSE] = false /\ kin k var_kinds = false /\ kin k const_kinds = false.
Proof. intros H. destruct k; try discriminate H; repeat split. Qed.
(** ** facts about atoms *)
Lemma tatom_sort c t : tatom c t -> t_sort t = boolS.
Proof. intros [t' (Hk & HB & HT & _) _|t' A B D S V]; [|exact S]. exact (proj1 (n_bool c t' (tree_node c t' HT) HB)). Qed.
Lemma tatom_boolean c t : tatom c t -> boolean t.
Proof. intros [t' (Hk & HB & HT & _) _|t' A B D S V]; [|exact V]. exact (proj2 (n_bool c t' (tree_node c t' HT) HB)). Qed.
Lemma tatom_atom c t : tatom c t -> isAtom t = Ok true.
Proof.
  intros [t' H HA|t' A B D S V]; [|exact A]. destruct (num_cmp_two c t' H) as (l & r & Ech & H2). destruct H as (Hk & _).
  assert (Al : isArithTerm l = true) by (apply HA; rewrite Ech; now left).
  unfold isAtom, isArithAtom, isArithComp, child0. rewrite Ech. rewrite !kin_app in Hk.
  destruct (isEq t' || isDistinct t') eqn:E.
  - cbn [bind]. rewrite Al. reflexivity.
  - unfold isEq, isDistinct in E. rewrite orb_assoc, E in Hk. cbn [orb] in Hk. cbn [bind]. rewrite Hk. reflexivity.
Qed.
Definition atomk (k : kind) : Prop := kin k [NT_NOT; NT_AND; NT_OR; NT_XOR; NT_IMPLIES; NT_ITE; NT_TEMP_VAR; NT_ERROR; NT_BV_COMP; NT_CONST_TRUE; NT_CONST_FALSE] = false /\
  kin k var_kinds = false /\ kin k const_kinds = false /\
  kin k (arith_kinds ++ [NT_ITE; NT_MAX; NT_MIN] ++ bv_op_kinds ++ fp_op_kinds ++ fp_conv_kinds ++ str_op_kinds) = false.
Lemma isAtom_kind t : isAtom t = Ok true -> atomk (t_kind t).
Proof.
  unfold isAtom, isArithAtom, isArithComp, isBVCompOp, isFPComp, isStrComp, isStrEq, isEq, isDistinct, isUF, isk, atomk.
  destruct (t_kind t); intros H; try (cbn in H; discriminate H); try (repeat split; reflexivity);
    exfalso; cbn in H; destruct (t_ch t); cbn in H; rewrite ?andb_false_r in H; try discriminate H.
Qed.
Lemma tatom_kind c t : tatom c t -> atomk (t_kind t).
Proof. intros H. now apply isAtom_kind, (tatom_atom c). Qed.
Lemma kin_in k l x : kin k l = false -> In x l -> keq k x = false.
Proof.
  intros H Hx. destruct (keq k x) eqn:E; [|reflexivity]. apply keq_spec in E. subst x. unfold kin in H. exfalso.
  assert (existsb (keq k) l = true) by (apply existsb_exists; exists k; split; [exact Hx|now apply keq_spec]). congruence.
Qed.
Lemma tatom_isk c t k : tatom c t -> In k [NT_NOT; NT_AND; NT_OR; NT_XOR; NT_IMPLIES; NT_ITE; NT_TEMP_VAR; NT_ERROR; NT_BV_COMP; NT_CONST_TRUE; NT_CONST_FALSE] -> isk k t = false.
Proof. intros H Hk. unfold isk. exact (kin_in _ _ k (proj1 (tatom_kind c t H)) Hk). Qed.
Lemma tatom_novar c t : tatom c t -> isVar t = false.
Proof. intros H. exact (proj1 (proj2 (tatom_kind c t H))). Qed.
Lemma tatom_noconst c t : tatom c t -> isConst t = false.
Proof. intros H. exact (proj1 (proj2 (proj2 (tatom_kind c t H)))). Qed.
Lemma tatom_good c t : tatom c t -> goodB t.
Proof.
  intros H. pose proof (tatom_sort c t H) as S. pose proof (tatom_noconst c t H) as C. pose proof (tatom_isk c t NT_ERROR H) as E.
  split; [intros X; congruence|]. split; [unfold isBoolParam, sis; now rewrite S|]. apply E. cbn. tauto.
Qed.
Lemma tatom_cb c t : tatom c t -> isCBool t = false /\ isVBool t = false /\ isTrue t = false /\ isFalse t = false.
Proof.
  intros H. pose proof (tatom_isk c t NT_CONST_TRUE H) as A. pose proof (tatom_isk c t NT_CONST_FALSE H) as B. pose proof (tatom_novar c t H) as V.
  assert (A' : isk NT_CONST_TRUE t = false) by (apply A; cbn; tauto). assert (B' : isk NT_CONST_FALSE t = false) by (apply B; cbn; tauto).
  unfold isCBool, isVBool, isV, isTrue, isFalse. rewrite A', B', V. repeat split; reflexivity.
Qed.
Lemma tatom_nolit c t : tatom c t -> isLiteral t = Ok false.
Proof.
  intros H. destruct (tatom_cb c t H) as (A & B & _). unfold isLiteral. rewrite B. rewrite (tatom_isk c t NT_NOT H) by (cbn; tauto). now rewrite A.
Qed.
Lemma tatom_lit c t : tatom c t -> lit t.
Proof. intros H. apply Lit_pos. right. now apply (tatom_atom c). Qed.
Lemma tatom_neglit c n t : tatom c t -> lit (T NT_NOT boolS n [t]).
Proof. intros H. apply Lit_neg. right. now apply (tatom_atom c). Qed.
Lemma tatom_not_term c t : tatom c t -> isArithTerm t = false /\ isBVTerm t = false /\ isFPTerm t = false /\ isV SK_STR t = false /\ isCStr t = false /\ isStrOp t = false.
Proof.
  intros H. pose proof (tatom_sort c t H) as S. destruct (tatom_kind c t H) as (_ & V & C & K). rewrite !kin_app in K.
  assert (K1 : kin (t_kind t) arith_kinds = false) by (destruct (kin (t_kind t) arith_kinds); [discriminate K|reflexivity]).
  assert (K2 : kin (t_kind t) bv_op_kinds = false) by (destruct (kin (t_kind t) bv_op_kinds); [rewrite ?orb_true_r in K; discriminate K|reflexivity]).
  assert (K3 : kin (t_kind t) fp_op_kinds = false) by (destruct (kin (t_kind t) fp_op_kinds); [rewrite ?orb_true_r in K; discriminate K|reflexivity]).
  assert (K4 : kin (t_kind t) str_op_kinds = false) by (destruct (kin (t_kind t) str_op_kinds); [rewrite ?orb_true_r in K; discriminate K|reflexivity]).
  unfold isArithTerm, isBVTerm, isFPTerm, isV, isCBV, isCFP, isCStr, isStrOp, isVar, numS, sis. rewrite S, K1, K2, K3, K4, V, ?C.
  unfold isConst. rewrite C. repeat split; cbn; rewrite ?andb_false_r; reflexivity.
Qed.
(** ** negation *)
Inductive alit (c : cfg) : term -> Prop :=
| AL_slit t : slit t -> alit c t
| AL_atom t : tatom c t -> alit c t
| AL_natom n t : tatom c t -> alit c (T NT_NOT boolS n [t]).
Lemma below_num n t l r k s m qs : k <> NT_TEMP_VAR -> t_ch t = [l; r] -> incl qs [l; r] -> below n t -> below n (T k s m qs).
Proof. intros K E Hi B. apply below_kind; [exact K|]. intros x Hx. apply (below_ch n t x B). rewrite E. now apply Hi. Qed.
Lemma tatom_not c t : cfg_ok c -> tatom c t ->
  exists u, mkNot c t = Ok u /\ alit c u /\ (forall n, below n t -> below n u) /\ forall I e, holds I e u = negb (holds I e t).
Proof.
  intros Hc H. pose proof H as H0. destruct (tatom_cb c t H) as (CB & VB & TT & FF).
  pose proof (tatom_isk c t NT_NOT H) as NN. assert (NN' : isNot t = false) by (apply NN; cbn; tauto).
  destruct (tatom_good c t H) as (_ & BP & ER).
  assert (BC : isBVComp t = false) by (apply (tatom_isk c t NT_BV_COMP H); cbn; tauto).
  assert (ED : forall f, mkNotF (S f) c t = (ac <- isArithComp t ;; if ac || isStrComp t then negF f c t else mkOper c boolS NT_NOT [t])).
  { intros f. cbn [mkNotF]. rewrite BP, NN', TT, FF. cbn [negb]. rewrite BC. destruct (isArithComp t) as [ac| | | | |]; cbn [bind]; try reflexivity. now rewrite orb_false_r. }
  destruct H as [t H HA|t A B D SB V].
  - destruct (num_cmp_two c t H) as (l & r & Ech & H2). destruct H as (Hk & HB & HT & _).
    pose proof H2 as [Tl Tr Cm Nl Nr Vl Vr].
    destruct (mkNot_sound c t Hc HT HB) as (u & E & Val). exists u. split; [exact E|]. rewrite <- and_assoc. split; [|exact Val]. clear Val.
    assert (Al : isArithTerm l = true) by (apply HA; rewrite Ech; cbn; tauto). assert (Ar : isArithTerm r = true) by (apply HA; rewrite Ech; cbn; tauto).
    assert (FIN : u = TRUE \/ u = FALSE \/ (tatom c u /\ incl (t_ch u) [l; r]) -> alit c u /\ (forall n, below n t -> below n u)).
    { intros [ -> | [ -> | [X Y] ]].
      - split; [apply AL_slit; constructor|intros; apply below_TRUE].
      - split; [apply AL_slit; constructor|intros; apply below_FALSE].
      - split; [now apply AL_atom|]. intros n Hb. pose proof (tatom_isk c u NT_TEMP_VAR X) as K. destruct u as [k s m qs].
        apply (below_num n t l r k s m qs); auto. intros ->. discriminate K; cbn; tauto. }
    unfold mkNot in E. assert (exists f, not_fuel t = S (S (S f))) as [f Ef] by (exists (3 * tsize t)%nat; unfold not_fuel; lia).
    rewrite Ef, ED in E. clear ED Ef.
    assert (AC : isArithComp t = Ok true).
    { unfold isArithComp, child0. rewrite Ech. rewrite !kin_app in Hk. destruct (isEq t || isDistinct t) eqn:E'.
      - cbn [bind]. now rewrite Al.
      - unfold isEq, isDistinct in E'. rewrite orb_assoc, E' in Hk. cbn [orb] in Hk. now rewrite Hk. }
    rewrite AC in E. cbn [bind orb] in E. cbn [negF] in E. rewrite ER in E.
    destruct (num_not l Nl) as (A1 & A2 & _). destruct (num_not r Nr) as (B1 & B2 & _).
    destruct (check2 c l r (tree_node c l Tl) (tree_node c r Tr) (proj1 Cm)) as (s & Es & C1 & C2).
    destruct (isEq t) eqn:Eq; [|destruct (isDistinct t) eqn:Di].
    + rewrite Ech in E. unfold mkDistinctV in E. cbn [length Nat.ltb Nat.leb] in E.
      rewrite Es in E. cbn [bind first_err] in E. rewrite (n_err c l (tree_node c l Tl)), C1 in E. cbn [bind] in E.
      rewrite (n_err c r (tree_node c r Tr)), C2 in E. cbn [bind eq_params] in E. rewrite C1 in E. cbn [bind eq_params] in E.
      rewrite C2 in E. cbn [bind] in E. rewrite A2, B2 in E. cbn [length Nat.ltb Nat.leb] in E.
      apply FIN. apply (ak_build c NT_DISTINCT l r u Hc); auto. cbn. tauto.
    + rewrite Ech in E. unfold mkEqV_ in E. cbn [length Nat.ltb Nat.leb] in E. rewrite Es in E. cbn [bind mkEqF] in E.
      rewrite (proj1 Cm), A1, A2, B1, B2, (numeric_not c l Tl Vl) in E. cbn [bind negb andb] in E.
      apply FIN. apply (ak_build c NT_EQ l r u Hc); auto. cbn. tauto.
    + assert (CMP : forall k, In k arith_comp_kinds -> (q <- child01 t ;; mkCmp c k (fst q) (snd q)) = Ok u -> u = TRUE \/ u = FALSE \/ (tatom c u /\ incl (t_ch u) [l; r])).
      { intros k Ki X. unfold child01 in X. rewrite Ech in X. cbn [bind fst snd] in X. unfold mkCmp in X.
        assert (Kk : In k ak) by (cbn in Ki |- *; tauto).
        destruct (sort_eq (t_sort l) (t_sort r)) as [[|]| | | | |]; cbn [bind] in X; try discriminate X.
        - destruct (teq l r); [|now apply (ak_build c k l r u Hc)]. unfold mkB in X. injection X as <-. destruct (refl_val k); auto.
        - destruct (canExempt _ _); [now apply (ak_build c k l r u Hc)|discriminate X]. }
      apply FIN. unfold isEq in Eq. unfold isDistinct in Di. rewrite !kin_app, Eq, Di in Hk. cbn [orb] in Hk. cbv zeta in E.
      destruct (t_kind t); try discriminate Hk; (eapply CMP; [|exact E]; cbn; tauto).
  - unfold mkNot. assert (exists f, not_fuel t = S f) as [f Ef] by (exists (3 * tsize t + 2)%nat; unfold not_fuel; lia).
    rewrite Ef, ED, B, D. cbn [bind orb]. exists (T NT_NOT boolS (kindToString NT_NOT) [t]). split.
    { unfold mkOper. cbn [simp]. unfold simp1. cbn [kin existsb float1_kinds nary1_kinds keq orb]. rewrite TT, FF. reflexivity. }
    split; [now apply AL_natom|]. split; [intros n Hb; apply below_kind; [discriminate|intros x [ <- | [] ]; exact Hb]|].
    intros I e. now apply holds_not.
Qed.
Lemma alit_lit c t : alit c t -> lit t.
Proof. intros [t' H|t' H|n t' H]; [now apply slit_lit|now apply (tatom_lit c)|now apply (tatom_neglit c)]. Qed.
Lemma alit_good c t : alit c t -> goodB t.
Proof. intros [t' H|t' H|n t' H]; [now apply slit_good|now apply (tatom_good c)|apply goodB_node; try reflexivity; discriminate]. Qed.
Lemma boolean_not n t : boolean t -> boolean (T NT_NOT boolS n [t]).
Proof. intros H I e. eexists. rewrite eval_app; [|discriminate|reflexivity]. reflexivity. Qed.
Lemma alit_boolean c t : alit c t -> boolean t.
Proof. intros [t' H|t' H|n t' H]; [now apply slit_boolean|now apply (tatom_boolean c)|apply boolean_not; now apply (tatom_boolean c)]. Qed.
Lemma alit_not c t : cfg_ok c -> alit c t ->
  exists u, mkNot c t = Ok u /\ alit c u /\ (forall n, below n t -> below n u) /\ forall I e, holds I e u = negb (holds I e t).
Proof.
  intros Hc [t' H|t' H|n t' H].
  - destruct (mkNot_slit c t' H) as (u & E & Su & B & V). exists u. split; [exact E|]. split; [now apply AL_slit|auto].
  - now apply tatom_not.
  - exists t'. split.
    + unfold mkNot, not_fuel. cbn [Nat.add]. replace (3 * tsize (T NT_NOT boolS n [t']) + 3)%nat with (S (3 * tsize (T NT_NOT boolS n [t']) + 2)) by lia. cbn [mkNotF].
      change (isBoolParam (T NT_NOT boolS n [t'])) with true. change (isNot (T NT_NOT boolS n [t'])) with true. cbn [negb t_ch length Nat.eqb].
      unfold condAssert. cbn. now destruct (c_dbg c).
    + split; [now apply AL_atom|]. split; [intros m Hb; apply (below_ch m _ t' Hb); now left|].
      intros I e. rewrite (holds_not (T NT_NOT boolS n [t']) t' I e) by reflexivity. now rewrite negb_involutive.
Qed.
