(** Proofs about negation, equality, distinctness and comparisons. *)
From Coq Require Import QArith Qcanon Qround Permutation ZifyBool ZifyNat.
From Verif Require Import Base KindModel SortModel TermModel BVModel BVSpec BVProofs BVProofs2 BVProofs4 BVProofs5
  UtilModel UtilSpec UtilProofs UtilProofs2 DagProofs SortProofs Sem SemProofs ArrayModel SimpModel OpModel OpSpec
  OpProofs OpProofs2 OpProofs3 OpProofs4 OpProofs5.
Open Scope Z_scope.

(** ** sort compatibility *)
Lemma compat_sym a b : fp_wf a -> fp_wf b -> compat a b = compat b a.
Proof.
  intros Ha Hb. unfold compat. rewrite (sort_eq_sym a b) by assumption.
  destruct (sort_eq b a); cbn [bind]; try reflexivity. do 2 f_equal. unfold canExempt. apply andb_comm.
Qed.
Lemma compat_refl a : fp_wf a -> compat a a = Ok true.
Proof. intros Ha. unfold compat. now rewrite sort_eq_refl. Qed.
Lemma compat_kind a b : compat a b = Ok true -> s_kind b = SK_BOOL \/ s_kind b = SK_STR \/ s_kind b = SK_BV -> s_kind a = s_kind b.
Proof.
  unfold compat. destruct (sort_eq a b) as [[|]|?| | | |] eqn:E; cbn [bind orb]; intros H K; try discriminate H.
  - destruct K as [K|[K|K]]; rewrite K; eapply sort_eq_kind; eauto; discriminate.
  - exfalso. unfold canExempt in H. injection H as H. apply andb_true_iff in H. destruct H as [_ H].
    unfold s_is in H. destruct K as [K|[K|K]]; rewrite K in H; discriminate H.
Qed.
Lemma compat_num a b : compat a b = Ok true ->
  (s_is SK_INT a || s_is SK_REAL a || s_is SK_INTOREAL a = true <-> s_is SK_INT b || s_is SK_REAL b || s_is SK_INTOREAL b = true).
Proof.
  unfold compat. destruct (sort_eq a b) as [[|]|?| | | |] eqn:E; cbn [bind orb]; intros H; try discriminate H.
  - unfold sort_eq in E. unfold s_is in *. destruct (s_kind a), (s_kind b); cbn in *; try (split; intros Z; discriminate Z); try (split; reflexivity);
      destruct (seq_str (s_name a) (s_name b)), (s_arity a =? s_arity b); cbn in E; try discriminate E.
  - injection H as H. unfold canExempt, s_is in *. destruct (s_kind a), (s_kind b); cbn in *; try discriminate H; split; reflexivity.
Qed.
Lemma node_fp c p : node_ok c p -> fp_wf (t_sort p). Proof. intros H. exact (n_sort c p H). Qed.
Lemma num_compat a s : s_is SK_INT a || s_is SK_REAL a || s_is SK_INTOREAL a = true -> s = intS \/ s = realS -> compat a s = Ok true.
Proof.
  intros H [ -> | -> ]; unfold compat, sort_eq, canExempt, s_is in *; destruct (s_kind a) eqn:K; cbn in *; try discriminate H;
    try reflexivity; match goal with |- context [seq_str ?x ?y] => destruct (seq_str x y), (s_arity a =? 0); reflexivity end.
Qed.
Lemma check2 c l r : node_ok c l -> node_ok c r -> compat (t_sort l) (t_sort r) = Ok true ->
  exists s, getSort [l; r] = Ok s /\ check_sort s l = Ok true /\ check_sort s r = Ok true.
Proof.
  intros Hl Hr H. unfold getSort. destruct (numS l) eqn:N.
  - eexists. split; [reflexivity|]. unfold check_sort.
    assert (S0 : forall b : bool, (if b then realS else intS) = intS \/ (if b then realS else intS) = realS) by (intros [|]; auto).
    assert (Nr : numS r = true) by (apply (compat_num _ _ H); exact N).
    split; apply num_compat; auto.
  - eexists. split; [reflexivity|]. unfold check_sort. cbn [find].
    destruct (negb (isConst l)); cbn [option_map].
    + rewrite (compat_refl (t_sort l)) by (now apply (node_fp c)). rewrite (compat_sym (t_sort r)) by (eapply node_fp; eassumption). auto.
    + destruct (negb (isConst r)); cbn [option_map]; [|auto]. rewrite (compat_refl (t_sort r)) by (now apply (node_fp c)). auto.
Qed.
Lemma lo_node c p : node_ok c p -> lo p. Proof. intros H C. now apply (n_lit c p H p (or_introl eq_refl)). Qed.
Lemma lits2 c l r : node_ok c l -> node_ok c r -> lits_ok [l; r].
Proof. intros Hl Hr. apply lits_ok_cons. split; [now apply (lo_node c)|]. apply lits_ok_cons. split; [now apply (lo_node c)|]. intros p []. Qed.
Lemma bool_val c p I e : node_ok c p -> isBoolParam p = true -> eval I e p = VBool (holds I e p).
Proof. intros H B. destruct (n_bool c p H B) as [_ Hb]. destruct (Hb I e) as [b Eb]. unfold holds. now rewrite Eb. Qed.
Lemma veqb_bool a b : veqb (VBool a) (VBool b) = Bool.eqb a b. Proof. reflexivity. Qed.
Lemma bool_of_compat p s : compat (t_sort p) s = Ok true -> s_kind s = SK_BOOL -> isBoolParam p = true.
Proof. intros H K. unfold isBoolParam, sis. apply s_is_iff. rewrite (compat_kind _ _ H); auto. Qed.

(** ** distinct on two arguments *)
Lemma mkDistinctV2 c l r : cfg_ok c -> node_ok c l -> node_ok c r -> comparable c l r ->
  decides (mkDistinctV c [l; r]) (fun I e => negb (veqb (eval I e l) (eval I e r))).
Proof.
  intros Hc Hl Hr [Hs Hx]. destruct (check2 c l r Hl Hr Hs) as (s & E & C1 & C2).
  unfold mkDistinctV. cbn [length Nat.ltb Nat.leb]. rewrite E. cbn [bind first_err]. rewrite (n_err c l Hl), C1. cbn [bind].
  rewrite (n_err c r Hr), C2. cbn [bind eq_params]. rewrite C1. cbn [bind eq_params]. rewrite C2. cbn [bind].
  pose proof (lo_node c l Hl) as Ll. pose proof (lo_node c r Hr) as Lr.
  destruct (isFalse r) eqn:F2, (isFalse l) eqn:F1.
  - apply (lo_false _ Ll) in F1. apply (lo_false _ Lr) in F2. subst. eexists. split; reflexivity.
  - apply (lo_false _ Lr) in F2. subst. eexists. split; [reflexivity|]. intros I e.
    rewrite (bool_val c l I e Hl) by (now apply (bool_of_compat _ _ Hs)). rewrite eval_FALSE, veqb_bool. now destruct (holds I e l).
  - apply (lo_false _ Ll) in F1. subst. eexists. split; [reflexivity|]. intros I e.
    rewrite (bool_val c r I e Hr).
    + rewrite eval_FALSE, veqb_bool. now destruct (holds I e r).
    + rewrite compat_sym in Hs by (eapply node_fp; eassumption). now apply (bool_of_compat _ _ Hs).
  - cbn [length Nat.ltb Nat.leb]. destruct (mkOper_sound c boolS NT_DISTINCT [l; r] Hc) as (t & Et & Vt).
    { split; [now apply (lits2 c)|]. split; [cbn; lia|exact Hx]. }
    exists t. split; [exact Et|]. intros I e. unfold holds. rewrite Vt.
    rewrite (eval_op I e NT_DISTINCT _ _ _ (VBool (pairwise (fun a b => negb (veqb a b)) (map (eval I e) [l; r])))); try reflexivity; [|discriminate].
    cbn. now rewrite !andb_true_r.
Qed.

(** ** comparisons on two arguments *)
Lemma refl_cmp k v : In k arith_comp_kinds -> cmpr k v v = refl_val k.
Proof.
  intros Hk. repeat (destruct Hk as [ <- | Hk ]); try contradiction; cbn [cmpr]; unfold vge, vgt, vle, vlt;
    [apply Qcleb_refl|apply Qcltb_irrefl|apply Qcleb_refl|apply Qcltb_irrefl].
Qed.
Lemma mkCmp_sound c k l r : cfg_ok c -> In k arith_comp_kinds -> lo l -> lo r -> comparable c l r ->
  decides (mkCmp c k l r) (fun I e => cmpr k (eval I e l) (eval I e r)).
Proof.
  intros Hc Hk Hl Hr [Hs Hx]. unfold mkCmp.
  assert (M : decides (mkOper c boolS k [l; r]) (fun I e => cmpr k (eval I e l) (eval I e r))).
  { destruct (mkOper_sound c boolS k [l; r] Hc) as (t & Et & Vt).
    { split; [apply lits_ok_cons; split; [exact Hl|apply lits_ok_cons; split; [exact Hr|intros ? []]]|].
      repeat (destruct Hk as [ <- | Hk ]); try contradiction; split; auto. }
    exists t. split; [exact Et|]. intros I e. unfold holds. rewrite Vt.
    rewrite (eval_op I e k _ _ _ (VBool (cmpr k (eval I e l) (eval I e r)))); try reflexivity; try discriminate.
    - repeat (destruct Hk as [ <- | Hk ]); try contradiction; reflexivity.
    - cbn [map]. repeat (destruct Hk as [ <- | Hk ]); try contradiction; apply cmpop2. }
  unfold compat in Hs. destruct (sort_eq (t_sort l) (t_sort r)) as [[|]|?| | | |]; cbn [bind orb] in *; try discriminate Hs.
  - destruct (teq l r) eqn:E; [|exact M]. apply teq_spec in E. subst r. eexists. split; [reflexivity|]. intros I e.
    rewrite refl_cmp by exact Hk. unfold holds. now rewrite eval_mkB.
  - injection Hs as ->. exact M.
Qed.
Lemma refl_bv k v : In k bv_comp_kinds -> bvcmpr k v v = refl_val k.
Proof.
  intros Hk. repeat (destruct Hk as [ <- | Hk ]); try contradiction; cbn [bvcmpr]; unfold bult, bule, bslt, bsle; cbn;
    try apply Z.ltb_irrefl; apply Z.leb_refl.
Qed.
Lemma mkBvCmp_sound c k w l r : cfg_ok c -> In k bv_comp_kinds -> lo l -> lo r -> sis SK_BV l = true -> sis SK_BV r = true ->
  bv_valued w l -> bv_valued w r ->
  decides (mkBvCmp c k l r) (fun I e => bvcmpr k (eval I e l) (eval I e r)).
Proof.
  intros Hc Hk Hl Hr Sl Sr Vl Vr. unfold mkBvCmp. rewrite Sl, Sr. cbn [negb orb].
  destruct (negb (keq k NT_BV_ULT) && isCBV l && isCBV r) eqn:C.
  - apply andb_true_iff in C. destruct C as [C Cr]. apply andb_true_iff in C. destruct C as [_ Cl].
    destruct (bvcomp_ok c k w l r Hk (conj Hl Vl) (conj Hr Vr) Cl Cr) as (b & -> & V). cbn [bind]. eexists. split; [reflexivity|].
    intros I e. unfold holds. rewrite eval_mkB. cbn [truth]. symmetry. apply V.
  - destruct (teq l r) eqn:E.
    + apply teq_spec in E. subst r. eexists. split; [reflexivity|]. intros I e. rewrite refl_bv by exact Hk. unfold holds. now rewrite eval_mkB.
    + destruct (mkOper_sound c boolS k [l; r] Hc) as (t & Et & Vt).
      { split; [apply lits_ok_cons; split; [exact Hl|apply lits_ok_cons; split; [exact Hr|intros ? []]]|].
        repeat (destruct Hk as [ <- | Hk ]); try contradiction; split; auto; exists w; auto. }
      exists t. split; [exact Et|]. intros I e. unfold holds. rewrite Vt.
      rewrite (eval_op I e k _ _ _ (VBool (bvcmpr k (eval I e l) (eval I e r)))); try reflexivity; try discriminate.
      * repeat (destruct Hk as [ <- | Hk ]); try contradiction; reflexivity.
      * cbn [map]. repeat (destruct Hk as [ <- | Hk ]); try contradiction; apply cmpop2.
Qed.
(** strings: not both constants *)
Definition strcmpr (k : kind) : value -> value -> bool :=
  match k with NT_STR_LT => vstr_lt | NT_STR_LE => vstr_le | NT_STR_GT => fun a b => vstr_lt b a | _ => fun a b => vstr_le b a end.
Lemma str_lt_irrefl s : str_lt s s = false.
Proof. induction s as [|x s IH]; [reflexivity|]. cbn [str_lt]. rewrite Nat.ltb_irrefl, IH. now rewrite andb_false_r. Qed.
Lemma node2 I e c k l r v : isCommutative k = false -> quantk k = false -> simp2 c k l r = unk ->
  op_sem k [eval I e l; eval I e r] = Some v ->
  mkOper c boolS k [l; r] = Ok (mkInternal c boolS k [l; r]) /\ eval I e (mkInternal c boolS k [l; r]) = v.
Proof.
  intros C Q U V. split.
  - unfold mkOper. cbn [simp]. rewrite U. reflexivity.
  - unfold mkInternal. rewrite C. now apply eval_op.
Qed.
Lemma mkStrCmp_sound c k l r : In k str_comp_kinds -> sis SK_STR l = true -> sis SK_STR r = true -> isCStr l && isCStr r = false ->
  decides (mkStrCmp c k l r) (fun I e => strcmpr k (eval I e l) (eval I e r)).
Proof.
  intros Hk Sl Sr C. unfold mkStrCmp. rewrite Sl, Sr. cbn [negb orb]. destruct (teq l r) eqn:E.
  - apply teq_spec in E. subst r. eexists. split; [reflexivity|]. intros I e. unfold holds. rewrite eval_mkB. cbn [truth].
    repeat (destruct Hk as [ <- | Hk ]); try contradiction; cbn [strcmpr]; unfold vstr_lt, vstr_le; now rewrite str_lt_irrefl.
  - assert (U : simp2 c k l r = unk) by (repeat (destruct Hk as [ <- | Hk ]); try contradiction; cbn [simp2]; now rewrite C).
    exists (mkInternal c boolS k [l; r]).
    assert (X : forall I e, mkOper c boolS k [l; r] = Ok (mkInternal c boolS k [l; r]) /\
                 eval I e (mkInternal c boolS k [l; r]) = VBool (strcmpr k (eval I e l) (eval I e r))).
    { intros I e. apply node2; [| |exact U|]; repeat (destruct Hk as [ <- | Hk ]); try contradiction; try reflexivity; apply cmpop2. }
    split; [apply (X I0 (fun _ => VBool true))|]. intros I e. unfold holds. now rewrite (proj2 (X I e)).
Qed.
Definition fpcmpr (k : kind) : fpv -> fpv -> bool :=
  match k with NT_FP_LE => fp_le | NT_FP_LT => fp_lt | NT_FP_GE => fun a b => fp_le b a | _ => fun a b => fp_lt b a end.
Lemma mkFpCmp_sound c k l r : In k [NT_FP_LE; NT_FP_LT; NT_FP_GE; NT_FP_GT] -> sis SK_FP l = true -> sis SK_FP r = true ->
  decides (mkFpCmp c k l r) (fun I e => fpcmpr k (fpval (eval I e l)) (fpval (eval I e r))).
Proof.
  intros Hk Sl Sr. unfold mkFpCmp. rewrite Sl, Sr. cbn [negb orb].
  assert (U : simp2 c k l r = unk) by (repeat (destruct Hk as [ <- | Hk ]); try contradiction; reflexivity).
  exists (mkInternal c boolS k [l; r]).
  assert (X : forall I e, mkOper c boolS k [l; r] = Ok (mkInternal c boolS k [l; r]) /\
               eval I e (mkInternal c boolS k [l; r]) = VBool (fpcmpr k (fpval (eval I e l)) (fpval (eval I e r)))).
  { intros I e. apply node2; [| |exact U|]; repeat (destruct Hk as [ <- | Hk ]); try contradiction; try reflexivity; apply cmpop2. }
  split; [apply (X I0 (fun _ => VBool true))|]. intros I e. unfold holds. now rewrite (proj2 (X I e)).
Qed.

(** ** not, negateComp, mkEq *)
Lemma subterm_trans a b t : subterm a b -> subterm b t -> subterm a t.
Proof. intros H K. induction K as [|u x t Hx K IH]; [exact H|]. apply (Sub_ch a x t Hx). now apply IH. Qed.
Lemma tree_ch c t x : tree_ok c t -> In x (t_ch t) -> tree_ok c x.
Proof. intros H Hx p Hp. apply H. now apply (Sub_ch p x t). Qed.
Lemma tree_node c t : tree_ok c t -> node_ok c t. Proof. intros H. apply H. constructor. Qed.
Lemma tsize_pos t : (1 <= tsize t)%nat. Proof. destruct t. cbn. lia. Qed.
Lemma tsize_ch2 p l r : t_ch p = [l; r] -> tsize p = (1 + tsize l + tsize r)%nat.
Proof. destruct p as [k s n ch]. cbn [t_ch]. intros ->. cbn. lia. Qed.
Lemma tsize_ch1 p q : t_ch p = [q] -> tsize p = (1 + tsize q)%nat.
Proof. destruct p as [k s n ch]. cbn [t_ch]. intros ->. cbn. lia. Qed.
Lemma isk_kind k p : isk k p = true <-> t_kind p = k. Proof. unfold isk. rewrite keq_spec. reflexivity. Qed.
Lemma holds_not p q I e : isNot p = true -> t_ch p = [q] -> holds I e p = negb (holds I e q).
Proof.
  destruct p as [k s n ch]. cbn [t_ch]. intros N ->. apply isk_kind in N. cbn in N. subst k.
  unfold holds. now rewrite (eval_op I e NT_NOT _ _ _ (VBool (negb (truth (eval I e q))))).
Qed.
Lemma eval2 I e k s n l r v : quantk k = false -> op_sem k [eval I e l; eval I e r] = Some v -> eval I e (T k s n [l; r]) = v.
Proof. intros Q V. now apply eval_op. Qed.
Lemma holds_eq p l r I e : isEq p = true -> t_ch p = [l; r] -> holds I e p = veqb (eval I e l) (eval I e r).
Proof.
  destruct p as [k s n ch]. unfold isEq. cbn [t_ch t_kind]. intros N ->. unfold holds.
  rewrite (eval2 I e k s n l r (VBool (veqb (eval I e l) (eval I e r)))); [reflexivity| |];
    destruct k; try discriminate N; try reflexivity; apply cmpop2.
Qed.
Lemma holds_dis p l r I e : isDistinct p = true -> t_ch p = [l; r] -> holds I e p = negb (veqb (eval I e l) (eval I e r)).
Proof.
  destruct p as [k s n ch]. unfold isDistinct. cbn [t_ch t_kind]. intros N ->. unfold holds.
  rewrite (eval2 I e k s n l r (VBool (negb (veqb (eval I e l) (eval I e r))))); [reflexivity| |];
    destruct k; try discriminate N; try reflexivity; cbn; now rewrite !andb_true_r.
Qed.
Lemma decides_ext r f g : (forall I e, f I e = g I e) -> decides r f -> decides r g.
Proof. intros H (t & E & V). exists t. split; [exact E|]. intros I e. now rewrite V. Qed.
Lemma mkOper_not c p : cfg_ok c -> lo p -> decides (mkOper c boolS NT_NOT [p]) (fun I e => negb (holds I e p)).
Proof.
  intros Hc Hp. destruct (mkOper_sound c boolS NT_NOT [p] Hc) as (t & E & V).
  { split; [|reflexivity]. apply lits_ok_cons. split; [exact Hp|intros ? []]. }
  exists t. split; [exact E|]. intros I e. unfold holds. rewrite V. now rewrite (eval_op I e NT_NOT _ _ _ (VBool (negb (truth (eval I e p))))).
Qed.
Lemma mkOper_eq c l r : cfg_ok c -> lo l -> lo r -> reals_exact c [l; r] -> isArray l = false -> isArray r = false ->
  decides (mkOper c boolS NT_EQ [l; r]) (fun I e => veqb (eval I e l) (eval I e r)).
Proof.
  intros Hc Hl Hr X Al Ar. destruct (mkOper_sound c boolS NT_EQ [l; r] Hc) as (t & E & V).
  { split; [apply lits_ok_cons; split; [exact Hl|apply lits_ok_cons; split; [exact Hr|intros ? []]]|].
    split; [cbn; lia|]. split; [exact X|]. intros p [ <- | [ <- | [] ]]; assumption. }
  exists t. split; [exact E|]. intros I e. unfold holds. rewrite V.
  now rewrite (eval2 I e NT_EQ _ _ l r (VBool (veqb (eval I e l) (eval I e r)))) by (reflexivity || apply cmpop2).
Qed.
Lemma child01_2 p l r : t_ch p = [l; r] -> child01 p = Ok (l, r).
Proof. unfold child01. intros ->. reflexivity. Qed.
Lemma cmp_node k s n l r I e : In k arith_comp_kinds -> holds I e (T k s n [l; r]) = cmpr k (eval I e l) (eval I e r).
Proof.
  intros Hk. unfold holds. rewrite (eval2 I e k s n l r (VBool (cmpr k (eval I e l) (eval I e r)))); [reflexivity| |];
    repeat (destruct Hk as [ <- | Hk ]); try contradiction; try reflexivity; apply cmpop2.
Qed.
Lemma bvcmp_node k s n l r I e : In k bv_comp_kinds -> holds I e (T k s n [l; r]) = bvcmpr k (eval I e l) (eval I e r).
Proof.
  intros Hk. unfold holds. rewrite (eval2 I e k s n l r (VBool (bvcmpr k (eval I e l) (eval I e r)))); [reflexivity| |];
    repeat (destruct Hk as [ <- | Hk ]); try contradiction; try reflexivity; apply cmpop2.
Qed.
Lemma strcmp_node k s n l r I e : In k str_comp_kinds -> holds I e (T k s n [l; r]) = strcmpr k (eval I e l) (eval I e r).
Proof.
  intros Hk. unfold holds. rewrite (eval2 I e k s n l r (VBool (strcmpr k (eval I e l) (eval I e r)))); [reflexivity| |];
    repeat (destruct Hk as [ <- | Hk ]); try contradiction; try reflexivity; apply cmpop2.
Qed.
Lemma cmp_neg k k' v w : In (k, k') [(NT_LT, NT_GE); (NT_LE, NT_GT); (NT_GT, NT_LE); (NT_GE, NT_LT)] ->
  cmpr k' v w = negb (cmpr k v w).
Proof.
  intros H. repeat (destruct H as [H|H]); try contradiction; injection H as <- <-; cbn [cmpr]; unfold vge, vgt, vle, vlt;
    rewrite ?(Qcleb_negb (num w) (num v)), ?(Qcleb_negb (num v) (num w)), ?negb_involutive; reflexivity.
Qed.
Lemma bvcmp_neg k k' v w : In (k, k') [(NT_BV_ULT, NT_BV_UGE); (NT_BV_ULE, NT_BV_UGT); (NT_BV_UGT, NT_BV_ULE); (NT_BV_UGE, NT_BV_ULT);
    (NT_BV_SLT, NT_BV_SGE); (NT_BV_SLE, NT_BV_SGT); (NT_BV_SGT, NT_BV_SLE); (NT_BV_SGE, NT_BV_SLT)] ->
  bvcmpr k' v w = negb (bvcmpr k v w).
Proof.
  intros H. repeat (destruct H as [H|H]); try contradiction; injection H as <- <-; cbn [bvcmpr]; unfold bult, bule, bslt, bsle; lia.
Qed.
Lemma strcmp_neg k k' v w : In (k, k') [(NT_STR_LT, NT_STR_GE); (NT_STR_LE, NT_STR_GT); (NT_STR_GT, NT_STR_LE); (NT_STR_GE, NT_STR_LT)] ->
  strcmpr k' v w = negb (strcmpr k v w).
Proof.
  intros H. repeat (destruct H as [H|H]); try contradiction; injection H as <- <-; cbn [strcmpr]; unfold vstr_lt, vstr_le; now rewrite ?negb_involutive.
Qed.
Lemma neg_step c p : cfg_ok c -> tree_ok c p -> cmpk p -> isDistinct p = false -> forall f,
  decides (negF (S f) c p) (fun I e => negb (holds I e p)).
Proof.
  intros Hc HT HK HD f. pose proof (tree_node c p HT) as HN. cbn [negF]. rewrite (n_err c p HN).
  destruct (isEq p) eqn:Eq.
  - destruct (n_eq c p HN (or_introl Eq)) as (l & r & Ech & Hcmp & Al & Ar). rewrite Ech.
    eapply decides_ext; [|apply mkDistinctV2; [exact Hc|apply tree_node, (tree_ch c p); [exact HT|rewrite Ech; cbn; tauto]|apply tree_node, (tree_ch c p); [exact HT|rewrite Ech; cbn; tauto]|exact Hcmp]].
    intros I e. cbn beta. now rewrite (holds_eq p l r).
  - rewrite HD. destruct HK as [HK|[HK|HK]]; [congruence|congruence|].
    unfold kin in HK. rewrite !existsb_app in HK. apply orb_true_iff in HK. destruct HK as [HK|HK]; [|apply orb_true_iff in HK; destruct HK as [HK|HK]].
    + destruct (n_cmp c p HN HK) as (l & r & Ech & Hcmp). rewrite (child01_2 p l r Ech). cbn [bind fst snd].
      assert (Nl : lo l) by (apply (lo_node c), tree_node, (tree_ch c p); [exact HT|rewrite Ech; cbn; tauto]).
      assert (Nr : lo r) by (apply (lo_node c), tree_node, (tree_ch c p); [exact HT|rewrite Ech; cbn; tauto]).
      destruct p as [k s n ch]. cbn [t_ch t_kind] in *. subst ch.
      destruct k; try discriminate HK; (eapply decides_ext; [|apply mkCmp_sound; [exact Hc|cbn; tauto|exact Nl|exact Nr|exact Hcmp]]);
        intros I e; cbn beta; rewrite cmp_node by (cbn; tauto); apply cmp_neg; cbn; tauto.
    + destruct (n_bv c p HN HK) as (l & r & w & Ech & Sl & Sr & Vl & Vr). rewrite (child01_2 p l r Ech). cbn [bind fst snd].
      assert (Nl : lo l) by (apply (lo_node c), tree_node, (tree_ch c p); [exact HT|rewrite Ech; cbn; tauto]).
      assert (Nr : lo r) by (apply (lo_node c), tree_node, (tree_ch c p); [exact HT|rewrite Ech; cbn; tauto]).
      destruct p as [k s n ch]. cbn [t_ch t_kind] in *. subst ch.
      destruct k; try discriminate HK; (eapply decides_ext; [|apply (mkBvCmp_sound c _ w); [exact Hc|cbn; tauto|exact Nl|exact Nr|assumption..]]);
        intros I e; cbn beta; rewrite bvcmp_node by (cbn; tauto); apply bvcmp_neg; cbn; tauto.
    + destruct (n_str c p HN HK) as (l & r & Ech & Sl & Sr & Cs). rewrite (child01_2 p l r Ech). cbn [bind fst snd].
      destruct p as [k s n ch]. cbn [t_ch t_kind] in *. subst ch.
      destruct k; try discriminate HK; (eapply decides_ext; [|apply mkStrCmp_sound; [cbn; tauto|assumption..]]);
        intros I e; cbn beta; rewrite strcmp_node by (cbn; tauto); apply strcmp_neg; cbn; tauto.
Qed.
Lemma isArithComp_ok c p : node_ok c p -> exists b, isArithComp p = Ok b /\ (b = true -> isEq p = true \/ isDistinct p = true \/ kin (t_kind p) arith_comp_kinds = true).
Proof.
  intros HN. unfold isArithComp. destruct (isEq p || isDistinct p) eqn:E.
  - apply orb_true_iff in E. destruct (n_eq c p HN E) as (l & r & Ech & _). unfold child0. rewrite Ech. cbn [bind]. eexists. split; [reflexivity|]. tauto.
  - eexists. split; [reflexivity|]. tauto.
Qed.
Lemma isStrComp_cmpk p : isStrComp p = true -> cmpk p.
Proof.
  unfold isStrComp. intros H. apply orb_true_iff in H. destruct H as [H|H].
  - right; right. unfold kin in *. rewrite !existsb_app. rewrite H. now rewrite !orb_true_r.
  - left. unfold isStrEq in H. apply andb_true_iff in H. tauto.
Qed.
Theorem not_eq_sound c : cfg_ok c -> forall f,
  (forall p, tree_ok c p -> isBoolParam p = true -> (3 * tsize p + 1 <= f)%nat ->
     decides (mkNotF f c p) (fun I e => negb (holds I e p))) /\
  (forall p, tree_ok c p -> cmpk p -> (3 * tsize p <= f)%nat -> decides (negF f c p) (fun I e => negb (holds I e p))) /\
  (forall l r, tree_ok c l -> tree_ok c r -> comparable c l r -> isArray l = false -> isArray r = false ->
     (3 * (tsize l + tsize r) + 2 <= f)%nat -> decides (mkEqF f c l r) (fun I e => veqb (eval I e l) (eval I e r))).
Proof.
  intros Hc. induction f as [|f (IN & IG & IE)].
  - repeat split; intros; exfalso; [lia|pose proof (tsize_pos p); lia|lia].
  - split; [|split].
    + intros p HT HB Hf. pose proof (tree_node c p HT) as HN. pose proof (lo_node c p HN) as HL. cbn [mkNotF]. rewrite HB. cbn [negb].
      destruct (isNot p) eqn:N.
      { destruct (n_not c p HN N) as (q & Ech & _). unfold child0. rewrite Ech. cbn [length Nat.eqb].
        unfold condAssert. destruct (c_dbg c); cbn; (eexists; split; [reflexivity|]); intros I e; now rewrite (holds_not p q), negb_involutive. }
      destruct (isTrue p) eqn:Tr. { apply (lo_true p HL) in Tr. subst p. eexists. split; reflexivity. }
      destruct (isFalse p) eqn:Fa. { apply (lo_false p HL) in Fa. subst p. eexists. split; reflexivity. }
      destruct (isArithComp_ok c p HN) as (b & -> & Hb). cbn [bind].
      destruct (isBVComp p) eqn:BC.
      { apply isk_kind in BC. rewrite (n_bvcomp c p HN BC) in HB. discriminate HB. }
      rewrite orb_false_r. destruct (b || isStrComp p) eqn:CC; [|now apply mkOper_not].
      apply IG; [exact HT| |lia]. apply orb_true_iff in CC. destruct CC as [ -> | CC ]; [|now apply isStrComp_cmpk].
      destruct (Hb eq_refl) as [H|[H|H]]; [now left|now right; left|right; right]. unfold kin in *. rewrite !existsb_app, H. reflexivity.
    + intros p HT HK Hf. destruct (isDistinct p) eqn:D; [|now apply neg_step].
      pose proof (tree_node c p HT) as HN. cbn [negF]. rewrite (n_err c p HN).
      assert (isEq p = false) as ->. { unfold isEq, isDistinct in *. destruct (t_kind p); try discriminate D; reflexivity. }
      rewrite D. destruct (n_eq c p HN (or_intror D)) as (l & r & Ech & Hcmp & Al & Ar). rewrite Ech.
      assert (Tl : tree_ok c l) by (apply (tree_ch c p); [exact HT|rewrite Ech; cbn; tauto]).
      assert (Tr : tree_ok c r) by (apply (tree_ch c p); [exact HT|rewrite Ech; cbn; tauto]).
      unfold mkEqV_. cbn [length Nat.ltb Nat.leb].
      destruct (check2 c l r (tree_node c l Tl) (tree_node c r Tr) (proj1 Hcmp)) as (s & -> & _). cbn [bind].
      eapply decides_ext; [|apply IE; auto]; [|rewrite (tsize_ch2 p l r Ech) in Hf; lia].
      intros I e. cbn beta. now rewrite (holds_dis p l r), negb_involutive.
    + intros l r Tl Tr Hcmp Al Ar Hf. pose proof (tree_node c l Tl) as Nl. pose proof (tree_node c r Tr) as Nr.
      pose proof (lo_node c l Nl) as Ll. pose proof (lo_node c r Nr) as Lr. destruct Hcmp as [Hs Hx].
      assert (BR : isBoolParam l = true -> isBoolParam r = true).
      { intros B. rewrite compat_sym in Hs by (eapply node_fp; eassumption). apply (bool_of_compat _ _ Hs). now apply s_is_iff. }
      assert (BL : isBoolParam r = true -> isBoolParam l = true).
      { intros B. apply (bool_of_compat _ _ Hs). now apply s_is_iff. }
      assert (TB : isBoolParam TRUE = true) by reflexivity. assert (FB : isBoolParam FALSE = true) by reflexivity.
      cbn [mkEqF]. rewrite Hs. cbn [bind negb].
      pose proof (tsize_pos l). pose proof (tsize_pos r).
      destruct (isTrue l) eqn:T1; [apply (lo_true l Ll) in T1|]; [subst l|].
      { change (isFalse TRUE) with false. cbn [andb].
        destruct (isTrue r) eqn:T2; [apply (lo_true r Lr) in T2; subst r; eexists; split; reflexivity|].
        destruct (isFalse r) eqn:F2; [apply (lo_false r Lr) in F2; subst r; eexists; split; reflexivity|].
        eexists. split; [reflexivity|]. intros I e. rewrite (bool_val c r I e Nr) by auto. rewrite eval_TRUE, veqb_bool. now destruct (holds I e r). }
      cbn [andb]. destruct (isFalse l) eqn:F1; [apply (lo_false l Ll) in F1; subst l|].
      { cbn [andb]. destruct (isFalse r) eqn:F2; [apply (lo_false r Lr) in F2; subst r; eexists; split; reflexivity|].
        destruct (isTrue r) eqn:T2; [apply (lo_true r Lr) in T2; subst r; eexists; split; reflexivity|].
        eapply decides_ext; [|apply IN; [exact Tr|auto|lia]]. intros I e. cbn beta.
        rewrite (bool_val c r I e Nr) by auto. rewrite eval_FALSE, veqb_bool. now destruct (holds I e r). }
      cbn [andb]. destruct (isTrue r) eqn:T2; [apply (lo_true r Lr) in T2; subst r|].
      { eexists. split; [reflexivity|]. intros I e. rewrite (bool_val c l I e Nl) by auto. rewrite eval_TRUE, veqb_bool. now destruct (holds I e l). }
      destruct (isFalse r) eqn:F2; [apply (lo_false r Lr) in F2; subst r|].
      { eapply decides_ext; [|apply IN; [exact Tl|auto|lia]]. intros I e. cbn beta.
        rewrite (bool_val c l I e Nl) by auto. rewrite eval_FALSE, veqb_bool. now destruct (holds I e l). }
      destruct (isNot l && isNot r) eqn:NN; [|now apply mkOper_eq].
      apply andb_true_iff in NN. destruct NN as [N1 N2].
      destruct (n_not c l Nl N1) as (a & Ea & Ba). destruct (n_not c r Nr N2) as (b & Eb & Bb).
      assert (Ta : tree_ok c a) by (apply (tree_ch c l); [exact Tl|rewrite Ea; cbn; tauto]).
      assert (Tb : tree_ok c b) by (apply (tree_ch c r); [exact Tr|rewrite Eb; cbn; tauto]).
      unfold child0. rewrite Ea, Eb. cbn [length Nat.eqb].
      assert (CA : condAssert (c_dbg c) true = Ok tt) by (unfold condAssert; destruct (c_dbg c); reflexivity).
      rewrite ?CA. cbn [bind].
      destruct (n_bool c a (tree_node c a Ta) Ba) as [Sa Va]. destruct (n_bool c b (tree_node c b Tb) Bb) as [Sb Vb].
      eapply decides_ext; [|apply (IE a b Ta Tb)].
      * intros I e. cbn beta. rewrite (bool_val c a I e (tree_node c a Ta) Ba), (bool_val c b I e (tree_node c b Tb) Bb).
        (* a negation node evaluates to a Boolean *)
        assert (EN : forall p q, isNot p = true -> t_ch p = [q] -> eval I e p = VBool (negb (holds I e q))).
        { intros [k s n ch] q N E. cbn in E. subst ch. apply isk_kind in N. cbn in N. subst k. now apply eval_op. }
        rewrite (EN l a N1 Ea), (EN r b N2 Eb), !veqb_bool. now destruct (holds I e a), (holds I e b).
      * split; [rewrite Sa, Sb; reflexivity|]. left. intros p [ <- | [ <- | [] ]] _; unfold sis; rewrite ?Sa, ?Sb; reflexivity.
      * unfold isArray, sis. now rewrite Sa.
      * unfold isArray, sis. now rewrite Sb.
      * rewrite (tsize_ch1 l a Ea), (tsize_ch1 r b Eb) in Hf. lia.
Qed.
Lemma mkNot_sound c p : cfg_ok c -> tree_ok c p -> isBoolParam p = true -> decides (mkNot c p) (fun I e => negb (holds I e p)).
Proof. intros Hc HT HB. apply (not_eq_sound c Hc); auto. unfold not_fuel. lia. Qed.
Lemma mkEq_sound c l r : cfg_ok c -> tree_ok c l -> tree_ok c r -> comparable c l r -> isArray l = false -> isArray r = false ->
  decides (mkEq c l r) (fun I e => veqb (eval I e l) (eval I e r)).
Proof. intros. apply (not_eq_sound c); auto. lia. Qed.
Lemma negateComp_sound c p : cfg_ok c -> tree_ok c p -> cmpk p -> decides (negateComp c p) (fun I e => negb (holds I e p)).
Proof. intros. apply (not_eq_sound c); auto. unfold not_fuel. lia. Qed.
(** floating point: right as long as no argument is NaN *)
Lemma fp_neg k k' v w : v <> FNaN -> w <> FNaN ->
  In (k, k') [(NT_FP_LT, NT_FP_GE); (NT_FP_LE, NT_FP_GT); (NT_FP_GT, NT_FP_LE); (NT_FP_GE, NT_FP_LT)] -> fpcmpr k' v w = negb (fpcmpr k v w).
Proof.
  intros Hv Hw H. repeat (destruct H as [H|H]); try contradiction; injection H as <- <-; cbn [fpcmpr];
    destruct v as [|[|]|? q], w as [|[|]|? q']; try congruence; try reflexivity; cbn [fp_le fp_lt];
    rewrite ?(Qcleb_negb q q'), ?(Qcleb_negb q' q), ?negb_involutive; reflexivity.
Qed.
Lemma negateComp_fp c p l r : kin (t_kind p) [NT_FP_LT; NT_FP_LE; NT_FP_GT; NT_FP_GE] = true -> t_ch p = [l; r] ->
  sis SK_FP l = true -> sis SK_FP r = true -> never_nan l -> never_nan r ->
  decides (negateComp c p) (fun I e => negb (holds I e p)).
Proof.
  intros HK Ech Sl Sr Vl Vr. destruct p as [k s n ch]. cbn [t_ch t_kind] in *. subst ch. unfold negateComp. cbn [negF].
  assert (H0 : isErr (T k s n [l; r]) = false /\ isEq (T k s n [l; r]) = false /\ isDistinct (T k s n [l; r]) = false)
    by (destruct k; try discriminate HK; repeat split; reflexivity).
  destruct H0 as (-> & -> & ->). rewrite (child01_2 (T k s n [l; r]) l r eq_refl). cbn [bind fst snd t_kind].
  destruct k; try discriminate HK; (eapply decides_ext; [|apply mkFpCmp_sound; [cbn; tauto|assumption..]]); intros I e; cbn beta;
    unfold holds;
    [ rewrite (eval2 I e NT_FP_LE s n l r (VBool (fpcmpr NT_FP_LE (fpval (eval I e l)) (fpval (eval I e r))))) by (reflexivity || apply cmpop2)
    | rewrite (eval2 I e NT_FP_LT s n l r (VBool (fpcmpr NT_FP_LT (fpval (eval I e l)) (fpval (eval I e r))))) by (reflexivity || apply cmpop2)
    | rewrite (eval2 I e NT_FP_GE s n l r (VBool (fpcmpr NT_FP_GE (fpval (eval I e l)) (fpval (eval I e r))))) by (reflexivity || apply cmpop2)
    | rewrite (eval2 I e NT_FP_GT s n l r (VBool (fpcmpr NT_FP_GT (fpval (eval I e l)) (fpval (eval I e r))))) by (reflexivity || apply cmpop2) ];
    cbn [truth]; apply fp_neg; try apply Vl; try apply Vr; cbn; tauto.
Qed.

(** ** distinct *)
Lemma mkDistinct_sound c l r : cfg_ok c -> tree_ok c l -> tree_ok c r -> comparable c l r -> nots l = nots r ->
  decides (mkDistinct c l r) (fun I e => negb (veqb (eval I e l) (eval I e r))).
Proof.
  intros Hc Tl Tr Hcmp HNN. unfold mkDistinct.
  (* one round, without negations *)
  assert (R : forall f l r, tree_ok c l -> tree_ok c r -> comparable c l r -> isNot l = false -> isNot r = false ->
    decides (mkDistinctF (S f) c l r) (fun I e => negb (veqb (eval I e l) (eval I e r)))).
  { clear l r Tl Tr Hcmp HNN. intros f l r Tl Tr Hcmp N1 N2.
    pose proof (tree_node c l Tl) as Nl. pose proof (tree_node c r Tr) as Nr.
    pose proof (lo_node c l Nl) as Ll. pose proof (lo_node c r Nr) as Lr. destruct Hcmp as [Hs Hx].
    assert (BR : isBoolParam l = true -> isBoolParam r = true).
    { intros B. rewrite compat_sym in Hs by (eapply node_fp; eassumption). apply (bool_of_compat _ _ Hs). now apply s_is_iff. }
    assert (BL : isBoolParam r = true -> isBoolParam l = true).
    { intros B. apply (bool_of_compat _ _ Hs). now apply s_is_iff. }
    assert (TB : isBoolParam TRUE = true) by reflexivity. assert (FB : isBoolParam FALSE = true) by reflexivity.
    cbn [mkDistinctF]. rewrite Hs. cbn [bind negb].
    destruct (isTrue l) eqn:T1; [apply (lo_true l Ll) in T1|]; [subst l|].
    { change (isFalse TRUE) with false. cbn [andb].
      destruct (isTrue r) eqn:T2; [apply (lo_true r Lr) in T2; subst r; eexists; split; reflexivity|].
      destruct (isFalse r) eqn:F2; [apply (lo_false r Lr) in F2; subst r; eexists; split; reflexivity|].
      eapply decides_ext; [|apply mkNot_sound; [exact Hc|exact Tr|auto]]. intros I e. cbn beta.
      rewrite (bool_val c r I e Nr) by auto. rewrite eval_TRUE, veqb_bool. now destruct (holds I e r). }
    cbn [andb]. destruct (isFalse l) eqn:F1; [apply (lo_false l Ll) in F1; subst l|].
    { cbn [andb]. destruct (isFalse r) eqn:F2; [apply (lo_false r Lr) in F2; subst r; eexists; split; reflexivity|].
      destruct (isTrue r) eqn:T2; [apply (lo_true r Lr) in T2; subst r; eexists; split; reflexivity|].
      eexists. split; [reflexivity|]. intros I e. rewrite (bool_val c r I e Nr) by auto. rewrite eval_FALSE, veqb_bool. now destruct (holds I e r). }
    cbn [andb]. destruct (isTrue r) eqn:T2; [apply (lo_true r Lr) in T2; subst r|].
    { eapply decides_ext; [|apply mkNot_sound; [exact Hc|exact Tl|auto]]. intros I e. cbn beta.
      rewrite (bool_val c l I e Nl) by auto. rewrite eval_TRUE, veqb_bool. now destruct (holds I e l). }
    destruct (isFalse r) eqn:F2; [apply (lo_false r Lr) in F2; subst r|].
    { eexists. split; [reflexivity|]. intros I e. rewrite (bool_val c l I e Nl) by auto. rewrite eval_FALSE, veqb_bool. now destruct (holds I e l). }
    rewrite N1, N2. cbn [andb].
    destruct (mkOper_sound c boolS NT_DISTINCT [l; r] Hc) as (t & Et & Vt).
    { split; [now apply (lits2 c)|]. split; [cbn; lia|exact Hx]. }
    exists t. split; [exact Et|]. intros I e. unfold holds. rewrite Vt.
    rewrite (eval2 I e NT_DISTINCT _ _ l r (VBool (negb (veqb (eval I e l) (eval I e r))))); [reflexivity|reflexivity|]. cbn. now rewrite !andb_true_r. }
  assert (Z : forall u, tree_ok c u -> nots u = 0%nat -> isNot u = false).
  { intros u Tu H. destruct (isNot u) eqn:N; [|reflexivity]. destruct (n_not c u (tree_node c u Tu) N) as (q & Eq & _).
    destruct u as [k s nm ch]. cbn [t_ch] in Eq. subst ch. apply isk_kind in N. cbn in N. subst k. discriminate H. }
  assert (P : forall u m, tree_ok c u -> nots u = S m -> exists s nm q, u = T NT_NOT s nm [q] /\ nots q = m /\ tree_ok c q /\ isBoolParam q = true).
  { intros u m Tu H. destruct u as [k s nm [|q [|q' ch]]]; destruct k; try discriminate H. exists s, nm, q. split; [reflexivity|]. split; [now injection H|].
    split; [apply (tree_ch c _ q Tu); now left|]. destruct (n_not c _ (tree_node c _ Tu) eq_refl) as (q' & Eq & Bq). injection Eq as <-. exact Bq. }
  assert (M : forall m f l r, (tsize l + tsize r <= f)%nat -> tree_ok c l -> tree_ok c r -> comparable c l r -> nots l = m -> nots r = m ->
    decides (mkDistinctF (S f) c l r) (fun I e => negb (veqb (eval I e l) (eval I e r)))).
  { clear l r Tl Tr Hcmp HNN. induction m as [|m IH]; intros f l r Hf Tl Tr Hcmp E1 E2; [apply R; auto|].
    destruct (P l m Tl E1) as (s1 & m1 & a & -> & Na & Ta & Ba). destruct (P r m Tr E2) as (s2 & m2 & b & -> & Nb & Tb & Bb).
    destruct (n_bool c a (tree_node c a Ta) Ba) as [Sa Va]. destruct (n_bool c b (tree_node c b Tb) Bb) as [Sb Vb].
    rewrite (tsize_ch1 (T NT_NOT s1 m1 [a]) a eq_refl), (tsize_ch1 (T NT_NOT s2 m2 [b]) b eq_refl) in Hf. destruct f as [|f]; [lia|].
    assert (Cab : comparable c a b).
    { split; [rewrite Sa, Sb; reflexivity|]. left. intros p [ <- | [ <- | [] ]] _; unfold sis; rewrite ?Sa, ?Sb; reflexivity. }
    specialize (IH f a b ltac:(lia) Ta Tb Cab Na Nb). remember (S f) as g.
    cbn [mkDistinctF]. destruct Hcmp as [Hs Hx]. rewrite Hs. cbn [bind negb].
    assert (CA : condAssert (c_dbg c) true = Ok tt) by (unfold condAssert; destruct (c_dbg c); reflexivity).
    change (isTrue (T NT_NOT s1 m1 [a])) with false. change (isTrue (T NT_NOT s2 m2 [b])) with false.
    change (isFalse (T NT_NOT s1 m1 [a])) with false. change (isFalse (T NT_NOT s2 m2 [b])) with false.
    change (isNot (T NT_NOT s1 m1 [a])) with true. change (isNot (T NT_NOT s2 m2 [b])) with true.
    unfold child0. cbn [andb t_ch length Nat.eqb]. rewrite ?CA. cbn [bind].
    eapply decides_ext; [|exact IH]. intros I e. cbn beta.
    rewrite (bool_val c a I e (tree_node c a Ta) Ba), (bool_val c b I e (tree_node c b Tb) Bb).
    assert (EN : forall s nm q, eval I e (T NT_NOT s nm [q]) = VBool (negb (holds I e q))) by (intros s nm q; now apply eval_op).
    rewrite !EN, !veqb_bool. now destruct (holds I e a), (holds I e b). }
  rewrite Nat.add_1_r. now apply (M (nots r)).
Qed.
