(** Proofs about constant folding: equality, comparison, bit-vectors, strings, one argument. *)
From Coq Require Import QArith Qcanon Qround Permutation ZifyBool ZifyNat.
From Verif Require Import Base KindModel SortModel TermModel BVModel BVSpec BVProofs BVProofs2 BVProofs4 BVProofs5
  UtilModel UtilSpec UtilProofs UtilProofs2 DagProofs SortProofs Sem SemProofs ArrayModel SimpModel OpModel OpSpec
  OpProofs OpProofs2.
Open Scope Z_scope.

Definition ob (o : option bool) : term :=
  match o with None => UNKNOWN | Some true => TRUE | Some false => FALSE end.
Lemma mkB_ob b : mkB b = Ok (ob (Some b)). Proof. now destruct b. Qed.

Lemma no_real_incl ps qs : incl qs ps -> no_real ps -> no_real qs.
Proof. intros H N p Hp. apply N. now apply H. Qed.
Lemma reals_exact_incl c ps qs : incl qs ps -> reals_exact c ps -> reals_exact c qs.
Proof. intros H [N|E]; [left; now apply (no_real_incl ps)|right]. intros p Hp. apply E. now apply H. Qed.

(** numeric constants: integers, or exact decimals *)
Lemma isNumC_numS p : isNumC p = true -> isConst p = true /\ numS p = true.
Proof.
  unfold isNumC, isCInt, isCReal, numS. destruct (isConst p); [|discriminate]. cbn.
  intros H. split; [reflexivity|]. destruct (sis SK_INT p), (sis SK_REAL p), (sis SK_INTOREAL p); auto.
Qed.
Lemma exact_val c p : lo p -> isNumC p = true -> exact c p ->
  exists q : Qc, (c_rv c p == this q)%Q /\ forall I e, eval I e p = VNum q.
Proof.
  intros Hl Hn (q & Hq & Hv). exists q. split; [exact Hv|]. intros I e.
  unfold isNumC in Hn. apply orb_true_iff in Hn. destruct Hn as [C|C].
  - destruct (lo_int p Hl C) as (s & z & Hs & ->). rewrite eval_ic by assumption.
    cbn [t_name ic] in Hq. rewrite real_val_Idec in Hq. congruence.
  - destruct (lo_real p Hl C) as (s & n & q' & Hs & Hr & ->). cbn [t_name] in Hq.
    destruct Hs as [ -> | -> ].
    + cbn [eval]. unfold leaf_sem. cbn [is_leaf_var kin existsb keq orb cst_val s_kind intorealS]. rewrite Hq. reflexivity.
    + now apply eval_real.
Qed.
Lemma no_real_li ps p : In p ps -> lo p -> no_real ps -> li p.
Proof. intros Hi Hl N. split; [exact Hl|]. now apply N. Qed.

(** in the numeric branches, either both are integers, or both have exact values *)
Lemma num_cases c l r : lo l -> lo r -> reals_exact c [l; r] -> isNumC l = true -> isNumC r = true ->
  isCInt l && isCInt r = false ->
  exists x y : Qc, (c_rv c l == this x)%Q /\ (c_rv c r == this y)%Q /\
    (forall I e, eval I e l = VNum x) /\ forall I e, eval I e r = VNum y.
Proof.
  intros Hl Hr X Nl Nr C. destruct X as [N|X].
  - exfalso. assert (Ll : li l) by (apply (no_real_li [l; r]); cbn; auto).
    assert (Lr : li r) by (apply (no_real_li [l; r]); cbn; auto).
    unfold isNumC in Nl, Nr. pose proof (li_real_int l Ll). pose proof (li_real_int r Lr).
    destruct (isCInt l), (isCInt r), (isCReal l), (isCReal r); cbn in *; intuition congruence.
  - destruct (isNumC_numS l Nl) as [Cl Sl]. destruct (isNumC_numS r Nr) as [Cr Sr].
    destruct (exact_val c l Hl Nl) as (x & Hx & Vx); [apply X; cbn; auto|].
    destruct (exact_val c r Hr Nr) as (y & Hy & Vy); [apply X; cbn; auto|].
    exists x, y. auto.
Qed.

(** ** equality of two arguments *)
Definition dval (k : kind) (b : bool) : bool := if is_disk k then negb b else b.
Lemma seq_str_eq a b : seq_str a b = true <-> a = b. Proof. apply seq_str_spec. Qed.
Lemma lit_veq w v w' v' : seq_str (lit w v) (lit w' v') = veqb (VBV w (uv w v)) (VBV w' (uv w' v')).
Proof.
  destruct (veqb _ _) eqn:E.
  - apply veqb_spec in E. injection E as -> E. apply seq_str_eq. now apply lit_eq_iff.
  - destruct (seq_str _ _) eqn:F; [|reflexivity]. apply seq_str_eq in F.
    assert (w = w').
    { rewrite !lit_dig in F. apply app_inv_head in F. now apply dig_inj_len in F. }
    subst w'. apply lit_eq_iff in F. rewrite F in E. now rewrite veqb_refl in E.
Qed.
Lemma Q_inj a b : Q a = Q b -> a = b.
Proof. unfold Q. intros H. injection H as H. now apply app_inv_tail in H. Qed.
Lemma sc_veq a b : seq_str (Q a) (Q b) = veqb (VStr a) (VStr b).
Proof.
  destruct (veqb _ _) eqn:E.
  - apply veqb_spec in E. injection E as ->. now apply seq_str_eq.
  - destruct (seq_str _ _) eqn:F; [|reflexivity]. apply seq_str_eq in F. apply Q_inj in F. subst. now rewrite veqb_refl in E.
Qed.
Lemma eq2_ok c k l r : (is_eqk k = true /\ (isArray l = false \/ isArray r = false)) \/ is_disk k = true ->
  lo l -> lo r -> reals_exact c [l; r] ->
  exists o, simp2 c k l r = Ok (ob o) /\
    forall b, o = Some b -> forall I e, dval k (veqb (eval I e l) (eval I e r)) = b.
Proof.
  intros Hk Hl Hr X.
  destruct (isCInt l && isCInt r) eqn:C.
  { pose proof C as C'. apply andb_true_iff in C'. destruct C' as [Cl Cr].
    destruct (lo_int l Hl Cl) as (s & a & Hs & ->). destruct (lo_int r Hr Cr) as (s' & b & Hs' & ->).
    exists (Some (dval k (a =? b))). split.
    - rewrite <- mkB_ob. destruct k; try (destruct Hk as [[Hk _]|Hk]; discriminate Hk); cbn [simp2];
        rewrite Cl, Cr; cbn [andb]; rewrite !toInt_ic by assumption; reflexivity.
    - intros x E. injection E as <-. intros I e. rewrite !eval_ic, veqb_ZQ by auto. reflexivity. }
  set (mixed := isCReal l && isCReal r || isCInt l && isCReal r || isCReal l && isCInt r).
  destruct (if is_disk k then isCReal l && isCReal r else mixed) eqn:M.
  { assert (N : isNumC l = true /\ isNumC r = true).
    { unfold isNumC. unfold mixed in M. destruct (is_disk k), (isCInt l), (isCInt r), (isCReal l), (isCReal r); cbn in *; intuition congruence. }
    destruct N as [Nl Nr].
    destruct (num_cases c l r Hl Hr X Nl Nr C) as (x & y & Hx & Hy & Vx & Vy).
    exists (Some (dval k (Qeq_bool (c_rv c l) (c_rv c r)))). split.
    - rewrite <- mkB_ob. destruct k; try (destruct Hk as [[Hk _]|Hk]; discriminate Hk); cbn [simp2];
        rewrite C; fold mixed; change (is_disk _) with false in M || change (is_disk _) with true in M; cbv iota in M; rewrite M; reflexivity.
    - intros b E. injection E as <-. intros I e. rewrite Vx, Vy. f_equal. symmetry. now apply Qeq_bool_veqb. }
  destruct (isCBV l && isCBV r) eqn:B.
  { pose proof B as B'. apply andb_true_iff in B'. destruct B' as [Bl Br].
    exists (Some (dval k (seq_str (t_name l) (t_name r)))). split.
    - rewrite <- mkB_ob. destruct k; try (destruct Hk as [[Hk _]|Hk]; discriminate Hk); cbn [simp2];
        rewrite C; fold mixed; change (is_disk _) with false in M || change (is_disk _) with true in M; cbv iota in M; rewrite M, B; reflexivity.
    - intros b E. injection E as <-. intros I e.
      destruct (lo_bv l Hl Bl) as (w & v & _ & _ & ->). destruct (lo_bv r Hr Br) as (w' & v' & _ & _ & ->).
      rewrite !eval_bc. cbn [t_name bc]. now rewrite lit_veq. }
  destruct (isCStr l && isCStr r) eqn:S.
  { pose proof S as S'. apply andb_true_iff in S'. destruct S' as [Sl Sr].
    exists (Some (dval k (seq_str (t_name l) (t_name r)))). split.
    - rewrite <- mkB_ob. destruct k; try (destruct Hk as [[Hk _]|Hk]; discriminate Hk); cbn [simp2];
        rewrite C; fold mixed; change (is_disk _) with false in M || change (is_disk _) with true in M; cbv iota in M; rewrite M, B, S; reflexivity.
    - intros b E. injection E as <-. intros I e.
      destruct (lo_str l Hl Sl) as (a & _ & ->). destruct (lo_str r Hr Sr) as (a' & _ & ->).
      rewrite !eval_sc. cbn [t_name sc]. now rewrite sc_veq. }
  exists None. split; [|discriminate].
  destruct k; try (destruct Hk as [[Hk _]|Hk]; discriminate Hk); cbn [simp2];
    rewrite C; fold mixed; change (is_disk _) with false in M || change (is_disk _) with true in M; cbv iota in M; rewrite M, B, S;
    try reflexivity;
    destruct Hk as [[_ Hk]|Hk]; try discriminate Hk; destruct Hk as [A|A]; rewrite A; rewrite ?andb_false_r; reflexivity.
Qed.
Lemma ob_unk o : isUnknown (ob o) = match o with None => true | _ => false end.
Proof. destruct o as [[]|]; reflexivity. Qed.
Lemma ob_true o : isTrue (ob o) = match o with Some true => true | _ => false end.
Proof. destruct o as [[]|]; reflexivity. Qed.
Lemma ob_false o : isFalse (ob o) = match o with Some false => true | _ => false end.
Proof. destruct o as [[]|]; reflexivity. Qed.

(** ** arithmetic comparison *)
Lemma cmp_ok c k l r : In k arith_comp_kinds -> lo l -> lo r -> reals_exact c [l; r] ->
  exists o, simp2 c k l r = Ok (ob o) /\
    forall b, o = Some b -> forall I e, cmpr k (eval I e l) (eval I e r) = b.
Proof.
  intros Hk Hl Hr X.
  destruct (arithOk l r) eqn:A.
  2:{ exists None. split; [|discriminate].
      destruct Hk as [ <- | [ <- | [ <- | [ <- | [] ]]]]; cbn [simp2]; rewrite A; reflexivity. }
  destruct (isCInt l && isCInt r) eqn:C.
  { pose proof C as C'. apply andb_true_iff in C'. destruct C' as [Cl Cr].
    destruct (lo_int l Hl Cl) as (s & a & Hs & ->). destruct (lo_int r Hr Cr) as (s' & b & Hs' & ->).
    exists (Some (match k with NT_LE => a <=? b | NT_LT => a <? b | NT_GE => b <=? a | _ => b <? a end)). split.
    - rewrite <- mkB_ob. destruct Hk as [ <- | [ <- | [ <- | [ <- | [] ]]]]; cbn [simp2]; rewrite A, C; cbn [negb];
        rewrite !toInt_ic by assumption; reflexivity.
    - intros x E. injection E as <-. intros I e. rewrite !eval_ic by auto.
      destruct Hk as [ <- | [ <- | [ <- | [ <- | [] ]]]]; cbn [cmpr]; unfold vge, vgt, vle, vlt; cbn [num]; rewrite ?ZQ_le, ?ZQ_lt; reflexivity. }
  set (mixed := isCReal l && isCReal r || isCInt l && isCReal r || isCReal l && isCInt r).
  destruct mixed eqn:M.
  2:{ exists None. split; [|discriminate].
      assert (R : isCReal l && isCReal r = false).
      { unfold mixed in M. destruct (isCReal l && isCReal r); [discriminate|reflexivity]. }
      destruct Hk as [ <- | [ <- | [ <- | [ <- | [] ]]]]; cbn [simp2]; rewrite A, C; fold mixed; rewrite ?M, ?R; reflexivity. }
  assert (N : isNumC l = true /\ isNumC r = true).
  { unfold isNumC. unfold mixed in M. destruct (isCInt l), (isCInt r), (isCReal l), (isCReal r); cbn in *; intuition congruence. }
  destruct N as [Nl Nr].
  destruct (num_cases c l r Hl Hr X Nl Nr C) as (x & y & Hx & Hy & Vx & Vy).
  assert (V : forall f, (f = cmpr k (VNum x) (VNum y)) -> exists o, mkB f = Ok (ob o) /\
    forall b, o = Some b -> forall I e, cmpr k (eval I e l) (eval I e r) = b).
  { intros f ->. exists (Some (cmpr k (VNum x) (VNum y))). split; [apply mkB_ob|].
    intros b E I e. injection E as <-. now rewrite Vx, Vy. }
  assert (U : exists o, unk = Ok (ob o) /\
    forall b, o = Some b -> forall I e, cmpr k (eval I e l) (eval I e r) = b).
  { exists None. split; [reflexivity|discriminate]. }
  destruct Hk as [ <- | [ <- | [ <- | [ <- | [] ]]]]; cbn [simp2]; rewrite A, C; fold mixed; rewrite ?M; cbn [negb andb].
  - apply V. now apply Qle_bool_Qcleb.
  - destruct (c_float c); [|exact U]. apply V. cbn. unfold vlt. cbn [num]. rewrite Qcltb_negb. f_equal. now apply Qle_bool_Qcleb.
  - destruct (c_float c); [|exact U]. apply V. now apply Qle_bool_Qcleb.
  - destruct (isCReal l && isCReal r); cbn [andb]; [|exact U].
    destruct (c_float c); [|exact U]. apply V. cbn. unfold vgt, vlt. cbn [num]. rewrite Qcltb_negb. f_equal. now apply Qle_bool_Qcleb.
Qed.

(** ** bit-vectors *)
Definition lb (w : nat) (p : term) : Prop := lo p /\ bv_valued w p.
Lemma bc_width w w' v : bv_valued w (bc w' v) -> w' = w.
Proof. intros H. destruct (H I0 (fun _ => VBool false)) as (x & _ & E). rewrite eval_bc in E. congruence. Qed.
Lemma uv_range w v : 0 <= uv w v < 2 ^ Z.of_nat w.
Proof. unfold uv. apply Z.mod_pos_bound, pow2_pos. Qed.
Lemma lb_bc w v : (0 < w)%nat -> fits w -> lb w (bc w v).
Proof.
  intros H F. split; [now apply lo_bc|]. intros I e. exists (uv w v). split; [apply uv_range|apply eval_bc].
Qed.
Lemma lb_const w p : lb w p -> isCBV p = true -> exists v, (0 < w)%nat /\ fits w /\ p = bc w v.
Proof.
  intros [Hl Hv] C. destruct (lo_bv p Hl C) as (w' & v & H & F & ->).
  apply bc_width in Hv. subst w'. eauto.
Qed.
Lemma cong_op (f : Z -> Z -> Z) w a b :
  (forall x y, uv w (f (uv w x) (uv w y)) = uv w (f x y)) -> uv w (f (uv w a) (uv w b)) = uv w (f a b).
Proof. auto. Qed.
Lemma uv_bits w a b : (forall i, 0 <= i < Z.of_nat w -> Z.testbit a i = Z.testbit b i) -> uv w a = uv w b.
Proof.
  intros H. unfold uv. apply Z.bits_inj'. intros i Hi.
  destruct (Z.ltb_spec i (Z.of_nat w)).
  - rewrite !Z.mod_pow2_bits_low by lia. apply H. lia.
  - rewrite !Z.mod_pow2_bits_high by lia. reflexivity.
Qed.
Lemma uv_bit w a i : 0 <= i < Z.of_nat w -> Z.testbit (uv w a) i = Z.testbit a i.
Proof. intros H. unfold uv. apply Z.mod_pow2_bits_low. lia. Qed.
Ltac uvb := apply uv_bits; intros ?i ?Hi; repeat (rewrite Z.land_spec || rewrite Z.lor_spec || rewrite Z.lxor_spec || rewrite Z.lnot_spec by lia);
  repeat (rewrite uv_bit by assumption); try reflexivity.
Definition bvf (k : kind) : Z -> Z -> Z :=
  match k with
  | NT_BV_AND => Z.land | NT_BV_OR => Z.lor | NT_BV_XOR => Z.lxor
  | NT_BV_NAND => fun a b => Z.lnot (Z.land a b) | NT_BV_NOR => fun a b => Z.lnot (Z.lor a b)
  | NT_BV_XNOR => fun a b => Z.lnot (Z.lxor a b) | NT_BV_ADD => Z.add | _ => Z.mul
  end.
Definition bv8 : list kind := [NT_BV_AND; NT_BV_OR; NT_BV_XOR; NT_BV_NAND; NT_BV_NOR; NT_BV_XNOR; NT_BV_ADD; NT_BV_MUL].
Lemma bvf_cong k w a b : In k bv8 -> uv w (bvf k (uv w a) (uv w b)) = uv w (bvf k a b).
Proof.
  intros Hk. destruct Hk as [ <- | [ <- | [ <- | [ <- | [ <- | [ <- | [ <- | [ <- | [] ]]]]]]]]; cbn [bvf].
  1-6: uvb.
  - unfold uv. rewrite <- Zplus_mod. reflexivity.
  - unfold uv. rewrite <- Zmult_mod. reflexivity.
Qed.
Lemma op_sem_bv8 k : In k bv8 -> forall vs, op_sem k vs = bv2 (fun _ => bvf k) vs.
Proof. intros Hk vs. destruct Hk as [ <- | [ <- | [ <- | [ <- | [ <- | [ <- | [ <- | [ <- | [] ]]]]]]]]; reflexivity. Qed.
Lemma bv_ok c k w l r : In k bv8 -> lb w l -> lb w r -> okr (lb w) k [l; r] (simp2 c k l r).
Proof.
  intros Hk Hl Hr. destruct (isCBV l && isCBV r) eqn:C.
  - pose proof C as C'. apply andb_true_iff in C'. destruct C' as [Cl Cr].
    destruct (lb_const w l Hl Cl) as (a & Hw & Hf & ->). destruct (lb_const w r Hr Cr) as (b & _ & _ & ->).
    assert (E : simp2 c k (bc w a) (bc w b) = Ok (bc w (bvf k a b))).
    { rewrite <- mkConstBv_lit with (c := c) by assumption.
      destruct Hk as [ <- | [ <- | [ <- | [ <- | [ <- | [ <- | [ <- | [ <- | [] ]]]]]]]]; cbn [simp2]; rewrite C; cbn [t_name bc].
      - rewrite bvAnd_ok. reflexivity.
      - rewrite bvOr_ok. reflexivity.
      - rewrite bvXor_ok. reflexivity.
      - rewrite bvNand_ok. reflexivity.
      - rewrite bvNor_ok. reflexivity.
      - rewrite bvXnor_ok. reflexivity.
      - rewrite bvAdd_ok by assumption. reflexivity.
      - rewrite bvMul_ok by assumption. reflexivity. }
    rewrite E. apply okr_ok; [now apply lb_bc|]. intros I e. cbn [map]. rewrite !eval_bc, op_sem_bv8 by assumption.
    cbn [bv2 fold_left bvv]. now rewrite bvf_cong.
  - assert (E : simp2 c k l r = unk).
    { destruct Hk as [ <- | [ <- | [ <- | [ <- | [ <- | [ <- | [ <- | [ <- | [] ]]]]]]]]; cbn [simp2]; rewrite C; reflexivity. }
    rewrite E. apply okr_unk.
Qed.
Definition bvcmpr (k : kind) : value -> value -> bool :=
  match k with
  | NT_BV_ULE => bule | NT_BV_ULT => bult | NT_BV_UGE => fun a b => bule b a | NT_BV_UGT => fun a b => bult b a
  | NT_BV_SLE => bsle | NT_BV_SLT => bslt | NT_BV_SGE => fun a b => bsle b a | _ => fun a b => bslt b a
  end.
Lemma sv_uv w a : sv w (uv w a) = sv w a.
Proof. unfold sv, msb. assert (E : uv w (uv w a) = uv w a) by (unfold uv; apply Z.mod_mod; pose proof (pow2_pos w); lia). now rewrite E. Qed.
Lemma bvcomp_ok c k w l r : In k bv_comp_kinds -> lb w l -> lb w r -> isCBV l = true -> isCBV r = true ->
  exists b, bvComp (c_dbg c) (t_name l) (t_name r) (bvcmp_of k) = Ok b /\
    forall I e, bvcmpr k (eval I e l) (eval I e r) = b.
Proof.
  intros Hk Hl Hr Cl Cr.
  destruct (lb_const w l Hl Cl) as (a & Hw & Hf & ->). destruct (lb_const w r Hr Cr) as (b & _ & _ & ->).
  eexists. split; [apply bvComp_ok; assumption|]. intros I e. rewrite !eval_bc.
  repeat (destruct Hk as [ <- | Hk ]); try contradiction; cbn [bvcmpr bvcmp_of];
    unfold bule, bult, bsle, bslt, svv; cbn [bvv bvw]; rewrite ?sv_uv; reflexivity.
Qed.
Lemma bvcmp_ok c k w l r : In k bv_comp_kinds -> lb w l -> lb w r ->
  exists o, simp2 c k l r = Ok (ob o) /\
    forall b, o = Some b -> forall I e, bvcmpr k (eval I e l) (eval I e r) = b.
Proof.
  intros Hk Hl Hr.
  assert (E : simp2 c k l r = if isCBV l && isCBV r then b <- bvComp (c_dbg c) (t_name l) (t_name r) (bvcmp_of k) ;; mkB b else unk).
  { repeat (destruct Hk as [ <- | Hk ]); try contradiction; reflexivity. }
  rewrite E. destruct (isCBV l && isCBV r) eqn:C.
  - apply andb_true_iff in C. destruct C as [Cl Cr].
    destruct (bvcomp_ok c k w l r Hk Hl Hr Cl Cr) as (b & -> & V). exists (Some b). split; [cbn [bind]; apply mkB_ob|].
    intros x X. injection X as <-. exact V.
  - exists None. split; [reflexivity|discriminate].
Qed.
Lemma concat_ok c w w' l r : lo l -> lo r -> bv_valued w l -> bv_valued w' r -> fits (w + w') ->
  okr lo NT_BV_CONCAT [l; r] (simp2 c NT_BV_CONCAT l r).
Proof.
  intros Hl Hr Vl Vr Hf. cbn [simp2]. destruct (isCBV l && isCBV r) eqn:C; [|apply okr_unk].
  apply andb_true_iff in C. destruct C as [Cl Cr].
  destruct (lb_const w l (conj Hl Vl) Cl) as (a & Hw & Hfw & ->). destruct (lb_const w' r (conj Hr Vr) Cr) as (b & Hw' & Hfw' & ->).
  cbn [t_name bc]. rewrite bvConcat_ok by assumption. cbn [bind]. fold (bc w a). fold (bc w' b). rewrite !width_bc. cbn [bind].
  unfold fits in Hf. rewrite u64_id by (unfold two64; lia). replace (Z.of_nat w + Z.of_nat w') with (Z.of_nat (w + w')) by lia.
  rewrite mkConstBv_lit by (unfold fits; lia).
  apply okr_ok; [apply lo_bc; unfold fits; lia|]. intros I e. cbn [map]. rewrite !eval_bc.
  cbn [op_sem fold_left bvw bvv]. do 2 f_equal.
  pose proof (uv_range w a). pose proof (uv_range w' b). unfold uv in *.
  rewrite Nat2Z.inj_add, Z.pow_add_r by lia. pose proof (pow2_pos w). pose proof (pow2_pos w').
  apply (Zmod_unique _ _ (a / 2 ^ Z.of_nat w)).
  - nia.
  - pose proof (Z.div_mod a (2 ^ Z.of_nat w)). nia.
Qed.

(** ** strings *)
Lemma strcat_ok c l r : lo l -> lo r -> okr lo NT_STR_CONCAT [l; r] (simp2 c NT_STR_CONCAT l r).
Proof.
  intros Hl Hr. cbn [simp2]. destruct (isCStr l && isCStr r) eqn:C; [|apply okr_unk].
  apply andb_true_iff in C. destruct C as [Cl Cr].
  destruct (lo_str l Hl Cl) as (a & Pa & ->). destruct (lo_str r Hr Cr) as (b & Pb & ->).
  cbn [t_name sc]. unfold Q at 1 2.
  replace (last (""""%char :: a ++ [""""%char]) nul) with """"%char.
  2:{ change (""""%char :: a ++ [""""%char]) with ((""""%char :: a) ++ [""""%char]). now rewrite last_app1. }
  change (aeq """" dq) with true. cbn [andb].
  replace (removelast (""""%char :: a ++ [""""%char])) with (""""%char :: a).
  2:{ change (""""%char :: a ++ [""""%char]) with ((""""%char :: a) ++ [""""%char]). now rewrite removelast_last. }
  replace ((""""%char :: a) ++ b ++ [""""%char]) with (Q (a ++ b)) by (unfold Q; cbn; now rewrite app_assoc).
  assert (P : Forall plainC (a ++ b)) by (apply Forall_app; auto).
  rewrite mkConstStr_Q by assumption. apply okr_ok; [now apply lo_sc|].
  intros I e. cbn [map]. rewrite !eval_sc. cbn. now rewrite app_nil_r.
Qed.

(** ** one argument *)
Lemma simp1_bv c k p : In k [NT_BV_NOT; NT_BV_NEG] -> lo p -> okr lo k [p] (simp1 c k p).
Proof.
  intros Hk Hp. destruct (isCBV p) eqn:C.
  2:{ destruct Hk as [ <- | [ <- | [] ]]; unfold simp1; cbn [kin existsb float1_kinds nary1_kinds keq orb]; rewrite C; apply okr_unk. }
  destruct (lo_bv p Hp C) as (w & v & Hw & Hf & ->).
  assert (E : simp1 c k (bc w v) = Ok (bc w (match k with NT_BV_NOT => Z.lnot v | _ => - v end))).
  { rewrite <- mkConstBv_lit with (c := c) by assumption.
    destruct Hk as [ <- | [ <- | [] ]]; unfold simp1; cbn [kin existsb float1_kinds nary1_kinds keq orb]; rewrite C; cbn [t_name bc].
    - rewrite bvNot_ok. reflexivity.
    - rewrite bvNeg_ok. reflexivity. }
  rewrite E. apply okr_ok; [now apply lo_bc|]. intros I e. cbn [map]. rewrite !eval_bc.
  destruct Hk as [ <- | [ <- | [] ]]; cbn [op_sem]; do 2 f_equal.
  - uvb.
  - unfold uv. pose proof (pow2_pos w). rewrite <- (Z.sub_0_l (v mod _)), <- (Z.sub_0_l v). rewrite Zminus_mod_idemp_r. reflexivity.
Qed.
Lemma simp1_bvz c k p : In k [NT_BV_TO_NAT; NT_BV_TO_INT] -> lo p -> okr lo k [p] (simp1 c k p).
Proof.
  intros Hk Hp. destruct (isCBV p) eqn:C.
  2:{ destruct Hk as [ <- | [ <- | [] ]]; unfold simp1; cbn [kin existsb float1_kinds nary1_kinds keq orb]; rewrite C; apply okr_unk. }
  destruct (lo_bv p Hp C) as (w & v & Hw & Hf & ->).
  assert (E : simp1 c k (bc w v) = Ok (ic intorealS (match k with NT_BV_TO_NAT => uv w v | _ => sv w v end))).
  { destruct Hk as [ <- | [ <- | [] ]]; unfold simp1; cbn [kin existsb float1_kinds nary1_kinds keq orb]; rewrite C; cbn [t_name bc].
    - rewrite bvToNat_ok. reflexivity.
    - rewrite bvToInt_ok by assumption. reflexivity. }
  rewrite E. apply okr_ok; [apply lo_ic; auto|]. intros I e. cbn [map]. rewrite eval_bc, eval_ic by auto.
  destruct Hk as [ <- | [ <- | [] ]]; cbn [op_sem]; [reflexivity|]. now rewrite sv_uv.
Qed.
Lemma simp1_num c k p : In k [NT_NEG; NT_ABS; NT_CEIL; NT_FLOOR; NT_ROUND; NT_TO_INT; NT_TO_REAL; NT_IS_INT] ->
  li p -> okr lo k [p] (simp1 c k p).
Proof.
  intros Hk Hp. destruct (isCInt p) eqn:C.
  2:{ assert (R : isCReal p = false) by (destruct (isCReal p) eqn:R; [rewrite (li_real_int p Hp R) in C; discriminate|reflexivity]).
      repeat (destruct Hk as [ <- | Hk ]); try contradiction; unfold simp1; cbn [kin existsb float1_kinds nary1_kinds keq orb]; rewrite C, R; apply okr_unk. }
  destruct (li_int p Hp C) as (s & z & Hs & ->).
  assert (HI : forall x, op_sem k [VNum (ZQ z)] = Some (VNum (ZQ x)) ->
    forall s', numsort s' -> okr lo k [ic s z] (Ok (ic s' x))).
  { intros x V s' Hs'. apply okr_ok.
    - intros _. destruct Hs' as [ -> | [ -> | -> ]]; [constructor; auto|constructor; auto|].
      apply (LReal _ (ZQ x)). apply real_val_Idec.
    - intros I e. cbn [map]. rewrite eval_ic, eval_int by assumption. exact V. }
  repeat (destruct Hk as [ <- | Hk ]); try contradiction; unfold simp1; cbn [kin existsb float1_kinds nary1_kinds keq orb]; rewrite C;
    rewrite ?toInt_ic by assumption; cbn [bind].
  - apply HI; [|right; left; reflexivity]. cbn [op_sem num]. now rewrite ZQ_opp.
  - change (Q2Qc 0) with (ZQ 0) in *. destruct (z <? 0) eqn:L.
    + apply HI; [|right; left; reflexivity]. cbn [op_sem num]. change (Q2Qc 0) with (ZQ 0). now rewrite ZQ_lt, L, ZQ_opp.
    + apply HI; [|destruct Hs as [ -> | -> ]; unfold numsort; auto]. cbn [op_sem num]. change (Q2Qc 0) with (ZQ 0). now rewrite ZQ_lt, L.
  - apply HI; [|destruct Hs as [ -> | -> ]; unfold numsort; auto]. cbn [op_sem num]. rewrite ZQ_opp, qfloor_ZQ. do 3 f_equal. lia.
  - apply HI; [|destruct Hs as [ -> | -> ]; unfold numsort; auto]. cbn [op_sem num]. now rewrite qfloor_ZQ.
  - apply HI; [|destruct Hs as [ -> | -> ]; unfold numsort; auto]. cbn [op_sem num]. now rewrite is_intq_ZQ.
  - apply HI; [|destruct Hs as [ -> | -> ]; unfold numsort; auto]. cbn [op_sem num]. now rewrite qfloor_ZQ.
  - apply HI; [|unfold numsort; auto]. reflexivity.
  - apply okr_ok; [apply lo_TRUE|]. intros I e. cbn [map]. rewrite eval_ic by assumption. cbn [op_sem num]. now rewrite is_intq_ZQ.
Qed.
Lemma simp1_par c k p : In k [NT_IS_EVEN; NT_IS_ODD] -> lo p -> isCInt p = true -> okr lo k [p] (simp1 c k p).
Proof.
  intros Hk Hp C. destruct (lo_int p Hp C) as (s & z & Hs & ->).
  destruct Hk as [ <- | [ <- | [] ]]; unfold simp1; cbn [kin existsb float1_kinds nary1_kinds keq orb]; rewrite C;
    rewrite toInt_ic by assumption; cbn [bind]; rewrite ?isEven_ok, ?isOdd_ok; cbn [bind];
    (apply okr_ok; [apply lo_mkB|]); intros I e; cbn [map]; rewrite eval_ic, eval_mkB by assumption;
    cbn [op_sem num]; now rewrite qfloor_ZQ.
Qed.
Lemma simp1_not c p : lo p -> okr lo NT_NOT [p] (simp1 c NT_NOT p).
Proof.
  intros Hp. unfold simp1; cbn [kin existsb float1_kinds nary1_kinds keq orb].
  destruct (tri p Hp) as [ -> | [ -> | [ -> -> ]]].
  - apply okr_ok; [apply lo_FALSE|]. reflexivity.
  - apply okr_ok; [apply lo_TRUE|]. reflexivity.
  - apply okr_unk.
Qed.
Lemma ite_ok c b l r : lo b -> okr (fun t => t = l \/ t = r) NT_ITE [b; l; r] (simp3 c NT_ITE b l r).
Proof.
  intros Hb. change (simp3 c NT_ITE b l r) with (if isTrue b then Ok l else if isFalse b then Ok r else unk).
  destruct (tri b Hb) as [ -> | [ -> | [ -> -> ]]].
  - apply okr_ok; [auto|]. reflexivity.
  - apply okr_ok; [auto|]. reflexivity.
  - apply okr_unk.
Qed.
