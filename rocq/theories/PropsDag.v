(** Properties C16-C18, C49: kinds, hash-consing, sorts, operator names. *)
From Coq Require Import QArith Qcanon.
From Verif Require Import Base KindModel SortModel SortProofs DagModel DagProofs TermModel BVSpec Sem
  SemProofs DagSpec KindProofs.
Open Scope Z_scope.

(** ** C16 *)
Theorem C16_negation_complements : forall k, In k cmp_kinds -> forall a b,
  exists r, rel2 k a b r /\ rel2 (getNegatedKind k) a b (negb r).
Proof. exact neg_complement. Qed.
Print Assumptions C16_negation_complements.
Theorem C16_negation_involutive : forall k, getNegatedKind k <> NT_UNKNOWN ->
  getNegatedKind (getNegatedKind k) = k.
Proof. exact neg_invol. Qed.
Print Assumptions C16_negation_involutive.
Theorem C16_negation_domain : forall k,
  getNegatedKind k <> NT_UNKNOWN <-> In k (cmp_kinds ++ fp_cmp_kinds).
Proof. exact neg_domain. Qed.
Print Assumptions C16_negation_domain.
(** floating point: the complement exactly when no NaN is compared *)
Theorem C16_negation_fp_iff : forall k, In k fp_cmp_kinds -> forall a b,
  exists r s, rel2 k a b r /\ rel2 (getNegatedKind k) a b s /\
    (s = negb r <-> notNaN a /\ notNaN b).
Proof. exact neg_fp. Qed.
Print Assumptions C16_negation_fp_iff.
Theorem C16_flip_swaps : forall k, In k (cmp_kinds ++ fp_cmp_kinds) -> k <> NT_BV_SLT -> forall a b,
  exists r, rel2 k a b r /\ rel2 (getFlipKind k) b a r.
Proof. exact flip_swaps. Qed.
Print Assumptions C16_flip_swaps.
(** bvslt is flipped to bvsge: right exactly on different values *)
Theorem C16_flip_slt_iff : forall a b, exists r s,
  rel2 NT_BV_SLT a b r /\ rel2 (getFlipKind NT_BV_SLT) b a s /\ (r = s <-> svv a <> svv b).
Proof. exact flip_slt. Qed.
Print Assumptions C16_flip_slt_iff.
Theorem C16_flip_refuted : exists a b,
  rel2 NT_BV_SLT a b false /\ rel2 (getFlipKind NT_BV_SLT) b a true.
Proof. exists (VBV 4 3), (VBV 4 3). split; reflexivity. Qed.
Print Assumptions C16_flip_refuted.
(** applied to three arguments, the negated kind of [=] is not its complement *)
Theorem C16_nary_refuted : exists a b c, op_sem NT_EQ [a; b; c] = Some (VBool false) /\
  op_sem (getNegatedKind NT_EQ) [a; b; c] = Some (VBool false).
Proof. exact eq3_neg. Qed.
Print Assumptions C16_nary_refuted.
Example C16_ex : rel2 NT_BV_SLT (VBV 4 15) (VBV 4 1) true /\ rel2 NT_BV_ULT (VBV 4 15) (VBV 4 1) false
  /\ rel2 NT_FP_LT (VFP FNaN) (VFP FNaN) false /\ rel2 NT_FP_GE (VFP FNaN) (VFP FNaN) false.
Proof. repeat split; reflexivity. Qed.

(** ** C17: every history of the node manager, whatever the string hash [hstr] and the
    sort texts [sstr] *)
(** the manager exists, and any sequence of creations whose children exist succeeds;
    each returned index holds exactly the requested record, for ever *)
Theorem C17_history : forall hstr sstr ns, exists h0, manager0 hstr sstr = Ok h0 /\
  (valid_nodes hstr sstr h0 ns ->
   exists is h t, runNodes hstr sstr h0 ns = Ok (is, h) /\ h = h0 ++ t /\
     Forall2 (fun n i => option_map e_node (nth_error h i) = Some n) ns is /\
     (forall i j, option_map e_node (nth_error h i) = option_map e_node (nth_error h j) ->
        (i < length h)%nat -> i = j)).
Proof.
  intros hstr sstr ns. destruct (manager0_ok hstr sstr) as (h0 & E0 & HI0). exists h0. split; [exact E0|].
  intros Hv. destruct (runNodes_spec hstr sstr ns h0 HI0 Hv) as (is & h & E & HI & [t Ht] & HF).
  exists is, h, t. split; [exact E|]. split; [exact Ht|]. split.
  - clear - HF. induction HF as [|n i ns is (e & He & Hn) _ IH]; constructor; [|exact IH].
    rewrite He. cbn. now rewrite Hn.
  - intros i j Hij Hi. destruct (nth_error h i) as [a|] eqn:Ea; [|apply nth_error_None in Ea; lia].
    destruct (nth_error h j) as [b|] eqn:Eb; [|discriminate Hij]. cbn in Hij. injection Hij as Hab.
    exact (hi_inj hstr sstr h HI i j a b Ea Eb Hab).
Qed.
Print Assumptions C17_history.
(** the same request gets the same index, different requests different indices *)
Theorem C17_same_iff : forall hstr sstr h0 ns is h, manager0 hstr sstr = Ok h0 ->
  valid_nodes hstr sstr h0 ns -> runNodes hstr sstr h0 ns = Ok (is, h) ->
  forall p q n m i j, nth_error ns p = Some n -> nth_error ns q = Some m ->
    nth_error is p = Some i -> nth_error is q = Some j -> (n = m <-> i = j).
Proof.
  intros hstr sstr h0 ns is h E0 Hv Hr p q n m i j Hn Hm Hi Hj.
  destruct (manager0_ok hstr sstr) as (h0' & E0' & HI0). rewrite E0 in E0'. injection E0' as <-.
  destruct (runNodes_spec hstr sstr ns h0 HI0 Hv) as (is' & h' & E & HI & _ & HF).
  rewrite Hr in E. injection E as <- <-.
  assert (G : forall p n i, nth_error ns p = Some n -> nth_error is p = Some i ->
              exists e, nth_error h i = Some e /\ e_node e = n).
  { clear - HF. induction HF as [|x y ns is Hxy _ IH]; intros [|p] n i; cbn; try discriminate.
    - intros E1 E2. injection E1 as <-. injection E2 as <-. exact Hxy.
    - apply IH. }
  destruct (G _ _ _ Hn Hi) as (a & Ha & Hna). destruct (G _ _ _ Hm Hj) as (b & Hb & Hnb).
  split.
  - intros Enm. apply (hi_inj hstr sstr h HI i j a b Ha Hb). congruence.
  - intros Eij. subst j. congruence.
Qed.
Print Assumptions C17_same_iff.
(** pointer equality is equality of the denoted trees *)
Theorem C17_pointer_is_tree : forall hstr sstr h0 ns is h, manager0 hstr sstr = Ok h0 ->
  valid_nodes hstr sstr h0 ns -> runNodes hstr sstr h0 ns = Ok (is, h) ->
  (forall i, (i < length h)%nat -> exists t, Unfold h i t) /\
  (forall i j t, Unfold h i t -> Unfold h j t -> i = j).
Proof.
  intros hstr sstr h0 ns is h E0 Hv Hr.
  destruct (manager0_ok hstr sstr) as (h0' & E0' & HI0). rewrite E0 in E0'. injection E0' as <-.
  destruct (runNodes_spec hstr sstr ns h0 HI0 Hv) as (is' & h' & E & HI & _).
  rewrite Hr in E. injection E as <- <-.
  split; [exact (unfold_total hstr sstr h HI)|exact (unfold_inj hstr sstr h HI)].
Qed.
Print Assumptions C17_pointer_is_tree.
(** a constant hash (everything in one bucket) is handled as well *)
Example C17_ex : exists h, runNodes (fun _ => 0) (fun _ => []) []
  [Node 2 NT_VAR (L "a") []; Node 2 NT_VAR (L "b") []; Node 2 NT_AND (L "and") [0;1]%nat;
   Node 2 NT_AND (L "and") [1;0]%nat; Node 2 NT_AND (L "and") [0;1]%nat; Node 2 NT_VAR (L "a") []]
  = Ok ([0;1;2;3;2;0]%nat, h).
Proof. eexists. vm_compute. reflexivity. Qed.

(** ** C18 *)
Theorem C18_history : forall hs os, valid_ops hs smgr0 os ->
  exists m t, srun hs smgr0 os = Ok m /\ m = smgr0 ++ t.
Proof.
  intros hs os Hv. destruct (srun_ok hs os smgr0 SInv0 Hv) as (m & E & _ & [t Ht]). eauto.
Qed.
Print Assumptions C18_history.
(** in any history, asking for a bit-vector sort returns one of exactly that width *)
Theorem C18_bv_width : forall hs os m w i m', valid_ops hs smgr0 os -> srun hs smgr0 os = Ok m ->
  in64 w -> sstep hs m (CreateBV w) = Ok (i, m') -> nth_error m' i = Some (bvS w).
Proof.
  intros hs os m w i m' Hv Hr Hw Hs. destruct (srun_ok hs os smgr0 SInv0 Hv) as (m1 & E & HI & _).
  rewrite Hr in E. injection E as <-. exact (create_bv_width hs m w i m' HI Hw Hs).
Qed.
Print Assumptions C18_bv_width.
Theorem C18_fp_width : forall hs os m e g i m', valid_ops hs smgr0 os -> srun hs smgr0 os = Ok m ->
  sstep hs m (CreateFP e g) = Ok (i, m') -> exists nm, nth_error m' i = Some (fpS nm e g).
Proof.
  intros hs os m e g i m' Hv Hr Hs. destruct (srun_ok hs os smgr0 SInv0 Hv) as (m1 & E & HI & _).
  rewrite Hr in E. injection E as <-. exact (create_fp_width hs m e g i m' HI Hs).
Qed.
Print Assumptions C18_fp_width.
(** one object per request: whatever happens in between, asking again gives the same
    object and creates nothing *)
Theorem C18_stable : forall hs os m o i m1 os' m2, valid_ops hs smgr0 os -> srun hs smgr0 os = Ok m ->
  valid_op m o -> sstep hs m o = Ok (i, m1) -> valid_ops hs m1 os' -> srun hs m1 os' = Ok m2 ->
  sstep hs m2 o = Ok (i, m2).
Proof.
  intros hs os m o i m1 os' m2 Hv Hr. destruct (srun_ok hs os smgr0 SInv0 Hv) as (m0 & E & HI & _).
  rewrite Hr in E. injection E as <-. exact (sstep_stable hs m o i m1 os' m2 HI).
Qed.
Print Assumptions C18_stable.
Theorem C18_objects_fixed : forall hs os m os' m2 i s, valid_ops hs smgr0 os -> srun hs smgr0 os = Ok m ->
  valid_ops hs m os' -> srun hs m os' = Ok m2 -> nth_error m i = Some s -> nth_error m2 i = Some s.
Proof.
  intros hs os m os' m2 i s Hv Hr. destruct (srun_ok hs os smgr0 SInv0 Hv) as (m0 & E & HI & _).
  rewrite Hr in E. injection E as <-. exact (srun_keeps hs os' m m2 i s HI).
Qed.
Print Assumptions C18_objects_fixed.
(** operator== on sorts is defined, reflexive and symmetric (floating-point sorts having
    their two parameters) and exact on floating-point sorts *)
Theorem C18_eq_defined : forall a b, fp_wf a -> fp_wf b ->
  (exists r, sort_eq a b = Ok r) /\ sort_eq a b = sort_eq b a /\ sort_eq a a = Ok true.
Proof.
  exact (fun a b Ha Hb => conj (sort_eq_total a b Ha Hb) (conj (sort_eq_sym a b Ha Hb) (sort_eq_refl a Ha))).
Qed.
Print Assumptions C18_eq_defined.
Theorem C18_eq_fp : forall n1 e1 g1 n2 e2 g2,
  sort_eq (fpS n1 e1 g1) (fpS n2 e2 g2) = Ok ((e1 =? e2) && (g1 =? g2)).
Proof. exact sort_eq_fp. Qed.
Print Assumptions C18_eq_fp.
(** the full property fails: not transitive, blind to widths and to array parameters *)
Theorem C18_eq_refuted :
  (exists a b c, sort_eq a b = Ok true /\ sort_eq b c = Ok true /\ sort_eq a c = Ok false) /\
  (forall v w, sort_eq (bvS v) (bvS w) = Ok true) /\
  (forall a b c d, sort_eq (arrayS a b) (arrayS c d) = Ok true).
Proof.
  split; [exists intS, intorealS, realS; repeat split; reflexivity|].
  split; intros; reflexivity.
Qed.
Print Assumptions C18_eq_refuted.
(** and the manager can return the wrong array sort: for every string hash there is an
    arity n such that (Array Bool S), S of arity n, is answered with (Array Int Int) *)
Theorem C18_array_refuted : forall hs, exists n, in64 n /\
  sstep hs smgr0 (CreateArray 3 3) = Ok (17%nat, smgr0 ++ [arrayS intS intS]) /\
  srun hs smgr0 [CreateArray 3 3; CreateDec (L "S") n]
    = Ok (smgr0 ++ [arrayS intS intS; Srt SK_DEC (L "S") n []]) /\
  sstep hs (smgr0 ++ [arrayS intS intS; Srt SK_DEC (L "S") n []]) (CreateArray 2 18)
    = Ok (17%nat, smgr0 ++ [arrayS intS intS; Srt SK_DEC (L "S") n []]).
Proof. exact array_confused. Qed.
Print Assumptions C18_array_refuted.
Example C18_ex : valid_ops (fun _ => 7) smgr0 [CreateBV 8; CreateBV 16; CreateArray 17 18; CreateBV 8] /\
  exists m, srun (fun _ => 7) smgr0 [CreateBV 8; CreateBV 16; CreateArray 17 18; CreateBV 8] = Ok m /\
    length m = 20%nat.
Proof.
  split; [|eexists; split; [vm_compute; reflexivity|reflexivity]].
  vm_compute. repeat split; try lia; discriminate.
Qed.

(** ** C49 operator names *)
Theorem C49_name_round_trip : forall nm k, In (nm, k) oper_key_map -> ~ In k no_trip ->
  getOperKind (kindToString k) = k.
Proof. exact oper_trip. Qed.
Print Assumptions C49_name_round_trip.
Theorem C49_table_reachable : forall nm k, In (nm, k) oper_key_map ->
  getOperKind (L nm) = k \/ nm = "arcsec"%string.
Proof. exact oper_first. Qed.
Print Assumptions C49_table_reachable.
(** the exceptions: printed under a name that is read as another operator, or as none *)
Theorem C49_refuted :
  getOperKind (kindToString NT_NEG) = NT_SUB /\
  getOperKind (L "str.indexof_re") = NT_STR_INDEXOF_REG /\
  getOperKind (kindToString NT_STR_INDEXOF_REG) = NT_STR_INDEXOF /\
  getOperKind (kindToString NT_BV_TO_INT) = NT_UNKNOWN /\
  getOperKind (kindToString NT_BV_UADDO) = NT_UNKNOWN /\
  getOperKind (L "arcsec") = NT_ASEC.
Proof. vm_compute. repeat split. Qed.
Print Assumptions C49_refuted.
Example C49_ex : In ("bvadd"%string, NT_BV_ADD) oper_key_map /\ ~ In NT_BV_ADD no_trip.
Proof. split; [vm_compute; tauto|vm_compute; intuition discriminate]. Qed.
