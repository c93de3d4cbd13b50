(** Proofs about sorts and the sort manager. *)
From Coq Require Import ZifyBool ZifyNat.
From Verif Require Import Base BVProofs2 SortModel.

Lemma seq_str_refl s : seq_str s s = true.
Proof. now apply seq_str_spec. Qed.
Lemma skeq_spec a b : skeq a b = true <-> a = b.
Proof. unfold skeq. rewrite Z.eqb_eq. split; [|congruence]. destruct a, b; cbn; congruence. Qed.
Lemma skeq_refl a : skeq a a = true.
Proof. now apply skeq_spec. Qed.

(** ** the mixing step is a bijection in its second argument *)
Definition in64 (x : Z) : Prop := 0 <= x < two64.
Lemma u64_in x : in64 (u64 x).
Proof. unfold in64, u64. apply Z.mod_pos_bound. reflexivity. Qed.
Lemma lxor_in a b : in64 a -> in64 b -> in64 (Z.lxor a b).
Proof.
  unfold in64. intros [Ha1 Ha2] [Hb1 Hb2]. split.
  - apply Z.lxor_nonneg. tauto.
  - change two64 with (2 ^ 64) in *.
    assert (Hx : 0 <= Z.lxor a b) by (apply Z.lxor_nonneg; tauto).
    destruct (Z.eq_dec (Z.lxor a b) 0) as [->|Hn]; [reflexivity|].
    apply Z.log2_lt_pow2; [lia|].
    eapply Z.le_lt_trans; [apply Z.log2_lxor; lia|].
    apply Z.max_lub_lt.
    + destruct (Z.eq_dec a 0) as [->|]; [reflexivity|]. apply Z.log2_lt_pow2; lia.
    + destruct (Z.eq_dec b 0) as [->|]; [reflexivity|]. apply Z.log2_lt_pow2; lia.
Qed.
Lemma mixh_in r x : in64 r -> in64 (mixh r x).
Proof. intros H. unfold mixh. apply lxor_in; [assumption|apply u64_in]. Qed.
Lemma lxor_cancel a b c : Z.lxor a b = Z.lxor a c -> b = c.
Proof.
  intros H. assert (E : Z.lxor a (Z.lxor a b) = Z.lxor a (Z.lxor a c)) by congruence.
  rewrite <- !Z.lxor_assoc, !Z.lxor_nilpotent, !Z.lxor_0_l in E. exact E.
Qed.
Lemma mixh_inj r x y : in64 x -> in64 y -> mixh r x = mixh r y -> x = y.
Proof.
  unfold mixh. intros Hx Hy H. apply lxor_cancel in H.
  revert H. unfold u64, in64 in *. generalize (Z.shiftl r 6 mod two64), (Z.shiftr r 2).
  intros p q. unfold two64 in *. intros H.
  apply (f_equal (fun z => (z - (2654435769 + p + q)) mod 18446744073709551616)) in H.
  rewrite !Zminus_mod_idemp_l in H.
  replace (x + 2654435769 + p + q - (2654435769 + p + q)) with x in H by ring.
  replace (y + 2654435769 + p + q - (2654435769 + p + q)) with y in H by ring.
  rewrite !Z.mod_small in H by lia. exact H.
Qed.
Lemma mixh_surj r h : in64 r -> in64 h -> exists x, in64 x /\ mixh r x = h.
Proof.
  intros Hr Hh.
  exists (u64 (Z.lxor r h - (2654435769 + u64 (Z.shiftl r 6) + Z.shiftr r 2))).
  split; [apply u64_in|]. unfold mixh.
  set (c := 2654435769 + u64 (Z.shiftl r 6) + Z.shiftr r 2).
  replace (u64 (Z.lxor r h - c) + 2654435769 + u64 (Z.shiftl r 6) + Z.shiftr r 2)
    with (u64 (Z.lxor r h - c) + c) by (unfold c; ring).
  unfold u64. rewrite Zplus_mod_idemp_l. replace (Z.lxor r h - c + c) with (Z.lxor r h) by ring.
  rewrite Z.mod_small by (apply lxor_in; assumption).
  now rewrite <- Z.lxor_assoc, Z.lxor_nilpotent, Z.lxor_0_l.
Qed.

Lemma skind_in k : in64 (skind_ix k).
Proof. unfold in64, two64. destruct k; cbn [skind_ix]; lia. Qed.
Lemma fold_mixh_in l r : in64 r -> in64 (fold_left mixh l r).
Proof. revert r. induction l as [|a l IH]; cbn; intros r H; [assumption|]. apply IH, mixh_in, H. Qed.
Lemma sort_hash_in hs s : in64 (sort_hash hs s).
Proof. destruct s as [k n a ch]. cbn. apply fold_mixh_in. do 2 apply mixh_in. apply skind_in. Qed.

(** ** == *)
Definition fp_wf (s : sort) : Prop := s_kind s = SK_FP -> exists nm e g, s = fpS nm e g.

Lemma s_is_spec k s : s_is k s = true <-> s_kind s = k.
Proof. apply skeq_spec. Qed.

Lemma sort_eq_fp n1 e1 g1 n2 e2 g2 :
  sort_eq (fpS n1 e1 g1) (fpS n2 e2 g2) = Ok ((e1 =? e2) && (g1 =? g2)).
Proof. unfold sort_eq. cbn. now destruct (e1 =? e2). Qed.

Lemma sort_eq_total a b : fp_wf a -> fp_wf b -> exists r, sort_eq a b = Ok r.
Proof.
  intros Ha Hb. destruct (s_is SK_FP a && s_is SK_FP b) eqn:E.
  - apply andb_true_iff in E. destruct E as [E1 E2].
    destruct (Ha (proj1 (s_is_spec _ _) E1)) as (n1 & e1 & g1 & ->).
    destruct (Hb (proj1 (s_is_spec _ _) E2)) as (n2 & e2 & g2 & ->).
    rewrite sort_eq_fp. eauto.
  - unfold sort_eq. rewrite E.
    repeat match goal with |- exists r, (if ?c then _ else _) = Ok r => destruct c; [eauto|] end.
    eauto.
Qed.

Lemma seq_str_sym a b : seq_str a b = seq_str b a.
Proof.
  destruct (seq_str a b) eqn:E; symmetry.
  - apply seq_str_spec in E. subst. apply seq_str_refl.
  - destruct (seq_str b a) eqn:F; [|reflexivity]. apply seq_str_spec in F. subst.
    now rewrite seq_str_refl in E.
Qed.
Lemma skeq_sym a b : skeq a b = skeq b a.
Proof. unfold skeq. apply Z.eqb_sym. Qed.

Lemma sort_eq_sym a b : fp_wf a -> fp_wf b -> sort_eq a b = sort_eq b a.
Proof.
  intros Ha Hb. destruct (s_is SK_FP a && s_is SK_FP b) eqn:E.
  - apply andb_true_iff in E. destruct E as [E1 E2].
    destruct (Ha (proj1 (s_is_spec _ _) E1)) as (n1 & e1 & g1 & ->).
    destruct (Hb (proj1 (s_is_spec _ _) E2)) as (n2 & e2 & g2 & ->).
    rewrite !sort_eq_fp. now rewrite (Z.eqb_sym e1), (Z.eqb_sym g1).
  - unfold sort_eq. rewrite E, (andb_comm (s_is SK_FP b)), E.
    rewrite (seq_str_sym (s_name a)), (Z.eqb_sym (s_arity a)), (skeq_sym (s_kind a)).
    rewrite (andb_comm (s_is SK_DEF a || s_is SK_DEC a)).
    rewrite (andb_comm (s_is SK_INT b)), (andb_comm (s_is SK_INTOREAL b) (s_is SK_INT a)).
    rewrite (orb_comm (s_is SK_INTOREAL a && s_is SK_INT b)).
    rewrite (andb_comm (s_is SK_REAL b)), (andb_comm (s_is SK_INTOREAL b) (s_is SK_REAL a)).
    rewrite (orb_comm (s_is SK_INTOREAL a && s_is SK_REAL b)).
    reflexivity.
Qed.

Lemma sort_eq_refl a : fp_wf a -> sort_eq a a = Ok true.
Proof.
  intros Ha. destruct (s_is SK_FP a) eqn:E.
  - destruct (Ha (proj1 (s_is_spec _ _) E)) as (n1 & e1 & g1 & ->).
    rewrite sort_eq_fp, !Z.eqb_refl. reflexivity.
  - unfold sort_eq. rewrite E, seq_str_refl, Z.eqb_refl, skeq_refl. cbn.
    repeat match goal with |- (if ?c then _ else _) = _ => destruct c; [reflexivity|] end.
    reflexivity.
Qed.

Lemma sort_eq_kind k a b : sort_eq a b = Ok true -> s_kind b = k ->
  k <> SK_DEF -> k <> SK_DEC -> k <> SK_INT -> k <> SK_REAL -> k <> SK_INTOREAL ->
  s_kind a = k.
Proof.
  intros H Hk H1 H2 H3 H4 H5.
  assert (F : forall k', k' <> k -> s_is k' b = false).
  { intros k' Hn. destruct (s_is k' b) eqn:E; [|reflexivity]. apply s_is_spec in E. congruence. }
  unfold sort_eq in H. rewrite (F SK_DEF), (F SK_DEC), (F SK_INT), (F SK_REAL), (F SK_INTOREAL) in H by congruence.
  cbn in H. rewrite !andb_false_r in H. cbn in H.
  destruct (s_is SK_FP a && s_is SK_FP b) eqn:E.
  - apply andb_true_iff in E. rewrite !s_is_spec in E. destruct E; congruence.
  - injection H as H. apply andb_true_iff in H. destruct H as [H _].
    apply andb_true_iff in H. destruct H as [H _]. apply skeq_spec in H. congruence.
Qed.

(** ** invariant of the manager *)
Definition bv_wf (s : sort) : Prop := s_kind s = SK_BV -> exists w, in64 w /\ s = bvS w.
Definition SInv (m : smgr) : Prop := Forall (fun s => fp_wf s /\ bv_wf s) m.

(** what the caller must respect: existing arguments, size_t parameters *)
Definition valid_op (m : smgr) (o : sop) : Prop :=
  match o with
  | CreateBV w => in64 w
  | CreateFP e s => in64 e /\ in64 s
  | CreateArray i e => (i < length m /\ e < length m)%nat
  | CreateDec _ ar => in64 ar
  | CreateDef _ ps out => Forall (fun i => i < length m)%nat ps /\ (out < length m)%nat
  end.
Fixpoint valid_ops (hs : str -> Z) (m : smgr) (os : list sop) : Prop :=
  match os with
  | [] => True
  | o :: os' => valid_op m o /\
      match sstep hs m o with Ok (_, m') => valid_ops hs m' os' | _ => True end
  end.

Lemma SInv0 : SInv smgr0.
Proof.
  repeat constructor; intros H; cbn in H; try discriminate; unfold fpS; eauto.
Qed.

Lemma get_s_lt m i : (i < length m)%nat -> exists s, get_s m i = Ok s /\ nth_error m i = Some s.
Proof.
  intros H. unfold get_s. destruct (nth_error m i) eqn:E; [eauto|].
  apply nth_error_None in E. lia.
Qed.
Lemma mapM_get m ps : Forall (fun i => i < length m)%nat ps -> exists qs, mapM (get_s m) ps = Ok qs.
Proof.
  induction 1 as [|i ps Hi _ [qs IH]]; cbn; [eauto|].
  destruct (get_s_lt m i Hi) as (s & -> & _). cbn. rewrite IH. cbn. eauto.
Qed.
Lemma sop_sort_ok m o : valid_op m o -> exists s, sop_sort m o = Ok s /\ fp_wf s /\ bv_wf s.
Proof.
  destruct o as [w|e s|i e|nm ar|nm ps out]; cbn; intros Hv.
  - eexists. split; [reflexivity|]. split; intros H; [discriminate H|eauto].
  - eexists. split; [reflexivity|]. split; intros H; [unfold fpS; eauto|discriminate H].
  - destruct (get_s_lt m i) as (a & -> & _); [tauto|]. destruct (get_s_lt m e) as (b & -> & _); [tauto|].
    cbn. eexists. split; [reflexivity|]. split; intros H; discriminate H.
  - eexists. split; [reflexivity|]. split; intros H; discriminate H.
  - destruct Hv as [Hp Ho]. destruct (mapM_get m ps Hp) as [qs ->].
    destruct (get_s_lt m out Ho) as (b & -> & _). cbn.
    eexists. split; [reflexivity|]. split; intros H; discriminate H.
Qed.

Lemma bucket_find_total hs s l i : fp_wf s -> Forall (fun s => fp_wf s /\ bv_wf s) l ->
  exists r, bucket_find hs s l i = Ok r.
Proof.
  intros Hs H. revert i. induction H as [|x l [Hx _] _ IH]; intros i; cbn; [eauto|].
  destruct (_ =? _); [|apply IH].
  destruct (sort_eq_total x s Hx Hs) as [[|] ->]; cbn; eauto.
Qed.
Lemma bucket_find_some hs s l i j : bucket_find hs s l i = Ok (Some j) ->
  exists k x, j = (i + k)%nat /\ nth_error l k = Some x /\ sort_hash hs x = sort_hash hs s /\
              sort_eq x s = Ok true.
Proof.
  revert i. induction l as [|x l IH]; intros i; cbn; [discriminate|].
  destruct (sort_hash hs x =? sort_hash hs s) eqn:E.
  - destruct (sort_eq x s) as [[|]| | | | |] eqn:F; cbn; try discriminate.
    + intros H. injection H as <-. exists 0%nat, x. rewrite Nat.add_0_r.
      apply Z.eqb_eq in E. repeat split; assumption.
    + intros H. destruct (IH _ H) as (k & y & -> & Hn & Hh & He).
      exists (S k), y. split; [lia|]. repeat split; assumption.
  - intros H. destruct (IH _ H) as (k & y & -> & Hn & Hh & He).
    exists (S k), y. split; [lia|]. repeat split; assumption.
Qed.
Lemma bucket_find_app hs s l l' i j : bucket_find hs s l i = Ok (Some j) ->
  bucket_find hs s (l ++ l') i = Ok (Some j).
Proof.
  revert i. induction l as [|x l IH]; intros i; cbn; [discriminate|].
  destruct (_ =? _); [|apply IH].
  destruct (sort_eq x s) as [[|]| | | | |]; cbn; try discriminate; [tauto|apply IH].
Qed.
Lemma bucket_find_none_app hs s l l' i : bucket_find hs s l i = Ok None ->
  bucket_find hs s (l ++ l') i = bucket_find hs s l' (i + length l)%nat.
Proof.
  revert i. induction l as [|x l IH]; intros i; cbn; [rewrite Nat.add_0_r; reflexivity|].
  replace (i + S (length l))%nat with (S i + length l)%nat by lia.
  destruct (_ =? _); [|apply IH].
  destruct (sort_eq x s) as [[|]| | | | |]; cbn; try discriminate; apply IH.
Qed.

Lemma insertSort_cases hs m s i m' : insertSort hs m s = Ok (i, m') ->
  (m' = m /\ bucket_find hs s m 0 = Ok (Some i)) \/
  (m' = m ++ [s] /\ i = length m /\ bucket_find hs s m 0 = Ok None).
Proof.
  unfold insertSort. destruct (bucket_find hs s m 0) as [[j|]| | | | |]; cbn; try discriminate;
    intros H; injection H as <- <-; auto.
Qed.

Lemma sstep_ok hs m o : SInv m -> valid_op m o ->
  exists i m', sstep hs m o = Ok (i, m') /\ SInv m' /\ (exists t, m' = m ++ t) /\ (i < length m')%nat.
Proof.
  intros HI Hv. unfold sstep. destruct (sop_sort_ok m o Hv) as (s & -> & Hf & Hb). cbn [bind].
  destruct (bucket_find_total hs s m 0 Hf HI) as [r Hr].
  unfold insertSort. rewrite Hr. cbn [bind]. destruct r as [j|].
  - exists j, m. split; [reflexivity|]. split; [assumption|]. split; [exists []; now rewrite app_nil_r|].
    destruct (bucket_find_some _ _ _ _ _ Hr) as (k & x & -> & Hn & _).
    apply nth_error_Some. cbn. congruence.
  - exists (length m), (m ++ [s]). split; [reflexivity|].
    split; [apply Forall_app; split; [assumption|constructor; [split; assumption|constructor]]|].
    split; [eauto|]. rewrite app_length. cbn. lia.
Qed.

Lemma srun_ok hs os : forall m, SInv m -> valid_ops hs m os ->
  exists m', srun hs m os = Ok m' /\ SInv m' /\ exists t, m' = m ++ t.
Proof.
  induction os as [|o os IH]; intros m HI; cbn [srun valid_ops].
  - intros _. exists m. repeat split; try assumption. exists []. now rewrite app_nil_r.
  - intros [Hv Hr]. destruct (sstep_ok hs m o HI Hv) as (i & m1 & E & HI1 & [t ->] & _).
    rewrite E in *. cbn [bind snd]. destruct (IH _ HI1 Hr) as (m2 & E2 & HI2 & [t2 ->]).
    exists ((m ++ t) ++ t2). repeat split; try assumption. exists (t ++ t2). now rewrite app_assoc.
Qed.

(** bit-vector and floating-point sorts come back with the widths asked for *)
Lemma bv_hash_inj hs v w : in64 v -> in64 w ->
  sort_hash hs (bvS v) = sort_hash hs (bvS w) -> v = w.
Proof.
  intros Hv Hw. unfold bvS, widthS. cbn [sort_hash map fold_left]. intros H.
  apply mixh_inj in H.
  - apply mixh_inj in H; assumption.
  - do 2 apply mixh_in. apply skind_in.
  - do 2 apply mixh_in. apply skind_in.
Qed.
Lemma create_bv_width hs m w i m' : SInv m -> in64 w -> sstep hs m (CreateBV w) = Ok (i, m') ->
  nth_error m' i = Some (bvS w).
Proof.
  intros HI Hw H. cbn in H. apply insertSort_cases in H. destruct H as [[-> H]|(-> & -> & _)].
  - destruct (bucket_find_some _ _ _ _ _ H) as (k & x & -> & Hn & Hh & He). cbn [plus].
    rewrite Hn. f_equal.
    assert (Hk : s_kind x = SK_BV) by (eapply sort_eq_kind; [exact He|reflexivity|discriminate..]).
    apply nth_error_In in Hn. unfold SInv in HI; rewrite Forall_forall in HI. destruct (HI x Hn) as [_ Hb].
    destruct (Hb Hk) as (v & Hv & ->). f_equal. exact (bv_hash_inj hs v w Hv Hw Hh).
  - rewrite nth_error_app2 by lia. now rewrite Nat.sub_diag.
Qed.
Lemma create_fp_width hs m e g i m' : SInv m -> sstep hs m (CreateFP e g) = Ok (i, m') ->
  exists nm, nth_error m' i = Some (fpS nm e g).
Proof.
  intros HI H. cbn in H. apply insertSort_cases in H. destruct H as [[-> H]|(-> & -> & _)].
  - destruct (bucket_find_some _ _ _ _ _ H) as (k & x & -> & Hn & Hh & He). cbn [plus].
    assert (Hk : s_kind x = SK_FP) by (eapply sort_eq_kind; [exact He|reflexivity|discriminate..]).
    assert (Hx := Hn). apply nth_error_In in Hn. unfold SInv in HI; rewrite Forall_forall in HI. destruct (HI x Hn) as [Hb _].
    destruct (Hb Hk) as (nm & e' & g' & ->). rewrite sort_eq_fp in He. injection He as He.
    apply andb_true_iff in He. rewrite !Z.eqb_eq in He. destruct He as [<- <-]. eauto.
  - rewrite nth_error_app2 by lia. rewrite Nat.sub_diag. cbn. eauto.
Qed.

(** asking again returns the same object, whatever happened in between *)
Lemma get_s_app m t i s : get_s m i = Ok s -> get_s (m ++ t) i = Ok s.
Proof.
  unfold get_s. destruct (nth_error m i) eqn:E; [|discriminate]. intros H.
  rewrite nth_error_app1; [now rewrite E|]. apply nth_error_Some. congruence.
Qed.
Lemma mapM_get_app m t ps qs : mapM (get_s m) ps = Ok qs -> mapM (get_s (m ++ t)) ps = Ok qs.
Proof.
  revert qs. induction ps as [|p ps IH]; intros qs; cbn; [tauto|].
  destruct (get_s m p) eqn:E; cbn; try discriminate. rewrite (get_s_app _ t _ _ E). cbn.
  destruct (mapM (get_s m) ps); cbn; try discriminate. intros H.
  now rewrite (IH _ eq_refl).
Qed.
Lemma sop_sort_app m t o s : sop_sort m o = Ok s -> sop_sort (m ++ t) o = Ok s.
Proof.
  destruct o as [w|e g|i e|nm ar|nm ps out]; cbn; try tauto.
  - destruct (get_s m i) eqn:E1; cbn; try discriminate. destruct (get_s m e) eqn:E2; cbn; try discriminate.
    now rewrite (get_s_app _ t _ _ E1), (get_s_app _ t _ _ E2).
  - destruct (mapM (get_s m) ps) eqn:E1; cbn; try discriminate. destruct (get_s m out) eqn:E2; cbn; try discriminate.
    now rewrite (mapM_get_app _ t _ _ E1), (get_s_app _ t _ _ E2).
Qed.
Lemma sstep_stable hs m o i m1 os m2 : SInv m -> valid_op m o ->
  sstep hs m o = Ok (i, m1) -> valid_ops hs m1 os -> srun hs m1 os = Ok m2 ->
  sstep hs m2 o = Ok (i, m2).
Proof.
  intros HI Hv H Hvs Hr.
  destruct (sstep_ok hs m o HI Hv) as (i' & m1' & E & HI1 & [t Ht] & Hi).
  rewrite H in E. injection E as <- <-.
  destruct (srun_ok hs os m1 HI1 Hvs) as (m2' & E2 & _ & [u Hu]).
  rewrite Hr in E2. injection E2 as <-.
  unfold sstep in *. destruct (sop_sort_ok m o Hv) as (s & Es & Hf & _). rewrite Es in H. cbn [bind] in H.
  assert (Es2 : sop_sort m2 o = Ok s).
  { subst m2 m1. apply sop_sort_app, sop_sort_app, Es. }
  rewrite Es2. cbn [bind]. unfold insertSort.
  enough (bucket_find hs s m2 0 = Ok (Some i)) as -> by reflexivity.
  subst m2. apply bucket_find_app. apply insertSort_cases in H. destruct H as [[-> H]|(-> & -> & H)].
  - assumption.
  - rewrite (bucket_find_none_app _ _ _ _ _ H). cbn. rewrite Z.eqb_refl, (sort_eq_refl _ Hf). reflexivity.
Qed.
(** objects never change *)
Lemma srun_keeps hs os m m2 i s : SInv m -> valid_ops hs m os -> srun hs m os = Ok m2 ->
  nth_error m i = Some s -> nth_error m2 i = Some s.
Proof.
  intros HI Hv Hr Hn. destruct (srun_ok hs os m HI Hv) as (m2' & E & _ & [t ->]).
  rewrite Hr in E. injection E as ->. rewrite nth_error_app1; [assumption|].
  apply nth_error_Some. congruence.
Qed.

(** ** array sorts can be confused: a hash collision exists for every string hash *)
Lemma array_collision hs : exists n, in64 n /\
  sort_hash hs (arrayS boolS (Srt SK_DEC (L "S") n [])) = sort_hash hs (arrayS intS intS).
Proof.
  set (r0 := mixh (mixh (skind_ix SK_ARRAY) (hs (L "Array"))) 0).
  assert (R0 : in64 r0) by (unfold r0; do 2 apply mixh_in; apply skind_in).
  set (r1 := mixh r0 (sort_hash hs boolS)).
  assert (R1 : in64 r1) by (apply mixh_in, R0).
  destruct (mixh_surj r1 (sort_hash hs (arrayS intS intS)) R1 (sort_hash_in _ _)) as (y & Hy & Ey).
  set (q := mixh (skind_ix SK_DEC) (hs (L "S"))).
  destruct (mixh_surj q y) as (n & Hn & En); [apply mixh_in, skind_in|assumption|].
  exists n. split; [assumption|]. rewrite <- Ey, <- En. reflexivity.
Qed.

Lemma find_skip hs s l i : Forall (fun x => sort_eq x s = Ok false) l -> bucket_find hs s l i = Ok None.
Proof.
  intros H. revert i. induction H as [|x l Hx _ IH]; intros i; cbn; [reflexivity|].
  rewrite Hx. cbn. destruct (_ =? _); apply IH.
Qed.
Lemma array_confused hs : exists n, in64 n /\
  sstep hs smgr0 (CreateArray 3 3) = Ok (17%nat, smgr0 ++ [arrayS intS intS]) /\
  srun hs smgr0 [CreateArray 3 3; CreateDec (L "S") n]
    = Ok (smgr0 ++ [arrayS intS intS; Srt SK_DEC (L "S") n []]) /\
  sstep hs (smgr0 ++ [arrayS intS intS; Srt SK_DEC (L "S") n []]) (CreateArray 2 18)
    = Ok (17%nat, smgr0 ++ [arrayS intS intS; Srt SK_DEC (L "S") n []]).
Proof.
  destruct (array_collision hs) as (n & Hn & Hc). exists n. split; [assumption|].
  assert (E1 : sstep hs smgr0 (CreateArray 3 3) = Ok (17%nat, smgr0 ++ [arrayS intS intS])).
  { unfold sstep. change (sop_sort smgr0 (CreateArray 3 3)) with (Ok (arrayS intS intS)). cbn [bind].
    unfold insertSort. rewrite find_skip; [reflexivity|]. repeat constructor. }
  split; [exact E1|]. split.
  - cbn [srun]. rewrite E1. cbn [bind snd]. unfold sstep. cbn [sop_sort bind]. unfold insertSort.
    rewrite find_skip; [cbn [bind snd]; now rewrite <- app_assoc|]. repeat constructor.
  - unfold sstep.
    change (sop_sort (smgr0 ++ [arrayS intS intS; Srt SK_DEC (L "S") n []]) (CreateArray 2 18))
      with (Ok (arrayS boolS (Srt SK_DEC (L "S") n []))). cbn [bind]. unfold insertSort.
    rewrite bucket_find_none_app by (apply find_skip; repeat constructor).
    cbn [bucket_find]. rewrite Hc, Z.eqb_refl. reflexivity.
Qed.
