(** Proofs about the Boolean constructors, equality and comparisons. *)
From Coq Require Import QArith Qcanon Qround Permutation ZifyBool ZifyNat.
From Verif Require Import Base KindModel SortModel TermModel BVModel BVSpec BVProofs BVProofs2 BVProofs4 BVProofs5
  UtilModel UtilSpec UtilProofs UtilProofs2 DagProofs SortProofs Sem SemProofs ArrayModel SimpModel OpModel OpSpec
  OpProofs OpProofs2 OpProofs3 OpProofs4.
Open Scope Z_scope.

(** ** and, or *)
Lemma existsb_teq x l : existsb (teq x) l = true <-> In x l.
Proof.
  rewrite existsb_exists. split.
  - intros (y & Hy & E). apply teq_spec in E. now subst.
  - intros H. exists x. split; [exact H|apply teq_refl].
Qed.
Lemma dedup_incl ps : forall seen p, In p (dedup seen ps) -> In p ps.
Proof.
  induction ps as [|x ps IH]; intros seen p; cbn [dedup]; [auto|].
  destruct (existsb (teq x) seen); intros H; [right; eauto|]. destruct H as [H|H]; [now left|right; eauto].
Qed.
Lemma dedup_all (f : term -> bool) ps : forall seen, forallb f seen = true -> forallb f (dedup seen ps) = forallb f ps.
Proof.
  induction ps as [|x ps IH]; intros seen Hs; cbn [dedup forallb]; [reflexivity|].
  destruct (existsb (teq x) seen) eqn:E.
  - apply existsb_teq in E. rewrite forallb_forall in Hs. rewrite IH by (now apply forallb_forall). now rewrite (Hs x E).
  - cbn [forallb]. destruct (f x) eqn:F; [|reflexivity]. cbn [andb]. apply IH. cbn [forallb]. now rewrite F.
Qed.
Lemma dedup_any (f : term -> bool) ps : existsb f (dedup [] ps) = existsb f ps.
Proof.
  pose proof (dedup_all (fun x => negb (f x)) ps [] eq_refl) as H.
  assert (G : forall l, forallb (fun x => negb (f x)) l = negb (existsb f l)).
  { induction l as [|x l IH]; cbn; [reflexivity|]. rewrite IH. now destruct (f x). }
  rewrite !G in H. now apply (f_equal negb) in H; rewrite !negb_involutive in H.
Qed.
Lemma lits_ok_cons p ps : lits_ok (p :: ps) <-> lo p /\ lits_ok ps.
Proof.
  unfold lits_ok, lo. split.
  - intros H. split; [intros C; apply H; [now left|exact C]|intros q Hq; apply H; now right].
  - intros [H K] q [ <- | Hq ]; [exact H|now apply K].
Qed.
Lemma lits_ok_incl ps qs : incl qs ps -> lits_ok ps -> lits_ok qs.
Proof. intros Hi H q Hq. apply H. now apply Hi. Qed.
Lemma forallb_map' {A B} (f : B -> bool) (g : A -> B) l : forallb f (map g l) = forallb (fun x => f (g x)) l.
Proof. induction l; cbn; [reflexivity|now rewrite IHl]. Qed.
Lemma existsb_map' {A B} (f : B -> bool) (g : A -> B) l : existsb f (map g l) = existsb (fun x => f (g x)) l.
Proof. induction l; cbn; [reflexivity|now rewrite IHl]. Qed.
Lemma bool_loop_ok (conj : bool) ps : bool_args ps ->
  let unit := if conj then isTrue else isFalse in
  let zero := if conj then isFalse else isTrue in
  let zr := if conj then FALSE else TRUE in
  match bool_loop unit zero zr ps with
  | Ok (inl t) => t = zr /\ forall I e, (if conj then forallb (holds I e) ps else existsb (holds I e) ps) = negb conj
  | Ok (inr qs) => incl qs ps /\ forall I e,
      (if conj then forallb (holds I e) qs = forallb (holds I e) ps else existsb (holds I e) qs = existsb (holds I e) ps)
  | _ => False
  end.
Proof.
  intros HB unit zero zr. induction ps as [|p ps IH]; cbn [bool_loop].
  - split; [intros x H; exact H|]. intros. now destruct conj.
  - destruct HB as [HL HS]. destruct (HS p (or_introl eq_refl)) as [S1 S2]. apply lits_ok_cons in HL. destruct HL as [L1 L2].
    rewrite S1, S2. cbn [negb].
    assert (HB' : bool_args ps) by (split; [exact L2|intros q Hq; apply HS; now right]). specialize (IH HB').
    destruct (unit p) eqn:U.
    + destruct (bool_loop unit zero zr ps) as [[t|qs]|t0| | | |] eqn:E; try contradiction.
      * destruct IH as [-> H]. split; [reflexivity|]. intros I e. specialize (H I e). unfold unit in U.
        destruct conj; cbn [forallb existsb]; rewrite H; [apply andb_false_r|apply orb_true_r].
      * destruct IH as [Hi H]. split; [intros x Hx; right; now apply Hi|]. intros I e. specialize (H I e). unfold unit in U.
        destruct conj; cbn [forallb existsb]; rewrite H; [rewrite (lo_true p L1 U)|rewrite (lo_false p L1 U)]; reflexivity.
    + destruct (zero p) eqn:Z.
      * split; [reflexivity|]. intros I e. unfold zero in Z.
        destruct conj; cbn [forallb existsb]; [rewrite (lo_false p L1 Z)|rewrite (lo_true p L1 Z)]; reflexivity.
      * destruct (bool_loop unit zero zr ps) as [[t|qs]|t0| | | |] eqn:E; try contradiction; cbn [bind].
        -- destruct IH as [-> H]. split; [reflexivity|]. intros I e. specialize (H I e).
           destruct conj; cbn [forallb existsb]; rewrite H; [apply andb_false_r|apply orb_true_r].
        -- destruct IH as [Hi H]. split; [intros x [ <- | Hx ]; [now left|right; now apply Hi]|]. intros I e. specialize (H I e).
           destruct conj; cbn [forallb existsb]; now rewrite H.
Qed.
Lemma holds_op I e k s n ch v : ch <> [] -> quantk k = false -> op_sem k (map (eval I e) ch) = Some v ->
  holds I e (T k s n ch) = truth v.
Proof. intros. unfold holds. now rewrite (eval_op I e k s n ch v). Qed.
Lemma mkJunction_sound c (conj : bool) ps : cfg_ok c -> bool_args ps ->
  decides (mkJunction c (if conj then NT_AND else NT_OR) ps)
          (fun I e => if conj then forallb (holds I e) ps else existsb (holds I e) ps).
Proof.
  intros Hc HB. unfold mkJunction. replace (keq (if conj then NT_AND else NT_OR) NT_AND) with conj by (now destruct conj).
  destruct ps as [|a [|b ps]].
  - eexists. split; [reflexivity|]. intros. now destruct conj.
  - eexists. split; [reflexivity|]. intros. destruct conj; cbn [forallb existsb]; [now rewrite andb_true_r|now rewrite orb_false_r].
  - set (l := a :: b :: ps) in *. pose proof (bool_loop_ok conj l HB) as H. cbv zeta in H.
    assert (El : forall X (x y : X) z, match l with [] => x | [_] => y | _ :: _ :: _ => z end = z) by reflexivity.
    destruct (bool_loop _ _ _ l) as [[t|qs]|t0| | | |] eqn:E; try contradiction; cbn [bind].
    + destruct H as [-> H]. eexists. split; [reflexivity|]. intros I e. rewrite (H I e). now destruct conj.
    + destruct H as [Hi H].
      assert (HD : forall I e, (if conj then forallb (holds I e) (dedup [] qs) else existsb (holds I e) (dedup [] qs)) =
                   (if conj then forallb (holds I e) l else existsb (holds I e) l)).
      { intros I e. specialize (H I e). destruct conj; [rewrite dedup_all by reflexivity|rewrite dedup_any]; exact H. }
      assert (HL : lits_ok (dedup [] qs)).
      { apply (lits_ok_incl l); [|apply HB]. intros x Hx. apply Hi. now apply dedup_incl in Hx. }
      destruct (dedup [] qs) as [|x [|y qs']] eqn:Ed.
      * eexists. split; [reflexivity|]. intros I e. rewrite <- HD. now destruct conj.
      * eexists. split; [reflexivity|]. intros I e. rewrite <- HD. destruct conj; cbn [forallb existsb]; [now rewrite andb_true_r|now rewrite orb_false_r].
      * destruct (mkOper_sound c boolS (if conj then NT_AND else NT_OR) (x :: y :: qs') Hc) as (t & Et & Vt).
        { split; [exact HL|]. destruct conj; cbn [length]; lia. }
        exists t. split; [exact Et|]. intros I e. rewrite <- HD. unfold holds at 1. rewrite Vt. fold (holds I e (T (if conj then NT_AND else NT_OR) boolS (kindToString (if conj then NT_AND else NT_OR)) (x :: y :: qs'))).
        destruct conj.
        -- rewrite (holds_op I e NT_AND _ _ _ (VBool (forallb truth (map (eval I e) (x :: y :: qs'))))); try reflexivity; [|discriminate].
           cbn [truth]. now rewrite forallb_map'.
        -- rewrite (holds_op I e NT_OR _ _ _ (VBool (existsb truth (map (eval I e) (x :: y :: qs'))))); try reflexivity; [|discriminate].
           cbn [truth]. now rewrite existsb_map'.
Qed.
Lemma mkAnd_sound c ps : cfg_ok c -> bool_args ps -> decides (mkAnd c ps) (fun I e => forallb (holds I e) ps).
Proof. exact (mkJunction_sound c true ps). Qed.
Lemma mkOr_sound c ps : cfg_ok c -> bool_args ps -> decides (mkOr c ps) (fun I e => existsb (holds I e) ps).
Proof. exact (mkJunction_sound c false ps). Qed.

(** ** xor *)
Lemma xorl_xors vs : xorl vs = xors (map truth vs).
Proof.
  unfold xorl. assert (G : forall b, fold_left (fun a v => xorb a (truth v)) vs b = xorb b (xors (map truth vs))).
  { induction vs as [|v vs IH]; intros b; cbn; [now rewrite xorb_false_r|]. rewrite IH. apply xorb_assoc. }
  rewrite G. apply xorb_false_l.
Qed.
Lemma xor_loop_ok ps : lits_ok ps -> no_err ps -> exists qs, xor_loop ps = inr qs /\ incl qs ps /\
  forall I e, xors (map (holds I e) qs) = xors (map (holds I e) ps).
Proof.
  induction ps as [|p ps IH]; intros HL HE; [now exists []|].
  apply lits_ok_cons in HL. destruct HL as [L1 L2].
  destruct (IH L2 (fun q Hq => HE q (or_intror Hq))) as (qs & E & Hi & V). cbn [xor_loop]. rewrite (HE p (or_introl eq_refl)), E.
  destruct (isFalse p) eqn:F.
  - exists qs. split; [reflexivity|]. split; [intros x Hx; right; now apply Hi|]. intros I e. rewrite V, (lo_false p L1 F). change (xors (map (holds I e) (FALSE :: ps))) with (xorb false (xors (map (holds I e) ps))). symmetry. apply xorb_false_l.
  - exists (p :: qs). split; [reflexivity|]. split; [intros x [ <- | Hx ]; [now left|right; now apply Hi]|].
    intros I e. cbn. now rewrite V.
Qed.
Lemma mkXor_sound c ps : cfg_ok c -> lits_ok ps -> no_err ps -> decides (mkXor c ps) (fun I e => xors (map (holds I e) ps)).
Proof.
  intros Hc HL HE. unfold mkXor. destruct ps as [|a [|b ps]].
  - eexists. split; reflexivity.
  - eexists. split; [reflexivity|]. intros I e. cbn. now rewrite xorb_false_r.
  - set (l := a :: b :: ps) in *. destruct (xor_loop_ok l HL HE) as (qs & E & Hi & V). unfold l at 1. fold l. rewrite E.
    destruct qs as [|x [|y qs]].
    + eexists. split; [reflexivity|]. intros I e. now rewrite <- V.
    + eexists. split; [reflexivity|]. intros I e. rewrite <- V. cbn. now rewrite xorb_false_r.
    + destruct (mkOper_sound c boolS NT_XOR (x :: y :: qs) Hc) as (t & Et & Vt).
      { split; [now apply (lits_ok_incl l)|cbn [length]; lia]. }
      exists t. split; [exact Et|]. intros I e. rewrite <- V. unfold holds at 1. rewrite Vt.
      rewrite (eval_op I e NT_XOR _ _ _ (VBool (xorl (map (eval I e) (x :: y :: qs))))); try reflexivity; [|discriminate].
      cbn [truth]. rewrite xorl_xors, map_map. reflexivity.
Qed.

(** ** implies *)
Lemma impl_imps vs : impl vs = imps (map truth vs).
Proof. induction vs as [|v [|w vs] IH]; [reflexivity|reflexivity|]. cbn [impl map imps] in *. now rewrite IH. Qed.
Lemma imp_op vs : (2 <= length vs)%nat -> op_sem NT_IMPLIES vs = Some (VBool (impl vs)).
Proof. destruct vs as [|a [|b vs]]; cbn [length]; intros; try lia. reflexivity. Qed.
Lemma imps_cons b x bs : imps (b :: x :: bs) = implb b (imps (x :: bs)). Proof. reflexivity. Qed.
Lemma imps_app bs b : imps (bs ++ [b]) = implb (forallb (fun x => x) bs) b.
Proof.
  induction bs as [|x bs IH]; [reflexivity|]. cbn [app]. destruct (bs ++ [b]) as [|y m] eqn:E; [now destruct bs|].
  rewrite imps_cons, IH. cbn [forallb]. now destruct x.
Qed.
Lemma imp_loop_ok ps : lits_ok ps -> no_err ps ->
  match imp_loop ps with
  | inl t => t = TRUE /\ forall I e, forallb (holds I e) ps = false
  | inr qs => incl qs ps /\ Forall (fun q => isTrue q = false /\ isFalse q = false) qs /\ forall I e, forallb (holds I e) qs = forallb (holds I e) ps
  end.
Proof.
  induction ps as [|p ps IH]; intros HL HE; cbn [imp_loop]; [repeat split; auto; intros x Hx; exact Hx|].
  apply lits_ok_cons in HL. destruct HL as [L1 L2]. specialize (IH L2 (fun q Hq => HE q (or_intror Hq))).
  rewrite (HE p (or_introl eq_refl)). destruct (isFalse p) eqn:F.
  - split; [reflexivity|]. intros I e. now rewrite (lo_false p L1 F).
  - destruct (isTrue p) eqn:Tr.
    + destruct (imp_loop ps) as [t|qs].
      * destruct IH as [-> H]. split; [reflexivity|]. intros I e. cbn. now rewrite H, andb_false_r.
      * destruct IH as (Hi & Hf & H). split; [intros x Hx; right; now apply Hi|]. split; [exact Hf|]. intros I e. rewrite H. cbn. now rewrite (lo_true p L1 Tr).
    + destruct (imp_loop ps) as [t|qs].
      * destruct IH as [-> H]. split; [reflexivity|]. intros I e. cbn. now rewrite H, andb_false_r.
      * destruct IH as (Hi & Hf & H). split; [intros x [ <- | Hx ]; [now left|right; now apply Hi]|]. split; [now constructor|]. intros I e. cbn. now rewrite H.
Qed.
Lemma imp3 c a b r : lo r -> isTrue a = false -> isFalse a = false -> isTrue b = false -> isFalse b = false ->
  okr anyt NT_IMPLIES [a; b; r] (simp c NT_IMPLIES [a; b; r]).
Proof.
  intros Lr A1 A2 B1 B2. cbn [simp]. unfold simp3. cbn [is_eqk is_disk kin existsb eq_kinds distinct_kinds keq orb]. 
  change (is_eqk NT_IMPLIES) with false. change (is_disk NT_IMPLIES) with false. change (kin NT_IMPLIES (NT_IMPLIES :: leftfold_kinds)) with true. cbv iota.
  cbn [simp2]. rewrite A1, A2, B1, B2. cbn [andb orb bind].
  change (isTrue UNKNOWN) with false. change (isFalse UNKNOWN) with false. cbn [andb orb].
  destruct (isTrue r) eqn:R; [|apply okr_unk]. apply (lo_true r Lr) in R. subst r. apply okr_ok; [exact I|].
  intros J e. cbn [map op_sem impl]. rewrite !eval_TRUE. cbn [truth]. now rewrite !implb_true_r.
Qed.
Lemma mkImplies_sound c ps : cfg_ok c -> lits_ok ps -> no_err ps -> (2 <= length ps)%nat ->
  decides (mkImplies c ps) (fun I e => imps (map (holds I e) ps)).
Proof.
  intros Hc HL HE Hl. unfold mkImplies. destruct (Nat.ltb_spec (length ps) 2); [lia|].
  assert (Hne : ps <> []) by (intros ->; cbn in Hl; lia).
  pose proof (app_removelast_last UNKNOWN Hne) as Ep. set (qs := removelast ps) in *. set (b := last ps UNKNOWN) in *. clearbody qs b.
  assert (HL' : lits_ok qs) by (apply (lits_ok_incl ps); [rewrite Ep; intros x Hx; apply in_or_app; now left|exact HL]).
  assert (HE' : no_err qs) by (intros x Hx; apply HE; rewrite Ep; apply in_or_app; now left).
  assert (Hb : In b ps) by (rewrite Ep; apply in_or_app; right; now left).
  pose proof (imp_loop_ok qs HL' HE') as HI.
  assert (Hf : forall I e, imps (map (holds I e) ps) = implb (forallb (holds I e) qs) (holds I e b)).
  { intros I e. rewrite Ep, map_app. cbn [map]. rewrite imps_app. now rewrite forallb_map'. }
  destruct (imp_loop qs) as [t|rs].
  - destruct HI as [-> H']. eexists. split; [reflexivity|]. intros I e. now rewrite Hf, H'.
  - destruct HI as (Hi & Ht & H'). rewrite (HE b Hb). destruct rs as [|x rs].
    + eexists. split; [reflexivity|]. intros I e. rewrite Hf, <- H'. reflexivity.
    + assert (HLr : lits_ok ((x :: rs) ++ [b])).
      { apply (lits_ok_incl ps); [|exact HL]. intros y Hy. apply in_app_or in Hy. destruct Hy as [Hy|[ <- | [] ]]; [|exact Hb].
        rewrite Ep. apply in_or_app. left. now apply Hi. }
      assert (Ho : okr anyt NT_IMPLIES ((x :: rs) ++ [b]) (simp c NT_IMPLIES ((x :: rs) ++ [b]))).
      { destruct rs as [|y [|z rs]].
        - apply fold_sound; [exact Hc|]. split; [exact HLr|]. cbn; lia.
        - apply Forall_cons_iff in Ht. destruct Ht as [[T1 T2] Ht]. apply Forall_cons_iff in Ht. destruct Ht as [[T3 T4] _].
          apply imp3; auto. intros C. now apply HL.
        - apply fold_sound; [exact Hc|]. split; [exact HLr|]. rewrite app_length. cbn; lia. }
      unfold mkOper. destruct Ho as (t & -> & D). cbn [bind].
      assert (VV : forall I e, truth (match op_sem NT_IMPLIES (map (eval I e) ((x :: rs) ++ [b])) with Some v => v | None => VBool false end) =
                    imps (map (holds I e) ps)).
      { intros I e. rewrite Hf, <- H'. rewrite imp_op by (rewrite map_length, app_length; cbn; lia). cbn [truth].
        rewrite impl_imps, map_map, map_app. cbn [map]. change (truth (eval I e x) :: map (fun z => truth (eval I e z)) rs) with (map (holds I e) (x :: rs)).
        rewrite imps_app, forallb_map'. reflexivity. }
      assert (Hn : (x :: rs) ++ [b] <> []) by discriminate.
      destruct (isUnknown t) eqn:U.
      * eexists. split; [reflexivity|]. intros I e. unfold mkInternal. change (isCommutative NT_IMPLIES) with false. cbv iota. rewrite <- VV.
        unfold holds. rewrite eval_app by (assumption || reflexivity). unfold app_sem.
        destruct (op_sem NT_IMPLIES (map (eval I e) ((x :: rs) ++ [b]))) eqn:O; [reflexivity|].
        exfalso. cbn [app map op_sem] in O. destruct rs; discriminate O.
      * exists t. split; [reflexivity|]. intros I e. destruct D as [D|[_ D]]; [congruence|]. rewrite <- VV, D. reflexivity.
Qed.

(** ** ite *)
Lemma mkIte_sound c b l r : cfg_ok c -> lits_ok [b; l; r] -> no_err [b; l; r] ->
  means (mkIte c b l r) (fun I e => if holds I e b then eval I e l else eval I e r).
Proof.
  intros Hc HL HE. unfold mkIte. rewrite !HE by (cbn; tauto).
  destruct (mkOper_sound c (t_sort l) NT_ITE [b; l; r] Hc) as (t & Et & Vt); [split; [exact HL|reflexivity]|].
  exists t. split; [exact Et|]. intros I e. rewrite Vt. now rewrite (eval_op I e NT_ITE _ _ _ (if holds I e b then eval I e l else eval I e r)).
Qed.
