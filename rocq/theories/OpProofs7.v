(** Proofs about the n-ary equality, distinctness and arithmetic constructors. *)
From Coq Require Import QArith Qcanon Qround Permutation ZifyBool ZifyNat.
From Verif Require Import Base KindModel SortModel TermModel BVModel BVSpec BVProofs BVProofs2 BVProofs4 BVProofs5
  UtilModel UtilSpec UtilProofs UtilProofs2 DagProofs SortProofs Sem SemProofs ArrayModel SimpModel OpModel OpSpec
  OpProofs OpProofs2 OpProofs3 OpProofs4 OpProofs5 OpProofs6.
Open Scope Z_scope.

Lemma eq_params_id s drop ps : (forall p, In p ps -> check_sort s p = Ok true /\ drop p = false) -> eq_params s drop ps = Ok ps.
Proof.
  induction ps as [|p ps IH]; intros H; [reflexivity|]. cbn [eq_params]. destruct (H p (or_introl eq_refl)) as [-> ->]. cbn [bind].
  rewrite IH by (intros q Hq; apply H; now right). reflexivity.
Qed.
Lemma first_err_none s ps : (forall p, In p ps -> check_sort s p = Ok true /\ isErr p = false) -> first_err s ps = Ok None.
Proof.
  induction ps as [|p ps IH]; intros H; [reflexivity|]. cbn [first_err]. destruct (H p (or_introl eq_refl)) as [-> ->]. cbn [bind].
  apply IH. intros q Hq. apply H. now right.
Qed.
Lemma mkEqV_sound c ps : cfg_ok c -> lits_ok ps -> reals_exact c ps -> same_sorts ps -> (3 <= length ps)%nat ->
  (forall p, In p ps -> isTrue p = false /\ isArray p = false) ->
  decides (mkEqV c ps) (fun I e => chain veqb (map (eval I e) ps)).
Proof.
  intros Hc HL HX (s & Es & Hs) Hn HT. unfold mkEqV, mkEqV_.
  destruct (Nat.ltb_spec (length ps) 2); [lia|]. rewrite Es. cbn [bind].
  destruct ps as [|a [|b [|d ps]]]; cbn [length] in Hn; try lia. set (l := a :: b :: d :: ps) in *.
  rewrite (eq_params_id s isTrue l) by (intros p Hp; split; [now apply Hs|now apply HT]). cbn [bind].
  assert (EV : forall nm I e, holds I e (T NT_EQ boolS nm l) = chain veqb (map (eval I e) l)).
  { intros nm I e. unfold holds. now rewrite (eval_op I e NT_EQ boolS nm l (VBool (chain veqb (map (eval I e) l)))). }
  unfold l at 1. fold l. destruct (Nat.ltb 100 (length l)).
  - eexists. split; [reflexivity|]. intros. apply EV.
  - destruct (mkOper_sound c boolS NT_EQ l Hc) as (t & Et & Vt).
    { split; [exact HL|]. split; [unfold l; cbn; lia|]. split; [exact HX|]. intros p Hp. now apply HT. }
    exists t. split; [exact Et|]. intros I e. rewrite <- (EV (kindToString NT_EQ)). unfold holds. now rewrite Vt.
Qed.
Lemma mkDistinctV_sound c ps : cfg_ok c -> lits_ok ps -> reals_exact c ps -> same_sorts ps -> (2 <= length ps)%nat ->
  (forall p, In p ps -> isFalse p = false /\ isErr p = false) ->
  decides (mkDistinctV c ps) (fun I e => pairwise (fun a b => negb (veqb a b)) (map (eval I e) ps)).
Proof.
  intros Hc HL HX (s & Es & Hs) Hn HT. unfold mkDistinctV.
  destruct (Nat.ltb_spec (length ps) 2); [lia|]. rewrite Es. cbn [bind].
  rewrite first_err_none by (intros p Hp; split; [now apply Hs|now apply HT]). cbn [bind].
  rewrite eq_params_id by (intros p Hp; split; [now apply Hs|now apply HT]). cbn [bind].
  destruct ps as [|a [|b ps]]; cbn [length] in Hn; try lia. set (l := a :: b :: ps) in *.
  assert (EV : forall nm I e, holds I e (T NT_DISTINCT boolS nm l) = pairwise (fun a b => negb (veqb a b)) (map (eval I e) l)).
  { intros nm I e. unfold holds. now rewrite (eval_op I e NT_DISTINCT boolS nm l (VBool (pairwise (fun a b => negb (veqb a b)) (map (eval I e) l)))). }
  unfold l at 1. fold l. destruct (Nat.ltb 100 (length l)).
  - eexists. split; [reflexivity|]. intros. apply EV.
  - destruct (mkOper_sound c boolS NT_DISTINCT l Hc) as (t & Et & Vt).
    { split; [exact HL|]. split; [unfold l; cbn; lia|exact HX]. }
    exists t. split; [exact Et|]. intros I e. rewrite <- (EV (kindToString NT_DISTINCT)). unfold holds. now rewrite Vt.
Qed.

(** ** arithmetic *)
Lemma num_args_cons p ps : num_args (p :: ps) <-> li p /\ numS p = true /\ isErr p = false /\ num_args ps.
Proof.
  unfold num_args, li. rewrite lits_ok_cons. unfold no_real. split.
  - intros ([H1 H2] & H3 & H4). destruct (H4 p (or_introl eq_refl)) as [H5 H6].
    split; [split; [exact H1|apply H3; now left]|]. split; [exact H5|]. split; [exact H6|].
    split; [exact H2|]. split; [intros q Hq; apply H3; now right|intros q Hq; apply H4; now right].
  - intros ([H1 H2] & H3 & H4 & H5 & H6 & H7). split; [split; assumption|].
    split; [intros q [ <- | Hq ]; [exact H2|now apply H6]|intros q [ <- | Hq ]; [auto|now apply H7]].
Qed.
Lemma num_args_incl ps qs : incl qs ps -> num_args ps -> num_args qs.
Proof. intros Hi (A & B & C). split; [now apply (lits_ok_incl ps)|]. split; [intros q Hq; apply B; now apply Hi|intros q Hq; apply C; now apply Hi]. Qed.
Lemma num_sorts ps : num_args ps -> ps <> [] -> exists s, getSort ps = Ok (Some s) /\ (s = intS \/ s = realS).
Proof.
  intros (A & B & C) Hn. destruct ps as [|p ps]; [congruence|]. unfold getSort. rewrite (proj1 (C p (or_introl eq_refl))).
  eexists. split; [reflexivity|]. destruct (existsb _ _); auto.
Qed.
Lemma num_check p s : numS p = true -> s = intS \/ s = realS -> check_sort (Some s) p = Ok true.
Proof. intros H K. cbn. now apply num_compat. Qed.
Lemma sumq_cons v vs : sumq (v :: vs) = (num v + sumq vs)%Qc. Proof. reflexivity. Qed.
Lemma prodq_cons v vs : prodq (v :: vs) = (num v * prodq vs)%Qc. Proof. reflexivity. Qed.
Lemma add_loop_ok c s ps : cfg_ok c -> s = intS \/ s = realS -> num_args ps ->
  exists qs, add_loop c (Some s) ps = Ok (inr qs) /\ incl qs ps /\ forall I e, sumq (map (eval I e) qs) = sumq (map (eval I e) ps).
Proof.
  intros Hc Hs. induction ps as [|p ps IH]; intros H; [exists []; split; [reflexivity|]; split; [intros x Hx; exact Hx|reflexivity]|].
  apply num_args_cons in H. destruct H as (H1 & H2 & H3 & H4). destruct (IH H4) as (qs & E & Hi & V).
  cbn [add_loop]. rewrite H3, (num_check p s H2 Hs). cbn [bind negb].
  destruct (isZero_li c p Hc H1) as (z & Ez & Hz). rewrite Ez, E. cbn [bind]. eexists. split; [reflexivity|].
  destruct z.
  - split; [intros x Hx; right; now apply Hi|]. intros I e. cbn [map]. rewrite sumq_cons, V. destruct (Hz eq_refl) as (s0 & H0 & ->). rewrite num_ZQ by auto. change (ZQ 0) with (Q2Qc 0). ring.
  - split; [intros x [ <- | Hx ]; [now left|right; now apply Hi]|]. intros I e. cbn [map]. now rewrite !sumq_cons, V.
Qed.

Lemma num_real0 I e : num (eval I e real0) = Q2Qc 0.
Proof.
  unfold real0, mkConstReal. rewrite (eval_real I e (L "0.000000") (ZQ 0 + ZQ 0 / ZQ (10 ^ 6))%Qc) by reflexivity.
  cbn [num]. apply Qc_is_canon. reflexivity.
Qed.
Lemma num_real1 I e : num (eval I e real1) = Q2Qc 1.
Proof.
  unfold real1, mkConstReal. rewrite (eval_real I e (L "1.000000") (ZQ 1 + ZQ 0 / ZQ (10 ^ 6))%Qc) by reflexivity.
  cbn [num]. apply Qc_is_canon. reflexivity.
Qed.
Lemma num_const I e z : num (eval I e (mkConstInt z)) = ZQ z.
Proof. rewrite mkConstInt_ic. apply num_ZQ. auto. Qed.
Lemma add_node I e s n ps : ps <> [] -> num (eval I e (T NT_ADD s n ps)) = sumq (map (eval I e) ps).
Proof. intros H. rewrite (eval_op I e NT_ADD s n ps (VNum (sumq (map (eval I e) ps)))); [reflexivity|exact H|reflexivity|]. destruct ps; [congruence|reflexivity]. Qed.
Lemma mul_node I e s n ps : ps <> [] -> num (eval I e (T NT_MUL s n ps)) = prodq (map (eval I e) ps).
Proof. intros H. rewrite (eval_op I e NT_MUL s n ps (VNum (prodq (map (eval I e) ps)))); [reflexivity|exact H|reflexivity|]. destruct ps; [congruence|reflexivity]. Qed.
Lemma mkAdd_sound c ps : cfg_ok c -> c_int c || c_real c = true -> ps <> [] -> num_args ps ->
  nmeans (mkAdd c ps) (fun I e => sumq (map (eval I e) ps)).
Proof.
  intros Hc HT Hn HA. unfold mkAdd. destruct ps as [|a [|b ps]]; [congruence| |].
  - eexists. split; [reflexivity|]. intros I e. cbn. ring.
  - set (l := a :: b :: ps) in *. destruct (num_sorts l HA Hn) as (s & Es & Hs). unfold l at 1. fold l. rewrite Es. cbn [bind].
    destruct (add_loop_ok c s l Hc Hs HA) as (qs & E & Hi & V). rewrite E. cbn [bind].
    destruct qs as [|x [|y qs]].
    + destruct (c_real c); [|destruct (c_int c); [|discriminate HT]]; (eexists; split; [reflexivity|]); intros I e; rewrite <- V; first [apply num_real0|apply num_const].
    + eexists. split; [reflexivity|]. intros I e. rewrite <- V. cbn. ring.
    + cbn [theory_sort bind]. destruct (mkOper_sound c s NT_ADD (x :: y :: qs) Hc) as (t & Et & Vt).
      { destruct (num_args_incl l _ Hi HA) as (A & B & _). split; [exact A|]. split; [cbn; lia|exact B]. }
      exists t. split; [exact Et|]. intros I e. rewrite Vt, <- V. apply add_node. discriminate.
Qed.
Lemma mul_loop_ok c s ps : cfg_ok c -> c_int c || c_real c = true -> s = intS \/ s = realS -> num_args ps ->
  match mul_loop c (Some s) ps with
  | Ok (inl t) => (forall I e, num (eval I e t) = Q2Qc 0) /\ forall I e, prodq (map (eval I e) ps) = Q2Qc 0
  | Ok (inr qs) => incl qs ps /\ forall I e, prodq (map (eval I e) qs) = prodq (map (eval I e) ps)
  | _ => False
  end.
Proof.
  intros Hc HT Hs. induction ps as [|p ps IH]; intros H; [split; [intros x Hx; exact Hx|reflexivity]|].
  apply num_args_cons in H. destruct H as (H1 & H2 & H3 & H4). specialize (IH H4).
  cbn [mul_loop]. rewrite H3, (num_check p s H2 Hs). cbn [bind negb].
  destruct (isZero_li c p Hc H1) as (z & Ez & Hz). rewrite Ez. cbn [bind]. destruct z.
  - destruct (Hz eq_refl) as (s0 & H0 & ->).
    assert (P : forall I e, prodq (map (eval I e) (ic s0 0 :: ps)) = Q2Qc 0).
    { intros I e. cbn [map]. rewrite prodq_cons, num_ZQ by auto. change (ZQ 0) with (Q2Qc 0). ring. }
    destruct (c_int c); [|destruct (c_real c); [|discriminate HT]]; (split; [|exact P]); intros; first [apply num_const|apply num_real0].
  - destruct (isOne_li c p Hc H1) as (u & -> & Hu). cbn [bind].
    destruct (mul_loop c (Some s) ps) as [[t|qs]|?| | | |]; try contradiction; cbn [bind].
    + destruct IH as [Z P]. split; [exact Z|]. intros I e. cbn [map]. rewrite prodq_cons, P. ring.
    + destruct IH as [Hi V]. destruct u.
      * split; [intros x Hx; right; now apply Hi|]. intros I e. cbn [map]. rewrite prodq_cons, V.
        destruct (Hu eq_refl) as (s0 & H0 & ->). rewrite num_ZQ by auto. change (ZQ 1) with (Q2Qc 1). ring.
      * split; [intros x [ <- | Hx ]; [now left|right; now apply Hi]|]. intros I e. cbn [map]. now rewrite !prodq_cons, V.
Qed.
Lemma mkMul_sound c ps : cfg_ok c -> c_int c || c_real c = true -> ps <> [] -> num_args ps ->
  nmeans (mkMul c ps) (fun I e => prodq (map (eval I e) ps)).
Proof.
  intros Hc HT Hn HA. unfold mkMul. destruct ps as [|a [|b ps]]; [congruence| |].
  - eexists. split; [reflexivity|]. intros I e. cbn. ring.
  - set (l := a :: b :: ps) in *. destruct (num_sorts l HA Hn) as (s & Es & Hs). unfold l at 1. fold l.
    replace (Nat.leb 2 (length l)) with true by (unfold l; cbn [length]; symmetry; apply Nat.leb_le; lia).
    assert (CA : condAssert (c_dbg c) true = Ok tt) by (unfold condAssert; destruct (c_dbg c); reflexivity). rewrite CA, Es. cbn [bind].
    pose proof (mul_loop_ok c s l Hc HT Hs HA) as HM. destruct (mul_loop c (Some s) l) as [[t|qs]|?| | | |]; try contradiction; cbn [bind].
    + destruct HM as [Z P]. exists t. split; [reflexivity|]. intros I e. now rewrite Z, P.
    + destruct HM as [Hi V].
      assert (GEN : forall x y q, qs = x :: y :: q -> nmeans (mkOper c s NT_MUL qs) (fun I e => prodq (map (eval I e) l))).
      { intros x y q ->. destruct (mkOper_sound c s NT_MUL (x :: y :: q) Hc) as (t & Et & Vt).
        { destruct (num_args_incl l _ Hi HA) as (A & B & _). split; [exact A|]. split; [cbn; lia|exact B]. }
        exists t. split; [exact Et|]. intros I e. rewrite Vt, <- V. apply mul_node. discriminate. }
      destruct qs as [|x [|y [|z qs]]].
      * destruct (c_int c); [|destruct (c_real c); [|discriminate HT]]; (eexists; split; [reflexivity|]); intros I e; rewrite <- V; first [apply num_const|apply num_real1].
      * eexists. split; [reflexivity|]. intros I e. rewrite <- V. cbn. ring.
      * cbn [theory_sort bind]. pose proof (num_args_incl l _ Hi HA) as HQ. apply num_args_cons in HQ. destruct HQ as (Lx & _ & _ & HQ).
        apply num_args_cons in HQ. destruct HQ as (Ly & _ & _ & _).
        destruct (isCInt x && isCInt y) eqn:CI.
        -- apply andb_true_iff in CI. destruct CI as [Cx Cy].
           destruct (li_int x Lx Cx) as (s1 & z1 & Hs1 & ->). destruct (li_int y Ly Cy) as (s2 & z2 & Hs2 & ->).
           rewrite !toInt_ic by assumption. cbn [bind]. eexists. split; [reflexivity|]. intros I e. rewrite <- V, num_const.
           cbn [map]. rewrite !prodq_cons, !num_ZQ by auto. cbn [prodq fold_right]. rewrite <- ZQ_mul. ring.
        -- assert (R : isCReal x && isCReal y = false).
           { destruct (isCReal x) eqn:B; [|reflexivity]. destruct (isCReal y) eqn:D; [|reflexivity].
             rewrite (li_real_int x Lx B), (li_real_int y Ly D) in CI. discriminate. }
           rewrite R. apply (GEN x y []). reflexivity.
      * cbn [theory_sort bind]. apply (GEN x y (z :: qs)). reflexivity.
Qed.
Lemma sub_check_ok s ps : s = intS \/ s = realS -> num_args ps -> sub_check (Some s) ps = Ok None.
Proof.
  intros Hs. induction ps as [|p ps IH]; intros H; [reflexivity|]. apply num_args_cons in H. destruct H as (H1 & H2 & H3 & H4).
  cbn [sub_check]. rewrite H3, (num_check p s H2 Hs). cbn [bind]. now apply IH.
Qed.
Lemma mkSub_sound c p ps : cfg_ok c -> num_args (p :: ps) -> Forall numeric (p :: ps) ->
  nmeans (mkSub c (p :: ps)) (fun I e => match ps with [] => (- num (eval I e p))%Qc | _ => subq (eval I e p) (map (eval I e) ps) end).
Proof.
  intros Hc HA HN. unfold mkSub. destruct ps as [|q ps].
  - apply num_args_cons in HA. destruct HA as (H1 & _). destruct (neg_ok c p H1) as (t & E & _ & _ & V). exists t. split; [exact E|].
    intros I e. now rewrite V.
  - destruct (num_sorts (p :: q :: ps) HA ltac:(discriminate)) as (s & Es & Hs). rewrite Es. cbn [bind].
    rewrite (sub_check_ok s) by assumption. cbn [bind theory_sort].
    assert (GEN : nmeans (mkOper c s NT_SUB (p :: q :: ps)) (fun I e => subq (eval I e p) (map (eval I e) (q :: ps)))).
    { destruct (mkOper_sound c s NT_SUB (p :: q :: ps) Hc) as (t & Et & Vt).
      { destruct HA as (A & B & _). split; [exact A|]. split; [cbn; lia|]. split; [exact B|exact HN]. }
      exists t. split; [exact Et|]. intros I e. rewrite Vt.
      now rewrite (eval_op I e NT_SUB _ _ _ (VNum (subq (eval I e p) (map (eval I e) (q :: ps))))). }
    destruct ps as [|r ps]; [|exact GEN].
    apply num_args_cons in HA. destruct HA as (Lp & Np & _ & HA). apply num_args_cons in HA. destruct HA as (Lq & _ & _ & _).
    assert (S2 : forall I e, subq (eval I e p) (map (eval I e) [q]) = (num (eval I e p) - num (eval I e q))%Qc) by reflexivity.
    destruct ((s_is SK_INT s || s_is SK_INTOREAL s) && isCInt p && isCInt q) eqn:CI.
    { apply andb_true_iff in CI. destruct CI as [CI Cq]. apply andb_true_iff in CI. destruct CI as [_ Cp].
      destruct (li_int p Lp Cp) as (s1 & z1 & Hs1 & ->). destruct (li_int q Lq Cq) as (s2 & z2 & Hs2 & ->).
      rewrite !toInt_ic by assumption. cbn [bind]. eexists. split; [reflexivity|]. intros I e.
      rewrite S2, num_const, !num_ZQ by auto. now rewrite ZQ_sub. }
    destruct (s_is SK_REAL s && isCReal p && isCReal q) eqn:CR.
    { (* no Real literal among the arguments, so the sort Real comes from a non-literal *)
      apply andb_true_iff in CR. destruct CR as [CR Cq]. apply andb_true_iff in CR. destruct CR as [Sr Cp].
      exfalso. unfold getSort in Es. rewrite Np in Es.
      injection Es as Es. cbn [existsb] in Es.
      assert (P0 : sis SK_REAL p = false) by (apply Lp; unfold isCReal in Cp; now destruct (isConst p)).
      assert (Q0 : sis SK_REAL q = false) by (apply Lq; unfold isCReal in Cq; now destruct (isConst q)).
      rewrite P0, Q0 in Es. cbn in Es. subst s. discriminate Sr. }
    destruct (isZero_li c p Hc Lp) as (zp & -> & Zp). cbn [bind]. destruct zp.
    { destruct (Zp eq_refl) as (s0 & H0 & ->). destruct (neg_ok c q Lq) as (t & E & _ & _ & V). exists t. split; [exact E|].
      intros I e. rewrite V, S2, num_ZQ by auto. cbn [num]. change (ZQ 0) with (Q2Qc 0). ring. }
    destruct (isZero_li c q Hc Lq) as (zq & -> & Zq). cbn [bind]. destruct zq; [|exact GEN].
    destruct (Zq eq_refl) as (s0 & H0 & ->). eexists. split; [reflexivity|]. intros I e. rewrite S2, num_ZQ by auto. change (ZQ 0) with (Q2Qc 0). ring.
Qed.

(** ** chains of comparisons *)
Lemma mkCmp_shape c k l r t : In k arith_comp_kinds -> lo l -> lo r -> reals_exact c [l; r] -> mkCmp c k l r = Ok t ->
  isBoolParam t = true /\ isErr t = false /\ lo t.
Proof.
  intros Hk Hl Hr X H.
  assert (M : mkOper c boolS k [l; r] = Ok t -> isBoolParam t = true /\ isErr t = false /\ lo t).
  { unfold mkOper. cbn [simp]. destruct (cmp_ok c k l r Hk Hl Hr X) as (o & -> & _). cbn [bind]. rewrite ob_unk. intros E. injection E as <-.
    destruct o as [[|]|]; cbn [ob]; [split; [reflexivity|split; [reflexivity|apply lo_TRUE]]|split; [reflexivity|split; [reflexivity|apply lo_FALSE]]|].
    repeat (destruct Hk as [ <- | Hk ]); try contradiction; repeat split; intros C; discriminate C. }
  unfold mkCmp in H. destruct (sort_eq (t_sort l) (t_sort r)) as [[|]|?| | | |]; cbn [bind] in H; try discriminate H.
  - destruct (teq l r); [|now apply M]. injection H as <-. destruct (refl_val k); [split; [reflexivity|split; [reflexivity|apply lo_TRUE]]|split; [reflexivity|split; [reflexivity|apply lo_FALSE]]].
  - destruct (canExempt _ _); [now apply M|discriminate H].
Qed.
Lemma cmp_pairs_ok c k s ps : cfg_ok c -> In k arith_comp_kinds -> s = intS \/ s = realS ->
  lits_ok ps -> (forall p, In p ps -> numS p = true /\ isErr p = false) -> neighbours c ps ->
  exists qs, cmp_pairs c k (Some s) ps = Ok (inr qs) /\ bool_args qs /\
    forall I e, forallb (holds I e) qs = chain (cmpr k) (map (eval I e) ps).
Proof.
  intros Hc Hk Hs. induction ps as [|a [|b ps] IH]; intros HL HA HN.
  - exists []. split; [reflexivity|]. split; [split; [intros ? []|intros ? []]|reflexivity].
  - exists []. split; [reflexivity|]. split; [split; [intros ? []|intros ? []]|reflexivity].
  - apply lits_ok_cons in HL. destruct HL as [La HL]. destruct HN as [Hab HN].
    assert (Lb : lo b) by (apply lits_ok_cons in HL; tauto).
    destruct (IH HL (fun p Hp => HA p (or_intror Hp)) HN) as (qs & E & HB & V).
    destruct (HA a (or_introl eq_refl)) as [Na Ea].
    change (cmp_pairs c k (Some s) (a :: b :: ps)) with
      (if isErr a then Ok (inl a) else ok <- check_sort (Some s) a ;;
        if negb ok then Exit else t <- mkCmp c k a b ;;
          if isErr t then Ok (inl t) else o <- cmp_pairs c k (Some s) (b :: ps) ;;
               Ok (match o with inl x => inl x | inr qs => inr (t :: qs) end)).
    rewrite Ea, (num_check a s Na Hs). cbn [bind negb].
    destruct (mkCmp_sound c k a b Hc Hk La Lb Hab) as (t & Et & Vt). rewrite Et. cbn [bind].
    destruct (mkCmp_shape c k a b t Hk La Lb (proj2 Hab) Et) as (S1 & S2 & S3). rewrite S2, E. cbn [bind].
    exists (t :: qs). split; [reflexivity|]. split.
    + destruct HB as [B1 B2]. split; [apply lits_ok_cons; auto|]. intros p [ <- | Hp ]; auto.
    + intros I e. cbn [forallb map]. rewrite V, Vt. reflexivity.
Qed.
Lemma mkCmpV_sound c k ps : cfg_ok c -> In k arith_comp_kinds -> (2 <= length ps)%nat -> lits_ok ps ->
  (forall p, In p ps -> numS p = true /\ isErr p = false) -> neighbours c ps ->
  decides (mkCmpV c k ps) (fun I e => chain (cmpr k) (map (eval I e) ps)).
Proof.
  intros Hc Hk Hn HL HA HN. unfold mkCmpV. destruct (Nat.ltb_spec (length ps) 2); [lia|].
  assert (G : exists s, getSort ps = Ok (Some s) /\ (s = intS \/ s = realS)).
  { destruct ps as [|p ps]; [cbn in Hn; lia|]. unfold getSort. rewrite (proj1 (HA p (or_introl eq_refl))).
    eexists. split; [reflexivity|]. destruct (existsb _ _); auto. }
  destruct G as (s & Es & Hs). rewrite Es. cbn [bind].
  destruct ps as [|a [|b [|d ps]]]; cbn [length] in Hn; try lia.
  - apply lits_ok_cons in HL. destruct HL as [La HL]. apply lits_ok_cons in HL. destruct HL as [Lb _].
    eapply decides_ext; [|apply mkCmp_sound; auto; apply HN]. intros I e. cbn. now rewrite andb_true_r.
  - destruct (cmp_pairs_ok c k s _ Hc Hk Hs HL HA HN) as (qs & E & HB & V). rewrite E. cbn [bind].
    eapply decides_ext; [|apply mkAnd_sound; assumption]. intros I e. cbn beta. apply V.
Qed.

(** ** flipComp *)
Lemma flip_meaning c k s n l r : cfg_ok c -> In k arith_comp_kinds -> lits_ok [l; r] -> reals_exact c [l; r] ->
  decides (flipComp c (T k s n [l; r])) (fun I e => cmpr k (eval I e r) (eval I e l)).
Proof.
  intros Hc Hk HL HX. unfold flipComp.
  assert (F : isErr (T k s n [l; r]) = false /\ isEq (T k s n [l; r]) || isDistinct (T k s n [l; r]) = false /\ isArithComp (T k s n [l; r]) = Ok true).
  { repeat (destruct Hk as [ <- | Hk ]); try contradiction; repeat split; reflexivity. }
  destruct F as (-> & -> & ->). cbn [bind orb child01 t_ch fst snd t_kind].
  destruct (mkOper_sound c boolS k [r; l] Hc) as (t & Et & Vt).
  { assert (I2 : incl [r; l] [l; r]) by (intros x [ <- | [ <- | [] ]]; cbn; tauto).
    split; [now apply (lits_ok_incl [l; r])|]. repeat (destruct Hk as [ <- | Hk ]); try contradiction; (split; [reflexivity|]); now apply (reals_exact_incl c [l; r]). }
  exists t. split; [exact Et|]. intros I e. unfold holds. rewrite Vt.
  rewrite (eval2 I e k _ _ r l (VBool (cmpr k (eval I e r) (eval I e l)))); [reflexivity| |];
    repeat (destruct Hk as [ <- | Hk ]); try contradiction; try reflexivity; apply cmpop2.
Qed.
