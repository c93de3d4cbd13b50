(** Proofs about constant folding: one and two arguments. *)
From Coq Require Import QArith Qcanon Qround Permutation ZifyBool ZifyNat.
From Verif Require Import Base KindModel SortModel TermModel BVModel BVSpec BVProofs BVProofs2 BVProofs4 BVProofs5
  UtilModel UtilSpec UtilProofs UtilProofs2 DagProofs SortProofs Sem SemProofs SimpModel OpModel OpSpec OpProofs.
Open Scope Z_scope.

(** [r] is a correct folding of [k] on [ps], or no folding; constants satisfy [P]. *)
Definition okr (P : term -> Prop) (k : kind) (ps : list term) (r : res term) : Prop :=
  exists t, r = Ok t /\ (isUnknown t = true \/
    (P t /\ forall I e, op_sem k (map (eval I e) ps) = Some (eval I e t))).
Lemma okr_unk (P : term -> Prop) k ps : okr P k ps unk.
Proof. exists UNKNOWN. split; [reflexivity|now left]. Qed.
Lemma okr_ok (P : term -> Prop) k ps t : P t -> (forall I e, op_sem k (map (eval I e) ps) = Some (eval I e t)) -> okr P k ps (Ok t).
Proof. intros. exists t. auto. Qed.
Lemma okr_mono (P R : term -> Prop) k ps r : (forall t, P t -> R t) -> okr P k ps r -> okr R k ps r.
Proof. intros H (t & E & [U|[Hp Hv]]); exists t; split; auto. Qed.

Lemma lo_TRUE : lo TRUE. Proof. intros _. constructor. Qed.
Lemma lo_FALSE : lo FALSE. Proof. intros _. constructor. Qed.
Lemma lo_mkB (b : bool) : lo (if b then TRUE else FALSE).
Proof. destruct b; [apply lo_TRUE|apply lo_FALSE]. Qed.
Lemma lo_ic s z : s = intS \/ s = intorealS -> lo (ic s z).
Proof. intros H _. now constructor. Qed.
Lemma lo_bc w v : (0 < w)%nat -> fits w -> lo (bc w v).
Proof. intros H F _. now constructor. Qed.
Lemma lo_sc s : Forall plainC s -> lo (sc s).
Proof. intros H _. now constructor. Qed.

(** literals that are not decimals *)
Definition li (p : term) : Prop := lo p /\ (isConst p = true -> sis SK_REAL p = false).
Lemma li_ic s z : s = intS \/ s = intorealS -> li (ic s z).
Proof. intros H. split; [now apply lo_ic|]. intros _. destruct H as [ -> | -> ]; reflexivity. Qed.
Lemma li_real_int p : li p -> isCReal p = true -> isCInt p = true.
Proof.
  intros [_ H]. unfold isCReal, isCInt. rewrite !andb_true_iff, !orb_true_iff.
  intros [C [R|R]]; [rewrite (H C) in R; discriminate|auto].
Qed.
Lemma li_int p : li p -> isCInt p = true -> exists s z, (s = intS \/ s = intorealS) /\ p = ic s z.
Proof. intros [H _]. now apply lo_int. Qed.
Lemma num_ZQ I e s z : s = intS \/ s = intorealS -> num (eval I e (ic s z)) = ZQ z.
Proof. intros H. now rewrite eval_ic. Qed.

Lemma isZero_li c p : cfg_ok c -> li p ->
  exists b, isZero c p = Ok b /\ (b = true -> exists s, (s = intS \/ s = intorealS) /\ p = ic s 0).
Proof.
  intros Hc Hp. unfold isZero. destruct (isCRoot p); [exists false; split; [reflexivity|discriminate]|].
  destruct (isCReal p) eqn:R.
  - destruct (li_int p Hp (li_real_int p Hp R)) as (s & z & Hs & ->).
    exists (Qeq_bool (c_rv c (ic s z)) 0). split; [reflexivity|]. intros E. apply Qeq_bool_iff in E.
    apply (ok_zero c Hc) in E. subst. exists s. auto.
  - destruct (isCInt p) eqn:C; [|exists false; split; [reflexivity|discriminate]].
    destruct (li_int p Hp C) as (s & z & Hs & ->). rewrite toInt_ic by assumption. cbn [bind].
    exists (z =? 0). split; [reflexivity|]. intros E. exists s. split; [assumption|]. f_equal. lia.
Qed.
Lemma isOne_li c p : cfg_ok c -> li p ->
  exists b, isOne c p = Ok b /\ (b = true -> exists s, (s = intS \/ s = intorealS) /\ p = ic s 1).
Proof.
  intros Hc Hp. unfold isOne.
  destruct (isCReal p) eqn:R.
  - destruct (li_int p Hp (li_real_int p Hp R)) as (s & z & Hs & ->).
    exists (Qeq_bool (c_rv c (ic s z)) 1). split; [reflexivity|]. intros E. apply Qeq_bool_iff in E.
    apply (ok_one c Hc) in E. subst. exists s. auto.
  - destruct (isCInt p) eqn:C; [|exists false; split; [reflexivity|discriminate]].
    destruct (li_int p Hp C) as (s & z & Hs & ->). rewrite toInt_ic by assumption. cbn [bind].
    exists (z =? 1). split; [reflexivity|]. intros E. exists s. split; [assumption|]. f_equal. lia.
Qed.
Lemma isCRoot_ic s z : isCRoot (ic s z) = false. Proof. reflexivity. Qed.

(** ** Boolean operators *)
Definition bool2 (k : kind) : Prop := In k [NT_AND; NT_OR; NT_XOR; NT_IMPLIES].
Lemma tri p : lo p -> p = TRUE \/ p = FALSE \/ (isTrue p = false /\ isFalse p = false).
Proof.
  intros H. destruct (isTrue p) eqn:A; [left; now apply lo_true|].
  destruct (isFalse p) eqn:B; [right; left; now apply lo_false|auto].
Qed.
Lemma bool_ok c k l r : bool2 k -> lo l -> lo r -> okr lo k [l; r] (simp2 c k l r).
Proof.
  intros Hk Hl Hr.
  assert (HT : forall b (C : forall I e, op_sem k [eval I e l; eval I e r] = Some (VBool b)),
    okr lo k [l; r] (Ok (if b then TRUE else FALSE))).
  { intros b C. apply okr_ok; [apply lo_mkB|]. intros I e. cbn [map]. rewrite C, eval_mkB. reflexivity. }
  destruct (tri l Hl) as [ -> | [ -> | [Tl Fl]]]; destruct (tri r Hr) as [ -> | [ -> | [Tr Fr]]];
  destruct Hk as [ <- | [ <- | [ <- | [ <- | [] ]]]];
  cbn [simp2 isTrue isFalse isk TRUE FALSE t_kind keq sis s_is t_sort boolS s_kind skeq andb orb];
  rewrite ?Tl, ?Fl, ?Tr, ?Fr; cbn [andb orb];
  try apply okr_unk;
  try (apply (HT true); intros I e; rewrite ?eval_TRUE, ?eval_FALSE; cbn; rewrite ?andb_true_r, ?orb_true_r, ?implb_true_r; reflexivity);
  try (apply (HT false); intros I e; rewrite ?eval_TRUE, ?eval_FALSE; cbn; rewrite ?andb_false_r, ?orb_false_r; reflexivity).
Qed.

(** ** integers *)
Lemma mkConstInt_ic z : mkConstInt z = ic intorealS z. Proof. reflexivity. Qed.
Lemma arith_ok c k l r : In k [NT_ADD; NT_MUL; NT_IAND] -> li l -> li r -> okr li k [l; r] (simp2 c k l r).
Proof.
  intros Hk Hl Hr.
  destruct (isCInt l && isCInt r) eqn:C.
  - apply andb_true_iff in C. destruct C as [Cl Cr].
    destruct (li_int l Hl Cl) as (s & a & Hs & ->). destruct (li_int r Hr Cr) as (s' & b & Hs' & ->).
    assert (E : simp2 c k (ic s a) (ic s' b) =
      Ok (mkConstInt (match k with NT_ADD => a + b | NT_MUL => a * b | _ => Z.land a b end))).
    { destruct Hk as [ <- | [ <- | [ <- | [] ]]]; cbn [simp2]; unfold arithOk; rewrite ?isCRoot_ic; cbn [negb andb];
      rewrite Cl, Cr; cbn [andb]; rewrite !toInt_ic by assumption; reflexivity. }
    rewrite E. apply okr_ok; [apply li_ic; auto|]. intros I e. cbn [map].
    rewrite mkConstInt_ic, !eval_ic by auto.
    destruct Hk as [ <- | [ <- | [ <- | [] ]]]; cbn [op_sem sumq prodq fold_right fold_left num].
    + do 2 f_equal. rewrite <- ZQ_add. ring.
    + do 2 f_equal. rewrite <- ZQ_mul. ring.
    + rewrite !qfloor_ZQ. reflexivity.
  - assert (R : isCReal l && isCReal r = false).
    { destruct (isCReal l) eqn:A; [|reflexivity]. destruct (isCReal r) eqn:B; [|reflexivity].
      rewrite (li_real_int l Hl A), (li_real_int r Hr B) in C. discriminate. }
    assert (E : simp2 c k l r = unk).
    { destruct Hk as [ <- | [ <- | [ <- | [] ]]]; cbn [simp2]; rewrite C, ?R; destruct (arithOk l r); reflexivity. }
    rewrite E. apply okr_unk.
Qed.
Lemma neg_ok c p : li p -> exists t, mkNeg c p = Ok t /\ li t /\ numeric t /\
  forall I e, eval I e t = VNum (- num (eval I e p))%Qc.
Proof.
  intros Hp. unfold mkNeg, simp1. cbn [kin existsb float1_kinds nary1_kinds keq orb].
  destruct (isCInt p) eqn:C.
  - destruct (li_int p Hp C) as (s & z & Hs & ->). rewrite toInt_ic by assumption. cbn [bind].
    exists (mkConstInt (- z)). split; [reflexivity|]. rewrite mkConstInt_ic.
    split; [apply li_ic; auto|]. split; [intros I e; rewrite eval_ic by auto; eauto|].
    intros I e. rewrite !eval_ic by auto. cbn [num]. now rewrite ZQ_opp.
  - destruct (isCReal p) eqn:R; [rewrite (li_real_int p Hp R) in C; discriminate|]. cbn [bind unk].
    change (isUnknown UNKNOWN) with true. cbv iota.
    assert (V : forall I e, eval I e (T NT_NEG (t_sort p) (kindToString NT_NEG) [p]) = VNum (- num (eval I e p))%Qc).
    { intros I e. apply eval_op; [discriminate|reflexivity|reflexivity]. }
    eexists. split; [reflexivity|]. split; [split; intros K; discriminate K|].
    split; [|exact V]. intros I e. rewrite V. eauto.
Qed.
Lemma sub_ok c l r : cfg_ok c -> li l -> li r -> numeric l ->
  okr (fun t => li t /\ numeric t) NT_SUB [l; r] (simp2 c NT_SUB l r).
Proof.
  intros Hc Hl Hr Nl. cbn [simp2]. destruct (arithOk l r) eqn:A; cbn [negb]; [|apply okr_unk].
  destruct (isCInt l && isCInt r) eqn:C.
  - apply andb_true_iff in C. destruct C as [Cl Cr].
    destruct (li_int l Hl Cl) as (s & a & Hs & ->). destruct (li_int r Hr Cr) as (s' & b & Hs' & ->).
    rewrite !toInt_ic by assumption. cbn [bind]. rewrite mkConstInt_ic.
    apply okr_ok.
    + split; [apply li_ic; auto|]. intros I e. rewrite eval_ic by auto. eauto.
    + intros I e. cbn [map]. rewrite !eval_ic by auto. cbn. unfold subq. cbn [fold_left num].
      now rewrite ZQ_sub.
  - assert (R : isCReal l && isCReal r = false).
    { destruct (isCReal l) eqn:B; [|reflexivity]. destruct (isCReal r) eqn:D; [|reflexivity].
      rewrite (li_real_int l Hl B), (li_real_int r Hr D) in C. discriminate. }
    rewrite R. destruct (isZero_li c l Hc Hl) as (zl & -> & Zl). cbn [bind]. destruct zl.
    + destruct (Zl eq_refl) as (s & Hs & ->). destruct (neg_ok c r Hr) as (t & -> & Ht & Nt & V).
      apply okr_ok; [auto|]. intros I e. rewrite V. cbn [map]. rewrite eval_ic by auto. cbn.
      unfold subq. cbn [fold_left num]. do 2 f_equal. change (ZQ 0) with (Q2Qc 0). ring.
    + destruct (isZero_li c r Hc Hr) as (zr & -> & Zr). cbn [bind]. destruct zr; [|apply okr_unk].
      destruct (Zr eq_refl) as (s & Hs & ->). apply okr_ok; [auto|].
      intros I e. cbn [map]. rewrite (eval_ic I e s 0) by auto. destruct (Nl I e) as (q & ->). cbn.
      unfold subq. cbn [fold_left num]. do 2 f_equal. change (ZQ 0) with (Q2Qc 0). ring.
Qed.
Lemma getSort_num l r : numS l = true -> no_real [l; r] -> isConst l = true -> isConst r = true ->
  exists s, getSort [l; r] = Ok (Some s) /\ s = intS.
Proof.
  intros H N Cl Cr. unfold getSort. rewrite H. cbn [existsb].
  rewrite (N l), (N r) by (cbn; auto). cbn [orb]. eauto.
Qed.
Lemma minmax_ok c k l r : In k [NT_MAX; NT_MIN] -> li l -> li r -> numS l = true -> numS r = true ->
  okr (fun t => li t /\ numS t = true) k [l; r] (simp2 c k l r).
Proof.
  intros Hk Hl Hr Nl Nr.
  assert (K : simp2 c k l r = (s <- getSort [l; r] ;;
      if isConst l && isConst r then
        match s with
        | None => UB
        | Some s =>
            if s_is SK_REAL s then realop c k [l; r]
            else if s_is SK_INT s then
              a <- toInt c l ;; b <- toInt c r ;;
              Ok (mkConstInt (if keq k NT_MAX then (if a <? b then b else a)
                                               else (if b <? a then b else a)))
            else unk
        end
      else unk)).
  { destruct Hk as [ <- | [ <- | [] ]]; reflexivity. }
  rewrite K. clear K.
  destruct (isConst l && isConst r) eqn:C.
  2:{ assert (exists o, getSort [l; r] = Ok o) as [o ->] by (unfold getSort; destruct (numS l); eauto).
      apply okr_unk. }
  apply andb_true_iff in C. destruct C as [Cl Cr].
  assert (N : no_real [l; r]) by (intros p [ <- | [ <- | [] ]]; [apply Hl|apply Hr]).
  destruct (getSort_num l r Nl N Cl Cr) as (s & -> & ->). cbn [bind].
  change (s_is SK_REAL intS) with false. change (s_is SK_INT intS) with true. cbv iota.
  assert (Il : isCInt l = true).
  { unfold isCInt. rewrite Cl. unfold numS in Nl. rewrite (proj2 Hl Cl), orb_false_r in Nl. exact Nl. }
  assert (Ir : isCInt r = true).
  { unfold isCInt. rewrite Cr. unfold numS in Nr. rewrite (proj2 Hr Cr), orb_false_r in Nr. exact Nr. }
  destruct (li_int l Hl Il) as (s & a & Hs & ->). destruct (li_int r Hr Ir) as (s' & b & Hs' & ->).
  rewrite !toInt_ic by assumption. cbn [bind]. rewrite mkConstInt_ic.
  apply okr_ok; [split; [apply li_ic; auto|reflexivity]|].
  intros I e. cbn [map]. rewrite !eval_ic by auto.
  destruct Hk as [ <- | [ <- | [] ]]; cbn [op_sem fold_left num ]; rewrite ZQ_le;
    change (keq NT_MAX NT_MAX) with true; change (keq NT_MIN NT_MAX) with false; cbv iota.
  - destruct (Z.leb_spec a b), (Z.ltb_spec a b); do 3 f_equal; lia.
  - destruct (Z.leb_spec b a), (Z.ltb_spec b a); do 3 f_equal; lia.
Qed.
Lemma divmod_ok c k l r : In k [NT_DIV_INT; NT_MOD] -> li l -> li r ->
  (forall z, t_name l = Idec z -> 0 <= z) -> (forall z, t_name r = Idec z -> z <> 0) ->
  okr li k [l; r] (simp2 c k l r).
Proof.
  intros Hk Hl Hr Pl Pr.
  destruct (isCInt l && isCInt r) eqn:C.
  - apply andb_true_iff in C. destruct C as [Cl Cr].
    destruct (li_int l Hl Cl) as (s & a & Hs & ->). destruct (li_int r Hr Cr) as (s' & b & Hs' & ->).
    specialize (Pl a eq_refl). specialize (Pr b eq_refl).
    assert (E : simp2 c k (ic s a) (ic s' b) = Ok (mkConstInt (match k with NT_MOD => Z.rem a b | _ => Z.quot a b end))).
    { destruct Hk as [ <- | [ <- | [] ]]; cbn [simp2]; unfold arithOk; rewrite ?isCRoot_ic; cbn [negb andb];
      rewrite Cl, Cr; cbn [andb]; rewrite !toInt_ic by assumption; cbn [bind]; unfold Idiv, Imod;
      replace (b =? 0) with false by lia; reflexivity. }
    rewrite E. rewrite mkConstInt_ic. apply okr_ok; [apply li_ic; auto|].
    intros I e. cbn [map]. rewrite !eval_ic by auto.
    destruct Hk as [ <- | [ <- | [] ]]; cbn [op_sem num]; rewrite !is_intq_ZQ, !qfloor_ZQ;
      replace (b =? 0) with false by lia; cbn [andb negb]; do 3 f_equal; unfold sdiv, smod.
    + destruct (Z.leb_spec 0 b).
      * symmetry. apply Z.quot_div_nonneg; lia.
      * rewrite <- Z.quot_div_nonneg by lia. rewrite Z.quot_opp_r by lia. lia.
    + destruct (Z.abs_spec b) as [[H E']|[H E']]; rewrite E'.
      * symmetry. apply Z.rem_mod_nonneg; lia.
      * rewrite <- Z.rem_mod_nonneg by lia. rewrite Z.rem_opp_r by lia. reflexivity.
  - assert (R : isCReal l && isCReal r = false /\ isCInt l && isCReal r = false /\ isCReal l && isCInt r = false).
    { pose proof (li_real_int l Hl) as A. pose proof (li_real_int r Hr) as B.
      destruct (isCReal l), (isCReal r), (isCInt l), (isCInt r); cbn in *; intuition congruence. }
    destruct R as (R1 & R2 & R3).
    assert (E : simp2 c k l r = unk).
    { destruct Hk as [ <- | [ <- | [] ]]; cbn [simp2]; rewrite C, ?R1, ?R2, ?R3; destruct (arithOk l r); reflexivity. }
    rewrite E. apply okr_unk.
Qed.
