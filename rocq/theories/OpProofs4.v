(** Proofs about constant folding: any number of arguments. *)
From Coq Require Import QArith Qcanon Qround Permutation ZifyBool ZifyNat.
From Verif Require Import Base KindModel SortModel TermModel BVModel BVSpec BVProofs BVProofs2 BVProofs4 BVProofs5
  UtilModel UtilSpec UtilProofs UtilProofs2 DagProofs SortProofs Sem SemProofs ArrayModel SimpModel OpModel OpSpec
  OpProofs OpProofs2 OpProofs3.
Open Scope Z_scope.

(** ** folding from the left *)
Definition assoc_sem (k : kind) (V : value -> Prop) : Prop := forall v1 v2 v rest, rest <> [] -> V v1 -> V v2 ->
  op_sem k [v1; v2] = Some v -> op_sem k (v :: rest) = op_sem k (v1 :: v2 :: rest).
Definition Pv (P : term -> Prop) (V : value -> Prop) : Prop := forall p I e, P p -> V (eval I e p).
Lemma fold_simp_ok c k P V : Pv P V -> (forall l r, P l -> P r -> okr P k [l; r] (simp2 c k l r)) -> assoc_sem k V ->
  forall ps acc, ps <> [] -> P acc -> Forall P ps -> okr P k (acc :: ps) (fold_simp c k acc ps).
Proof.
  intros HPV HP HA. induction ps as [|p ps IH]; intros acc Hn Ha Hps; [congruence|].
  inversion Hps as [|? ? Hp Hps']; subst. cbn [fold_simp].
  destruct (HP acc p Ha Hp) as (t & -> & [U|[Pt Vt]]); cbn [bind].
  - rewrite U. apply okr_unk.
  - destruct (isUnknown t) eqn:U; [apply okr_unk|].
    destruct ps as [|q ps].
    + cbn [fold_simp]. apply okr_ok; assumption.
    + destruct (IH t ltac:(discriminate) Pt Hps') as (t' & E & D). exists t'. split; [exact E|].
      destruct D as [D|[D1 D2]]; [now left|right]. split; [exact D1|]. intros I e.
      rewrite <- D2. specialize (Vt I e). cbn [map] in *. symmetry. apply HA; [discriminate|now apply HPV|now apply HPV|exact Vt].
Qed.
Lemma leftfold_kind k : kin k leftfold_kinds = true -> is_eqk k = false /\ is_disk k = false /\ keq k NT_IMPLIES = false.
Proof. destruct k; intros H; try discriminate H; repeat split; reflexivity. Qed.
Lemma leftfold_ok c k P V : kin k leftfold_kinds = true -> Pv P V ->
  (forall l r, P l -> P r -> okr P k [l; r] (simp2 c k l r)) ->
  (forall u l m r, isUnknown u = true -> P r -> okr P k [l; m; r] (simp2 c k u r)) -> assoc_sem k V ->
  forall ps, (2 <= length ps)%nat -> Forall P ps -> okr P k ps (simp c k ps).
Proof.
  intros Hk HPV HP HU HA ps Hl Hps. destruct (leftfold_kind k Hk) as (E1 & E2 & E3).
  destruct ps as [|a [|b [|d [|f ps]]]]; cbn [length] in Hl; try lia.
  - inversion Hps as [|? ? Ha Hb]; subst. inversion Hb; subst. now apply HP.
  - cbn [simp]. unfold simp3. rewrite E1, E2.
    assert (K : kin k (NT_IMPLIES :: leftfold_kinds) = true) by (unfold kin in *; cbn [existsb]; now rewrite Hk, orb_true_r).
    rewrite K. inversion Hps as [|? ? Ha Hb]; subst. inversion Hb as [|? ? Hb' Hd]; subst. inversion Hd as [|? ? Hd' _]; subst.
    destruct (HP a b Ha Hb') as (t & -> & D). cbn [bind]. destruct D as [U|[Pt Vt]]; [now apply HU|].
    destruct (HP t d Pt Hd') as (t' & -> & D). exists t'. split; [reflexivity|]. destruct D as [D|[D1 D2]]; [now left|right].
    split; [exact D1|]. intros I e. rewrite <- D2. specialize (Vt I e). cbn [map] in *. symmetry.
    apply HA; [discriminate|now apply HPV|now apply HPV|exact Vt].
  - cbn [simp]. unfold simpN. rewrite E1, E2, E3, Hk. inversion Hps as [|? ? Ha Hb]; subst.
    apply (fold_simp_ok c k P V); auto; discriminate.
Qed.

(** no constant test accepts the unknown node *)
Lemma unk_tests u : isUnknown u = true -> isCInt u = false /\ isCReal u = false /\ isCBV u = false /\ isCStr u = false /\
  isTrue u = false /\ isFalse u = false /\ isConst u = false.
Proof.
  unfold isUnknown, isk. intros H. apply keq_spec in H.
  unfold isCInt, isCReal, isCBV, isCStr, isTrue, isFalse, isConst, isk. rewrite H. repeat split; reflexivity.
Qed.
Lemma unk_fold c k P u l m r : isUnknown u = true ->
  In k (NT_XOR :: NT_IAND :: NT_ADD :: NT_MUL :: NT_STR_CONCAT :: bv8) -> okr P k [l; m; r] (simp2 c k u r).
Proof.
  intros U Hk. destruct (unk_tests u U) as (A & B & C & D & E & F & G).
  assert (X : simp2 c k u r = unk).
  { repeat (destruct Hk as [ <- | Hk ]); try contradiction; cbn [simp2]; rewrite ?A, ?B, ?C, ?D, ?E, ?F; cbn [andb orb];
    try (destruct (arithOk u r)); reflexivity. }
  rewrite X. apply okr_unk.
Qed.
Lemma unk_and c u l m r : isUnknown u = true -> lo r -> okr lo NT_AND [l; m; r] (simp2 c NT_AND u r).
Proof.
  intros U Hr. destruct (unk_tests u U) as (A & B & C & D & E & F & G). cbn [simp2]. rewrite E, F. cbn [andb orb].
  destruct (tri r Hr) as [ -> | [ -> | [ _ -> ]]]; [apply okr_unk| |apply okr_unk].
  apply okr_ok; [apply lo_FALSE|]. intros I e. cbn [map op_sem forallb]. rewrite eval_FALSE. cbn. now rewrite !andb_false_r.
Qed.
Lemma unk_or c u l m r : isUnknown u = true -> lo r -> okr lo NT_OR [l; m; r] (simp2 c NT_OR u r).
Proof.
  intros U Hr. destruct (unk_tests u U) as (A & B & C & D & E & F & G). cbn [simp2]. rewrite E, F. cbn [andb orb].
  destruct (tri r Hr) as [ -> | [ -> | [ -> _ ]]]; [|apply okr_unk|apply okr_unk].
  apply okr_ok; [apply lo_TRUE|]. intros I e. cbn [map op_sem existsb]. rewrite eval_TRUE. cbn. now rewrite !orb_true_r.
Qed.
Lemma unk_sub c u l m r P : cfg_ok c -> isUnknown u = true -> li r -> okr P NT_SUB [l; m; r] (simp2 c NT_SUB u r).
Proof.
  intros Hc U Hr. destruct (unk_tests u U) as (A & B & C & D & E & F & G). cbn [simp2]. rewrite A, B. cbn [andb].
  destruct (arithOk u r); cbn [negb]; [|apply okr_unk].
  unfold isZero at 1. rewrite A, B. destruct (isCRoot u); cbn [bind];
  destruct (isZero_li c r Hc Hr) as (z & -> & _); cbn [bind]; destruct z; try apply okr_unk; exists u; auto.
Qed.
Lemma unk_minmax c k u l m r P : In k [NT_MAX; NT_MIN] -> isUnknown u = true -> okr P k [l; m; r] (simp2 c k u r).
Proof.
  intros Hk U. destruct (unk_tests u U) as (A & B & C & D & E & F & G).
  assert (X : simp2 c k u r = unk).
  { assert (Y : exists o, getSort [u; r] = Ok o) by (unfold getSort; destruct (numS u); eauto). destruct Y as [o Y].
    destruct Hk as [ <- | [ <- | [] ]]; cbn [simp2]; rewrite Y, G; reflexivity. }
  rewrite X. apply okr_unk.
Qed.

Definition anyv (v : value) : Prop := True.
Lemma assoc_bool k : In k [NT_AND; NT_OR; NT_XOR] -> assoc_sem k anyv.
Proof.
  intros Hk v1 v2 v rest _ _ _ H.
  destruct Hk as [ <- | [ <- | [ <- | [] ]]]; cbn in H; injection H as <-; cbn.
  - now rewrite !andb_true_r, andb_assoc.
  - now rewrite !orb_false_r, orb_assoc.
  - unfold xorl. cbn. destruct (truth v1), (truth v2); reflexivity.
Qed.
Lemma assoc_num k : In k [NT_ADD; NT_MUL; NT_IAND; NT_SUB; NT_MAX; NT_MIN] -> assoc_sem k anyv.
Proof.
  intros Hk v1 v2 v rest Hr _ _ H. destruct rest as [|v3 rest]; [congruence|].
  repeat (destruct Hk as [ <- | Hk ]); try contradiction; cbn in H; injection H as <-; cbn [op_sem].
  - do 2 f_equal. unfold sumq. cbn [fold_right num]. ring.
  - do 2 f_equal. unfold prodq. cbn [fold_right num]. ring.
  - do 3 f_equal. cbn [fold_left num]. now rewrite qfloor_ZQ.
  - do 2 f_equal.
  - reflexivity.
  - reflexivity.
Qed.
Lemma assoc_str : assoc_sem NT_STR_CONCAT anyv.
Proof. intros v1 v2 v rest _ _ _ H. cbn in H. injection H as <-. cbn. rewrite app_nil_r, <- app_assoc. reflexivity. Qed.
Definition bvV (w : nat) (v : value) : Prop := exists x, 0 <= x < 2 ^ Z.of_nat w /\ v = VBV w x.
Lemma assoc_bv k w : In k bv8 -> assoc_sem k (bvV w).
Proof.
  intros Hk v1 v2 v rest _ (x & _ & ->) (y & _ & ->) H. rewrite op_sem_bv8 in H by assumption. rewrite !op_sem_bv8 by assumption. cbn in H. injection H as <-.
  reflexivity.
Qed.
Lemma Pv_any P : Pv P anyv. Proof. intros p J e Hp. constructor. Qed.
Lemma Pv_lb w : Pv (lb w) (bvV w).
Proof. intros p I e [_ H]. destruct (H I e) as (v & Hv & E). exists v. auto. Qed.

(** ** equality *)
Lemma chain_all v vs : In v vs -> chain veqb vs = forallb (veqb v) vs.
Proof.
  assert (G : forall a l, chain veqb (a :: l) = forallb (veqb a) l).
  { intros a l. revert a. induction l as [|b l IH]; intros a; [reflexivity|].
    change (chain veqb (a :: b :: l)) with (veqb a b && chain veqb (b :: l)). rewrite IH. cbn [forallb].
    destruct (veqb a b) eqn:E; [|reflexivity]. apply veqb_spec in E. now subst. }
  intros Hv. destruct vs as [|a l]; [contradiction|]. rewrite G. cbn [forallb].
  destruct Hv as [ <- | Hv].
  - now rewrite veqb_refl.
  - destruct (veqb v a) eqn:E.
    + apply veqb_spec in E. now subst.
    + cbn. destruct (forallb (veqb a) l) eqn:F; [|reflexivity]. exfalso.
      rewrite forallb_forall in F. specialize (F v Hv). rewrite veqb_sym in F. congruence.
Qed.
Lemma eq_op k vs : is_eqk k = true -> (2 <= length vs)%nat -> op_sem k vs = Some (VBool (chain veqb vs)).
Proof.
  intros Hk Hl. destruct vs as [|a [|b vs]]; cbn [length] in Hl; try lia.
  destruct k; try discriminate Hk; reflexivity.
Qed.
Lemma dis_op k vs : is_disk k = true -> (2 <= length vs)%nat ->
  op_sem k vs = Some (VBool (pairwise (fun a b => negb (veqb a b)) vs)).
Proof.
  intros Hk Hl. destruct vs as [|a [|b vs]]; cbn [length] in Hl; try lia.
  destruct k; try discriminate Hk; reflexivity.
Qed.
Definition eqdom (c : cfg) (U : list term) : Prop :=
  reals_exact c U /\ (forall p, In p U -> lo p /\ isArray p = false).
Lemma eqdom2 c U k l r : eqdom c U -> is_eqk k = true -> In l U -> In r U ->
  exists o, simp2 c k l r = Ok (ob o) /\ forall b, o = Some b -> forall I e, veqb (eval I e l) (eval I e r) = b.
Proof.
  intros [X H] Hk Hl Hr. destruct (H l Hl) as [Ll Al]. destruct (H r Hr) as [Lr Ar].
  destruct (eq2_ok c k l r (or_introl (conj Hk (or_introl Al))) Ll Lr) as (o & E & V).
  - apply (reals_exact_incl c U); [intros p [ <- | [ <- | [] ]]; assumption|exact X].
  - exists o. split; [exact E|]. intros b Hb I e. rewrite <- (V b Hb I e).
    unfold dval. replace (is_disk k) with false; [reflexivity|]. now destruct k.
Qed.
(** [eqs p0 ps]: all of [ps] equal [p0] *)
Definition alleq (I : interp) (e : env) (p0 : term) (ps : list term) : bool :=
  forallb (fun p => veqb (eval I e p0) (eval I e p)) ps.
Lemma eq_rest_ok c U k p0 ps : eqdom c U -> is_eqk k = true -> In p0 U -> incl ps U ->
  exists o, eq_rest c k p0 ps = Ok o /\
    match o with
    | None => forall I e, alleq I e p0 ps = false
    | Some qs => incl qs ps /\ forall I e, alleq I e p0 ps = alleq I e p0 qs
    end.
Proof.
  intros HU Hk H0. induction ps as [|p ps IH]; intros Hi; cbn [eq_rest].
  - exists (Some []). split; [reflexivity|]. split; [apply incl_refl|reflexivity].
  - destruct (eqdom2 c U k p0 p HU Hk H0 (Hi p (or_introl eq_refl))) as (o & -> & V). cbn [bind].
    destruct (IH (fun x Hx => Hi x (or_intror Hx))) as (o' & E & W).
    rewrite ob_unk, ob_true, ob_false. destruct o as [[]|].
    + exists o'. split; [exact E|]. destruct o' as [qs|].
      * destruct W as [W1 W2]. split; [now apply incl_tl|]. intros I e. cbn [alleq forallb]. rewrite (V true eq_refl). apply W2.
      * intros I e. cbn [alleq forallb]. rewrite (V true eq_refl). apply W.
    + exists None. split; [reflexivity|]. intros I e. cbn [alleq forallb]. now rewrite (V false eq_refl).
    + rewrite E. cbn [bind]. exists (option_map (cons p) o'). split; [reflexivity|].
      destruct o' as [qs|]; cbn [option_map].
      * destruct W as [W1 W2]. split; [intros x [ <- | Hx]; [now left|right; now apply W1]|].
        intros I e. cbn [alleq forallb]. f_equal. apply W2.
      * intros I e. cbn [alleq forallb]. fold (alleq I e p0 ps). rewrite W. apply andb_false_r.
Qed.
Lemma eq_scan_ok c U k p0 ps : eqdom c U -> is_eqk k = true -> In p0 U -> forall i, nth_error ps i = Some p0 -> incl ps U ->
  exists o, eq_scan c k p0 i ps = Ok o /\
    match o with
    | None => forall I e, alleq I e p0 ps = false
    | Some qs => incl qs ps /\ forall I e, alleq I e p0 ps = alleq I e p0 qs
    end.
Proof.
  intros HU Hk H0. induction ps as [|p ps IH]; intros i Hn Hi; [destruct i; discriminate|]. destruct i as [|i]; cbn [eq_scan nth_error] in *.
  - injection Hn as ->. destruct (eq_rest_ok c U k p0 ps HU Hk H0 (fun x Hx => Hi x (or_intror Hx))) as (o & E & W).
    exists o. split; [exact E|]. destruct o as [qs|].
    + destruct W as [W1 W2]. split; [now apply incl_tl|]. intros I e. cbn [alleq forallb]. rewrite veqb_refl. apply W2.
    + intros I e. cbn [alleq forallb]. rewrite veqb_refl. apply W.
  - destruct (eqdom2 c U k p0 p HU Hk H0 (Hi p (or_introl eq_refl))) as (o & -> & V). cbn [bind].
    destruct (IH i Hn (fun x Hx => Hi x (or_intror Hx))) as (o' & E & W).
    rewrite ob_unk, ob_true, ob_false. destruct o as [[]|].
    + exists o'. split; [exact E|]. destruct o' as [qs|].
      * destruct W as [W1 W2]. split; [now apply incl_tl|]. intros I e. cbn [alleq forallb]. rewrite (V true eq_refl). apply W2.
      * intros I e. cbn [alleq forallb]. rewrite (V true eq_refl). apply W.
    + exists None. split; [reflexivity|]. intros I e. cbn [alleq forallb]. now rewrite (V false eq_refl).
    + rewrite E. cbn [bind]. exists (option_map (cons p) o'). split; [reflexivity|].
      destruct o' as [qs|]; cbn [option_map].
      * destruct W as [W1 W2]. split; [intros x [ <- | Hx]; [now left|right; now apply W1]|].
        intros I e. cbn [alleq forallb]. f_equal. apply W2.
      * intros I e. cbn [alleq forallb]. fold (alleq I e p0 ps). rewrite W. apply andb_false_r.
Qed.
Lemma eq_scan_len c k p0 ps : forall i qs, nth_error ps i = Some p0 -> eq_scan c k p0 i ps = Ok (Some qs) -> (length qs <= length ps - 1)%nat.
Proof.
  assert (R : forall ps qs, eq_rest c k p0 ps = Ok (Some qs) -> (length qs <= length ps)%nat).
  { induction ps0 as [|p ps0 IH]; intros qs; cbn [eq_rest].
    - intros E. injection E as <-. reflexivity.
    - destruct (simp2 c k p0 p) as [t| | | | |]; try discriminate. cbn [bind].
      destruct (isUnknown t).
      + destruct (eq_rest c k p0 ps0) as [[l|]| | | | |]; try discriminate. cbn. intros E. injection E as <-. cbn. specialize (IH l eq_refl). lia.
      + destruct (isTrue t); [intros E; specialize (IH qs E); cbn; lia|]. destruct (isFalse t); [discriminate|]. intros E. specialize (IH qs E). cbn. lia. }
  induction ps as [|p ps IH]; intros i qs Hn; [destruct i; discriminate|]. destruct i as [|i]; cbn [eq_scan nth_error] in *.
  - intros E. specialize (R _ _ E). cbn. lia.
  - assert (L : (1 <= length ps)%nat) by (destruct ps; [destruct i; discriminate|cbn; lia]).
    destruct (simp2 c k p0 p) as [t| | | | |]; try discriminate. cbn [bind].
    destruct (isUnknown t).
    + destruct (eq_scan c k p0 i ps) as [[l|]| | | | |] eqn:F; try discriminate. cbn. intros E. injection E as <-. cbn. specialize (IH i l Hn F). lia.
    + destruct (isTrue t); [intros E; specialize (IH i qs Hn E); cbn; lia|]. destruct (isFalse t); [discriminate|]. intros E. specialize (IH i qs Hn E). cbn. lia.
Qed.
Lemma first_const_nth ps : forall n i p, first_const ps n = Some (i, p) -> exists j, i = (n + j)%nat /\ nth_error ps j = Some p.
Proof.
  induction ps as [|q ps IH]; intros n i p; cbn [first_const]; [discriminate|].
  destruct (isConst q).
  - intros E. injection E as -> ->. exists 0%nat. split; [lia|reflexivity].
  - intros E. destruct (IH _ _ _ E) as (j & -> & Hj). exists (S j). split; [lia|exact Hj].
Qed.
Lemma alleq_op I e k p0 ps : is_eqk k = true -> (2 <= length ps)%nat -> In p0 ps ->
  op_sem k (map (eval I e) ps) = Some (VBool (alleq I e p0 ps)).
Proof.
  intros Hk Hl Hi. rewrite eq_op by (try assumption; now rewrite map_length). do 2 f_equal.
  rewrite (chain_all (eval I e p0)) by (now apply in_map). unfold alleq.
  clear. induction ps as [|p ps IH]; [reflexivity|]. cbn [map forallb]. now rewrite IH.
Qed.
Lemma simp_eq_ok c U k : eqdom c U -> is_eqk k = true -> forall fuel ps, (length ps < fuel)%nat -> (2 <= length ps)%nat -> incl ps U ->
  exists o, simp_eq fuel c k ps = Ok (ob o) /\
    forall b, o = Some b -> forall I e, op_sem k (map (eval I e) ps) = Some (VBool b).
Proof.
  intros HU Hk. induction fuel as [|fuel IH]; intros ps Hf Hl Hi; [lia|]. cbn [simp_eq].
  destruct (first_const ps 0) as [[i p0]|] eqn:F.
  2:{ exists None. split; [reflexivity|discriminate]. }
  destruct (first_const_nth ps 0 i p0 F) as (j & E & Hj). cbn in E. subst i.
  assert (H0 : In p0 ps) by (now apply nth_error_In in Hj).
  destruct (eq_scan_ok c U k p0 ps HU Hk (Hi _ H0) j Hj Hi) as (o & E & W). rewrite E. cbn [bind].
  destruct o as [qs|].
  2:{ exists (Some false). split; [reflexivity|]. intros b Hb I e. injection Hb as <-. rewrite (alleq_op I e k p0) by assumption. now rewrite W. }
  destruct W as [W1 W2]. destruct qs as [|q [|q' qs]].
  - exists (Some true). split; [reflexivity|]. intros b Hb I e. injection Hb as <-. rewrite (alleq_op I e k p0) by assumption. now rewrite W2.
  - destruct (eqdom2 c U k q p0 HU Hk) as (o & -> & V); [apply Hi, W1; now left|now apply Hi|].
    exists o. split; [reflexivity|]. intros b Hb I e. rewrite (alleq_op I e k p0) by assumption. rewrite W2. cbn [alleq forallb].
    rewrite veqb_sym, (V b Hb), andb_true_r. reflexivity.
  - destruct (Nat.eqb (length (q :: q' :: qs)) (length ps - 1)) eqn:L.
    + exists None. split; [reflexivity|discriminate].
    + apply Nat.eqb_neq in L. pose proof (eq_scan_len c k p0 ps j _ Hj E) as M.
      destruct (IH ((q :: q' :: qs) ++ [p0])) as (o & E' & V).
      * rewrite app_length. cbn [length] in *. lia.
      * rewrite app_length. cbn [length]. lia.
      * intros x Hx. apply in_app_or in Hx. destruct Hx as [Hx|[ <- | [] ]]; [apply Hi, W1, Hx|now apply Hi].
      * exists o. split; [exact E'|]. intros b Hb I e. rewrite <- (V b Hb I e).
        rewrite (alleq_op I e k p0) by assumption. rewrite (alleq_op I e k p0).
        -- do 2 f_equal. rewrite W2. unfold alleq. rewrite forallb_app. cbn [forallb]. now rewrite veqb_refl, !andb_true_r.
        -- assumption.
        -- rewrite app_length. cbn [length]. lia.
        -- apply in_or_app. right. now left.
Qed.
Lemma okr_ob (P : term -> Prop) k ps r o : r = Ok (ob o) -> (forall b, P (if b : bool then TRUE else FALSE)) ->
  (forall b, o = Some b -> forall I e, op_sem k (map (eval I e) ps) = Some (VBool b)) -> okr P k ps r.
Proof.
  intros -> HP V. destruct o as [b|]; [|apply okr_unk]. replace (ob (Some b)) with (if b then TRUE else FALSE) by (now destruct b).
  apply okr_ok; [apply HP|]. intros I e. rewrite eval_mkB. now apply V.
Qed.
Lemma eq_nary c k ps : is_eqk k = true -> (2 <= length ps)%nat -> eqdom c ps -> okr lo k ps (simp c k ps).
Proof.
  intros Hk Hl HU.
  destruct ps as [|a [|b [|d [|f ps]]]]; cbn [length] in Hl; try lia.
  - cbn [simp]. destruct (eqdom2 c [a; b] k a b HU Hk) as (o & E & V); [cbn; auto|cbn; auto|].
    apply (okr_ob lo k [a; b] _ o E lo_mkB). intros x Hx I e. cbn [map]. rewrite eq_op by (try assumption; cbn; lia).
    cbn [chain]. now rewrite andb_true_r, (V x Hx).
  - cbn [simp]. unfold simp3. rewrite Hk.
    assert (OP : forall I e, op_sem k (map (eval I e) [a; b; d]) = Some (VBool (veqb (eval I e a) (eval I e b) && veqb (eval I e b) (eval I e d)))).
    { intros I e. cbn [map]. rewrite eq_op by (try assumption; cbn; lia). cbn [chain]. now rewrite andb_true_r. }
    destruct (isCInt a && isCInt b && isCInt d) eqn:C.
    + apply andb_true_iff in C. destruct C as [C C3]. apply andb_true_iff in C. destruct C as [C1 C2].
      destruct HU as [_ HU].
      destruct (lo_int a (proj1 (HU a (or_introl eq_refl))) C1) as (s1 & x & H1 & ->).
      destruct (lo_int b (proj1 (HU b (or_intror (or_introl eq_refl)))) C2) as (s2 & y & H2 & ->).
      destruct (lo_int d (proj1 (HU d (or_intror (or_intror (or_introl eq_refl))))) C3) as (s3 & z & H3 & ->).
      rewrite !toInt_ic by assumption. cbn [bind].
      apply (okr_ob lo k _ _ (Some ((x =? y) && (y =? z))) (mkB_ob _) lo_mkB).
      intros q Hq I e. injection Hq as <-. rewrite OP, !eval_ic, !veqb_ZQ by assumption. reflexivity.
    + destruct (isCReal a && isCReal b && isCReal d) eqn:R.
      * apply andb_true_iff in R. destruct R as [R R3]. apply andb_true_iff in R. destruct R as [R1 R2].
        destruct HU as [X HU].
        assert (La : lo a) by (apply HU; cbn; auto). assert (Lb : lo b) by (apply HU; cbn; auto). assert (Ld : lo d) by (apply HU; cbn; auto).
        destruct X as [N|X].
        { exfalso. rewrite (li_real_int a), (li_real_int b), (li_real_int d) in C; try assumption; try discriminate;
          apply (no_real_li [a; b; d]); cbn; auto. }
        assert (NC : forall p, isCReal p = true -> isNumC p = true) by (intros p Hp; unfold isNumC; rewrite Hp; apply orb_true_r).
        destruct (exact_val c a La (NC a R1)) as (x & Hx & Vx); [apply X; try (apply isNumC_numS, NC, R1); cbn; auto|].
        destruct (exact_val c b Lb (NC b R2)) as (y & Hy & Vy); [apply X; try (apply isNumC_numS, NC, R2); cbn; auto|].
        destruct (exact_val c d Ld (NC d R3)) as (z & Hz & Vz); [apply X; try (apply isNumC_numS, NC, R3); cbn; auto|].
        apply (okr_ob lo k _ _ _ (mkB_ob _) lo_mkB). intros q Hq I e. injection Hq as <-. rewrite OP, Vx, Vy, Vz.
        now rewrite (Qeq_bool_veqb _ _ x y), (Qeq_bool_veqb _ _ y z) by assumption.
      * assert (A : isArray a && isArray b && isArray d = false).
        { destruct HU as [_ HU]. now rewrite (proj2 (HU a (or_introl eq_refl))). }
        rewrite A.
        destruct (eqdom2 c [a; b; d] NT_EQ a b HU eq_refl) as (o & E & V); [cbn; auto|cbn; auto|]. rewrite E. cbn [bind].
        rewrite ob_true. destruct o as [[]|]; try apply okr_unk.
        destruct (eqdom2 c [a; b; d] NT_EQ b d HU eq_refl) as (o & E' & V'); [cbn; auto|cbn; auto|]. rewrite E'. cbn [bind].
        rewrite ob_true. destruct o as [[]|]; try apply okr_unk.
        apply okr_ok; [apply lo_TRUE|]. intros I e. rewrite OP, (V true eq_refl), (V' true eq_refl). reflexivity.
  - cbn [simp]. unfold simpN. rewrite Hk.
    destruct (simp_eq_ok c _ k HU Hk (S (length (a :: b :: d :: f :: ps))) (a :: b :: d :: f :: ps)) as (o & E & V).
    + lia.
    + cbn [length]. lia.
    + apply incl_refl.
    + apply (okr_ob lo k _ _ o E lo_mkB V).
Qed.

(** ** distinct *)
Definition disdom (c : cfg) (U : list term) : Prop := reals_exact c U /\ (forall p, In p U -> lo p).
Definition nev (I : interp) (e : env) (p q : term) : bool := negb (veqb (eval I e p) (eval I e q)).
Lemma disdom2 c U k l r : disdom c U -> is_disk k = true -> In l U -> In r U ->
  exists o, simp2 c k l r = Ok (ob o) /\ forall b, o = Some b -> forall I e, nev I e l r = b.
Proof.
  intros [X H] Hk Hl Hr.
  destruct (eq2_ok c k l r (or_intror Hk) (H l Hl) (H r Hr)) as (o & E & V).
  - apply (reals_exact_incl c U); [intros p [ <- | [ <- | [] ]]; assumption|exact X].
  - exists o. split; [exact E|]. intros b Hb I e. rewrite <- (V b Hb I e). unfold dval. now rewrite Hk.
Qed.
Lemma dis_row_ok c U k p ps : disdom c U -> is_disk k = true -> In p U -> incl ps U -> forall u,
  exists o, dis_row c k p ps u = Ok o /\
    match o with
    | None => forall I e, forallb (nev I e p) ps = false
    | Some u' => u' = true \/ (u = false /\ forall I e, forallb (nev I e p) ps = true)
    end.
Proof.
  intros HU Hk H0. induction ps as [|q ps IH]; intros Hi u; cbn [dis_row].
  - exists (Some u). split; [reflexivity|]. destruct u; [now left|right]. auto.
  - destruct (disdom2 c U k p q HU Hk H0 (Hi q (or_introl eq_refl))) as (o & -> & V). cbn [bind].
    rewrite ob_unk, ob_false. destruct o as [[]|].
    + destruct (IH (fun x Hx => Hi x (or_intror Hx)) u) as (o' & E & W). exists o'. split; [exact E|]. destruct o' as [u'|].
      * destruct W as [W|[W1 W2]]; [now left|right]. split; [exact W1|]. intros I e. cbn [forallb]. now rewrite (V true eq_refl), W2.
      * intros I e. cbn [forallb]. now rewrite W, andb_false_r.
    + exists None. split; [reflexivity|]. intros I e. cbn [forallb]. now rewrite (V false eq_refl).
    + destruct (IH (fun x Hx => Hi x (or_intror Hx)) true) as (o' & E & W). exists o'. split; [exact E|]. destruct o' as [u'|].
      * destruct W as [W|[W1 W2]]; [now left|discriminate].
      * intros I e. cbn [forallb]. now rewrite W, andb_false_r.
Qed.
Definition pw (I : interp) (e : env) (ps : list term) : bool := pairwise (fun a b => negb (veqb a b)) (map (eval I e) ps).
Lemma pw_cons I e p ps : pw I e (p :: ps) = forallb (nev I e p) ps && pw I e ps.
Proof.
  unfold pw. cbn [map pairwise]. f_equal. induction ps as [|q ps IH]; [reflexivity|]. cbn [map forallb]. now rewrite IH.
Qed.
Lemma dis_all_ok c U k ps : disdom c U -> is_disk k = true -> incl ps U -> forall u,
  exists o, dis_all c k ps u = Ok o /\
    match o with
    | None => forall I e, pw I e ps = false
    | Some u' => u' = true \/ (u = false /\ forall I e, pw I e ps = true)
    end.
Proof.
  intros HU Hk. induction ps as [|p ps IH]; intros Hi u; cbn [dis_all].
  - exists (Some u). split; [reflexivity|]. destruct u; [now left|right]. auto.
  - destruct (dis_row_ok c U k p ps HU Hk (Hi p (or_introl eq_refl)) (fun x Hx => Hi x (or_intror Hx)) u) as (o & -> & W). cbn [bind].
    destruct o as [u'|].
    + destruct (IH (fun x Hx => Hi x (or_intror Hx)) u') as (o' & E & W'). exists o'. split; [exact E|]. destruct o' as [u''|].
      * destruct W' as [W'|[W1 W2]]; [now left|]. destruct W as [W|[W3 W4]]; [congruence|]. right. split; [exact W3|].
        intros I e. now rewrite pw_cons, W4, W2.
      * intros I e. now rewrite pw_cons, W', andb_false_r.
    + exists None. split; [reflexivity|]. intros I e. now rewrite pw_cons, W.
Qed.
Lemma dis_nary c k ps : is_disk k = true -> (2 <= length ps)%nat -> disdom c ps -> okr lo k ps (simp c k ps).
Proof.
  intros Hk Hl HU. assert (Hk' : is_eqk k = false) by (now destruct k).
  assert (OP : forall I e, op_sem k (map (eval I e) ps) = Some (VBool (pw I e ps))).
  { intros I e. now rewrite dis_op by (try assumption; now rewrite map_length). }
  destruct ps as [|a [|b [|d [|f ps]]]]; cbn [length] in Hl; try lia.
  - cbn [simp]. destruct (disdom2 c [a; b] k a b HU Hk) as (o & E & V); [cbn; auto|cbn; auto|].
    apply (okr_ob lo k [a; b] _ o E lo_mkB). intros x Hx I e. rewrite OP, !pw_cons. cbn [forallb]. rewrite (V x Hx).
    now rewrite !andb_true_r.
  - cbn [simp]. unfold simp3. rewrite Hk', Hk.
    assert (OP3 : forall I e, op_sem k (map (eval I e) [a; b; d]) = Some (VBool (nev I e a b && nev I e a d && nev I e b d))).
    { intros I e. rewrite OP, !pw_cons. cbn [forallb]. change (pw I e []) with true. now rewrite !andb_true_r. }
    clear OP.
    destruct (isCInt a && isCInt b && isCInt d) eqn:C.
    + apply andb_true_iff in C. destruct C as [C C3]. apply andb_true_iff in C. destruct C as [C1 C2].
      destruct HU as [_ HU].
      destruct (lo_int a (HU a (or_introl eq_refl)) C1) as (s1 & x & H1 & ->).
      destruct (lo_int b (HU b (or_intror (or_introl eq_refl))) C2) as (s2 & y & H2 & ->).
      destruct (lo_int d (HU d (or_intror (or_intror (or_introl eq_refl)))) C3) as (s3 & z & H3 & ->).
      rewrite !toInt_ic by assumption. cbn [bind].
      apply (okr_ob lo k _ _ _ (mkB_ob _) lo_mkB).
      intros q Hq I e. injection Hq as <-. rewrite OP3. unfold nev. rewrite !eval_ic, !veqb_ZQ by assumption. reflexivity.
    + destruct (isCReal a && isCReal b && isCReal d) eqn:R.
      * apply andb_true_iff in R. destruct R as [R R3]. apply andb_true_iff in R. destruct R as [R1 R2].
        destruct HU as [X HU].
        assert (La : lo a) by (apply HU; cbn; auto). assert (Lb : lo b) by (apply HU; cbn; auto). assert (Ld : lo d) by (apply HU; cbn; auto).
        destruct X as [N|X].
        { exfalso. rewrite (li_real_int a), (li_real_int b), (li_real_int d) in C; try assumption; try discriminate;
          apply (no_real_li [a; b; d]); cbn; auto. }
        assert (NC : forall p, isCReal p = true -> isNumC p = true) by (intros p Hp; unfold isNumC; rewrite Hp; apply orb_true_r).
        destruct (exact_val c a La (NC a R1)) as (x & Hx & Vx); [apply X; try (apply isNumC_numS, NC, R1); cbn; auto|].
        destruct (exact_val c b Lb (NC b R2)) as (y & Hy & Vy); [apply X; try (apply isNumC_numS, NC, R2); cbn; auto|].
        destruct (exact_val c d Ld (NC d R3)) as (z & Hz & Vz); [apply X; try (apply isNumC_numS, NC, R3); cbn; auto|].
        apply (okr_ob lo k _ _ _ (mkB_ob _) lo_mkB). intros q Hq I e. injection Hq as <-. rewrite OP3. unfold nev. rewrite Vx, Vy, Vz.
        now rewrite (Qeq_bool_veqb (c_rv c a) (c_rv c b) x y), (Qeq_bool_veqb (c_rv c b) (c_rv c d) y z), (Qeq_bool_veqb (c_rv c a) (c_rv c d) x z) by assumption.
      * destruct (disdom2 c [a; b; d] NT_DISTINCT a b HU eq_refl) as (o & E & V); [cbn; auto|cbn; auto|]. rewrite E. cbn [bind].
        rewrite ob_true. destruct o as [[]|]; try apply okr_unk.
        destruct (disdom2 c [a; b; d] NT_DISTINCT a d HU eq_refl) as (o & E' & V'); [cbn; auto|cbn; auto|]. rewrite E'. cbn [bind].
        rewrite ob_true. destruct o as [[]|]; try apply okr_unk.
        destruct (disdom2 c [a; b; d] NT_DISTINCT b d HU eq_refl) as (o & E'' & V''); [cbn; auto|cbn; auto|]. rewrite E''. cbn [bind].
        rewrite ob_true. destruct o as [[]|]; try apply okr_unk.
        apply okr_ok; [apply lo_TRUE|]. intros I e. rewrite OP3, (V true eq_refl), (V' true eq_refl), (V'' true eq_refl). reflexivity.
  - cbn [simp]. unfold simpN. rewrite Hk', Hk.
    destruct (dis_all_ok c _ k (a :: b :: d :: f :: ps) HU Hk (incl_refl _) false) as (o & -> & W). cbn [bind].
    destruct o as [[]|].
    + apply okr_unk.
    + apply okr_ok; [apply lo_TRUE|]. intros I e. rewrite OP. destruct W as [W|[_ W]]; [discriminate|]. now rewrite W.
    + apply okr_ok; [apply lo_FALSE|]. intros I e. now rewrite OP, W.
Qed.

(** ** implication with four or more arguments *)
Lemma imp_scan_ok ps : Forall lo ps -> ps <> [] -> forall cst,
  exists o, imp_scan ps cst = Ok (ob o) /\
    forall b, o = Some b -> (b = false -> cst = true) /\ forall I e, impl (map (eval I e) ps) = b.
Proof.
  induction 1 as [|p ps Hp Hps IH]; intros Hn cst; [congruence|]. cbn [imp_scan].
  destruct ps as [|q ps].
  - destruct (tri p Hp) as [ -> | [ -> | [ -> -> ]]].
    + exists (Some true). split; [reflexivity|]. intros b Hb. injection Hb as <-. split; [discriminate|reflexivity].
    + destruct cst.
      * exists (Some false). split; [reflexivity|]. intros b Hb. injection Hb as <-. split; reflexivity.
      * exists None. split; [reflexivity|discriminate].
    + exists None. split; [now rewrite andb_false_r|discriminate].
  - assert (IM : forall I e, impl (map (eval I e) (p :: q :: ps)) = implb (truth (eval I e p)) (impl (map (eval I e) (q :: ps)))) by reflexivity.
    destruct (isFalse p) eqn:F.
    + apply (lo_false p Hp) in F. subst p. exists (Some true). split; [reflexivity|]. intros b Hb. injection Hb as <-.
      split; [discriminate|]. intros I e. now rewrite IM.
    + destruct (IH ltac:(discriminate) (cst && isTrue p)) as (o & E & V). exists o. split; [exact E|].
      intros b Hb. destruct (V b Hb) as [V1 V2]. split; [intros X; specialize (V1 X); now destruct cst|].
      intros I e. rewrite IM, V2. destruct b; [apply implb_true_r|]. specialize (V1 eq_refl).
      apply andb_true_iff in V1. destruct V1 as [_ V1]. apply (lo_true p Hp) in V1. now subst p.
Qed.
Lemma imp_ok c ps : (2 <= length ps)%nat -> length ps <> 3%nat -> Forall lo ps -> okr lo NT_IMPLIES ps (simp c NT_IMPLIES ps).
Proof.
  intros Hl H3 Hp. destruct ps as [|a [|b [|d [|f ps]]]]; cbn [length] in Hl, H3; try lia.
  - inversion Hp as [|? ? Ha Hb]; subst. inversion Hb; subst. apply bool_ok; [cbn; tauto|assumption|assumption].
  - cbn [simp]. unfold simpN. change (is_eqk NT_IMPLIES) with false. change (is_disk NT_IMPLIES) with false.
    change (keq NT_IMPLIES NT_IMPLIES) with true. cbv iota.
    destruct (imp_scan_ok _ Hp ltac:(discriminate) true) as (o & E & V).
    apply (okr_ob lo NT_IMPLIES _ _ o E lo_mkB). intros x Hx I e. cbn [map op_sem]. destruct (V x Hx) as [_ V2]. now rewrite <- (V2 I e).
Qed.

(** ** the whole domain *)
Lemma lits_lo ps : lits_ok ps -> Forall lo ps.
Proof. intros H. apply Forall_forall. intros p Hp C. now apply H. Qed.
Lemma lits_li ps : lits_ok ps -> no_real ps -> Forall li ps.
Proof. intros H N. apply Forall_forall. intros p Hp. split; [intros C; now apply H|now apply N]. Qed.
Lemma Forall_and2 {A} (P R : A -> Prop) l : Forall P l -> Forall R l -> Forall (fun x => P x /\ R x) l.
Proof. intros H K. rewrite Forall_forall in *. auto. Qed.
Definition anyt (t : term) : Prop := True.
Ltac two ps Hl := destruct ps as [|?l [|?r [|? ?]]]; try discriminate Hl.
Ltac one ps Hl := destruct ps as [|?p [|? ?]]; try discriminate Hl.
Lemma fold_sound c k ps : cfg_ok c -> fold_dom c k ps -> okr anyt k ps (simp c k ps).
Proof.
  intros Hc [HL HD]. pose proof (lits_lo ps HL) as HLo.
  assert (W : forall P, okr P k ps (simp c k ps) -> okr anyt k ps (simp c k ps)) by (intros P; apply okr_mono; intros; exact I).
  assert (LN : forall P : term -> Prop, In k [NT_ADD; NT_MUL; NT_IAND; NT_SUB; NT_MAX; NT_MIN] ->
    (forall l r, P l -> P r -> okr P k [l; r] (simp2 c k l r)) ->
    (forall u l m r, isUnknown u = true -> P r -> okr P k [l; m; r] (simp2 c k u r)) ->
    (2 <= length ps)%nat -> Forall P ps -> okr anyt k ps (simp c k ps)).
  { intros P Hk H1 H2 Hl HP. apply (W P). apply (leftfold_ok c k P anyv); auto using assoc_num, Pv_any.
    repeat (destruct Hk as [ <- | Hk ]); try contradiction; reflexivity. }
  (* one goal per kind of the domain *)
  destruct k; try contradiction HD;
  lazymatch goal with
  | |- okr anyt ?K ps _ =>
    lazymatch eval compute in (kin K [NT_AND; NT_OR; NT_XOR]) with
    | true =>
        apply (W lo); apply (leftfold_ok c K lo anyv);
        [reflexivity|apply Pv_any|intros; apply bool_ok; [cbn; tauto|assumption|assumption]
        | try (intros; now apply unk_and); try (intros; now apply unk_or); try (intros; apply unk_fold; [assumption|cbn; tauto])
        | apply assoc_bool; cbn; tauto|assumption|assumption]
    | false =>
    lazymatch eval compute in (kin K [NT_ADD; NT_MUL; NT_IAND]) with
    | true => destruct HD as [Hl HN]; apply (LN li);
        [cbn; tauto|intros; apply arith_ok; [cbn; tauto|assumption|assumption]|intros; apply unk_fold; [assumption|cbn; tauto]
        |assumption|now apply lits_li]
    | false =>
    lazymatch eval compute in (kin K [NT_MAX; NT_MIN]) with
    | true => destruct HD as (Hl & HN & HS); apply (LN (fun t => li t /\ numS t = true));
        [cbn; tauto|intros ? ? [? ?] [? ?]; apply minmax_ok; [cbn; tauto|assumption..]|intros; apply unk_minmax; [cbn; tauto|assumption]
        |assumption|apply Forall_and2; [now apply lits_li|assumption]]
    | false =>
    lazymatch eval compute in (kin K bv8) with
    | true => destruct HD as (Hl & w & HV); apply (W (lb w)); apply (leftfold_ok c K (lb w) (bvV w));
        [reflexivity|apply Pv_lb|intros; apply bv_ok; [cbn; tauto|assumption|assumption]|intros; apply unk_fold; [assumption|cbn; tauto]
        |apply assoc_bv; cbn; tauto|assumption|apply Forall_and2; assumption]
    | false =>
    lazymatch eval compute in (kin K bv_comp_kinds) with
    | true => destruct HD as (Hl & w & HV); two ps Hl;
        apply Forall_and2 with (1 := HLo) in HV; inversion HV as [|? ? H1 H2]; subst; inversion H2 as [|? ? H3 _]; subst;
        destruct (bvcmp_ok c K w l r ltac:(cbn; tauto) H1 H3) as (o & E & V); apply (okr_ob anyt K _ _ o E (fun _ => I));
        intros b Hb II e; cbn [map op_sem]; rewrite cmpop2; do 2 f_equal; exact (V b Hb II e)
    | false =>
    lazymatch eval compute in (kin K arith_comp_kinds) with
    | true => destruct HD as (Hl & HX); two ps Hl; inversion HLo as [|? ? H1 H2]; subst; inversion H2 as [|? ? H3 _]; subst;
        destruct (cmp_ok c K l r ltac:(cbn; tauto) H1 H3 HX) as (o & E & V); apply (okr_ob anyt K _ _ o E (fun _ => I));
        intros b Hb II e; cbn [map op_sem]; rewrite cmpop2; do 2 f_equal; exact (V b Hb II e)
    | false =>
    lazymatch eval compute in (kin K eq_kinds) with
    | true => destruct HD as (Hl & HX & HA); apply (W lo), eq_nary; [reflexivity|assumption|];
        split; [assumption|]; intros p Hp; split; [rewrite Forall_forall in HLo; now apply HLo|now apply HA]
    | false =>
    lazymatch eval compute in (kin K distinct_kinds) with
    | true => destruct HD as (Hl & HX); apply (W lo), dis_nary; [reflexivity|assumption|];
        split; [assumption|]; intros p Hp; rewrite Forall_forall in HLo; now apply HLo
    | false =>
    lazymatch eval compute in (kin K [NT_NEG; NT_ABS; NT_CEIL; NT_FLOOR; NT_ROUND; NT_TO_INT; NT_TO_REAL; NT_IS_INT]) with
    | true => destruct HD as (Hl & HN); one ps Hl; apply (W lo), simp1_num; [cbn; tauto|];
        pose proof (lits_li _ HL HN) as Q; now inversion Q
    | false =>
    lazymatch eval compute in (kin K [NT_DIV_INT; NT_MOD]) with
    | true => destruct HD as (HN & HD); destruct ps as [|l [|r [|? ?]]]; try contradiction HD; destruct HD as [H1 H2];
        pose proof (lits_li _ HL HN) as Q; inversion Q as [|? ? Q1 Q2]; subst; inversion Q2; subst;
        apply (W li), divmod_ok; [cbn; tauto|assumption..]
    | false => idtac
    end end end end end end end end end end
  end.
  - (* NOT *) one ps HD. apply (W lo), simp1_not. now inversion HLo.
  - (* IMPLIES *) apply (W lo), imp_ok; tauto.
  - (* ITE *) destruct ps as [|b [|l [|r [|? ?]]]]; try discriminate HD. eapply W, ite_ok. now inversion HLo.
  - (* SUB *) destruct HD as (Hl & HN & HS). apply (LN (fun t => li t /\ numeric t)).
    + cbn; tauto.
    + intros l r [? ?] [? ?]. now apply sub_ok.
    + intros u l m r U [? ?]. now apply unk_sub.
    + assumption.
    + apply Forall_and2; [now apply lits_li|assumption].
  - (* IS_EVEN *) destruct HD as (Hl & HS). one ps Hl. apply (W lo), simp1_par; [cbn; tauto|now inversion HLo|now inversion HS].
  - (* IS_ODD *) destruct HD as (Hl & HS). one ps Hl. apply (W lo), simp1_par; [cbn; tauto|now inversion HLo|now inversion HS].
  - (* BV_NOT *) one ps HD; apply (W lo), simp1_bv; [cbn; tauto|now inversion HLo].
  - (* BV_NEG *) one ps HD; apply (W lo), simp1_bv; [cbn; tauto|now inversion HLo].
  - (* BV_CONCAT *) destruct ps as [|l [|r [|? ?]]]; try contradiction HD. destruct HD as (w & w' & H1 & H2 & H3).
    inversion HLo as [|? ? L1 L2]; subst. inversion L2 as [|? ? L3 _]; subst. apply (W lo). now apply (concat_ok c w w').
  - (* BV_TO_NAT *) one ps HD; apply (W lo), simp1_bvz; [cbn; tauto|now inversion HLo].
  - (* BV_TO_INT *) one ps HD; apply (W lo), simp1_bvz; [cbn; tauto|now inversion HLo].
  - (* STR_CONCAT *) apply (W lo), (leftfold_ok c NT_STR_CONCAT lo anyv);
      [reflexivity|apply Pv_any|intros; now apply strcat_ok|intros; apply unk_fold; [assumption|cbn; tauto]|apply assoc_str|assumption|assumption].
Qed.

(** ** the order of the arguments *)
Lemma fold_left_comm {A} (f : A -> A -> A) (P : A -> Prop) :
  (forall a b, P a -> P b -> P (f a b)) -> (forall a b, P a -> P b -> f a b = f b a) ->
  (forall a b d, P a -> P b -> P d -> f (f a b) d = f a (f b d)) ->
  forall l a b, P a -> P b -> Forall P l -> fold_left f l (f a b) = f a (fold_left f l b).
Proof.
  intros HP HC HA. induction l as [|x l IH]; intros a b Ha Hb Hl; [reflexivity|].
  inversion Hl as [|? ? Hx Hl']; subst. cbn [fold_left]. rewrite HA by assumption. apply IH; auto.
Qed.
Lemma fold_left_P {A} (f : A -> A -> A) (P : A -> Prop) : (forall a b, P a -> P b -> P (f a b)) ->
  forall l a, P a -> Forall P l -> P (fold_left f l a).
Proof. intros HP. induction l as [|x l IH]; intros a Ha Hl; [exact Ha|]. inversion Hl; subst. cbn. apply IH; auto. Qed.
Lemma fold1_perm {A} (f : A -> A -> A) (P : A -> Prop) :
  (forall a b, P a -> P b -> P (f a b)) -> (forall a b, P a -> P b -> f a b = f b a) ->
  (forall a b d, P a -> P b -> P d -> f (f a b) d = f a (f b d)) ->
  forall l m, Permutation l m -> Forall P l ->
  match l, m with
  | a :: l', b :: m' => fold_left f l' a = fold_left f m' b
  | [], [] => True
  | _, _ => False
  end.
Proof.
  intros HP HC HA. induction 1 as [|x l m Hp IH|x y l|l m n Hp1 IH1 Hp2 IH2]; intros Hl.
  - exact I.
  - inversion Hl as [|? ? Hx Hl']; subst. specialize (IH Hl').
    destruct l as [|a l'], m as [|b m']; try contradiction IH.
    + reflexivity.
    + inversion Hl' as [|? ? Ha Hl'']; subst.
      assert (Hm : Forall P (b :: m')) by (eapply Permutation_Forall; eassumption). inversion Hm as [|? ? Hb Hm']; subst.
      cbn [fold_left]. rewrite !(fold_left_comm f P) by assumption. now rewrite IH.
  - inversion Hl as [|? ? Hx Hl']; subst. inversion Hl' as [|? ? Hy Hl'']; subst. cbn [fold_left]. now rewrite HC.
  - assert (Hm : Forall P m) by (eapply Permutation_Forall; eassumption).
    specialize (IH1 Hl). specialize (IH2 Hm). destruct l, m, n; try contradiction; try exact I. congruence.
Qed.
Lemma max_lem (a b : Qc) : (if Qcleb a b then b else a) = (if Qcleb b a then a else b).
Proof.
  destruct (Qcleb a b) eqn:E, (Qcleb b a) eqn:F; try reflexivity.
  - apply Qcleb_spec in E, F. now apply Qcle_antisym.
  - rewrite Qcleb_negb in E, F. apply negb_false_iff in E, F. apply Qcltb_spec in E, F.
    exfalso. exact (Qclt_not_eq _ _ (Qclt_trans _ _ _ E F) eq_refl).
Qed.
Lemma min_lem (a b : Qc) : (if Qcleb b a then b else a) = (if Qcleb a b then a else b).
Proof.
  destruct (Qcleb a b) eqn:E, (Qcleb b a) eqn:F; try reflexivity.
  - apply Qcleb_spec in E, F. now apply Qcle_antisym.
  - rewrite Qcleb_negb in E, F. apply negb_false_iff in E, F. apply Qcltb_spec in E, F.
    exfalso. exact (Qclt_not_eq _ _ (Qclt_trans _ _ _ E F) eq_refl).
Qed.
Lemma op_perm_num k vs ws : In k [NT_ADD; NT_MUL; NT_IAND; NT_MAX; NT_MIN; NT_AND; NT_OR; NT_XOR] -> Permutation vs ws ->
  op_sem k vs = op_sem k ws.
Proof.
  intros Hk Hp.
  assert (F1 : forall (g : value -> Qc) (f : Qc -> Qc -> Qc), (forall a b, f a b = f b a) -> (forall a b d, f (f a b) d = f a (f b d)) ->
    match vs with v :: tl => Some (VNum (fold_left (fun a w => f a (g w)) tl (g v))) | [] => None end =
    match ws with v :: tl => Some (VNum (fold_left (fun a w => f a (g w)) tl (g v))) | [] => None end).
  { intros g f HC HA. pose proof (fold1_perm f (fun _ => True)) as G.
    specialize (G (fun _ _ _ _ => I) (fun a b _ _ => HC a b) (fun a b d _ _ _ => HA a b d) (map g vs) (map g ws)
                 (Permutation_map g Hp)).
    assert (GT : Forall (fun _ : Qc => True) (map g vs)) by (apply Forall_forall; auto). specialize (G GT).
    destruct vs as [|v vs], ws as [|w ws]; cbn [map] in G; try contradiction; [reflexivity|].
    do 2 f_equal.
    assert (M : forall l a, fold_left f (map g l) a = fold_left (fun a w => f a (g w)) l a).
    { induction l as [|x l IH]; intros a; [reflexivity|]. cbn. apply IH. }
    now rewrite <- !M. }
  repeat (destruct Hk as [ <- | Hk ]); try contradiction; cbn [op_sem].
  - assert (E : sumq vs = sumq ws).
    { unfold sumq. clear F1. induction Hp; cbn [fold_right]; try reflexivity; [now rewrite IHHp|ring|congruence]. }
    rewrite E. destruct vs, ws; try reflexivity; [now apply Permutation_nil in Hp|apply Permutation_sym, Permutation_nil in Hp; discriminate].
  - assert (E : prodq vs = prodq ws).
    { unfold prodq. clear F1. induction Hp; cbn [fold_right]; try reflexivity; [now rewrite IHHp|ring|congruence]. }
    rewrite E. destruct vs, ws; try reflexivity; [now apply Permutation_nil in Hp|apply Permutation_sym, Permutation_nil in Hp; discriminate].
  - pose proof (fold1_perm Z.land (fun _ => True)) as G.
    specialize (G (fun _ _ _ _ => I) (fun a b _ _ => Z.land_comm a b) (fun a b d _ _ _ => eq_sym (Z.land_assoc a b d))
      (map (fun v => qfloor (num v)) vs) (map (fun v => qfloor (num v)) ws) (Permutation_map _ Hp)).
    assert (GT : Forall (fun _ : Z => True) (map (fun v => qfloor (num v)) vs)) by (apply Forall_forall; auto). specialize (G GT).
    destruct vs as [|v vs], ws as [|w ws]; cbn [map] in G; try contradiction; [reflexivity|].
    do 3 f_equal.
    assert (M : forall l a, fold_left Z.land (map (fun v => qfloor (num v)) l) a = fold_left (fun a w => Z.land a (qfloor (num w))) l a).
    { induction l as [|x l IH]; intros a; [reflexivity|]. cbn. apply IH. }
    now rewrite <- !M.
  - apply (F1 num (fun a b => if Qcleb a b then b else a)).
    + apply max_lem.
    + intros a b d. destruct (Qcleb a b) eqn:E1, (Qcleb b d) eqn:E2; rewrite ?E1, ?E2; try reflexivity.
      * apply Qcleb_spec in E1, E2. replace (Qcleb a d) with true; [reflexivity|]. symmetry. apply Qcleb_spec. now apply (Qcle_trans _ b).
      * replace (Qcleb a d) with false; [reflexivity|]. symmetry. rewrite Qcleb_negb in *. apply negb_false_iff.
        apply negb_false_iff in E1, E2. apply Qcltb_spec in E1, E2. apply Qcltb_spec. now apply (Qclt_trans _ b).
  - apply (F1 num (fun a b => if Qcleb b a then b else a)).
    + intros a b. apply min_lem.
    + intros a b d. destruct (Qcleb b a) eqn:E1, (Qcleb d b) eqn:E2; rewrite ?E1, ?E2; try reflexivity.
      * apply Qcleb_spec in E1, E2. replace (Qcleb d a) with true; [reflexivity|]. symmetry. apply Qcleb_spec. now apply (Qcle_trans _ b).
      * replace (Qcleb d a) with false; [reflexivity|]. symmetry. rewrite Qcleb_negb in *. apply negb_false_iff.
        apply negb_false_iff in E1, E2. apply Qcltb_spec in E1, E2. apply Qcltb_spec. now apply (Qclt_trans _ b).
  - do 2 f_equal. clear F1. induction Hp; cbn [forallb]; try reflexivity; [now rewrite IHHp|destruct (truth x), (truth y); reflexivity|congruence].
  - do 2 f_equal. clear F1. induction Hp; cbn [existsb]; try reflexivity; [now rewrite IHHp|destruct (truth x), (truth y); reflexivity|congruence].
  - do 2 f_equal. clear F1. unfold xorl. generalize false. induction Hp; intros b; cbn [fold_left]; try reflexivity.
    + apply IHHp.
    + f_equal. destruct b, (truth x), (truth y); reflexivity.
    + congruence.
Qed.
Lemma op_perm_eq vs ws : Permutation vs ws -> op_sem NT_EQ vs = op_sem NT_EQ ws.
Proof.
  intros Hp. pose proof (Permutation_length Hp) as HL.
  destruct vs as [|a [|b vs]].
  - now apply Permutation_nil in Hp; subst.
  - apply Permutation_length_1_inv in Hp. now subst.
  - rewrite !eq_op by (try reflexivity; rewrite <- ?HL; cbn; lia). do 2 f_equal.
    rewrite (chain_all a) by (now left). rewrite (chain_all a ws) by (eapply Permutation_in; [exact Hp|now left]).
    clear HL. set (l := a :: b :: vs) in *. induction Hp; cbn [forallb]; try reflexivity; [now rewrite IHHp|destruct (veqb a x), (veqb a y); reflexivity|congruence].
Qed.
Lemma op_perm_dis vs ws : Permutation vs ws -> op_sem NT_DISTINCT vs = op_sem NT_DISTINCT ws.
Proof.
  intros Hp. pose proof (Permutation_length Hp) as HL.
  destruct vs as [|a [|b vs]].
  - now apply Permutation_nil in Hp; subst.
  - apply Permutation_length_1_inv in Hp. now subst.
  - rewrite !dis_op by (try reflexivity; rewrite <- ?HL; cbn; lia). do 2 f_equal.
    clear HL. set (l := a :: b :: vs) in *. clearbody l. clear a b vs.
    assert (F : forall (g : value -> bool) l m, Permutation l m -> forallb g l = forallb g m).
    { intros g l0 m0 H. induction H; cbn [forallb]; try reflexivity; [now rewrite IHPermutation|destruct (g x), (g y); reflexivity|congruence]. }
    induction Hp; cbn [pairwise forallb]; try reflexivity.
    + rewrite IHHp. f_equal. now apply F.
    + rewrite (veqb_sym y x). destruct (veqb x y), (forallb _ l), (forallb _ l); reflexivity.
    + congruence.
Qed.
Lemma op_perm_bv k w vs ws : In k [NT_BV_ADD; NT_BV_MUL; NT_BV_AND; NT_BV_OR; NT_BV_XOR] -> Permutation vs ws -> Forall (bvV w) vs ->
  op_sem k vs = op_sem k ws.
Proof.
  intros Hk Hp Hv. assert (Hk8 : In k bv8) by (cbn in *; tauto). rewrite !op_sem_bv8 by assumption.
  pose proof (fold1_perm (fun acc v => VBV w (uv w (bvf k (bvv acc) (bvv v)))) (bvV w)) as G.
  assert (Hw : Forall (bvV w) ws) by (eapply Permutation_Forall; eassumption).
  assert (GR : match vs, ws with
    | a :: l', b :: m' => fold_left (fun acc v => VBV w (uv w (bvf k (bvv acc) (bvv v)))) l' a = fold_left (fun acc v => VBV w (uv w (bvf k (bvv acc) (bvv v)))) m' b
    | [], [] => True | _, _ => False end).
  { apply G; [| | |exact Hp|exact Hv].
    - intros a b _ _. eexists. split; [apply uv_range|reflexivity].
    - intros a b _ _. do 2 f_equal. repeat (destruct Hk as [ <- | Hk ]); try contradiction; cbn [bvf];
        [apply Z.add_comm|apply Z.mul_comm|apply Z.land_comm|apply Z.lor_comm|apply Z.lxor_comm].
    - intros a b d (x & Hx & ->) (y & Hy & ->) (z & Hz & ->). cbn [bvv]. do 1 f_equal.
      assert (UU : forall n, uv w (uv w n) = uv w n) by (intros n; unfold uv; apply Z.mod_mod; pose proof (pow2_pos w); lia).
      rewrite <- (bvf_cong k w (uv w (bvf k x y)) z), <- (bvf_cong k w x (uv w (bvf k y z))) by assumption.
      rewrite !UU, !bvf_cong by assumption. f_equal.
      repeat (destruct Hk as [ <- | Hk ]); try contradiction; cbn [bvf].
      + lia.
      + apply eq_sym, Z.mul_assoc.
      + apply eq_sym, Z.land_assoc.
      + apply eq_sym, Z.lor_assoc.
      + apply Z.lxor_assoc. }
  destruct vs as [|a vs], ws as [|b ws]; try contradiction; [reflexivity|].
  inversion Hv as [|? ? (x & Hx & ->) Hv']; subst. inversion Hw as [|? ? (y & Hy & ->) Hw']; subst. cbn [bv2]. now rewrite GR.
Qed.
Lemma fold_dom_perm c k ps qs I e : fold_dom c k ps -> isCommutative k = true -> Permutation qs ps ->
  op_sem k (map (eval I e) qs) = op_sem k (map (eval I e) ps).
Proof.
  intros [_ HD] Hk Hp. apply (Permutation_map (eval I e)) in Hp.
  destruct k; try discriminate Hk; try (apply op_perm_num; [cbn; tauto|assumption]);
    try (now apply op_perm_eq); try (now apply op_perm_dis).
  all: destruct HD as (_ & w & HV); apply (op_perm_bv _ w); [cbn; tauto|assumption|];
    apply Permutation_sym in Hp; eapply Permutation_Forall; [exact Hp|]; apply Forall_forall; intros v Hv';
    apply in_map_iff in Hv'; destruct Hv' as (p & <- & Hpp); rewrite Forall_forall in HV; destruct (HV p Hpp I e) as (x & Hx & E); exists x; auto.
Qed.
Lemma fold_dom_op c k ps : fold_dom c k ps -> ps <> [] /\ quantk k = false.
Proof.
  intros [_ HD]. split; [|destruct k; try reflexivity; contradiction].
  destruct ps; [|discriminate]. destruct k; cbn in HD; try contradiction; try lia; destruct HD as [HD HD']; try lia; contradiction.
Qed.
Lemma mkOper_sound c s k ps : cfg_ok c -> fold_dom c k ps ->
  exists t, mkOper c s k ps = Ok t /\ forall I e, eval I e t = eval I e (T k s (kindToString k) ps).
Proof.
  intros Hc HD. destruct (fold_dom_op c k ps HD) as [Hn Hq].
  destruct (fold_sound c k ps Hc HD) as (r & E & D). unfold mkOper. rewrite E. cbn [bind].
  destruct (isUnknown r) eqn:U.
  - eexists. split; [reflexivity|]. intros I e. unfold mkInternal. destruct (isCommutative k) eqn:C; [|reflexivity].
    pose proof (ok_sort c Hc ps) as P.
    rewrite !eval_app; try assumption.
    + unfold app_sem. assert (X : op_sem k (map (eval I e) (c_sort c ps)) = op_sem k (map (eval I e) ps)) by (now apply (fold_dom_perm c)).
      rewrite X. destruct (op_sem k (map (eval I e) ps)) eqn:Y; [reflexivity|]. exfalso.
      (* every kind of the domain that is commutative has a meaning *)
      destruct HD as [_ HD]. destruct k; try discriminate C; cbn in HD; destruct ps as [|a [|b ps]]; cbn in HD; try lia; cbn in Y; try discriminate Y;
        destruct HD as (HD1 & w & HV); try lia; inversion HV as [|? ? V1 _]; subst; destruct (V1 I e) as (x & _ & EX); rewrite EX in Y; discriminate Y.
    + intros Z. rewrite Z in P. apply Permutation_nil in P. congruence.
  - exists r. split; [reflexivity|]. intros I e. destruct D as [D|[_ D]]; [congruence|].
    symmetry. apply eval_op; auto.
Qed.
