(** Normalisation of comparisons: the comparisons and the theorem. *)
From Coq Require Import QArith Qcanon Lqa Permutation.
From Verif Require Import Base KindModel SortModel TermModel BVSpec UtilSpec DagProofs SortProofs Sem SemProofs ArrayModel SimpModel OpModel OpSpec
  OpProofs OpProofs2 OpProofs3 OpProofs4 OpProofs5 ShapeProofs TypedSpec TypedProofs ArrSimpModel NormModel NormSpec NormProofs.
Open Scope Z_scope.

Definition cmpk := NT_EQ :: NT_DISTINCT :: arith_comp_kinds.
Definition cv (k : kind) (p q : Qc) : bool :=
  match k with
  | NT_EQ => veqb (VNum p) (VNum q) | NT_DISTINCT => negb (veqb (VNum p) (VNum q))
  | NT_LE => Qcleb p q | NT_LT => Qcltb p q | NT_GE => Qcleb q p | _ => Qcltb q p
  end.
Lemma cmp_eval k s n x y I e p q : In k cmpk -> eval I e x = VNum p -> eval I e y = VNum q -> eval I e (T k s n [x; y]) = VBool (cv k p q).
Proof.
  intros Hk X Y. apply eval_op; [discriminate|repeat (destruct Hk as [ <- | Hk ]); try contradiction; reflexivity|].
  cbn [map]. rewrite X, Y. repeat (destruct Hk as [ <- | Hk ]); try contradiction; cbn [op_sem cmpop chain pairwise forallb cv andb];
    unfold vle, vlt, vge, vgt; cbn [num andb]; rewrite ?andb_true_r; reflexivity.
Qed.
Lemma this_sub (p q : Qc) : (this (p - q)%Qc == this p - this q)%Q.
Proof. unfold Qcminus, Qcplus, Qcopp. cbn [this Q2Qc]. rewrite !Qred_correct. reflexivity. Qed.
Lemma bool_iff (a b : bool) : (a = true <-> b = true) -> a = b.
Proof. destruct a, b; intuition congruence. Qed.
Lemma le_sub (p q : Qc) : Qcle (p - q) (Q2Qc 0) <-> Qcle p q.
Proof. unfold Qcle. rewrite this_sub. change (this (Q2Qc 0)) with 0%Q. split; intros; lra. Qed.
Lemma ge_sub (p q : Qc) : Qcle (Q2Qc 0) (p - q) <-> Qcle q p.
Proof. unfold Qcle. rewrite this_sub. change (this (Q2Qc 0)) with 0%Q. split; intros; lra. Qed.
Lemma lt_sub (p q : Qc) : Qclt (p - q) (Q2Qc 0) <-> Qclt p q.
Proof. unfold Qclt. rewrite this_sub. change (this (Q2Qc 0)) with 0%Q. split; intros; lra. Qed.
Lemma gt_sub (p q : Qc) : Qclt (Q2Qc 0) (p - q) <-> Qclt q p.
Proof. unfold Qclt. rewrite this_sub. change (this (Q2Qc 0)) with 0%Q. split; intros; lra. Qed.
Lemma eq_sub (p q : Qc) : (p - q)%Qc = Q2Qc 0 <-> p = q.
Proof. split; [|intros ->; ring]. intros H. replace p with ((p - q) + q)%Qc by ring. rewrite H. ring. Qed.
Lemma cv_sub k p q : In k cmpk -> cv k (p - q)%Qc (Q2Qc 0) = cv k p q.
Proof.
  assert (E : veqb (VNum (p - q)%Qc) (VNum (Q2Qc 0)) = veqb (VNum p) (VNum q)).
  { apply bool_iff. rewrite !veqb_spec. split; intros H; f_equal; apply eq_sub; congruence. }
  intros Hk. repeat (destruct Hk as [ <- | Hk ]); try contradiction; cbn [cv]; try now rewrite E.
  - apply bool_iff. rewrite !Qcleb_spec. apply le_sub.
  - apply bool_iff. rewrite !Qcltb_spec. apply lt_sub.
  - apply bool_iff. rewrite !Qcleb_spec. apply ge_sub.
  - apply bool_iff. rewrite !Qcltb_spec. apply gt_sub.
Qed.
(** the difference is not a constant *)
Lemma sub_shape c s a b d : wt CR a -> wt CR b -> isConst b = false -> mkOper c s NT_SUB [a; b] = Ok d -> isConst d = false.
Proof.
  intros Wa Wb C H.
  assert (Cb : isCInt b = false /\ isCReal b = false) by (unfold isCInt, isCReal; rewrite C; split; reflexivity).
  destruct Cb as [Ci Cr]. unfold mkOper in H. cbn [simp simp2] in H. rewrite Ci, Cr, !andb_false_r in H.
  assert (NU : forall k, isConst (mkInternal c s k [a; b]) = kin k const_kinds) by reflexivity.
  destruct (arithOk a b); cbn [negb bind unk] in H.
  2:{ change (isUnknown UNKNOWN) with true in H. cbv iota in H. injection H as <-. now rewrite NU. }
  destruct (isZero c a) as [za| | | | |]; cbn [bind] in H; try discriminate H. destruct za.
  - unfold mkNeg, simp1 in H. cbn [kin existsb float1_kinds nary1_kinds keq orb] in H. rewrite Ci, Cr in H. cbn [bind unk] in H.
    change (isUnknown UNKNOWN) with true in H. cbv iota in H. change (isUnknown (T NT_NEG (t_sort b) (kindToString NT_NEG) [b])) with false in H. cbv iota in H.
    injection H as <-. reflexivity.
  - assert (Z : isZero c b = Ok false) by (unfold isZero; rewrite Ci, Cr; destruct (isCRoot b); reflexivity). rewrite Z in H. cbn [bind unk] in H.
    change (isUnknown UNKNOWN) with true in H. cbv iota in H. injection H as <-. now rewrite NU.
Qed.
Section Norm2.
Variable c : cfg.
Variable ptr : list term -> list term.
Hypothesis Hc : cfg_ok c.
Hypothesis Hz : (c_rv c real0 == 0)%Q.
Lemma cmp_node k n x y : In k cmpk -> numeric x -> numeric y -> fold_dom c k [x; y] -> (In k arith_comp_kinds -> isConst y = true) ->
  isConst x = true \/ isConst y = true -> okb c (T k boolS n [x; y]).
Proof.
  intros Hk X Y D N1 N2. constructor.
  - reflexivity.
  - intros I e. destruct (X I e) as (p & Ep). destruct (Y I e) as (q & Eq). exists (cv k p q). now apply cmp_eval.
  - unfold isConst. cbn [t_kind]. repeat (destruct Hk as [ <- | Hk ]); try contradiction; discriminate.
  - unfold isErr, isUnknown, isk. cbn [t_kind]. repeat (destruct Hk as [ <- | Hk ]); try contradiction; now repeat split.
  - destruct Hk as [ <- | [ <- | Hk ]]; [apply F_eq; [now left|exact N2]|apply F_eq; [now right; left|exact N2]|]. apply F_le; [exact Hk|now apply N1].
  - intros E. unfold isEq in E. cbn [t_kind] in E. destruct Hk as [ <- | Hk ]; [|repeat (destruct Hk as [ <- | Hk ]); try contradiction; discriminate E]. now exists x, y.
Qed.
Lemma cmp_ok k n a b : In k cmpk -> arith_arg a -> arith_arg b ->
  exists u f, normComp c (T k boolS n [a; b]) [(a, false); (b, false)] = Ok (u, f) /\ okb c u /\ (f = false -> u = T k boolS n [a; b]) /\
    forall I e, eval I e u = eval I e (T k boolS n [a; b]).
Proof.
  intros Hk [Wa _] [Wb _]. unfold normComp. cbn [t_ch length Nat.eqb t_kind t_sort].
  assert (CA : condAssert (c_dbg c) true = Ok tt) by (unfold condAssert; destruct (c_dbg c); reflexivity). rewrite CA. cbn [bind].
  pose proof (wt_numeric CR a (or_intror eq_refl) Wa) as Na. pose proof (wt_numeric CR b (or_intror eq_refl) Wb) as Nb.
  destruct (isConst b) eqn:Cb; cbn [negb orb].
  - exists (T k boolS n [a; b]), false. split; [reflexivity|]. split; [|split; reflexivity]. apply cmp_node; auto.
    assert (F : Forall2 wt [CR; CR] [a; b]) by (constructor; [exact Wa|constructor; [exact Wb|constructor]]).
    destruct Hk as [ <- | [ <- | Hk ]].
    + apply (sig_dom c NT_EQ CB [CR; CR] [a; b]); [apply (S_eq NT_EQ CR 2); [now left|discriminate|lia]|reflexivity|exact F].
    + apply (sig_dom c NT_DISTINCT CB [CR; CR] [a; b]); [apply (S_eq NT_DISTINCT CR 2); [now right; left|discriminate|lia]|reflexivity|exact F].
    + apply (sig_dom c k CB [CR; CR] [a; b]); [now apply S_cmp|repeat (destruct Hk as [ <- | Hk ]); try contradiction; reflexivity|exact F].
  - destruct (mkOper_wt c (t_sort a) NT_SUB CR [CR; CR] [a; b] Hc) as (d & Ed & Wd & Vd).
    { apply (S_arith NT_SUB CR 2); [right; right; now left|now right|lia]. }
    { apply wt_sort; [exact Wa|discriminate]. }
    { constructor; [exact Wa|constructor; [exact Wb|constructor]]. }
    rewrite Ed. cbn [bind]. pose proof (sub_shape c _ a b d Wa Wb Cb Ed) as Cd. pose proof (wt_numeric CR d (or_intror eq_refl) Wd) as Nd.
    assert (Z : exists z, getZero (t_sort a) = Ok z /\ isConst z = true /\ literal z /\ isArray z = false /\ (forall I e, eval I e z = VNum (Q2Qc 0)) /\ reals_exact c [d; z] /\ reals_exact c [z; d]).
    { assert (RS := wt_sort CR a Wa ltac:(discriminate)). cbn [rsort] in RS. destruct RS as [R|[R|R]]; rewrite R.
      - exists (mkConstInt 0). split; [reflexivity|]. split; [reflexivity|]. split; [apply (LInt 0 intorealS); now right|]. split; [reflexivity|]. split; [reflexivity|].
        split; left; intros p [ <- | [ <- | []]]; try congruence; reflexivity.
      - exists real0. split; [reflexivity|]. split; [reflexivity|]. split; [apply (LReal _ (Q2Qc 0)); reflexivity|]. split; [reflexivity|]. split; [reflexivity|].
        split; right; intros p [ <- | [ <- | []]] X; try congruence; intros _; exists (Q2Qc 0); (split; [reflexivity|exact Hz]).
      - exists (mkConstInt 0). split; [reflexivity|]. split; [reflexivity|]. split; [apply (LInt 0 intorealS); now right|]. split; [reflexivity|]. split; [reflexivity|].
        split; left; intros p [ <- | [ <- | []]]; try congruence; reflexivity. }
    destruct Z as (z & Ez & Cz & Lz & Az & Vz & R1 & R2). rewrite Ez. cbn [bind].
    assert (Nz : numeric z) by (intros I e; eexists; apply Vz).
    assert (D : forall x y, [x; y] = [d; z] \/ [x; y] = [z; d] -> fold_dom c k [x; y]).
    { intros x y XY. assert (LA : lits_ok [x; y] /\ (forall p, In p [x; y] -> isArray p = false) /\ reals_exact c [x; y]).
      { pose proof (wt_not_array CR d Wd ltac:(discriminate)) as Ad. destruct XY as [X|X]; injection X as -> ->; (split; [|split; [|assumption]]); intros p [ <- | [ <- | []]]; auto; congruence. }
      destruct LA as (X1 & X2 & X3). split; [exact X1|]. repeat (destruct Hk as [ <- | Hk ]); try contradiction; (split; [first [reflexivity|cbn; lia]|]); try exact X3. split; assumption. }
    destruct (mkOper_sound c boolS k [d; z] Hc (D d z (or_introl eq_refl))) as (u & Eu & Vu). rewrite Eu. cbn [bind]. exists u, true. split; [reflexivity|].
    split; [|split; [discriminate|]].
    + assert (SH : u = TRUE \/ u = FALSE \/ u = mkInternal c boolS k [d; z]).
      { apply (mkOper_shape c boolS k [d; z] u); [cbn; lia|repeat (destruct Hk as [ <- | Hk ]); try contradiction; cbn; tauto|now left|exact Eu]. }
      destruct SH as [ -> | [ -> | -> ]]; [apply ok_true|apply ok_false|]. unfold mkInternal. destruct (isCommutative k) eqn:Cm; [|apply cmp_node; auto].
      assert (NK : ~ In k arith_comp_kinds) by (intros Hq; repeat (destruct Hq as [ <- | Hq ]); try contradiction; discriminate Cm).
      destruct (Permutation_length_2_inv (Permutation_sym (ok_sort c Hc [d; z]))) as [P|P]; rewrite P; (apply cmp_node; auto); intros Hq; now destruct NK.
    + intros I e. rewrite Vu. destruct (Na I e) as (p & Ep). destruct (Nb I e) as (q & Eq).
      rewrite (cmp_eval k boolS n a b I e p q Hk Ep Eq). rewrite (cmp_eval k boolS _ d z I e (p - q)%Qc (Q2Qc 0) Hk); [now rewrite cv_sub| |apply Vz].
      rewrite Vd. apply eval_op; [discriminate|reflexivity|]. cbn [map]. rewrite Ep, Eq. reflexivity.
Qed.
(** Boolean terms are not arithmetic terms *)
Lemma nt_bool t : nt t -> t_sort t = boolS.
Proof. intros H. destruct H; reflexivity. Qed.
Lemma nt_not_arith t : nt t -> isArithTerm t = false /\ isErr t = false.
Proof.
  intros H. assert (S := nt_bool t H). unfold isArithTerm, numS, sis. rewrite S. cbn. rewrite ?andb_false_r, ?orb_false_r.
  destruct H as [k n A| | | |k n ps A|n ps|n a b|n a b d|n ps|k n a b A]; cbn [t_kind]; try (split; reflexivity).
  - destruct k; try discriminate A; split; reflexivity.
  - repeat (destruct A as [ <- | A ]); try contradiction; split; reflexivity.
  - repeat (destruct A as [ <- | A ]); try contradiction; split; reflexivity.
Qed.
Definition good (t : term) : Prop :=
  exists u f, norm c ptr t = Ok (u, f) /\ okb c u /\ (f = false -> u = t) /\ forall I e, eval I e u = eval I e t.
Lemma list_good ch : Forall good ch -> exists vs, norm_list (norm c ptr) ch = Ok vs /\ length vs = length ch /\ Forall (okb c) (map fst vs) /\
  (existsb snd vs = false -> map fst vs = ch) /\ forall I e, map (eval I e) (map fst vs) = map (eval I e) ch.
Proof.
  induction 1 as [|x l (u & f & E & O & S & V) F (vs & E1 & L1 & O1 & S1 & V1)].
  - exists []. repeat split; constructor.
  - exists ((u, f) :: vs). cbn [norm_list]. rewrite E. cbn [bind]. fold (norm_list (norm c ptr)). rewrite E1. cbn [bind]. split; [reflexivity|]. split; [cbn; now rewrite L1|].
    split; [cbn; now constructor|]. split.
    + cbn [existsb snd map fst]. intros X. apply orb_false_iff in X. destruct X as [X Y]. now rewrite (S X), (S1 Y).
    + intros I e. cbn [map fst]. now rewrite V, V1.
Qed.
Lemma conn_good k n ch : args k (length ch) -> norm_leaf (T k boolS n ch) = false -> isArithComp (T k boolS n ch) = Ok false -> Forall good ch -> good (T k boolS n ch).
Proof.
  intros A Lf Ac F. destruct (list_good ch F) as (vs & E & Lv & O & S & V). unfold good. cbn [norm]. rewrite Lf.
  assert (K : keq k NT_LET = false) by (destruct k; cbn in A; try contradiction; reflexivity). rewrite K, E. cbn [bind]. rewrite Ac. cbn [bind].
  now apply other_ok.
Qed.
Lemma nt_good t : nt t -> good t.
Proof.
  induction t as [k0 s0 n0 ch0 IH0] using term_ind'.
  assert (IH : forall x, In x (t_ch (T k0 s0 n0 ch0)) -> nt x -> good x) by (cbn [t_ch]; intros x Hx; exact (proj1 (Forall_forall _ _) IH0 x Hx)). clear IH0.
  revert IH. generalize (T k0 s0 n0 ch0) as t. clear -Hc Hz. intros t IH.
  assert (FG : Forall nt (t_ch t) -> Forall good (t_ch t)) by (rewrite !Forall_forall; intros G x Hx; auto).
  intros H. pose proof (nt_not_arith t H) as [NA NE].
  assert (LF : forall k n ch, t = T k boolS n ch -> kin k const_kinds = false -> kin k var_kinds = false -> norm_leaf t = false).
  { intros k n ch -> A B. unfold norm_leaf. rewrite NA, NE. unfold isConst, isVar. cbn [t_kind]. now rewrite A, B. }
  destruct H as [k n A| | |n p Hp|k n ps A B F|n ps A B F|n a b Ha Hb|n a b d Ha Hb Hd|n ps A F|k n a b A Ha Hb].
  - assert (E : norm c ptr (T k boolS n []) = Ok (T k boolS n [], false)).
    { cbn [norm]. destruct (norm_leaf (T k boolS n [])); [reflexivity|]. destruct k; try discriminate A; reflexivity. }
    exists (T k boolS n []), false. split; [exact E|]. split; [|split; reflexivity]. constructor.
    + reflexivity.
    + intros I e. destruct k; try discriminate A; cbn [eval]; unfold leaf_sem; cbn; eexists; reflexivity.
    + unfold isConst. cbn [t_kind]. destruct k; try discriminate A; discriminate.
    + unfold isErr, isUnknown, isk. cbn [t_kind]. destruct k; try discriminate A; now repeat split.
    + constructor.
    + unfold isEq. cbn [t_kind]. destruct k; try discriminate A; discriminate.
  - exists TRUE, false. split; [reflexivity|]. split; [apply ok_true|split; reflexivity].
  - exists FALSE, false. split; [reflexivity|]. split; [apply ok_false|split; reflexivity].
  - apply conn_good; [reflexivity|now eapply LF|reflexivity|apply FG; repeat constructor; assumption].
  - apply conn_good; [repeat (destruct A as [ <- | A ]); try contradiction; exact B|eapply LF; [reflexivity| |]; repeat (destruct A as [ <- | A ]); try contradiction; reflexivity| |now apply FG].
    repeat (destruct A as [ <- | A ]); try contradiction; try reflexivity. unfold isArithComp. cbn [isEq isDistinct t_kind]. 
    destruct ps as [|q ps]; [cbn in B; lia|]. inversion F as [|? ? Hq _]; subst. cbn. destruct (nt_not_arith q Hq) as [ -> _]. reflexivity.
  - apply conn_good; [split; assumption|now eapply LF|reflexivity|now apply FG].
  - apply conn_good; [reflexivity|now eapply LF| |apply FG; repeat constructor; assumption].
    unfold isArithComp. cbn. destruct (nt_not_arith a Ha) as [ -> _]. reflexivity.
  - apply conn_good; [reflexivity|now eapply LF|reflexivity|apply FG; repeat constructor; assumption].
  - apply conn_good; [destruct ps; [contradiction|cbn; lia]|now eapply LF|reflexivity|now apply FG].
  - unfold good. cbn [norm]. assert (Lf : norm_leaf (T k boolS n [a; b]) = false) by (eapply LF; [reflexivity| |]; repeat (destruct A as [ <- | A ]); try contradiction; reflexivity).
    rewrite Lf. assert (K : keq k NT_LET = false) by (repeat (destruct A as [ <- | A ]); try contradiction; reflexivity). rewrite K.
    cbn [norm_list]. rewrite (norm_num c ptr a Ha). cbn [bind]. rewrite (norm_num c ptr b Hb). cbn [bind].
    assert (Ac : isArithComp (T k boolS n [a; b]) = Ok true).
    { unfold isArithComp. destruct (num_leaf a Ha) as [_ X]. repeat (destruct A as [ <- | A ]); try contradiction; cbn; rewrite ?X; reflexivity. }
    rewrite Ac. cbn [bind]. now apply cmp_ok.
Qed.
End Norm2.
