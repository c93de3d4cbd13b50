(** Proofs for MeanSpec.v: every operator of the fragment, applied by the parser to well-sorted
    terms, gives a well-sorted term with the SMT-LIB value. *)
From Coq Require Import QArith Qcanon Permutation.
From Verif Require Import Base LexSpec KindModel SortModel TermModel BVModel BVSpec UtilModel UtilSpec Sem SemProofs DagProofs SortProofs
  SimpModel OpModel OpSpec OpProofs OpProofs2 OpProofs3 OpProofs4 OpProofs5 OpProofs6 OpProofs7 ShapeProofs TypedSpec TypedProofs
  LexModel ParseModel ParseSpec CommandModel CommandSpec MeanSpec MeanProofs.
Open Scope Z_scope.
Section F.
Context {fl : Flag}.

Definition gives (c : cfg) (r : cl) (m : res term) (f : interp -> Sem.env -> value) : Prop :=
  exists t, m = Ok t /\ gd c r t /\ forall I e, eval I e t = f I e.
Lemma gives_bool c m f : (forall t, m = Ok t -> gd c CB t) -> decides m f -> gives c CB m (fun I e => VBool (f I e)).
Proof.
  intros G (t & E & V). exists t. split; [exact E|]. specialize (G t E). split; [exact G|]. intros I e.
  destruct G as (_ & W & _). destruct (wt_val I e CB t W) as [b Hb]. rewrite <- V. unfold holds. now rewrite Hb.
Qed.
Lemma gives_num c r m f : r = CI \/ r = CR -> (forall t, m = Ok t -> gd c r t) -> nmeans m f -> gives c r m (fun I e => VNum (f I e)).
Proof.
  intros Hr G (t & E & V). exists t. split; [exact E|]. specialize (G t E). split; [exact G|]. intros I e.
  destruct G as (_ & W & _). destruct (wt_numeric r t Hr W I e) as [q Hq]. rewrite <- V. now rewrite Hq.
Qed.
Lemma gd_lits c r us : Forall (gd c r) us -> lits_ok us /\ no_real us.
Proof. intros F. apply (wt_lits r). eapply Forall_impl; [|exact F]. intros a (_ & W & _). exact W. Qed.
Lemma gd_noerr c r us : Forall (gd c r) us -> no_err us.
Proof. intros F p Hp. apply (proj1 (Forall_forall _ _) F) in Hp. now apply (gd_err c r). Qed.
Lemma gd_bargs c us : Forall (gd c CB) us -> bool_args us.
Proof.
  intros F. split; [apply (gd_lits c CB us F)|]. intros p Hp. split; [|now apply (gd_noerr c CB us F)].
  apply (proj1 (Forall_forall _ _) F) in Hp. now apply (gd_bool c).
Qed.
Lemma gd_nargs c r us : r = CI \/ r = CR -> Forall (gd c r) us -> num_args us.
Proof.
  intros Hr F. destruct (gd_lits c r us F) as [A B]. split; [exact A|]. split; [exact B|]. intros p Hp.
  split; [|now apply (gd_noerr c r us F)]. apply (proj1 (Forall_forall _ _) F) in Hp. destruct Hp as (N & W & _).
  pose proof (num_sort r _ Hr (wt_sort r p W N)) as S. unfold numS, sis. destruct S as [ -> | [ -> | -> ]]; reflexivity.
Qed.
Lemma gd_incl c r us vs : incl vs us -> Forall (gd c r) us -> Forall (gd c r) vs.
Proof. intros H F. apply Forall_forall. intros x Hx. apply (proj1 (Forall_forall _ _) F). now apply H. Qed.
Lemma gd_numeric c r us : r = CI \/ r = CR -> Forall (gd c r) us -> Forall numeric us.
Proof. intros Hr F. eapply Forall_impl; [|exact F]. intros a (_ & W & _). now apply (wt_numeric r). Qed.

(** ** Boolean connectives *)
Lemma not_gives c p : cfg_ok c -> gd c CB p -> gives c CB (mkNot c p) (fun I e => VBool (negb (truth (eval I e p)))).
Proof.
  intros Hc G. apply (gives_bool c _ (fun I e => negb (truth (eval I e p)))).
  - intros t E. now apply (not_eq_gd c Hc (not_fuel p)) in E.
  - apply mkNot_sound; [exact Hc|apply G|now apply (gd_bool c)].
Qed.
Lemma gd_conn c k n qs : In k [NT_AND; NT_OR; NT_XOR] -> (k = NT_XOR -> l_clausal fl = false) -> (2 <= length qs)%nat -> Forall (gd c CB) qs -> gd c CB (T k boolS n qs).
Proof.
  intros Hk Hx Hl F. apply gd_new.
  - destruct Hk as [ <- | [ <- | [ <- | [] ]]]; [now apply newk_plain|now apply newk_plain|]. unfold newk. rewrite (Hx eq_refl). reflexivity.
  - discriminate.
  - apply (W_app k boolS n CB (repeat CB (length qs))); [now apply S_conn|reflexivity|]. apply Forall2_repeat. split; [reflexivity|].
    eapply Forall_impl; [|exact F]. intros a (_ & W & _). exact W.
  - intros x Hx'. apply (proj1 (Forall_forall _ _) F) in Hx'. apply Hx'.
Qed.
Lemma junction_gives c (conj : bool) us : cfg_ok c -> Forall (gd c CB) us ->
  gives c CB (mkJunction c (jk conj) us) (fun I e => VBool ((if conj then forallb truth else existsb truth) (map (eval I e) us))).
Proof.
  intros Hc F. apply (gives_bool c _ (fun I e => (if conj then forallb truth else existsb truth) (map (eval I e) us))).
  - intros t E. apply mkJunction_shape in E; [|exact Hc|now apply (gd_bargs c)].
    destruct E as [ -> | [ -> | [H|(qs & -> & Hl & Hi & _ & _)] ]]; [apply gd_TRUE|apply gd_FALSE|now apply (proj1 (Forall_forall _ _) F)|].
    apply gd_conn; [destruct conj; cbn; tauto|destruct conj; discriminate|exact Hl|now apply (gd_incl c CB us)].
  - destruct conj.
    + destruct (mkAnd_sound c us Hc (gd_bargs c us F)) as (t & E & V). exists t. split; [exact E|]. intros I e. rewrite V. unfold holds.
      clear. induction us; cbn; [reflexivity|now rewrite IHus].
    + destruct (mkOr_sound c us Hc (gd_bargs c us F)) as (t & E & V). exists t. split; [exact E|]. intros I e. rewrite V. unfold holds.
      clear. induction us; cbn; [reflexivity|now rewrite IHus].
Qed.
Lemma xors_left bs : fold_left xorb bs false = xors bs.
Proof.
  assert (G : forall b, fold_left xorb bs b = xorb b (xors bs)).
  { induction bs as [|a bs IH]; intros b; cbn; [now rewrite xorb_false_r|]. rewrite IH. apply xorb_assoc. }
  rewrite G. apply xorb_false_l.
Qed.
Lemma xor_gives c us : l_clausal fl = false -> cfg_ok c -> Forall (gd c CB) us ->
  gives c CB (mkXor c us) (fun I e => VBool (fold_left xorb (map truth (map (eval I e) us)) false)).
Proof.
  intros Hf Hc F. apply (gives_bool c _ (fun I e => fold_left xorb (map truth (map (eval I e) us)) false)).
  - intros t E. unfold mkXor in E. destruct us as [|a [|b us]]; [injection E as <-; apply gd_FALSE|injection E as <-; now inversion F|].
    set (l := a :: b :: us) in *. destruct (xor_loop_ok l (proj1 (gd_lits c CB l F)) (gd_noerr c CB l F)) as (qs & Eq & Hi & _). rewrite Eq in E.
    pose proof (gd_incl c CB l qs Hi F) as Fq. destruct qs as [|x [|y qs]].
    + injection E as <-. apply gd_FALSE.
    + injection E as <-. now inversion Fq.
    + destruct (boolk_of NT_XOR (length (x :: y :: qs))) as [B1 B2]; [cbn; tauto|cbn; lia|].
      destruct (mkOper_shape c boolS NT_XOR (x :: y :: qs) t ltac:(cbn; lia) B1 B2 E) as [ -> | [ -> | -> ]]; [apply gd_TRUE|apply gd_FALSE|].
      unfold mkInternal. change (isCommutative NT_XOR) with true. cbv iota. pose proof (ok_sort c Hc (x :: y :: qs)) as P.
      apply gd_conn; [cbn; tauto|auto|rewrite (Permutation_length P); cbn; lia|]. now apply (Permutation_Forall (Permutation_sym P)).
  - destruct (mkXor_sound c us Hc (proj1 (gd_lits c CB us F)) (gd_noerr c CB us F)) as (t & E & V). exists t. split; [exact E|].
    intros I e. rewrite V, xors_left, map_map. reflexivity.
Qed.
Lemma implies_gives c a b : cfg_ok c -> gd c CB a -> gd c CB b ->
  gives c CB (mkImplies c [a; b]) (fun I e => VBool (implb (truth (eval I e a)) (truth (eval I e b)))).
Proof.
  intros Hc Ga Gb. assert (F : Forall (gd c CB) [a; b]) by (repeat (constructor; [assumption|]); constructor).
  apply (gives_bool c _ (fun I e => implb (truth (eval I e a)) (truth (eval I e b)))).
  - intros t E. unfold mkImplies in E. cbn [length Nat.ltb Nat.leb last removelast imp_loop] in E.
    destruct (gd_err c CB a Ga) as [Ea _]. destruct (gd_err c CB b Gb) as [Eb _]. rewrite Ea in E.
    destruct (isFalse a); [injection E as <-; apply gd_TRUE|]. destruct (isTrue a); rewrite Eb in E; [injection E as <-; exact Gb|].
    destruct (boolk_of NT_IMPLIES 2) as [B1 B2]; [cbn; tauto|lia|].
    cbn [app] in E. destruct (mkOper_shape c boolS NT_IMPLIES [a; b] t ltac:(cbn; lia) B1 B2 E) as [ -> | [ -> | -> ]]; [apply gd_TRUE|apply gd_FALSE|].
    unfold mkInternal. change (isCommutative NT_IMPLIES) with false. cbv iota. destruct Ga as (_ & Wa & Ta), Gb as (_ & Wb & Tb).
    apply gd_new0; [reflexivity|discriminate| | |intros x [ <- | [ <- | [] ]]; assumption].
    + apply (W_app NT_IMPLIES boolS _ CB (repeat CB 2)); [apply S_imp; lia|reflexivity|cbn [repeat]; f2].
    + split; [discriminate|]. split; [reflexivity|]. split; [discriminate|]. intros _. split; [reflexivity|discriminate].
  - destruct (mkImplies_sound c [a; b] Hc (proj1 (gd_lits c CB _ F)) (gd_noerr c CB _ F) (le_n 2)) as (t & E & V). exists t. split; [exact E|].
    intros I e. rewrite V. reflexivity.
Qed.
Lemma ite_gives c r b l m : cfg_ok c -> gd c CB b -> gd c r l -> gd c r m ->
  gives c r (mkIte c b l m) (fun I e => if truth (eval I e b) then eval I e l else eval I e m).
Proof.
  intros Hc Gb Gl Gm.
  assert (E3 : no_err [b; l; m]).
  { intros p [ <- | [ <- | [ <- | [] ]]]; [apply (gd_err c CB b Gb)|apply (gd_err c r l Gl)|apply (gd_err c r m Gm)]. }
  assert (L3 : lits_ok [b; l; m]).
  { apply (wt_lits2 [b; l; m]). intros u [ <- | [ <- | [ <- | [] ]]]; eexists; [apply Gb|apply Gl|apply Gm]. }
  destruct (mkIte_sound c b l m Hc L3 E3) as (t & E & V). exists t. split; [exact E|]. split; [|exact V].
  unfold mkIte in E. rewrite !E3 in E by (cbn; tauto). unfold mkOper in E. cbn [simp] in E. unfold simp3 in E.
  change (is_eqk NT_ITE) with false in E. change (is_disk NT_ITE) with false in E. change (kin NT_ITE (NT_IMPLIES :: leftfold_kinds)) with false in E. cbv iota in E.
  destruct (isTrue b); [cbn [bind] in E; injection E as <-; destruct (gd_err c r l Gl) as [_ ->]; exact Gl|].
  destruct (isFalse b); [cbn [bind] in E; injection E as <-; destruct (gd_err c r m Gm) as [_ ->]; exact Gm|].
  cbn in E. injection E as <-. destruct Gb as (_ & Wb & Tb), Gl as (N & Wl & Tl), Gm as (_ & Wm & Tm).
  apply gd_new; [now apply newk_plain|exact N| |intros x [ <- | [ <- | [ <- | [] ]]]; assumption].
  apply (W_app NT_ITE (t_sort l) _ r [CB; r; r]); [now apply S_ite|now apply wt_sort|f2].
Qed.
(** ** equality and comparison *)
Lemma eq_gives c r a b : nb r -> cfg_ok c -> gd c r a -> gd c r b ->
  gives c CB (mkEqV c [a; b]) (fun I e => VBool (veqb (eval I e a) (eval I e b))).
Proof.
  intros Hnb Hc Ga Gb. pose proof Ga as (Nr & Wa & Ta & _). pose proof Gb as (_ & Wb & Tb & _). pose proof (wt_comparable c r a b Nr Wa Wb) as Cm.
  assert (EE : mkEqV c [a; b] = mkEq c a b).
  { unfold mkEqV, mkEqV_. cbn [length Nat.ltb Nat.leb]. destruct (check2 c a b (tree_node c a Ta) (tree_node c b Tb) (proj1 Cm)) as (s & Es & _). now rewrite Es. }
  rewrite EE. apply (gives_bool c _ (fun I e => veqb (eval I e a) (eval I e b))).
  - intros t E. unfold mkEq in E. now apply (not_eq_gd c Hc) with (r := r) in E.
  - apply mkEq_sound; auto; now apply (wt_not_array r).
Qed.
Lemma distinct_gives c r a b : nb r -> cfg_ok c -> gd c r a -> gd c r b ->
  gives c CB (mkDistinctV c [a; b]) (fun I e => VBool (negb (veqb (eval I e a) (eval I e b)))).
Proof.
  intros Hnb Hc Ga Gb. pose proof Ga as (Nr & Wa & Ta & _). pose proof Gb as (_ & Wb & Tb & _).
  apply (gives_bool c _ (fun I e => negb (veqb (eval I e a) (eval I e b)))).
  - intros t E. now apply (mkDistinctV_gd c r a b t).
  - apply mkDistinctV2; [exact Hc|now apply tree_node|now apply tree_node|now apply (wt_comparable c r)].
Qed.
Lemma cmp_gives c k a b : cfg_ok c -> In k arith_comp_kinds -> gd c CR a -> gd c CR b ->
  gives c CB (mkCmp c k a b) (fun I e => VBool (cmpr k (eval I e a) (eval I e b))).
Proof.
  intros Hc Hk Ga Gb. pose proof Ga as (Nr & Wa & Ta & _). pose proof Gb as (_ & Wb & Tb & _).
  apply (gives_bool c _ (fun I e => cmpr k (eval I e a) (eval I e b))).
  - intros t E. now apply (mkCmp_gd c k a b t).
  - apply mkCmp_sound; [exact Hc|exact Hk|now apply (lo_node c), tree_node|now apply (lo_node c), tree_node|now apply (wt_comparable c CR)].
Qed.
(** ** arithmetic *)
Lemma mkNeg_gd c r b t : r = CI \/ r = CR -> gd c r b -> mkNeg c b = Ok t -> gd c r t.
Proof.
  intros Hr G. pose proof G as (N & W & _). pose proof (wt_li r b W) as Lb. unfold mkNeg, simp1. cbn [kin existsb float1_kinds nary1_kinds keq orb].
  destruct (isCInt b) eqn:Cb.
  - destruct (li_int b Lb Cb) as (s & z & Hs & ->). rewrite toInt_ic by assumption. cbn [bind]. intros E. injection E as <-. now apply gd_int.
  - destruct (isCReal b) eqn:Rb; [rewrite (li_real_int b Lb Rb) in Cb; discriminate|]. cbn [bind unk]. change (isUnknown UNKNOWN) with true. cbv iota.
    intros E. injection E as <-. apply gd_neg; [exact Hr|now apply wt_sort|exact G].
Qed.
Lemma simp2_arith_gd c k r a b t : cfg_ok c -> In k [NT_ADD; NT_MUL; NT_SUB] -> r = CI \/ r = CR -> (isUnknown a = true \/ gd c r a) -> gd c r b ->
  simp2 c k a b = Ok t -> isUnknown t = true \/ gd c r t.
Proof.
  intros Hc Hk Hr Ha Hb H.
  assert (Lb : li b) by (apply (wt_li r); apply Hb).
  assert (La : li a \/ isUnknown a = true) by (destruct Ha as [U|W]; [now right|left; apply (wt_li r); apply W]).
  assert (RR : isCReal a && isCReal b = true -> isCInt a && isCInt b = true).
  { intros X. apply andb_true_iff in X. destruct X as [X Y]. rewrite (li_real_int b Lb Y). destruct La as [La|U].
    - now rewrite (li_real_int a La X).
    - destruct (unk_tests a U) as (_ & Q & _). congruence. }
  repeat (destruct Hk as [ <- | Hk ]); try contradiction; cbn [simp2] in H; destruct (arithOk a b); cbn [negb] in H;
    try (injection H as <-; now left).
  - destruct (isCInt a && isCInt b) eqn:C.
    + destruct (toInt c a) as [x| | | | |]; cbn [bind] in H; try discriminate H. destruct (toInt c b) as [y| | | | |]; cbn [bind] in H; try discriminate H.
      injection H as <-. right. now apply gd_int.
    + destruct (isCReal a && isCReal b); [specialize (RR eq_refl); discriminate|]. injection H as <-. now left.
  - destruct (isCInt a && isCInt b) eqn:C.
    + destruct (toInt c a) as [x| | | | |]; cbn [bind] in H; try discriminate H. destruct (toInt c b) as [y| | | | |]; cbn [bind] in H; try discriminate H.
      injection H as <-. right. now apply gd_int.
    + destruct (isCReal a && isCReal b); [specialize (RR eq_refl); discriminate|]. injection H as <-. now left.
  - destruct (isCInt a && isCInt b) eqn:C.
    + destruct (toInt c a) as [x| | | | |]; cbn [bind] in H; try discriminate H. destruct (toInt c b) as [y| | | | |]; cbn [bind] in H; try discriminate H.
      injection H as <-. right. now apply gd_int.
    + destruct (isCReal a && isCReal b); [specialize (RR eq_refl); discriminate|].
      destruct (isZero c a) as [za| | | | |]; cbn [bind] in H; try discriminate H. destruct za; [right; now apply (mkNeg_gd c r b)|].
      destruct (isZero c b) as [zb| | | | |]; cbn [bind] in H; try discriminate H. destruct zb; injection H as <-; [exact Ha|now left].
Qed.
Lemma simp_arith_gd c k r ps t : cfg_ok c -> In k [NT_ADD; NT_MUL; NT_SUB] -> r = CI \/ r = CR -> (2 <= length ps)%nat -> Forall (gd c r) ps ->
  simp c k ps = Ok t -> isUnknown t = true \/ gd c r t.
Proof.
  intros Hc Hk Hr Hl F H. assert (K : kin k leftfold_kinds = true) by (repeat (destruct Hk as [ <- | Hk ]); try contradiction; reflexivity).
  destruct (leftfold_kind k K) as (E1 & E2 & E3).
  destruct ps as [|a [|b [|d [|x ps]]]]; cbn [length] in Hl; try lia; inversion F as [|? ? Wa F1]; subst; inversion F1 as [|? ? Wb F2]; subst.
  - cbn [simp] in H. exact (simp2_arith_gd c k r a b t Hc Hk Hr (or_intror Wa) Wb H).
  - cbn [simp] in H. unfold simp3 in H. rewrite E1, E2 in H.
    assert (K' : kin k (NT_IMPLIES :: leftfold_kinds) = true) by (unfold kin in *; cbn [existsb]; now rewrite K, orb_true_r).
    rewrite K' in H. inversion F2 as [|? ? Wd _]; subst. destruct (simp2 c k a b) as [u| | | | |] eqn:E; cbn [bind] in H; try discriminate H.
    pose proof (simp2_arith_gd c k r a b u Hc Hk Hr (or_intror Wa) Wb E) as U. exact (simp2_arith_gd c k r u d t Hc Hk Hr U Wd H).
  - cbn [simp] in H. unfold simpN in H. rewrite E1, E2, E3, K in H. clear K E1 E2 E3 F Hl. inversion F2 as [|? ? Wd Fl]; subst.
    assert (G : forall l acc, gd c r acc -> Forall (gd c r) l -> fold_simp c k acc l = Ok t -> isUnknown t = true \/ gd c r t).
    { clear -Hc Hk Hr. induction l as [|p l IH]; intros acc W F H; cbn [fold_simp] in H; [injection H as <-; now right|].
      inversion F as [|? ? Wp Fl]; subst. destruct (simp2 c k acc p) as [u| | | | |] eqn:E; cbn [bind] in H; try discriminate H.
      destruct (simp2_arith_gd c k r acc p u Hc Hk Hr (or_intror W) Wp E) as [U|U].
      - rewrite U in H. injection H as <-. now left.
      - destruct (isUnknown u); [injection H as <-; now left|]. now apply (IH u). }
    apply (G _ a Wa F1 H).
Qed.
Lemma rs_num r s : r = CI \/ r = CR -> s = intS \/ s = realS -> rsort r s.
Proof. intros [ -> | -> ] H; cbn; tauto. Qed.
Lemma mkOper_arith_gd c k r s ps t : cfg_ok c -> In k [NT_ADD; NT_MUL; NT_SUB] -> r = CI \/ r = CR -> rsort r s -> (2 <= length ps)%nat -> Forall (gd c r) ps ->
  mkOper c s k ps = Ok t -> gd c r t.
Proof.
  intros Hc Hk Hr Hs Hl F E. unfold mkOper in E. destruct (simp c k ps) as [u| | | | |] eqn:Es; cbn [bind] in E; try discriminate E.
  destruct (simp_arith_gd c k r ps u Hc Hk Hr Hl F Es) as [U|U].
  - rewrite U in E. injection E as <-. unfold mkInternal.
    assert (X : exists qs, (if isCommutative k then c_sort c ps else ps) = qs /\ (2 <= length qs)%nat /\ Forall (gd c r) qs).
    { eexists. split; [reflexivity|]. destruct (isCommutative k); [|now split]. pose proof (ok_sort c Hc ps) as P.
      split; [now rewrite (Permutation_length P)|now apply (Permutation_Forall (Permutation_sym P))]. }
    destruct X as (qs & -> & Lq & Fq). apply gd_new.
    + repeat (destruct Hk as [ <- | Hk ]); try contradiction; now apply newk_plain.
    + destruct Hr as [ -> | -> ]; discriminate.
    + apply (W_app k s _ r (repeat r (length qs))); [now apply S_arith| |].
      * exact Hs.
      * apply Forall2_repeat. split; [reflexivity|]. eapply Forall_impl; [|exact Fq]. intros a (_ & W & _). exact W.
    + intros x Hx. apply (proj1 (Forall_forall _ _) Fq) in Hx. apply Hx.
  - destruct (gd_err c r u U) as [_ U']. rewrite U' in E. injection E as <-. exact U.
Qed.
Lemma sumq_left vs : fold_left Qcplus (map num vs) (Q2Qc 0) = sumq vs.
Proof.
  assert (G : forall q, fold_left Qcplus (map num vs) q = (q + sumq vs)%Qc).
  { induction vs as [|v vs IH]; intros q; cbn [map fold_left]; [unfold sumq; cbn; ring|]. rewrite IH, sumq_cons. ring. }
  rewrite G. ring.
Qed.
Lemma prodq_left vs : fold_left Qcmult (map num vs) (Q2Qc 1) = prodq vs.
Proof.
  assert (G : forall q, fold_left Qcmult (map num vs) q = (q * prodq vs)%Qc).
  { induction vs as [|v vs IH]; intros q; cbn [map fold_left]; [unfold prodq; cbn; ring|]. rewrite IH, prodq_cons. ring. }
  rewrite G. ring.
Qed.
Lemma subq_left v vs : fold_left Qcminus (map num vs) (num v) = subq v vs.
Proof. unfold subq. generalize (num v). induction vs as [|w vs IH]; intros q; cbn [map fold_left]; [reflexivity|apply IH]. Qed.
Lemma add_gives c r us : cfg_ok c -> c_int c = true -> c_real c = false -> r = CI \/ r = CR -> (2 <= length us)%nat -> Forall (gd c r) us ->
  gives c r (mkAdd c us) (fun I e => VNum (fold_left Qcplus (map num (map (eval I e) us)) (Q2Qc 0))).
Proof.
  intros Hc Hi Hn Hr Hl F. apply (gives_num c r _ (fun I e => fold_left Qcplus (map num (map (eval I e) us)) (Q2Qc 0)) Hr).
  - intros t E. unfold mkAdd in E. destruct us as [|a [|b us]]; cbn [length] in Hl; try lia.
    set (l := a :: b :: us) in *. pose proof (gd_nargs c r l Hr F) as NA. destruct (num_sorts l NA ltac:(discriminate)) as (s & Es & Hs). rewrite Es in E. cbn [bind] in E.
    destruct (add_loop_ok c s l Hc Hs NA) as (qs & Eq & Hin & _). rewrite Eq in E. cbn [bind] in E.
    pose proof (gd_incl c r l qs Hin F) as Fq. destruct qs as [|x [|y qs]].
    + rewrite Hn, Hi in E. injection E as <-. now apply gd_int.
    + injection E as <-. now inversion Fq.
    + cbn [theory_sort bind] in E. apply (mkOper_arith_gd c NT_ADD r s (x :: y :: qs) t); auto; first [now apply rs_num | cbn; tauto | cbn; lia].
  - destruct (mkAdd_sound c us Hc ltac:(now rewrite Hi) ltac:(destruct us; [cbn in Hl; lia|discriminate]) (gd_nargs c r us Hr F)) as (t & E & V). exists t. split; [exact E|].
    intros I e. now rewrite V, sumq_left.
Qed.
Lemma mul_loop_int c s ps t : c_int c = true -> num_args ps -> s = intS \/ s = realS -> cfg_ok c -> mul_loop c (Some s) ps = Ok (inl t) -> t = mkConstInt 0.
Proof.
  intros Hi NA Hs Hc. revert t. induction ps as [|p ps IH]; intros t E; cbn [mul_loop] in E; [discriminate E|].
  apply num_args_cons in NA. destruct NA as (L & N & Er & NA). rewrite Er in E. rewrite (num_check p s N Hs) in E. cbn [bind negb] in E.
  destruct (isZero_li c p Hc L) as (z & Ez & _). rewrite Ez in E. cbn [bind] in E. destruct z; [rewrite Hi in E; now injection E|].
  destruct (isOne_li c p Hc L) as (u & Eu & _). rewrite Eu in E. cbn [bind] in E.
  destruct (mul_loop c (Some s) ps) as [[x|qs]| | | | |] eqn:EL; cbn [bind] in E; try discriminate E. injection E as <-. now apply IH.
Qed.
Lemma mul_gives c r us : cfg_ok c -> c_int c = true -> c_real c = false -> r = CI \/ r = CR -> (2 <= length us)%nat -> Forall (gd c r) us ->
  gives c r (mkMul c us) (fun I e => VNum (fold_left Qcmult (map num (map (eval I e) us)) (Q2Qc 1))).
Proof.
  intros Hc Hi Hn Hr Hl F. apply (gives_num c r _ (fun I e => fold_left Qcmult (map num (map (eval I e) us)) (Q2Qc 1)) Hr).
  - intros t E. unfold mkMul in E. destruct us as [|a [|b us]]; cbn [length] in Hl; try lia.
    set (l := a :: b :: us) in *. pose proof (gd_nargs c r l Hr F) as NA. destruct (num_sorts l NA ltac:(discriminate)) as (s & Es & Hs).
    assert (CA : condAssert (c_dbg c) (Nat.leb 2 (length l)) = Ok tt) by (unfold l; cbn [length Nat.leb]; unfold condAssert; destruct (c_dbg c); reflexivity).
    rewrite CA, Es in E. cbn [bind] in E.
    assert (HT : c_int c || c_real c = true) by now rewrite Hi.
    pose proof (mul_loop_ok c s l Hc HT Hs NA) as HM. destruct (mul_loop c (Some s) l) as [[x|qs]| | | | |] eqn:EL; cbn [bind] in E; try discriminate E.
    + injection E as <-. rewrite (mul_loop_int c s l x Hi NA Hs Hc EL). now apply gd_int.
    + destruct HM as [Hin _]. pose proof (gd_incl c r l qs Hin F) as Fq. destruct qs as [|x [|y [|z qs]]].
      * rewrite Hi in E. injection E as <-. now apply gd_int.
      * injection E as <-. now inversion Fq.
      * cbn [theory_sort bind] in E. inversion Fq as [|? ? Gx Fq']; subst. inversion Fq' as [|? ? Gy _]; subst.
        destruct (isCInt x && isCInt y) eqn:CC.
        { destruct (toInt c x) as [v| | | | |]; cbn [bind] in E; try discriminate E. destruct (toInt c y) as [w| | | | |]; cbn [bind] in E; try discriminate E.
          injection E as <-. now apply gd_int. }
        destruct (isCReal x && isCReal y) eqn:RR.
        { apply andb_true_iff in RR. destruct RR as [R1 R2].
          rewrite (li_real_int x (wt_li r x ltac:(apply Gx)) R1), (li_real_int y (wt_li r y ltac:(apply Gy)) R2) in CC. discriminate. }
        apply (mkOper_arith_gd c NT_MUL r s [x; y] t); auto; first [now apply rs_num | cbn; tauto | cbn; lia].
      * cbn [theory_sort bind] in E. apply (mkOper_arith_gd c NT_MUL r s (x :: y :: z :: qs) t); auto; first [now apply rs_num | cbn; tauto | cbn; lia].
  - destruct (mkMul_sound c us Hc ltac:(now rewrite Hi) ltac:(destruct us; [cbn in Hl; lia|discriminate]) (gd_nargs c r us Hr F)) as (t & E & V). exists t. split; [exact E|].
    intros I e. now rewrite V, prodq_left.
Qed.
Lemma sub_gives c r p ps : cfg_ok c -> c_int c = true -> c_real c = false -> r = CI \/ r = CR -> Forall (gd c r) (p :: ps) ->
  gives c r (mkSub c (p :: ps)) (fun I e => VNum (match ps with [] => (- num (eval I e p))%Qc | _ => fold_left Qcminus (map num (map (eval I e) ps)) (num (eval I e p)) end)).
Proof.
  intros Hc Hi Hn Hr F.
  apply (gives_num c r _ (fun I e => match ps with [] => (- num (eval I e p))%Qc | _ => fold_left Qcminus (map num (map (eval I e) ps)) (num (eval I e p)) end) Hr).
  - intros t E. unfold mkSub in E. inversion F as [|? ? Gp F']; subst. destruct ps as [|b ps]; [now apply (mkNeg_gd c r p)|].
    set (l := p :: b :: ps) in *. pose proof (gd_nargs c r l Hr F) as NA. destruct (num_sorts l NA ltac:(discriminate)) as (s & Es & Hs). rewrite Es in E. cbn [bind] in E.
    rewrite (sub_check_ok s l Hs NA) in E. cbn [bind theory_sort] in E.
    assert (GEN : mkOper c s NT_SUB l = Ok t -> gd c r t).
    { intros X. apply (mkOper_arith_gd c NT_SUB r s l t); auto; first [now apply rs_num | cbn; tauto | cbn; lia]. }
    inversion F' as [|? ? Gb F'']; subst. destruct ps as [|d ps]; [|now apply GEN].
    destruct ((s_is SK_INT s || s_is SK_INTOREAL s) && isCInt p && isCInt b) eqn:CC.
    { destruct (toInt c p) as [v| | | | |]; cbn [bind] in E; try discriminate E. destruct (toInt c b) as [w| | | | |]; cbn [bind] in E; try discriminate E.
      injection E as <-. now apply gd_int. }
    destruct (s_is SK_REAL s && isCReal p && isCReal b) eqn:RR.
    { exfalso. apply andb_true_iff in RR. destruct RR as [RR Rb]. apply andb_true_iff in RR. destruct RR as [Rs Rp].
      destruct (wt_li r p ltac:(apply Gp)) as [_ N1]. destruct (wt_li r b ltac:(apply Gb)) as [_ N2].
      assert (P0 : sis SK_REAL p = false) by (apply N1; unfold isCReal in Rp; now destruct (isConst p)).
      assert (P1 : sis SK_REAL b = false) by (apply N2; unfold isCReal in Rb; now destruct (isConst b)).
      unfold getSort, l in Es. destruct NA as (_ & _ & NA). rewrite (proj1 (NA p (or_introl eq_refl))) in Es. injection Es as Es. cbn [existsb] in Es.
      rewrite P0, P1 in Es. cbn in Es. subst s. discriminate Rs. }
    destruct (isZero c p) as [za| | | | |]; cbn [bind] in E; try discriminate E. destruct za; [now apply (mkNeg_gd c r b)|].
    destruct (isZero c b) as [zb| | | | |]; cbn [bind] in E; try discriminate E. destruct zb; [injection E as <-; exact Gp|now apply GEN].
  - destruct (mkSub_sound c p ps Hc (gd_nargs c r _ Hr F) (gd_numeric c r _ Hr F)) as (t & E & V). exists t. split; [exact E|].
    intros I e. rewrite V. destruct ps as [|q ps]; [reflexivity|]. now rewrite subq_left.
Qed.
End F.
