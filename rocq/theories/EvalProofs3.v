(** Evaluation under a model that assigns every variable: the main induction. *)
From Coq Require Import QArith Qcanon Qround Permutation ZifyBool ZifyNat.
From Verif Require Import Base KindModel SortModel TermModel BVModel BVSpec BVProofs BVProofs2 BVProofs4 BVProofs5
  UtilModel UtilSpec UtilProofs UtilProofs2 DagProofs SortProofs Sem SemProofs ArrayModel SimpModel OpModel OpSpec
  OpProofs OpProofs2 OpProofs3 OpProofs4 OpProofs5 TypedProofs ApplyProofs ParseModel TraverseModel EvalModel EvalSpec EvalProofs EvalProofs2.
Open Scope Z_scope.

Lemma F2_repeat r n vs : Forall2 islit (repeat r n) vs -> length vs = n /\ lits r vs.
Proof. intros H. apply Forall2_repeat in H. destruct H. split; assumption. Qed.
Lemma F2_1 r vs : Forall2 islit [r] vs -> exists a, vs = [a] /\ islit r a.
Proof. intros H. inversion H as [|? a ? ? Ha H']; subst. inversion H'; subst. eauto. Qed.
Lemma F2_2 r s vs : Forall2 islit [r; s] vs -> exists a b, vs = [a; b] /\ islit r a /\ islit s b.
Proof. intros H. inversion H as [|? a ? ? Ha H']; subst. destruct (F2_1 _ _ H') as (b & -> & Hb). eauto 6. Qed.
Lemma R_1 f ch a : Forall2 (ran f) ch [a] -> exists x, ch = [x] /\ ran f x a.
Proof. intros H. inversion H as [|x ? ? ? Ha H']; subst. inversion H'; subst. eauto. Qed.
Lemma R_2 f ch a b : Forall2 (ran f) ch [a; b] -> exists x y, ch = [x; y] /\ ran f x a /\ ran f y b.
Proof. intros H. inversion H as [|x ? ? ? Ha H']; subst. destruct (R_1 _ _ _ H') as (y & -> & Hb). eauto 6. Qed.

(** the dispatch *)
Definition step (c : cfg) (ptr : list term -> list term) (f : evalf) (t : term) : res outcome :=
  let k := t_kind t in
  if keq k NT_AND then evAndOr c f true t
  else if keq k NT_OR then evAndOr c f false t
  else if keq k NT_XOR then evXor c f t
  else if kin k eq_kinds then evEq c f t
  else if kin k distinct_kinds then evDistinct c ptr f t
  else if keq k NT_ITE then evIte c f t
  else if keq k NT_DIV_INT then evDivInt c f t
  else if keq k NT_SELECT then evSelect c ptr f t
  else if keq k NT_STORE then evStore c ptr f t
  else if keq k NT_INT_TO_BV then evSimple c f t NT_BV_TO_INT
  else if keq k NT_BV_TO_INT then evSimple c f t NT_NAT_TO_BV
  else if keq k NT_LET then NoFuel
  else if kin k simple_kinds then evSimple c f t k
  else same t.
Lemma evaluate_app c ptr m t : m_isEmpty m = false -> isUnknown t = false -> isErr t = false -> isConst t = false -> isVar t = false ->
  evaluate c ptr m t = step c ptr (evaluate c ptr m) t.
Proof. intros A B C D E. destruct t as [k s n ch]. cbn [evaluate]. rewrite A, B, C, D, E. reflexivity. Qed.

Lemma esig_kind k r rs : esig k r rs -> keq k NT_UNKNOWN = false /\ keq k NT_ERROR = false /\ kin k const_kinds = false /\ kin k var_kinds = false.
Proof.
  intros []; try (repeat split; reflexivity);
    match goal with H : In _ _ |- _ => repeat (destruct H as [ <- | H ]; [repeat split; reflexivity|]); contradiction end.
Qed.
Lemma esig_ne k r rs : esig k r rs -> rs <> [] /\ quantk k = false.
Proof.
  intros []; try (split; [try discriminate; match goal with |- repeat _ ?n <> [] => destruct n; [lia|discriminate] end|reflexivity]);
    (split; [try discriminate; try (match goal with |- repeat _ ?n <> [] => destruct n; [lia|discriminate] end)|
     match goal with H : In _ _ |- _ => repeat (destruct H as [ <- | H ]; [reflexivity|]); contradiction end]).
Qed.

Lemma nary_step c s r k V f ch vs : assoc_sem k V -> (forall v I e, islit r v -> V (eval I e v)) ->
  (forall a b, islit r a -> islit r b -> yields r k [a; b] (simp c k [a; b])) ->
  (2 <= length vs)%nat -> lits r vs -> Forall2 (ran f) ch vs -> moved ch = true ->
  exists v, fold_consts c s k vs = Ok v /\ islit r v /\ forall I e, op_sem k (map (eval I e) vs) = Some (eval I e v).
Proof.
  intros A HV Y N L R M. destruct vs as [|x [|y l]]; cbn [length] in N; try lia. inversion L as [|? ? Lx L']; subst.
  destruct (fold_lits c s r k V A HV Y (y :: l) x Lx L') as (v & E & Hv & _ & S). exists v. split; [exact E|]. split; [exact Hv|]. apply S. discriminate.
Qed.

(** one application whose arguments evaluate to constants *)
Lemma step_ok c ptr f k s n r rs ch vs : esig k r rs -> Forall2 islit rs vs -> Forall2 (ran f) ch vs -> moved ch = true ->
  exists v, step c ptr f (T k s n ch) = Ok (true, Some v) /\ islit r v /\ forall I e, op_sem k (map (eval I e) vs) = Some (eval I e v).
Proof.
  intros Sg L R M. destruct Sg as [|k n0 Hk Hn| |r|k r n0 Hk Hn|k Hk|k n0 Hk Hn|k Hk|k Hk|k w Hk|k w n0 Hk Hn|k w Hk|w].
  - destruct (F2_1 _ _ L) as (a & -> & La). destruct (R_1 _ _ _ R) as (x & -> & Rx).
    destruct (yields_oper c s EB NT_NOT [a] (y_not c a La)) as (v & E & Hv & S). exists v. split; [|auto].
    unfold step. cbn [t_kind keq kin existsb eq_kinds distinct_kinds simple_kinds orb]. unfold evSimple. cbn [t_sort t_ch kin existsb ev1_kinds keq orb].
    rewrite Rx. cbn [bind fst snd val]. unfold moved in M. cbn [existsb] in M. rewrite orb_false_r in M. rewrite M. unfold changed. now rewrite E.
  - destruct (F2_repeat _ _ _ L) as [Ln L1]. destruct Hk as [ <- | [ <- | [ <- | [] ]]].
    + exists (match find isFalse vs with Some v => FALSE | None => TRUE end). split; [|split; [destruct (find isFalse vs); constructor|]].
      * unfold step. cbn [t_kind keq]. unfold evAndOr. cbn [t_ch]. rewrite (ev_junction_ran f isFalse EB ch vs R L1). cbn [bind].
        pose proof (find_truth true vs I0 (fun _ => VBool true) L1) as F. cbv iota in F. destruct (find isFalse vs); [destruct F as [-> _]; reflexivity|]. now rewrite M.
      * intros I e. pose proof (find_truth true vs I e L1) as F. cbv iota in F. destruct vs as [|a [|b vs]]; cbn [length] in Ln; try lia.
        change (op_sem NT_AND (map (eval I e) (a :: b :: vs))) with (Some (VBool (forallb truth (map (eval I e) (a :: b :: vs))))).
        destruct (find isFalse (a :: b :: vs)); [destruct F as [_ ->]|rewrite F]; reflexivity.
    + exists (match find isTrue vs with Some v => TRUE | None => FALSE end). split; [|split; [destruct (find isTrue vs); constructor|]].
      * unfold step. cbn [t_kind keq]. unfold evAndOr. cbn [t_ch]. rewrite (ev_junction_ran f isTrue EB ch vs R L1). cbn [bind].
        pose proof (find_truth false vs I0 (fun _ => VBool true) L1) as F. cbv iota in F. destruct (find isTrue vs); [destruct F as [-> _]; reflexivity|]. now rewrite M.
      * intros I e. pose proof (find_truth false vs I e L1) as F. cbv iota in F. destruct vs as [|a [|b vs]]; cbn [length] in Ln; try lia.
        change (op_sem NT_OR (map (eval I e) (a :: b :: vs))) with (Some (VBool (existsb truth (map (eval I e) (a :: b :: vs))))).
        destruct (find isTrue (a :: b :: vs)); [destruct F as [_ ->]|rewrite F]; reflexivity.
    + exists (if Nat.odd (length (filter (fun v => isConst v && isTrue v) vs)) then TRUE else FALSE). split; [|split; [apply islit_mkB|]].
      * unfold step. cbn [t_kind keq]. unfold evXor. cbn [t_ch]. rewrite (ev_all_ran f ch vs R). cbn [bind fst snd]. rewrite M.
        destruct (lits_consts EB vs L1) as [_ ->]. reflexivity.
      * intros I e. rewrite eval_mkB, <- (xor_count vs I e L1). destruct vs as [|a [|b vs]]; cbn [length] in Ln; try lia. reflexivity.
  - destruct (F2_2 _ _ _ L) as (a & b & -> & La & Lb). destruct (R_2 _ _ _ _ R) as (x & y & -> & Rx & Ry).
    destruct (yields_oper c s EB NT_IMPLIES [a; b] (y_imp c a b La Lb)) as (v & E & Hv & S). exists v. split; [|auto].
    unfold step. cbn [t_kind keq kin existsb eq_kinds distinct_kinds simple_kinds orb]. unfold evSimple. cbn [t_sort t_ch kin existsb ev1_kinds ev2_kinds keq orb].
    rewrite Rx. cbn [bind]. rewrite Ry. cbn [bind fst snd val]. unfold moved in M. cbn [existsb] in M. rewrite orb_false_r in M. rewrite M. unfold changed. now rewrite E.
  - inversion L as [|? a ? ? La L1]; subst. destruct (F2_2 _ _ _ L1) as (b & d & -> & Lb & Ld).
    inversion R as [|x ? ? ? Rx R1]; subst. destruct (R_2 _ _ _ _ R1) as (y & z & -> & Ry & Rz).
    exists (if isTrue a then b else d). split; [|split; [destruct (isTrue a); assumption|]].
    + unfold step. cbn [t_kind keq kin existsb eq_kinds distinct_kinds orb]. unfold evIte. cbn [t_ch]. rewrite Rx. cbn [bind]. rewrite Ry. cbn [bind]. rewrite Rz. cbn [bind fst snd val].
      unfold moved in M. cbn [existsb] in M. rewrite orb_false_r, orb_assoc in M. rewrite M. destruct (islit_const EB a La) as [-> _]. reflexivity.
    + intros I e. destruct (islit_B a La) as (q & ->). cbn [map]. rewrite eval_mkB. destruct q; reflexivity.
  - destruct (F2_repeat _ _ _ L) as [Ln L1]. destruct Hk as [ <- | [ <- | [] ]].
    + destruct vs as [|a l]; cbn [length] in Ln; [lia|]. assert (l <> []) by (destruct l; [cbn in Ln; lia|discriminate]).
      exists (if forallb (teq a) l then TRUE else FALSE). split; [|split; [apply islit_mkB|]].
      * unfold step. cbn [t_kind keq kin existsb eq_kinds distinct_kinds orb]. unfold evEq. cbn [t_ch]. rewrite (ev_all_ran f ch _ R). cbn [bind fst snd]. rewrite M.
        destruct (lits_consts r _ L1) as [-> ->]. inversion L1 as [|? ? La L2]; subst. rewrite (all_eq_lit c r) by assumption. cbn [bind]. destruct (forallb (teq a) l); reflexivity.
      * intros I e. rewrite eval_mkB. now apply (eq_lits r).
    + exists (if dup vs [] then FALSE else TRUE). split; [|split; [destruct (dup vs []); constructor|]].
      * unfold step. cbn [t_kind keq kin existsb eq_kinds distinct_kinds orb]. unfold evDistinct. cbn [t_ch]. rewrite (ev_distinct_ran f r ch vs R L1). cbn [bind].
        destruct (dup vs []); [reflexivity|]. rewrite M. destruct (lits_consts r vs L1) as [-> ->]. destruct vs; [cbn in Ln; lia|]. reflexivity.
      * intros I e. rewrite dis_op; [|reflexivity|now rewrite map_length, Ln]. rewrite (pairwise_lits r) by assumption. destruct (dup vs []); reflexivity.
  - destruct (F2_2 _ _ _ L) as (a & b & -> & La & Lb). destruct (R_2 _ _ _ _ R) as (x & y & -> & Rx & Ry).
    destruct (yields_oper c s EB k [a; b] (y_cmp c k a b Hk La Lb)) as (v & E & Hv & S). exists v. split; [|auto].
    assert (X : step c ptr f (T k s n [x; y]) = (o <- f x ;; p <- f y ;; if fst o || fst p then changed (mkOper c s k [val (snd o); val (snd p)]) else same (T k s n [x; y]))).
    { repeat (destruct Hk as [ <- | Hk ]; [reflexivity|]); contradiction. }
    rewrite X, Rx. cbn [bind]. rewrite Ry. cbn [bind fst snd val]. unfold moved in M. cbn [existsb] in M. rewrite orb_false_r in M. rewrite M. unfold changed. now rewrite E.
  - destruct (F2_repeat _ _ _ L) as [Ln L1]. assert (N : (2 <= length vs)%nat) by lia.
    destruct (nary_step c s EI k anyv f ch vs) as (v & E & Hv & S); try assumption.
    { apply assoc_num. cbn in Hk |- *. tauto. } { constructor. } { intros a b Ha Hb. now apply y_arith. }
    exists v. split; [|auto]. destruct (lits_consts EI vs L1) as [Cs Os].
    assert (X : In k [NT_ADD; NT_MUL; NT_IAND] /\ step c ptr f (T k s n ch) = (q <- ev_all f ch ;; if fst q then changed (evN c s k (snd q)) else same (T k s n ch)) \/
                k = NT_SUB /\ step c ptr f (T k s n ch) = (q <- ev_all f ch ;; if fst q then changed (evS c s k (snd q)) else same (T k s n ch))).
    { repeat (destruct Hk as [ <- | Hk ]); try contradiction; [left; split; [cbn; tauto|reflexivity]..|right; split; reflexivity]. }
    destruct X as [[_ X]|[_ X]]; rewrite X, (ev_all_ran f ch vs R); cbn [bind fst snd]; rewrite M; unfold changed.
    + unfold evN. rewrite Cs, Os. destruct vs as [|a l]; [cbn in N; lia|]. rewrite E. reflexivity.
    + unfold evS. rewrite Cs, Os. destruct vs as [|a l]; [cbn in N; lia|]. inversion L1 as [|? ? La _]; subst. destruct (islit_const EI a La) as [-> _]. rewrite E. reflexivity.
  - destruct (F2_1 _ _ L) as (a & -> & La). destruct (R_1 _ _ _ R) as (x & -> & Rx).
    destruct (yields_oper c s EI k [a] (y_int1 c k a Hk La)) as (v & E & Hv & S). exists v. split; [|auto].
    assert (X : step c ptr f (T k s n [x]) = (o <- f x ;; if fst o then changed (mkOper c s k [val (snd o)]) else same (T k s n [x]))).
    { repeat (destruct Hk as [ <- | Hk ]; [reflexivity|]); contradiction. }
    rewrite X, Rx. cbn [bind fst snd val]. unfold moved in M. cbn [existsb] in M. rewrite orb_false_r in M. rewrite M. unfold changed. now rewrite E.
  - destruct (F2_1 _ _ L) as (a & -> & La). destruct (R_1 _ _ _ R) as (x & -> & Rx).
    destruct (yields_oper c s EB k [a] (y_prop c k a Hk La)) as (v & E & Hv & S). exists v. split; [|auto].
    assert (X : step c ptr f (T k s n [x]) = (o <- f x ;; if fst o then changed (mkOper c s k [val (snd o)]) else same (T k s n [x]))).
    { repeat (destruct Hk as [ <- | Hk ]; [reflexivity|]); contradiction. }
    rewrite X, Rx. cbn [bind fst snd val]. unfold moved in M. cbn [existsb] in M. rewrite orb_false_r in M. rewrite M. unfold changed. now rewrite E.
  - destruct (F2_1 _ _ L) as (a & -> & La). destruct (R_1 _ _ _ R) as (x & -> & Rx).
    destruct (yields_oper c s (EV w) k [a] (y_bv1 c k w a Hk La)) as (v & E & Hv & S). exists v. split; [|auto].
    assert (X : step c ptr f (T k s n [x]) = (o <- f x ;; if fst o then changed (mkOper c s k [val (snd o)]) else same (T k s n [x]))).
    { repeat (destruct Hk as [ <- | Hk ]; [reflexivity|]); contradiction. }
    rewrite X, Rx. cbn [bind fst snd val]. unfold moved in M. cbn [existsb] in M. rewrite orb_false_r in M. rewrite M. unfold changed. now rewrite E.
  - destruct (F2_repeat _ _ _ L) as [Ln L1]. assert (N : (2 <= length vs)%nat) by lia.
    destruct (nary_step c s (EV w) k (bvV w) f ch vs) as (v & E & Hv & S); try assumption.
    { now apply assoc_bv. } { intros v I e H. apply Pv_lb. now apply islit_lb. } { intros a b Ha Hb. now apply y_bvn. }
    exists v. split; [|auto]. destruct (lits_consts (EV w) vs L1) as [Cs Os].
    assert (X : step c ptr f (T k s n ch) = (q <- ev_all f ch ;; if fst q then changed (evN c s k (snd q)) else same (T k s n ch))).
    { repeat (destruct Hk as [ <- | Hk ]; [reflexivity|]); contradiction. }
    rewrite X, (ev_all_ran f ch vs R); cbn [bind fst snd]; rewrite M; unfold changed, evN. rewrite Cs, Os. destruct vs as [|a l]; [cbn in N; lia|]. rewrite E. reflexivity.
  - destruct (F2_2 _ _ _ L) as (a & b & -> & La & Lb). destruct (R_2 _ _ _ _ R) as (x & y & -> & Rx & Ry).
    destruct (yields_oper c s EB k [a; b] (y_bvcmp c k w a b Hk La Lb)) as (v & E & Hv & S). exists v. split; [|auto].
    assert (X : step c ptr f (T k s n [x; y]) = (o <- f x ;; p <- f y ;; if fst o || fst p then changed (mkOper c s k [val (snd o); val (snd p)]) else same (T k s n [x; y]))).
    { repeat (destruct Hk as [ <- | Hk ]; [reflexivity|]); contradiction. }
    rewrite X, Rx. cbn [bind]. rewrite Ry. cbn [bind fst snd val]. unfold moved in M. cbn [existsb] in M. rewrite orb_false_r in M. rewrite M. unfold changed. now rewrite E.
  - destruct (F2_1 _ _ L) as (a & -> & La). destruct (R_1 _ _ _ R) as (x & -> & Rx).
    destruct (yields_oper c s EI NT_BV_TO_NAT [a] (y_bvnat c w a La)) as (v & E & Hv & S). exists v. split; [|auto].
    assert (X : step c ptr f (T NT_BV_TO_NAT s n [x]) = (o <- f x ;; if fst o then changed (mkOper c s NT_BV_TO_NAT [val (snd o)]) else same (T NT_BV_TO_NAT s n [x]))) by reflexivity.
    rewrite X, Rx. cbn [bind fst snd val]. unfold moved in M. cbn [existsb] in M. rewrite orb_false_r in M. rewrite M. unfold changed. now rewrite E.
Qed.

Lemma vec_get_in i l v : vec_get i l = Ok v -> In v l.
Proof. unfold vec_get. destruct (nth_error l i) eqn:E; intros H; [injection H as ->; now apply nth_error_In in E|discriminate]. Qed.
Lemma get_nonempty x m v : m_get x m = Ok v -> isUnknown v = false -> m_isEmpty m = false.
Proof.
  unfold m_get, m_getName. destruct (mget (t_name x) (m_idx m)); [|intros H; injection H as <-; discriminate].
  intros H U. apply vec_get_in in H. unfold m_isEmpty. destruct (forallb isUnknown (m_vals m)) eqn:F; [|reflexivity].
  rewrite forallb_forall in F. rewrite (F v H) in U. discriminate.
Qed.
Lemma evaluate_const c ptr m v : isConst v = true -> isUnknown v = false -> isErr v = false -> evaluate c ptr m v = Ok (false, Some v).
Proof.
  intros C U E. destruct v as [k s n ch]. cbn [evaluate]. rewrite C, U, E. destruct (m_isEmpty m); reflexivity.
Qed.
Lemma var_k k : In k [NT_VAR; NT_TEMP_VAR; NT_QUANT_VAR; NT_PLACEHOLDER_VAR] ->
  keq k NT_UNKNOWN = false /\ keq k NT_ERROR = false /\ kin k const_kinds = false /\ kin k var_kinds = true.
Proof. intros H. repeat (destruct H as [ <- | H ]; [repeat split; reflexivity|]). contradiction. Qed.

Theorem evaluate_total c ptr m t : forall r, et r t -> assigns m t ->
  exists v, evaluate c ptr m t = Ok (negb (isConst t), Some v) /\ islit r v /\ forall I e, agrees I e m t -> eval I e t = eval I e v.
Proof.
  induction t as [k s n ch IH] using term_ind'. intros r Ht As. inversion Ht as [k' s' n' r' Hk Hs|r' v Hv|k' s' n' r' rs ch' Sg F X]; subst.
  - destruct (As (T k s n []) r (Sub_refl _)) as (v & G & Hv).
    { unfold isVar. cbn [t_kind]. apply (var_k k Hk). } { now constructor. }
    destruct (var_k k Hk) as (K1 & K2 & K3 & K4). destruct (islit_const r v Hv) as [C U].
    exists v. split; [|split; [exact Hv|]].
    + cbn [evaluate]. rewrite (get_nonempty _ _ _ G U). unfold isUnknown at 1, isErr, isk, isConst, isVar. cbn [t_kind]. rewrite K1, K2, K3, K4.
      rewrite G. cbn [bind]. now rewrite U.
    + intros I e A. apply A; [constructor| |exact G|exact U]. unfold isVar. cbn [t_kind]. exact K4.
  - exists (T k s n ch). destruct (islit_const r _ Hv) as [C U]. split; [|split; [exact Hv|reflexivity]]. rewrite C. cbn [negb].
    apply evaluate_const; [exact C|exact U|]. inversion Hv; reflexivity.
  - assert (Y : exists vs, Forall2 (ran (evaluate c ptr m)) ch vs /\ Forall2 islit rs vs /\
              forall I e, (forall x, In x ch -> agrees I e m x) -> map (eval I e) ch = map (eval I e) vs).
    { clear X Sg Ht. assert (As' : forall x, In x ch -> assigns m x).
      { intros x Hx y ry Sy. apply As. now apply (Sub_ch y x). }
      clear As. revert rs F IH As'. induction ch as [|x ch IHc]; intros rs F IH As'.
      - inversion F; subst. exists []. split; [constructor|]. split; [constructor|reflexivity].
      - inversion F as [|rx ? rs' ? Hx F']; subst. inversion IH as [|? ? IHx IH']; subst.
        destruct (IHx rx Hx (As' x (or_introl eq_refl))) as (v & E & Hv & V).
        destruct (IHc rs' F' IH' (fun y Y => As' y (or_intror Y))) as (vs & R & L & V'). exists (v :: vs).
        split; [constructor; assumption|]. split; [constructor; assumption|]. intros I e A. cbn [map].
        rewrite (V I e), (V' I e); [reflexivity| |apply A; now left]. intros y Y. apply A. now right. }
    destruct Y as (vs & R & L & V). destruct (step_ok c ptr (evaluate c ptr m) k s n r rs ch vs Sg L R (moved_ex ch X)) as (v & E & Hv & S).
    destruct (esig_kind k r rs Sg) as (K1 & K2 & K3 & K4). destruct (esig_ne k r rs Sg) as (Ne & Q).
    exists v. split; [|split; [exact Hv|]].
    + rewrite evaluate_app; [|idtac|exact K1|exact K2|exact K3|exact K4].
      2:{ apply Exists_exists in X. destruct X as (x & Hx & Cx).
          assert (Z : exists x' v', In x' ch /\ subterm x' (T k s n ch) /\ evaluate c ptr m x' = Ok (true, Some v')).
          { clear -R Hx Cx. revert Hx. assert (G : forall l, Forall2 (ran (evaluate c ptr m)) l vs -> In x l -> exists v', ran (evaluate c ptr m) x v').
            { intros l H. clear R. induction H as [|a b l l' H _ IH]; [intros []|intros [ <- | Y]; eauto]. }
            intros Hx. destruct (G ch R Hx) as (v' & Rv). exists x, v'. split; [exact Hx|]. split; [apply (Sub_ch x x); [exact Hx|constructor]|].
            unfold ran in Rv. now rewrite Cx in Rv. }
          destruct Z as (x' & v' & _ & _ & Z). destruct (m_isEmpty m) eqn:Em; [|reflexivity]. destruct x' as [kx sx nx cx]. cbn [evaluate] in Z. rewrite Em in Z. discriminate Z. }
      rewrite E. f_equal. f_equal. unfold isConst. cbn [t_kind]. now rewrite K3.
    + intros I e A. apply eval_op; [|exact Q|].
      * intros ->. inversion F; subst. apply Ne. reflexivity.
      * rewrite (V I e); [apply S|]. intros x Hx y w Sy. apply A. now apply (Sub_ch y x).
Qed.
