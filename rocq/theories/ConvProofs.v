(** Negation normal form: soundness and shape. *)
From Coq Require Import QArith Qcanon Permutation ZifyBool ZifyNat.
From Verif Require Import Base KindModel SortModel TermModel BVModel BVSpec UtilModel UtilSpec DagProofs SortProofs
  Sem SemProofs ArrayModel SimpModel OpModel OpSpec OpProofs OpProofs2 OpProofs3 OpProofs4 OpProofs5 OpProofs6 OpProofs7
  ShapeProofs ConvModel ConvSpec.
Open Scope Z_scope.

Definition goodB (t : term) : Prop := lo t /\ isBoolParam t = true /\ isErr t = false.
Lemma goodB_TRUE : goodB TRUE. Proof. split; [apply lo_TRUE|split; reflexivity]. Qed.
Lemma goodB_FALSE : goodB FALSE. Proof. split; [apply lo_FALSE|split; reflexivity]. Qed.
Lemma goodB_args ps : (forall p, In p ps -> goodB p) -> bool_args ps.
Proof.
  intros H. split.
  - intros p Hp C. destruct (H p Hp) as (A & _). exact (A C).
  - intros p Hp. destruct (H p Hp) as (_ & A & B). auto.
Qed.
Lemma goodB_node k s n ch : isConst (T k s n ch) = false -> s = boolS -> k <> NT_ERROR -> goodB (T k s n ch).
Proof.
  intros C -> E. split; [intros X; congruence|]. split; [reflexivity|]. unfold isErr, isk. cbn [t_kind].
  destruct (keq k NT_ERROR) eqn:K; [|reflexivity]. apply keq_spec in K. congruence.
Qed.
Lemma theory_not l : theory_arg l = true -> isNot l = false.
Proof.
  unfold theory_arg, isArithTerm, isV, isVar, isCStr, isStrOp, isConst, isNot, isUF, isk. destruct (t_kind l); try reflexivity.
  cbn. rewrite ?andb_false_r. discriminate.
Qed.
Lemma cmp_nnf k s n ch : In k (eq_kinds ++ distinct_kinds ++ arith_comp_kinds ++ str_comp_kinds) -> in_nnf (T k s n ch) /\ (s = boolS -> goodB (T k s n ch)).
Proof.
  intros H. cbn in H. repeat (destruct H as [ <- | H ]; [split; [apply N_atom; reflexivity|intros ->; apply goodB_node; [reflexivity|reflexivity|discriminate]]|]). contradiction.
Qed.
Lemma R_TRUE : goodB TRUE /\ in_nnf TRUE. Proof. split; [apply goodB_TRUE|apply N_atom; reflexivity]. Qed.
Lemma R_FALSE : goodB FALSE /\ in_nnf FALSE. Proof. split; [apply goodB_FALSE|apply N_atom; reflexivity]. Qed.
Lemma mkOper_R c k ps t : (2 <= length ps)%nat -> In k (eq_kinds ++ distinct_kinds ++ arith_comp_kinds ++ str_comp_kinds) ->
  (length ps = 2%nat \/ kin k (eq_kinds ++ distinct_kinds) = true) -> mkOper c boolS k ps = Ok t -> goodB t /\ in_nnf t.
Proof.
  intros Hl Hk Hs H. apply mkOper_shape in H; [|exact Hl| |].
  - destruct H as [ -> | [ -> | -> ]]; [apply R_TRUE|apply R_FALSE|]. unfold mkInternal.
    destruct (cmp_nnf k boolS (kindToString k) (if isCommutative k then c_sort c ps else ps) Hk) as [A B]. auto.
  - cbn in *. tauto.
  - destruct Hs as [Hs|Hs]; [now left|right]. unfold kin in *. rewrite !existsb_app in *. rewrite orb_assoc. now rewrite Hs.
Qed.

Lemma theory_of_ac p : forall b l r, t_ch p = [l; r] -> isArithComp p = Ok b -> b = true -> isEq p || isDistinct p = true -> theory_arg l = true.
Proof.
  intros b l r E H -> D. unfold isArithComp in H. rewrite D in H. unfold child0 in H. rewrite E in H. cbn [bind] in H.
  assert (kin (t_kind p) arith_comp_kinds = false).
  { unfold isEq, isDistinct in D. destruct (t_kind p); try discriminate D; reflexivity. }
  rewrite H0, orb_false_r in H. injection H as H. unfold theory_arg. now rewrite H.
Qed.
Lemma theory_of_str p : forall l r, t_ch p = [l; r] -> isStrComp p = true -> isEq p || isDistinct p = true -> theory_arg l = true.
Proof.
  intros l r E H D. unfold isStrComp in H.
  assert (kin (t_kind p) str_comp_kinds = false).
  { unfold isEq, isDistinct in D. destruct (t_kind p); try discriminate D; reflexivity. }
  rewrite H0 in H. cbn [orb] in H. unfold isStrEq in H. rewrite E in H. apply andb_true_iff in H. destruct H as [_ H].
  unfold theory_arg. rewrite <- !orb_assoc. rewrite <- orb_assoc in H. rewrite H. now rewrite orb_true_r.
Qed.
(** negating an atom *)
Lemma mkNot_atom c p t : cfg_ok c -> atom_ok c p -> mkNot c p = Ok t -> goodB t /\ in_nnf t.
Proof.
  intros Hc [Ac AT AB AS] H. pose proof (tree_node c p AT) as HN.
  unfold mkNot in H. assert (exists f, not_fuel p = S (S (S f))) as [f Ef] by (exists (3 * tsize p)%nat; unfold not_fuel; lia).
  rewrite Ef in H. cbn [mkNotF] in H. rewrite AB in H. cbn [negb] in H.
  assert (NN : isNot p = false).
  { unfold isNot, isk. destruct (keq (t_kind p) NT_NOT) eqn:K; [|reflexivity]. apply keq_spec in K. rewrite K in Ac. discriminate Ac. }
  rewrite NN in H.
  destruct (isTrue p) eqn:Tr. { injection H as <-. apply R_FALSE. }
  destruct (isFalse p) eqn:Fa. { injection H as <-. apply R_TRUE. }
  destruct (isArithComp_ok c p HN) as (b & Eb & Hb). rewrite Eb in H. cbn [bind] in H.
  destruct (isBVComp p) eqn:BC.
  { apply isk_kind in BC. rewrite (n_bvcomp c p HN BC) in AB. discriminate AB. }
  rewrite orb_false_r in H. destruct (b || isStrComp p) eqn:CC.
  - (* a comparison *)
    assert (TA : isEq p || isDistinct p = true -> exists l r, t_ch p = [l; r] /\ comparable c l r /\ isBoolParam l = false /\ isNot l = false).
    { intros D. destruct (n_eq c p HN) as (l & r & Ech & Cm & _ & _); [now apply orb_true_iff in D|].
      exists l, r. assert (TH : theory_arg l = true).
      { apply orb_true_iff in CC. destruct CC as [ -> | CC ]; [now apply (theory_of_ac p true l r)|now apply (theory_of_str p l r)]. }
      repeat split; try apply Cm; [exact Ech|now apply (AS D l r)|now apply theory_not]. }
    cbn [negF] in H. rewrite (n_err c p HN) in H. destruct (isEq p) eqn:Eq.
    + destruct (TA eq_refl) as (l & r & Ech & Cm & Bl & _). rewrite Ech in H.
      assert (Tl : tree_ok c l) by (apply (tree_ch c p); [exact AT|rewrite Ech; cbn; tauto]).
      assert (Tr' : tree_ok c r) by (apply (tree_ch c p); [exact AT|rewrite Ech; cbn; tauto]).
      unfold mkDistinctV in H. cbn [length Nat.ltb Nat.leb] in H.
      destruct (check2 c l r (tree_node c l Tl) (tree_node c r Tr') (proj1 Cm)) as (s & Es & C1 & C2).
      rewrite Es in H. cbn [bind first_err] in H. rewrite (n_err c l (tree_node c l Tl)), C1 in H. cbn [bind] in H.
      rewrite (n_err c r (tree_node c r Tr')), C2 in H. cbn [bind eq_params] in H. rewrite C1 in H. cbn [bind eq_params] in H.
      rewrite C2 in H. cbn [bind] in H.
      assert (Br : isBoolParam r = false).
      { destruct (isBoolParam r) eqn:Br; [|reflexivity]. destruct Cm as [Cm _].
        rewrite (bool_of_compat l (t_sort r) Cm) in Bl; [discriminate Bl|]. now apply s_is_iff. }
      unfold isFalse in H. unfold isBoolParam in Bl, Br. rewrite Bl, Br, !andb_false_r in H. cbn [length Nat.ltb Nat.leb] in H.
      apply mkOper_R in H; [exact H|cbn; lia|cbn; tauto|now left].
    + destruct (isDistinct p) eqn:D.
      * destruct (TA eq_refl) as (l & r & Ech & Cm & Bl & Nl). rewrite Ech in H.
        assert (Tl : tree_ok c l) by (apply (tree_ch c p); [exact AT|rewrite Ech; cbn; tauto]).
        assert (Tr' : tree_ok c r) by (apply (tree_ch c p); [exact AT|rewrite Ech; cbn; tauto]).
        assert (Br : isBoolParam r = false).
        { destruct (isBoolParam r) eqn:Br; [|reflexivity]. destruct Cm as [Cm _].
          rewrite (bool_of_compat l (t_sort r) Cm) in Bl; [discriminate Bl|]. now apply s_is_iff. }
        unfold mkEqV_ in H. cbn [length Nat.ltb Nat.leb] in H.
        destruct (check2 c l r (tree_node c l Tl) (tree_node c r Tr') (proj1 Cm)) as (s & Es & C1 & C2).
        rewrite Es in H. cbn [bind mkEqF] in H. rewrite (proj1 Cm) in H. cbn [bind negb] in H.
        unfold isTrue, isFalse in H. unfold isBoolParam in Bl, Br. rewrite Bl, Br, !andb_false_r in H. cbn [andb] in H.
        rewrite Nl in H. cbn [andb] in H. apply mkOper_R in H; [exact H|cbn; lia|cbn; tauto|now left].
      * assert (K : kin (t_kind p) (arith_comp_kinds ++ str_comp_kinds) = true).
        { unfold kin. rewrite existsb_app. apply orb_true_iff in CC. destruct CC as [ -> | CC ].
          - destruct (Hb eq_refl) as [X|[X|X]]; [discriminate X|discriminate X|]. unfold kin in X. now rewrite X.
          - unfold isStrComp in CC. unfold isStrEq in CC. rewrite Eq in CC. cbn [andb] in CC. rewrite orb_false_r in CC.
            unfold kin in CC. rewrite CC. now rewrite orb_true_r. }
        assert (ARITH : forall k, In k arith_comp_kinds -> (q <- child01 p ;; mkCmp c k (fst q) (snd q)) = Ok t -> goodB t /\ in_nnf t).
        { intros k Hk X. destruct (child01 p) as [[l r]| | | | |]; cbn [bind fst snd] in X; try discriminate X. unfold mkCmp in X.
          assert (M : mkOper c boolS k [l; r] = Ok t -> goodB t /\ in_nnf t).
          { intros Y. apply mkOper_R in Y; [exact Y|cbn; lia| |now left]. apply in_or_app; right. apply in_or_app; right. apply in_or_app; now left. }
          destruct (sort_eq (t_sort l) (t_sort r)) as [[|]| | | | |]; cbn [bind] in X; try discriminate X.
          - destruct (teq l r); [|now apply M]. injection X as <-. destruct (refl_val k); [apply R_TRUE|apply R_FALSE].
          - destruct (canExempt _ _); [now apply M|discriminate X]. }
        assert (STR : forall k, In k str_comp_kinds -> (q <- child01 p ;; mkStrCmp c k (fst q) (snd q)) = Ok t -> goodB t /\ in_nnf t).
        { intros k Hk X. destruct (child01 p) as [[l r]| | | | |]; cbn [bind fst snd] in X; try discriminate X. unfold mkStrCmp in X.
          destruct (negb (sis SK_STR l) || negb (sis SK_STR r)); [discriminate X|].
          destruct (teq l r); [injection X as <-; destruct (refl_val k); [apply R_TRUE|apply R_FALSE]|].
          apply mkOper_R in X; [exact X|cbn; lia| |now left]. apply in_or_app; right. apply in_or_app; right. apply in_or_app; now right. }
        cbv zeta in H. destruct (t_kind p); try discriminate K; first [apply ARITH in H; [exact H|cbn; tauto] | apply STR in H; [exact H|cbn; tauto]].
  - apply mkOper_not_shape in H. destruct H as [ -> | [ -> | -> ]]; [apply R_TRUE|apply R_FALSE|].
    split; [apply goodB_node; [reflexivity|reflexivity|discriminate]|apply N_neg; exact Ac].
Qed.

Lemma junction_R c (conj : bool) ps t : cfg_ok c -> (forall p, In p ps -> goodB p /\ in_nnf p) ->
  mkJunction c (jk conj) ps = Ok t -> goodB t /\ in_nnf t.
Proof.
  intros Hc HP H. apply mkJunction_shape in H; [|exact Hc|apply goodB_args; intros p Hp; now apply HP].
  destruct H as [ -> | [ -> | [H|(qs & -> & _ & Hi & _)] ]]; [apply R_TRUE|apply R_FALSE|now apply HP|].
  split; [apply goodB_node; destruct conj; try reflexivity; discriminate|].
  destruct conj; [apply N_and|apply N_or]; intros q Hq; apply HP; now apply Hi.
Qed.
Lemma atom_leaf_kind c t : fml c t -> isCBool t || isVBool t = true -> atom_ok c t.
Proof.
  intros F H. destruct F; try exact H0; exfalso; revert H;
    unfold isCBool, isTrue, isFalse, isVBool, isV, isVar, isk; cbn; discriminate.
Qed.
Definition nnfs (c : cfg) (neg : bool) : list term -> res (list term) :=
  fix go (l : list term) : res (list term) :=
    match l with [] => Ok [] | x :: l' => b <- nnf c x neg ;; bs <- go l' ;; Ok (b :: bs) end.
Definition nnf_ok (c : cfg) (t : term) : Prop := forall neg, exists r, nnf c t neg = Ok r /\ goodB r /\ in_nnf r /\
  forall I e, holds I e r = xorb neg (holds I e t).
Lemma nnfs_ok c neg ps : (forall p, In p ps -> nnf_ok c p) ->
  exists rs, nnfs c neg ps = Ok rs /\ (forall r, In r rs -> goodB r /\ in_nnf r) /\
    forall I e, map (holds I e) rs = map (fun p => xorb neg (holds I e p)) ps.
Proof.
  induction ps as [|p ps IH]; intros H; cbn [nnfs].
  - exists []. split; [reflexivity|]. split; [intros x []|reflexivity].
  - destruct (H p (or_introl eq_refl) neg) as (r & -> & G & N & V). destruct IH as (rs & E & G' & V'); [intros q Hq; apply H; now right|].
    fold (nnfs c neg). rewrite E. cbn [bind]. exists (r :: rs). split; [reflexivity|]. split.
    + intros x [ <- | Hx ]; [auto|now apply G'].
    + intros I e. cbn [map]. now rewrite V, V'.
Qed.
Lemma forallb_of_map (f : term -> bool) l bs : map f l = bs -> forallb f l = forallb (fun b => b) bs.
Proof. intros <-. induction l; cbn; [reflexivity|now rewrite IHl]. Qed.
Lemma existsb_of_map (f : term -> bool) l bs : map f l = bs -> existsb f l = existsb (fun b => b) bs.
Proof. intros <-. induction l; cbn; [reflexivity|now rewrite IHl]. Qed.
Lemma forallb_xor (f : term -> bool) l neg : forallb (fun b => b) (map (fun p => xorb neg (f p)) l) = if neg then negb (existsb f l) else forallb f l.
Proof.
  induction l as [|x l IH]; cbn; [now destruct neg|]. rewrite IH. destruct neg; cbn; [|now destruct (f x)]. now rewrite negb_orb.
Qed.
Lemma existsb_xor (f : term -> bool) l neg : existsb (fun b => b) (map (fun p => xorb neg (f p)) l) = if neg then negb (forallb f l) else existsb f l.
Proof.
  induction l as [|x l IH]; cbn; [now destruct neg|]. rewrite IH. destruct neg; cbn; [|now destruct (f x)]. now rewrite negb_andb.
Qed.
Lemma holds_and I e s n ps : ps <> [] -> holds I e (T NT_AND s n ps) = forallb (holds I e) ps.
Proof.
  intros H. rewrite (holds_op I e NT_AND s n ps (VBool (forallb truth (map (eval I e) ps)))); [|exact H|reflexivity|destruct ps; [congruence|reflexivity]].
  cbn [truth]. now rewrite forallb_map'.
Qed.
Lemma holds_or I e s n ps : ps <> [] -> holds I e (T NT_OR s n ps) = existsb (holds I e) ps.
Proof.
  intros H. rewrite (holds_op I e NT_OR s n ps (VBool (existsb truth (map (eval I e) ps)))); [|exact H|reflexivity|destruct ps; [congruence|reflexivity]].
  cbn [truth]. now rewrite existsb_map'.
Qed.
Lemma mk2 c (conj : bool) x y : cfg_ok c -> goodB x -> in_nnf x -> goodB y -> in_nnf y ->
  exists t, mkJunction c (jk conj) [x; y] = Ok t /\ goodB t /\ in_nnf t /\
    forall I e, holds I e t = if conj then holds I e x && holds I e y else holds I e x || holds I e y.
Proof.
  intros Hc Gx Nx Gy Ny.
  assert (HP : forall p, In p [x; y] -> goodB p /\ in_nnf p) by (intros p [ <- | [ <- | [] ]]; auto).
  destruct (mkJunction_sound c conj [x; y] Hc) as (t & E & V); [apply goodB_args; intros p Hp; now apply HP|].
  exists t. split; [exact E|]. destruct (junction_R c conj [x; y] t Hc HP E) as [G N]. split; [exact G|]. split; [exact N|].
  intros I e. rewrite V. destruct conj; cbn; [now rewrite andb_true_r|now rewrite orb_false_r].
Qed.

Lemma fml_conn c k n ch : conn k = true -> k <> NT_NOT -> k <> NT_AND -> k <> NT_OR -> k <> NT_IMPLIES -> k <> NT_ITE -> fml c (T k boolS n ch) -> False.
Proof. intros H. destruct k; try discriminate H; congruence. Qed.
Lemma fml_bool c t : fml c t -> isBoolParam t = true.
Proof. intros []; try reflexivity. apply H. Qed.
Lemma atom_goodB c t : atom_ok c t -> goodB t /\ in_nnf t.
Proof.
  intros [A B C D]. pose proof (tree_node c t B) as HN. split; [split; [now apply (lo_node c)|split; [exact C|apply HN]]|now apply N_atom].
Qed.
Lemma nnf_lit c t : cfg_ok c -> atom_ok c t -> forall neg : bool, exists r, (if neg then mkNot c t else Ok t) = Ok r /\ goodB r /\ in_nnf r /\
  forall I e, holds I e r = xorb neg (holds I e t).
Proof.
  intros Hc H [|].
  - destruct (mkNot_sound c t Hc (a_tree c t H) (a_bool c t H)) as (r & E & V). exists r. split; [exact E|].
    destruct (mkNot_atom c t r Hc H E) as [G N]. repeat split; try apply G; [exact N|]. intros I e. rewrite V. now destruct (holds I e t).
  - exists t. destruct (atom_goodB c t H) as [G N]. repeat split; try apply G; [exact N|]. intros I e. now destruct (holds I e t).
Qed.
Theorem nnf_sound c t : cfg_ok c -> fml c t -> nnf_ok c t.
Proof.
  intros Hc. induction t as [k s n ch IH] using term_ind'. rewrite Forall_forall in IH. intros F neg.
  destruct (isCBool (T k s n ch) || isVBool (T k s n ch)) eqn:LF.
  { pose proof (atom_leaf_kind c _ F LF) as A. cbn [nnf]. rewrite LF. now apply nnf_lit. }
  assert (CH : forall (p : term), In p ch -> fml c p -> nnf_ok c p) by (intros p Hp; now apply IH).
  inversion F as [t A|n0 a Fa|n0 ps NE Fp|n0 ps NE Fp|n0 a b Fa Fb|n0 a b d Fa Fb Fd]; subst.
  - pose proof (a_conn c _ A) as AC. cbn [t_kind] in AC. cbn [nnf]. rewrite LF.
    replace (match k with NT_NOT => _ | NT_AND => _ | NT_OR => _ | NT_IMPLIES => _ | NT_ITE => _ | _ => _ end)
      with (if neg then mkNot c (T k s n ch) else Ok (T k s n ch)) by (destruct k; try discriminate AC; reflexivity).
    now apply nnf_lit.
  - cbn [nnf]. change (isCBool (T NT_NOT boolS n [a]) || isVBool (T NT_NOT boolS n [a])) with false. cbv iota.
    destruct (CH a (or_introl eq_refl) Fa (negb neg)) as (r & E & G & N & V). exists r. repeat split; try apply G; [exact E|exact N|].
    intros I e. rewrite V, (holds_not (T NT_NOT boolS n [a]) a) by reflexivity. now destruct neg, (holds I e a).
  - cbn [nnf]. change (isCBool (T NT_AND boolS n ch) || isVBool (T NT_AND boolS n ch)) with false. cbv iota.
    fold (nnfs c neg). destruct (nnfs_ok c neg ch) as (rs & -> & HR & HV); [intros p Hp; apply CH; auto|]. cbn [bind].
    destruct (mkJunction_sound c (negb neg) rs Hc) as (t & E & V); [apply goodB_args; intros p Hp; now apply HR|].
    exists t. split; [destruct neg; exact E|]. destruct (junction_R c (negb neg) rs t Hc HR E) as [G N]. split; [exact G|]. split; [exact N|].
    intros I e. rewrite V, holds_and by exact NE. rewrite (forallb_of_map _ _ _ (HV I e)), (existsb_of_map _ _ _ (HV I e)), forallb_xor, existsb_xor.
    destruct neg; cbn [negb]; [now destruct (forallb (holds I e) ch)|now destruct (forallb (holds I e) ch)].
  - cbn [nnf]. change (isCBool (T NT_OR boolS n ch) || isVBool (T NT_OR boolS n ch)) with false. cbv iota.
    fold (nnfs c neg). destruct (nnfs_ok c neg ch) as (rs & -> & HR & HV); [intros p Hp; apply CH; auto|]. cbn [bind].
    destruct (mkJunction_sound c neg rs Hc) as (t & E & V); [apply goodB_args; intros p Hp; now apply HR|].
    exists t. split; [destruct neg; exact E|]. destruct (junction_R c neg rs t Hc HR E) as [G N]. split; [exact G|]. split; [exact N|].
    intros I e. rewrite V, holds_or by exact NE. rewrite (forallb_of_map _ _ _ (HV I e)), (existsb_of_map _ _ _ (HV I e)), forallb_xor, existsb_xor.
    destruct neg; [now destruct (existsb (holds I e) ch)|now destruct (existsb (holds I e) ch)].
  - cbn [nnf]. change (isCBool (T NT_IMPLIES boolS n [a; b]) || isVBool (T NT_IMPLIES boolS n [a; b])) with false. cbv iota.
    assert (HI : forall I e, holds I e (T NT_IMPLIES boolS n [a; b]) = implb (holds I e a) (holds I e b)).
    { intros I e. unfold holds. rewrite (eval2 I e NT_IMPLIES boolS n a b (VBool (implb (truth (eval I e a)) (truth (eval I e b))))); reflexivity. }
    destruct neg.
    + destruct (CH a (or_introl eq_refl) Fa false) as (x & -> & Gx & Nx & Vx).
      destruct (CH b (or_intror (or_introl eq_refl)) Fb true) as (y & -> & Gy & Ny & Vy). cbn [bind].
      destruct (mk2 c true x y Hc Gx Nx Gy Ny) as (t & E & G & N & V). exists t. repeat split; try apply G; [exact E|exact N|].
      intros I e. rewrite V, Vx, Vy, HI. now destruct (holds I e a), (holds I e b).
    + destruct (CH a (or_introl eq_refl) Fa true) as (x & -> & Gx & Nx & Vx).
      destruct (CH b (or_intror (or_introl eq_refl)) Fb false) as (y & -> & Gy & Ny & Vy). cbn [bind].
      destruct (mk2 c false x y Hc Gx Nx Gy Ny) as (t & E & G & N & V). exists t. repeat split; try apply G; [exact E|exact N|].
      intros I e. rewrite V, Vx, Vy, HI. now destruct (holds I e a), (holds I e b).
  - cbn [nnf]. change (isCBool (T NT_ITE boolS n [a; b; d]) || isVBool (T NT_ITE boolS n [a; b; d])) with false. cbv iota.
    pose proof (fml_bool c b Fb) as Bb. unfold isBoolParam in Bb. rewrite Bb.
    destruct (CH a (or_introl eq_refl) Fa false) as (x & -> & Gx & Nx & Vx).
    destruct (CH b (or_intror (or_introl eq_refl)) Fb neg) as (y & -> & Gy & Ny & Vy). cbn [bind].
    destruct (mk2 c true x y Hc Gx Nx Gy Ny) as (u & Eu & Gu & Nu & Vu). change (mkAnd c [x; y]) with (mkJunction c (jk true) [x; y]). rewrite Eu. cbn [bind].
    destruct (CH a (or_introl eq_refl) Fa true) as (x' & -> & Gx' & Nx' & Vx').
    destruct (CH d (or_intror (or_intror (or_introl eq_refl))) Fd neg) as (z & -> & Gz & Nz & Vz). cbn [bind].
    destruct (mk2 c true x' z Hc Gx' Nx' Gz Nz) as (v & Ev & Gv & Nv & Vv). change (mkAnd c [x'; z]) with (mkJunction c (jk true) [x'; z]). rewrite Ev. cbn [bind].
    destruct (mk2 c false u v Hc Gu Nu Gv Nv) as (t & E & G & N & V). exists t. repeat split; try apply G; [exact E|exact N|].
    intros I e. rewrite V, Vu, Vv, Vx, Vy, Vx', Vz.
    assert (HI : holds I e (T NT_ITE boolS n [a; b; d]) = if holds I e a then holds I e b else holds I e d).
    { rewrite (holds_op I e NT_ITE boolS n [a; b; d] (if truth (eval I e a) then eval I e b else eval I e d)); [|discriminate|reflexivity|reflexivity].
      unfold holds. now destruct (truth (eval I e a)). }
    rewrite HI. now destruct neg, (holds I e a), (holds I e b), (holds I e d).
Qed.
Lemma toNNF_ok c t : cfg_ok c -> fml c t ->
  exists r, toNNF c t = Ok r /\ in_nnf r /\ forall I e, holds I e r = holds I e t.
Proof.
  intros Hc F. destruct (nnf_sound c t Hc F false) as (r & E & _ & N & V). exists r. split; [exact E|]. split; [exact N|].
  intros I e. rewrite V. now destruct (holds I e t).
Qed.
