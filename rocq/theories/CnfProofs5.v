(** Conjunctive normal form, part 5: replacing the atoms, and the two entry points. *)
From Coq Require Import QArith Qcanon Permutation ZifyBool ZifyNat.
From Verif Require Import Base KindModel SortModel TermModel BVModel BVSpec UtilModel UtilSpec DagProofs SortProofs
  Sem SemProofs ArrayModel SimpModel OpModel OpSpec OpProofs OpProofs2 OpProofs3 OpProofs4 OpProofs5 OpProofs6 OpProofs7
  ShapeProofs ConvModel ConvSpec ConvProofs WalkProofs GoodProofs SplitProofs CnfModel CnfSpec CnfProofs CnfAtoms CnfProofs2 CnfProofs3 CnfProofs4.
Open Scope Z_scope.

Lemma node_rebuild c K b k us : cfg_ok c -> node_arity k (length us) = true -> (b = true -> k <> NT_ITE) ->
  (forall u, In u us -> pfi c K (b && kin k [NT_AND; NT_OR]) u) ->
  exists u, mkOper c boolS k us = Ok u /\ pfi c K b u /\ (forall n, (forall x, In x us -> below n x) -> below n u) /\
    forall I e, holds I e u = psem k (map (holds I e) us).
Proof.
  intros Hc A N C.
  assert (SB : forall u, In u us -> t_sort u = boolS) by (intros u Hu; exact (pfi_sort c K _ u (C u Hu))).
  assert (LO : lits_ok us) by (intros p Hp X; destruct (pfi_good c K _ p (C p Hp)) as (Y & _); exact (Y X)).
  assert (NR : reals_exact c us) by (left; intros p Hp _; unfold sis; rewrite (SB p Hp); reflexivity).
  assert (NA : forall p, In p us -> isArray p = false) by (intros p Hp; unfold isArray, sis; rewrite (SB p Hp); reflexivity).
  assert (FD : fold_dom c k us).
  { split; [exact LO|]. pose proof (node_kinds _ _ A) as KK. destruct KK as [ -> | [ -> | [ -> | [ -> | [ -> | -> ]]]]]; cbn [node_arity] in A.
    - now apply Nat.leb_le.
    - now apply Nat.leb_le.
    - now apply Nat.leb_le.
    - apply Nat.eqb_eq in A. split; [lia|]. now split.
    - apply Nat.eqb_eq in A. split; [lia|exact NR].
    - now apply Nat.eqb_eq. }
  destruct (mkOper_sound c boolS k us Hc FD) as (u & E & V). exists u. split; [exact E|].
  rewrite <- and_assoc. split.
  2:{ intros I e. unfold holds at 1. rewrite V. fold (holds I e (T k boolS (kindToString k) us)). apply psem_holds; [exact A|].
      intros x Hx. exact (pfi_boolean c K x _ (C x Hx)). }
  destruct (keq k NT_ITE) eqn:KI.
  - apply keq_spec in KI. subst k. cbn [node_arity] in A. apply Nat.eqb_eq in A. destruct us as [|x [|y [|z [|? ?]]]]; try discriminate A.
    assert (b = false) as -> by (destruct b; [exfalso; now apply N|reflexivity]). cbn [andb] in C.
    assert (FIN : In u [x; y; z] \/ u = T NT_ITE boolS (kindToString NT_ITE) [x; y; z] -> pfi c K false u /\ (forall n, (forall w, In w [x; y; z] -> below n w) -> below n u)).
    { intros [H| -> ]; [split; [now apply C|intros n Hn; now apply Hn]|].
      split; [apply PI_node; [reflexivity|discriminate|exact C]|]. intros n Hn. apply below_kind; [discriminate|exact Hn]. }
    apply FIN. unfold mkOper in E. cbn [simp] in E. unfold simp3 in E. cbn in E.
    destruct (isTrue x); cbn in E; [destruct (isUnknown y); injection E as <-; cbn; auto|].
    destruct (isFalse x); cbn in E; [destruct (isUnknown z); injection E as <-; cbn; auto|].
    injection E as <-; auto.
  - assert (KK := node_kinds _ _ A). assert (k <> NT_ITE) by (intros ->; discriminate KI).
    apply mkOper_shape in E.
    + destruct E as [ -> | [ -> | -> ]].
      * split; [apply PI_slit, SL_true|intros; apply below_TRUE].
      * split; [apply PI_slit, SL_false|intros; apply below_FALSE].
      * unfold mkInternal. assert (P : Permutation (if isCommutative k then c_sort c us else us) us) by (destruct (isCommutative k); [apply (ok_sort c Hc)|apply Permutation_refl]).
        split.
        -- apply PI_node; [now rewrite (Permutation_length P)|exact N|]. intros x Hx. apply C. now apply (Permutation_in x P).
        -- intros n Hn. apply below_kind; [intros ->; discriminate A|]. intros x Hx. apply Hn. now apply (Permutation_in x P).
    + destruct KK as [ -> | [ -> | [ -> | [ -> | [ -> | -> ]]]]]; cbn [node_arity] in A; try (apply Nat.leb_le in A; lia); apply Nat.eqb_eq in A; lia.
    + destruct KK as [ -> | [ -> | [ -> | [ -> | [ -> | -> ]]]]]; try congruence; cbn; tauto.
    + destruct KK as [ -> | [ -> | [ -> | [ -> | [ -> | -> ]]]]]; try congruence; right; reflexivity.
Qed.

Section Repl.
Variables (c : cfg) (n0 n1 : nat) (as_ : list term) (E D : memo).
Hypothesis Hc : cfg_ok c.
Hypothesis HN : named c n0 n1 as_ E D.
Definition key (a : term) : Prop := exists u, In (a, u) E.
Definition gp (t u : term) : Prop :=
  (forall b, pfi c key b t -> pfi c key b u) /\ (bl c key t -> bl c key u) /\ (below n1 t -> below n1 u) /\
  forall I e, respects D I e -> holds I e u = holds I e t.
Lemma gp_refl t : gp t t.
Proof. repeat split; auto. Qed.
Lemma key_find a V : key a -> exists u, mfind a (E ++ V) = Some u /\ In (a, u) E.
Proof.
  intros (w & Hw). destruct (mfind_has a w E Hw) as (u & Hu). exists u. split; [now apply mfind_some_app|now apply mfind_in].
Qed.
Lemma key_val a u : In (a, u) E -> slit u /\ below n1 u /\ forall I e, respects D I e -> holds I e u = holds I e a.
Proof.
  intros H. destruct (n_new _ _ _ _ _ _ HN a u H) as (X & _ & _). destruct (new_slit _ _ _ X) as [S B]. split; [exact S|]. split; [exact B|].
  intros I e R. apply R. now apply (n_inv _ _ _ _ _ _ HN).
Qed.
Definition gpm (V : memo) : Prop := forall t u, In (t, u) V -> gp t u.
Definition wgood (t : term) (V : memo) (r : res (term * bool * memo * list term)) : Prop :=
  exists u f V' ls, r = Ok (u, f, V', ls) /\ gp t u /\ gpm V'.
Lemma sel_none t : isAtom t = Ok false -> sel_atoms E t = None.
Proof. intros H. unfold sel_atoms. now rewrite H. Qed.
Lemma gpm_cons t u V : gp t u -> gpm V -> gpm ((t, u) :: V).
Proof. intros H HV t' u' [X|X]; [injection X as <- <-; exact H|now apply HV]. Qed.
Lemma walk_var t V : bool_var t -> gpm V -> exists u V', walk c (sel_atoms E) t V = Ok (u, false, V', []) /\ gpm V'.
Proof.
  intros [k n H] HV. rewrite walk_eq. destruct (mfind (T k boolS n []) V) as [u|]; [eauto|].
  rewrite sel_none by (apply slit_not_atom, SL_var; now constructor). cbn [walks bind]. eexists _, _. split; [reflexivity|]. apply gpm_cons; [apply gp_refl|exact HV].
Qed.
Lemma walk_hit t u V : gpm V -> mfind t V = Some u -> wgood t V (Ok (u, false, V, [])).
Proof. intros HV M. apply mfind_in in M. exists u, false, V, []. split; [reflexivity|]. split; [now apply HV|exact HV]. Qed.
Lemma walk_slit t V : slit t -> gpm V -> wgood t V (walk c (sel_atoms E) t V).
Proof.
  intros S HV. destruct t as [k s n ch]. rewrite walk_eq. destruct (mfind (T k s n ch) V) as [u|] eqn:M; [now apply walk_hit|].
  rewrite sel_none by (now apply slit_not_atom).
  assert (X : exists us V' ls, walks c (sel_atoms E) ch V = Ok (us, false, V', ls) /\ gpm V').
  { inversion S as [ | |t' [k' n' H]|n' t' H]; subst; try (eexists _, _, _; split; [reflexivity|exact HV]).
    rewrite walks_cons. destruct (walk_var t' V H HV) as (u & V' & -> & HV'). cbn [bind walks orb]. eexists _, _, _. split; [reflexivity|exact HV']. }
  destruct X as (us & V' & ls & -> & HV'). cbn [bind]. eexists _, _, _, _. split; [reflexivity|]. split; [apply gp_refl|]. now apply gpm_cons; [apply gp_refl|].
Qed.
Lemma walk_atom t V : tatom c t -> key t -> gpm V -> wgood t V (walk c (sel_atoms E) t V).
Proof.
  intros A Kt HV. destruct t as [k s n ch]. rewrite walk_eq. destruct (mfind (T k s n ch) V) as [u|] eqn:M; [now apply walk_hit|].
  unfold sel_atoms. rewrite (tatom_atom c _ A). unfold sel_nodes. destruct (key_find _ [] Kt) as (u & Eu & Hu). rewrite app_nil_r in Eu. rewrite Eu.
  cbn [bind a_res a_chg a_memo a_lem]. destruct (key_val _ _ Hu) as (S & B & R).
  assert (G : gp (T k s n ch) u) by (split; [intros b _; now apply PI_slit|split; [intros _; now left|split; [auto|exact R]]]).
  eexists _, _, _, _. split; [reflexivity|]. split; [exact G|]. now apply gpm_cons.
Qed.
Lemma mkOper_not_ok x : bl c key x -> exists u, mkOper c boolS NT_NOT [x] = Ok u /\ (forall b, pfi c key b u) /\ (forall n, below n x -> below n u) /\
  forall I e, holds I e u = negb (holds I e x).
Proof.
  intros HB. assert (LO : lits_ok [x]) by (intros p [ <- | [] ] X; destruct (bl_good c key x HB) as (Y & _); exact (Y X)).
  destruct (mkOper_sound c boolS NT_NOT [x] Hc) as (u & Eu & V); [split; [exact LO|reflexivity]|]. exists u. split; [exact Eu|].
  assert (VV : forall I e, holds I e u = negb (holds I e x)).
  { intros I e. unfold holds at 1. rewrite V. fold (holds I e (T NT_NOT boolS (kindToString NT_NOT) [x])). now apply holds_not. }
  rewrite <- and_assoc. split; [|exact VV].
  apply mkOper_not_shape in Eu. destruct Eu as [ -> | [ -> | -> ]].
  - split; [intros b; apply PI_slit, SL_true|intros; apply below_TRUE].
  - split; [intros b; apply PI_slit, SL_false|intros; apply below_FALSE].
  - split; [intros b; now apply PI_not|]. intros n Hb. apply below_kind; [discriminate|]. intros y [ <- | [] ]. exact Hb.
Qed.
Lemma walk_pfi t : forall b V, pfi c key b t -> gpm V -> wgood t V (walk c (sel_atoms E) t V).
Proof.
  induction t as [k s n ch IH] using term_ind'. rewrite Forall_forall in IH. intros b V H HV.
  inversion H as [b' t' S|b' t' A B|b' n' t' D'|b' k' n' ch' A N C]; subst.
  - now apply walk_slit.
  - now apply walk_atom.
  - destruct (isVBool t') eqn:VB.
    { apply walk_slit; [|exact HV]. destruct D' as [X|[X _]]; [|destruct (tatom_cb c t' X) as (_ & Y & _); congruence].
      destruct X as [ | |t'' Y|n'' t'' Y]; try discriminate VB. now constructor. }
    rewrite walk_eq. destruct (mfind (T NT_NOT boolS n [t']) V) as [u|] eqn:M; [now apply walk_hit|].
    rewrite sel_none by reflexivity. rewrite walks_cons.
    assert (W : wgood t' V (walk c (sel_atoms E) t' V)) by (destruct D' as [X|[X Y]]; [now apply walk_slit|now apply walk_atom]).
    destruct W as (u & f & V' & ls & -> & (G1 & G2 & G3 & G4) & HV'). cbn [bind walks]. rewrite orb_false_r.
    destruct f.
    + destruct (mkOper_not_ok u (G2 D')) as (w & -> & P & B & VV). cbn [bind].
      assert (G : gp (T NT_NOT boolS n [t']) w).
      { split; [intros b' _; apply P|]. split; [|split].
        - intros [X|[X _]]; exfalso.
          + inversion X as [ | |t'' [k'' m'' X']|n'' t'' X']; subst. rewrite (bool_var_vbool t' X') in VB. discriminate VB.
          + discriminate (tatom_isk c _ NT_NOT X); cbn; tauto.
        - intros Hb. apply B, G3. apply (below_ch _ _ t' Hb). now left.
        - intros I e R. rewrite VV, (G4 I e R). symmetry. now apply holds_not. }
      eexists _, _, _, _. split; [reflexivity|]. split; [exact G|]. now apply gpm_cons.
    + eexists _, _, _, _. split; [reflexivity|]. split; [apply gp_refl|]. now apply gpm_cons; [apply gp_refl|].
  - rewrite walk_eq. destruct (mfind (T k boolS n ch) V) as [u|] eqn:M; [now apply walk_hit|].
    rewrite sel_none by (now apply (node_not_atom c key (b && kin k [NT_AND; NT_OR]))).
    assert (W : forall l V, (forall x, In x l -> In x ch) -> gpm V -> exists us f V' ls, walks c (sel_atoms E) l V = Ok (us, f, V', ls) /\ Forall2 gp l us /\ gpm V').
    { clear V HV M. induction l as [|x l IHl]; intros V Hin HV.
      - exists [], false, V, []. split; [reflexivity|]. split; [constructor|exact HV].
      - rewrite walks_cons. destruct (IH x (Hin x (or_introl eq_refl)) _ V (C x (Hin x (or_introl eq_refl))) HV) as (u & f & V1 & l1 & -> & G & HV1). cbn [bind].
        destruct (IHl V1 (fun y Hy => Hin y (or_intror Hy)) HV1) as (us & f' & V2 & l2 & -> & G2 & HV2). cbn [bind].
        eexists _, _, _, _. split; [reflexivity|]. split; [now constructor|exact HV2]. }
    destruct (W ch V (fun x Hx => Hx) HV) as (us & f & V' & ls & -> & G & HV'). clear W. cbn [bind]. destruct f.
    + assert (LN : length us = length ch) by (clear - G; induction G; cbn [length]; congruence).
      assert (GI : forall u, In u us -> exists x, In x ch /\ gp x u).
      { clear - G. induction G as [|x u l l' Gx G IH]; intros w Hw; [contradiction|]. destruct Hw as [ <- | Hw ]; [exists x; split; [now left|exact Gx]|].
        destruct (IH w Hw) as (y & Hy & Gy). exists y. split; [now right|exact Gy]. }
      assert (RB : forall b', pfi c key b' (T k boolS n ch) -> (b' = true -> k <> NT_ITE) /\ forall u, In u us -> pfi c key (b' && kin k [NT_AND; NT_OR]) u).
      { intros b' P. assert (NAT : isAtom (T k boolS n ch) = Ok false) by (now apply (node_not_atom c key (b && kin k [NT_AND; NT_OR]))).
        inversion P as [b'' t' S|b'' t' A' B'|b'' n' t' D'|b'' k' n' ch' A' N' C']; subst.
        - exfalso. inversion S as [ | |t'' [k' m' X]|m' t'' X]; subst; try discriminate A. destruct (var_kinds5 k X) as [ -> | [ -> | [ -> | [ -> | -> ]]]]; discriminate A.
        - rewrite (tatom_atom c _ A') in NAT. discriminate NAT.
        - discriminate A.
        - split; [exact N'|]. intros u Hu. destruct (GI u Hu) as (x & Hx & (G1 & _)). apply G1. now apply C'. }
      destruct (RB b H) as [N1 C1]. pose proof A as A1. rewrite <- LN in A1.
      destruct (node_rebuild c key b k us Hc A1 N1 C1) as (w & Ew & Pw & Bw & Vw). rewrite Ew. cbn [bind].
      assert (GW : gp (T k boolS n ch) w).
      { split; [|split; [|split]].
        - intros b' P. destruct (RB b' P) as [N2 C2]. destruct (node_rebuild c key b' k us Hc A1 N2 C2) as (w' & Ew' & Pw' & _). congruence.
        - intros [X|[X _]]; exfalso.
          + inversion X as [ | |t'' [k' m' Y]|m' t'' Y]; subst; try discriminate A. destruct (var_kinds5 k Y) as [ -> | [ -> | [ -> | [ -> | -> ]]]]; discriminate A.
          + pose proof (tatom_atom c _ X) as Y. rewrite (node_not_atom c key (b && kin k [NT_AND; NT_OR]) k n ch A C) in Y. discriminate Y.
        - intros Hb. apply Bw. intros u Hu. destruct (GI u Hu) as (x & Hx & (_ & _ & G3 & _)). apply G3. now apply (below_ch _ _ x Hb).
        - intros I e R. rewrite Vw, (psem_holds k n ch I e A) by (intros x Hx; exact (pfi_boolean c key x _ (C x Hx))). f_equal.
          clear - G R. induction G as [|x u l l' Gx G IH]; [reflexivity|]. cbn [map]. destruct Gx as (_ & _ & _ & G4). rewrite (G4 I e R), IH. reflexivity. }
      eexists _, _, _, _. split; [reflexivity|]. split; [exact GW|]. now apply gpm_cons.
    + eexists _, _, _, _. split; [reflexivity|]. split; [apply gp_refl|]. now apply gpm_cons; [apply gp_refl|].
Qed.
Lemma repl_ok b t : pfi c key b t -> exists u, (match E with [] => Ok t | _ => replaceAtoms c E t end) = Ok u /\ gp t u.
Proof.
  intros H. assert (X : exists u, replaceAtoms c E t = Ok u /\ gp t u).
  { unfold replaceAtoms. destruct (walk_pfi t b [] H) as (u & f & V & ls & -> & G & _); [intros ? ? []|]. cbn [bind]. destruct f; eexists; (split; [reflexivity|]); [exact G|apply gp_refl]. }
  destruct E; [exists t; split; [reflexivity|apply gp_refl]|exact X].
Qed.
End Repl.

(** ** the entry points *)
Lemma named_below c n n' as_ E D : named c n n' as_ E D -> below_def n' D.
Proof.
  intros H v a Hin. apply (n_inv _ _ _ _ _ _ H) in Hin. destruct (n_new _ _ _ _ _ _ H a v Hin) as (X & _ & B). split; [exact (proj2 (new_slit _ _ _ X))|].
  apply (below_mono n); [exact (n_le _ _ _ _ _ _ H)|exact B].
Qed.
Lemma ord_nil ord : perm_ord ord -> ord [] = [].
Proof. intros H. specialize (H []). now apply Permutation_sym, Permutation_nil in H. Qed.
Lemma named_nil c n : named c n n [] [] [].
Proof.
  constructor; [lia|cbn; tauto|intros x u []|intros a []|]. intros I e. exists e. split; [apply agree_refl|intros v a []].
Qed.
Lemma named_defs c n n' as_ E D m : (n' <= m)%nat -> named c n n' as_ E D -> defs n m D.
Proof.
  intros L H v a Hin. apply (n_inv _ _ _ _ _ _ H) in Hin. destruct (n_new _ _ _ _ _ _ H a v Hin) as (X & A & _). split; [|now apply (alit_lit c)].
  destruct X as [i Hi|i Hi]; [apply NL_pos|apply NL_neg]; lia.
Qed.
Lemma equisat_named c n n' as_ E D (f : interp -> env -> bool) u : named c n n' as_ E D ->
  (forall I e e', agree n e e' -> f I e = f I e') ->
  (forall I e, respects D I e -> f I e = true -> exists e', agree n' e e' /\ holds I e' u = true) ->
  (forall I e, respects D I e -> holds I e u = true -> f I e = true) -> equisat n D f u.
Proof.
  intros HN HF H1 H2. split; [|exact H2]. intros I e F. destruct (n_ext _ _ _ _ _ _ HN I e) as (e1 & A1 & R1).
  destruct (H1 I e1 R1) as (e2 & A2 & U); [now rewrite <- (HF I e e1 A1)|]. exists e2. split; [|split; [|exact U]].
  - apply (agree_trans _ e e1 e2 A1). apply (agree_mono _ n'); [exact (n_le _ _ _ _ _ _ HN)|exact A2].
  - apply (respects_agree n' D I e1 e2); [exact (named_below _ _ _ _ _ _ HN)|exact A2|exact R1].
Qed.
Lemma toCNF1_ok c ord t S : cfg_ok c -> perm_ord ord -> nnf_good c false t -> below (cs_n S) t -> mfind t (cs_map S) = None ->
  exists u S' D, toCNF1 c ord t S = Ok (u, S') /\ in_cnf u /\ cs_atoms S' = D ++ cs_atoms S /\ (cs_n S <= cs_n S')%nat /\ defs (cs_n S) (cs_n S') D /\
    equisat (cs_n S) D (fun I e => holds I e t) u.
Proof.
  intros Hc HO F B M. unfold toCNF1. rewrite M.
  destruct F as (r & Er & N & Br & V). unfold toNNF. rewrite Er. cbn [bind].
  assert (VV : forall I e, holds I e r = holds I e t) by (intros I e; rewrite V; apply xorb_false_l). clear V.
  assert (HF : forall I e e', agree (cs_n S) e e' -> holds I e t = holds I e' t) by (intros I e e' A; now apply (holds_agree I (cs_n S))).
  destruct (pfi_isCNF c KT true r N) as (b & -> & HCNF). cbn [bind].
  destruct (pfi_atoms c KT r true N) as (as_ & Eas & HA & HP). rewrite Eas. cbn [bind].
  destruct b.
  { assert (as_ = []) as -> by (rewrite (vcnf_atoms r (HCNF eq_refl)) in Eas; congruence). cbn [dedup]. rewrite (ord_nil ord HO). cbn [name_atoms bind].
    exists r. eexists. exists []. split; [reflexivity|]. split; [now apply vcnf_cnf, HCNF|]. split; [reflexivity|]. split; [reflexivity|]. split; [intros v a []|].
    apply (equisat_named c _ _ [] [] [] _ _ (named_nil c (cs_n S))); [exact HF| |].
    - intros I e R H. exists e. split; [apply agree_refl|]. now rewrite VV.
    - intros I e R H. now rewrite <- VV. }
  destruct (name_atoms_ok c (ord (dedup [] as_)) Hc [] S) as (E & D & n' & -> & HN).
  { intros a Ha. apply ord_in in Ha; [|exact HO]. destruct (HA a Ha) as [X Y]. split; [exact X|]. apply (below_sub _ r); [now apply Br|exact Y]. }
  cbn [bind]. rewrite app_nil_r.
  assert (P : pfi c (key E) true r).
  { apply HP. intros a Ha. apply (n_all _ _ _ _ _ _ HN). now apply ord_in. }
  destruct (repl_ok c _ _ _ E D Hc HN true r P) as (r' & -> & G1 & _ & G3 & G4). cbn [bind].
  assert (Pr : pfi c (key E) true r') by (now apply G1).
  assert (L1 : (cs_n S <= n')%nat) by exact (n_le _ _ _ _ _ _ HN).
  assert (Bn : below n' r') by (apply G3; apply (below_mono (cs_n S)); [exact L1|now apply Br]).
  assert (VR : forall I e, respects D I e -> holds I e r' = holds I e t) by (intros I e R; rewrite (G4 I e R); apply VV).
  clear HCNF. set (S1 := CnfSt n' (E ++ cs_map S) (D ++ cs_atoms S)). change (cs_n S1) with n'. change (cs_map S1) with (E ++ cs_map S).
    set (RR := fun I e => respects D I e).
    assert (I0' : Inv RR (Ts n' [] [])) by (constructor; [intros ? ? []|intros x []]).
    destruct (tseitin_ok RR c (key E) (E ++ cs_map S) r' Hc) with (b := true) (S := Ts n' [] []) as (l & S2 & -> & X & I2 & [Sl Bl] & V).
    { intros a _ Ka. destruct (key_find E a (cs_map S) Ka) as (u & Eu & Hu). exists u. split; [exact Eu|]. destruct (key_val c _ _ _ E D HN a u Hu) as (X1 & _ & X3). split; [exact X1|exact X3]. }
    { exact Pr. } { exact I0'. }
    { intros a u _ Ka Eu. destruct (key_find E a (cs_map S) Ka) as (u' & Eu' & Hu). assert (u' = u) as -> by congruence. cbn [ts_n]. now destruct (key_val c _ _ _ E D HN a u Hu) as (_ & X2 & _). }
    { exact Bn. }
    cbn [bind]. assert (L2 : (n' <= ts_n S2)%nat) by (exact (e_n _ _ X)).
    assert (SOL : forall I e, exists e', agree n' e e' /\ sat (ts_c S2) I e') by (intros I e; apply (e_m _ _ X I e); intros x []).
    assert (OUT : exists u, (match ts_c S2 with [] => Ok l | _ => mkAnd c (ts_c S2 ++ [l]) end) = Ok u /\ in_cnf u /\ forall I e, holds I e u = true <-> sat (ts_c S2) I e /\ holds I e l = true).
    { destruct (ts_c S2) as [|c1 cs] eqn:EC.
      - exists l. split; [reflexivity|]. split; [now apply Cnf_clause, Cl_lit, slit_lit|]. intros I e. split; [intros H; split; [intros x []|exact H]|tauto].
      - rewrite <- EC in *. clear EC c1 cs. set (cl := ts_c S2 ++ [l]).
        assert (HCL : forall x, In x cl -> clause x /\ goodB x).
        { intros x Hx. apply in_app_or in Hx. destruct Hx as [Hx|[ <- |[]]]; [split; now apply (i_cl RR S2 I2)|]. split; [now apply Cl_lit, slit_lit|now apply slit_good]. }
        assert (HB : bool_args cl) by (apply goodB_args; intros x Hx; now apply HCL).
        destruct (mkAnd_sound c cl Hc HB) as (u & E' & VU). exists u. split; [exact E'|]. split.
        + unfold mkAnd in E'. change NT_AND with (jk true) in E'. apply mkJunction_shape in E'; [|exact Hc|exact HB].
          destruct E' as [ -> | [ -> | [Hin|(qs & -> & _ & Hi & _)] ]].
          * apply Cnf_clause, Cl_lit, Lit_true.
          * apply Cnf_clause, Cl_lit, Lit_false.
          * apply Cnf_clause. now apply HCL.
          * apply Cnf_and. intros x Hx. now apply HCL, Hi.
        + intros I e. rewrite VU. rewrite forallb_forall. unfold cl. split.
          * intros H. split; [intros x Hx; apply H, in_or_app; now left|apply H, in_or_app; right; now left].
          * intros [H1 H2] x Hx. apply in_app_or in Hx. destruct Hx as [Hx|[ <- |[]]]; auto. }
    destruct OUT as (u & -> & CU & AND). cbn [bind cs_n cs_map cs_atoms]. exists u. eexists. exists D. split; [reflexivity|]. cbn [cs_n cs_atoms].
    split; [exact CU|]. split; [reflexivity|]. split; [lia|]. split; [apply (named_defs c _ n' (ord (dedup [] as_)) E D); [exact L2|exact HN]|].
    apply (equisat_named c _ n' (ord (dedup [] as_)) E D); [exact HN|exact HF| |].
    + intros I e R H. destruct (SOL I e) as (e' & A & SA). exists e'. split; [exact A|]. apply AND. split; [exact SA|].
      assert (R' : respects D I e') by (apply (respects_agree n' D I e e'); [exact (named_below _ _ _ _ _ _ HN)|exact A|exact R]).
      rewrite (V I e' SA R'), (VR I e' R'). rewrite <- (HF I e e'); [exact H|]. now apply (agree_mono _ n').
    + intros I e R H. apply AND in H. destruct H as [SA H]. rewrite (V I e SA R), (VR I e R) in H. exact H.
Qed.
Lemma mapM_nnf c ts : (forall t, In t ts -> nnf_good c false t) ->
  exists rs, mapM (toNNF c) ts = Ok rs /\ (forall r, In r rs -> nfm c r) /\ (forall I e, forallb (holds I e) rs = forallb (holds I e) ts) /\
    (forall n, (forall t, In t ts -> below n t) -> forall r, In r rs -> below n r).
Proof.
  induction ts as [|t ts IH]; intros H.
  - exists []. split; [reflexivity|]. split; [intros r []|]. split; [reflexivity|intros n _ r []].
  - destruct (H t (or_introl eq_refl)) as (r & E & N & B & V). destruct IH as (rs & E' & N' & V' & B'); [intros y Hy; apply H; now right|].
    exists (r :: rs). split; [cbn [mapM]; unfold toNNF at 1; rewrite E; cbn [bind]; rewrite E'; reflexivity|].
    split; [intros y [ <- | Hy ]; auto|]. split; [intros I e; cbn [forallb]; rewrite V, V'; now rewrite xorb_false_l|].
    intros n Hn y [ <- | Hy ]; [apply B, Hn; now left|]. apply (B' n); [intros z Hz; apply Hn; now right|exact Hy].
Qed.
Lemma atomsL_ok c rs : (forall r, In r rs -> nfm c r) -> exists as_, atomsL rs = Ok as_ /\ (forall a, In a as_ -> tatom c a /\ exists r, In r rs /\ subterm a r) /\
  (forall K' : term -> Prop, (forall a, In a as_ -> K' a) -> forall r, In r rs -> pfi c K' true r) /\
  ((forall r, In r rs -> vclause r) -> as_ = []).
Proof.
  induction rs as [|x rs IH]; intros H.
  - exists []. split; [reflexivity|]. split; [intros a []|]. split; [intros K' _ r []|reflexivity].
  - destruct (pfi_atoms c KT x true (H x (or_introl eq_refl))) as (a1 & E1 & A1 & P1). destruct IH as (a2 & E2 & A2 & P2 & C2); [intros r Hr; apply H; now right|].
    exists (a1 ++ a2). split; [cbn [atomsL]; rewrite E1; cbn [bind]; rewrite E2; reflexivity|]. split; [|split].
    + intros a Ha. apply in_app_or in Ha. destruct Ha as [Ha|Ha].
      * destruct (A1 a Ha) as [X Y]. split; [exact X|]. exists x. split; [now left|exact Y].
      * destruct (A2 a Ha) as [X (y & Y1 & Y2)]. split; [exact X|]. exists y. split; [now right|exact Y2].
    + intros K' HK y [ <- | Hy ]; [apply P1; intros a Ha; apply HK, in_or_app; now left|apply P2; [|exact Hy]; intros a Ha; apply HK, in_or_app; now right].
    + intros HV. rewrite C2 by (intros r Hr; apply HV; now right). rewrite (vclause_atoms x) in E1 by (apply HV; now left). injection E1 as <-. reflexivity.
Qed.
Lemma replAll_ok c n0 n1 as_ E D : cfg_ok c -> named c n0 n1 as_ E D -> forall rs, (forall r, In r rs -> pfi c (key E) true r) ->
  exists rs', replAll c E rs = Ok rs' /\ (forall r, In r rs' -> nfm c r) /\ ((forall r, In r rs -> below n1 r) -> forall r, In r rs' -> below n1 r) /\
    forall I e, respects D I e -> forallb (holds I e) rs' = forallb (holds I e) rs.
Proof.
  intros Hc HN. induction rs as [|x rs IH]; intros H.
  - exists []. split; [reflexivity|]. split; [intros r []|]. split; [intros _ r []|reflexivity].
  - destruct (repl_ok c n0 n1 as_ E D Hc HN true x (H x (or_introl eq_refl))) as (y & Ey & G1 & _ & G3 & G4).
    destruct IH as (rs' & Er & N & B & V); [intros r Hr; apply H; now right|].
    exists (y :: rs'). split; [cbn [replAll]; rewrite Ey; cbn [bind]; rewrite Er; reflexivity|]. split; [|split].
    + intros r [ <- | Hr ]; [|now apply N]. apply (pfi_mono c (key E)); [intros; exact Logic.I|]. apply G1. apply H. now left.
    + intros HB r [ <- | Hr ]; [apply G3, HB; now left|]. apply B; [|exact Hr]. intros z Hz. apply HB. now right.
    + intros I e R. cbn [forallb]. now rewrite (V I e R), (G4 I e R).
Qed.
Lemma holds_forall_agree I n ts e e' : (forall t, In t ts -> below n t) -> agree n e e' -> forallb (holds I e) ts = forallb (holds I e') ts.
Proof.
  intros B A. induction ts as [|t ts IH]; [reflexivity|]. cbn [forallb]. rewrite IH by (intros x Hx; apply B; now right).
  now rewrite (holds_agree I n t e e') by (auto; apply B; now left).
Qed.
Lemma toCNF_ok c ord ts S : cfg_ok c -> perm_ord ord -> (forall t, In t ts -> cfm c false t) -> (forall t, In t ts -> below (cs_n S) t) ->
  exists u S', toCNF c ord ts S = Ok (u, S') /\ in_cnf u /\ defs (cs_n S) (cs_n S') (cs_atoms S') /\
    equisat (cs_n S) (cs_atoms S') (fun I e => forallb (holds I e) ts) u.
Proof.
  intros Hc HO F B. unfold toCNF. destruct (mapM_nnf c ts) as (rs & -> & N & V & Br); [intros t Ht; apply nnf_cfm; auto|]. cbn [bind].
  destruct (elimTop_ok c (elim_fuel rs) rs Hc N) as (rs2 & -> & N2 & V2 & B2); [unfold elim_fuel; fold (total rs); lia|]. cbn [bind].
  assert (VV : forall I e, forallb (holds I e) rs2 = forallb (holds I e) ts) by (intros I e; now rewrite V2, V).
  assert (BB : forall r, In r rs2 -> below (cs_n S) r) by (apply B2, Br, B).
  assert (HF : forall I e e', agree (cs_n S) e e' -> forallb (holds I e) ts = forallb (holds I e') ts) by (intros I e e' A; now apply (holds_forall_agree I (cs_n S))).
  assert (DN : exists b, allM isClause rs2 = Ok b /\ (b = true -> forall x, In x rs2 -> vclause x)) by (apply allM_total; intros x Hx; apply (pfi_isClause c KT true); now apply N2).
  destruct DN as (b & ED & HD).
  destruct rs2 as [|x0 rs3].
  - eexists. eexists. split; [reflexivity|]. split; [apply Cnf_clause, Cl_lit, Lit_true|]. cbn [cs_atoms]. split; [intros v a []|].
    split; [intros I e H; exists e; split; [apply agree_refl|split; [intros v a []|reflexivity]]|]. intros I e _ _. rewrite <- VV. reflexivity.
  - set (rs2 := x0 :: rs3) in *. clearbody rs2. rewrite ED. cbn [bind].
    destruct (atomsL_ok c rs2 N2) as (as_ & -> & HA & HP & HNil). cbn [bind].
    destruct (name_atoms_ok c (ord (dedup [] as_)) Hc [] (CnfSt (cs_n S) [] [])) as (E & D & n' & EN & HN).
    { intros a Ha. apply ord_in in Ha; [|exact HO]. destruct (HA a Ha) as [X (r & Hr & Y)]. split; [exact X|]. cbn [cs_n]. apply (below_sub _ r); [now apply BB|exact Y]. }
    cbn [cs_n cs_map cs_atoms] in *. rewrite !app_nil_r in EN. rewrite EN. cbn [bind].
    assert (L1 : (cs_n S <= n')%nat) by exact (n_le _ _ _ _ _ _ HN).
    assert (P : forall r, In r rs2 -> pfi c (key E) true r).
    { apply HP. intros a Ha. apply (n_all _ _ _ _ _ _ HN). now apply ord_in. }
    destruct (replAll_ok c _ _ _ E D Hc HN rs2 P) as (rs' & Ers & N' & B' & V'). rewrite Ers. cbn [bind].
    destruct (junction_nfm c true rs' Hc N') as (r & Er & Nr & Bjr & Vr). change (jk true) with NT_AND in Er. unfold mkAnd at 1. rewrite Er. cbn [bind].
    assert (BR : below n' r) by (apply Bjr, B'; intros x Hx; apply (below_mono (cs_n S)); [exact L1|now apply BB]).
    assert (HR : forall I e, respects D I e -> holds I e r = forallb (holds I e) ts) by (intros I e R; rewrite Vr, (V' I e R); apply VV).
    destruct b.
    + cbn [bind]. eexists. eexists. split; [reflexivity|]. cbn [cs_n cs_atoms]. split; [|split].
      * assert (E = []) as ->.
        { rewrite (HNil (HD eq_refl)) in EN. cbn [dedup] in EN. rewrite (ord_nil ord HO) in EN. cbn [name_atoms] in EN. congruence. }
        assert (rs' = rs2) as -> by (assert (X : forall l, replAll c [] l = Ok l) by (induction l as [|x l IH]; [reflexivity|]; cbn [replAll bind]; now rewrite IH); rewrite X in Ers; congruence).
        assert (HB : bool_args rs2) by (apply goodB_args; intros x Hx; now apply (nfm_good c), N2).
        change NT_AND with (jk true) in Er. apply mkJunction_shape in Er; [|exact Hc|exact HB].
        destruct Er as [ -> | [ -> | [Hin|(qs & -> & _ & Hi & _)] ]].
        -- apply Cnf_clause, Cl_lit, Lit_true.
        -- apply Cnf_clause, Cl_lit, Lit_false.
        -- apply Cnf_clause. now apply vclause_clause, HD.
        -- apply Cnf_and. intros x Hx. now apply vclause_clause, HD, Hi.
      * exact (named_defs c _ n' _ E D _ (le_n _) HN).
      * apply (equisat_named c _ n' (ord (dedup [] as_)) E D); [exact HN|exact HF| |].
        -- intros I e R H. exists e. split; [apply agree_refl|]. now rewrite HR.
        -- intros I e R H. now rewrite <- HR.
    + destruct (mfind r E) as [w|] eqn:M.
      * assert (EQ : toCNF1 c ord r (CnfSt n' E D) = Ok (w, CnfSt n' E D)) by (unfold toCNF1; cbn [cs_map]; now rewrite M).
        rewrite EQ. cbn [bind]. eexists. eexists. split; [reflexivity|]. cbn [cs_n cs_atoms]. apply mfind_in in M.
        destruct (key_val c _ _ _ E D HN r w M) as (Sw & _ & Vw).
        split; [now apply Cnf_clause, Cl_lit, slit_lit|]. split; [exact (named_defs c _ n' _ E D _ (le_n _) HN)|].
        apply (equisat_named c _ n' (ord (dedup [] as_)) E D); [exact HN|exact HF| |].
        -- intros I e R H. exists e. split; [apply agree_refl|]. now rewrite (Vw I e R), HR.
        -- intros I e R H. now rewrite <- HR, <- (Vw I e R).
      * destruct (toCNF1_ok c ord r (CnfSt n' E D) Hc HO (nnf_nfm c r Hc Nr) BR M) as (u & S' & D2 & -> & A & CA & L2 & DF & Q).
        cbn [bind cs_n cs_map cs_atoms] in *. eexists. eexists. split; [reflexivity|]. cbn [cs_n cs_atoms]. split; [exact A|]. rewrite CA.
        split.
        { intros v a Hin. apply in_app_or in Hin. destruct Hin as [Hin|Hin].
          - destruct (DF v a Hin) as [X Y]. split; [apply (new_mono n'); [exact L1|exact X]|exact Y].
          - exact (named_defs c _ n' _ E D _ L2 HN v a Hin). }
        destruct Q as [Q1 Q2]. split.
        -- intros I e H. destruct (n_ext _ _ _ _ _ _ HN I e) as (e1 & A1 & R1).
           destruct (Q1 I e1) as (e2 & A2 & R2 & U2); [rewrite (HR I e1 R1), <- (HF I e e1 A1); exact H|].
           exists e2. split; [apply (agree_trans _ e e1 e2 A1); now apply (agree_mono _ n')|]. split; [|exact U2].
           apply respects_app. split; [exact R2|]. apply (respects_agree n' D I e1 e2); [exact (named_below _ _ _ _ _ _ HN)|exact A2|exact R1].
        -- intros I e R H. apply respects_app in R. destruct R as [R2 R1]. rewrite <- (HR I e R1). now apply Q2.
Qed.
