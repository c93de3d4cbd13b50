(** Proofs for C69, part 2: operators by name, expressions, evaluation. *)
From Coq Require Import QArith Qcanon Permutation.
From Verif Require Import Base LexSpec KindModel SortModel TermModel BVModel BVSpec BVProofs2 UtilModel UtilSpec UtilProofs UtilProofs2 Sem SemProofs DagProofs SortProofs
  SimpModel OpModel OpSpec OpProofs OpProofs2 OpProofs3 OpProofs4 OpProofs5 OpProofs6 OpProofs7 ShapeProofs TypedSpec TypedProofs
  LexModel ParseModel ParseSpec ParseProofs ParseProofs2 ParseLits ApplyModel ApplySpec ApplyProofs CommandModel CommandSpec CtorModel MeanSpec MeanProofs MeanProofs2 MeanBv MeanDef MeanProofs3 MeanLits MeanProofs4 MeanProofs5
  TraverseModel EvalModel EvalSpec EvalProofs EvalProofs2 EvalProofs3 EvalProofs4 EvTextSpec EvTextProofs.
From Verif Require BVProofs.
Open Scope Z_scope.
Section F.
Context {fl : Flag} {DD : Decls}.
Definition gtt (c : cfg) (t : ty) (u : term) : Prop := gt c (clof t) u.
Lemma gtt_gdt c ts us : Forall2 (gtt c) ts us -> Forall2 (gdt c) ts us.
Proof. induction 1 as [|t u ts us Gu F IH]; constructor; [apply Gu|exact IH]. Qed.
Lemma gtt_rep c t n us : Forall2 (gtt c) (repeat t n) us -> length us = n /\ Forall (gt c (clof t)) us.
Proof. intros F. apply (proj1 (TypedProofs.Forall2_repeat (gtt c) t n us) F). Qed.
Lemma gt_cr c t u : is_num t -> gt c (clof t) u -> gt c CR u.
Proof. intros H [G T]. split; [now apply (gd_cr c t)|exact T]. Qed.
Lemma bvnary_tidy c k e w us t : cfg_ok c -> In k bvn_kinds -> (2 <= length us)%nat -> Forall (gt c (CV w)) us -> bv_nary c k e us = Ok t -> tidy t.
Proof.
  intros Hc Hk Hl F0 H. pose proof (gt_gd c _ _ F0) as F.
  assert (E : bv_nary c k e us = mkOper c (bvS (Z.of_nat w)) k us).
  { destruct us as [|a [|b [|d us]]]; cbn [length] in Hl; try lia.
    - cbn [bv_nary]. unfold bv_bin. inversion F as [|? ? Ga F']; subst. inversion F' as [|? ? Gb _]; subst.
      rewrite (gdv_sis c w a Ga), (gdv_sis c w b Gb), (gdv_sort c w a Ga). reflexivity.
    - cbn [bv_nary]. set (ps := a :: b :: d :: us) in *.
      assert (S : Forall (fun t => t_sort t = bvS (Z.of_nat w)) ps) by (eapply Forall_impl; [|exact F]; intros q; apply gdv_sort).
      assert (GS : getSort ps = Ok (option_map t_sort (find (fun x => negb (isConst x)) ps))).
      { unfold getSort, numS, sis. unfold ps at 1. inversion S as [|? ? Sa _]; subst. rewrite Sa. reflexivity. }
      rewrite GS. cbn [bind]. rewrite (nary_bv c w _ ps F). cbn [bind].
      destruct (find_srt (fun x => negb (isConst x)) ps _ S) as [ -> | -> ]; cbn [sort_or]; [|reflexivity].
      inversion S as [|? ? Sa _]; subst. cbn [hd ps]. now rewrite Sa. }
  rewrite E in H. apply (bvop_tidy c _ k (CV w) (EV w) us t) in H; [exact H|exact Hc|right; right; now split| |exact (gt_ti c _ _ F0)| | |left; now exists w].
  - clear -Hk. repeat (destruct Hk as [ <- | Hk ]; [discriminate|]). contradiction.
  - intros C. pose proof (gt_lits c _ _ F0 C) as Li. cbn [ec] in Li. apply nary_lits; [|intros a b La Lb|exact Hl|exact Li].
    + clear -Hk. repeat (destruct Hk as [ <- | Hk ]; [reflexivity|]). contradiction.
    + destruct (y_bvn c k w a b Hk La Lb) as (v & Ev & Lv & _). exists v. split; assumption.
  - intros u Eu. destruct (bv_nary_gives c k e w us Hc Hk Hl F) as (u' & Eu' & (_ & W & _) & _). rewrite E, Eu in Eu'. injection Eu' as <-. exact W.
Qed.
Lemma bv1_tidy c k w p t : (l_clausal fl = true -> k = NT_BV_NOT) -> cfg_ok c -> In k [NT_BV_NOT; NT_BV_NEG] -> gt c (CV w) p -> theory_oper c (fun l => l) k [] [p] = Ok t -> tidy t.
Proof.
  intros Hcl Hc Hk G H. pose proof (bv1_gives c k w p Hcl Hc Hk (proj1 G)) as (u' & Eu' & (_ & W & _) & _).
  assert (E : theory_oper c (fun l => l) k [] [p] = mkOper c (bvS (Z.of_nat w)) k [p]).
  { pose proof (gdv_sort c w p (proj1 G)) as Sp. pose proof (gdv_sis c w p (proj1 G)) as Si.
    destruct Hk as [ <- | [ <- | [] ]]; cbn [theory_oper ctor un r_chk length]; rewrite take1; cbn [bind]; unfold mk_row; cbn [r_err andb r_chk allok okp out_sort r_out nth un];
      rewrite ?Si; (match goal with |- _ = mkOper c _ ?k [p] => transitivity (mkOper c (t_sort p) k [p]) end; [reflexivity|now rewrite Sp]). }
  rewrite E in H, Eu'. apply (bvop_tidy c _ k (CV w) (EV w) [p] t) in H; [exact H|exact Hc|left; split; [destruct Hk as [ <- | [ <- | [] ]]; cbn; tauto|reflexivity]| |constructor; [apply G|constructor]| | |left; now exists w].
  - clear -Hk. repeat (destruct Hk as [ <- | Hk ]; [discriminate|]). contradiction.
  - intros C. inversion C as [|? ? C1 _]; subst. pose proof (gt_lit c _ _ G C1) as Li. destruct (y_bv1 c k w p Hk Li) as (v & Ev & Lv & _). exists v. split; assumption.
  - intros u Eu. rewrite Eu in Eu'. injection Eu' as <-. exact W.
Qed.
Lemma bv2nat_tidy c w p t : l_clausal fl <> true -> cfg_ok c -> gt c (CV w) p -> theory_oper c (fun l => l) NT_BV_TO_NAT [] [p] = Ok t -> tidy t.
Proof.
  intros Hcl Hc G H. pose proof (bv2nat_gives c w p Hcl Hc (proj1 G)) as (u' & Eu' & (_ & W & _) & _).
  assert (E : theory_oper c (fun l => l) NT_BV_TO_NAT [] [p] = mkOper c intS NT_BV_TO_NAT [p]).
  { cbn [theory_oper ctor un r_chk length]. rewrite take1. cbn [bind]. unfold mk_row. cbn [r_err andb r_chk allok okp out_sort r_out un]. now rewrite (gdv_sis c w p (proj1 G)). }
  rewrite E in H, Eu'. apply (bvop_tidy c _ NT_BV_TO_NAT CI EI [p] t) in H; [exact H|exact Hc|left; split; [cbn; tauto|reflexivity]|discriminate|constructor; [apply G|constructor]| | |now right].
  - intros C. inversion C as [|? ? C1 _]; subst. pose proof (gt_lit c _ _ G C1) as Li. destruct (y_bvnat c w p Li) as (v & Ev & Lv & _). exists v. split; assumption.
  - intros u Eu. rewrite Eu in Eu'. injection Eu' as <-. exact W.
Qed.
Lemma not_tidy c p t : cfg_ok c -> gt c CB p -> mkNot c p = Ok t -> tidy t.
Proof. intros Hc G E. now apply (not_eq_tidy c Hc (not_fuel p)) in E. Qed.
Lemma oper_tidy_name GG x o ts t us u : l_clausal fl = s_clausal GG -> mean_cfg GG x -> allowed GG o ts -> op_ty o ts t -> o <> "concat"%string -> (o = "distinct"%string -> ~ In TyBool ts) ->
  Forall2 (gtt (x_c x)) ts us -> oper_kind x (getOperKind (L o)) [] us = Ok u -> tidy u.
Proof.
  intros Hfl (Hc & Hi0 & Hn & HL & _) (Ha & Hcl) H Nc Nd F. rewrite <- Hfl in Hcl. set (c := x_c x) in *.
  destruct H as [|h n Hh Hl| |t|h t Hh|h t Hh Ht|t Ht|h t n Hh Ht Hl|h w Hh|h w n Hh Hl|h w Hh|h w Hh|w w' Hf|w].
  - arg1 F. inversion F; subst.
    assert (AP : oper_kind x (getOperKind (L "not")) [] [y] = mkNot c y).
    { change (getOperKind (L "not")) with NT_NOT. cbn [oper_kind]. unfold ap1. cbn [length Nat.eqb]. rewrite CA_true. reflexivity. }
    rewrite AP. exact (not_tidy c y u Hc G).
  - apply gtt_rep in F. destruct F as [ <- F]. destruct Hh as [ <- | [ <- | [ <- | [] ]]].
    + exact (junction_tidy c true us u Hc F).
    + exact (junction_tidy c false us u Hc F).
    + exact (xor_tidy c us u Hc F).
  - arg1 F. arg1 F. inversion F; subst. exact (implies_tidy c y y0 u Hc G G0).
  - arg1 F. arg1 F. arg1 F. inversion F; subst. exact (ite_tidy c (clof t) y y0 y1 u G G0 G1).
  - arg1 F. arg1 F. inversion F; subst.
    assert (Hnb : nb (clof t)).
    { intros E. destruct (Hcl E) as [_ X]. intros Y. apply (X ltac:(destruct Hh as [ <- | [ <- | [] ]]; cbn; tauto)). destruct t; try discriminate Y. now left. }
    destruct Hh as [ <- | [ <- | [] ]].
    + exact (eqk_tidy c (clof t) y y0 u Hnb Hc G G0).
    + apply (mkDistinctV_tidy c (clof t) y y0 u Hc); [left|exact G|exact G0]. intros Y. apply (Nd eq_refl). destruct t; try discriminate Y. now left.
  - arg1 F. arg1 F. inversion F; subst. apply (gt_cr c t) in G; [|exact Ht]. apply (gt_cr c t) in G0; [|exact Ht].
    assert (AP : forall f, ap2 x f [y; y0] = f y y0).
    { intros f. unfold ap2. cbn [length Nat.eqb]. rewrite CA_true. reflexivity. }
    destruct Hh as [ <- | [ <- | [ <- | [ <- | [] ]]]]; cbv beta;
      match goal with |- oper_kind x ?k _ _ = _ -> _ => let k' := eval vm_compute in k in change k with k' end; cbn [oper_kind]; rewrite AP; fold c.
    + exact (mkCmp_tidy c NT_LT y y0 u ltac:(cbn; tauto) Hc G G0).
    + exact (mkCmp_tidy c NT_LE y y0 u ltac:(cbn; tauto) Hc G G0).
    + exact (mkCmp_tidy c NT_GT y y0 u ltac:(cbn; tauto) Hc G G0).
    + exact (mkCmp_tidy c NT_GE y y0 u ltac:(cbn; tauto) Hc G G0).
  - arg1 F. inversion F; subst. pose proof (clof_num t Ht) as Hr.
    pose proof (Hi0 (Ha ltac:(cbn; tauto))) as Hi. exact (sub_tidy c (clof t) y [] u Hc Hi Hn Hr ltac:(constructor; [exact G|constructor])).
  - apply gtt_rep in F. destruct F as [ <- F]. pose proof (clof_num t Ht) as Hr. destruct Hh as [ <- | [ <- | [ <- | [] ]]].
    + pose proof (Hi0 (Ha ltac:(cbn; tauto))) as Hi. exact (add_tidy c (clof t) us u Hc Hi Hn Hr Hl F).
    + destruct us as [|p [|q us]]; cbn [length] in Hl; try lia. pose proof (Hi0 (Ha ltac:(cbn; tauto))) as Hi. exact (sub_tidy c (clof t) p (q :: us) u Hc Hi Hn Hr F).
    + pose proof (Hi0 (Ha ltac:(cbn; tauto))) as Hi. exact (mul_tidy c (clof t) us u Hc Hi Hn Hr Hl F).
  - arg1 F. inversion F; subst. destruct Hh as [ <- | [ <- | [] ]].
    + change (oper_kind x (getOperKind (L "bvnot")) [] [y]) with (x_oper x NT_BV_NOT [] [y]). rewrite HL by (cbn; tauto).
      exact (bv1_tidy c NT_BV_NOT w y u (fun _ => eq_refl) Hc ltac:(cbn; tauto) G).
    + change (oper_kind x (getOperKind (L "bvneg")) [] [y]) with (x_oper x NT_BV_NEG [] [y]). rewrite HL by (cbn; tauto).
      exact (bv1_tidy c NT_BV_NEG w y u ltac:(intros E; destruct (Hcl E) as [X _]; exfalso; apply X; cbn; tauto) Hc ltac:(cbn; tauto) G).
  - apply gtt_rep in F. destruct F as [ <- F].
    assert (N : forall k, In k bvn_kinds -> getOperKind (L (bv_name k)) = k -> (forall ps, oper_kind x k [] ps = x_oper x k [] ps) ->
      (forall ps, theory_oper c (fun l => l) k [] ps = bv_nary c k (bv_empty k) ps) ->
      In k [NT_BV_NOT; NT_BV_NEG; NT_BV_AND; NT_BV_OR; NT_BV_XOR; NT_BV_NAND; NT_BV_NOR; NT_BV_XNOR; NT_BV_ADD; NT_BV_MUL; NT_BV_CONCAT; NT_BV_TO_NAT] ->
      oper_kind x (getOperKind (L (bv_name k))) [] us = Ok u -> tidy u).
    { intros k Hk E1 E2 E3 HI. rewrite E1, E2, HL by exact HI. fold c. rewrite E3. now apply (bvnary_tidy c k (bv_empty k) w). }
    repeat (destruct Hh as [ <- | Hh ]); [..|contradiction].
    + apply (N NT_BV_AND); (reflexivity || (cbn; tauto)).
    + apply (N NT_BV_OR); (reflexivity || (cbn; tauto)).
    + apply (N NT_BV_XOR); (reflexivity || (cbn; tauto)).
    + apply (N NT_BV_ADD); (reflexivity || (cbn; tauto)).
    + apply (N NT_BV_MUL); (reflexivity || (cbn; tauto)).
  - arg1 F. arg1 F. inversion F; subst. set (us := [y; y0]).
    assert (FF : Forall (gt c (CV w)) us) by (constructor; [exact G|constructor; [exact G0|constructor]]).
    assert (N : forall k, In k bvn_kinds -> getOperKind (L (bv_name k)) = k -> (forall ps, oper_kind x k [] ps = x_oper x k [] ps) ->
      (forall ps, theory_oper c (fun l => l) k [] ps = bv_nary c k (bv_empty k) ps) ->
      In k [NT_BV_NOT; NT_BV_NEG; NT_BV_AND; NT_BV_OR; NT_BV_XOR; NT_BV_NAND; NT_BV_NOR; NT_BV_XNOR; NT_BV_ADD; NT_BV_MUL; NT_BV_CONCAT; NT_BV_TO_NAT] ->
      oper_kind x (getOperKind (L (bv_name k))) [] us = Ok u -> tidy u).
    { intros k Hk E1 E2 E3 HI. rewrite E1, E2, HL by exact HI. fold c. rewrite E3. apply (bvnary_tidy c k (bv_empty k) w); [exact Hc|exact Hk|cbn; lia|exact FF]. }
    repeat (destruct Hh as [ <- | Hh ]); [..|contradiction].
    + apply (N NT_BV_NAND); (reflexivity || (cbn; tauto)).
    + apply (N NT_BV_NOR); (reflexivity || (cbn; tauto)).
    + apply (N NT_BV_XNOR); (reflexivity || (cbn; tauto)).
  - arg1 F. arg1 F. inversion F; subst.
    assert (AP : forall f, ap2 x f [y; y0] = f y y0).
    { intros f. unfold ap2. cbn [length Nat.eqb]. rewrite CA_true. reflexivity. }
    assert (N : forall k, In k bv_comp_kinds -> getOperKind (L (bv_name k)) = k -> (forall ps, oper_kind x k [] ps = ap2 x (mkBvCmp c k) ps) ->
      oper_kind x (getOperKind (L (bv_name k))) [] [y; y0] = Ok u -> tidy u).
    { intros k Hk E1 E2. rewrite E1, E2, AP. exact (mkBvCmp_tidy c k w y y0 u Hk Hc G G0). }
    repeat (destruct Hh as [ <- | Hh ]); [..|contradiction].
    + apply (N NT_BV_ULT); (reflexivity || (cbn; tauto)).
    + apply (N NT_BV_ULE); (reflexivity || (cbn; tauto)).
    + apply (N NT_BV_UGT); (reflexivity || (cbn; tauto)).
    + apply (N NT_BV_UGE); (reflexivity || (cbn; tauto)).
    + apply (N NT_BV_SLT); (reflexivity || (cbn; tauto)).
    + apply (N NT_BV_SLE); (reflexivity || (cbn; tauto)).
    + apply (N NT_BV_SGT); (reflexivity || (cbn; tauto)).
    + apply (N NT_BV_SGE); (reflexivity || (cbn; tauto)).
  - congruence.
  - arg1 F. inversion F; subst.
    change (oper_kind x (getOperKind (L "bv2nat")) [] [y]) with (x_oper x NT_BV_TO_NAT [] [y]). rewrite HL by (cbn; tauto).
    exact (bv2nat_tidy c w y u ltac:(intros E; destruct (Hcl E) as [X _]; apply X; cbn; tauto) Hc G).
Qed.

(** ** expressions *)
Definition env_tidy (c : cfg) (r : list (str * ty)) (q : ParseSpec.env) : Prop :=
  Forall2 (fun a b => fst a = fst b /\ gtt c (snd a) (snd b)) r q.
Lemma env_tidy_ok c r q : env_tidy c r q -> env_ok c r q.
Proof. induction 1 as [|a b r q [E G] F IH]; constructor; [split; [exact E|apply G]|exact IH]. Qed.
Lemma env_tidy_look c r q v u : env_tidy c r q -> assoc v q = Some u -> tidy u.
Proof.
  induction 1 as [|[n t] [m y] r q [E G] F IH]; [discriminate|]. cbn [fst snd] in *. subst m. cbn [assoc].
  destruct (seq_str n v); [intros H; injection H as <-; apply G|exact IH].
Qed.
Lemma tys_bool G r l ts : tys_of G r l ts -> In TyBool ts -> exists e, In e l /\ ty_of G r e TyBool.
Proof.
  induction 1 as [|r e l t ts H Hs IH]; intros X; [contradiction|]. destruct X as [ -> | X]; [exists e; split; [now left|exact H]|].
  destruct (IH X) as (e' & A & B). exists e'. split; [now right|exact B].
Qed.
Section Main.
Context (x : pcfg) (p : pst) (G : signature).
Let c := x_c x.
Hypothesis Hfl : lang G [].
Hypothesis HC : mean_cfg G x.
Hypothesis HD : known G p.
Hypothesis HV : p_fv p = [].
Hypothesis HN : s_body G = false.
Hypothesis Hdecl : forall v t, look v (s_con G) = Some t -> decls (T NT_VAR (sort_of t) v []).
Definition means_as (u : term) (q : ParseSpec.env) (e : sx) : Prop := forall I v M, MeanSpec.agrees I v M -> eval I v u = value_of G M (vals I v q) e.
Definition stands' (r : list (str * ty)) (e : sx) (t : ty) : Prop :=
  evaluable (x_keep x) G r e -> forall q d z, env_tidy c r q ->
  (exists u z', den x p d z q e u z' /\ (d = true -> z' = z) /\ gtt c t u /\ means_as u q e) /\
  (forall bs b, e = SLet bs b -> exists ls u, dlet x p z q bs b ls u /\ gtt c t u /\ means_as u q e).
Definition stands_all' (r : list (str * ty)) (l : list sx) (ts : list ty) : Prop :=
  Forall (evaluable (x_keep x) G r) l -> forall q d z, env_tidy c r q ->
  exists us z', dens x p d z q l us z' /\ (d = true -> z' = z) /\ Forall2 (gtt c) ts us /\
    forall I v M, MeanSpec.agrees I v M -> map (eval I v) us = map (value_of G M (vals I v q)) l.
Lemma let_env' bs z us ts r q : x_keep x = false -> Forall2 (gtt c) ts us -> length bs = length us -> env_tidy c r q ->
  env_tidy c (combine (names bs) ts ++ r) (combine (names bs) (let_vals x bs z us) ++ q).
Proof.
  intros Hk F Hl E. apply Forall2_app; [|exact E]. clear E. revert ts us F Hl.
  induction bs as [|[k e] bs IH]; intros ts us F Hl; [constructor|]. inversion F as [|t u ts' us' Gu F']; subst; [discriminate Hl|].
  cbn [names map combine fst snd]. unfold let_vals. cbn [combine map fst snd]. apply Forall2_cons.
  - cbn. split; [reflexivity|]. unfold let_val. now rewrite Hk.
  - apply IH; [exact F'|now injection Hl].
Qed.
Lemma lits_tidy : forall w v, tidy (bc w v).
Proof. intros w v. apply isc_tidy. intros X. apply (f_equal s_kind) in X. discriminate X. Qed.
Lemma fun_none' v : no_fun G v -> mget v (p_fun p) = None.
Proof. intros [N1 N2]. destruct HD as (_ & D2 & _). specialize (D2 v). now rewrite N2, N1 in D2. Qed.
Lemma outside' r q v : env_tidy c r q -> look v r = None -> assoc v q = None /\ mget v (p_fv p) = None /\ forall I e, look v (vals I e q) = None.
Proof.
  intros E H. pose proof (look_env c r q v (env_tidy_ok c r q E)) as X. rewrite H in X. destruct X as [Ea V]. split; [exact Ea|]. split; [now rewrite HV|exact V].
Qed.
Lemma main' : (forall r e t, ty_of G r e t -> stands' r e t) /\ (forall r l ts, tys_of G r l ts -> stands_all' r l ts).
Proof.
  pose proof HD as (D1 & D2 & D3). pose proof fun_none' as FN.
  assert (ONE : forall (r : list (str * ty)) e t, (forall bs b, e <> SLet bs b) ->
    (evaluable (x_keep x) G r e -> forall q d z, env_tidy c r q -> exists u z', den x p d z q e u z' /\ (d = true -> z' = z) /\ gtt c t u /\ means_as u q e) -> stands' r e t).
  { intros r e t N H V q d z E. split; [now apply H|]. intros bs b Z. now apply N in Z. }
  apply ty_mut.
  - (* true *) intros r k Hk Ek. apply ONE; [discriminate|]. intros _ q d z E. exists TRUE, z. split; [now apply d_true|]. split; [auto|]. split; [apply gt_T|].
    intros I v M A. cbn [value_of]. rewrite Ek. reflexivity.
  - intros r k Hk Ek. apply ONE; [discriminate|]. intros _ q d z E. exists FALSE, z. split; [now apply d_false|]. split; [auto|]. split; [apply gt_F|].
    intros I v M A. cbn [value_of]. rewrite Ek. reflexivity.
  - (* a let variable *) intros r k t (Hk & N1 & N2) El. apply ONE; [discriminate|]. intros _ q d z E. pose proof (look_env c r q (raw k) (env_tidy_ok c r q E)) as X. rewrite El in X.
    destruct X as (u & Ea & Gu & V). exists u, z. split; [apply d_bound; [exact Hk|exact Ea|apply (gd_err c _ u Gu)]|]. split; [auto|]. split; [split; [exact Gu|now apply (env_tidy_look c r q (raw k))]|].
    intros I v M A. cbn [value_of]. destruct (seqs (raw k) "true") eqn:S1; [apply seqs_spec in S1; congruence|]. destruct (seqs (raw k) "false") eqn:S2; [apply seqs_spec in S2; congruence|].
    now rewrite V.
  - (* a constant *) intros r k t (Hk & N1 & N2) El Ec Hb. apply ONE; [discriminate|]. intros _ q d z E.
    destruct (outside' r q (raw k) E El) as (Ea & Ep & V). exists (T NT_VAR (sort_of t) (raw k) []), z. split.
    { apply d_decl; auto. unfold declared. rewrite (FN _ (D3 _ _ Ec)), Ep, D1, Ec. reflexivity. }
    split; [auto|]. split; [split|].
    { apply gd_new0; [reflexivity|apply clof_ne| | |contradiction]; [apply W_var; [reflexivity|]; destruct t; reflexivity|].
      split; [intros _; unfold var_node; destruct Hfl as (_ & Hp & _); unfold Flag in *; rewrite (Hp Hb); reflexivity|]. split; [discriminate|]. split; [discriminate|]. intros _. split; [reflexivity|]. intros Z. discriminate Z. }
    { apply Ti_leaf; [discriminate|discriminate|]. intros _. now apply Hdecl. }
    intros I v M A. cbn [value_of]. rewrite V, Ec.
    destruct (seqs (raw k) "true") eqn:S1; [apply seqs_spec in S1; congruence|]. destruct (seqs (raw k) "false") eqn:S2; [apply seqs_spec in S2; congruence|].
    apply A.
  - (* a numeral *) intros r k z0 t (Hk & N1 & N2) El Ec Ef Hz Ek Ht. apply ONE; [discriminate|]. intros _ q d z E.
    destruct (outside' r q (raw k) E El) as (Ea & Ep & V). exists (mkConstInt z0), z. split.
    { apply d_lit; auto.
      - unfold declared. rewrite (FN _ Ef), Ep, D1, Ec. cbn [mget orelse]. rewrite Ek. destruct (idec_word z0 Hz) as ( -> & -> & _). reflexivity.
      - rewrite Ek. now apply lit_numeral. }
    split; [auto|]. split; [split; [apply gd_int; now apply clof_num|apply tidy_int]|].
    intros I v M A. cbn [value_of]. rewrite V, Ec.
    destruct (seqs (raw k) "true") eqn:S1; [apply seqs_spec in S1; congruence|]. destruct (seqs (raw k) "false") eqn:S2; [apply seqs_spec in S2; congruence|].
    rewrite Ek. rewrite (idec_not_bits z0 Hz). destruct (idec_word z0 Hz) as (_ & _ & ->). apply eval_ic. auto.
  - (* a bit-vector literal *) intros r k w v (Hk & N1 & N2) El Ec Ef Eq Hw Hf Eb. apply ONE; [discriminate|]. intros _ q d z E.
    destruct (outside' r q (raw k) E El) as (Ea & Ep & V). exists (bc w v), z. destruct (bits_lit x (raw k) w v Hw Hf Eb) as (Hl & HB & HV'). split.
    { apply d_lit; auto. unfold declared. rewrite (FN _ Ef), Ep, D1, Ec. cbn [mget orelse]. rewrite HB, D1, Eq. now destruct (UtilModel.isNumber (raw k)). }
    split; [auto|]. split; [split; [now apply gd_bc|apply lits_tidy]|].
    intros I e M A. cbn [value_of]. rewrite V, Ec, Eb.
    destruct (seqs (raw k) "true") eqn:S1; [apply seqs_spec in S1; congruence|]. destruct (seqs (raw k) "false") eqn:S2; [apply seqs_spec in S2; congruence|].
    rewrite eval_bc. unfold uv. now rewrite Z.mod_small.
  - (* (_ bvN w) *) intros r v w Hw Hf Hv. apply ONE; [discriminate|]. intros _ q d z E. exists (bc w v), z. split.
    { apply d_bv; [apply stoul_Idec; unfold fits in Hf; unfold two64; lia|]. now apply bvnum_lit. }
    split; [auto|]. split; [split; [now apply gd_bc|apply lits_tidy]|]. intros I e M A. cbn [value_of].
    destruct (idec_word v ltac:(lia)) as (_ & _ & ->). destruct (idec_word (Z.of_nat w) ltac:(lia)) as (_ & _ & ->). rewrite Nat2Z.id, eval_bc. unfold uv. now rewrite Z.mod_small.
  - (* an operator *) intros r h o args ts t Hh Eh Ef Ha Ho HTs IH. apply ONE; [discriminate|]. intros EV q d z E. inversion EV as [| |? ? ? Nc _ Nd Fe|]; subst.
    destruct (IH Fe q d z E) as (us & z' & Dn & Hz & F & V).
    destruct (oper_gives G x o ts t us (proj1 Hfl) HC Ha Ho (gtt_gdt c ts us F)) as (u & Eu & Gu & Vu). exists u, z'. split.
    { apply (d_op x p d z q h args us z' u); auto.
      - rewrite Eh. clear -Ho. destruct Ho as [|h n Hh Hl| |t|h t Hh|h t Hh Ht|t Ht|h t n Hh Ht Hl|h w Hh|h w n Hh Hl|h w Hh|h w Hh|w w' Hf|w]; try reflexivity; repeat (destruct Hh as [ <- | Hh ]; [reflexivity|]); contradiction.
      - now rewrite Eh.
      - apply (gd_err c _ u Gu). }
    split; [exact Hz|]. split; [split; [exact Gu|]|].
    + apply (oper_tidy_name G x o ts t us u (proj1 Hfl) HC Ha Ho); [intros ->; now apply Nc| |exact F|exact Eu].
      intros -> X. destruct (tys_bool G r args ts HTs X) as (e & Ie & Te). specialize (Nd Eh). rewrite Forall_forall in Nd. now apply (Nd e).
    + intros I v M A. rewrite Vu, (V I v M A). cbn [value_of]. destruct Ef as [Ef Ef']. rewrite Ef', Ef, Eh. reflexivity.
  - (* functions *) intros r h args ts t Hh Sp Co Ef Ed Na _ IH. apply ONE; [discriminate|]. intros EV. inversion EV as [| |? ? ? _ [N _] _ _|]; subst. congruence.
  - intros r h args ts t df Hh Sp Co Ed Na _ IH. apply ONE; [discriminate|]. intros EV. inversion EV as [| |? ? ? _ [_ N] _ _|]; subst. congruence.
  - (* let *) intros r bs b ts t Cl Nb Tk HTs IHs _ IHb EV. inversion EV as [| | |? ? ? Hk Fe Eb]; subst. specialize (Eb ts HTs).
    assert (Key : forall q z, env_tidy c r q -> exists ls u, dlet x p z q bs b ls u /\ gtt c t u /\ means_as u q (SLet bs b)).
    { intros q z E. destruct (IHs Fe q true z E) as (us & z' & Dn & Hz & F & V). rewrite (Hz eq_refl) in Dn. clear z' Hz.
      assert (Lb : length bs = length us).
      { clear -Dn. remember (map snd bs) as l eqn:El. assert (L : length l = length bs) by (subst l; apply map_length). rewrite <- L. clear L El bs.
        revert Dn. generalize z at 2. revert us. revert z. induction l as [|e l IH]; intros z us z' Dn; inversion Dn; subst; [reflexivity|]. cbn. f_equal. eapply IH. eassumption. }
      pose proof (let_env' bs z us ts r q Hk F Lb E) as E'.
      assert (VV : forall u, means_as u (combine (names bs) (let_vals x bs z us) ++ q) b -> means_as u q (SLet bs b)).
      { intros u Au I v M A. rewrite (Au I v M A). cbn [value_of]. rewrite (let_rvals x I v bs z us q Lb), (V I v M A), map_map. reflexivity. }
      destruct (IHb Eb _ true z E') as [B1 B2].
      assert (CS : (exists bs' b', b = SLet bs' b') \/ (forall bs' b', b <> SLet bs' b')).
      { destruct b; try (right; discriminate). left. eauto. }
      destruct CS as [(bs' & b' & Ebb)|Nl].
      - destruct (B2 bs' b' Ebb) as (ls & u & Dl & Gu & Au). exists (T NT_LET_BIND_VAR_LIST (t_sort (hd NULLT us)) [] (let_vals x bs z us) :: ls), u.
        split; [rewrite Ebb; now apply dl_let|]. split; [exact Gu|now apply VV].
      - destruct B1 as (u & z' & Db & Hz & Gu & Au). rewrite (Hz eq_refl) in Db. exists [T NT_LET_BIND_VAR_LIST (t_sort (hd NULLT us)) [] (let_vals x bs z us)], u.
        split; [now apply dl_body|]. split; [exact Gu|now apply VV]. }
    intros q d z E. split.
    + set (z1 := if d then z else z + 1). destruct (Key q z1 E) as (ls & u & Dl & Gu & Au).
      exists u, z1. split.
      { assert (X : den x p d z q (SLet bs b) (if x_keep x then mkLetChain ls u else u) z1) by (apply d_let; [reflexivity|exact Dl|apply (gd_err c _ u (proj1 Gu))]). now rewrite Hk in X. }
      split; [intros ->; reflexivity|]. split; [exact Gu|exact Au].
    + intros bs' b' Z. injection Z as <- <-. now apply Key.
  - intros r _ q d z E. exists [], z. split; [constructor|]. split; [auto|]. split; [constructor|]. reflexivity.
  - intros r e l t ts _ IHe _ IHl EV q d z E. inversion EV as [|? ? Ve Vl]; subst. destruct (IHe Ve q d z E) as [(u & z1 & De & H1 & Gu & Au) _]. destruct (IHl Vl q d z1 E) as (us & z2 & Dl & H2 & F & V).
    exists (u :: us), z2. split; [now apply (ds_cons x p d z q e l u us z1)|]. split; [intros H; rewrite (H2 H); now apply H1|]. split; [now constructor|].
    intros I v M A. cbn [map]. rewrite (V I v M A). f_equal. now apply Au.
Qed.
End Main.

(** ** what evaluation needs *)
Lemma map_rep {A B} (f : A -> B) a n : map f (repeat a n) = repeat (f a) n.
Proof. induction n; cbn; [reflexivity|now f_equal]. Qed.
Lemma sig_esig k r rs n : sig k r rs -> kin k fold_kinds = true -> r <> CL -> (k = NT_IMPLIES -> length rs = 2%nat) -> n = length rs -> esig k (ec r) (map ec rs).
Proof.
  intros S K N H _. destruct S as [|k n' Hk Hl|n' Hl _|r' Hr|k r' n' Hk Hr Hl|k Hk|k r' n' Hk Hr Hl|r' Hr|r'|rs|n' r'|k w Hk|k w n' Hk Hl|k w Hk|w w' Hf|w]; try discriminate K; rewrite ?map_rep; cbn [map ec].
  - apply E_not.
  - now apply E_conn.
  - specialize (H eq_refl). rewrite repeat_length in H. subst n'. apply E_imp.
  - apply E_ite.
  - now apply E_eq.
  - now apply E_cmp.
  - rewrite (ec_num r' Hr). apply E_arith; [cbn in Hk |- *; tauto|exact Hl].
  - rewrite (ec_num r' Hr). apply E_int1. now left.
  - now apply E_bv1.
  - now apply E_bvn.
  - now apply E_bvcmp.
  - apply E_bvnat.
Qed.
Lemma gt_et c r t : gt c r t -> et (ec r) t.
Proof.
  revert r. induction t as [k s n ch IH] using term_ind'. intros r G. pose proof G as ((N & W & Tk) & Ti).
  destruct (isConst (T k s n ch)) eqn:C; [apply T_lit; now apply (gt_lit c)|].
  destruct ch as [|a ch].
  - inversion Ti as [? ? ? N1 N2 N3|? ? ? ? K _ O]; subst; [|inversion O].
    assert (X : is_leaf_var k = true /\ (r <> CL -> vty (ec r) s)).
    { clear -W C. remember (T k s n []) as t eqn:E. induction W as [k' s' n' r A B| | |s' z A|k' s' n' r rs ch A B F _|s' n' r rs ch A B D F _|t W IH|w v A B] using wt_ind'; try (injection E; intros; subst; discriminate C); try discriminate E.
      - injection E as -> -> ->. split; [exact A|]. intros N. destruct r; cbn in B |- *; auto. congruence.
      - injection E as -> -> -> ->. inversion F; subst. inversion A; subst; try (match goal with H : [] = repeat _ ?n |- _ => destruct n; [lia|discriminate H] end); try (match goal with H : repeat _ ?n = [] |- _ => destruct n; [lia|discriminate H] end); [congruence|]. match goal with H : _ ++ _ = [] |- _ => apply app_eq_nil in H; destruct H as [_ H]; discriminate H end.
      - exfalso. apply A. now injection E.
      - destruct (IH E C) as [A B]. split; [exact A|]. intros _. apply B. discriminate. }
    destruct X as [X V]. apply T_var.
    + clear -X N1. destruct k; try discriminate X; cbn; try tauto; congruence.
    + now apply V.
  - inversion Ti as [|? ? ? ? K F O]; subst.
    assert (X : exists rs r', sig k r' rs /\ ec r' = ec r /\ r' <> CL /\ Forall2 wt rs (a :: ch)).
    { clear -W N K. remember (T k s n (a :: ch)) as t eqn:E. induction W as [k' s' n' r A B| | |s' z A|k' s' n' r rs ch' A B F _|s' n' r rs ch' A B D F _|t W IH|w v A B] using wt_ind'; try discriminate E.
      - injection E as -> -> -> ->. exists rs, r. auto.
      - injection E as <- -> -> ->. discriminate K.
      - destruct (IH ltac:(discriminate) E) as (rs & r' & A & B & D & F). exists rs, r'. auto. }
    destruct X as (rs & r' & S & Er & N' & FW). rewrite <- Er. apply (T_app k s n (ec r') (map ec rs)).
    + apply (sig_esig k r' rs (length rs)); auto. intros ->. destruct Tk as [_ P]. destruct (P _ (Sub_refl _)) as (_ & HI & _). specialize (HI eq_refl). cbn [t_ch] in HI. now rewrite (F2_len _ _ _ FW).
    + assert (NL : ~ In CL rs).
      { clear -S K. intros X. destruct S as [|k n' Hk Hl|n' Hl _|r' Hr|k r' n' Hk Hr Hl|k Hk|k r' n' Hk Hr Hl|r' Hr|r'|rs|n' r'|k w Hk|k w n' Hk Hl|k w Hk|w w' Hf|w]; try discriminate K;
          try (apply repeat_spec in X); cbn in X; repeat match goal with X : _ \/ _ |- _ => destruct X end; subst; try discriminate; try congruence; try contradiction. }
      clear -FW IH F Tk NL. assert (TC : forall y, In y (a :: ch) -> tok c y) by (intros y Hy; now apply (tok_ch c (T k s n (a :: ch)))). clear Tk.
      revert IH F TC. induction FW as [|q y rs l Wy FW IHf]; intros IH F TC; [constructor|]. inversion F as [|? ? Ty F']; subst. inversion IH as [|? ? Hy IH']; subst. cbn [map]. constructor.
      * apply Hy. split; [split; [intros ->; apply NL; now left|split; [exact Wy|apply TC; now left]]|exact Ty].
      * apply IHf; auto; [intros X; apply NL; now right|intros z Hz; apply TC; now right].
    + exact O.
Qed.
Lemma tidy_vars t x : tidy t -> subterm x t -> isVar x = true -> decls x.
Proof.
  induction t as [k s n ch IH] using term_ind'. intros H S V. inversion S as [|u c0' t0 Hc S']; subst.
  - inversion H as [? ? ? N1 N2 N3|? ? ? ? K _ _]; subst.
    + apply N3. exact V.
    + exfalso. unfold isVar, isk in V. cbn [t_kind] in V. clear -V K. destruct k; try discriminate V; discriminate K.
  - cbn [t_ch] in Hc. rewrite Forall_forall in IH. apply (IH c0' Hc); [|exact S'|exact V]. now apply (tidy_ch _ _ H).
Qed.
End F.

(** ** literals and values *)
Definition etyof (t : ty) : ety := ec (clof t).
Lemma literal_lit M v t u : (forall w, t = TyBV w -> (0 < w)%nat /\ fits w) -> literal (con_val M v t) u -> islit (etyof t) u.
Proof.
  intros Hw H. destruct t as [| | |w]; cbn [con_val literal] in H; cbn [etyof ec clof].
  - subst u. apply islit_mkB.
  - destruct H as (z & _ & ->). apply L_int.
  - destruct H as (z & _ & ->). apply L_int.
  - subst u. destruct (Hw w eq_refl). now apply L_bv.
Qed.
Lemma literal_val I e M v t u : literal (con_val M v t) u -> eval I e u = con_val M v t.
Proof.
  intros H. destruct t as [| | |w]; cbn [con_val literal] in H |- *.
  - subst u. destruct (m_bool M v); reflexivity.
  - destruct H as (z & E & ->). rewrite E. apply eval_ic. auto.
  - destruct H as (z & E & ->). rewrite E. apply eval_ic. auto.
  - subst u. fold (bc w (m_bv M v w mod 2 ^ Z.of_nat w)). rewrite eval_bc. unfold uv. rewrite Z.mod_mod; [reflexivity|]. apply Z.pow_nonzero; lia.
Qed.
Lemma lit_literal r v I e : islit r v -> literal (eval I e v) v.
Proof.
  intros H. destruct H as [| |z|w v Hw Hf]; [reflexivity|reflexivity| |].
  - change (mkConstInt z) with (ic intorealS z). rewrite eval_ic by auto. exists z. split; reflexivity.
  - fold (bc w v). rewrite eval_bc. cbn [literal]. unfold bc. now rewrite BVProofs.lit_uv.
Qed.
Theorem parse_eval x p G e t tx m M ptr : mean_cfg G x -> declares G p -> x_file x = false -> top_state x p ->
  ty_of G [] e t -> evaluable (x_keep x) G [] e -> well_scoped e -> lexes plain_word tx (render e) -> widths_ok G -> holds_values G M m ->
  exists u p' w, mkExpr x p tx = Ok (u, p') /\ evaluateT (x_c x) ptr m u = Ok w /\ literal (value_of G M [] e) w.
Proof.
  intros HC HD HF HT Ht He HS HL HW HM.
  set (D := (fun u => exists v y, look v (s_con G) = Some y /\ u = T NT_VAR (sort_of y) v []) : Decls).
  destruct (declares_ready G p HD) as (KN & FV & BD).
  assert (LG : @lang (Language (s_clausal G) None) G []) by (split; [reflexivity|split; [reflexivity|congruence]]).
  destruct (proj1 (@main' (Language (s_clausal G) None) D x p G LG HC KN FV ltac:(intros v y Hy; exists v, y; auto)) [] e t Ht He [] false (p_ctr p) ltac:(constructor)) as [(u & z & Dn & _ & Gu & A) _].
  destruct (mk_expr_ok x p e u z tx HT Dn (scoped_any G [] e t p Ht HS) HL HF) as (p' & E & _).
  pose proof (@gt_et _ D _ _ _ Gu) as Et.
  assert (AS : assigns m u).
  { intros y r S V Ey. destruct (@tidy_vars D u y (proj2 Gu) S V) as (v & ty' & Hv & ->). destruct (HM v ty' Hv) as (w & Ew & Lw). exists w. split; [exact Ew|].
    assert (Er : etyof ty' = r).
    { inversion Ey as [k s n r' Hk Hs|r' w' Hw'|k s n r' rs ch Sg F X]; subst.
      - destruct ty', r; cbn [vty sort_of] in Hs; cbn [etyof ec clof]; try reflexivity; try (destruct Hs as [Hs|Hs]); try (apply (f_equal s_kind) in Hs; discriminate Hs).
        f_equal. unfold bvS in Hs. injection Hs as Hs. lia.
      - inversion Hw'.
      - inversion X. }
    rewrite <- Er. apply (literal_lit M v); [|exact Lw]. intros w' ->. now apply (HW v). }
  destruct (evaluate_total (x_c x) ptr m u _ Et AS) as (w & Ew & Lw & Vw). exists u, p', w. split; [exact E|]. split; [unfold evaluateT; now rewrite Ew|].
  assert (AG : agrees (interp_of M) (env_of_structure M) m u).
  { intros y w' S V Gy U. destruct (@tidy_vars D u y (proj2 Gu) S V) as (v & ty' & Hv & ->). destruct (HM v ty' Hv) as (w0 & Ew0 & Lw0). rewrite Ew0 in Gy. injection Gy as <-.
    rewrite (literal_val _ _ M v ty' w0 Lw0). apply agrees_interp. }
  specialize (Vw _ _ AG). rewrite (A _ _ M (agrees_interp M)) in Vw. cbn [vals map] in Vw. rewrite Vw. now apply (lit_literal (ec (clof t))).
Qed.
