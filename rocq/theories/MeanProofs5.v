(** Proofs for MeanSpec.v: texts, structures and interpretations, scripts. *)
From Coq Require Import QArith Qcanon Permutation.
From Verif Require Import Base LexSpec KindModel SortModel TermModel BVModel BVSpec BVProofs2 UtilModel UtilSpec UtilProofs UtilProofs2 Sem SemProofs DagProofs SortProofs
  SimpModel OpModel OpSpec OpProofs OpProofs2 OpProofs3 OpProofs4 OpProofs5 OpProofs6 OpProofs7 ShapeProofs TypedSpec TypedProofs
  LexModel ParseModel ParseSpec ParseProofs ParseProofs2 ParseLits ApplyModel ApplySpec ApplyProofs CommandModel CommandSpec CommandProofs CommandProofs2 CommandMore
  MeanSpec MeanProofs MeanProofs2 MeanBv MeanDef MeanProofs3 MeanLits MeanProofs4.
Open Scope Z_scope.

(** ** expressions *)
Lemma env_nil (fl : Flag) c : env_ok c [] []. Proof. constructor. Qed.
(** the state between two commands *)
Definition ready (G : signature) (p : pst) : Prop := known G p /\ p_fv p = [] /\ s_body G = false.
Lemma declares_ready G p : declares G p -> ready G p.
Proof. intros D. split; [now apply declares_known|]. destruct D as (_ & _ & _ & D4 & _ & D6). now split. Qed.
Lemma expr_den x p G e t : mean_cfg G x -> ready G p -> ty_of G [] e t ->
  exists u z, den x p false (p_ctr p) [] e u z /\ @gdt (Language (s_clausal G) None) (x_c x) t u /\
    forall I v M, agrees I v M -> eval I v u = value_of G M [] e.
Proof.
  intros HC (HD & HV & HB) HT.
  assert (LG : @lang (Language (s_clausal G) None) G []) by (split; [reflexivity|split; [reflexivity|congruence]]).
  destruct (proj1 (@main (Language (s_clausal G) None) x p G [] LG HC HD HV (NoDup_nil _) (fun b H => match H with end)) [] e t HT [] [] false (p_ctr p) eq_refl (env_nil _ _)) as [(u & z & D & _ & Gu & A) _].
  exists u, z. split; [exact D|]. split; [exact Gu|]. exact A.
Qed.
(** the body of a definition *)
Lemma body_den x p G FV e t : mean_cfg G x -> known G p -> NoDup (map fst FV) -> (forall b, In b FV -> no_fun G (fst b)) ->
  p_fv p = rev (map (fun b => (fst b, par b)) FV) -> ty_of (in_body G) FV e t ->
  exists u z, den x p false (p_ctr p) [] e u z /\ @gdt (Language (s_clausal G) (Some (map par FV))) (x_c x) t u /\
    forall I v M, agrees I v M -> eval I v u = value_of (in_body G) M (pvals FV I v) e.
Proof.
  intros HC HD HN HF HV HT.
  assert (LG : @lang (Language (s_clausal G) (Some (map par FV))) (in_body G) FV) by (split; [reflexivity|split; [discriminate|reflexivity]]).
  destruct (proj1 (@main (Language (s_clausal G) (Some (map par FV))) x p (in_body G) FV LG HC HD HV HN HF) FV e t HT [] [] false (p_ctr p) eq_refl (env_nil _ _)) as [(u & z & D & _ & Gu & A) _].
  exists u, z. split; [exact D|]. split; [exact Gu|]. exact A.
Qed.

(** ** scoping without quantifiers does not depend on declarations *)
Lemma scoped_indep G p p' : (forall r e t, ty_of G r e t -> forall d D N, scoped p d D N e = scoped p' d D N e) /\
  (forall r l ts, tys_of G r l ts -> Forall (fun e => forall d D N, scoped p d D N e = scoped p' d D N e) l).
Proof.
  assert (AP : forall h args, Forall (fun e => forall d D N, scoped p d D N e = scoped p' d D N e) args ->
    forall d D N, scoped p d D N (SApp h args) = scoped p' d D N (SApp h args)).
  { intros h args F d D N. cbn [scoped]. revert D. induction F as [|e l He F IH]; intros D; [reflexivity|]. rewrite He. destruct (scoped p' d D N e); [apply IH|reflexivity]. }
  apply ty_mut; try (intros; reflexivity).
  - intros r h o args ts t _ _ _ _ _ _ F. now apply AP.
  - intros r h args ts t _ _ _ _ _ _ _ F. now apply AP.
  - intros r h args ts t d0 _ _ _ _ _ _ F. now apply AP.
  - intros r bs b ts t _ _ _ _ F _ Hb d D N. cbn [scoped].
    set (f1 := fix binds (D : list str) (l : list (token * sx)) : option (list str) :=
        match l with
        | [] => Some D
        | q :: l' =>
            match scoped p true D N (snd q) with
            | Some D' => if mem (raw (fst q)) (D' ++ N) || unboundable (raw (fst q)) then None
                         else binds (raw (fst q) :: D') l'
            | None => None
            end
        end).
    set (f2 := fix binds (D : list str) (l : list (token * sx)) : option (list str) :=
        match l with
        | [] => Some D
        | q :: l' =>
            match scoped p' true D N (snd q) with
            | Some D' => if mem (raw (fst q)) (D' ++ N) || unboundable (raw (fst q)) then None
                         else binds (raw (fst q) :: D') l'
            | None => None
            end
        end).
    assert (E : forall l D0, Forall (fun e => forall d D N, scoped p d D N e = scoped p' d D N e) (map snd l) -> f1 D0 l = f2 D0 l).
    { induction l as [|q l IH]; intros D0 Fl; [reflexivity|]. inversion Fl as [|? ? Hq Fl']; subst. cbn [f1 f2]. rewrite Hq.
      destruct (scoped p' true D0 N (snd q)) as [D1|]; [|reflexivity]. destruct (mem _ _ || _); [reflexivity|]. now apply IH. }
    rewrite (E bs _ F). destruct (f2 _ bs); [|reflexivity]. rewrite Hb. reflexivity.
  - intros. constructor.
  - intros. constructor; assumption.
Qed.
Lemma scoped_any G r e t p : ty_of G r e t -> well_scoped e -> scoped p false [] [] e = Some [].
Proof. intros HT HS. rewrite (proj1 (scoped_indep G p pst0) r e t HT). exact HS. Qed.

Lemma gd_fits (fl : Flag) c t u : gdt c t u -> ty_fits t (t_sort u).
Proof. intros (N & W & _). pose proof (wt_sort _ u W N) as S. destruct t; exact S. Qed.
Lemma mean_text x p G e t tx : mean_cfg G x -> declares G p -> x_file x = false -> top_state x p -> ty_of G [] e t -> well_scoped e ->
  lexes plain_word tx (render e) ->
  exists u p', mkExpr x p tx = Ok (u, p') /\ ty_fits t (t_sort u) /\ isErr u = false /\ same_decls p p' /\ top_state x p' /\
    forall I v M, agrees I v M -> eval I v u = value_of G M [] e.
Proof.
  intros HC HD HF HT Ht HS HL. destruct (expr_den x p G e t HC (declares_ready G p HD) Ht) as (u & z & D & Gu & A).
  destruct (mk_expr_ok x p e u z tx HT D (scoped_any G [] e t p Ht HS) HL HF) as (p' & E & T' & _ & S').
  exists u, p'. split; [exact E|]. split; [now apply (gd_fits (Language (s_clausal G) None) (x_c x))|]. split; [exact (proj1 (gd_err _ _ _ Gu))|].
  split; [exact S'|split; [exact T'|exact A]].
Qed.

(** ** structures and interpretations *)
Definition ty_of_sort (s : sort) : option ty :=
  match s_kind s with SK_BOOL => Some TyBool | SK_INT => Some TyInt | SK_REAL => Some TyReal
  | SK_BV => Some (TyBV (Z.to_nat (s_arity (hd nullS (s_ch s))))) | _ => None end.
Definition env_of_structure (M : structure) : Sem.env :=
  fun t => match ty_of_sort (t_sort t) with Some y => con_val M (t_name t) y | None => VBool false end.
Definition interp_of (M : structure) : interp :=
  {| i_op := fun k s n vs => match ty_of_sort s with Some y => fun_val M n y vs | None => VBool false end;
     i_dom := i_dom I0; i_all := i_all I0; i_all_ok := i_all_ok I0 |}.
Definition structure_of (I : interp) (e : Sem.env) : structure :=
  let con s v := eval I e (T NT_VAR s v []) in
  let fn s f vs := app_sem I NT_UF_APPLY s f vs in
  Structure (fun v => truth (con boolS v)) (fun v => qfloor (num (con intS v))) (fun v => num (con realS v))
            (fun v w => bvv (con (bvS (Z.of_nat w)) v))
            (fun f vs => truth (fn boolS f vs)) (fun f vs => qfloor (num (fn intS f vs))) (fun f vs => num (fn realS f vs))
            (fun f w vs => bvv (fn (bvS (Z.of_nat w)) f vs)).
Lemma coerce_bv w v : coerce (bvS (Z.of_nat w)) v = VBV w (uv w (bvv v)).
Proof. unfold coerce. cbn [s_kind bvS s_ch s_arity widthS]. now rewrite Nat2Z.id. Qed.
Lemma ty_sort_of t : ty_of_sort (sort_of t) = Some t.
Proof. destruct t; try reflexivity. unfold ty_of_sort, sort_of, bvS. cbn [s_kind s_ch hd]. cbn [widthS s_arity]. now rewrite Nat2Z.id. Qed.
Lemma coerce_con M v t : coerce (sort_of t) (con_val M v t) = con_val M v t.
Proof.
  destruct t; cbn [sort_of con_val]; try reflexivity.
  - unfold coerce. cbn [s_kind intS num]. now rewrite qfloor_ZQ.
  - rewrite coerce_bv. cbn [bvv]. unfold uv. now rewrite Z.mod_mod by (apply Z.pow_nonzero; lia).
Qed.
Lemma coerce_fun M f t vs : coerce (sort_of t) (fun_val M f t vs) = fun_val M f t vs.
Proof.
  destruct t; cbn [sort_of fun_val]; try reflexivity.
  - unfold coerce. cbn [s_kind intS num]. now rewrite qfloor_ZQ.
  - rewrite coerce_bv. cbn [bvv]. unfold uv. now rewrite Z.mod_mod by (apply Z.pow_nonzero; lia).
Qed.
Lemma agrees_interp M : agrees (interp_of M) (env_of_structure M) M.
Proof.
  split.
  - intros v t. change (eval (interp_of M) (env_of_structure M) (T NT_VAR (sort_of t) v [])) with (coerce (sort_of t) (env_of_structure M (T NT_VAR (sort_of t) v []))).
    unfold env_of_structure. cbn [t_sort t_name]. rewrite ty_sort_of. apply coerce_con.
  - intros f t vs. unfold app_sem, interp_of. cbn [op_sem i_op]. rewrite ty_sort_of. apply coerce_fun.
Qed.
Lemma bv_again w v : VBV w (uv w (bvv v)) = VBV w (bvv (VBV w (uv w (bvv v))) mod 2 ^ Z.of_nat w).
Proof. cbn [bvv]. unfold uv. now rewrite Z.mod_mod by (apply Z.pow_nonzero; lia). Qed.
Lemma agrees_structure I e : agrees I e (structure_of I e).
Proof.
  split.
  - intros v t. destruct t; cbn [con_val structure_of m_bool m_int m_real m_bv sort_of].
    + cbn [eval]. unfold leaf_sem. change (is_leaf_var NT_VAR) with true. reflexivity.
    + cbn [eval]. unfold leaf_sem. change (is_leaf_var NT_VAR) with true. cbv iota. unfold coerce. cbn [s_kind intS num]. now rewrite qfloor_ZQ.
    + cbn [eval]. unfold leaf_sem. change (is_leaf_var NT_VAR) with true. reflexivity.
    + change (eval I e (T NT_VAR (bvS (Z.of_nat w)) v [])) with (coerce (bvS (Z.of_nat w)) (e (T NT_VAR (bvS (Z.of_nat w)) v []))). rewrite coerce_bv. apply bv_again.
  - intros f t vs. destruct t; cbn [fun_val structure_of f_bool f_int f_real f_bv sort_of]; unfold app_sem; cbn [op_sem].
    + reflexivity.
    + unfold coerce. cbn [s_kind intS num]. now rewrite qfloor_ZQ.
    + reflexivity.
    + rewrite coerce_bv. apply bv_again.
Qed.

(** ** scripts *)
(** the bit-vector operators do not look at the options *)
Lemma mkOper_opts b file o s k ps : In k [NT_BV_NOT; NT_BV_NEG; NT_BV_TO_NAT] /\ length ps = 1%nat \/ In k (NT_BV_CONCAT :: bvn_kinds) /\ (2 <= length ps)%nat -> mkOper (x_c (xo b file o)) s k ps = mkOper (x_c b) s k ps.
Proof.
  intros D. unfold mkOper.
  assert (E2 : forall k a d, In k (NT_BV_CONCAT :: bvn_kinds) -> simp2 (x_c (xo b file o)) k a d = simp2 (x_c b) k a d).
  { clear. intros k a d Hk. repeat (destruct Hk as [ <- | Hk ]; [reflexivity|]). contradiction. }
  assert (E : simp (x_c (xo b file o)) k ps = simp (x_c b) k ps).
  { destruct D as [(Hk1 & L1)|(Hk3 & L3)].
    - destruct ps as [|p [|]]; try discriminate L1. repeat (destruct Hk1 as [ <- | Hk1 ]; [reflexivity|]). contradiction.
    - assert (K : kin k leftfold_kinds = true) by (clear -Hk3; repeat (destruct Hk3 as [ <- | Hk3 ]; [reflexivity|]); contradiction).
      destruct (leftfold_kind k K) as (E3 & E4 & E5). pose proof Hk3 as Hk'. clear Hk3.
      destruct ps as [|p [|q [|u [|v ps]]]]; cbn [length] in L3; try lia.
      + now apply E2.
      + cbn [simp]. unfold simp3. rewrite E3, E4.
        assert (K' : kin k (NT_IMPLIES :: leftfold_kinds) = true) by (unfold kin in *; cbn [existsb]; now rewrite K, orb_true_r).
        rewrite K', E2 by exact Hk'. destruct (simp2 (x_c b) k p q); cbn [bind]; try reflexivity. now apply E2.
      + cbn [simp]. unfold simpN. rewrite E3, E4, E5, K. generalize (q :: u :: v :: ps). intros l. revert p. induction l as [|y l IH]; intros p; [reflexivity|].
        cbn [fold_simp]. rewrite E2 by exact Hk'. destruct (simp2 (x_c b) k p y) as [z| | | | |]; cbn [bind]; try reflexivity. destruct (isUnknown z); [reflexivity|apply IH]. }
  rewrite E. reflexivity.
Qed.
Lemma nary_opts b file o k e ps : In k bvn_kinds -> CtorModel.bv_nary (x_c (xo b file o)) k e ps = CtorModel.bv_nary (x_c b) k e ps.
Proof.
  intros Hk. assert (M : forall s qs, (2 <= length qs)%nat -> mkOper (x_c (xo b file o)) s k qs = mkOper (x_c b) s k qs).
  { intros s qs Hl. apply mkOper_opts. right. split; [now right|exact Hl]. }
  destruct ps as [|p [|q [|u ps]]]; try reflexivity.
  - cbn [CtorModel.bv_nary]. unfold CtorModel.bv_bin. rewrite M by (cbn; lia). reflexivity.
  - cbn [CtorModel.bv_nary]. destruct (getSort _); cbn [bind]; try reflexivity. destruct (CtorModel.nary_loop _ _ _) as [[?|]| | | | |]; cbn [bind]; try reflexivity.
    apply M. cbn. lia.
Qed.
Lemma xo_bv b file o : library_bv b -> library_bv (xo b file o).
Proof.
  intros H k ps Hk. change (x_oper (xo b file o)) with (x_oper b). rewrite H by exact Hk.
  assert (R : forall k w, bvcase k (length (CtorModel.r_chk w)) -> CtorModel.r_err w = false ->
    (a <- CtorModel.args (x_c b) (length (CtorModel.r_chk w)) ps ;; CtorModel.mk_row (x_c b) k w a) =
    (a <- CtorModel.args (x_c (xo b file o)) (length (CtorModel.r_chk w)) ps ;; CtorModel.mk_row (x_c (xo b file o)) k w a)).
  { intros k0 w D E. change (CtorModel.args (x_c (xo b file o))) with (CtorModel.args (x_c b)).
    destruct (CtorModel.args (x_c b) (length (CtorModel.r_chk w)) ps) as [a| | | | |] eqn:EA; cbn [bind]; try reflexivity.
    assert (L : length a = length (CtorModel.r_chk w)).
    { unfold CtorModel.args in EA. destruct (condAssert _ _); cbn [bind] in EA; try discriminate EA. clear -EA. revert ps a EA. generalize (length (CtorModel.r_chk w)).
      induction n as [|n IH]; intros ps a EA; cbn [CtorModel.take_args] in EA; [injection EA as <-; reflexivity|].
      destruct ps as [|p ps]; [discriminate EA|]. destruct (CtorModel.take_args n ps) as [q| | | | |] eqn:Q; cbn [bind] in EA; try discriminate EA. injection EA as <-. cbn. f_equal. now apply (IH ps). }
    unfold CtorModel.mk_row. rewrite E. cbn [andb]. destruct (CtorModel.allok _ _); [|reflexivity]. symmetry. apply mkOper_opts. rewrite L. destruct D as [D|[( -> & ->)|(D & Hl)]]; [left; exact D|right; split; [now left|lia]|right; split; [now right|exact Hl]]. }
  destruct Hk as [ <- | [ <- | Hk ]].
  - apply (R NT_BV_NOT (CtorModel.un CtorModel.PBv (CtorModel.Arg 0))); [left; split; [cbn; tauto|reflexivity]|reflexivity].
  - apply (R NT_BV_NEG (CtorModel.un CtorModel.PAny (CtorModel.Arg 0))); [left; split; [cbn; tauto|reflexivity]|reflexivity].
  - assert (Q : In k bvn_kinds \/ k = NT_BV_CONCAT \/ k = NT_BV_TO_NAT).
    { clear -Hk. repeat (destruct Hk as [ <- | Hk ]; [cbn; tauto|]). contradiction. }
    destruct Q as [Q|[ -> | -> ]].
    + assert (E : forall c, CtorModel.theory_oper c (fun l => l) k [] ps = CtorModel.bv_nary c k (CtorModel.bv_empty k) ps).
      { intros c. clear -Q. repeat (destruct Q as [ <- | Q ]; [reflexivity|]). contradiction. }
      rewrite !E. symmetry. now apply nary_opts.
    + cbn [CtorModel.theory_oper]. unfold CtorModel.mkBvConcat. destruct ps as [|p [|q [|u ps]]]; try reflexivity.
      destruct (CtorModel.concat_loop 0 (p :: q :: u :: ps)) as [[t|w]| | | | |]; cbn [bind]; try reflexivity. symmetry. apply mkOper_opts. right. split; [now left|cbn; lia].
    + apply (R NT_BV_TO_NAT (CtorModel.un CtorModel.PBv (CtorModel.Fix intS))); [left; split; [cbn; tauto|reflexivity]|reflexivity].
Qed.
Definition logic_fits (G : signature) (o : opts) : Prop := (s_ints G = true -> has_char "I"%char (o_logic o) = true) /\ has_char "R"%char (o_logic o) = false /\ o_xfun o = true.
Lemma xo_mean G b file o : cfg_ok (x_c b) -> library_bv b -> logic_fits G o -> mean_cfg G (xo b file o).
Proof.
  intros C HB (HI & HR & HX). unfold mean_cfg, xo. cbn [x_c c_int c_real x_apply]. split.
  - destruct C as [C1 C2 C3]. constructor; cbn [c_sort c_rv]; assumption.
  - split; [|split; [exact HR|split; [now apply xo_bv|]]].
    + intros Hg. unfold isIntTheory. now rewrite (HI Hg), HR.
    + eexists. split; [|intros f ts; reflexivity]. exact HX.
Qed.

Lemma look_cons {A} u v (t : A) r : look v ((u, t) :: r) = if seq_str u v then Some t else look v r. Proof. reflexivity. Qed.
Lemma so_dsort p s t : so_ty s t -> dsort p s (sort_of t).
Proof.
  destruct t; cbn [so_ty]; [| | |]; try (intros (k & -> & Hk & E); apply ds_basic; [exact Hk|]; rewrite E; reflexivity).
  intros (-> & Hw). apply ds_bv. unfold bv_of. rewrite stoi_Idec by lia. cbn [bind sort_of]. rewrite BVProofs.u64_id by (unfold two64; lia). reflexivity.
Qed.
Lemma decl_same G p c m : ready G p -> ready G (set_named m (set_ctr c p)).
Proof. intros H. exact H. Qed.
Lemma decl_con G p v t : ready G p -> new_name G v -> ready (add_con v t G) (add_var v (sort_of t) p).
Proof.
  intros ((D1 & D2 & D3) & D4) (N1 & N2). split; [|exact D4]. unfold known, add_con, add_var. cbn [s_con s_fun s_def p_var p_fun p_fv set_var]. split; [|split; [exact D2|]].
  - intros u. rewrite look_cons. cbn [mget]. rewrite ?mget_cons. destruct (seq_str v u) eqn:E; [|apply D1]. apply seq_str_spec in E. now subst.
  - intros u y. rewrite look_cons. destruct (seq_str v u) eqn:E; [|apply D3]. apply seq_str_spec in E. now subst.
Qed.
Lemma decl_fun G p v ts t qs : ready G p -> new_name G v -> length qs = length ts ->
  ready (add_fn v ts t G) (add_fun v (T NT_FUNC_DEC (sort_of t) v (NULLT :: qs)) p).
Proof.
  intros ((D1 & D2 & D3) & D4) (N1 & N2 & N3) HL. split; [|exact D4]. unfold known, add_fn, add_fun. cbn [s_con s_fun s_def s_clausal p_var p_fun p_fv set_fun]. split; [exact D1|split].
  - intros u. rewrite look_cons, mget_cons. destruct (seq_str v u) eqn:E.
    + apply seq_str_spec in E. subst u. rewrite N3. exists qs. now split.
    + exact (D2 u).
  - intros u y H. unfold no_fun. cbn [s_fun s_def]. rewrite look_cons. destruct (D3 u y H) as [X Y]. destruct (seq_str v u) eqn:E; [|now split]. apply seq_str_spec in E. subst. congruence.
Qed.
Lemma decl_def G p v ts t d body fs : ready G p -> new_name G v -> good_def (s_clausal G) ts t d body fs ->
  ready (add_def v ts t d G) (add_fun v (T NT_FUNC_DEF (sort_of t) v (body :: fs)) p).
Proof.
  intros ((D1 & D2 & D3) & D4) (N1 & N2 & N3) HL. split; [|exact D4]. unfold known, add_def, add_fun. cbn [s_con s_fun s_def s_clausal p_var p_fun p_fv set_fun]. split; [exact D1|split].
  - intros u. rewrite look_cons, mget_cons. destruct (seq_str v u) eqn:E.
    + apply seq_str_spec in E. subst u. exists body, fs. now split.
    + exact (D2 u).
  - intros u y H. unfold no_fun. cbn [s_fun s_def]. rewrite look_cons. destruct (D3 u y H) as [X Y]. destruct (seq_str v u) eqn:E; [|now split]. apply seq_str_spec in E. subst. congruence.
Qed.
Lemma param_sorts ts : exists qs, length qs = length ts /\ Forall2 (fun u q => exists m, sort_str u = Ok m /\ q = T NT_FUNC_PARAM u m []) (map sort_of ts) qs.
Proof.
  induction ts as [|t ts (qs & L & F)]; [exists []; split; [reflexivity|constructor]|].
  assert (X : exists m, sort_str (sort_of t) = Ok m). { destruct t; eexists; reflexivity. }
  destruct X as (m & E). exists (T NT_FUNC_PARAM (sort_of t) m [] :: qs). split; [cbn; now rewrite L|]. constructor; [eauto|exact F].
Qed.

(** ** the terms do not depend on the options *)
Lemma wt_sub p t : subterm p t -> forall r, wt r t -> exists r', wt r' p.
Proof.
  induction 1 as [t|p x t Hx Hs IH]; intros r W; [eauto|].
  assert (X : exists r', wt r' x); [|destruct X as (r' & X); now apply (IH r')].
  clear -W Hx. revert Hx. induction W as [k s n r A B| | |s z A|k s n r rs ch A B F _|s n r rs ch A B D F _|t W IH|w v A B] using wt_ind'; cbn [t_ch]; intros Hx; try contradiction; [| |auto].
  - clear -F Hx. induction F as [|a y l m Y F IH]; [contradiction|]. destruct Hx as [ <- | Hx ]; [eauto|auto].
  - clear -F Hx. induction F as [|a y l m Y F IH]; [contradiction|]. destruct Hx as [ <- | Hx ]; [eauto|auto].
Qed.
Lemma tok_any (fl : Flag) c c' r t : wt r t -> tok c t -> tok c' t.
Proof.
  intros W [A B]. split; [|exact B]. intros p Hp. destruct (A p Hp) as [N1 N2 N3 N4 N5 N6 N7 N8 N9 N10]. destruct (wt_sub p t Hp r W) as (r' & Wp).
  assert (R : forall a b, t_ch p = [a; b] -> comparable c a b -> comparable c' a b).
  { intros a b E [C _]. split; [exact C|]. left. apply (wt_lits2 [a; b]). intros u Hu.
    assert (Hs : subterm u p) by (apply (Sub_ch u u p); [rewrite E; exact Hu|constructor]). now apply (wt_sub u p Hs r'). }
  constructor; auto.
  - intros X. destruct (N7 X) as (a & d & E & C & Y). exists a, d. split; [exact E|]. split; [now apply R|exact Y].
  - intros X. destruct (N8 X) as (a & d & E & C). exists a, d. split; [exact E|now apply R].
Qed.
(** ** bodies of definitions *)
Lemma upd_other e fs vs t : (forall f, In f fs -> t_kind f = NT_FUNC_PARAM) -> t_kind t <> NT_FUNC_PARAM -> upd e fs vs t = e t.
Proof.
  intros H N. revert vs. induction fs as [|f fs IH]; intros [|w vs]; try reflexivity. cbn [upd]. destruct (teq t f) eqn:E.
  - apply teq_spec in E. subst. exfalso. apply N, H. now left.
  - apply IH. intros g Hg. apply H. now right.
Qed.
Lemma agrees_upd I v M fs vs : (forall f, In f fs -> t_kind f = NT_FUNC_PARAM) -> agrees I v M -> agrees I (upd v fs vs) M.
Proof.
  intros H (A1 & A2). split; [|exact A2]. intros n t. rewrite <- (A1 n t).
  change (coerce (sort_of t) (upd v fs vs (T NT_VAR (sort_of t) n [])) = coerce (sort_of t) (v (T NT_VAR (sort_of t) n []))). rewrite upd_other; [reflexivity|exact H|discriminate].
Qed.
Lemma par_kind FV f : In f (map par FV) -> t_kind f = NT_FUNC_PARAM.
Proof. intros H. apply in_map_iff in H. destruct H as (b & <- & _). reflexivity. Qed.
Lemma pvals_upd I v ns ts vs : NoDup ns -> length ns = length ts -> Forall2 (fun u x => vcl (clof u) x) ts vs ->
  pvals (combine ns ts) I (upd v (map par (combine ns ts)) vs) = combine ns vs.
Proof.
  intros ND HL F.
  assert (NM : map t_name (map par (combine ns ts)) = ns).
  { rewrite map_map. cbn [par t_name]. clear -HL. revert ts HL. induction ns as [|n ns IH]; intros [|t ts] HL; try discriminate HL; [reflexivity|]. cbn. f_equal. apply IH. now injection HL. }
  set (e := upd v (map par (combine ns ts)) vs).
  assert (V : forall b x, In (par b, x) (combine (map par (combine ns ts)) vs) -> vcl (clof (snd b)) x -> eval I e (par b) = x).
  { intros b x Hb Hx. change (eval I e (par b)) with (coerce (sort_of (snd b)) (e (par b))). unfold e. rewrite (upd_param v (map par (combine ns ts)) vs (par b) x); [|now rewrite NM|exact Hb].
    apply (coerce_id (clof (snd b))); [destruct (snd b); reflexivity|exact Hx]. }
  clearbody e. clear NM ND. revert ns HL V. induction F as [|t x ts vs Hx F IH]; intros [|n ns] HL V; try discriminate HL; try reflexivity.
  cbn [combine map pvals fst]. unfold pvals. cbn [combine map fst]. f_equal.
  - f_equal. apply (V (n, t) x); [now left|exact Hx].
  - apply IH; [now injection HL|]. intros b y Hb. apply V. now right.
Qed.
Lemma body_good x p G ns ts e t : mean_cfg G x -> known G p -> NoDup ns -> length ns = length ts -> (forall n, In n ns -> no_fun G n) ->
  p_fv p = rev (map (fun b => (fst b, par b)) (combine ns ts)) -> ty_of (in_body G) (combine ns ts) e t ->
  exists u z, den x p false (p_ctr p) [] e u z /\
    good_def (s_clausal G) ts t (fun M vs => value_of (in_body G) M (combine ns vs) e) u (map par (combine ns ts)).
Proof.
  intros HC HK ND HL HF HV HT.
  assert (MF : map fst (combine ns ts) = ns).
  { clear -HL. revert ts HL. induction ns as [|n ns IH]; intros [|t ts] HL; try discriminate HL; [reflexivity|]. cbn. f_equal. apply IH. now injection HL. }
  destruct (body_den x p G (combine ns ts) e t HC HK) as (u & z & D & Gu & A); [now rewrite MF| |exact HV|exact HT|].
  { intros b Hb. apply HF. rewrite <- MF. now apply in_map. }
  exists u, z. split; [exact D|]. split; [|split; [|split]].
  - rewrite map_map. change (NoDup (map fst (combine ns ts))). now rewrite MF.
  - clear -HL. revert ts HL. induction ns as [|n ns IH]; intros [|t ts] HL; try discriminate HL; [constructor|]. cbn [combine map]. constructor; [now exists n|]. apply IH. now injection HL.
  - intros c'. destruct Gu as (G1 & G2 & G3). split; [exact G1|]. split; [exact G2|]. now apply (tok_any _ (x_c x) c' (clof t)).
  - intros I v M vs AG F. rewrite (A I _ M (agrees_upd I v M _ vs (par_kind _) AG)). now rewrite pvals_upd.
Qed.
(** what is recorded as an assertion *)
Definition asserted (f : bool) (t : term) : Prop := forall c, @gd (Language f None) c CB t.
Definition value_list (M : structure) (fs : list (signature * sx)) : list value := map (fun f => value_of (fst f) M [] (snd f)) fs.
Lemma script_steps b file f G l fs : cfg_ok (x_c b) -> library_bv b -> script G l fs -> f = s_clausal G -> forall p g, ready G p -> logic_fits G (g_opt g) ->
  exists p' g' ts, steps b file p g l p' g' /\ g_as g' = g_as g ++ ts /\ Forall (asserted f) ts /\
    forall I v M, agrees I v M -> map (eval I v) ts = value_list M fs.
Proof.
  intros HC HB H Hf.
  assert (STEP : forall p g c p1 g1 l (fs : list (signature * sx)), step b file p g c p1 g1 -> g_as g1 = g_as g ->
    (exists p' g' ts, steps b file p1 g1 l p' g' /\ g_as g' = g_as g1 ++ ts /\ Forall (asserted f) ts /\
      forall I v M, agrees I v M -> map (eval I v) ts = value_list M fs) ->
    exists p' g' ts, steps b file p g (c :: l) p' g' /\ g_as g' = g_as g ++ ts /\ Forall (asserted f) ts /\
      forall I v M, agrees I v M -> map (eval I v) ts = value_list M fs).
  { intros p g c p1 g1 l0 fs0 S E (p' & g' & ts & SS & EA & W & V). exists p', g', ts. split; [now apply (st_cons b file p g c p1 g1)|]. split; [congruence|]. now split. }
  assert (ASS : forall p g G e c l (fs : list (signature * sx)), ready G p -> logic_fits G (g_opt g) -> ty_of G [] e TyBool -> f = s_clausal G ->
    (forall u z, den (xo b file (g_opt g)) p false (p_ctr p) [] e u z -> exists m, step b file p g c (set_named m (set_ctr z p)) (set_as (g_as g ++ [u]) g)) ->
    (forall p g, ready G p -> logic_fits G (g_opt g) -> exists p' g' ts, steps b file p g l p' g' /\ g_as g' = g_as g ++ ts /\ Forall (asserted f) ts /\
      forall I v M, agrees I v M -> map (eval I v) ts = value_list M fs) ->
    exists p' g' ts, steps b file p g (c :: l) p' g' /\ g_as g' = g_as g ++ ts /\ Forall (asserted f) ts /\
      forall I v M, agrees I v M -> map (eval I v) ts = value_list M ((G, e) :: fs)).
  { intros p g G0 e c l0 fs0 D HI HT HF HS IH. destruct (expr_den _ p G0 e TyBool (xo_mean G0 b file _ HC HB HI) D HT) as (u & z & De & Gu & A).
    destruct (HS u z De) as (m & St). destruct (IH (set_named m (set_ctr z p)) (set_as (g_as g ++ [u]) g) (decl_same G0 p z m D) HI) as (p' & g' & ts & SS & EA & W & V).
    exists p', g', (u :: ts). split; [now apply (st_cons b file p g c _ _ _ _ _ St)|]. split; [rewrite EA; cbn [g_as set_as]; now rewrite <- app_assoc|].
    split; [constructor; [|exact W]|]. { rewrite HF. intros c'. destruct Gu as (G1 & G2 & G3). split; [exact G1|]. split; [exact G2|]. now apply (tok_any _ (x_c (xo b file (g_opt g))) c' CB). } intros I v M AG. cbn [map value_list fst snd]. f_equal; [now apply A|now apply V]. }
  induction H as [G|G e l fs HT HS HN H IH|G e n l fs HT HS Hn Nn H IH|G n s t l fs Hn Hs Nw H IH|G n s t l fs Hn Hs Nw H IH|G n ss ts s t l fs Hn Ns Hss Hs Nw H IH
                 |G n ps ts s t e l fs Hn Nd Hps Hs HT HS Nw H IH|G v l fs Hv Hin Hil H IH|G c l fs Hc H IH|G c ks l fs Hc Hk H IH]; intros p g D HI.
  - exists p, g, []. split; [constructor|]. split; [now rewrite app_nil_r|]. split; [constructor|]. reflexivity.
  - apply (ASS p g G e (CAssert e) l fs D HI HT Hf); [|exact (IH Hf)]. intros u z De. exists (p_named p).
    replace (set_named (p_named p) (set_ctr z p)) with (set_ctr z p) by (destruct p; reflexivity).
    apply s_assert; [exact HN|]. split; [exact De|]. now apply (scoped_any G [] e TyBool).
  - apply (ASS p g G e (CAssertNamed e n) l fs D HI HT Hf); [|exact (IH Hf)]. intros u z De. eexists. apply s_named; [exact Hn|exact Nn|].
    split; [exact De|]. now apply (scoped_any G [] e TyBool).
  - eapply STEP; [apply (s_const b file p g n s (sort_of t) Hn (so_dsort p s t Hs))|reflexivity|].
    + destruct D as ((D1 & _) & _). rewrite D1. now rewrite (proj1 Nw).
    + apply IH; [exact Hf|now apply decl_con|exact HI].
  - eapply STEP; [apply (s_fun0 b file p g n s (sort_of t) Hn (so_dsort p s t Hs))|reflexivity|].
    + destruct D as ((D1 & _) & _). rewrite D1. now rewrite (proj1 Nw).
    + apply IH; [exact Hf|now apply decl_con|exact HI].
  - destruct (param_sorts ts) as (qs & Lq & Fq). eapply STEP; [apply (CommandSpec.s_fun b file p g n ss s (map sort_of ts) (sort_of t) qs Hn Ns)|reflexivity|].
    + clear -Hss. induction Hss as [|a y ss ts A F IHF]; constructor; [now apply so_dsort|exact IHF].
    + now apply so_dsort.
    + unfold fresh_fun. destruct D as ((_ & D2 & _) & _). specialize (D2 (raw n)). destruct Nw as (_ & N1 & N2). now rewrite N2, N1 in D2.
    + exact Fq.
    + apply IH; [exact Hf|now apply decl_fun|exact HI].
  - pose proof D as ((D1 & D2 & D3) & D4 & D5).
    assert (HL : length (names ps) = length ts) by (unfold names; rewrite map_length; now apply F2_len in Hps).
    assert (EP : map param (combine (names ps) (map sort_of ts)) = map par (combine (names ps) ts)).
    { clear. generalize (names ps). intros ns. revert ts. induction ns as [|m ns IHn]; intros [|y ts]; try reflexivity. cbn [map combine]. f_equal. apply IHn. }
    assert (EV : p_fv (with_params (combine (names ps) (map sort_of ts)) p) = rev (map (fun b => (fst b, par b)) (combine (names ps) ts))).
    { cbn [with_params p_fv set_fv]. f_equal. clear. generalize (names ps). intros ns. revert ts. induction ns as [|m ns IHn]; intros [|y ts]; try reflexivity. cbn [map combine]. f_equal. apply IHn. }
    destruct (body_good (xo b file (g_opt g)) (with_params (combine (names ps) (map sort_of ts)) p) G (names ps) ts e t (xo_mean G b file _ HC HB HI)) as (u & z & De & GD);
      [exact (conj D1 (conj D2 D3))|exact Nd|exact HL| |exact EV|exact HT|].
    { intros m Hm. apply in_map_iff in Hm. destruct Hm as (q & <- & Hq). clear -Hps Hq. induction Hps as [|a y ps ts A F IHF]; [contradiction|]. destruct Hq as [ -> | Hq ]; [apply A|now apply IHF]. }
    eapply STEP; [apply (s_deffun b file p g n ps (map sort_of ts) s (sort_of t) e u z Hn)|reflexivity|].
    + split; [exact Nd|]. clear -Hps. induction Hps as [|a y ps ts A F IHF]; constructor; [split; [apply A|now apply so_dsort]|exact IHF].
    + now apply so_dsort.
    + unfold fresh_fun. specialize (D2 (raw n)). destruct Nw as (_ & N1 & N2). now rewrite N2, N1 in D2.
    + split; [exact De|]. now apply (scoped_any (in_body G) (combine (names ps) ts) e t).
    + apply IH; [exact Hf| |exact HI]. rewrite EP. apply decl_def; [exact D|exact Nw|exact GD].
  - eapply STEP; [apply s_logic; assumption|reflexivity|]. apply IH; [exact Hf|exact D|]. split; [exact (fun H => H)|split; [exact Hil|apply HI]].
  - destruct Hc as [ -> | -> ]; (eapply STEP; [apply s_checksat || apply s_getmodel|reflexivity|]; apply IH; [exact Hf|exact D|exact HI]).
  - eapply STEP; [apply s_ignored; [|exact Hk]|reflexivity|apply IH; [exact Hf|exact D|exact HI]].
    destruct Hc as [ <- | [ <- | [] ]]; cbn; tauto.
Qed.
Lemma declares_new f : declares (Signature [] [] true f [] false) pst0.
Proof. split; [reflexivity|]. split; [reflexivity|]. split; [discriminate|]. split; [reflexivity|split; reflexivity]. Qed.
Lemma int_new f : logic_fits (Signature [] [] true f [] false) (g_opt ctx0). Proof. split; [reflexivity|split; reflexivity]. Qed.
(** a new parser *)
Definition start (f : bool) : signature := Signature [] [] true f [] false.
Lemma script_parse b r f l fs tx : cfg_ok (x_c b) -> library_bv b -> script (start f) l fs -> tx <> [] -> lexes plain_word tx (render_script l) ->
  exists q, parseStr b tx (parser0 r) = Ok q /\ q_res q = r /\ Forall (asserted f) (g_as (q_g q)) /\
    forall I v M, agrees I v M -> map (eval I v) (g_as (q_g q)) = value_list M fs.
Proof.
  intros HC HB HS HT HL. destruct (script_steps b false f (start f) l fs HC HB HS eq_refl pst0 ctx0 (declares_ready _ _ (declares_new f)) (int_new f)) as (p' & g' & ts & SS & EA & W & V).
  destruct (parseStr_ok b l pst0 ctx0 p' g' tx (parser0 r) HT (new_holds r) eq_refl HL SS) as (q & E & Gq & _ & _ & R).
  exists q. split; [exact E|]. split; [exact R|]. rewrite Gq, EA. cbn [g_as ctx0 app]. now split.
Qed.
(** the common case of either language *)
Lemma asserted_wt (c : cfg) f ts : Forall (asserted f) ts -> Forall (wt CB) ts.
Proof. apply Forall_impl. intros t H. exact (proj1 (proj2 (H c))). Qed.
Lemma values_holds I v M ts fs : agrees I v M -> Forall (wt CB) ts -> map (eval I v) ts = value_list M fs ->
  (satisfies M fs <-> Forall (fun t => holds I v t = true) ts).
Proof.
  intros _ W. unfold satisfies. revert fs. induction W as [|t ts Wt W IH]; intros fs E; destruct fs as [|f fs]; try discriminate E; [split; constructor|].
  cbn [map value_list] in E. injection E as E1 E2. specialize (IH fs E2). destruct (wt_val I v CB t Wt) as (bt & Eb).
  split; intros F; inversion F as [|? ? F1 F2]; subst; constructor; try (now apply IH).
  - unfold holds. now rewrite E1, F1.
  - unfold holds in F1. rewrite <- E1. rewrite Eb in *. cbn [truth] in F1. now rewrite F1.
Qed.
Lemma wt_true t : wt CB t -> isTrue t = true -> t = TRUE.
Proof. intros W E. assert (L : lits_ok [t]) by (apply (proj1 (wt_lits CB [t] ltac:(constructor; [exact W|constructor])))). apply lo_true; [|exact E]. apply lits_ok_cons in L. apply L. Qed.
Lemma wt_false t : wt CB t -> isFalse t = true -> t = FALSE.
Proof. intros W E. assert (L : lits_ok [t]) by (apply (proj1 (wt_lits CB [t] ltac:(constructor; [exact W|constructor])))). apply lo_false; [|exact E]. apply lits_ok_cons in L. apply L. Qed.
