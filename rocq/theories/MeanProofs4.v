(** Proofs for MeanSpec.v: every well-sorted expression stands for a term with its value. *)
From Coq Require Import QArith Qcanon Permutation.
From Verif Require Import Base LexSpec KindModel SortModel TermModel BVModel BVSpec BVProofs2 UtilModel UtilSpec UtilProofs UtilProofs2 Sem SemProofs DagProofs SortProofs
  SimpModel OpModel OpSpec OpProofs OpProofs2 OpProofs3 OpProofs4 OpProofs5 OpProofs6 OpProofs7 ShapeProofs TypedSpec TypedProofs
  LexModel ParseModel ParseSpec ParseProofs ParseProofs2 ParseLits ApplyModel ApplySpec ApplyProofs CommandModel CommandSpec MeanSpec MeanProofs MeanProofs2 MeanBv MeanDef MeanProofs3 MeanLits.
Open Scope Z_scope.
Scheme ty_of_min := Minimality for ty_of Sort Prop with tys_of_min := Minimality for tys_of Sort Prop.
Combined Scheme ty_mut from ty_of_min, tys_of_min.
Section F.
Context {fl : Flag}.

(** ** let *)
Lemma gd_let_val x r v z t : nolet -> gd (x_c x) r t -> gd (x_c x) r (let_val x v z t).
Proof. intros Hf G. unfold let_val. destruct (x_keep x); [now apply gd_bind|exact G]. Qed.
Lemma eval_let_val x v z t I e : eval I e (let_val x v z t) = eval I e t.
Proof. unfold let_val. destruct (x_keep x); reflexivity. Qed.
Lemma gd_chain c r ls t : nolet -> ls <> [] -> Forall (good_list c) ls -> gd c r t -> gd c r (mkLetChain ls t).
Proof. intros Hf Hl F G. unfold mkLetChain. apply gd_chain_s; [exact Hf|destruct G as (N & W & _); now apply wt_sort|exact Hl|exact F|exact G]. Qed.
Lemma eval_chain I e ls t : eval I e (mkLetChain ls t) = eval I e t.
Proof.
  unfold mkLetChain. rewrite (eval_op I e NT_LET_CHAIN _ _ (ls ++ [t]) (eval I e t)); [reflexivity|now destruct ls|reflexivity|].
  rewrite map_app. cbn [map op_sem]. destruct (map (eval I e) ls ++ [eval I e t]) eqn:E; [now destruct (map (eval I e) ls)|].
  rewrite <- E, last_last. reflexivity.
Qed.

(** ** definitions *)
Definition good_def (cl0 : bool) (ts : list ty) (t : ty) (d : structure -> list value -> value) (body : term) (fs : list term) : Prop :=
  NoDup (map t_name fs) /\ Forall2 (fun u f => exists n, f = T NT_FUNC_PARAM (sort_of u) n []) ts fs /\
  (forall c, @gd (Language cl0 (Some fs)) c (clof t) body) /\
  (forall I v M vs, agrees I v M -> Forall2 (fun u x => vcl (clof u) x) ts vs -> eval I (upd v fs vs) body = d M vs).
(** the parser's tables hold these declarations and definitions *)
Definition known (G : signature) (p : pst) : Prop :=
  (forall v, mget v (p_var p) = match look v (s_con G) with Some t => Some (T NT_VAR (sort_of t) v []) | None => None end) /\
  (forall v, match look v (s_def G) with
             | Some (ts, t, d) => exists body fs, mget v (p_fun p) = Some (T NT_FUNC_DEF (sort_of t) v (body :: fs)) /\ good_def (s_clausal G) ts t d body fs
             | None => match look v (s_fun G) with
                       | Some (ts, t) => exists qs, mget v (p_fun p) = Some (T NT_FUNC_DEC (sort_of t) v (NULLT :: qs)) /\ length qs = length ts
                       | None => mget v (p_fun p) = None
                       end
             end) /\
  (forall v t, look v (s_con G) = Some t -> no_fun G v).
Lemma declares_known G p : declares G p -> known G p.
Proof.
  intros (D1 & D2 & D3 & D4 & D5 & D6). split; [exact D1|]. split.
  - intros v. rewrite D5. cbn [look]. apply D2.
  - intros v t H. split; [now apply (D3 v t)|]. now rewrite D5.
Qed.

(** ** environments *)
Definition env_ok (c : cfg) (r : list (str * ty)) (q : ParseSpec.env) : Prop :=
  Forall2 (fun a b => fst a = fst b /\ gdt c (snd a) (snd b)) r q.
Definition vals (I : interp) (e : Sem.env) (q : ParseSpec.env) : list (str * value) := map (fun b => (fst b, eval I e (snd b))) q.
Lemma look_env c r q v : env_ok c r q ->
  match look v r with
  | Some t => exists u, assoc v q = Some u /\ gdt c t u /\ forall I e, look v (vals I e q) = Some (eval I e u)
  | None => assoc v q = None /\ forall I e, look v (vals I e q) = None
  end.
Proof.
  induction 1 as [|[n t] [m u] r q [E G] F IH]; [cbn; auto|]. cbn [fst snd] in *. subst m. cbn [look assoc vals map fst snd].
  destruct (seq_str n v); [exists u; auto|]. exact IH.
Qed.
Lemma env_app c r q r' q' : env_ok c r q -> env_ok c r' q' -> env_ok c (r ++ r') (q ++ q').
Proof. intros. now apply Forall2_app. Qed.

Section Main.
Context (x : pcfg) (p : pst) (G : signature) (FV : list (str * ty)).
Let c := x_c x.
(** the parameters in scope, and their values *)
Definition par (b : str * ty) : term := T NT_FUNC_PARAM (sort_of (snd b)) (fst b) [].
Definition pvals (I : interp) (v : Sem.env) : list (str * value) := map (fun b => (fst b, eval I v (par b))) FV.
Definition agreeing (u : term) (q : ParseSpec.env) (e : sx) : Prop :=
  forall I v M, agrees I v M -> eval I v u = value_of G M (vals I v q ++ pvals I v) e.
Definition stands (r : list (str * ty)) (e : sx) (t : ty) : Prop :=
  forall rl q d z, r = rl ++ FV -> env_ok c rl q ->
  (exists u z', den x p d z q e u z' /\ (d = true -> z' = z) /\ gdt c t u /\ agreeing u q e) /\
  (forall bs b, e = SLet bs b -> exists ls u, dlet x p z q bs b ls u /\ ls <> [] /\ Forall (good_list c) ls /\ gdt c t u /\ agreeing u q e).
Definition stands_all (r : list (str * ty)) (l : list sx) (ts : list ty) : Prop :=
  forall rl q d z, r = rl ++ FV -> env_ok c rl q ->
  exists us z', dens x p d z q l us z' /\ (d = true -> z' = z) /\ Forall2 (gdt c) ts us /\
    forall I v M, agrees I v M -> map (eval I v) us = map (value_of G M (vals I v q ++ pvals I v)) l.
Lemma let_env bs z us ts r q : nolet -> Forall2 (gdt c) ts us -> length bs = length us -> env_ok c r q ->
  env_ok c (combine (names bs) ts ++ r) (combine (names bs) (let_vals x bs z us) ++ q).
Proof.
  intros Hf F Hl E. apply env_app; [|exact E]. clear E. revert ts us F Hl.
  induction bs as [|[k e] bs IH]; intros ts us F Hl; [constructor|]. inversion F as [|t u ts' us' Gu F']; subst; [discriminate Hl|].
  cbn [names map combine fst snd]. unfold let_vals. cbn [combine map fst snd]. apply Forall2_cons.
  - cbn. split; [reflexivity|now apply gd_let_val].
  - apply IH; [exact F'|now injection Hl].
Qed.
Lemma let_vals_gd bs z us ts : nolet -> Forall2 (gdt c) ts us -> length bs = length us -> Forall2 (gd c) (map clof ts) (let_vals x bs z us).
Proof.
  intros Hf. revert ts us. induction bs as [|[k e] bs IH]; intros ts us F Hl; inversion F as [|t u ts' us' Gu F']; subst; try discriminate Hl; [constructor|].
  unfold let_vals. cbn [combine map fst snd]. apply Forall2_cons; [now apply gd_let_val|]. apply IH; [exact F'|now injection Hl].
Qed.
Lemma let_rvals I v bs z us q : length bs = length us ->
  vals I v (combine (names bs) (let_vals x bs z us) ++ q) = combine (names bs) (map (eval I v) us) ++ vals I v q.
Proof.
  intros Hl. unfold vals. rewrite map_app. f_equal. revert us Hl. induction bs as [|[k e] bs IH]; intros us Hl; destruct us as [|u us]; try discriminate Hl; [reflexivity|].
  cbn [names map combine fst snd]. unfold let_vals. cbn [combine map fst snd]. rewrite eval_let_val. f_equal. apply IH. now injection Hl.
Qed.
(** the language: constants outside bodies, parameters inside *)
Definition lang : Prop :=
  l_clausal fl = s_clausal G /\ (s_body G = false -> l_params fl = None) /\ (FV <> [] -> l_params fl = Some (map par FV)).
Hypothesis Hfl : lang.
Hypothesis HC : mean_cfg G x.
Hypothesis HD : known G p.
Hypothesis HV : p_fv p = rev (map (fun b => (fst b, par b)) FV).
Hypothesis HND : NoDup (map fst FV).
Hypothesis HNF : forall b, In b FV -> no_fun G (fst b).
Lemma fun_none v : no_fun G v -> mget v (p_fun p) = None.
Proof. intros [N1 N2]. destruct HD as (_ & D2 & _). specialize (D2 v). now rewrite N2, N1 in D2. Qed.
Lemma look_par_in v t : look v FV = Some t -> In (v, t) FV.
Proof.
  clear. induction FV as [|[n u] l IH]; cbn [look]; [discriminate|]. destruct (seq_str n v) eqn:E; [|intros H; right; now apply IH].
  intros H. injection H as ->. apply seq_str_spec in E. subst n. now left.
Qed.
Lemma mget_in {A} v (a : A) m : NoDup (map fst m) -> In (v, a) m -> mget v m = Some a.
Proof.
  induction m as [|[n b] m IH]; [contradiction|]. cbn [map fst]. intros ND H. inversion ND as [|? ? NI ND']; subst. rewrite mget_cons.
  destruct H as [H|H]; [injection H as -> ->; now rewrite (proj2 (seq_str_spec v v) eq_refl)|].
  destruct (seq_str n v) eqn:E; [|now apply IH]. apply seq_str_spec in E. subst n. exfalso. apply NI. now apply (in_map fst m (v, a)).
Qed.
Lemma mget_out {A} v (m : list (str * A)) : ~ In v (map fst m) -> mget v m = None.
Proof.
  induction m as [|[n b] m IH]; [reflexivity|]. cbn [map fst]. intros H. rewrite mget_cons. destruct (seq_str n v) eqn:E; [|apply IH; intros X; apply H; now right].
  apply seq_str_spec in E. subst n. exfalso. apply H. now left.
Qed.
Lemma names_fv : map fst (p_fv p) = rev (map fst FV).
Proof. rewrite HV, map_rev, map_map. reflexivity. Qed.
Lemma look_par v : match look v FV with
  | Some t => mget v (p_fv p) = Some (par (v, t)) /\ In (v, t) FV
  | None => mget v (p_fv p) = None
  end.
Proof.
  destruct (look v FV) as [t|] eqn:E.
  - apply look_par_in in E. split; [|exact E]. apply mget_in; [rewrite names_fv; now apply NoDup_rev|]. rewrite HV, <- in_rev. apply (in_map (fun b => (fst b, par b)) FV (v, t) E).
  - apply mget_out. rewrite names_fv, <- in_rev. clear -E. induction FV as [|[n u] l IH]; [auto|]. cbn [look] in E. destruct (seq_str n v) eqn:S; [discriminate E|]. cbn [map fst].
    intros [X|X]; [subst; now rewrite (proj2 (seq_str_spec v v) eq_refl) in S|now apply IH].
Qed.
Lemma look_app {A} v (l m : list (str * A)) : look v (l ++ m) = match look v l with Some t => Some t | None => look v m end.
Proof. induction l as [|[n t] l IH]; [reflexivity|]. cbn [app look]. destruct (seq_str n v); [reflexivity|exact IH]. Qed.
Lemma look_pvals I e v : look v (pvals I e) = match look v FV with Some t => Some (eval I e (par (v, t))) | None => None end.
Proof.
  unfold pvals. clear. induction FV as [|[n t] l IH]; [reflexivity|]. cbn [map look fst]. destruct (seq_str n v) eqn:E; [apply seq_str_spec in E; now subst|exact IH].
Qed.
Lemma gd_par v t : In (v, t) FV -> gdt c t (par (v, t)).
Proof.
  intros H. apply gd_new0; [reflexivity|apply clof_ne| | |contradiction]; [apply W_var; [reflexivity|]; destruct t; reflexivity|].
  split; [|split; [discriminate|split; [discriminate|intros _; split; [reflexivity|intros Z; discriminate Z]]]].
  intros _. unfold var_node. destruct Hfl as (_ & _ & Hp). unfold Flag in *. rewrite Hp by (intros Z; rewrite Z in H; contradiction). exact (in_map par FV (v, t) H).
Qed.
(** a name that is neither a let variable nor a parameter *)
Lemma outside r rl q v : r = rl ++ FV -> env_ok c rl q -> look v r = None ->
  assoc v q = None /\ mget v (p_fv p) = None /\ forall I e, look v (vals I e q ++ pvals I e) = None.
Proof.
  intros -> E H. rewrite look_app in H. pose proof (look_env c rl q v E) as X. destruct (look v rl); [discriminate H|]. destruct X as [Ea V].
  pose proof (look_par v) as Y. rewrite H in Y. split; [exact Ea|]. split; [exact Y|]. intros I e. now rewrite look_app, V, look_pvals, H.
Qed.
Lemma main : (forall r e t, ty_of G r e t -> stands r e t) /\ (forall r l ts, tys_of G r l ts -> stands_all r l ts).
Proof.
  pose proof HD as (D1 & D2 & D3). pose proof fun_none as FN.
  assert (ONE : forall (r : list (str * ty)) e t, (forall bs b, e <> SLet bs b) ->
    (forall rl q d z, r = rl ++ FV -> env_ok c rl q -> exists u z', den x p d z q e u z' /\ (d = true -> z' = z) /\ gdt c t u /\ agreeing u q e) -> stands r e t).
  { intros r e t N H rl q d z Er E. split; [now apply (H rl)|]. intros bs b Z. now apply N in Z. }
  apply ty_mut.
  - (* true *) intros r k Hk Ek. apply ONE; [discriminate|]. intros rl q d z Er E. exists TRUE, z. split; [now apply d_true|]. split; [auto|]. split; [apply gd_TRUE|].
    intros I v M A. cbn [value_of]. rewrite Ek. reflexivity.
  - intros r k Hk Ek. apply ONE; [discriminate|]. intros rl q d z Er E. exists FALSE, z. split; [now apply d_false|]. split; [auto|]. split; [apply gd_FALSE|].
    intros I v M A. cbn [value_of]. rewrite Ek. reflexivity.
  - (* a let variable or a parameter *) intros r k t (Hk & N1 & N2) El. apply ONE; [discriminate|]. intros rl q d z Er E. subst r. rewrite look_app in El. pose proof (look_env c rl q (raw k) E) as X.
    assert (VV : forall M r', look (raw k) r' <> None -> value_of G M r' (SAtom k) = match look (raw k) r' with Some y => y | None => VBool false end).
    { intros M r' Hr. cbn [value_of]. destruct (seqs (raw k) "true") eqn:S1; [apply seqs_spec in S1; congruence|]. destruct (seqs (raw k) "false") eqn:S2; [apply seqs_spec in S2; congruence|].
      destruct (look (raw k) r'); [reflexivity|congruence]. }
    destruct (look (raw k) rl) as [t'|] eqn:Erl.
    + injection El as ->. destruct X as (u & Ea & Gu & V). exists u, z. split; [apply d_bound; [exact Hk|exact Ea|apply (gd_err c _ u Gu)]|]. split; [auto|]. split; [exact Gu|].
      intros I v M A. rewrite VV; rewrite look_app, V; [reflexivity|discriminate].
    + destruct X as [Ea V]. pose proof (look_par (raw k)) as Y. rewrite El in Y. destruct Y as [Yf Yi]. exists (par (raw k, t)), z. split.
      { apply d_decl; auto. unfold declared. pose proof (FN _ (HNF _ Yi)) as Y2. cbn [fst] in Y2. rewrite Y2, Yf. reflexivity. }
      split; [auto|]. split; [now apply gd_par|]. intros I v M A. rewrite VV; rewrite look_app, V, look_pvals, El; [reflexivity|discriminate].
  - (* a constant *) intros r k t (Hk & N1 & N2) El Ec Hb. apply ONE; [discriminate|]. intros rl q d z Er E.
    destruct (outside r rl q (raw k) Er E El) as (Ea & Ep & V). exists (T NT_VAR (sort_of t) (raw k) []), z. split.
    { apply d_decl; auto. unfold declared. rewrite (FN _ (D3 _ _ Ec)), Ep, D1, Ec. reflexivity. }
    split; [auto|]. split.
    { apply gd_new0; [reflexivity|apply clof_ne| | |contradiction]; [apply W_var; [reflexivity|]; destruct t; reflexivity|].
      split; [intros _; unfold var_node; destruct Hfl as (_ & Hp & _); unfold Flag in *; rewrite (Hp Hb); reflexivity|]. split; [discriminate|]. split; [discriminate|]. intros _. split; [reflexivity|]. intros Z. discriminate Z. }
    intros I v M A. cbn [value_of]. rewrite V, Ec.
    destruct (seqs (raw k) "true") eqn:S1; [apply seqs_spec in S1; congruence|]. destruct (seqs (raw k) "false") eqn:S2; [apply seqs_spec in S2; congruence|].
    apply A.
  - (* a numeral *) intros r k z0 t (Hk & N1 & N2) El Ec Ef Hz Ek Ht. apply ONE; [discriminate|]. intros rl q d z Er E.
    destruct (outside r rl q (raw k) Er E El) as (Ea & Ep & V). exists (mkConstInt z0), z. split.
    { apply d_lit; auto.
      - unfold declared. rewrite (FN _ Ef), Ep, D1, Ec. cbn [mget orelse]. rewrite Ek. destruct (idec_word z0 Hz) as ( -> & -> & _). reflexivity.
      - rewrite Ek. now apply lit_numeral. }
    split; [auto|]. split; [apply gd_int; now apply clof_num|].
    intros I v M A. cbn [value_of]. rewrite V, Ec.
    destruct (seqs (raw k) "true") eqn:S1; [apply seqs_spec in S1; congruence|]. destruct (seqs (raw k) "false") eqn:S2; [apply seqs_spec in S2; congruence|].
    rewrite Ek. rewrite (idec_not_bits z0 Hz). destruct (idec_word z0 Hz) as (_ & _ & ->). apply eval_ic. auto.
  - (* a bit-vector literal *) intros r k w v (Hk & N1 & N2) El Ec Ef Eq Hw Hf Eb. apply ONE; [discriminate|]. intros rl q d z Er E.
    destruct (outside r rl q (raw k) Er E El) as (Ea & Ep & V). exists (bc w v), z. destruct (bits_lit x (raw k) w v Hw Hf Eb) as (Hl & HB & HV'). split.
    { apply d_lit; auto. unfold declared. rewrite (FN _ Ef), Ep, D1, Ec. cbn [mget orelse]. rewrite HB, D1, Eq. now destruct (UtilModel.isNumber (raw k)). }
    split; [auto|]. split; [now apply gd_bc|].
    intros I e M A. cbn [value_of]. rewrite V, Ec, Eb.
    destruct (seqs (raw k) "true") eqn:S1; [apply seqs_spec in S1; congruence|]. destruct (seqs (raw k) "false") eqn:S2; [apply seqs_spec in S2; congruence|].
    rewrite eval_bc. unfold uv. now rewrite Z.mod_small.
  - (* (_ bvN w) *) intros r v w Hw Hf Hv. apply ONE; [discriminate|]. intros rl q d z Er E. exists (bc w v), z. split.
    { apply d_bv; [apply stoul_Idec; unfold fits in Hf; unfold two64; lia|]. now apply bvnum_lit. }
    split; [auto|]. split; [now apply gd_bc|]. intros I e M A. cbn [value_of].
    destruct (idec_word v ltac:(lia)) as (_ & _ & ->). destruct (idec_word (Z.of_nat w) ltac:(lia)) as (_ & _ & ->). rewrite Nat2Z.id, eval_bc. unfold uv. now rewrite Z.mod_small.
  - (* an operator *) intros r h o args ts t Hh Eh Ef Ha Ho _ IH. apply ONE; [discriminate|]. intros rl q d z Er E. destruct (IH rl q d z Er E) as (us & z' & Dn & Hz & F & V).
    destruct (oper_gives G x o ts t us (proj1 Hfl) HC Ha Ho F) as (u & Eu & Gu & Vu). exists u, z'. split.
    { apply (d_op x p d z q h args us z' u); auto.
      - rewrite Eh. clear -Ho. destruct Ho as [|h n Hh Hl| |t|h t Hh|h t Hh Ht|t Ht|h t n Hh Ht Hl|h w Hh|h w n Hh Hl|h w Hh|h w Hh|w w' Hf|w]; try reflexivity; repeat (destruct Hh as [ <- | Hh ]; [reflexivity|]); contradiction.
      - now rewrite Eh.
      - apply (gd_err c _ u Gu). }
    split; [exact Hz|]. split; [exact Gu|]. intros I v M A. rewrite Vu, (V I v M A). cbn [value_of]. destruct Ef as [Ef Ef']. rewrite Ef', Ef, Eh. reflexivity.
  - (* a function *) intros r h args ts t Hh Sp Co Ef Ed Na _ IH. apply ONE; [discriminate|]. intros rl q d z Er E. destruct (IH rl q d z Er E) as (us & z' & Dn & Hz & F & V).
    pose proof (D2 (raw h)) as DF. rewrite Ed, Ef in DF. destruct DF as (qs & Eg & Lq).
    assert (Lu : length ts = length us) by (now apply F2_len in F).
    assert (Nu : us <> []).
    { intros ->. inversion Dn; subst. now apply Na. }
    assert (Eu : x_apply x (T NT_FUNC_DEC (sort_of t) (raw h) (NULLT :: qs)) us = Ok (mkApplyUF (sort_of t) (raw h) us)).
    { destruct HC as (_ & _ & _ & _ & o & _ & HA). rewrite HA. unfold applyFun. cbn [applyFunF t_ch]. rewrite Lq, Lu, Nat.eqb_refl. reflexivity. }
    exists (mkApplyUF (sort_of t) (raw h) us), z'. split; [now apply (d_fun x p d z q h args us z' _ _ Hh Sp Co Eg Dn Eu)|].
    split; [exact Hz|]. unfold mkApplyUF. split.
    { apply gd_new; [now apply newk_plain|apply clof_ne| |].
      - apply (W_uf _ _ _ (map clof ts)); [exact Nu| | |].
        + intros X. apply in_map_iff in X. destruct X as (y & Y & _). now apply clof_ne in Y.
        + destruct t; reflexivity.
        + clear -F. induction F as [|t u ts us Gu F IH]; constructor; [apply Gu|exact IH].
      - clear -F. intros u Hu. induction F as [|t v ts us Gu F IH]; [contradiction|]. destruct Hu as [ <- | Hu ]; [apply Gu|now apply IH]. }
    intros I v M A. rewrite eval_app by (auto; reflexivity). cbn [value_of]. rewrite Ed, Ef, (V I v M A). apply A.
  - (* a defined function *) intros r h args ts t df Hh Sp Co Ed Na _ IH. apply ONE; [discriminate|]. intros rl q d z Er E. destruct (IH rl q d z Er E) as (us & z' & Dn & Hz & F & V).
    pose proof (D2 (raw h)) as DF. rewrite Ed in DF. destruct DF as (body & fs & Eg & ND & Fp & Gb & Vb).
    destruct HC as (Hc & _ & _ & _ & o & Ho & HA).
    assert (AO : args_ok fs us).
    { split; [exact ND|]. clear -F Fp. revert us F. induction Fp as [|y f ts fs (n & ->) Fp IH]; intros us F; inversion F as [|? u ? us' Gu F']; subst; constructor; [|now apply IH].
      exists (clof y), (sort_of y), n. split; [reflexivity|]. split; [destruct y; reflexivity|apply Gu]. }
    assert (FT : Forall (tok c) us) by (clear -F; induction F as [|y u ts us Gu F IH]; constructor; [apply Gu|exact IH]).
    pose proof (Gb (x_c x)) as Gb'. rewrite <- (proj1 Hfl) in Gb'.
    destruct (apply_gd fl (x_c x) o (clof t) (sort_of t) (raw h) body fs us Hc Ho Gb' AO FT) as (u & Eu & Gu & Vu).
    exists u, z'. split; [apply (d_fun x p d z q h args us z' _ _ Hh Sp Co Eg Dn); [now rewrite HA|apply (gd_err c _ u Gu)]|]. split; [exact Hz|]. split; [exact Gu|].
    intros I v M A. rewrite Vu. rewrite (Vb I v M (map (eval I v) us) A).
    + cbn [value_of]. rewrite Ed, (V I v M A). reflexivity.
    + clear -F. induction F as [|y u ts us Gu F IH]; constructor; [apply wt_val, Gu|exact IH].
  - (* let *) intros r bs b ts t Cl Nb Tk _ IHs _ IHb. assert (Hf : nolet) by exact (eq_trans (proj1 Hfl) Cl).
    assert (Key : forall rl q z, r = rl ++ FV -> env_ok c rl q -> exists ls u, dlet x p z q bs b ls u /\ ls <> [] /\ Forall (good_list c) ls /\ gdt c t u /\ agreeing u q (SLet bs b)).
    { intros rl q z Er E. destruct (IHs rl q true z Er E) as (us & z' & Dn & Hz & F & V). rewrite (Hz eq_refl) in Dn. clear z' Hz.
      assert (Lb : length bs = length us).
      { clear -Dn. remember (map snd bs) as l eqn:El. assert (L : length l = length bs) by (subst l; apply map_length). rewrite <- L. clear L El bs.
        revert Dn. generalize z at 2. revert us. revert z. induction l as [|e l IH]; intros z us z' Dn; inversion Dn; subst; [reflexivity|]. cbn. f_equal. eapply IH. eassumption. }
      pose proof (let_env bs z us ts rl q Hf F Lb E) as E'.
      assert (Er' : combine (names bs) ts ++ r = (combine (names bs) ts ++ rl) ++ FV) by (rewrite Er; apply app_assoc).
      assert (GL : good_list c (T NT_LET_BIND_VAR_LIST (t_sort (hd NULLT us)) [] (let_vals x bs z us))).
      { apply (good_blist c _ _ (map clof ts)).
        - exact Hf.
        - destruct bs; [congruence|]. destruct us; [discriminate Lb|]. discriminate.
        - now apply let_vals_gd.
        - destruct us as [|u us]; [destruct bs; [congruence|discriminate Lb]|]. inversion F; subst. cbn [hd]. now apply (gd_sorts c (clof x0)). }
      assert (VV : forall u, agreeing u (combine (names bs) (let_vals x bs z us) ++ q) b -> agreeing u q (SLet bs b)).
      { intros u Au I v M A. rewrite (Au I v M A). cbn [value_of]. rewrite (let_rvals I v bs z us q Lb), (V I v M A), map_map, app_assoc. reflexivity. }
      destruct (IHb _ _ true z Er' E') as [B1 B2].
      assert (CS : (exists bs' b', b = SLet bs' b') \/ (forall bs' b', b <> SLet bs' b')).
      { destruct b; try (right; discriminate). left. eauto. }
      destruct CS as [(bs' & b' & Eb)|Nl].
      - destruct (B2 bs' b' Eb) as (ls & u & Dl & Nl & Fl & Gu & Au). exists (T NT_LET_BIND_VAR_LIST (t_sort (hd NULLT us)) [] (let_vals x bs z us) :: ls), u.
        split; [rewrite Eb; now apply dl_let|]. split; [discriminate|]. split; [now constructor|]. split; [exact Gu|now apply VV].
      - destruct B1 as (u & z' & Db & Hz & Gu & Au). rewrite (Hz eq_refl) in Db. exists [T NT_LET_BIND_VAR_LIST (t_sort (hd NULLT us)) [] (let_vals x bs z us)], u.
        split; [now apply dl_body|]. split; [discriminate|]. split; [now constructor|]. split; [exact Gu|now apply VV]. }
    intros rl q d z Er E. split.
    + set (z1 := if d then z else z + 1). destruct (Key rl q z1 Er E) as (ls & u & Dl & Nl & Fl & Gu & Au).
      exists (if x_keep x then mkLetChain ls u else u), z1. split; [apply d_let; [reflexivity|exact Dl|apply (gd_err c _ u Gu)]|].
      split; [intros ->; reflexivity|]. destruct (x_keep x); [|split; [exact Gu|exact Au]]. split; [now apply gd_chain|].
      intros I v M A. rewrite eval_chain. now apply Au.
    + intros bs' b' Z. injection Z as <- <-. now apply (Key rl).
  - intros r rl q d z Er E. exists [], z. split; [constructor|]. split; [auto|]. split; [constructor|]. reflexivity.
  - intros r e l t ts _ IHe _ IHl rl q d z Er E. destruct (IHe rl q d z Er E) as [(u & z1 & De & H1 & Gu & Au) _]. destruct (IHl rl q d z1 Er E) as (us & z2 & Dl & H2 & F & V).
    exists (u :: us), z2. split; [now apply (ds_cons x p d z q e l u us z1)|]. split; [intros H; rewrite (H2 H); now apply H1|]. split; [now constructor|].
    intros I v M A. cbn [map]. rewrite (V I v M A). f_equal. now apply Au.
Qed.
End Main.
End F.
