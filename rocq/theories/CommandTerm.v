(** Reading a script ends on every text, unless a term constructor does not return. *)
From Verif Require Import Base LexSpec LexProofs KindModel SortModel TermModel UtilModel SimpModel OpModel LexModel
  ParseModel ApplyModel CommandModel ParseTerm.
Open Scope Z_scope.

Lemma skip_len : forall t m lv, (length (txt (skip_loop m lv t)) <= length t)%nat.
Proof.
  induction t as [|c t IH]; intros m lv; cbn [skip_loop]; [reflexivity|].
  assert (K : forall m lv, (length (txt (skip_loop m lv t)) <= length (c :: t))%nat)
    by (intros m' lv'; etransitivity; [apply IH|cbn [length]; lia]).
  destruct m; repeat (match goal with |- context [if ?b then _ else _] => destruct b end); try apply K; try reflexivity;
  destruct lv; try apply K; reflexivity.
Qed.
Lemma skipc_len s : (ln (skipc s) <= ln s)%nat. Proof. apply skip_len. Qed.

Section Term.
Context (x : pcfg).
Definition gd {R} (f : R -> cs) (n : nat) (r : res R) : Prop :=
  calls x r /\ forall a, r = Ok a -> (ln (f a) < n)%nat.
Lemma gd_good {A} n (r : res (A * cs)) : good x n r -> gd snd n r.
Proof. intros [H1 H2]. split; [exact H1|]. intros [a s] E. exact (H2 a s E). Qed.
Lemma gd_goodc n (r : res cs) : goodc x n r -> gd (fun s => s) n r.
Proof. intros H. exact H. Qed.
Lemma gd_bind {R Q} (f : R -> cs) (h : Q -> cs) n m (r : res R) (k : R -> res Q) :
  gd f n r -> (forall a, (ln (f a) < n)%nat -> gd h m (k a)) -> gd h m (bind r k).
Proof.
  intros [H1 H2] HK. destruct r as [a| | | | |]; cbn [bind];
    try (split; [intros E; try discriminate; try (apply H1; reflexivity)|discriminate]).
  apply HK. now apply H2.
Qed.
Lemma gd_pure {R Q} (h : Q -> cs) m (r : res R) (k : R -> res Q) :
  calls x r -> (forall a, gd h m (k a)) -> gd h m (bind r k).
Proof.
  intros H HK. destruct r as [a| | | | |]; cbn [bind];
    try (split; [intros E; try discriminate; try (apply H; reflexivity)|discriminate]).
  apply HK.
Qed.
Lemma gd_ok {R} (f : R -> cs) n a : (ln (f a) < n)%nat -> gd f n (Ok a).
Proof. intros H. split; [discriminate|]. intros ? [= <-]. exact H. Qed.
Lemma gd_bad {R} (f : R -> cs) n (r : res R) : r = Exit \/ r = UB -> gd f n r.
Proof. intros [-> | ->]; split; discriminate. Qed.
Lemma gd_le {R} (f : R -> cs) n m (r : res R) : gd f n r -> (n <= m)%nat -> gd f m r.
Proof. intros [H1 H2] H. split; [exact H1|]. intros a E. specialize (H2 a E). lia. Qed.

Lemma psort_strict fuel s : (ln s < fuel)%nat -> atc rpar s = false -> good x (ln s) (psort fuel x s).
Proof.
  intros Hu Hr. destruct fuel as [|f]; [lia|]. cbn [psort]. rewrite Hr.
  assert (IH : forall t, (ln t < f)%nat -> good x (S (ln t)) (psort f x t)) by (intros; now apply psort_good).
  destruct (negb (atc lpar s)).
  { eapply good_bind; [apply sym_good|]. intros ? ? ?. cbn [fst snd]. destruct (mget _ basic_sorts); [now apply good_ok|].
    destruct (mget _ _); [now apply good_ok|apply good_bad; now left]. }
  eapply goodc_bind; [apply lpar_good|]. intros s1 H1. eapply good_bind; [apply sym_good|]. intros a s2 H2. cbn [fst snd].
  eapply (good_bind x (ln s)); [|intros ? s3 ?; cbn [fst snd]; eapply goodc_bind; [apply rpar_good|intros; apply good_ok; lia]].
  assert (OK : forall {A} n (a : A) t, (ln t < n)%nat -> good x n (Ok (a, t))) by (intros; now apply good_ok).
  assert (EX : forall {A} n, good x n (@Exit (A * cs))) by (intros; apply good_bad; now left).
  destruct (seqs a "Array").
  { eapply good_bind; [apply IH; lia|]. intros ? ? ?. cbn [fst snd]. eapply good_bind; [apply IH; lia|]. intros ? ? ?. cbn [fst snd].
    apply pure_bind; [apply nf_calls, nf_sstr|intros]. apply pure_bind; [apply nf_calls, nf_sstr|intros].
    eapply good_le; [apply cached_good; discriminate|lia]. }
  destruct (_ || _ || _ || _ || _ || _); [apply OK; lia|]. destruct (seqs a "RegEx").
  { eapply good_bind; [apply IH; lia|]. intros ? ? ?. cbn [fst snd]. destruct (s_is _ _); [apply OK; lia|apply EX]. }
  destruct (seqs a "_").
  { eapply good_bind; [apply sym_good|]. intros b s3 H3. cbn [fst snd]. destruct (seqs b "BitVec").
    { eapply good_bind; [apply sym_good|]. intros ? ? ?. cbn [fst snd]. eapply good_le; [apply cached_good, nf_bvof|lia]. }
    destruct (seqs b "FloatingPoint"); [|apply EX].
    eapply good_bind; [apply sym_good|]. intros ? ? ?. cbn [fst snd]. eapply good_bind; [apply sym_good|]. intros ? ? ?. cbn [fst snd].
    eapply good_le; [apply cached_good, nf_fpof|lia]. }
  destruct (mget _ basic_sorts); [apply OK; lia|]. destruct (mget _ _); [|apply EX].
  eapply good_bind; [apply (psorts_good x _ (ln s2)); [intros; apply IH; lia|lia]|].
  intros ? ? ?. cbn [fst snd]. apply OK. rewrite ln_onp. lia.
Qed.
Lemma psort_g s : gd snd (S (ln s)) (psort' x s).
Proof. apply gd_good, psort_good. unfold ln. lia. Qed.
Lemma psort_gs s : atc rpar s = false -> gd snd (ln s) (psort' x s).
Proof. intros H. apply gd_good, psort_strict; [unfold ln; lia|exact H]. Qed.
Lemma pexpr_g s : gd snd (ln s) (pexpr' x s).
Proof. apply gd_good. destruct (all_good x (pexpr_fuel s)) as [H _]. apply H. unfold pexpr_fuel, ln. lia. Qed.
Lemma pquant_g fa s : gd snd (ln s) (pquant (pexpr_fuel s) x fa s).
Proof. apply gd_good. destruct (all_good x (pexpr_fuel s)) as (_ & _ & _ & _ & _ & _ & H). apply H. unfold pexpr_fuel, ln. lia. Qed.
Lemma sym_g s : gd snd (ln s) (sym x s). Proof. apply gd_good, sym_good. Qed.
Lemma tryk_g s : gd snd (S (ln s)) (tryKeyword x s). Proof. apply gd_good, tryk_good. Qed.
Lemma lpar_g s : gd (fun s => s) (ln s) (lparc s). Proof. apply lpar_good. Qed.
Lemma rpar_g s : gd (fun s => s) (ln s) (rparc s). Proof. apply rpar_good. Qed.
Lemma many_g {A} (rd : cs -> res (A * cs)) : (forall s, atc rpar s = false -> gd snd (ln s) (rd s)) ->
  forall fuel s, (ln s < fuel)%nat -> gd snd (S (ln s)) (many fuel rd s).
Proof.
  intros H. induction fuel as [|f IH]; intros s Hf; [lia|]. cbn [many]. destruct (atc rpar s) eqn:E; [apply gd_ok; cbn; lia|].
  eapply gd_bind; [now apply H|]. intros a Ha. cbn beta in *. eapply gd_bind; [apply IH; lia|]. intros l Hl. apply gd_ok. cbn [snd]. lia.
Qed.
Lemma many_g' {A} (rd : cs -> res (A * cs)) s : (forall s, atc rpar s = false -> gd snd (ln s) (rd s)) ->
  gd snd (S (ln s)) (many' rd s).
Proof. intros H. apply many_g; [exact H|]. unfold ln. lia. Qed.

Ltac stp := cbv beta in *; cbn [fst snd] in *; match goal with
  | |- gd _ _ (bind (sym x _) _) => eapply gd_bind; [apply sym_g|intros ? ?]
  | |- gd _ _ (bind (lparc _) _) => eapply gd_bind; [apply lpar_g|intros ? ?]
  | |- gd _ _ (bind (rparc _) _) => eapply gd_bind; [apply rpar_g|intros ? ?]
  | |- gd _ _ (bind (tryKeyword x _) _) => eapply gd_bind; [apply tryk_g|intros ? ?]
  | |- gd _ _ (bind (psort' x _) _) => eapply gd_bind; [apply psort_g|intros ? ?]
  | |- gd _ _ (bind (pexpr' x _) _) => eapply gd_bind; [apply pexpr_g|intros ? ?]
  | |- gd _ _ (bind (many' (sym x) _) _) => eapply gd_bind; [apply many_g'; intros; apply sym_g|intros ? ?]
  | |- gd _ _ (bind (many' (psort' x) _) _) => eapply gd_bind; [apply many_g'; intros; now apply psort_gs|intros ? ?]
  | |- gd _ _ (bind (many' (pexpr' x) _) _) => eapply gd_bind; [apply many_g'; intros; apply pexpr_g|intros ? ?]
  | |- gd _ _ Exit => apply gd_bad; now left
  | |- gd _ _ UB => apply gd_bad; now right
  | |- gd _ _ (Ok _) => apply gd_ok; cbn [fst snd]; rewrite ?ln_onp; try lia
  | |- gd _ _ (if ?b then _ else _) => destruct b eqn:?
  end.

Lemma soft_g : forall n id wt s, gd snd (S (ln s)) (soft_kws n x id wt s).
Proof.
  induction n as [|n IH]; intros id wt s; cbn [soft_kws]; [stp|]. stp. destruct (fst a); repeat stp.
  - eapply gd_le; [apply IH|]. lia.
  - eapply gd_le; [apply IH|]. lia.
Qed.
Lemma obj_g : forall n a s, gd snd (S (ln s)) (obj_kws n x a s).
Proof.
  induction n as [|n IH]; intros a s; cbn [obj_kws]; [stp|]. stp. destruct (fst a0); repeat stp; (eapply gd_le; [apply IH|lia]).
Qed.
Lemma opt_g : forall n s, gd (fun s => s) (S (ln s)) (opt_kws n x s).
Proof.
  induction n as [|n IH]; intros s; cbn [opt_kws]; [stp|]. stp. destruct (fst a); repeat stp; (eapply gd_le; [apply IH|lia]).
Qed.
Lemma optid_g s : gd snd (S (ln s)) (opt_id x s).
Proof. unfold opt_id. stp. destruct (fst a); try stp. eapply gd_le; [apply sym_g|lia]. Qed.
Lemma weight_nf w : soft_weight x w <> NoFuel.
Proof.
  unfold soft_weight. destruct w; [discriminate|]. destruct (isInt _); [apply nf_bind; [apply nf_int|discriminate]|].
  destruct (isReal _); [apply nf_creal|discriminate].
Qed.
Lemma soft_cmd_g s g : gd fst (ln s) (pAssertSoft x s g).
Proof.
  unfold pAssertSoft. eapply gd_bind; [apply soft_g|intros ? ?]. stp. eapply gd_bind; [apply soft_g|intros ? ?].
  apply gd_pure; [apply nf_calls, weight_nf|intros]. stp.
Qed.
Lemma single_nf lg k t a : single_obj x lg k t a <> NoFuel.
Proof.
  assert (D : forall k, defaultComp (c_dbg (x_c x)) lg k <> NoFuel).
  { intros k0. unfold defaultComp. cbn zeta. apply nf_bind; [apply nf_cond|]. intros _.
    repeat match goal with |- (if ?b then _ else _) <> _ => destruct b end; discriminate. }
  unfold single_obj. destruct k; try discriminate; apply nf_bind; try discriminate;
    (destruct (is_nil _); [apply D|discriminate]).
Qed.
Lemma single_g k s g : gd (fun r => snd (fst r)) (ln s) (pSingle x k s g).
Proof.
  unfold pSingle. eapply gd_bind; [apply obj_g|intros ? ?]. stp. eapply gd_bind; [apply obj_g|intros ? ?].
  apply gd_pure; [apply nf_calls, single_nf|intros]. stp.
Qed.
Lemma defobj_g s g : gd fst (ln s) (pDefObj x s g).
Proof.
  unfold pDefObj. stp. eapply gd_bind; [apply optid_g|intros ? ?]. stp. stp.
  eapply (gd_bind (fun r => snd (fst r)) _ (ln s)).
  - repeat stp; (eapply gd_le; [apply single_g|lia]).
  - intros ? ?. stp. stp.
Qed.
Lemma multi_g k s g : gd fst (ln s) (pMulti x k s g).
Proof.
  unfold pMulti. eapply gd_bind; [apply optid_g|intros ? ?]. stp. stp. stp. eapply gd_bind; [apply optid_g|intros ? ?]. stp.
Qed.
Lemma optimize_g s g : gd fst (ln s) (pOptimize x s g).
Proof.
  unfold pOptimize. eapply gd_bind; [apply opt_g|intros ? ?]. stp. stp. stp. eapply gd_bind; [apply opt_g|intros ? ?]. stp.
Qed.
Lemma assert_g s g : gd fst (ln s) (pAssert x s g).
Proof.
  unfold pAssert. stp. eapply (gd_bind snd _ (S (ln s))).
  { destruct (fst a); try (stp; lia). eapply gd_le; [apply sym_g|lia]. }
  intros i Hi. stp. cbv beta in *. eapply (gd_bind snd _ (ln s)).
  { destruct (fst i); [eapply gd_le; [apply optid_g|lia]|stp]. }
  intros i2 Hi2. stp. eapply (gd_bind snd _ (ln s)).
  { destruct (fst a1); try (stp; lia). eapply gd_le; [apply sym_g|lia]. }
  intros n Hn. stp. destruct (fst n); rewrite ?ln_onp; lia.
Qed.
Lemma var_len t nm s : ln (snd (mkVar t nm s)) = ln s.
Proof. unfold mkVar. now destruct (mget _ _). Qed.
Lemma mapM_nf {A B} (f : A -> res B) l : (forall a, f a <> NoFuel) -> mapM f l <> NoFuel.
Proof.
  intros H. induction l as [|a l IH]; cbn [mapM]; [discriminate|]. apply nf_bind; [apply H|]. intros b. apply nf_bind; [exact IH|discriminate].
Qed.
Lemma dec_g nm ps out s : gd snd (S (ln s)) (mkFuncDec nm ps out s).
Proof.
  unfold mkFuncDec. destruct (mget _ _); [stp|]. apply gd_pure; [apply nf_calls, mapM_nf|intros; stp].
  intros t. unfold dec_param. apply nf_bind; [apply nf_sstr|discriminate].
Qed.
Lemma func_g k d nm ps out bd s : gd snd (S (ln s)) (mkFunc k d nm ps out bd s).
Proof.
  unfold mkFunc. destruct (mget _ _); [|stp]. apply gd_pure; [apply nf_calls, nf_cond|intros; stp; stp].
Qed.
Lemma param_g s : gd snd (ln s) (pparam x s).
Proof. unfold pparam. stp. stp. stp. cbn zeta. destruct (mget _ _); [stp|]. stp. rewrite ?ln_onp in *. stp. Qed.
Lemma param0_g s : gd snd (ln s) (pparam0 x s).
Proof. unfold pparam0. stp. stp. stp. stp. stp. Qed.
Lemma known_nf nm s r : known_fun nm s = Some r -> r <> NoFuel.
Proof. unfold known_fun. destruct (mget _ _); [|discriminate]. intros [= <-]. destruct (isk _ _); discriminate. Qed.
Lemma decls_g : forall fuel s fs, (ln s < fuel)%nat -> gd snd (S (ln s)) (pdecls fuel x s fs).
Proof.
  induction fuel as [|f IH]; intros s fs Hf; [lia|]. cbn [pdecls]. stp; [stp|]. stp. stp.
  destruct (known_fun _ _) as [r|] eqn:E.
  - apply gd_pure; [apply nf_calls; eapply known_nf; eassumption|intros]. cbn [fst snd] in *. pose proof (skipc_len (snd a0)).
    eapply gd_le; [apply IH; lia|lia].
  - stp. eapply gd_bind; [apply many_g'; intros; apply param0_g|intros ? ?]. stp. stp. stp.
    cbn [fst snd] in *. eapply gd_bind; [apply IH; lia|intros ? ?]. stp.
Qed.
Lemma declall_g ds : forall s, gd (fun s => s) (S (ln s)) (decl_all ds s).
Proof.
  induction ds as [|d ds IH]; intros s; cbn [decl_all]; [stp|]. eapply gd_bind; [apply dec_g|intros ? ?].
  cbn beta in *. eapply gd_le; [apply IH|lia].
Qed.
Lemma bodies_g ds : forall s, gd (fun s => s) (S (ln s)) (pbodies x ds s).
Proof.
  induction ds as [|d ds IH]; intros s; cbn [pbodies]; [stp|]. cbn zeta. stp. rewrite ln_onp in *.
  eapply gd_bind; [apply func_g|intros ? ?]. cbn beta in *. eapply gd_le; [apply IH|]. unfold del_params. rewrite ln_onp. lia.
Qed.
End Term.

Ltac stp := cbv beta in *; cbn [fst snd] in *; match goal with
  | |- gd _ _ _ (bind (sym _ _) _) => eapply gd_bind; [apply sym_g|intros ? ?]
  | |- gd _ _ _ (bind (lparc _) _) => eapply gd_bind; [apply lpar_g|intros ? ?]
  | |- gd _ _ _ (bind (rparc _) _) => eapply gd_bind; [apply rpar_g|intros ? ?]
  | |- gd _ _ _ (bind (psort' _ _) _) => eapply gd_bind; [apply psort_g|intros ? ?]
  | |- gd _ _ _ (bind (pexpr' _ _) _) => eapply gd_bind; [apply pexpr_g|intros ? ?]
  | |- gd _ _ _ (bind (many' (sym _) _) _) => eapply gd_bind; [apply many_g'; intros; apply sym_g|intros ? ?]
  | |- gd _ _ _ (bind (many' (psort' _) _) _) => eapply gd_bind; [apply many_g'; intros; now apply psort_gs|intros ? ?]
  | |- gd _ _ _ (bind (many' (pexpr' _) _) _) => eapply gd_bind; [apply many_g'; intros; apply pexpr_g|intros ? ?]
  | |- gd _ _ _ (bind (many' (pparam _) _) _) => eapply gd_bind; [apply many_g'; intros; apply param_g|intros ? ?]
  | |- gd _ _ _ (bind (mkFuncDec _ _ _ _) _) => eapply gd_bind; [apply dec_g|intros ? ?]
  | |- gd _ _ _ (bind (mkFunc _ _ _ _ _ _ _) _) => eapply gd_bind; [apply func_g|intros ? ?]
  | |- gd _ _ _ (bind (pSingle _ _ _ _) _) => eapply gd_bind; [apply single_g|intros ? ?]
  | |- gd _ _ _ (bind (pMulti _ _ _ _) _) => eapply gd_bind; [apply multi_g|intros ? ?]
  | |- gd _ _ _ (bind (stoi _) _) => apply gd_pure; [apply nf_calls, nf_stoi|intros]
  | |- gd _ _ _ Exit => apply gd_bad; now left
  | |- gd _ _ _ (Ok (_, skipc ?s, _)) => pose proof (skipc_len s); apply gd_ok; cbn [fst snd]; unfold del_params in *; rewrite ?ln_onp, ?var_len in *; try lia
  | |- gd _ _ _ (Ok _) => apply gd_ok; cbn [fst snd]; unfold del_params; rewrite ?ln_onp, ?var_len in *; try lia
  | |- gd _ _ _ (match known_fun ?a ?b with Some _ => _ | None => _ end) => let E := fresh in destruct (known_fun a b) eqn:E;
      [apply gd_pure; [apply nf_calls; eapply known_nf; eassumption|intros]|]
  end.
Lemma command_g b file s g : gd (xo b file (g_opt g)) (fun r => snd (fst r)) (ln s) (pcommand b file s g).
Proof.
  unfold pcommand. cbv zeta. stp. set (x := xo b file (g_opt g)) in *. clearbody x.
  Local Ltac one := match goal with |- gd _ _ _ (if ?b then _ else _) => destruct b end.
  one. { eapply gd_bind; [apply assert_g|intros ? ?]. stp. }
  one. { eapply gd_bind; [apply soft_cmd_g|intros ? ?]. stp. }
  one. { stp. }
  one. { repeat stp. }
  one. { repeat stp. one; stp. }
  one. { stp. stp. one; [repeat stp; one; stp|repeat stp]. }
  one. { repeat stp. }
  one. { repeat stp. }
  one. { repeat stp. }
  one. { repeat stp. }
  one. { stp. eapply gd_bind; [apply decls_g; unfold ln; lia|intros ? ?]. stp. eapply gd_bind; [apply declall_g|intros ? ?].
         stp. eapply gd_bind; [apply bodies_g|intros ? ?]. stp. stp. }
  one. { repeat stp. }
  one. { stp. }
  one. { stp. }
  one. { stp. }
  one. { stp. one; stp. }
  one. { eapply gd_bind; [apply pquant_g|intros ? ?]. rewrite ln_onp in *. stp. }
  one. { stp. }
  one. { repeat stp. } one. { repeat stp. }
  one. { eapply gd_bind; [apply defobj_g|intros ? ?]. stp. }
  one. { repeat stp. } one. { repeat stp. } one. { repeat stp. } one. { repeat stp. } one. { repeat stp. }
  one. { repeat stp. } one. { repeat stp. }
  one; [|stp]. eapply gd_bind; [apply optimize_g|intros ? ?]. stp.
Qed.
Lemma script_ends b file : forall fuel s g, (ln s < fuel)%nat -> pscript fuel b file s g = NoFuel ->
  exists o, stuck (xo b file o).
Proof.
  induction fuel as [|f IH]; intros s g Hf; [lia|]. cbn [pscript]. destruct (aeq _ _); [discriminate|].
  destruct (lpar_good (xo b file (g_opt g)) s) as [H1 H2].
  destruct (lparc s) as [s1| | | | |]; cbn [bind]; try discriminate; [|intros _; eexists; now apply H1].
  specialize (H2 s1 eq_refl). destruct (command_g b file s1 g) as [H3 H4].
  destruct (pcommand b file s1 g) as [[[d s2] g2]| | | | |]; cbn [bind fst snd]; try discriminate; [|intros _; eexists; now apply H3].
  specialize (H4 _ eq_refl). cbn [fst snd] in H4. destruct d; [discriminate|].
  destruct (rpar_good (xo b file (g_opt g)) s2) as [H5 H6].
  destruct (rparc s2) as [s3| | | | |]; cbn [bind]; try discriminate; [|intros _; eexists; now apply H5].
  specialize (H6 s3 eq_refl). apply IH. lia.
Qed.
