(** Ill-sorted applications are rejected. *)
From Coq Require Import String Lia Permutation.
From Verif Require Import Base KindModel SortModel TermModel BVModel SimpModel OpModel ArrSimpModel OpSpec OpProofs
  ParseModel CtorModel CtorSpec CtorProofs CtorProofs2 SortProofs.
Open Scope Z_scope.

Definition exactc (c : chk) (y : ty) : bool :=
  fitsc c y && match c with PAny | PNum => false | _ => true end.
Lemma sis_no k t : s_kind (t_sort t) <> k -> sis k t = false.
Proof.
  intros H. unfold sis, s_is. destruct (skeq (s_kind (t_sort t)) k) eqn:E; [|reflexivity].
  apply skeq_spec in E. contradiction.
Qed.
Lemma exactc_no c y t : exactc c y = true -> foreign (t_sort t) y -> okp c t = false.
Proof.
  destruct c, y; intros F H; try discriminate F; cbn [foreign] in H; cbn [okp]; unfold isIntParam, isRealParam;
    try (destruct H as [H1 H2]; rewrite !sis_no by assumption; reflexivity); now apply sis_no.
Qed.
Lemma allok_no cs : forall ps tys, clash ps tys -> length ps = length tys -> length tys = length cs ->
  forallb (fun q => exactc (fst q) (snd q)) (combine cs tys) = true -> allok cs ps = false.
Proof.
  induction cs as [|c cs IH]; intros ps tys (i & t & y & P & Q & F) N M X.
  - destruct tys; [|discriminate M]. destruct i; discriminate Q.
  - destruct tys as [|y0 tys]; [discriminate M|]. destruct ps as [|p0 ps]; [discriminate N|].
    cbn [combine forallb fst snd] in X. apply andb_prop in X. destruct X as [X1 X2]. cbn [allok].
    destruct i as [|i]; cbn [nth_error] in P, Q.
    + injection P as ->. injection Q as ->. now rewrite (exactc_no c y t).
    + rewrite (IH ps tys); auto using Bool.andb_false_r. exists i, t, y. auto.
Qed.
Lemma row_no x ptr k fa ps tys w : ctor k = Some w -> kin k special = false -> clash ps tys ->
  length ps = length tys -> length tys = length (r_chk w) -> Forall (fun t => isErr t = false) ps ->
  forallb (fun q => exactc (fst q) (snd q)) (combine (r_chk w) tys) = true ->
  oper_kind (with_ops x ptr) k fa ps = Exit.
Proof.
  intros C K B N1 N E F. rewrite (oper_theory x ptr k fa ps w C), (theory_row _ _ _ _ _ w C K).
  rewrite args_all by congruence. cbn [bind]. unfold mk_row. rewrite (noerr_ex ps E), Bool.andb_false_r.
  now rewrite (allok_no _ ps tys).
Qed.
Lemma nary_no p tested ps t y : exactc p y = true -> In t ps -> foreign (t_sort t) y ->
  Forall (fun t => isErr t = false) ps -> tested = true -> nary_loop p tested ps = Exit.
Proof.
  intros X I F E ->. induction E as [|a ps E0 E IH]; [destruct I|]. cbn [nary_loop]. rewrite E0. cbn [andb].
  destruct I as [ -> |I]; [now rewrite (exactc_no p y t)|]. destruct (okp p a); cbn [negb]; auto.
Qed.
Lemma clash_repeat ps y n : clash ps (repeat y n) -> exists t, In t ps /\ foreign (t_sort t) y.
Proof.
  intros (i & t & y' & P & Q & F). exists t. split; [eapply nth_error_In; eauto|].
  apply nth_error_In in Q. apply repeat_spec in Q. now subst y'.
Qed.
Lemma getSort_some ps : ps <> [] -> (exists t, In t ps /\ isConst t = false) -> exists s, getSort ps = Ok (Some s).
Proof.
  intros N (t & I & C). destruct ps as [|a ps]; [congruence|]. unfold getSort. destruct (numS a); [eauto|].
  destruct (find (fun x => negb (isConst x)) (a :: ps)) eqn:X; [cbn; eauto|].
  pose proof (find_none _ _ X t I) as Y. cbn beta in Y. rewrite C in Y. discriminate.
Qed.
Lemma bv_nary_no c k e ps w n : length ps = n -> (2 <= n)%nat -> clash ps (repeat (TBV w) n) ->
  (2 < n -> exists t, In t ps /\ isConst t = false)%nat -> Forall (fun t => isErr t = false) ps ->
  bv_nary c k e ps = Exit.
Proof.
  intros Lp N B O E. destruct (clash_repeat _ _ _ B) as (t & I & F).
  destruct ps as [|a [|b [|d qs]]]; cbn [length] in Lp; try lia.
  - cbn [bv_nary]. unfold bv_bin. cbn [foreign] in F. destruct I as [ -> |[ -> |[]]]; rewrite (sis_no _ t F); cbn [andb];
      rewrite ?Bool.andb_false_r; reflexivity.
  - cbn [bv_nary]. destruct (getSort_some (a :: b :: d :: qs)) as [s S]; [discriminate|apply O; lia|].
    rewrite S. cbn [bind issome]. now rewrite (nary_no _ _ _ t (TBV w)).
Qed.
Lemma seq_nary_no c k p y ps s n : length ps = n -> (2 <= n)%nat -> exactc p y = true -> clash ps (repeat y n) ->
  Forall (fun t => isErr t = false) ps -> seq_nary c k p s ps = Exit.
Proof.
  intros Lp N X B E. destruct (clash_repeat _ _ _ B) as (t & I & F).
  destruct ps as [|a [|b qs]]; cbn [length] in Lp; try lia. cbn [seq_nary]. now rewrite (nary_no _ _ _ t y).
Qed.
Lemma concat_no ps : forall a, (exists t, In t ps /\ s_kind (t_sort t) <> SK_BV) -> Forall (fun t => isErr t = false) ps ->
  Forall wf_bv ps -> concat_loop a ps = Exit.
Proof.
  induction ps as [|p ps IH]; intros a (t & I & F) E W; [destruct I|]. inversion E; inversion W; subst.
  cbn [concat_loop]. rewrite H1. destruct (sis SK_BV p) eqn:S; [|reflexivity]. cbn [negb].
  assert (K : s_kind (t_sort p) = SK_BV) by (unfold sis, s_is in S; now apply skeq_spec in S).
  destruct (H5 K) as [w Hw]. unfold width. rewrite Hw. cbn [bind child_arity bvS s_ch nth_error].
  apply IH; auto. destruct I as [ -> |I]; [contradiction|]. eauto.
Qed.

Ltac norow := lazymatch goal with
  | B : clash ?ps ?tys, M : mget (L ?op) _ = None |- _ =>
      start op; erewrite (row_no _ _ _ _ ps tys); [reflexivity|reflexivity|reflexivity|exact B|assumption|reflexivity|assumption|reflexivity] end.
Ltac lens := match goal with H : length ?ps = length ?l |- _ => cbn [length] in H end; repeat match goal with
  | H : length ?ps = S _ |- _ => destruct ps as [|? ps]; [discriminate H|]; cbn [length] in H; apply eq_add_S in H
  | H : length ?ps = O |- _ => destruct ps; [|discriminate H]; clear H
  end.
Ltac idxs := match goal with B : clash _ _ |- _ =>
  destruct B as (ii & tt & yy & PP & QQ & FF); destruct ii as [|[|[|[|ii]]]]; cbn [nth_error] in PP, QQ; try discriminate QQ;
  try (destruct ii; discriminate QQ); injection PP as <-; injection QQ as <-; cbn [foreign] in FF end.

Lemma ill_sorted x ptr p op ix ps tys r :
  rank op ix tys r -> length ps = length tys -> clash ps tys -> tolerant op = false ->
  Forall (fun t => isErr t = false) ps -> Forall wf_bv ps ->
  (untested_on_constants op = true -> exists t, In t ps /\ isConst t = false) ->
  mget (L op) (p_fun p) = None ->
  (c_dbg (x_c x) = true -> op <> "fp.fma"%string) ->
  parseOper (with_ops x ptr) p (L op) (idx ix) ps = Exit.
Proof.
  intros R N B TO E W O M D.
  destruct R; try inlist.
  all: try discriminate TO.
  all: try (norow; fail).
  all: try (match goal with H : fits ?w, T : clash _ (repeat (TBV ?w) ?n) |- _ => idtac end;
            rewrite repeat_length in N; byspec; apply (bv_nary_no _ _ _ _ w n); auto).
  all: try (match goal with T : clash _ [TBV ?w; TBV ?w] |- _ =>
            byspec; apply (bv_nary_no _ _ _ _ w 2); auto; lia end).
  all: try (match goal with H : (2 <= ?n)%nat, T : clash _ (repeat ?y ?n) |- _ =>
            rewrite repeat_length in N; byspec; apply (seq_nary_no _ _ _ y _ _ n); auto end).
  1:{ byspec. rewrite map_length in N. destruct B as (i & t & y & P & Q & F).
      apply nth_error_In in P. apply nth_error_In in Q. apply in_map_iff in Q. destruct Q as (w & <- & _). cbn [foreign] in F.
      unfold mkBvConcat. destruct ps as [|a [|b qs]]; cbn [length] in N; try lia. rewrite concat_no; eauto. }
  all: try (byspec; rewrite fargs_all by (reflexivity || exact N); cbn [bind fst snd]; lens; unfold idx; cbn [map app call2 call3];
            inversion E as [|? ? E1 E2]; subst; idxs; unfold mkBvExtract, mkBvIndexed, mkToBv, mkFpToBv, isIntParam;
            rewrite ?E1; change (isErr (mkConstInt i)) with false; change (isErr (mkConstInt j)) with false; cbn [orb];
            try (destruct FF as [FF FG]; rewrite (sis_no _ _ FG)); rewrite (sis_no _ _ FF); cbn [orb andb]; rewrite ?Bool.andb_false_r; reflexivity).
  all: try (byspec; rewrite fargs_all by (reflexivity || exact N); cbn [bind fst snd]; lens; unfold idx; cbn [map app call2 call3];
            inversion E as [|? ? E1 E2]; subst; idxs; unfold mkBvExtract, mkBvIndexed, mkToBv, mkFpToBv, isIntParam;
            rewrite ?E1; 
            try (destruct FF as [FF FG]; rewrite (sis_no _ _ FG)); rewrite (sis_no _ _ FF); cbn [orb andb]; rewrite ?Bool.andb_false_r; reflexivity).
  all: try (byspec; lens; pose proof (noerr_ex _ E) as EX; idxs; unfold mkFpArith; rewrite EX, (sis_no _ _ FF); cbn [negb orb];
            rewrite ?Bool.orb_true_r; try match goal with |- context[negb ?b] => destruct b end; reflexivity).
  all: try (byspec; lens; unfold mkFpCmps; cbn [length Nat.leb Nat.eqb]; rewrite condT; cbn [bind]; unfold mkFpCmp;
            idxs; rewrite (sis_no _ _ FF); cbn [negb orb]; rewrite ?Bool.orb_true_r; reflexivity).
  all: try (match goal with H : clash _ [TFP ?e ?g; TFP ?e ?g] |- _ =>
            byspec; unfold mkFpMinMax; destruct (getSort_some ps) as [s S];
            [intros ->; discriminate N|apply O; reflexivity|]; destruct (clash_repeat ps (TFP e g) 2 H) as (t & I & F) end;
            lens; cbn [length Nat.eqb]; rewrite condT; cbn [bind]; rewrite S; cbn [bind];
            erewrite (nary_no _ _ _ t); [reflexivity| |exact I|exact F|assumption|reflexivity]; reflexivity).
  - (* fma *) byspec. destruct (c_dbg (x_c x)) eqn:DD; [contradiction (D eq_refl); reflexivity|]. cbn [condAssert bind].
    lens. unfold mkFpFma. destruct (sis SK_ROUNDING_MODE t) eqn:RM; [|reflexivity]. cbn [negb].
    inversion E; subst. destruct B as (i & u & y & P & Q & F). destruct i as [|i]; cbn [nth_error] in P, Q.
    + injection P as <-. injection Q as <-. cbn [foreign] in F. rewrite (sis_no _ _ F) in RM. discriminate.
    + rewrite (nary_no _ _ _ u (TFP e g)); auto.
      * eapply nth_error_In; eauto.
      * destruct i as [|[|[|[|i]]]]; try discriminate Q; injection Q as <-; exact F.
  - byspec. lens. unfold mkRegDiff. inversion E as [|? ? E1 E2]; subst. inversion E2 as [|? ? E3 E4]; subst. rewrite E1, E3. cbn [orb].
    idxs; rewrite (sis_no _ _ FF); rewrite ?Bool.andb_false_r; reflexivity.
  - byspec. lens. inversion E as [|? ? E1 E2]; subst. cbn [length Nat.eqb idx map]. rewrite !condT. cbn [bind take_args ctor app].
    unfold mk_row. cbn [r_err tri existsb]. rewrite E1. change (isErr (mkConstInt i)) with false. change (isErr (mkConstInt j)) with false.
    cbn [orb andb tri r_err r_chk r_out allok okp]. idxs; rewrite (sis_no _ _ FF). reflexivity.
Qed.

(** ** number of arguments *)
Definition not_ok (m : res term) : Prop := forall t, m <> Ok t.
Lemma args_bad c n ps (f : list term -> res term) : c_dbg c = true -> length ps <> n -> not_ok (a <- args c n ps ;; f a).
Proof.
  intros D N t. unfold args. rewrite D. apply Nat.eqb_neq in N. rewrite N. discriminate.
Qed.
Lemma fargs_bad c n m fa ps (f : _ -> res term) : c_dbg c = true -> length ps <> m -> not_ok (a <- fargs c n m fa ps ;; f a).
Proof.
  intros D N t. unfold fargs. rewrite D. apply Nat.eqb_neq in N. rewrite N. destruct (Nat.eqb (length fa) n); discriminate.
Qed.
Lemma row_bad x ptr k fa ps w n : ctor k = Some w -> kin k special = false -> c_dbg (x_c x) = true -> n = length (r_chk w) ->
  length ps <> n -> not_ok (oper_kind (with_ops x ptr) k fa ps).
Proof.
  intros C K D -> N. rewrite (oper_theory x ptr k fa ps w C), (theory_row _ _ _ _ _ w C K). now apply args_bad.
Qed.
Lemma arity_debug x ptr p op ix ps tys r :
  rank op ix tys r -> nary op = false -> c_dbg (x_c x) = true ->
  ~ In op ["fp.sqrt"; "fp.roundToIntegral"; "to_fp"]%string ->
  mget (L op) (p_fun p) = None -> length ps <> length tys ->
  not_ok (parseOper (with_ops x ptr) p (L op) (idx ix) ps).
Proof.
  intros R NA D X M N.
  destruct R; try inlist; try discriminate NA; try (exfalso; apply X; cbn [In]; tauto).
  all: cbn [length] in N.
  all: try (match goal with M : mget (L ?op) _ = None |- _ => start op end;
            eapply row_bad; [reflexivity|reflexivity|exact D|reflexivity|exact N]).
  all: try (byspec; apply args_bad; assumption).
  all: try (byspec; apply fargs_bad; assumption).
  all: byspec.
  all: try (destruct ps as [|? [|? [|? [|? ps]]]]; cbn [length] in N; try congruence; intros tt; discriminate).
  - rewrite D. cbn [condAssert]. destruct ps as [|? [|? [|? [|? [|? ps]]]]]; intros tt; discriminate.
  - rewrite D. cbn [condAssert]. apply Nat.eqb_neq in N. rewrite N. intros tt; discriminate.
  - rewrite D. cbn [condAssert]. apply Nat.eqb_neq in N. rewrite N. intros tt; discriminate.
  - rewrite D. cbn [condAssert]. apply Nat.eqb_neq in N. rewrite N. intros tt; discriminate.
Qed.
Lemma take_app ps qs : take_args (length ps) (ps ++ qs) = Ok ps.
Proof. induction ps; [destruct qs; reflexivity|]. cbn [length take_args app]. now rewrite IHps. Qed.
Lemma args_rel c ps qs : c_dbg c = false -> args c (length ps) (ps ++ qs) = Ok ps.
Proof. intros D. unfold args. rewrite D. cbn [condAssert bind]. apply take_app. Qed.
Lemma args_rel0 c ps : c_dbg c = false -> args c (length ps) ps = Ok ps.
Proof. intros D. unfold args. rewrite D. cbn [condAssert bind]. apply take_all. Qed.
Definition exact_arity (op : string) : bool :=
  existsb (String.eqb op) ["fp.add"; "fp.sub"; "fp.mul"; "fp.div"; "fp.fma"; "fp.sqrt"; "fp.roundToIntegral"; "re.diff";
                           "to_fp"; "fp.min"; "fp.max"]%string.
Lemma surplus x ptr p op tys r ps qs :
  rank op [] tys r -> nary op = false -> exact_arity op = false -> c_dbg (x_c x) = false ->
  mget (L op) (p_fun p) = None -> length ps = length tys ->
  parseOper (with_ops x ptr) p (L op) [] (ps ++ qs) = parseOper (with_ops x ptr) p (L op) [] ps.
Proof.
  intros R NA EA D M N. remember (@nil Z) as ix0 eqn:IX.
  destruct R; try discriminate IX; try inlist; try discriminate NA; try discriminate EA; cbn [length] in N.
  all: rewrite !po by (assumption || reflexivity).
  all: match goal with M : mget (L ?op) _ = None |- _ => getkind op end.
  all: cbn [oper_kind with_ops x_oper x_c theory_oper ctor un bin tri r_chk length].
  all: rewrite <- N; rewrite args_rel, args_rel0 by exact D; reflexivity.
Qed.
Lemma missing x ptr p op tys r ps q :
  rank op [] tys r -> nary op = false -> exact_arity op = false -> c_dbg (x_c x) = false ->
  mget (L op) (p_fun p) = None -> length (ps ++ [q]) = length tys ->
  parseOper (with_ops x ptr) p (L op) [] ps = UB.
Proof.
  intros R NA EA D M N. remember (@nil Z) as ix0 eqn:IX. rewrite app_length in N. cbn [length] in N.
  destruct R; try discriminate IX; try inlist; try discriminate NA; try discriminate EA; cbn [length] in N.
  all: rewrite !po by (assumption || reflexivity).
  all: match goal with M : mget (L ?op) _ = None |- _ => getkind op end.
  all: cbn [oper_kind with_ops x_oper x_c theory_oper ctor un bin tri r_chk length].
  all: destruct ps as [|? [|? [|? ps]]]; cbn [length] in N; try lia.
  all: unfold args; rewrite D; reflexivity.
Qed.
