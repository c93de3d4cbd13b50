(** Well-sorted applications are accepted, with the right sort, kind and children. *)
From Coq Require Import String Lia Permutation.
From Verif Require Import Base KindModel SortModel TermModel BVModel SimpModel OpModel ArrSimpModel OpSpec OpProofs
  ParseModel CtorModel CtorSpec CtorProofs.
Open Scope Z_scope.

Definition good (op : string) (ix : list Z) (ps : list term) (r : ty) (t : term) : Prop :=
  has_ty (t_sort t) r /\ t_kind t = getOperKind (L op) /\
  (if reordered op then Permutation (t_ch t) (children op ix ps) else t_ch t = children op ix ps).

Lemma po x ptr p op fa ps : mget (L op) (p_fun p) = None -> seqs (L op) "root-obj" = false ->
  parseOper (with_ops x ptr) p (L op) fa ps = oper_kind (with_ops x ptr) (getOperKind (L op)) fa ps.
Proof. intros A B. unfold parseOper. now rewrite A, B. Qed.

Definition fitsc (c : chk) (y : ty) : bool :=
  match c, y with
  | PAny, _ | PInt, TInt | PReal, TReal | PNum, TInt | PNum, TReal | PBv, TBV _ | PFp, TFP _ _ | PStr, TStr
  | PReg, TReg | PRm, TRm => true
  | _, _ => false
  end.
Lemma fitsc_ok c y t : fitsc c y = true -> typed t y -> okp c t = true.
Proof.
  unfold typed. destruct c, y; intros F H; try discriminate F; cbn [has_ty] in H; cbn [okp]; try reflexivity;
    unfold isIntParam, isRealParam, sis; 
    try (match type of H with _ \/ _ => destruct H as [H|H] | ex _ => destruct H as [nm H] end); rewrite H; reflexivity.
Qed.
Lemma allok_ok cs : forall ps tys, Forall2 typed ps tys -> forallb (fun q => fitsc (fst q) (snd q)) (combine cs tys) = true ->
  allok cs ps = true.
Proof.
  induction cs as [|c cs IH]; intros ps tys H F; [reflexivity|].
  destruct H as [|p y ps tys P H]; [reflexivity|]. cbn [combine forallb fst snd] in F. apply andb_prop in F.
  cbn [allok]. rewrite (fitsc_ok c y p) by tauto. apply (IH ps tys); tauto.
Qed.
Lemma noerr_ex ps : Forall (fun t => isErr t = false) ps -> existsb isErr ps = false.
Proof. induction 1; cbn [existsb]; [reflexivity|]. now rewrite H, IHForall. Qed.
Lemma row_ok c k w ps tys : Forall2 typed ps tys -> Forall (fun t => isErr t = false) ps ->
  forallb (fun q => fitsc (fst q) (snd q)) (combine (r_chk w) tys) = true ->
  mk_row c k w ps = mkOper c (out_sort (r_out w) ps) k ps.
Proof.
  intros T E F. unfold mk_row. rewrite (noerr_ex ps E), Bool.andb_false_r.
  now rewrite (allok_ok _ ps tys).
Qed.
Lemma nary_ok p tested ps y : (forall t, typed t y -> okp p t = true) -> Forall (fun t => isErr t = false) ps ->
  Forall (fun t => typed t y) ps -> nary_loop p tested ps = Ok None.
Proof.
  intros Y. induction 1 as [|t ps E Es IH]; intros H; [reflexivity|]. inversion H; subst.
  cbn [nary_loop]. rewrite E, (Y t) by assumption. cbn [negb]. rewrite Bool.andb_false_r. auto.
Qed.
Lemma F2_repeat y n : forall ps, Forall2 typed ps (repeat y n) -> Forall (fun t => typed t y) ps /\ length ps = n.
Proof.
  induction n as [|n IH]; intros ps H; inversion H; subst; [split; auto|].
  match goal with X : Forall2 _ _ (repeat y n) |- _ => destruct (IH _ X) as [A <-] end.
  split; [constructor; auto|reflexivity].
Qed.
Lemma getSort_bv w ps : (forall t, In t ps -> t_sort t = bvS w) -> ps <> [] ->
  getSort ps = Ok (option_map t_sort (find (fun x => negb (isConst x)) ps)).
Proof.
  destruct ps as [|a ps]; [congruence|]. intros H _. unfold getSort, numS, sis. rewrite (H a) by (left; auto). reflexivity.
Qed.
Lemma find_sort (f : term -> bool) ps s : Forall (fun t => t_sort t = s) ps ->
  option_map t_sort (find f ps) = None \/ option_map t_sort (find f ps) = Some s.
Proof.
  induction 1 as [|t ps E H IH]; [left; reflexivity|]. cbn [find]. destruct (f t); [right; cbn; now rewrite E|exact IH].
Qed.
Lemma bv_nary_ok c k e ps w n : Forall2 typed ps (repeat (TBV w) n) -> (2 <= n)%nat -> Forall (fun t => isErr t = false) ps ->
  bv_nary c k e ps = mkOper c (bvS w) k ps.
Proof.
  intros H N E. destruct (F2_repeat _ _ _ H) as [A B].
  destruct ps as [|a [|b [|d qs]]]; cbn [length] in B; try lia.
  - cbn [bv_nary]. unfold bv_bin. inversion A; subst. inversion H3; subst. unfold typed, has_ty in *.
    unfold sis. rewrite H2, H4. reflexivity.
  - cbn [bv_nary]. set (ps := a :: b :: d :: qs) in *.
    assert (S : Forall (fun t => t_sort t = bvS w) ps) by exact A.
    rewrite (getSort_bv w) by (try discriminate; intros t T; rewrite Forall_forall in S; auto). cbn [bind].
    rewrite (nary_ok PBv _ ps (TBV w)); auto.
    2:{ intros t T. unfold okp, sis. rewrite T. reflexivity. }
    cbn [bind]. destruct (find_sort (fun x => negb (isConst x)) ps _ S) as [F|F]; rewrite F; cbn [sort_or].
    + inversion S; subst. cbn [hd ps]. now rewrite H2.
    + reflexivity.
Qed.
Lemma seq_nary_ok c k p y ps s n : Forall2 typed ps (repeat y n) -> (forall t, typed t y -> okp p t = true) ->
  (2 <= n)%nat -> Forall (fun t => isErr t = false) ps -> seq_nary c k p s ps = mkOper c s k ps.
Proof.
  intros H Y N E. destruct (F2_repeat _ _ _ H) as [A B].
  destruct ps as [|a [|b qs]]; cbn [length] in B; try lia. cbn [seq_nary].
  now rewrite (nary_ok p true (a :: b :: qs) y).
Qed.
Lemma u64_small z : 0 <= z < maxw -> u64 z = z.
Proof. unfold u64, maxw. intros. rewrite Z.mod_small; [reflexivity|]. unfold two64. lia. Qed.
Lemma width_bv t w : typed t (TBV w) -> width t = Ok w.
Proof. unfold typed, has_ty, width. intros ->. reflexivity. Qed.
Lemma sis_bv t w : typed t (TBV w) -> sis SK_BV t = true.
Proof. unfold typed, has_ty, sis. intros ->. reflexivity. Qed.
Lemma sumw_nn ws : Forall fits ws -> 0 <= sumw ws.
Proof. induction 1; cbn [sumw fold_right]; [lia|]. unfold fits in H. fold (sumw l). lia. Qed.
Lemma concat_ok ws : forall a ps, Forall2 typed ps (map TBV ws) -> Forall (fun t => isErr t = false) ps ->
  Forall fits ws -> 0 <= a -> a + sumw ws < maxw -> concat_loop a ps = Ok (inr (a + sumw ws)).
Proof.
  induction ws as [|w ws IH]; intros a ps H E F A B; inversion H; subst.
  - cbn [concat_loop sumw fold_right]. now rewrite Z.add_0_r.
  - inversion E; inversion F; subst. cbn [concat_loop]. rewrite H2, (sis_bv _ w), (width_bv _ w) by assumption. cbn [negb bind].
    cbn [sumw fold_right] in *. fold (sumw ws) in *. pose proof (sumw_nn ws H9). unfold fits in H8.
    rewrite u64_small by lia. rewrite (IH (a + w) l); auto; try lia. f_equal. f_equal. lia.
Qed.
Lemma toInt_idx c z : toInt c (mkConstInt z) = Ok z.
Proof. change (mkConstInt z) with (ic intorealS z). apply toInt_ic. auto. Qed.
Lemma toULong_small z : 0 <= z < maxw -> toULong z = Ok z.
Proof.
  unfold toULong. intros H.
  destruct (Z.ltb_spec z 0); try lia. destruct (Z.leb_spec two64 z); unfold two64, maxw in *; try lia; reflexivity.
Qed.
Ltac getkind op :=
  let k := eval vm_compute in (getOperKind (L op)) in change (getOperKind (L op)) with k.
Ltac inlist := match goal with H : In _ _ |- _ => cbn [In] in H; repeat (destruct H as [H|H]; [subst|]); try (destruct H) end.
Ltac forall2 := repeat match goal with
  | H : Forall2 typed _ (_ :: _) |- _ => inversion H; subst; clear H
  | H : Forall2 typed _ [] |- _ => inversion H; subst; clear H
  end.
Lemma condT d : condAssert d true = Ok tt.
Proof. destruct d; reflexivity. Qed.
Lemma take_all ps : take_args (length ps) ps = Ok ps.
Proof. induction ps; [reflexivity|]. cbn [length take_args]. now rewrite IHps. Qed.
Lemma args_all c n ps : length ps = n -> args c n ps = Ok ps.
Proof. intros <-. unfold args. rewrite Nat.eqb_refl, condT. cbn [bind]. apply take_all. Qed.
Lemma fargs_all c n m fa ps : length fa = n -> length ps = m -> fargs c n m fa ps = Ok (fa, ps).
Proof. intros <- <-. unfold fargs. rewrite !Nat.eqb_refl, condT. cbn [bind]. rewrite !take_all. reflexivity. Qed.

Definition special : list kind :=
  [NT_REG_LOOP].
Lemma theory_row c ptr k fa ps w : ctor k = Some w -> kin k special = false ->
  theory_oper c ptr k fa ps = (a <- args c (length (r_chk w)) ps ;; mk_row c k w a).
Proof. intros C K. destruct k; try discriminate C; try discriminate K; cbn [theory_oper]; rewrite C; reflexivity. Qed.
Lemma oper_theory x ptr k fa ps w : ctor k = Some w -> oper_kind (with_ops x ptr) k fa ps = theory_oper (x_c x) ptr k fa ps.
Proof. intros C. destruct k; try discriminate C; reflexivity. Qed.
Lemma row_app x ptr k fa ps tys w : ctor k = Some w -> kin k special = false -> Forall2 typed ps tys ->
  length tys = length (r_chk w) -> Forall (fun t => isErr t = false) ps ->
  forallb (fun q => fitsc (fst q) (snd q)) (combine (r_chk w) tys) = true ->
  oper_kind (with_ops x ptr) k fa ps = mkOper (x_c x) (out_sort (r_out w) ps) k ps.
Proof.
  intros C K T N E F. rewrite (oper_theory x ptr k fa ps w C), (theory_row _ _ _ _ _ w C K).
  assert (length ps = length tys) by (clear - T; induction T; cbn; congruence).
  rewrite args_all by congruence. cbn [bind]. now apply row_ok with (tys := tys).
Qed.
Lemma internal_good c s k op ix ps qs r : (forall l, Permutation (c_sort c l) l) -> has_ty s r ->
  getOperKind (L op) = k -> isCommutative k = reordered op -> qs = children op ix ps ->
  good op ix ps r (mkInternal c s k qs).
Proof.
  intros CS A B C ->. unfold mkInternal, good. cbn [t_sort t_kind t_ch]. rewrite C, B.
  split; [assumption|]. split; [reflexivity|]. destruct (reordered op); auto.
Qed.

Ltac chs := unfold children; match goal with |- context[String.eqb ?a ?b] => let v := eval vm_compute in (String.eqb a b) in change (String.eqb a b) with v end; cbn iota; unfold idx; cbn [map app]; rewrite ?app_nil_r; reflexivity.
Ltac start op := rewrite po by (assumption || reflexivity); getkind op.
Ltac close CS O :=
  first [ rewrite mkOper_fp; [|reflexivity|discriminate || (let Z := fresh in intros Z; subst; match goal with T : Forall2 typed [] _ |- _ => inversion T end)|(left; reflexivity) || (right; discriminate)]
        | rewrite mkOper_open; [|apply O; reflexivity|(left; reflexivity) || (right; cbn [length]; lia)|reflexivity] ];
  eexists; split; [reflexivity|]; apply internal_good;
  [exact CS| |vm_compute; reflexivity|vm_compute; reflexivity|chs].
Ltac byrow CS O := lazymatch goal with
  | T : Forall2 typed ?ps ?tys, M : mget (L ?op) _ = None |- _ =>
      start op; erewrite (row_app _ _ _ _ ps tys); [|reflexivity|reflexivity|exact T|reflexivity|assumption|reflexivity];
      cbn [r_out un bin tri out_sort]; close CS O;
      forall2; cbn [nth]; try assumption; cbn [has_ty]; auto
  end.
Ltac byspec := lazymatch goal with
  | M : mget (L ?op) _ = None |- _ => start op; cbn [oper_kind with_ops x_oper x_c theory_oper] end.
Lemma sis_fp t e g : typed t (TFP e g) -> sis SK_FP t = true.
Proof. unfold typed, has_ty, sis. intros [nm ->]. reflexivity. Qed.
Lemma sis_rm t : typed t TRm -> sis SK_ROUNDING_MODE t = true.
Proof. unfold typed, has_ty, sis. intros ->. reflexivity. Qed.
Lemma sis_reg t : typed t TReg -> sis SK_REG t = true.
Proof. unfold typed, has_ty, sis. intros ->. reflexivity. Qed.
Lemma int_par t : typed t TInt -> isIntParam t = true.
Proof. unfold typed, has_ty, isIntParam, sis. intros [ -> | -> ]; reflexivity. Qed.
Lemma real_par t : typed t TReal -> isRealParam t = true.
Proof. unfold typed, has_ty, isRealParam, sis. intros [ -> | -> ]; reflexivity. Qed.
Lemma idx_par n : isIntParam (mkConstInt n) = true.
Proof. reflexivity. Qed.
Lemma fp_eq a b e g : typed a (TFP e g) -> typed b (TFP e g) -> sort_eq (t_sort a) (t_sort b) = Ok true.
Proof.
  unfold typed, has_ty. intros [n ->] [m ->]. unfold sort_eq, fpS, s_is. cbn. now rewrite !Z.eqb_refl.
Qed.
Lemma mkDiv2_ok c k p s l r y : fitsc p y = true -> typed l y -> typed r y -> mkDiv2 c k p s l r = mkOper c s k [l; r].
Proof. intros F A B. unfold mkDiv2. now rewrite (fitsc_ok p y l), (fitsc_ok p y r). Qed.
Lemma mkFpArith_ok c k m a b e g : typed m TRm -> typed a (TFP e g) -> typed b (TFP e g) ->
  existsb isErr [m; a; b] = false -> mkFpArith c k [m; a; b] = mkOper c (t_sort a) k [m; a; b].
Proof.
  intros M A B E. unfold mkFpArith. rewrite E, (sis_rm m), (sis_fp a e g), (sis_fp b e g) by assumption. cbn [negb orb].
  rewrite (fp_eq a b e g) by assumption. reflexivity.
Qed.
Lemma minmax_ok c k a b e g : typed a (TFP e g) -> typed b (TFP e g) -> isErr a = false -> isErr b = false ->
  exists s, has_ty s (TFP e g) /\ mkFpMinMax c k [a; b] = mkOper c s k [a; b].
Proof.
  intros A B E F. unfold mkFpMinMax.
  assert (N : numS a = false) by (destruct A as [n A]; unfold numS, sis; rewrite A; reflexivity).
  unfold getSort. rewrite N. cbn [bind]. cbn [nary_loop]. rewrite E, F. cbn [okp].
  rewrite (sis_fp a e g), (sis_fp b e g) by assumption. cbn [negb]. rewrite Bool.andb_false_r. cbn [bind].
  cbn [find]. destruct (isConst a), (isConst b); cbn [negb option_map sort_or hd]; eexists; (split; [|reflexivity]); assumption.
Qed.

Lemma well_sorted x ptr p op ix ps tys r :
  (forall l, Permutation (c_sort (x_c x) l) l) ->
  rank op ix tys r -> Forall2 typed ps tys -> Forall (fun t => isErr t = false) ps ->
  mget (L op) (p_fun p) = None ->
  (never_folded op = false -> open_args ps) ->
  (c_dbg (x_c x) = true -> op <> "fp.fma"%string) ->
  exists t, parseOper (with_ops x ptr) p (L op) (idx ix) ps = Ok t /\ good op ix ps r t.
Proof.
  intros CS R T E M O D.
  destruct R; try inlist.
  all: try (byrow CS O; fail).
  all: try (match goal with H : fits ?w, T : Forall2 typed _ (repeat (TBV ?w) ?n) |- _ => idtac end;
            byspec; rewrite (bv_nary_ok _ _ _ _ w n) by assumption;
            assert (Lp : length ps = n) by (apply (F2_repeat _ _ _ T)); close CS O; reflexivity).
  all: try (match goal with T : Forall2 typed _ [TBV ?w; TBV ?w] |- _ =>
            byspec; rewrite (bv_nary_ok _ _ _ _ w 2) by (assumption || lia); forall2; close CS O; reflexivity end).
  all: try (match goal with H : (2 <= ?n)%nat, T : Forall2 typed _ (repeat ?y ?n) |- _ =>
            byspec; rewrite (seq_nary_ok _ _ _ y _ _ n) by (assumption || (intros; apply (fitsc_ok _ y); [reflexivity|assumption]));
            assert (Lp : length ps = n) by (apply (F2_repeat _ _ _ T)) end;
            assert (ps <> []) by (intros ->; cbn in Lp; lia);
            (rewrite mkOper_fp by (reflexivity || assumption || (right; lia)) ||
             rewrite mkOper_open by (reflexivity || (apply O; reflexivity) || (right; lia)));
            eexists; split; [reflexivity|]; apply internal_good;
            [exact CS|reflexivity|vm_compute; reflexivity|vm_compute; reflexivity|chs]).
  all: try (match goal with T : Forall2 typed _ [TRm; TFP ?e ?g; TFP ?e ?g] |- _ =>
    byspec; forall2; rewrite (mkFpArith_ok _ _ _ _ _ e g) by (assumption || (apply noerr_ex; assumption)); close CS O; assumption end).
  all: try (match goal with T : Forall2 typed _ [TFP ?e ?g; TFP ?e ?g] |- has_ty _ _ => fail 1 | |- _ => idtac end;
    match goal with T : Forall2 typed _ [TFP ?e ?g; TFP ?e ?g], M : mget (L ?op) _ = None |- _ =>
    byspec; forall2; inversion E as [|? ? E1 E2]; subst; inversion E2; subst; unfold mkFpCmps; cbn [length Nat.eqb Nat.leb]; rewrite condT; cbn [bind];
    first [ unfold mkFpCmp; erewrite (sis_fp _ e g), (sis_fp _ e g) by eassumption; cbn [negb orb]; close CS O; reflexivity
          | match goal with |- context[mkFpMinMax ?c ?k [?a; ?b]] => destruct (minmax_ok c k a b e g) as (s & S1 & S2); try assumption; rewrite S2 end;
            close CS O; assumption ] end).
  - (* div *) byspec. rewrite args_all by (clear - T; forall2; reflexivity). cbn [bind]. forall2. cbn [call2].
    unfold mkDivInt. rewrite (mkDiv2_ok _ _ _ _ _ _ TInt) by (reflexivity || assumption). close CS O. cbn [has_ty]; auto.
  - (* / *) byspec. rewrite args_all by (clear - T; forall2; reflexivity). cbn [bind]. forall2. cbn [call2].
    unfold mkDivReal. rewrite (mkDiv2_ok _ _ _ _ _ _ TReal) by (reflexivity || assumption). close CS O. cbn [has_ty]; auto.
  - (* concat *) byspec. unfold mkBvConcat.
    assert (Lp : length ps = length ws) by (clear - T; remember (map TBV ws) as l; revert ws Heql; induction T; intros [|w ws] E; try discriminate E; [reflexivity|injection E as -> E; cbn; f_equal; eauto]).
    destruct ps as [|a [|b qs]]; cbn [length] in Lp; try lia.
    rewrite (concat_ok ws) by (assumption || lia). cbn [bind]. rewrite Z.add_0_l. close CS O. reflexivity.
  - (* extract *) byspec. rewrite fargs_all by (reflexivity || (clear - T; forall2; reflexivity)). cbn [bind fst snd]. forall2.
    unfold idx. cbn [map app call3]. unfold mkBvExtract. inversion E; subst. rewrite H4. cbn [isErr orb].
    change (isErr (mkConstInt i)) with false. change (isErr (mkConstInt j)) with false. cbn [orb].
    rewrite (sis_bv _ w), !idx_par by assumption. cbn [andb]. rewrite !toInt_idx. cbn [bind]. unfold fits in *.
    rewrite !toULong_small by lia. cbn [bind]. rewrite u64_small by lia.
    rewrite mkOper_open; [|left; apply O; reflexivity|left; reflexivity|reflexivity].
    eexists; split; [reflexivity|]; apply internal_good; [exact CS|reflexivity|vm_compute; reflexivity|vm_compute; reflexivity|chs].
  - (* repeat *) byspec. rewrite fargs_all by (reflexivity || (clear - T; forall2; reflexivity)). cbn [bind fst snd]. forall2.
    unfold idx. cbn [map app call2]. unfold mkBvIndexed.
    rewrite (sis_bv _ w), !idx_par by assumption. cbn [andb]. rewrite (width_bv _ w), !toInt_idx by assumption. cbn [bind]. unfold fits in *.
    rewrite !toULong_small by nia. cbn [bind]. rewrite u64_small by nia. rewrite (Z.mul_comm w n).
    rewrite mkOper_open; [|left; apply O; reflexivity|left; reflexivity|reflexivity].
    eexists; split; [reflexivity|]; apply internal_good; [exact CS|reflexivity|vm_compute; reflexivity|vm_compute; reflexivity|chs].
  - byspec. rewrite fargs_all by (reflexivity || (clear - T; forall2; reflexivity)). cbn [bind fst snd]. forall2.
    unfold idx. cbn [map app call2]. unfold mkBvIndexed.
    rewrite (sis_bv _ w), !idx_par by assumption. cbn [andb]. rewrite (width_bv _ w) by assumption. cbn [bind].
    rewrite mkOper_open; [|left; apply O; reflexivity|left; reflexivity|reflexivity].
    eexists; split; [reflexivity|]; apply internal_good; [exact CS|reflexivity|vm_compute; reflexivity|vm_compute; reflexivity|chs].
  - byspec. rewrite fargs_all by (reflexivity || (clear - T; forall2; reflexivity)). cbn [bind fst snd]. forall2.
    unfold idx. cbn [map app call2]. unfold mkBvIndexed.
    rewrite (sis_bv _ w), !idx_par by assumption. cbn [andb]. rewrite (width_bv _ w) by assumption. cbn [bind].
    rewrite mkOper_open; [|left; apply O; reflexivity|left; reflexivity|reflexivity].
    eexists; split; [reflexivity|]; apply internal_good; [exact CS|reflexivity|vm_compute; reflexivity|vm_compute; reflexivity|chs].
  - (* int2bv *) byspec. rewrite fargs_all by (reflexivity || (clear - T; forall2; reflexivity)). cbn [bind fst snd]. forall2.
    unfold idx. cbn [map app call2]. unfold mkToBv. rewrite (int_par _ H3), idx_par. cbn [andb]. rewrite toInt_idx. cbn [bind].
    unfold fits in *. rewrite toULong_small by lia. cbn [bind].
    rewrite mkOper_open; [|left; apply O; reflexivity|left; reflexivity|reflexivity].
    eexists; split; [reflexivity|]; apply internal_good; [exact CS|reflexivity|vm_compute; reflexivity|vm_compute; reflexivity|chs].
  - (* fma *) byspec. forall2. inversion E as [|? ? E1 E2]; subst. inversion E2 as [|? ? E3 E4]; subst.
    inversion E4 as [|? ? E5 E6]; subst. inversion E6 as [|? ? E7 E8]; subst.
    destruct (c_dbg (x_c x)) eqn:DD; [contradiction (D eq_refl); reflexivity|]. cbn [condAssert bind].
    unfold mkFpFma. rewrite (sis_rm _ H2). cbn [negb]. cbn [nary_loop okp].
    rewrite E3, E5, E7. rewrite !(sis_fp _ e g) by assumption. cbn [negb andb bind].
    repeat (rewrite (fp_eq _ _ e g) by assumption; cbn [bind negb]). close CS O. assumption.
  - byspec. forall2. cbn [mkFpRm]. inversion E as [|? ? E1 E2]; subst. inversion E2 as [|? ? E3 E4]; subst.
    rewrite E1, E3. cbn [orb]. rewrite (sis_fp _ e g) by assumption. close CS O. assumption.
  - byspec. forall2. cbn [mkFpRm]. inversion E as [|? ? E1 E2]; subst. inversion E2 as [|? ? E3 E4]; subst.
    rewrite E1, E3. cbn [orb]. rewrite (sis_fp _ e g) by assumption. close CS O. assumption.
  - byspec. rewrite fargs_all by (reflexivity || (clear - T; forall2; reflexivity)). cbn [bind fst snd]. forall2.
    unfold idx. cbn [map app call3]. unfold mkFpToBv. rewrite !sis_rm by assumption. rewrite (sis_fp _ e g), idx_par by assumption. cbn [andb].
    rewrite toInt_idx. cbn [bind]. unfold fits in *. rewrite toULong_small by lia. cbn [bind]. close CS O. reflexivity.
  - byspec. rewrite fargs_all by (reflexivity || (clear - T; forall2; reflexivity)). cbn [bind fst snd]. forall2.
    unfold idx. cbn [map app call3]. unfold mkFpToBv. rewrite !sis_rm by assumption. rewrite (sis_fp _ e g), idx_par by assumption. cbn [andb].
    rewrite toInt_idx. cbn [bind]. unfold fits in *. rewrite toULong_small by lia. cbn [bind]. close CS O. reflexivity.
  - byspec. forall2. unfold idx. cbn [map]. unfold mkToFp3. inversion E as [|? ? E1 E2]; subst.
    cbn [existsb]. change (isErr (mkConstInt e)) with false. change (isErr (mkConstInt g)) with false. rewrite E1. cbn [orb].
    change (isConst (mkConstInt e)) with true. change (isConst (mkConstInt g)) with true. cbn [negb orb].
    unfold fp_widths. rewrite !toInt_idx. cbn [bind]. unfold fits in *. rewrite !toULong_small by lia. cbn [bind].
    rewrite (sis_bv _ (e + g)) by assumption. close CS O. exists (L "FP"). reflexivity.
  - byspec. forall2. unfold idx. cbn [map]. unfold mkToFp4. inversion E as [|? ? E1 E2]; subst. inversion E2 as [|? ? E3 E4]; subst.
    cbn [existsb]. change (isErr (mkConstInt e)) with false. change (isErr (mkConstInt g)) with false. rewrite E1, E3. cbn [orb].
    change (isConst (mkConstInt e)) with true. change (isConst (mkConstInt g)) with true. rewrite !sis_rm by assumption. cbn [negb orb].
    unfold fp_widths. rewrite !toInt_idx. cbn [bind]. unfold fits in *. rewrite !toULong_small by lia. cbn [bind].
    match goal with |- context[isRealParam ?q] => assert (Q : isRealParam q || sis SK_BV q || sis SK_FP q = true) end.
    { destruct H1 as [[ <- |[]]|[[w ->]|(e' & g' & ->)]].
      - now rewrite real_par by assumption.
      - rewrite (sis_bv _ w) by assumption. now rewrite Bool.orb_true_r.
      - rewrite (sis_fp _ e' g') by assumption. now rewrite Bool.orb_true_r. }
    rewrite Q. close CS O. exists (L "FP"). reflexivity.
  - byspec. rewrite (seq_nary_ok _ _ _ TStr _ _ n) by (assumption || (intros; apply (fitsc_ok _ TStr); [reflexivity|assumption])).
    destruct (F2_repeat _ _ _ T) as [_ Lp].
    rewrite mkOper_open; [|apply O; reflexivity|right; lia|reflexivity].
    eexists; split; [reflexivity|]; apply internal_good; [exact CS|reflexivity|vm_compute; reflexivity|vm_compute; reflexivity|chs].
  - byspec. forall2. unfold mkRegDiff. inversion E as [|? ? E1 E2]; subst. inversion E2 as [|? ? E3 E4]; subst.
    rewrite E1, E3. cbn [orb]. rewrite !sis_reg by assumption. cbn [andb]. close CS O. reflexivity.
  - byspec. forall2. inversion E as [|? ? E1 E2]; subst. cbn [length Nat.eqb idx map]. rewrite !condT. cbn [bind take_args ctor app].
    unfold mk_row. cbn [r_err tri existsb]. rewrite E1. change (isErr (mkConstInt i)) with false. change (isErr (mkConstInt j)) with false.
    cbn [orb andb tri r_err r_chk r_out allok okp]. rewrite sis_reg, !idx_par by assumption. cbn [andb r_out out_sort]. close CS O. reflexivity.
Qed.
