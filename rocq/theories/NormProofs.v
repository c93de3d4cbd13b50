(** Normalisation of comparisons: proofs. *)
From Coq Require Import QArith Qcanon Permutation.
From Verif Require Import Base KindModel SortModel TermModel BVSpec UtilSpec DagProofs SortProofs Sem SemProofs ArrayModel SimpModel OpModel OpSpec
  OpProofs OpProofs2 OpProofs3 OpProofs4 OpProofs5 ShapeProofs TypedSpec TypedProofs ArrSimpModel NormModel NormSpec.
Open Scope Z_scope.

(** ** numeric arguments are left alone *)
Lemma num_leaf t : arith_arg t -> norm_leaf t = true /\ isArithTerm t = true.
Proof.
  intros (W & N). assert (G : forall r, wt r t -> r = CI \/ r = CR -> norm_leaf t = true /\ isArithTerm t = true).
  { clear W. intros r W Hr. assert (A : isArithTerm t = true).
    { induction W as [k s n r A B| | |s z A|k s n r rs ch A B F IH|s n r rs ch A B D F IH|t W IH|w v A B] using wt_ind'; try (destruct Hr; discriminate).
      - cbn [t_kind] in *. unfold isArithTerm, isVar, sis. cbn [t_kind t_sort].
        assert (V : kin k var_kinds = true) by (destruct k; try discriminate A; try reflexivity; cbn in N; tauto).
        rewrite V. destruct Hr as [ -> | -> ]; cbn [vsort] in B; subst s; cbn; rewrite ?orb_true_r; reflexivity.
      - unfold isArithTerm, isConst, numS, sis. cbn [t_kind t_sort]. destruct A as [ -> | -> ]; reflexivity.
      - assert (NS : numS (T k s n ch) = true) by (unfold numS, sis; cbn [t_sort]; destruct Hr as [ -> | -> ]; cbn [rsort] in B; destruct B as [ -> | [ -> | -> ]]; reflexivity).
        unfold isArithTerm. rewrite NS. unfold isVar, isConst. cbn [t_kind] in *.
        destruct A as [|k n' Hk Hn|n' Hn Hn'|r Hr'|k r n' Hk Hr' Hn|k Hk|k r n' Hk Hr' Hn|r Hr'|r Hr'|rs Hr' Hr''|n' r Hn Hr'|k w Hk|k w nn Hk Hnn|k w Hk|w w' Hf|w];
          try (destruct Hr; discriminate); try reflexivity; try (cbn in N; tauto).
        repeat (destruct Hk as [ <- | Hk ]); try contradiction; reflexivity.
      - unfold isArithTerm, numS, sis. cbn [t_kind t_sort]. destruct Hr as [ -> | -> ]; cbn [vsort] in D; subst s; reflexivity.
      - apply IH; auto. }
    split; [|exact A]. unfold norm_leaf. rewrite A. now rewrite !orb_true_r. }
  exact (G CR W (or_intror eq_refl)).
Qed.
Lemma norm_num c ptr t : arith_arg t -> norm c ptr t = Ok (t, false).
Proof. intros H. destruct (num_leaf t H) as [E _]. destruct t as [k s n ch]. cbn [norm]. now rewrite E. Qed.

Section Norm.
Variable c : cfg.
Variable ptr : list term -> list term.
Hypothesis Hc : cfg_ok c.

(** what a normalised Boolean term is *)
Record okb (u : term) : Prop := {
  b_sort : t_sort u = boolS;
  b_val : boolean u;
  b_const : isConst u = true -> u = TRUE \/ u = FALSE;
  b_unk : isErr u = false /\ isUnknown u = false /\ kin (t_kind u) [NT_SELECT; NT_STORE] = false;
  b_norm : normalised u;
  b_eq : isEq u = true -> exists a b, t_ch u = [a; b] /\ t_kind u = NT_EQ /\ fold_dom c NT_EQ [a; b] }.
Lemma ok_true : okb TRUE.
Proof. constructor; try (reflexivity || discriminate); auto; try (now repeat split); [|constructor]. intros I e. now exists true. Qed.
Lemma ok_false : okb FALSE.
Proof. constructor; try (reflexivity || discriminate); auto; try (now repeat split); [|constructor]. intros I e. now exists false. Qed.

Lemma ok_lits us : Forall okb us -> lits_ok us /\ no_real us /\ forall p, In p us -> isArray p = false.
Proof.
  intros F. rewrite Forall_forall in F. split; [|split].
  - intros p Hp C. destruct (b_const p (F p Hp) C) as [ -> | -> ]; constructor.
  - intros p Hp _. unfold sis. now rewrite (b_sort p (F p Hp)).
  - intros p Hp. unfold isArray, sis. now rewrite (b_sort p (F p Hp)).
Qed.
(** arguments of a connective *)
Definition args (k : kind) (n : nat) : Prop :=
  match k with
  | NT_NOT => n = 1%nat
  | NT_AND | NT_OR | NT_XOR | NT_DISTINCT => (2 <= n)%nat
  | NT_IMPLIES => (2 <= n)%nat /\ n <> 3%nat
  | NT_EQ => n = 2%nat
  | NT_ITE => n = 3%nat
  | NT_UF_APPLY => (1 <= n)%nat
  | _ => False
  end.
Lemma args_in k n : args k n -> In k [NT_NOT; NT_AND; NT_OR; NT_XOR; NT_IMPLIES; NT_EQ; NT_DISTINCT; NT_ITE; NT_UF_APPLY].
Proof. destruct k; cbn; intros H; try contradiction; tauto. Qed.
Lemma args_dom k us : args k (length us) -> k <> NT_UF_APPLY -> Forall okb us -> fold_dom c k us.
Proof.
  intros A N F. destruct (ok_lits us F) as (L & NR & NA). split; [exact L|]. destruct k; cbn in A |- *; try contradiction; try congruence; try tauto.
  - split; [lia|]. split; [now left|exact NA].
  - split; [lia|now left].
Qed.
Lemma node_val k n us I e : args k (length us) -> Forall okb us -> exists b, eval I e (T k boolS n us) = VBool b.
Proof.
  intros A F. assert (Nu : us <> []) by (intros ->; destruct k; cbn in A; try contradiction; lia).
  destruct (keq k NT_ITE) eqn:Ki.
  { apply keq_spec in Ki. subst k. cbn in A. destruct us as [|x [|y [|z [|]]]]; try discriminate A. inversion F as [|? ? _ F1]; subst. inversion F1 as [|? ? Y F2]; subst. inversion F2 as [|? ? Z _]; subst.
    destruct (b_val y Y I e) as (b1 & E1). destruct (b_val z Z I e) as (b2 & E2).
    rewrite (eval_op I e NT_ITE boolS n [x; y; z] (if truth (eval I e x) then eval I e y else eval I e z)); [|discriminate|reflexivity|reflexivity].
    destruct (truth (eval I e x)); [exists b1|exists b2]; assumption. }
  destruct (keq k NT_UF_APPLY) eqn:Ku.
  { apply keq_spec in Ku. subst k. rewrite eval_app by (assumption || reflexivity). unfold app_sem. cbn [op_sem]. eexists. reflexivity. }
  assert (Q : quantk k = false) by (destruct k; cbn in A; try contradiction; reflexivity).
  assert (S : exists b, op_sem k (map (eval I e) us) = Some (VBool b)).
  { destruct k; cbn in A; try contradiction; try discriminate; destruct us as [|x [|y us]]; cbn [length] in A; try lia; try (cbn [map op_sem cmpop]; eexists; reflexivity). }
  destruct S as (b & S). exists b. now apply eval_op.
Qed.
Lemma node_ok k n us : args k (length us) -> Forall okb us -> okb (T k boolS n us).
Proof.
  intros A F. constructor.
  - reflexivity.
  - intros I e. now apply node_val.
  - unfold isConst. cbn [t_kind]. destruct k; cbn in A; try contradiction; discriminate.
  - unfold isErr, isUnknown, isk. cbn [t_kind]. destruct k; cbn in A; try contradiction; repeat split.
  - apply F_conn; [now apply (args_in k (length us))|]. eapply Forall_impl; [|exact F]. intros a Ha. split; [now apply b_norm|now apply b_sort].
  - intros E. unfold isEq in E. cbn [t_kind] in E. assert (k = NT_EQ) by (destruct k; cbn in A; try contradiction; try discriminate E; reflexivity). subst k.
    cbn in A. destruct us as [|x [|y [|]]]; try discriminate A. exists x, y. split; [reflexivity|]. split; [reflexivity|]. apply args_dom; [reflexivity|discriminate|assumption].
Qed.
Lemma sort_okb us : Forall okb us -> Forall okb (c_sort c us).
Proof. intros F. eapply Permutation_Forall; [apply Permutation_sym, (ok_sort c Hc)|exact F]. Qed.
Lemma oper_ok k us : args k (length us) -> k <> NT_UF_APPLY -> Forall okb us ->
  exists w, mkOper c boolS k us = Ok w /\ okb w /\ forall I e n, eval I e w = eval I e (T k boolS n us).
Proof.
  intros A N F. destruct (mkOper_sound c boolS k us Hc (args_dom k us A N F)) as (w & E & V). exists w. split; [exact E|].
  assert (Nu : us <> []) by (intros ->; destruct k; cbn in A; try contradiction; lia).
  assert (Q : quantk k = false) by (destruct k; cbn in A; try contradiction; reflexivity).
  split.
  2:{ intros I e n. rewrite V. rewrite !eval_app by assumption. unfold app_sem. destruct (op_sem k (map (eval I e) us)) eqn:O; [reflexivity|exfalso].
      destruct k; cbn in A; try contradiction; try congruence; destruct us as [|x [|y us]]; cbn [length] in A; try lia; try discriminate O.
      - injection A as A. destruct us as [|? [|]]; try discriminate A. discriminate O. }
  destruct (keq k NT_NOT) eqn:Kn.
  { apply keq_spec in Kn. subst k. cbn in A. destruct us as [|x [|]]; try discriminate A. destruct (mkOper_not_shape c _ _ w E) as [ -> | [ -> | -> ]]; [exact ok_true|exact ok_false|]. now apply node_ok. }
  destruct (keq k NT_ITE) eqn:Ki.
  { apply keq_spec in Ki. subst k. cbn in A. destruct us as [|x [|y [|z [|]]]]; try discriminate A. inversion F as [|? ? X F1]; subst. inversion F1 as [|? ? Y F2]; subst. inversion F2 as [|? ? Z _]; subst.
    unfold mkOper in E. cbn [simp] in E. unfold simp3 in E.
    change (is_eqk NT_ITE) with false in E. change (is_disk NT_ITE) with false in E. change (kin NT_ITE (NT_IMPLIES :: leftfold_kinds)) with false in E. cbv iota in E.
    destruct (isTrue x); [cbn [bind] in E; injection E as <-; destruct (b_unk y Y) as (_ & -> & _); exact Y|].
    destruct (isFalse x); [cbn [bind] in E; injection E as <-; destruct (b_unk z Z) as (_ & -> & _); exact Z|].
    cbn in E. injection E as <-. now apply node_ok. }
  assert (SH : w = TRUE \/ w = FALSE \/ w = mkInternal c boolS k us).
  { apply (mkOper_shape c boolS k us w); [destruct k; cbn in A; try contradiction; try discriminate; try congruence; lia| | |exact E].
    - destruct k; cbn in A; try contradiction; try discriminate; try congruence; cbn; tauto.
    - right. destruct k; cbn in A; try contradiction; try discriminate; try congruence; reflexivity. }
  destruct SH as [ -> | [ -> | -> ]]; [exact ok_true|exact ok_false|]. unfold mkInternal. apply node_ok.
  - destruct (isCommutative k); [|exact A]. now rewrite (Permutation_length (ok_sort c Hc us)).
  - destruct (isCommutative k); [now apply sort_okb|exact F].
Qed.
(** the equality is folded once more *)
Definition finish (us : list term) (w : term) (ch : bool) : res (term * bool) :=
  if isEq w then
    s <- (match t_ch w with
          | [a; b] => simp c (t_kind w) [a; b]
          | _ :: _ :: _ :: _ => simp c (t_kind w) us
          | _ => Ok UNKNOWN
          end) ;;
    Ok (if isUnknown s then (w, ch) else (s, true))
  else Ok (w, ch).
Lemma finish_ok us w ch : okb w -> exists u b, finish us w ch = Ok (u, b) /\ okb u /\ (forall I e, eval I e u = eval I e w) /\ (b = false -> u = w /\ ch = false).
Proof.
  intros W. unfold finish. destruct (isEq w) eqn:E; [|exists w, ch; split; [reflexivity|]; split; [exact W|]; split; [reflexivity|]; intros H0; split; [reflexivity|exact H0]].
  destruct (b_eq w W E) as (a & b & H & K & D). rewrite H, K. destruct (fold_sound c NT_EQ [a; b] Hc D) as (s & Es & Ds). rewrite Es. cbn [bind].
  destruct (isUnknown s) eqn:U; [exists w, ch; split; [reflexivity|]; split; [exact W|]; split; [reflexivity|]; intros H0; split; [reflexivity|exact H0]|]. destruct Ds as [Ds|[_ Ds]]; [discriminate Ds|].
  exists s, true. split; [reflexivity|]. assert (S3 : cst3 s) by (apply (simp2_shape c NT_EQ a b s); [cbn; tauto|exact Es]).
  assert (Os : okb s) by (destruct S3 as [ -> | [ -> | -> ]]; [exact ok_true|exact ok_false|discriminate U]).
  split; [exact Os|]. split; [|discriminate]. intros I e. destruct w as [k s0 n l]. cbn [t_ch t_kind] in H, K. subst. symmetry.
  apply eval_op; [discriminate|reflexivity|apply Ds].
Qed.
Lemma other_ok k n ch vs : args k (length ch) -> length vs = length ch -> Forall okb (map fst vs) -> (existsb snd vs = false -> map fst vs = ch) ->
  (forall I e, map (eval I e) (map fst vs) = map (eval I e) ch) ->
  exists u b, normOther c ptr (T k boolS n ch) vs = Ok (u, b) /\ okb u /\ (b = false -> u = T k boolS n ch) /\ forall I e, eval I e u = eval I e (T k boolS n ch).
Proof.
  intros A Lv F Same V. unfold normOther. cbn [t_kind t_sort t_name].
  assert (L' : length (map fst vs) = length ch) by now rewrite map_length.
  assert (A' : args k (length (map fst vs))) by now rewrite L'.
  assert (Nc : ch <> []) by (intros ->; destruct k; cbn in A; try contradiction; lia).
  assert (Nu : map fst vs <> []) by (intros X; rewrite X in L'; destruct ch; [contradiction|discriminate L']).
  assert (Q : quantk k = false) by (destruct k; cbn in A; try contradiction; reflexivity).
  assert (VT : forall I e m, eval I e (T k boolS m (map fst vs)) = eval I e (T k boolS n ch) \/ k = NT_UF_APPLY).
  { intros I e m. destruct (keq k NT_UF_APPLY) eqn:Ku; [right; now apply keq_spec|left]. rewrite !eval_app by assumption. unfold app_sem. rewrite (V I e).
    destruct (op_sem k (map (eval I e) ch)) eqn:O; [reflexivity|exfalso].
    destruct k; cbn in A; try contradiction; try discriminate; destruct ch as [|x [|y l]]; cbn [length] in A; try lia; try discriminate O.
    - injection A as A. destruct l as [|? [|]]; try discriminate A. discriminate O. }
  assert (B : exists u, (if existsb snd vs then if kin k [NT_UF_APPLY; NT_FUNC_APPLY; NT_FUNC_REC_APPLY] || isArray (T k boolS n ch) then Ok (T k boolS n (map fst vs)) else mkOper c boolS k (map fst vs) else Ok (T k boolS n ch)) = Ok u /\
    okb u /\ (forall I e, eval I e u = eval I e (T k boolS n ch)) /\ (existsb snd vs = false -> u = T k boolS n ch)).
  { destruct (existsb snd vs) eqn:X.
    - destruct (keq k NT_UF_APPLY) eqn:Ku.
      + apply keq_spec in Ku. subst k. eexists. split; [reflexivity|]. split; [now apply node_ok|]. split; [|discriminate].
        intros I e. rewrite !eval_app by (assumption || reflexivity). now rewrite (V I e).
      + assert (Z : kin k [NT_UF_APPLY; NT_FUNC_APPLY; NT_FUNC_REC_APPLY] || isArray (T k boolS n ch) = false) by (destruct k; cbn in A; try contradiction; try discriminate; reflexivity).
        rewrite Z. destruct (oper_ok k (map fst vs) A') as (w & E & W & VW); [intros ->; discriminate|exact F|]. exists w. split; [exact E|]. split; [exact W|]. split; [|discriminate].
        intros I e. rewrite (VW I e n). destruct (VT I e n) as [VT'|VT']; [exact VT'|]. subst k. discriminate.
    - eexists. split; [reflexivity|]. rewrite <- (Same eq_refl). split; [now apply node_ok|]. split; reflexivity. }
  destruct B as (u & Eu & Ou & Vu & Su). change (isArray (T k boolS n ch)) with (isArray (T k boolS n ch)) in Eu. rewrite Eu. cbn [bind].
  destruct (b_unk u Ou) as (_ & _ & Ks). rewrite Ks. cbn [bind]. destruct (finish_ok (map fst vs) u (existsb snd vs) Ou) as (x & b & Ef & Ox & Vx & Sx).
  unfold finish in Ef. rewrite Ef. exists x, b. split; [reflexivity|]. split; [exact Ox|]. split.
  - intros ->. destruct (Sx eq_refl) as [ -> Z ]. now apply Su.
  - intros I e. now rewrite Vx.
Qed.
End Norm.
