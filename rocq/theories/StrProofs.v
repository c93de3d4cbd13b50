(** Proofs for StrSpec.v. *)
From Coq Require Import QArith.
From Verif Require Import Base KindModel SortModel TermModel BVProofs UtilModel UtilSpec UtilProofs2 PropsUtil SimpModel OpModel OpSpec OpProofs OpProofs2 TraverseModel EvalModel StrSpec.
Open Scope Z_scope.

(** the relations are functions *)
Lemma indexof_fun s t i r r' : IndexOf s t i r -> IndexOf s t i r' -> r = r'.
Proof.
  intros [(p & -> & B & O & M)|(-> & N)] [(p' & -> & B' & O' & M')|(-> & N')]; try reflexivity.
  - f_equal. specialize (M p' O' ltac:(lia)). specialize (M' p O ltac:(lia)). lia.
  - elim N'. split; [lia|]. exists p. split; [lia|exact O].
  - elim N. split; [lia|]. exists p'. split; [lia|exact O'].
Qed.
Lemma first_fun t s a b a' b' : First t s a b -> First t s a' b' -> a = a' /\ b = b'.
Proof.
  intros (E & M) (E' & M'). assert (L : length a = length a').
  { assert (length a <= length a')%nat by (apply M; exists a', b'; now split). assert (length a' <= length a)%nat by (apply M'; exists a, b; now split). lia. }
  rewrite E in E'. clear E M M'. revert a' L E'. induction a as [|x a IH]; intros [|y a'] L E'; try discriminate L.
  - split; [reflexivity|]. cbn in E'. now apply app_inv_head in E'.
  - cbn in E'. injection E' as -> E'. injection L as L. destruct (IH a' L E') as (-> & ->). now split.
Qed.
Lemma first_in t s a b : First t s a b -> Contains t s.
Proof. intros (E & _). exists (length a), a, b. now split. Qed.
Lemma replace_fun t u s r r' : Replace t u s r -> Replace t u s r' -> r = r'.
Proof.
  intros A B. destruct A as [s N|s a b F]; inversion B as [? N'|? a' b' F']; subst; try reflexivity.
  - elim N. exact (first_in _ _ _ _ F').
  - elim N'. exact (first_in _ _ _ _ F).
  - destruct (first_fun _ _ _ _ _ _ F F') as (-> & ->). reflexivity.
Qed.
Lemma replace_all_fun t u s r : ReplaceAll t u s r -> forall r', ReplaceAll t u s r' -> r = r'.
Proof.
  induction 1 as [s N|s a b r F R IH]; intros r' B; inversion B as [? N'|? a' b' r2 F' R']; subst; try reflexivity.
  - elim N. exact (first_in _ _ _ _ F').
  - elim N'. exact (first_in _ _ _ _ F).
  - destruct (first_fun _ _ _ _ _ _ F F') as (-> & ->). now rewrite (IH r2 R').
Qed.
Lemma bool_iff (a b : bool) P : (a = true <-> P) -> (b = true <-> P) -> a = b.
Proof. intros A B. destruct a, b; try reflexivity; [symmetry; apply B, A; reflexivity|apply A, B; reflexivity]. Qed.

Lemma ic_str s : isCStr (const (VS s)) = true. Proof. reflexivity. Qed.
Lemma ic_int z : isCInt (mkConstInt z) = true.
Proof. rewrite mkConstInt_ic. apply isCInt_ic. now right. Qed.
Lemma ti c z : toInt c (mkConstInt z) = Ok z. Proof. rewrite mkConstInt_ic. apply toInt_ic. now right. Qed.
Lemma kB b : mkB b = Ok (const (VB b)). Proof. destruct b; reflexivity. Qed.
Lemma kstr s : proper (VS s) -> mkConstStr (Q s) = Ok (const (VS s)). Proof. intros (P & _). now rewrite mkConstStr_Q. Qed.
Lemma const_known v : isUnknown (const v) = false. Proof. destruct v as [s|z|[|]]; reflexivity. Qed.
Lemma replAll s t u r : t <> [] -> zlen t + 2 <= str_max -> zlen u + 2 <= str_max -> Z.of_nat (length s + length s * length u) + 2 <= str_max -> ReplaceAll t u s r ->
  strReplaceAll (length (Q s)) (Q s) (Q t) (Q u) = Ok (Q r).
Proof.
  intros Hn Ht Hu Hs R. unfold strReplaceAll. rewrite !clean_Q by (assumption || (unfold sfits, zlen; lia)). cbn [bind].
  destruct (repl_loop_ok t u Hn (length (Q s)) s []) as (r' & E & R').
  - unfold Q. cbn [length]. rewrite app_length. cbn. lia.
  - intros n Hl. cbn [length]. nia.
  - cbn [app length] in E. rewrite E. cbn [bind]. now rewrite (replace_all_fun t u s r R r' R').
Qed.
Lemma fold_op c s k vs v : sop k vs v -> Forall proper vs -> proper v -> mkOper c s k (map const vs) = Ok (const v).
Proof.
  intros H F P. enough (E : simp c k (map const vs) = Ok (const v)) by (unfold mkOper; rewrite E; cbn [bind]; now rewrite const_known).
  assert (Fs : forall x, In (VS x) vs -> sfits x) by (intros x Hx; rewrite Forall_forall in F; apply (F _ Hx)).
  destruct H; cbn [map const simp].
  - unfold simp3. cbn [is_eqk]. change (is_eqk NT_STR_SUBSTR) with false. change (is_disk NT_STR_SUBSTR) with false. change (kin NT_STR_SUBSTR (NT_IMPLIES :: leftfold_kinds)) with false.
    cbv iota. rewrite !ic_int, !ti. change (isCStr (T NT_CONST strS (Q s0) [])) with true. cbn [andb bind t_name]. rewrite C14_substr by (try apply Fs; cbn; auto). cbn [bind]. now apply kstr.
  - cbn [simp2]. rewrite ic_int, ti. change (isCStr (T NT_CONST strS (Q s0) [])) with true. cbn [andb bind t_name]. rewrite C14_at by (try apply Fs; cbn; auto). cbn [bind]. now apply kstr.
  - cbn [simp2]. change (isCStr (T NT_CONST strS (Q s0) [])) with true. change (isCStr (T NT_CONST strS (Q t) [])) with true. cbn [andb t_name].
    destruct (strPrefixof_ok s0 t) as (b' & -> & Hb); [apply Fs; cbn; auto|apply Fs; cbn; auto|]. cbn [bind]. rewrite (bool_iff b' b _ Hb H). apply kB.
  - cbn [simp2]. change (isCStr (T NT_CONST strS (Q s0) [])) with true. change (isCStr (T NT_CONST strS (Q t) [])) with true. cbn [andb t_name].
    destruct (strSuffixof_ok s0 t) as (b' & -> & Hb); [apply Fs; cbn; auto|apply Fs; cbn; auto|]. cbn [bind]. rewrite (bool_iff b' b _ Hb H). apply kB.
  - cbn [simp2]. change (isCStr (T NT_CONST strS (Q s0) [])) with true. change (isCStr (T NT_CONST strS (Q t) [])) with true. cbn [andb t_name].
    destruct (strContains_ok s0 t) as (b' & -> & Hb); [apply Fs; cbn; auto|apply Fs; cbn; auto|]. cbn [bind]. rewrite (bool_iff b' b _ Hb H). apply kB.
  - unfold simp3. change (is_eqk NT_STR_INDEXOF) with false. change (is_disk NT_STR_INDEXOF) with false. change (kin NT_STR_INDEXOF (NT_IMPLIES :: leftfold_kinds)) with false.
    cbv iota. rewrite !ic_int, !ti. change (isCStr (T NT_CONST strS (Q s0) [])) with true. change (isCStr (T NT_CONST strS (Q t) [])) with true. cbn [andb bind t_name].
    destruct (strIndexof_ok s0 t i) as (r' & -> & Hr); [apply Fs; cbn; auto|apply Fs; cbn; auto|auto|]. cbn [bind]. now rewrite (indexof_fun _ _ _ _ _ Hr H0).
  - unfold simp3. change (is_eqk NT_STR_REPLACE) with false. change (is_disk NT_STR_REPLACE) with false. change (kin NT_STR_REPLACE (NT_IMPLIES :: leftfold_kinds)) with false.
    cbv iota. change (isCStr (T NT_CONST strS (Q s0) [])) with true. change (isCStr (T NT_CONST strS (Q t) [])) with true. change (isCStr (T NT_CONST strS (Q u) [])) with true. cbn [andb bind t_name].
    destruct (strReplace_ok s0 t u) as (r' & -> & Hr); [apply Fs; cbn; auto|apply Fs; cbn; auto|apply Fs; cbn; auto|]. cbn [bind]. rewrite (replace_fun _ _ _ _ _ Hr H). now apply kstr.
  - unfold simp3. change (is_eqk NT_STR_REPLACE_ALL) with false. change (is_disk NT_STR_REPLACE_ALL) with false. change (kin NT_STR_REPLACE_ALL (NT_IMPLIES :: leftfold_kinds)) with false.
    cbv iota. change (isCStr (T NT_CONST strS (Q s0) [])) with true. change (isCStr (T NT_CONST strS (Q t) [])) with true. change (isCStr (T NT_CONST strS (Q u) [])) with true. cbn [andb bind t_name].
    rewrite (replAll s0 t u r) by (auto; apply Fs; cbn; auto). cbn [bind]. now apply kstr.
  - unfold simp3. change (is_eqk NT_STR_UPDATE) with false. change (is_disk NT_STR_UPDATE) with false. change (kin NT_STR_UPDATE (NT_IMPLIES :: leftfold_kinds)) with false.
    cbv iota. rewrite !ic_int, !ti. change (isCStr (T NT_CONST strS (Q s0) [])) with true. change (isCStr (T NT_CONST strS (Q t) [])) with true. cbn [andb bind t_name].
    rewrite C14_update by (try apply Fs; cbn; auto). cbn [bind]. now apply kstr.
  - unfold simp1. change (kin NT_STR_TO_LOWER float1_kinds) with false. change (kin NT_STR_TO_LOWER nary1_kinds) with false. cbv iota zeta. change (isCStr (T NT_CONST strS (Q s0) [])) with true. cbv iota. cbn [t_name].
    destruct (C14_case_reverse s0) as (-> & _ & _); [apply Fs; cbn; auto|]. cbn [bind]. now apply kstr.
  - unfold simp1. change (kin NT_STR_TO_UPPER float1_kinds) with false. change (kin NT_STR_TO_UPPER nary1_kinds) with false. cbv iota zeta. change (isCStr (T NT_CONST strS (Q s0) [])) with true. cbv iota. cbn [t_name].
    destruct (C14_case_reverse s0) as (_ & -> & _); [apply Fs; cbn; auto|]. cbn [bind]. now apply kstr.
  - unfold simp1. change (kin NT_STR_REV float1_kinds) with false. change (kin NT_STR_REV nary1_kinds) with false. cbv iota zeta. change (isCStr (T NT_CONST strS (Q s0) [])) with true. cbv iota. cbn [t_name].
    destruct (C14_case_reverse s0) as (_ & _ & ->); [apply Fs; cbn; auto|]. cbn [bind]. now apply kstr.
Qed.

(** ** evaluation *)
Definition str_kinds : list kind := [NT_STR_SUBSTR; NT_STR_CHARAT; NT_STR_PREFIXOF; NT_STR_SUFFIXOF; NT_STR_CONTAINS; NT_STR_INDEXOF; NT_STR_REPLACE; NT_STR_REPLACE_ALL;
  NT_STR_UPDATE; NT_STR_TO_LOWER; NT_STR_TO_UPPER; NT_STR_REV].
Section E.
Context (c : cfg) (ptr : list term -> list term) (m : model) (Em : m_isEmpty m = false).
Notation ev := (evaluate c ptr m).
Lemma ev_simple k s n ch : In k str_kinds -> ev (T k s n ch) = evSimple c ev (T k s n ch) k.
Proof. intros H. repeat (destruct H as [ <- | H ]; [cbn [evaluate]; rewrite Em; reflexivity|]). contradiction. Qed.
Lemma const_leaf v : ev (const v) = Ok (false, Some (const v)).
Proof. destruct v as [s|z|[|]]; cbn [const mkConstInt TRUE FALSE evaluate]; rewrite Em; reflexivity. Qed.
Lemma const_const v : isConst (const v) = true. Proof. destruct v as [s|z|[|]]; reflexivity. Qed.
Lemma var_leaf k s n v : In k [NT_VAR; NT_TEMP_VAR; NT_QUANT_VAR; NT_PLACEHOLDER_VAR] -> m_get (T k s n []) m = Ok (const v) ->
  ev (T k s n []) = Ok (true, Some (const v)) /\ isConst (T k s n []) = false.
Proof.
  intros H G. repeat (destruct H as [ <- | H ]; [split; [cbn [evaluate]; rewrite Em; cbn -[m_get]; rewrite G; cbn [bind]; now rewrite const_known|reflexivity]|]). contradiction.
Qed.
Definition gives (t : term) (v : sv) : Prop := ev t = Ok (negb (isConst t), Some (const v)) /\ proper v.
Lemma op_gives k s n ch vs v : Forall2 gives ch vs -> Exists (fun x => isConst x = false) ch -> sop k vs v -> proper v -> gives (T k s n ch) v.
Proof.
  intros F X H P. split; [|exact P].
  assert (Pv : Forall proper vs) by (clear -F; induction F as [|? ? ? ? (_ & ?) F IH]; constructor; assumption).
  pose proof (fold_op c s k vs v H Pv P) as K.
  assert (Hk : In k str_kinds) by (destruct H; cbn; tauto).
  assert (Nk : isConst (T k s n ch) = false) by (clear -Hk; repeat (destruct Hk as [ <- | Hk ]; [reflexivity|]); contradiction).
  rewrite Nk, (ev_simple k s n ch Hk). clear Nk Hk Pv P. cbn [negb].
  assert (One : forall x1 v1, vs = [v1] -> ch = [x1] -> kin k ev1_kinds = true -> evSimple c ev (T k s n ch) k = Ok (true, Some (const v))).
  { intros x1 v1 -> -> K1. inversion F as [|? ? ? ? (E1 & _) _]; subst. inversion X as [? ? Q|? ? Q]; subst; [|inversion Q]. unfold evSimple. rewrite K1. cbn [t_ch t_sort]. rewrite E1, Q. cbn [bind fst snd negb EvalModel.val].
    cbn [map] in K. unfold changed. rewrite K. reflexivity. }
  assert (Two : forall x1 x2 v1 v2, vs = [v1; v2] -> ch = [x1; x2] -> kin k ev1_kinds = false -> kin k ev2_kinds = true -> evSimple c ev (T k s n ch) k = Ok (true, Some (const v))).
  { intros x1 x2 v1 v2 -> -> K1 K2. inversion F as [|? ? ? ? (E1 & _) F1]; subst. inversion F1 as [|? ? ? ? (E2 & _) _]; subst.
    assert (B : negb (isConst x1) || negb (isConst x2) = true) by (inversion X as [? ? Q|? ? Q]; subst; [now rewrite Q|]; inversion Q as [? ? Q'|? ? Q']; subst; [rewrite Q'; now rewrite orb_true_r|inversion Q']).
    unfold evSimple. rewrite K1, K2. cbn [t_ch t_sort]. rewrite E1, E2. cbn [bind fst snd]. rewrite B. cbn [EvalModel.val]. cbn [map] in K. unfold changed. rewrite K. reflexivity. }
  assert (Three : forall x1 x2 x3 v1 v2 v3, vs = [v1; v2; v3] -> ch = [x1; x2; x3] -> kin k ev1_kinds = false -> kin k ev2_kinds = false -> kin k ev3_kinds = true ->
    evSimple c ev (T k s n ch) k = Ok (true, Some (const v))).
  { intros x1 x2 x3 v1 v2 v3 -> -> K1 K2 K3. inversion F as [|? ? ? ? (E1 & _) F1]; subst. inversion F1 as [|? ? ? ? (E2 & _) F2]; subst. inversion F2 as [|? ? ? ? (E3 & _) _]; subst.
    assert (B : negb (isConst x1) || negb (isConst x2) || negb (isConst x3) = true).
    { inversion X as [? ? Q|? ? Q]; subst; [now rewrite Q|]. inversion Q as [? ? Q'|? ? Q']; subst; [rewrite Q'; now rewrite orb_true_r|]. inversion Q' as [? ? Q''|? ? Q'']; subst; [rewrite Q''; now rewrite orb_true_r|inversion Q'']. }
    unfold evSimple. rewrite K1, K2, K3. cbn [t_ch t_sort]. rewrite E1, E2, E3. cbn [bind fst snd]. rewrite B. cbn [EvalModel.val]. cbn [map] in K. unfold changed. rewrite K. reflexivity. }
  clear K X.
  assert (A : (exists v1, vs = [v1]) /\ kin k ev1_kinds = true \/
              (exists v1 v2, vs = [v1; v2]) /\ kin k ev1_kinds = false /\ kin k ev2_kinds = true \/
              (exists v1 v2 v3, vs = [v1; v2; v3]) /\ kin k ev1_kinds = false /\ kin k ev2_kinds = false /\ kin k ev3_kinds = true).
  { clear -H. destruct H;
      first [left; split; [eexists; reflexivity|reflexivity] | right; left; split; [do 2 eexists; reflexivity|split; reflexivity]
            | right; right; split; [do 3 eexists; reflexivity|repeat split; reflexivity]]. }
  clear H. destruct A as [((v1 & E) & K1)|[((v1 & v2 & E) & K1 & K2)|((v1 & v2 & v3 & E) & K1 & K2 & K3)]].
  - assert (Lc : exists x1, ch = [x1]) by (rewrite E in F; clear -F; inversion F as [|? ? ? ? _ F1]; subst; inversion F1; subst; eauto).
    destruct Lc as (x1 & E'). exact (One x1 v1 E E' K1).
  - assert (Lc : exists x1 x2, ch = [x1; x2]) by (rewrite E in F; clear -F; inversion F as [|? ? ? ? _ F1]; subst; inversion F1 as [|? ? ? ? _ F2]; subst; inversion F2; subst; eauto).
    destruct Lc as (x1 & x2 & E'). exact (Two x1 x2 v1 v2 E E' K1 K2).
  - assert (Lc : exists x1 x2 x3, ch = [x1; x2; x3])
      by (rewrite E in F; clear -F; inversion F as [|? ? ? ? _ F1]; subst; inversion F1 as [|? ? ? ? _ F2]; subst; inversion F2 as [|? ? ? ? _ F3]; subst; inversion F3; subst; eauto).
    destruct Lc as (x1 & x2 & x3 & E'). exact (Three x1 x2 x3 v1 v2 v3 E E' K1 K2 K3).
Qed.
Scheme value_ind2 := Induction for value_in Sort Prop with values_ind2 := Induction for values_in Sort Prop.
Lemma value_gives t v : value_in m t v -> gives t v.
Proof.
  intros H. apply (value_ind2 m (fun t v _ => gives t v) (fun ts vs _ => Forall2 gives ts vs)); try exact H.
  - intros k s n v' Hk G P. destruct (var_leaf k s n v' Hk G) as (E & N). split; [now rewrite N|exact P].
  - intros v' P. split; [now rewrite const_const, const_leaf|exact P].
  - intros k s n ch vs v' _ F X Hs P. now apply (op_gives k s n ch vs v').
  - constructor.
  - intros t0 v0 ts vs _ G _ F. now constructor.
Qed.
End E.
(** ** concatenation of constants *)
Lemma cat2 c a b : Forall plainC a -> Forall plainC b -> simp2 c NT_STR_CONCAT (const (VS a)) (const (VS b)) = Ok (const (VS (a ++ b))).
Proof.
  intros Pa Pb. cbn [simp2 const]. change (isCStr (T NT_CONST strS (Q a) [])) with true. change (isCStr (T NT_CONST strS (Q b) [])) with true. cbn [andb t_name]. unfold Q at 1 2.
  replace (last (""""%char :: a ++ [""""%char]) nul) with """"%char.
  2:{ change (""""%char :: a ++ [""""%char]) with ((""""%char :: a) ++ [""""%char]). now rewrite last_app1. }
  change (aeq """" dq) with true. cbn [andb].
  replace (removelast (""""%char :: a ++ [""""%char])) with (""""%char :: a).
  2:{ change (""""%char :: a ++ [""""%char]) with ((""""%char :: a) ++ [""""%char]). now rewrite removelast_last. }
  replace ((""""%char :: a) ++ b ++ [""""%char]) with (Q (a ++ b)) by (unfold Q; cbn; now rewrite app_assoc).
  rewrite mkConstStr_Q; [reflexivity|]. apply Forall_app; auto.
Qed.
Lemma cat_fold c l : forall a, Forall plainC a -> Forall (Forall plainC) l -> fold_simp c NT_STR_CONCAT (const (VS a)) (map (fun s => const (VS s)) l) = Ok (const (VS (a ++ concat l))).
Proof.
  induction l as [|b l IH]; intros a Pa F; cbn [map fold_simp concat]; [now rewrite app_nil_r|]. inversion F as [|? ? Pb F']; subst. rewrite cat2 by assumption. cbn [bind].
  rewrite const_known. rewrite IH by (try (apply Forall_app; auto); auto). now rewrite app_assoc.
Qed.
Lemma cat_ok c s l : (2 <= length l)%nat -> Forall (Forall plainC) l -> mkOper c s NT_STR_CONCAT (map (fun s => const (VS s)) l) = Ok (const (VS (concat l))).
Proof.
  intros Hl F. enough (E : simp c NT_STR_CONCAT (map (fun s => const (VS s)) l) = Ok (const (VS (concat l)))) by (unfold mkOper; rewrite E; cbn [bind]; now rewrite const_known).
  destruct l as [|a [|b [|d [|x l]]]]; cbn [length] in Hl; try lia.
  - inversion F as [|? ? Pa F1]; subst. inversion F1 as [|? ? Pb _]; subst. cbn [map simp concat]. rewrite cat2 by assumption. now rewrite app_nil_r.
  - inversion F as [|? ? Pa F1]; subst. inversion F1 as [|? ? Pb F2]; subst. inversion F2 as [|? ? Pd _]; subst. cbn [map simp concat]. unfold simp3.
    change (is_eqk NT_STR_CONCAT) with false. change (is_disk NT_STR_CONCAT) with false. change (kin NT_STR_CONCAT (NT_IMPLIES :: leftfold_kinds)) with true. cbv iota.
    rewrite cat2 by assumption. cbn [bind]. rewrite cat2 by (try (apply Forall_app; auto); auto). now rewrite app_nil_r, app_assoc.
  - inversion F as [|? ? Pa F1]; subst. cbn [map simp]. unfold simpN. change (kin NT_STR_CONCAT leftfold_kinds) with true.
    exact (cat_fold c (b :: d :: x :: l) a Pa F1).
Qed.
