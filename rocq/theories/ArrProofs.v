(** Soundness of the array simplifications for separated indices. *)
From Coq Require Import Permutation.
From Verif Require Import Base KindModel SortModel TermModel DagProofs Sem SemProofs ArrayModel SimpModel OpModel OpSpec ArrSimpModel ArrSpec.
Open Scope Z_scope.

Lemma mkOper_select c s l r : mkOper c s NT_SELECT [l; r] = Ok (T NT_SELECT s (kindToString NT_SELECT) [l; r]).
Proof. reflexivity. Qed.
Lemma mkOper_store c s l r v : mkOper c s NT_STORE [l; r; v] = Ok (T NT_STORE s (kindToString NT_STORE) [l; r; v]).
Proof. reflexivity. Qed.

Section A.
Context (I : interp) (A : array_theory I) (e : env) (is es : sort).
Notation ev := (eval I e).
Notation ok := (arr_ok I A e is es).
Notation S := (arrayS is es).

Lemma ev_store n a i v : ev (T NT_STORE S n [a; i; v]) = sto A (ev a) (ev i) (ev v).
Proof. rewrite eval_app by (discriminate || reflexivity). cbn. rewrite (sto_is _ A). reflexivity. Qed.
Lemma ev_const n v : ev (T NT_CONST_ARRAY S n [v]) = kst A (ev v).
Proof. rewrite eval_app by (discriminate || reflexivity). cbn. rewrite (kst_is _ A). reflexivity. Qed.
Lemma ev_select s n a i : ev (T NT_SELECT s n [a; i]) = coerce s (sel A (ev a) (ev i)).
Proof. rewrite eval_app by (discriminate || reflexivity). cbn. rewrite (sel_is _ A). reflexivity. Qed.

Lemma ok_arr t : ok t -> isarr A (ev t).
Proof.
  induction 1 as [n a i v H IH HV|n v HV|t HK HK' HS HA].
  - rewrite ev_store. now apply sto_arr.
  - rewrite ev_const. apply kst_arr.
  - exact HA.
Qed.
Lemma ok_sort t : ok t -> t_sort t = S. Proof. now destruct 1. Qed.

(** the writes of a chain *)
Lemma scan_ok idx t o : ok t -> (forall x, In x (indices t) -> x <> idx -> ev x <> ev idx) ->
  scan idx t = Ok o ->
  match o with
  | inl v => sel A (ev t) (ev idx) = ev v /\ coerce es (ev v) = ev v
  | inr b => sel A (ev t) (ev idx) = sel A (ev b) (ev idx) /\ t_sort b = S
  end.
Proof.
  intros H. induction H as [n a i v H IH HV|n v HV|t HK HK' HS HA]; intros HI HO.
  - cbn in HO. rewrite ev_store. destruct (teq idx i) eqn:E.
    + apply teq_spec in E. subst i. injection HO as <-. split; [|exact HV]. apply sel_same. now apply ok_arr.
    + rewrite sel_other.
      * apply IH; [|exact HO]. intros x Hx. apply HI. cbn. now right.
      * now apply ok_arr.
      * apply HI; [now left|]. intros ->. now rewrite teq_refl in E.
  - cbn in HO. injection HO as <-. split; reflexivity.
  - destruct t as [k s n ch]. cbn in HK, HS. cbn in HO.
    destruct (keq k NT_STORE) eqn:E; [apply keq_spec in E; congruence|].
    injection HO as <-. split; [reflexivity|exact HS].
Qed.
Lemma scan_total idx t : ok t -> exists o, scan idx t = Ok o.
Proof.
  induction 1 as [n a i v H IH HV|n v HV|t HK HK' HS HA].
  - cbn. destruct (teq idx i); eauto.
  - cbn. eauto.
  - destruct t as [k s n ch]. cbn in *. destruct (keq k NT_STORE) eqn:E; [apply keq_spec in E; congruence|eauto].
Qed.

Theorem rewriteSelect_ok c n a i : ok a -> (forall x, In x (indices a) -> x <> i -> ev x <> ev i) ->
  exists t, rewriteSelect c (T NT_SELECT es n [a; i]) = Ok t /\ ev t = coerce es (sel A (ev a) (ev i)).
Proof.
  intros H HI. unfold rewriteSelect. cbn [isSelect isk t_kind keq].
  change (isSelect (T NT_SELECT es n [a; i])) with true. cbn [negb t_ch].
  destruct (isStore a) eqn:ES; cbn [negb].
  - destruct (scan_total i a H) as [o HO]. rewrite HO. cbn [bind].
    pose proof (scan_ok i a o H HI HO) as HS. destruct o as [v|b].
    + exists v. split; [reflexivity|]. destruct HS as [-> ->]. reflexivity.
    + destruct HS as [E1 E2]. rewrite E2. cbn [elemS arrayS s_ch bind]. rewrite mkOper_select.
      eexists. split; [reflexivity|]. rewrite ev_select. now rewrite E1.
  - eexists. split; [reflexivity|]. now rewrite ev_select.
Qed.

(** ** sequences of writes, newest first *)
Definition puts (b : value) (ws : list (value * value)) : value :=
  fold_right (fun w a => sto A a (fst w) (snd w)) b ws.
Definition evs (ws : list (term * term)) : list (value * value) := map (fun w => (ev (fst w), ev (snd w))) ws.
Lemma puts_arr b ws : isarr A b -> isarr A (puts b ws).
Proof. intros H. induction ws as [|w ws IH]; cbn; [exact H|]. now apply sto_arr. Qed.
Lemma puts_notin b ws i : isarr A b -> ~ In i (map fst ws) -> sel A (puts b ws) i = sel A b i.
Proof.
  intros H. induction ws as [|w ws IH]; cbn; intros N; [reflexivity|].
  rewrite sel_other; [|now apply puts_arr|tauto]. apply IH. tauto.
Qed.
Lemma puts_in b ws i v : isarr A b -> NoDup (map fst ws) -> In (i, v) ws -> sel A (puts b ws) i = v.
Proof.
  intros H. induction ws as [|w ws IH]; cbn; intros N HI; [contradiction|].
  inversion N as [|x l Nx Nl]; subst. destruct HI as [ -> | HI ].
  - cbn. apply sel_same. now apply puts_arr.
  - rewrite sel_other; [now apply IH|now apply puts_arr|].
    intros E. apply Nx. rewrite E. apply (in_map fst _ _ HI).
Qed.
Lemma puts_set b ws ws' : isarr A b -> NoDup (map fst ws) -> NoDup (map fst ws') ->
  (forall w, In w ws <-> In w ws') -> puts b ws = puts b ws'.
Proof.
  intros HB N N' HE. apply (sel_ext _ A); [now apply puts_arr|now apply puts_arr|]. intros i.
  destruct (in_dec (fun x y => match veqb x y as q return veqb x y = q -> _ with true => fun E => left (proj1 (veqb_spec x y) E) | false => fun E => right (fun F => eq_ind true (fun q => if q then True else False) Logic.I false (eq_trans (eq_sym (proj2 (veqb_spec x y) F)) E)) end eq_refl) i (map fst ws)) as [HI|HI].
  - apply in_map_iff in HI. destruct HI as [[j v] [E HI]]. cbn in E. subst j.
    rewrite (puts_in b ws i v HB N HI). symmetry. apply puts_in; [exact HB|exact N'|]. now apply HE.
  - rewrite puts_notin by assumption. symmetry. apply puts_notin; [exact HB|].
    intros HI'. apply HI. apply in_map_iff in HI'. destruct HI' as [w [E HI']]. apply in_map_iff. exists w. split; [exact E|]. now apply HE.
Qed.

(** reading the value at [i] of a list of writes, first match *)
Fixpoint firstw (i : term) (ws : list (term * term)) : option term :=
  match ws with
  | [] => None
  | w :: ws' => if teq (fst w) i then Some (snd w) else firstw i ws'
  end.
Lemma chain_ok t : ok t -> exists b ws, storeChain t = Ok (b, ws) /\ ev t = puts (ev b) (evs ws) /\ map fst ws = indices t /\
  ok b /\ isStore b = false /\ Forall (fun w => coerce es (ev (snd w)) = ev (snd w)) ws.
Proof.
  induction 1 as [n a i v H IH HV|n v HV|t HK HK' HS HA].
  - destruct IH as [b [ws [E1 [E2 [E3 [E4 [E5 E6]]]]]]]. exists b, ((i, v) :: ws).
    split; [cbn; rewrite E1; reflexivity|]. rewrite ev_store, E2. repeat split; auto. cbn. now rewrite E3.
  - exists (T NT_CONST_ARRAY S n [v]), []. repeat split. now constructor. constructor.
  - exists t, []. assert (keq (t_kind t) NT_STORE = false) as E.
    { destruct (keq (t_kind t) NT_STORE) eqn:E; [apply keq_spec in E; congruence|reflexivity]. }
    split; [destruct t as [k s n ch]; cbn in *; now rewrite E|]. split; [reflexivity|].
    split; [destruct t as [k s n ch]; cbn in *; destruct k; try reflexivity; congruence|].
    split; [now constructor|]. split; [exact E|constructor].
Qed.

Lemma sel_puts b ws i : isarr A b -> apart I e (map fst ws) -> In i (map fst ws) ->
  sel A (puts b (evs ws)) (ev i) = match firstw i ws with Some v => ev v | None => sel A b (ev i) end.
Proof.
  intros HB. induction ws as [|w ws IH]; intros HA HI; [contradiction|]. cbn [evs map puts fold_right fst snd firstw].
  fold (evs ws). fold (puts b (evs ws)).
  destruct (teq (fst w) i) eqn:E.
  - apply teq_spec in E. subst i. apply sel_same. now apply puts_arr.
  - assert (fst w <> i) as N by (intros F; subst i; now rewrite teq_refl in E).
    destruct HI as [F|HI]; [congruence|].
    rewrite sel_other; [|now apply puts_arr|].
    + apply IH; [|exact HI]. intros x y Hx Hy. apply HA; now right.
    + apply HA; [now left|now right|exact N].
Qed.

(** merging: an association list with the same first matches *)
Lemma firstw_in i ws : In i (map fst ws) -> exists v, firstw i ws = Some v /\ In (i, v) ws.
Proof.
  induction ws as [|w ws IH]; cbn; [contradiction|]. intros [ <- | HI ].
  - rewrite teq_refl. exists (snd w). split; [reflexivity|left; now destruct w].
  - destruct (teq (fst w) i) eqn:E.
    + apply teq_spec in E. subst i. exists (snd w). split; [reflexivity|left; now destruct w].
    + destruct (IH HI) as [v [E1 E2]]. exists v. auto.
Qed.
Lemma firstw_uniq i v ws : NoDup (map fst ws) -> In (i, v) ws -> firstw i ws = Some v.
Proof.
  induction ws as [|w ws IH]; cbn; intros N HI; [contradiction|]. inversion N as [|x l Nx Nl]; subst.
  destruct HI as [ -> | HI ]; [cbn; now rewrite teq_refl|].
  destruct (teq (fst w) i) eqn:E; [|now apply IH].
  apply teq_spec in E. subst i. exfalso. apply Nx. apply (in_map fst _ _ HI).
Qed.
Lemma lookup_firstw i m v : firstw i m = Some v -> lookup i m = v.
Proof. induction m as [|w m IH]; cbn; [discriminate|]. destruct (teq (fst w) i); [congruence|exact IH]. Qed.

(** [ws'] has each index of [ws] once, with its newest value *)
Definition merged (ws ws' : list (term * term)) : Prop :=
  NoDup (map fst ws') /\ (forall i, In i (map fst ws') <-> In i (map fst ws)) /\ (forall i, firstw i ws' = firstw i ws).
Lemma apart_nodup xs : apart I e xs -> NoDup xs -> NoDup (map ev xs).
Proof.
  intros HA N. induction N as [|x xs Nx N IH]; cbn; constructor.
  - intros HI. apply in_map_iff in HI. destruct HI as [y [E HI]].
    apply (HA y x); [now right|now left|congruence|exact E].
  - apply IH. intros y z Hy Hz. apply HA; now right.
Qed.
Lemma evs_fst ws : map fst (evs ws) = map ev (map fst ws).
Proof. unfold evs. rewrite !map_map. reflexivity. Qed.
Lemma evs_in i v ws : In (i, v) (evs ws) <-> exists x y, In (x, y) ws /\ ev x = i /\ ev y = v.
Proof.
  unfold evs. rewrite in_map_iff. split.
  - intros [[x y] [E H]]. cbn in E. injection E as <- <-. eauto.
  - intros [x [y [H [ <- <- ]]]]. exists (x, y). auto.
Qed.
Lemma merged_puts b ws ws' : isarr A b -> apart I e (map fst ws) -> merged ws ws' -> puts b (evs ws) = puts b (evs ws').
Proof.
  intros HB HA [N [HI HF]]. apply (sel_ext _ A); [now apply puts_arr|now apply puts_arr|]. intros i.
  assert (apart I e (map fst ws')) as HA' by (intros x y Hx Hy; apply HA; now apply HI).
  destruct (in_dec (fun x y => match veqb x y as q return veqb x y = q -> _ with true => fun E => left (proj1 (veqb_spec x y) E) | false => fun E => right (fun F => eq_ind true (fun q => if q then True else False) Logic.I false (eq_trans (eq_sym (proj2 (veqb_spec x y) F)) E)) end eq_refl) i (map ev (map fst ws))) as [H|H].
  - apply in_map_iff in H. destruct H as [x [ <- Hx ]].
    rewrite sel_puts by assumption. rewrite sel_puts by (auto; now apply HI). now rewrite HF.
  - rewrite !puts_notin; auto; rewrite evs_fst; auto.
    intros H'. apply H. apply in_map_iff in H'. destruct H' as [x [ <- Hx ]]. apply in_map. now apply HI.
Qed.

Lemma overwrite_in k v m i : In i (map fst (overwrite k v m)) <-> i = k \/ In i (map fst m).
Proof.
  induction m as [|w m IH]; cbn; [intuition|]. destruct (teq (fst w) k) eqn:E; cbn.
  - apply teq_spec in E. subst k. intuition.
  - rewrite IH. intuition.
Qed.
Lemma overwrite_nodup k v m : NoDup (map fst m) -> NoDup (map fst (overwrite k v m)).
Proof.
  induction m as [|w m IH]; cbn; intros N; [repeat constructor; auto|]. inversion N as [|x l Nx Nl]; subst.
  destruct (teq (fst w) k) eqn:E; cbn.
  - apply teq_spec in E. subst k. now constructor.
  - constructor; [|now apply IH]. rewrite overwrite_in. intros [F|F]; [|contradiction].
    subst k. now rewrite teq_refl in E.
Qed.
Lemma overwrite_first k v m i : firstw i (overwrite k v m) = if teq k i then Some v else firstw i m.
Proof.
  induction m as [|w m IH]; cbn; [reflexivity|]. destruct (teq (fst w) k) eqn:E; cbn.
  - apply teq_spec in E. subst k. destruct (teq (fst w) i); reflexivity.
  - rewrite IH. destruct (teq (fst w) i) eqn:F; [|reflexivity].
    apply teq_spec in F. subst i. destruct (teq k (fst w)) eqn:G; [|reflexivity].
    apply teq_spec in G. subst k. now rewrite teq_refl in E.
Qed.
Lemma merge_ok ws : merged ws (fold_left (fun m w => overwrite (fst w) (snd w) m) (rev ws) []).
Proof.
  rewrite <- (rev_involutive ws) at 1. generalize (rev ws). clear ws. intros ws.
  induction ws as [|w ws IH] using rev_ind.
  - cbn. split; [constructor|]. split; [tauto|reflexivity].
  - rewrite fold_left_app. cbn [fold_left]. rewrite rev_app_distr. cbn [rev app].
    destruct IH as [N [HI HF]]. split; [now apply overwrite_nodup|]. split.
    + intros i. rewrite overwrite_in, HI. cbn. intuition.
    + intros i. rewrite overwrite_first, HF. reflexivity.
Qed.

Lemma map_ext_in_id {X} (f : X -> X) l : (forall x, In x l -> f x = x) -> map f l = l.
Proof. induction l as [|x l IH]; cbn; intros H; [reflexivity|]. rewrite H by now left. f_equal. apply IH. auto. Qed.
Lemma rebuild c m : forall keys b, ok b -> (forall i, In i keys -> coerce es (ev (lookup i m)) = ev (lookup i m)) ->
  exists t, foldM (fun res idx => mkOper c (t_sort res) NT_STORE [res; idx; lookup idx m]) b keys = Ok t /\
    ok t /\ ev t = puts (ev b) (evs (rev (map (fun i => (i, lookup i m)) keys))) /\ indices t = rev keys ++ indices b.
Proof.
  intros keys. induction keys as [|k keys IH]; intros b HB HV.
  - exists b. cbn. auto.
  - cbn [foldM]. rewrite mkOper_store. cbn [bind]. rewrite (ok_sort b HB).
    destruct (IH (T NT_STORE S (kindToString NT_STORE) [b; k; lookup k m])) as [t [E1 [E2 [E3 E4]]]].
    + constructor; auto. apply HV. now left.
    + intros i Hi. apply HV. now right.
    + exists t. split; [exact E1|]. split; [exact E2|]. split.
      * rewrite E3, ev_store. cbn [map rev]. unfold evs. rewrite map_app. unfold puts. rewrite fold_right_app. reflexivity.
      * rewrite E4. cbn. rewrite <- app_assoc. reflexivity.
Qed.

Theorem normalize_ok c ptr t : (forall l, Permutation (ptr l) l) -> ok t -> apart I e (indices t) ->
  exists t', normalizeStoreChain c ptr t = Ok t' /\ ok t' /\ ev t' = ev t /\ (forall x, In x (indices t') <-> In x (indices t)) /\
    (isStore t = true -> NoDup (indices t')).
Proof.
  intros HP HO HA. unfold normalizeStoreChain. destruct (isStore t) eqn:ES; cbn [negb].
  2:{ exists t. repeat split; auto. discriminate. }
  destruct (chain_ok t HO) as [b [ws [E1 [E2 [E3 [E4 [E5 E6]]]]]]]. rewrite E1. cbn [bind fst snd].
  pose proof (merge_ok ws) as HM.
  set (m := fold_left (fun m w => overwrite (fst w) (snd w) m) (rev ws) []) in *. clearbody m.
  destruct HM as [N [HI HF]].
  assert (indices b = []) as IB.
  { destruct b as [k s n ch]. unfold isStore, isk in E5. cbn in E5. destruct k; try reflexivity. discriminate E5. }
  assert (forall i, In i (map fst m) -> coerce es (ev (lookup i m)) = ev (lookup i m)) as HV.
  { intros i Hi. apply HI in Hi. destruct (firstw_in i ws Hi) as [v [F1 F2]].
    rewrite (lookup_firstw i m v) by now rewrite HF. rewrite Forall_forall in E6. apply (E6 _ F2). }
  (* values outside the keys do not matter *)
  destruct (rebuild c m (ptr (map fst m)) b E4) as [t' [F1 [F2 [F3 F4]]]].
  { intros i Hi. apply HV. eapply Permutation_in; [apply HP|exact Hi]. }
  exists t'. split; [exact F1|]. split; [exact F2|].
  assert (Permutation (rev (ptr (map fst m))) (map fst m)) as PM by (rewrite <- Permutation_rev; apply HP).
  split; [|split].
  - rewrite F3, E2.
    assert (apart I e (map fst ws)) as HA' by now rewrite E3.
    rewrite (merged_puts (ev b) ws m); [|now apply ok_arr|exact HA'|now split].
    assert (apart I e (map fst m)) as HAm by (intros x y Hx Hy; apply HA'; now apply HI).
    assert (map (fun i => (i, lookup i m)) (map fst m) = m) as EM.
    { clear -N. rewrite map_map. apply map_ext_in_id. intros [i v] Hi. cbn. f_equal. apply lookup_firstw. now apply firstw_uniq. }
    assert (Permutation (rev (map (fun i => (i, lookup i m)) (ptr (map fst m)))) m) as PM'.
    { rewrite <- Permutation_rev. rewrite <- EM at 2. apply Permutation_map. apply HP. }
    apply puts_set; [now apply ok_arr| | |].
    + rewrite evs_fst. apply apart_nodup.
      * intros x y Hx Hy. apply HAm; (eapply Permutation_in; [apply (Permutation_map fst PM')|]); assumption.
      * eapply Permutation_NoDup; [apply Permutation_sym, (Permutation_map fst PM')|exact N].
    + rewrite evs_fst. apply apart_nodup; assumption.
    + intros w. unfold evs. split; apply Permutation_in; [|apply Permutation_sym]; apply (Permutation_map _ PM').
  - intros x. rewrite F4, IB, app_nil_r, <- E3. rewrite <- HI.
    split; apply Permutation_in; [exact PM|now apply Permutation_sym].
  - intros _. rewrite F4, IB, app_nil_r. eapply Permutation_NoDup; [apply Permutation_sym, PM|exact N].
Qed.
End A.
