(** areArraysEqual answers true only for equal arrays, when different index terms have
    different values. *)
From Coq Require Import Permutation.
From Verif Require Import Base KindModel SortModel TermModel DagProofs SortProofs Sem SemProofs ArrayModel SimpModel OpModel OpSpec ArrSimpModel ArrSpec ArrProofs.
Open Scope Z_scope.

Definition vdec (x y : value) : {x = y} + {x <> y}.
Proof.
  destruct (veqb x y) eqn:E; [left; now apply veqb_spec|right]. intros ->. rewrite veqb_refl in E. discriminate.
Defined.

Lemma ins_perm h w l : Permutation (ins_write h w l) (w :: l).
Proof.
  induction l as [|x l IH]; cbn; [reflexivity|]. destruct (h (fst w) <? h (fst x)); [reflexivity|].
  rewrite IH. apply perm_swap.
Qed.
Lemma sort_perm h l : Permutation (sort_writes h l) l.
Proof.
  unfold sort_writes. assert (forall acc, Permutation (fold_left (fun acc w => ins_write h w acc) l acc) (l ++ acc)) as H.
  { induction l as [|w l IH]; intros acc; cbn; [reflexivity|]. rewrite IH, ins_perm. symmetry. apply Permutation_middle. }
  rewrite H. now rewrite app_nil_r.
Qed.

Section B.
Context (I : interp) (A : array_theory I) (e : env) (is es : sort).
Notation ev := (eval I e).
Notation ok := (arr_ok I A e is es).
Notation S := (arrayS is es).
Notation puts := (puts I A).
Notation evs := (evs I e).

Lemma merged_step acc i v ws ws' : NoDup (map fst acc) ->
  merged ((if existsb (fun w => teq (fst w) i) acc then acc else acc ++ [(i, v)]) ++ ws) ws' -> merged (acc ++ (i, v) :: ws) ws'.
Proof.
  intros _. destruct (existsb (fun w => teq (fst w) i) acc) eqn:E.
  - apply existsb_exists in E. destruct E as [[j u] [Hj E]]. cbn in E. apply teq_spec in E. subst j.
    intros [N [HI HF]]. split; [exact N|]. split.
    + intros x. rewrite HI, !map_app, !in_app_iff. cbn. split; [tauto|]. intros [H|[H|H]]; auto. subst x. left. apply (in_map fst _ _ Hj).
    + intros x. rewrite HF. clear -Hj. induction acc as [|w acc IH]; [destruct Hj|]. cbn.
      destruct (teq (fst w) x) eqn:F; [reflexivity|]. destruct Hj as [ -> | Hj ].
      * cbn in F. clear IH. induction acc as [|w acc IH]; cbn; [now rewrite F|]. destruct (teq (fst w) x); [reflexivity|exact IH].
      * now apply IH.
  - rewrite <- app_assoc. auto.
Qed.
Lemma nodup_step acc i v : NoDup (map fst acc) -> NoDup (map fst (if existsb (fun w : term * term => teq (fst w) i) acc then acc else acc ++ [(i, v)])).
Proof.
  intros N. destruct (existsb _ acc) eqn:E; [exact N|]. rewrite map_app. cbn.
  apply (Permutation_NoDup (Permutation_cons_append (map fst acc) i)). constructor; [|exact N].
  intros H. apply in_map_iff in H. destruct H as [w [F H]]. subst i.
  assert (existsb (fun w0 : term * term => teq (fst w0) (fst w)) acc = true); [|congruence].
  apply existsb_exists. exists w. split; [exact H|apply teq_refl].
Qed.
Lemma merged_refl ws : NoDup (map fst ws) -> merged ws ws.
Proof. intros N. split; [exact N|]. split; [tauto|reflexivity]. Qed.
Lemma walk_ok t : ok t -> exists b ws, storeChain t = Ok (b, ws) /\ isStore b = false /\
  forall acc, NoDup (map fst acc) -> exists ws', chain_walk t acc = Ok (b, ws') /\ merged (acc ++ ws) ws'.
Proof.
  induction 1 as [n a i v H IH HV|n v HV|t HK HK' HS HA].
  - destruct IH as [b [ws [E1 [E2 E3]]]]. exists b, ((i, v) :: ws). split; [cbn; now rewrite E1|]. split; [exact E2|].
    intros acc N. destruct (E3 _ (nodup_step acc i v N)) as [ws' [F1 F2]]. exists ws'. split; [exact F1|].
    now apply merged_step in F2.
  - eexists _, []. split; [reflexivity|]. split; [reflexivity|]. intros acc N. exists acc. split; [reflexivity|].
    rewrite app_nil_r. now apply merged_refl.
  - assert (keq (t_kind t) NT_STORE = false) as E.
    { destruct (keq (t_kind t) NT_STORE) eqn:E; [apply keq_spec in E; congruence|reflexivity]. }
    exists t, []. split; [destruct t; cbn in *; now rewrite E|]. split; [exact E|]. intros acc N. exists acc.
    split; [destruct t; cbn in *; now rewrite E|]. rewrite app_nil_r. now apply merged_refl.
Qed.

(** the array a canonical form stands for *)
Definition den (c : acf) : value := puts (if cf_const c then kst A (ev (cf_base c)) else ev (cf_base c)) (evs (cf_writes c)).
Definition base_ok (c : acf) : Prop := cf_const c = false -> ok (cf_base c) /\ isConstArray (cf_base c) = false /\ indices (cf_base c) = [].
Lemma ok_array t : ok t -> isArray t = true.
Proof. intros H. unfold isArray, sis. rewrite (ok_sort _ _ _ _ _ _ H). reflexivity. Qed.
Lemma perm_puts b ws ws' : isarr A b -> apart I e (map fst ws) -> NoDup (map fst ws) -> Permutation ws ws' -> puts b (evs ws) = puts b (evs ws').
Proof.
  intros HB HA N P.
  assert (NoDup (map fst (evs ws))) as N1 by (rewrite evs_fst; now apply apart_nodup).
  assert (Permutation (evs ws) (evs ws')) as P' by now apply Permutation_map.
  apply puts_set; [exact HB|exact N1|eapply Permutation_NoDup; [apply (Permutation_map fst P')|exact N1]|].
  intros w. split; apply Permutation_in; [exact P'|now apply Permutation_sym].
Qed.
Lemma incl_apart xs ys : (forall x, In x xs -> In x ys) -> apart I e ys -> apart I e xs.
Proof. intros H HA x y Hx Hy. apply HA; auto. Qed.
Lemma filter_fst (f : term * term -> bool) ws x : In x (map fst (filter f ws)) -> In x (map fst ws).
Proof. rewrite !in_map_iff. intros [w [E H]]. apply filter_In in H. exists w. tauto. Qed.
Lemma filter_nodup (f : term * term -> bool) ws : NoDup (map fst ws) -> NoDup (map fst (filter f ws)).
Proof.
  induction ws as [|w ws IH]; cbn; intros N; [constructor|]. inversion N as [|x l Nx Nl]; subst.
  destruct (f w); cbn; [constructor|]; auto. intros H. apply Nx. now apply filter_fst in H.
Qed.
Lemma filter_puts v ws : apart I e (map fst ws) -> NoDup (map fst ws) ->
  puts (kst A (ev v)) (evs (filter (fun w => negb (teq (snd w) v)) ws)) = puts (kst A (ev v)) (evs ws).
Proof.
  intros HA N. set (f := fun w : term * term => negb (teq (snd w) v)).
  assert (isarr A (kst A (ev v))) as HB by apply kst_arr.
  assert (NoDup (map fst (evs ws))) as N1 by (rewrite evs_fst; now apply apart_nodup).
  assert (NoDup (map fst (evs (filter f ws)))) as N2.
  { rewrite evs_fst. apply apart_nodup; [|now apply filter_nodup]. eapply incl_apart; [apply filter_fst|exact HA]. }
  apply (sel_ext _ A); [now apply puts_arr|now apply puts_arr|]. intros i.
  destruct (in_dec vdec i (map fst (evs ws))) as [H|H].
  - apply in_map_iff in H. destruct H as [[j x] [E H]]. cbn in E. subst j.
    rewrite (puts_in I A _ (evs ws) i x HB N1 H).
    pose proof H as H0. apply evs_in in H0. destruct H0 as [p [q [Hp [ <- <- ]]]].
    destruct (f (p, q)) eqn:F.
    + apply puts_in; [exact HB|exact N2|]. apply evs_in. exists p, q. split; [apply filter_In; auto|auto].
    + unfold f in F. cbn in F. apply negb_false_iff, teq_spec in F. subst q.
      rewrite puts_notin; [now rewrite sel_kst|exact HB|].
      rewrite evs_fst. intros HI. apply in_map_iff in HI. destruct HI as [p' [E HI]].
      apply in_map_iff in HI. destruct HI as [[p'' q] [E' HI]]. cbn in E'. subst p''. apply filter_In in HI. destruct HI as [HI G].
      assert (p' = p) as ->.
      { destruct (teq p' p) eqn:T; [now apply teq_spec in T|]. exfalso. apply (HA p' p); [apply (in_map fst _ _ HI)|apply (in_map fst _ _ Hp)| |exact E].
        intros ->. now rewrite teq_refl in T. }
      pose proof (firstw_uniq p q ws N HI). pose proof (firstw_uniq p v ws N Hp). replace q with v in G by congruence. unfold f in G. cbn [snd] in G. now rewrite teq_refl in G.
  - rewrite !puts_notin; auto. rewrite evs_fst in *. intros H'. apply H. apply in_map_iff in H'. destruct H' as [x [ <- H' ]].
    apply in_map. now apply filter_fst in H'.
Qed.
Lemma canon_ok h t : ok t -> apart I e (indices t) -> exists c, canonicalizeArray h t = Ok c /\ NoDup (map fst (cf_writes c)) /\
  (forall x, In x (map fst (cf_writes c)) -> In x (indices t)) /\ ev t = den c /\ base_ok c.
Proof.
  intros HO HA. unfold canonicalizeArray. rewrite (ok_array t HO). cbn [negb].
  destruct (isConstArray t) eqn:EC.
  { inversion HO as [n a i v H HV|n v HV|t' HK HK' HS HA']; subst.
    - discriminate EC.
    - eexists. split; [reflexivity|]. split; [constructor|]. split; [contradiction|]. split; [|discriminate].
      unfold den. cbn [cf_const cf_base cf_writes]. rewrite ev_const with (A := A). reflexivity.
    - apply keq_spec in EC. congruence. }
  destruct (walk_ok t HO) as [b [ws [E1 [E2 E3]]]]. destruct (E3 [] (NoDup_nil _)) as [ws' [F1 F2]]. cbn [app] in F2.
  destruct (chain_ok I A e is es t HO) as [b' [ws0 [G1 [G2 [G3 [G4 [G5 G6]]]]]]].
  rewrite E1 in G1. injection G1 as <- <-. rewrite F1. cbn [bind].
  assert (ev t = puts (ev b) (evs ws')) as EV.
  { rewrite G2. apply merged_puts; [now apply (ok_arr I A e is es)|now rewrite G3|exact F2]. }
  destruct F2 as [N [HI HF]]. rewrite G3 in HI.
  assert (apart I e (map fst ws')) as HA' by (eapply incl_apart; [|exact HA]; intros x; apply HI).
  destruct (isConstArray b) eqn:EB.
  - inversion G4 as [n a i v H HV|n v HV|t' HK HK' HS HA'']; subst.
    + discriminate EB.
    + cbn [child0 t_ch bind]. eexists. split; [reflexivity|]. cbn [cf_writes].
      pose proof (sort_perm h (filter (fun w => negb (teq (snd w) v)) ws')) as P.
      split; [|split; [|split; [|discriminate]]].
      * eapply Permutation_NoDup; [apply Permutation_sym, (Permutation_map fst P)|now apply filter_nodup].
      * intros x Hx. apply HI. apply (filter_fst (fun w => negb (teq (snd w) v))). eapply Permutation_in; [apply (Permutation_map fst P)|exact Hx].
      * unfold den. cbn [cf_const cf_base cf_writes]. rewrite EV, ev_const with (A := A).
        rewrite <- (filter_puts v ws') by assumption. apply perm_puts; [apply kst_arr| | |now apply Permutation_sym].
        -- eapply incl_apart; [|exact HA']. intros x. apply filter_fst.
        -- now apply filter_nodup.
    + apply keq_spec in EB. congruence.
  - eexists. split; [reflexivity|]. cbn [cf_writes]. pose proof (sort_perm h ws') as P.
    split; [|split; [|split]].
    + eapply Permutation_NoDup; [apply Permutation_sym, (Permutation_map fst P)|exact N].
    + intros x Hx. apply HI. eapply Permutation_in; [apply (Permutation_map fst P)|exact Hx].
    + unfold den. cbn [cf_const cf_base cf_writes]. rewrite EV. apply perm_puts; [now apply (ok_arr I A e is es)|exact HA'|exact N|now apply Permutation_sym].
    + intros _. cbn [cf_base]. split; [exact G4|]. split; [exact EB|].
      destruct b as [k s n ch]. unfold isStore, isk in E2. cbn in E2. destruct k; try reflexivity. discriminate E2.
Qed.

Lemma take_perm w l l' : take_write w l = Some l' -> Permutation l (w :: l').
Proof.
  revert l'. induction l as [|x l IH]; cbn; intros l'; [discriminate|].
  destruct (teq (fst w) (fst x) && teq (snd w) (snd x)) eqn:E.
  - intros H. injection H as <-. apply andb_true_iff in E. destruct E as [E F]. apply teq_spec in E, F. destruct w, x. cbn in *. now subst.
  - destruct (take_write w l) as [l''|]; [|discriminate]. intros H. injection H as <-. rewrite (IH l'' eq_refl). apply perm_swap.
Qed.
Lemma match_perm a : forall b, match_writes a b = true -> length a = length b -> Permutation a b.
Proof.
  induction a as [|w a IH]; cbn; intros b H L.
  - destruct b; [constructor|discriminate].
  - destruct (take_write w b) as [b'|] eqn:E; [|discriminate]. apply take_perm in E. rewrite E. constructor.
    apply IH; [exact H|]. apply Permutation_length in E. cbn in E. congruence.
Qed.

Theorem areArraysEqual_ok h f : forall a b, ok a -> ok b -> apart I e (indices a ++ indices b) -> areArraysEqual f h a b = Ok true -> ev a = ev b.
Proof.
  induction f as [|f IH]; intros a b HA HB HI H; [discriminate|]. cbn [areArraysEqual] in H.
  destruct (teq a b) eqn:E; [apply teq_spec in E; now subst|].
  assert (apart I e (indices a)) as HIa by (eapply incl_apart; [|exact HI]; intros x; rewrite in_app_iff; auto).
  assert (apart I e (indices b)) as HIb by (eapply incl_apart; [|exact HI]; intros x; rewrite in_app_iff; auto).
  destruct (canon_ok h a HA HIa) as [ca [C1 [C2 [C3 [C4 C5]]]]]. destruct (canon_ok h b HB HIb) as [cb [D1 [D2 [D3 [D4 D5]]]]].
  rewrite C1, D1 in H. cbn [bind] in H.
  destruct (negb (cf_hash h ca =? cf_hash h cb)); [discriminate|].
  destruct (Bool.eqb (cf_const ca) (cf_const cb)) eqn:EC; cbn [negb] in H.
  2:{ exfalso. destruct (cf_const ca) eqn:F1, (cf_const cb) eqn:F2; try discriminate EC.
      - destruct (D5 F2) as [_ [F _]]. rewrite F, andb_false_r in H. discriminate H.
      - destruct (C5 F1) as [_ [F _]]. rewrite F, andb_false_r in H. discriminate H. }
  apply Bool.eqb_prop in EC.
  assert (forall be : bool, (if negb be then Ok false else if negb (Nat.eqb (length (cf_writes ca)) (length (cf_writes cb))) then Ok false
     else Ok (match_writes (cf_writes ca) (cf_writes cb))) = Ok true -> be = true /\ Permutation (cf_writes ca) (cf_writes cb)) as HW.
  { intros [|]; cbn; [|discriminate]. destruct (Nat.eqb _ _) eqn:EL; cbn; [|discriminate].
    apply Nat.eqb_eq in EL. intros M. split; [reflexivity|]. apply match_perm; [congruence|exact EL]. }
  assert (forall b0 : value, isarr A b0 -> Permutation (cf_writes ca) (cf_writes cb) -> puts b0 (evs (cf_writes ca)) = puts b0 (evs (cf_writes cb))) as HP.
  { intros b0 HB0 P. apply perm_puts; auto. eapply incl_apart; [|exact HIa]. exact C3. }
  rewrite C4, D4. unfold den. rewrite <- EC.
  destruct (cf_const ca) eqn:F.
  - cbn [bind] in H. apply HW in H. destruct H as [T P]. apply teq_spec in T. rewrite <- T. apply HP; [apply kst_arr|exact P].
  - destruct (C5 F) as [G1 [G2 G3]]. destruct (D5 (eq_sym EC)) as [G4 [G5 G6]].
    rewrite (ok_array _ G1), (ok_array _ G4) in H. cbn [andb] in H.
    destruct (areArraysEqual f h (cf_base ca) (cf_base cb)) as [be| | | | |] eqn:R; try discriminate H. cbn [bind] in H.
    apply HW in H. destruct H as [-> P].
    rewrite <- (IH _ _ G1 G4) by (try assumption; rewrite G3, G6; intros x y []).
    apply HP; [now apply (ok_arr I A e is es)|exact P].
Qed.
End B.
