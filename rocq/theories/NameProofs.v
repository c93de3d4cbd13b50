From Verif Require Import Base KindModel SortModel TermModel LexModel ParseModel DagModel DagProofs ParseProofs BVProofs2 SortProofs NameModel NameSpec.
From Verif Require OpProofs.
From Coq Require Import Lia.
Open Scope Z_scope.

Section P.
Context (hstr : str -> Z) (sstr : nat -> str).
Notation HI := (HInv hstr sstr).

Lemma node_at_inj h i j n : HI h -> node_at h i = Some n -> node_at h j = Some n -> i = j.
Proof.
  unfold node_at. intros H A B. destruct (nth_error h i) as [a|] eqn:Ea; [|discriminate]. destruct (nth_error h j) as [b|] eqn:Eb; [|discriminate].
  cbn in A, B. injection A as A. injection B as B. eapply (hi_inj _ _ h H); eauto. congruence.
Qed.
Lemma node_at_lt h i n : node_at h i = Some n -> (i < length h)%nat.
Proof. unfold node_at. intros A. apply nth_error_Some. destruct (nth_error h i); [discriminate|discriminate A]. Qed.
Lemma node_at_app h t i n : node_at h i = Some n -> node_at (h ++ t) i = Some n.
Proof. intros A. unfold node_at in *. rewrite nth_error_app1; [exact A|]. now apply node_at_lt with n. Qed.
Lemma getNode_ok h i : (i < length h)%nat -> getNode h i = Ok i.
Proof. intros A. unfold getNode. now rewrite (proj2 (Nat.ltb_lt _ _) A). Qed.

Lemma index_scan_ok h c ci : HI h -> nth_error h ci = Some c ->
  forall l i, (forall k e, nth_error l k = Some e -> nth_error h (i + k) = Some e) -> (i <= ci)%nat -> (ci < i + length l)%nat ->
  index_scan (S (length h)) h c ci l i = Ok ci.
Proof.
  intros H C. assert (Lc : (ci < length h)%nat) by (apply nth_error_Some; congruence).
  induction l as [|x l IH]; intros i Hl Hi Hlt; cbn [length] in Hlt; [lia|].
  assert (Hx : nth_error h i = Some x) by (rewrite <- (Nat.add_0_r i); now apply Hl).
  assert (Nx : forall k e, nth_error l k = Some e -> nth_error h (S i + k) = Some e)
    by (intros k e K; replace (S i + k)%nat with (i + S k)%nat by lia; now apply Hl).
  cbn [index_scan]. destruct (Nat.eqb_spec i ci) as [->|Ne].
  - rewrite C in Hx. injection Hx as <-. now rewrite keq_refl, Z.eqb_refl.
  - assert (R : index_scan (S (length h)) h c ci l (S i) = Ok ci) by (apply IH; [exact Nx|lia|lia]).
    destruct (keq _ _ && _); [|exact R].
    destruct (equiv_spec hstr sstr h [] H (S (length h)) i ci [] (S ci)) as (b & v' & E & Hb & _); try lia.
    + intros p q [].
    + rewrite app_nil_r in E. rewrite E. cbn [bind fst]. destruct b; [|exact R]. now destruct (Hb eq_refl).
Qed.
Lemma getIndex_ok h i : HI h -> (i < length h)%nat -> getIndex h i = Ok i.
Proof.
  intros H Hl. unfold getIndex. destruct (nth_error h i) as [c|] eqn:E; [|apply nth_error_None in E; lia].
  apply index_scan_ok; auto; lia.
Qed.

(** a new node *)
Lemma insert_ok h n : HI h -> Forall (fun c => c < length h)%nat (nd_ch n) ->
  exists i h' x, insertNode hstr sstr h n = Ok (i, h') /\ HI h' /\ h' = h ++ x /\ node_at h' i = Some n /\ getIndex h' i = Ok i.
Proof.
  intros H V. destruct (insertNode_spec hstr sstr h n H V) as (i & h' & E & H' & (e & Ee & En) & Hh).
  assert (X : exists x, h' = h ++ x) by (destruct Hh as [-> | [e' ->]]; [exists []; now rewrite app_nil_r|eauto]).
  destruct X as (x & X). exists i, h', x. repeat split; auto.
  - apply H'. - apply H'. - apply H'.
  - unfold node_at. rewrite Ee. cbn. now rewrite En.
  - apply getIndex_ok; [exact H'|]. apply nth_error_Some. congruence.
Qed.

(** ** the invariant *)
Record NInv (l : list ncall) (is : list nat) (t : tabs) : Prop := {
  ni_h : HI (tb_h t);
  ni_len : length is = length l;
  ni_ctr : tb_ctr t = Z.of_nat (length (temps l));
  ni_res : forall k i, nth_error is k = Some i -> exists n, wanted l k = Some n /\ node_at (tb_h t) i = Some n;
  ni_var : forall n, match mget n (tb_var t) with
             | Some i => exists s, first_sort n l = Some s /\ node_at (tb_h t) i = Some (Node s NT_VAR n [])
             | None => first_sort n l = None end;
  ni_vd : NoDup (map fst (tb_var t));
  ni_tmp : forall n i, mget n (tb_tmp t) = Some i -> exists j s, nth_error (temps l) j = Some s /\ n = temp_name (Z.of_nat j) /\
             node_at (tb_h t) i = Some (Node s NT_TEMP_VAR n []);
  ni_tall : forall j, (j < length (temps l))%nat -> mget (temp_name (Z.of_nat j)) (tb_tmp t) <> None;
  ni_td : NoDup (map fst (tb_tmp t)) }.

Lemma temp_inj a b : temp_name a = temp_name b -> a = b.
Proof. unfold temp_name. intros E. apply app_inv_head in E. now apply OpProofs.Idec_inj. Qed.
Lemma first_app n l l' : first_sort n (l ++ l') = match first_sort n l with Some s => Some s | None => first_sort n l' end.
Proof. induction l as [|[s m|s|m] l IH]; cbn; auto. destruct (seq_str m n); auto. Qed.
Lemma temps_app l l' : temps (l ++ l') = temps l ++ temps l'.
Proof. induction l as [|[s m|s|m] l IH]; cbn; auto. now rewrite IH. Qed.
Lemma first_sort_in n l : first_sort n l <> None <-> exists s, In (NVar s n) l.
Proof.
  induction l as [|[s m|s|m] l IH]; cbn [first_sort In].
  - split; [congruence|intros (? & [])].
  - destruct (seq_str m n) eqn:E.
    + apply seq_str_spec in E. subst. split; [intros _; exists s; now left|congruence].
    + rewrite IH. split; intros (s' & A); exists s'; [now right|]. destruct A as [A|A]; [|exact A].
      injection A as -> ->. now rewrite seq_str_refl in E.
  - rewrite IH. split; intros (s' & A); exists s'; [now right|]. now destruct A.
  - rewrite IH. split; intros (s' & A); exists s'; [now right|]. now destruct A.
Qed.
Lemma wanted_app l o k n : wanted l k = Some n -> wanted (l ++ [o]) k = Some n.
Proof.
  unfold wanted. intros A. assert (Hk : (k < length l)%nat) by (apply nth_error_Some; destruct (nth_error l k); [discriminate|discriminate A]).
  rewrite nth_error_app1 by exact Hk. rewrite firstn_app. replace (k - length l)%nat with 0%nat by lia. cbn [firstn]. rewrite app_nil_r.
  destruct (nth_error l k) as [[s m|s|m]|]; auto. rewrite first_app. now destruct (first_sort m l).
Qed.
Lemma wanted_last l o : wanted (l ++ [o]) (length l) = match o with
  | NVar s n => Some (Node (match first_sort n l with Some s' => s' | None => s end) NT_VAR n [])
  | NTemp s => Some (Node s NT_TEMP_VAR (temp_name (Z.of_nat (length (temps l)))) [])
  | NNode n => Some n end.
Proof.
  unfold wanted. rewrite nth_error_app2, Nat.sub_diag by lia. cbn [nth_error]. destruct o as [s n|s|n]; auto.
  - rewrite first_app. destruct (first_sort n l); [reflexivity|]. cbn [first_sort]. now rewrite seq_str_refl.
  - rewrite firstn_app, Nat.sub_diag. cbn [firstn]. now rewrite app_nil_r, firstn_all.
Qed.

Lemma new_res l is t o i h' x : NInv l is t -> h' = tb_h t ++ x ->
  (exists n, wanted (l ++ [o]) (length l) = Some n /\ node_at h' i = Some n) ->
  forall k j, nth_error (is ++ [i]) k = Some j -> exists n, wanted (l ++ [o]) k = Some n /\ node_at h' j = Some n.
Proof.
  intros V X W k j K. destruct (Nat.lt_ge_cases k (length is)) as [A|A].
  - rewrite nth_error_app1 in K by exact A. destruct (ni_res _ _ _ V k j K) as (n & B & C). exists n. split; [now apply wanted_app|].
    rewrite X. now apply node_at_app.
  - rewrite nth_error_app2 in K by exact A. destruct (k - length is)%nat as [|[|m]] eqn:D; cbn in K; try discriminate. injection K as <-.
    replace k with (length l) by (pose proof (ni_len _ _ _ V); lia). exact W.
Qed.
Lemma mget_key {A} n (m : smap A) : mget n m = None -> ~ In n (map fst m).
Proof.
  induction m as [|[k a] m IH]; cbn [mget map fst In]; [tauto|]. destruct (seq_str k n) eqn:E; [discriminate|].
  intros H [->|B]; [now rewrite seq_str_refl in E|]. now apply IH.
Qed.

Lemma call_ok o l is t : NInv l is t -> Z.of_nat (length (temps (l ++ [o]))) < two64 ->
  match o with NNode n => nd_kind n <> NT_VAR /\ nd_kind n <> NT_TEMP_VAR /\ Forall (fun c => c < length (tb_h t))%nat (nd_ch n) | _ => True end ->
  exists i t', do_call hstr sstr o t = Ok (i, t') /\ NInv (l ++ [o]) (is ++ [i]) t'.
Proof.
  intros V Hc Ho. destruct o as [s n|s|n]; cbn [do_call].
  - unfold mkVar. pose proof (ni_var _ _ _ V n) as G. destruct (mget n (tb_var t)) as [i|] eqn:E.
    + destruct G as (s' & F & N). rewrite (getNode_ok _ _ (node_at_lt _ _ _ N)). cbn [bind]. exists i, t. split; [reflexivity|].
      split; try apply V.
      * rewrite !app_length, (ni_len _ _ _ V). reflexivity.
      * rewrite temps_app. cbn [temps]. rewrite app_nil_r. apply V.
      * eapply new_res; [exact V|symmetry; apply app_nil_r|]. rewrite wanted_last, F. eauto.
      * intros m. pose proof (ni_var _ _ _ V m) as G. rewrite first_app. destruct (mget m (tb_var t)) as [j|] eqn:Em.
        -- destruct G as (s2 & -> & A). eauto.
        -- rewrite G. cbn [first_sort]. destruct (seq_str n m) eqn:Q; [|reflexivity]. apply seq_str_spec in Q. congruence.
      * intros m j A. rewrite temps_app. cbn [temps]. rewrite app_nil_r. now apply (ni_tmp _ _ _ V).
      * intros j. rewrite temps_app. cbn [temps]. rewrite app_nil_r. apply (ni_tall _ _ _ V).
    + destruct (insert_ok (tb_h t) (Node s NT_VAR n []) (ni_h _ _ _ V)) as (i & h' & x & E1 & H' & X & N & I1); [constructor|].
      rewrite E1. cbn [bind fst snd]. rewrite I1. cbn [bind fst snd]. eexists i, _. split; [reflexivity|]. split; cbn [tb_h tb_var tb_tmp tb_ctr].
      * exact H'.
      * rewrite !app_length, (ni_len _ _ _ V). reflexivity.
      * rewrite temps_app. cbn [temps]. rewrite app_nil_r. apply V.
      * eapply new_res; [exact V|exact X|]. rewrite wanted_last, G. eauto.
      * intros m. unfold mins. rewrite E. rewrite mget_cons, first_app. destruct (seq_str n m) eqn:Q.
        -- apply seq_str_spec in Q. subst m. rewrite G. cbn [first_sort]. rewrite seq_str_refl. eauto.
        -- pose proof (ni_var _ _ _ V m) as Gm. destruct (mget m (tb_var t)) as [j|].
           ++ destruct Gm as (s2 & -> & A). exists s2. split; [reflexivity|]. rewrite X. now apply node_at_app.
           ++ rewrite Gm. cbn [first_sort]. now rewrite Q.
      * unfold mins. rewrite E. cbn [map fst]. constructor; [now apply mget_key|apply V].
      * intros m j A. rewrite temps_app. cbn [temps]. rewrite app_nil_r. destruct (ni_tmp _ _ _ V m j A) as (j' & s' & B1 & B2 & B3).
        exists j', s'. repeat split; auto. rewrite X. now apply node_at_app.
      * intros j. rewrite temps_app. cbn [temps]. rewrite app_nil_r. apply (ni_tall _ _ _ V).
      * apply V.
  - unfold mkTempVar. rewrite (ni_ctr _ _ _ V). set (n := temp_name (Z.of_nat (length (temps l)))).
    assert (E : mget n (tb_tmp t) = None).
    { destruct (mget n (tb_tmp t)) as [i|] eqn:E; [|reflexivity]. destruct (ni_tmp _ _ _ V n i E) as (j & s' & A & B & _).
      apply temp_inj in B. assert (j < length (temps l))%nat by (apply nth_error_Some; congruence). lia. }
    rewrite E. destruct (insert_ok (tb_h t) (Node s NT_TEMP_VAR n []) (ni_h _ _ _ V)) as (i & h' & x & E1 & H' & X & N & I1); [constructor|].
    rewrite E1. cbn [bind fst snd]. rewrite I1. cbn [bind fst snd]. eexists i, _. split; [reflexivity|].
    assert (Ht : temps (l ++ [NTemp s]) = temps l ++ [s]) by now rewrite temps_app.
    split; cbn [tb_h tb_var tb_tmp tb_ctr].
    + exact H'.
    + rewrite !app_length, (ni_len _ _ _ V). reflexivity.
    + rewrite Ht in *. rewrite app_length in *. cbn [length] in *. unfold u64. rewrite Z.mod_small; [lia|]. unfold two64 in *. lia.
    + eapply new_res; [exact V|exact X|]. rewrite wanted_last. fold n. eauto.
    + intros m. rewrite first_app. pose proof (ni_var _ _ _ V m) as Gm. destruct (mget m (tb_var t)) as [j|].
      * destruct Gm as (s2 & -> & A). exists s2. split; [reflexivity|]. rewrite X. now apply node_at_app.
      * now rewrite Gm.
    + apply V.
    + intros m j. unfold mins. rewrite E, mget_cons. destruct (seq_str n m) eqn:Q.
      * apply seq_str_spec in Q. subst m. intros A. injection A as <-. exists (length (temps l)), s. rewrite Ht. repeat split; auto.
        rewrite nth_error_app2, Nat.sub_diag by lia. reflexivity.
      * intros A. destruct (ni_tmp _ _ _ V m j A) as (j' & s' & B1 & B2 & B3). exists j', s'. rewrite Ht. repeat split; auto.
        -- rewrite nth_error_app1; [exact B1|]. apply nth_error_Some. congruence.
        -- rewrite X. now apply node_at_app.
    + intros j Hj. rewrite Ht, app_length in Hj. cbn [length] in Hj. unfold mins. rewrite E, mget_cons.
      destruct (seq_str n (temp_name (Z.of_nat j))) eqn:Q; [discriminate|]. apply (ni_tall _ _ _ V).
      destruct (Nat.eq_dec j (length (temps l))) as [->|]; [|lia]. unfold n in Q. now rewrite seq_str_refl in Q.
    + unfold mins. rewrite E. cbn [map fst]. constructor; [now apply mget_key|apply V].
  - destruct Ho as (_ & _ & Ho). unfold mkNode. destruct (insert_ok (tb_h t) n (ni_h _ _ _ V) Ho) as (i & h' & x & E1 & H' & X & N & I1).
    rewrite E1. cbn [bind fst snd]. eexists i, _. split; [reflexivity|].
    assert (Ht : temps (l ++ [NNode n]) = temps l) by (rewrite temps_app; apply app_nil_r).
    split; unfold set_h; cbn [tb_h tb_var tb_tmp tb_ctr].
    + exact H'.
    + rewrite !app_length, (ni_len _ _ _ V). reflexivity.
    + rewrite Ht. apply V.
    + eapply new_res; [exact V|exact X|]. rewrite wanted_last. eauto.
    + intros m. rewrite first_app. pose proof (ni_var _ _ _ V m) as Gm. destruct (mget m (tb_var t)) as [j|].
      * destruct Gm as (s2 & -> & A). exists s2. split; [reflexivity|]. rewrite X. now apply node_at_app.
      * now rewrite Gm.
    + apply V.
    + intros m j A. rewrite Ht. destruct (ni_tmp _ _ _ V m j A) as (j' & s' & B1 & B2 & B3). exists j', s'. repeat split; auto.
      rewrite X. now apply node_at_app.
    + rewrite Ht. apply V.
    + apply V.
Qed.

Lemma calls_ok l : forall l0 is0 t, NInv l0 is0 t -> valid_calls hstr sstr l t -> Z.of_nat (length (temps (l0 ++ l))) < two64 ->
  exists is t', calls hstr sstr l t = Ok (is, t') /\ NInv (l0 ++ l) (is0 ++ is) t'.
Proof.
  induction l as [|o l IH]; intros l0 is0 t V Hv Hc; cbn [calls valid_calls] in *.
  - exists [], t. rewrite !app_nil_r. auto.
  - destruct Hv as (Ho & Hv). destruct (call_ok o l0 is0 t V) as (i & t1 & E & V1); [|exact Ho|].
    { rewrite temps_app in *. cbn [temps] in Hc. destruct o; cbn [temps] in *; rewrite ?app_nil_r, ?app_length in *; cbn [length] in *; lia. }
    rewrite E in *. cbn [bind fst snd]. destruct (IH (l0 ++ [o]) (is0 ++ [i]) t1 V1 Hv) as (is & t' & E' & V').
    { now rewrite <- app_assoc. }
    rewrite E'. cbn [bind fst snd]. exists (i :: is), t'. split; [reflexivity|]. now rewrite <- !app_assoc in V'.
Qed.

Lemma start_ok h : HI h -> NInv [] [] (tabs0 h).
Proof.
  intros H. split; cbn; auto; try (now constructor); try discriminate.
  - intros [|k]; discriminate.
  - intros j Hj. lia.
Qed.

(** what the invariant gives *)
Lemma NInv_in_range l is t n i : NInv l is t -> mget n (tb_var t) = Some i \/ mget n (tb_tmp t) = Some i -> (i < length (tb_h t))%nat.
Proof.
  intros V [E|E].
  - pose proof (ni_var _ _ _ V n) as G. rewrite E in G. destruct G as (s & _ & N). now apply node_at_lt in N.
  - destruct (ni_tmp _ _ _ V n i E) as (j & s & _ & _ & N). now apply node_at_lt in N.
Qed.
Lemma mget_in_nd {A} (m : smap A) n a : NoDup (map fst m) -> In (n, a) m -> mget n m = Some a.
Proof.
  induction m as [|[k b] m IH]; intros D H; [destruct H|]. cbn [map fst] in D. inversion D; subst. cbn [mget].
  destruct H as [H|H].
  - injection H as -> ->. now rewrite seq_str_refl.
  - destruct (seq_str k n) eqn:E; [|now apply IH]. apply seq_str_spec in E. subst k. exfalso. apply H2. now apply (in_map fst) in H.
Qed.
Lemma mget_in_l {A} (m : smap A) n a : mget n m = Some a -> In (n, a) m.
Proof.
  induction m as [|[k b] m IH]; cbn [mget]; [discriminate|]. destruct (seq_str k n) eqn:E.
  - intros H. injection H as ->. apply seq_str_spec in E. subst. now left.
  - intros H. right. auto.
Qed.
Lemma mapM_nodes h (m : smap nat) : (forall n i, In (n, i) m -> (i < length h)%nat) -> mapM (fun q => getNode h (snd q)) m = Ok (map snd m).
Proof.
  induction m as [|[k i] m IH]; intros H; [reflexivity|]. cbn [mapM map snd]. rewrite (getNode_ok h i) by (eapply H; left; reflexivity).
  cbn [bind]. rewrite IH; [reflexivity|]. intros; eapply H; right; eauto.
Qed.
Lemma NoDup_app_l {A} (a b : list A) : NoDup a -> NoDup b -> (forall x, In x a -> In x b -> False) -> NoDup (a ++ b).
Proof.
  induction a as [|x a IH]; intros Da Db H; [exact Db|]. inversion Da; subst. cbn. constructor.
  - rewrite in_app_iff. intros [K|K]; [contradiction|]. apply (H x); [now left|exact K].
  - apply IH; auto. intros y Y1 Y2. apply (H y); [now right|exact Y2].
Qed.
Lemma nodup_vals {A} (m : smap A) : NoDup (map fst m) -> (forall a b i, In (a, i) m -> In (b, i) m -> a = b) -> NoDup (map snd m).
Proof.
  induction m as [|[k i] m IH]; intros D H; [constructor|]. cbn [map fst snd] in *. inversion D; subst. constructor.
  - intros K. apply in_map_iff in K. destruct K as ((b & j) & E & K). cbn in E. subst j.
    assert (k = b) by (apply (H k b i); [now left|now right]). subst b. apply H2. now apply (in_map fst) in K.
  - apply IH; [assumption|]. intros a b j A1 B1. apply (H a b j); now right.
Qed.

Definition kind_at (h : heap) (i : nat) := option_map nd_kind (node_at h i).
Lemma NInv_spec l is t : NInv l is t ->
  (forall k i, nth_error is k = Some i -> node_at (tb_h t) i = wanted l k /\ wanted l k <> None) /\
  (forall n, isDeclaredVariable n t = true <-> exists s, In (NVar s n) l) /\
  (forall n, getVariable n t = Ok None <-> first_sort n l = None /\ forall j, (j < length (temps l))%nat -> n <> temp_name (Z.of_nat j)) /\
  (forall n s, first_sort n l = Some s -> exists i, getVariable n t = Ok (Some i) /\ node_at (tb_h t) i = Some (Node s NT_VAR n [])) /\
  (forall j s, nth_error (temps l) j = Some s -> first_sort (temp_name (Z.of_nat j)) l = None ->
     exists i, getVariable (temp_name (Z.of_nat j)) t = Ok (Some i) /\
       node_at (tb_h t) i = Some (Node s NT_TEMP_VAR (temp_name (Z.of_nat j)) [])) /\
  (exists vs us, getDeclaredVariables t = Ok vs /\ getVariables t = Ok us /\ NoDup vs /\ NoDup us /\
     (forall i, In i vs <-> exists n s, first_sort n l = Some s /\ node_at (tb_h t) i = Some (Node s NT_VAR n [])) /\
     (forall i, In i us <-> In i vs \/ exists j s, nth_error (temps l) j = Some s /\
        node_at (tb_h t) i = Some (Node s NT_TEMP_VAR (temp_name (Z.of_nat j)) []))).
Proof.
  intros V. assert (H := ni_h _ _ _ V).
  assert (Rv : forall n i, In (n, i) (tb_var t) -> exists s, first_sort n l = Some s /\ node_at (tb_h t) i = Some (Node s NT_VAR n [])).
  { intros n i A. apply mget_in_nd in A; [|apply V]. pose proof (ni_var _ _ _ V n) as G. now rewrite A in G. }
  assert (Rt : forall n i, In (n, i) (tb_tmp t) -> exists j s, nth_error (temps l) j = Some s /\ n = temp_name (Z.of_nat j) /\ node_at (tb_h t) i = Some (Node s NT_TEMP_VAR n [])).
  { intros n i A. apply mget_in_nd in A; [|apply V]. now apply (ni_tmp _ _ _ V). }
  split; [|split; [|split; [|split; [|split]]]].
  - intros k i K. destruct (ni_res _ _ _ V k i K) as (n & A & B). rewrite A, B. split; congruence.
  - intros n. rewrite <- first_sort_in. unfold isDeclaredVariable. pose proof (ni_var _ _ _ V n) as G.
    destruct (mget n (tb_var t)); [destruct G as (s & -> & _); split; congruence|rewrite G; split; congruence].
  - intros n. unfold getVariable. pose proof (ni_var _ _ _ V n) as G. destruct (mget n (tb_var t)) as [i|] eqn:E.
    + rewrite getNode_ok by (eapply NInv_in_range; eauto). cbn [bind]. destruct G as (s & -> & _). split; [discriminate|]. intros (B & _). discriminate B.
    + destruct (mget n (tb_tmp t)) as [i|] eqn:Et.
      * rewrite getNode_ok by (eapply NInv_in_range; eauto). cbn [bind]. split; [discriminate|]. intros (_ & B).
        destruct (ni_tmp _ _ _ V n i Et) as (j & s & C & D & _). exfalso. apply (B j); [|exact D]. apply nth_error_Some. congruence.
      * split; [|reflexivity]. intros _. split; [exact G|]. intros j Hj ->. now apply (ni_tall _ _ _ V j Hj).
  - intros n s F. unfold getVariable. pose proof (ni_var _ _ _ V n) as G. destruct (mget n (tb_var t)) as [i|] eqn:E; [|congruence].
    rewrite getNode_ok by (eapply NInv_in_range; eauto). cbn [bind]. destruct G as (s' & F' & N). rewrite F in F'. injection F' as <-. eauto.
  - intros j s Hj F. unfold getVariable. pose proof (ni_var _ _ _ V (temp_name (Z.of_nat j))) as G.
    destruct (mget (temp_name (Z.of_nat j)) (tb_var t)) as [i|] eqn:E; [destruct G as (? & G & _); congruence|].
    destruct (mget (temp_name (Z.of_nat j)) (tb_tmp t)) as [i|] eqn:Et.
    + rewrite getNode_ok by (eapply NInv_in_range; eauto). cbn [bind]. destruct (ni_tmp _ _ _ V _ i Et) as (j' & s' & C & D & N).
      apply temp_inj in D. assert (j = j') by lia. subst j'. rewrite Hj in C. injection C as <-. eauto.
    + exfalso. apply (ni_tall _ _ _ V j); [|exact Et]. apply nth_error_Some. congruence.
  - exists (map snd (tb_var t)), (map snd (tb_var t) ++ map snd (tb_tmp t)).
    assert (Mv : mapM (fun q => getNode (tb_h t) (snd q)) (tb_var t) = Ok (map snd (tb_var t))).
    { apply mapM_nodes. intros n i A. destruct (Rv n i A) as (s & _ & N). now apply node_at_lt in N. }
    assert (Mt : mapM (fun q => getNode (tb_h t) (snd q)) (tb_tmp t) = Ok (map snd (tb_tmp t))).
    { apply mapM_nodes. intros n i A. destruct (Rt n i A) as (j & s & _ & _ & N). now apply node_at_lt in N. }
    assert (Iv : forall i, In i (map snd (tb_var t)) <-> exists n s, first_sort n l = Some s /\ node_at (tb_h t) i = Some (Node s NT_VAR n [])).
    { intros i. rewrite in_map_iff. split.
      - intros ((n & j) & E & A). cbn in E. subst j. destruct (Rv n i A) as (s & B & C). eauto.
      - intros (n & s & F & N). pose proof (ni_var _ _ _ V n) as G. destruct (mget n (tb_var t)) as [j|] eqn:E; [|congruence].
        destruct G as (s' & F' & N'). rewrite F in F'. injection F' as <-. exists (n, j). split; [|now apply mget_in_l].
        cbn. eapply node_at_inj; eauto. }
    assert (It : forall i, In i (map snd (tb_tmp t)) <-> exists j s, nth_error (temps l) j = Some s /\ node_at (tb_h t) i = Some (Node s NT_TEMP_VAR (temp_name (Z.of_nat j)) [])).
    { intros i. rewrite in_map_iff. split.
      - intros ((n & i') & E & A). cbn in E. subst i'. destruct (Rt n i A) as (j & s & B & -> & C). eauto.
      - intros (j & s & Hj & N). destruct (mget (temp_name (Z.of_nat j)) (tb_tmp t)) as [i'|] eqn:Et.
        + destruct (ni_tmp _ _ _ V _ i' Et) as (j' & s' & C & D & N'). apply temp_inj in D. assert (j = j') by lia. subst j'.
          rewrite Hj in C. injection C as <-. exists (temp_name (Z.of_nat j), i'). split; [|now apply mget_in_l]. cbn. eapply node_at_inj; eauto.
        + exfalso. apply (ni_tall _ _ _ V j); [|exact Et]. apply nth_error_Some. congruence. }
    assert (Dv : NoDup (map snd (tb_var t))).
    { apply nodup_vals; [apply V|]. intros a b i A B. destruct (Rv a i A) as (s & _ & N). destruct (Rv b i B) as (s' & _ & N'). congruence. }
    assert (Dt : NoDup (map snd (tb_tmp t))).
    { apply nodup_vals; [apply V|]. intros a b i A B. destruct (Rt a i A) as (j & s & _ & _ & N). destruct (Rt b i B) as (j' & s' & _ & _ & N'). congruence. }
    unfold getDeclaredVariables, getVariables. rewrite Mv, Mt. cbn [bind]. repeat split; auto.
    + apply NoDup_app_l; auto. intros i A B. apply Iv in A. apply It in B. destruct A as (n & s & _ & N). destruct B as (j & s' & _ & N'). congruence.
    + apply Iv.
    + apply Iv.
    + intros A. apply in_app_iff in A. rewrite <- It. exact A.
    + intros A. apply in_app_iff. rewrite It. exact A.
Qed.
End P.
