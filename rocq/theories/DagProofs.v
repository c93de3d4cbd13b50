(** Proofs about the node manager. *)
From Coq Require Import ZifyBool ZifyNat.
From Verif Require Import Base BVProofs2 KindModel SortModel SortProofs DagModel.

Lemma kind_ix_inj a b : kind_ix a = kind_ix b -> a = b.
Proof.
  assert (H : forall k, nth_error all_kinds (N.to_nat (kind_ix k)) = Some k) by (intros []; reflexivity).
  intros E. assert (Ha := H a). rewrite E, H in Ha. congruence.
Qed.
Lemma keq_spec a b : keq a b = true <-> a = b.
Proof. unfold keq. rewrite N.eqb_eq. split; [apply kind_ix_inj|congruence]. Qed.
Lemma keq_refl a : keq a a = true.
Proof. now apply keq_spec. Qed.

Section H.
Variables (hstr : str -> Z) (sstr : nat -> str).

(** invariant: children are older, hashes are those of the record, records are unique *)
Record HInv (h : heap) : Prop := {
  hi_old : forall i e, nth_error h i = Some e -> Forall (fun c => c < i)%nat (nd_ch (e_node e));
  hi_hash : forall i e, nth_error h i = Some e -> mkEntry hstr sstr h (e_node e) = Ok e;
  hi_inj : forall i j a b, nth_error h i = Some a -> nth_error h j = Some b ->
             e_node a = e_node b -> i = j }.

Lemma HInv_nil : HInv [].
Proof. split; intros [|?]; cbn; try discriminate; intros; discriminate. Qed.

Definition valid_node (h : heap) (n : node) : Prop := Forall (fun c => c < length h)%nat (nd_ch n).

Lemma child_hash_app h t i : (i < length h)%nat -> child_hash (h ++ t) i = child_hash h i.
Proof. intros Hi. unfold child_hash. now rewrite nth_error_app1. Qed.
Lemma mapM_child_app h t l : Forall (fun c => c < length h)%nat l ->
  mapM (child_hash (h ++ t)) l = mapM (child_hash h) l.
Proof.
  induction 1 as [|c l Hc _ IH]; cbn; [reflexivity|]. now rewrite child_hash_app, IH.
Qed.
Lemma mkEntry_app h t n : valid_node h n -> mkEntry hstr sstr (h ++ t) n = mkEntry hstr sstr h n.
Proof. intros H. unfold mkEntry. now rewrite mapM_child_app. Qed.
Lemma mapM_child_total h l : Forall (fun c => c < length h)%nat l ->
  exists hs, mapM (child_hash h) l = Ok hs.
Proof.
  induction 1 as [|c l Hc _ [hs IH]]; cbn; [eauto|].
  unfold child_hash at 1. destruct (nth_error h c) eqn:E; [|apply nth_error_None in E; lia].
  cbn. rewrite IH. cbn. eauto.
Qed.
Lemma mkEntry_total h n : valid_node h n -> exists e, mkEntry hstr sstr h n = Ok e /\ e_node e = n.
Proof.
  intros H. unfold mkEntry. destruct (mapM_child_total h _ H) as [hs ->]. cbn. eauto.
Qed.
Lemma mkEntry_node h n e : mkEntry hstr sstr h n = Ok e -> e_node e = n.
Proof.
  unfold mkEntry. destruct (mapM _ _); cbn; try discriminate. intros H. injection H as <-. reflexivity.
Qed.

(** children comparison, the inner loop of [equiv] *)
Definition equivs (fuel : nat) (h : heap) : list nat -> list nat -> visited_t -> res (bool * visited_t) :=
  fix loop (xs ys : list nat) (v : visited_t) : res (bool * visited_t) :=
  match xs, ys with
  | x :: xs', y :: ys' =>
      r <- equiv fuel h v x y ;;
      if fst r then loop xs' ys' (snd r) else Ok (false, snd r)
  | _, _ => Ok (true, v)
  end.
Lemma equiv_S fuel h v i j : equiv (S fuel) h v i j =
    if Nat.eqb i j then Ok (true, v)
    else match nth_error h i, nth_error h j with
    | Some a, Some b =>
        let na := e_node a in let nb := e_node b in
        if negb (keq (nd_kind na) (nd_kind nb)) || negb (Nat.eqb (length (nd_ch na)) (length (nd_ch nb)))
           || negb (Nat.eqb (nd_sort na) (nd_sort nb)) then Ok (false, v)
        else if negb (seq_str (nd_name na) (nd_name nb)) then Ok (false, v)
        else if (match e_chash a with [] => false | _ => true end)
                && (match e_chash b with [] => false | _ => true end)
                && negb (seq_str (e_chash a) (e_chash b)) then Ok (false, v)
        else if in_visited v i j then Ok (true, v)
        else equivs fuel h (nd_ch na) (nd_ch nb) ((i, j) :: v)
    | _, _ => UB
    end.
Proof. reflexivity. Qed.

(** no pair with first component below [n] has been visited *)
Definition Good (n : nat) (v : visited_t) : Prop := forall a b, In (a, b) v -> (n <= a)%nat.
Lemma Good_not n v i j : Good n v -> (i < n)%nat -> in_visited v i j = false.
Proof.
  intros HG Hi. unfold in_visited. destruct (existsb _ v) eqn:E; [|reflexivity].
  apply existsb_exists in E. destruct E as ([a b] & Hin & Hab). apply HG in Hin.
  cbn in Hab. apply andb_true_iff in Hab. destruct Hab as [Ha _]. apply Nat.eqb_eq in Ha. lia.
Qed.

Lemma node_eq a b : nd_sort a = nd_sort b -> nd_kind a = nd_kind b -> nd_name a = nd_name b ->
  nd_ch a = nd_ch b -> a = b.
Proof. destruct a, b. cbn. congruence. Qed.

(** The table: an invariant prefix [h] and possibly the candidate behind it. *)
Section E.
Variables (h t : heap).
Hypothesis HI : HInv h.

Lemma equivs_spec fuel (xs ys : list nat) : forall n v,
  (forall i j v, (i < n)%nat -> (j < length h)%nat -> Good n v -> (i < fuel)%nat ->
     exists b v', equiv fuel (h ++ t) v i j = Ok (b, v') /\ (b = true -> i = j /\ v' = v) /\ (i = j -> b = true)) ->
  length xs = length ys -> Forall (fun c => c < n)%nat xs -> (n <= fuel)%nat ->
  Forall (fun c => c < length h)%nat ys -> Good n v ->
  exists b v', equivs fuel (h ++ t) xs ys v = Ok (b, v') /\ (b = true <-> xs = ys).
Proof.
  revert ys. induction xs as [|x xs IH]; intros [|y ys] n v IHe Hl Hx Hn Hy HG; cbn in Hl; try discriminate.
  - exists true, v. split; [reflexivity|]. tauto.
  - inversion Hx as [|? ? Hx1 Hx2]; subst. inversion Hy as [|? ? Hy1 Hy2]; subst.
    destruct (IHe x y v) as (b & v' & E & Hb & Hb'); try assumption; [lia|].
    cbn [equivs]. rewrite E. cbn [bind fst snd]. destruct b.
    + destruct (Hb eq_refl) as [-> ->].
      destruct (IH ys n v IHe) as (b & v' & E' & Hb2); try assumption; [lia|].
      exists b, v'. split; [assumption|]. rewrite Hb2. split; congruence.
    + exists false, v'. split; [reflexivity|]. split; [discriminate|].
      intros H. injection H as -> ->. rewrite (Hb' eq_refl). reflexivity.
Qed.

Lemma in_h i : (i < length h)%nat -> exists e, nth_error (h ++ t) i = Some e /\ nth_error h i = Some e.
Proof.
  intros Hi. rewrite nth_error_app1 by assumption.
  destruct (nth_error h i) eqn:E; [eauto|]. apply nth_error_None in E. lia.
Qed.

Lemma equiv_spec fuel : forall i j v n, (i < n)%nat -> (n <= length h)%nat -> (j < length h)%nat ->
  Good n v -> (i < fuel)%nat ->
  exists b v', equiv fuel (h ++ t) v i j = Ok (b, v') /\ (b = true -> i = j /\ v' = v) /\ (i = j -> b = true).
Proof.
  induction fuel as [|fuel IH]; intros i j v n Hin Hnl Hj HG Hf; [lia|].
  rewrite equiv_S. destruct (Nat.eqb_spec i j) as [->|Hne]; [exists true, v; tauto|].
  assert (Hi : (i < length h)%nat) by lia.
  destruct (in_h i Hi) as (a & Ea' & Ea). destruct (in_h j Hj) as (b & Eb' & Eb).
  rewrite Ea', Eb'. cbv zeta.
  assert (Fb : forall v' : visited_t, exists b0 v'', Ok (false, v') = Ok (b0, v'') /\
             (b0 = true -> i = j /\ v'' = v) /\ (i = j -> b0 = true))
    by (intros v'; exists false, v'; repeat split; congruence).
  destruct (keq _ _) eqn:K1; cbn [negb orb]; [|apply Fb].
  destruct (Nat.eqb_spec (length (nd_ch (e_node a))) (length (nd_ch (e_node b)))) as [K2|K2];
    cbn [negb orb]; [|apply Fb].
  destruct (Nat.eqb_spec (nd_sort (e_node a)) (nd_sort (e_node b))) as [K3|K3]; cbn [negb orb]; [|apply Fb].
  destruct (seq_str (nd_name _) _) eqn:K4; cbn [negb]; [|apply Fb].
  match goal with |- context [if ?c then Ok (false, v) else _] => destruct c; [apply Fb|] end.
  rewrite (Good_not _ _ _ _ HG Hin).
  assert (Ho := hi_old h HI i a Ea). assert (Ho2 := hi_old h HI j b Eb).
  destruct (equivs_spec fuel (nd_ch (e_node a)) (nd_ch (e_node b)) i ((i, j) :: v)) as (r & v' & E & Hr);
    try assumption.
  - intros i' j' v0 Hi' Hj' HG' Hf'. apply (IH i' j' v0 i); try assumption; lia.
  - lia.
  - eapply Forall_impl; [|exact Ho2]. cbn. intros c Hc. lia.
  - intros p q [Hpq|Hpq]; [injection Hpq as <- <-; lia|]. apply HG in Hpq. lia.
  - exists r, v'. split; [exact E|].
    assert (r = false).
    { destruct r; [|reflexivity]. exfalso. apply Hne. apply (hi_inj h HI i j a b Ea Eb).
      apply node_eq; [assumption|now apply keq_spec|now apply seq_str_spec|now apply Hr]. }
    subst r. repeat split; congruence.
Qed.
End E.

(** the candidate against a managed node *)
Lemma equiv_cand h c i a : HInv h -> mkEntry hstr sstr h (e_node c) = Ok c -> valid_node h (e_node c) ->
  nth_error h i = Some a ->
  exists b v', equiv (S (S (length h))) (h ++ [c]) [] i (length h) = Ok (b, v') /\
    (b = true <-> e_node a = e_node c).
Proof.
  intros HI Hc Hv Ha. assert (Hi : (i < length h)%nat) by (apply nth_error_Some; congruence).
  rewrite equiv_S. destruct (Nat.eqb_spec i (length h)) as [?|_]; [lia|].
  rewrite nth_error_app1, Ha by assumption. rewrite nth_error_app2, Nat.sub_diag by lia. cbn [nth_error].
  cbv zeta.
  assert (Fb : forall v' : visited_t, e_node a <> e_node c ->
     exists b v'', Ok (false, v') = Ok (b, v'') /\ (b = true <-> e_node a = e_node c))
    by (intros v' Hn; exists false, v'; split; [reflexivity|]; split; [discriminate|tauto]).
  destruct (keq _ _) eqn:K1; cbn [negb orb]; [|apply Fb; intros E0; rewrite E0, keq_refl in K1; discriminate].
  destruct (Nat.eqb_spec (length (nd_ch (e_node a))) (length (nd_ch (e_node c)))) as [K2|K2];
    cbn [negb orb]; [|apply Fb; congruence].
  destruct (Nat.eqb_spec (nd_sort (e_node a)) (nd_sort (e_node c))) as [K3|K3]; cbn [negb orb];
    [|apply Fb; congruence].
  destruct (seq_str (nd_name _) _) eqn:K4; cbn [negb]; [|apply Fb; intros E0; rewrite E0, seq_str_refl in K4; discriminate].
  match goal with |- context [if ?c then Ok (false, _) else _] => destruct c eqn:K5 end.
  { apply Fb. intros E. assert (Hh := hi_hash h HI i a Ha). rewrite E, Hc in Hh. injection Hh as <-.
    rewrite seq_str_refl in K5. cbn in K5. rewrite andb_false_r in K5. discriminate. }
  cbn [in_visited existsb].
  assert (Ho := hi_old h HI i a Ha).
  destruct (equivs_spec h [c] (S (length h)) (nd_ch (e_node a)) (nd_ch (e_node c)) i [(i, length h)])
    as (r & v' & E & Hr); try assumption.
  - intros i' j' v0 Hi' Hj' HG' Hf'. apply (equiv_spec h [c] HI (S (length h)) i' j' v0 i); try assumption; lia.
  - lia.
  - intros p q [Hpq|[]]. injection Hpq as <- <-. lia.
  - exists r, v'. split; [exact E|]. rewrite Hr. split; [|congruence].
    intros Hch. apply node_eq; [assumption|now apply keq_spec|now apply seq_str_spec|assumption].
Qed.

Lemma scan_spec h c : HInv h -> mkEntry hstr sstr h (e_node c) = Ok c -> valid_node h (e_node c) ->
  forall l i, (forall k e, nth_error l k = Some e -> nth_error h (i + k) = Some e) ->
  exists r, bucket_scan (S (S (length h))) (h ++ [c]) c (length h) l i = Ok r /\
    match r with
    | Some j => exists k e, j = (i + k)%nat /\ nth_error l k = Some e /\ e_node e = e_node c
    | None => forall k e, nth_error l k = Some e -> e_node e <> e_node c
    end.
Proof.
  intros HI Hc Hv. induction l as [|x l IH]; intros i Hl.
  - exists None. split; [reflexivity|]. intros [|k] e; discriminate.
  - assert (Hx : nth_error h i = Some x) by (rewrite <- (Nat.add_0_r i); apply Hl; reflexivity).
    destruct (IH (S i)) as (r & Er & Hr).
    { intros k e Hk. replace (S i + k)%nat with (i + S k)%nat by lia. apply Hl. exact Hk. }
    assert (Next : e_node x <> e_node c -> exists r,
      bucket_scan (S (S (length h))) (h ++ [c]) c (length h) l (S i) = Ok r /\
      match r with
      | Some j => exists k e, j = (i + k)%nat /\ nth_error (x :: l) k = Some e /\ e_node e = e_node c
      | None => forall k e, nth_error (x :: l) k = Some e -> e_node e <> e_node c
      end).
    { intros Hn. exists r. split; [exact Er|]. destruct r as [j|].
      - destruct Hr as (k & e & -> & Hk & He). exists (S k), e. split; [lia|]. split; assumption.
      - intros [|k] e; cbn; [intros He; injection He as <-; exact Hn|apply Hr]. }
    cbn [bucket_scan]. cbv zeta.
    destruct (keq _ _ && _ && _ && _) eqn:C.
    + destruct (equiv_cand h c i x HI Hc Hv Hx) as (b & v' & E & Hb). rewrite E. cbn [bind fst].
      destruct b.
      * exists (Some i). split; [reflexivity|]. exists 0%nat, x. split; [lia|]. split; [reflexivity|].
        now apply Hb.
      * apply Next. intros He. apply Hb in He. discriminate.
    + apply Next. intros He. assert (Hh := hi_hash h HI i x Hx). rewrite He, Hc in Hh.
      injection Hh as <-. rewrite keq_refl, Z.eqb_refl, Nat.eqb_refl, seq_str_refl in C. discriminate.
Qed.

Lemma insertNode_spec h n : HInv h -> valid_node h n ->
  exists i h', insertNode hstr sstr h n = Ok (i, h') /\ HInv h' /\
    (exists e, nth_error h' i = Some e /\ e_node e = n) /\
    (h' = h \/ exists e, h' = h ++ [e]).
Proof.
  intros HI Hv. destruct (mkEntry_total h n Hv) as (c & Hc & Hcn). subst n.
  destruct (scan_spec h c HI Hc Hv h 0 (fun k e H => H)) as (r & Er & Hr).
  unfold insertNode. rewrite Hc. cbn [bind]. rewrite Er. cbn [bind]. destruct r as [j|].
  - destruct Hr as (k & e & -> & Hk & He). exists (0 + k)%nat, h. repeat split; try apply HI; eauto.
  - exists (length h), (h ++ [c]). split; [reflexivity|]. split.
    + split.
      * intros i e Hi. destruct (Nat.lt_ge_cases i (length h)) as [Hl|Hl].
        -- rewrite nth_error_app1 in Hi by assumption. exact (hi_old h HI i e Hi).
        -- rewrite nth_error_app2 in Hi by assumption.
           destruct (i - length h)%nat as [|[|m]] eqn:D; cbn in Hi; try discriminate.
           injection Hi as <-. eapply Forall_impl; [|exact Hv]. cbn. intros; lia.
      * intros i e Hi. destruct (Nat.lt_ge_cases i (length h)) as [Hl|Hl].
        -- rewrite nth_error_app1 in Hi by assumption. rewrite mkEntry_app; [exact (hi_hash h HI i e Hi)|].
           eapply Forall_impl; [|exact (hi_old h HI i e Hi)]. cbn. intros; lia.
        -- rewrite nth_error_app2 in Hi by assumption.
           destruct (i - length h)%nat as [|[|m]] eqn:D; cbn in Hi; try discriminate.
           injection Hi as <-. rewrite mkEntry_app; assumption.
      * intros i j a b Hi Hj Hab.
        destruct (Nat.lt_ge_cases i (length h)) as [Hl|Hl], (Nat.lt_ge_cases j (length h)) as [Hm|Hm].
        -- rewrite nth_error_app1 in Hi, Hj by assumption. exact (hi_inj h HI i j a b Hi Hj Hab).
        -- rewrite nth_error_app1 in Hi by assumption. rewrite nth_error_app2 in Hj by assumption.
           destruct (j - length h)%nat as [|[|m]] eqn:D; cbn in Hj; try discriminate.
           injection Hj as <-. exfalso. exact (Hr i a Hi Hab).
        -- rewrite nth_error_app1 in Hj by assumption. rewrite nth_error_app2 in Hi by assumption.
           destruct (i - length h)%nat as [|[|m]] eqn:D; cbn in Hi; try discriminate.
           injection Hi as <-. exfalso. exact (Hr j b Hj (eq_sym Hab)).
        -- assert (i < length (h ++ [c]))%nat by (apply nth_error_Some; congruence).
           assert (j < length (h ++ [c]))%nat by (apply nth_error_Some; congruence).
           rewrite app_length in *. cbn in *. lia.
    + split; [|eauto]. exists c. rewrite nth_error_app2, Nat.sub_diag by lia. split; reflexivity.
Qed.

(** histories *)
Fixpoint valid_nodes (h : heap) (ns : list node) : Prop :=
  match ns with
  | [] => True
  | n :: ns' => valid_node h n /\
      match insertNode hstr sstr h n with Ok (_, h') => valid_nodes h' ns' | _ => True end
  end.

Lemma runNodes_spec ns : forall h, HInv h -> valid_nodes h ns ->
  exists is h', runNodes hstr sstr h ns = Ok (is, h') /\ HInv h' /\ (exists t, h' = h ++ t) /\
    Forall2 (fun n i => exists e, nth_error h' i = Some e /\ e_node e = n) ns is.
Proof.
  induction ns as [|n ns IH]; intros h HI; cbn [runNodes valid_nodes].
  - intros _. exists [], h. repeat split; try apply HI; [exists []; now rewrite app_nil_r|constructor].
  - intros [Hv Hvs]. destruct (insertNode_spec h n HI Hv) as (i & h1 & E & HI1 & (e & He & Hn) & Hh).
    rewrite E in *. cbn [bind fst snd].
    destruct (IH h1 HI1 Hvs) as (is & h2 & E2 & HI2 & [t Ht] & HF). rewrite E2. cbn [bind fst snd].
    exists (i :: is), h2. split; [reflexivity|]. split; [exact HI2|]. split.
    + destruct Hh as [-> | [e' ->]]; [eauto|]. exists ([e'] ++ t). now rewrite app_assoc.
    + constructor; [|exact HF]. exists e. split; [|exact Hn].
      subst h2. rewrite nth_error_app1; [exact He|]. apply nth_error_Some. congruence.
Qed.

Lemma static_valid : forall h ns, Forall (fun n => nd_ch n = []) ns -> HInv h -> valid_nodes h ns.
Proof.
  intros h ns H. revert h. induction H as [|n ns Hn _ IH]; intros h HI; cbn; [exact I|].
  assert (Hv : valid_node h n) by (unfold valid_node; rewrite Hn; constructor).
  split; [exact Hv|]. destruct (insertNode_spec h n HI Hv) as (i & h1 & E & HI1 & _). rewrite E.
  apply IH, HI1.
Qed.
Lemma manager0_ok : exists h, manager0 hstr sstr = Ok h /\ HInv h.
Proof.
  unfold manager0. destruct (runNodes_spec static_nodes [] HInv_nil) as (is & h & E & HI & _).
  - apply static_valid; [|apply HInv_nil]. repeat constructor.
  - rewrite E. cbn. eauto.
Qed.

(** The tree a pointer stands for. *)
Inductive tree := Tr (s : nat) (k : kind) (n : str) (ch : list tree).
Inductive Unfold (h : heap) : nat -> tree -> Prop :=
| UF i e ts : nth_error h i = Some e -> Forall2 (Unfold h) (nd_ch (e_node e)) ts ->
    Unfold h i (Tr (nd_sort (e_node e)) (nd_kind (e_node e)) (nd_name (e_node e)) ts).

Lemma unfold_inj h : HInv h -> forall i j t, Unfold h i t -> Unfold h j t -> i = j.
Proof.
  intros HI. induction i as [i IH] using lt_wf_ind. intros j t Hi Hj.
  inversion Hi as [i' a ts Ha Hta Ei Et]; subst. inversion Hj as [j' b ts' Hb Htb Ej Et]; subst.
  apply (hi_inj h HI i j a b Ha Hb).
  assert (Ho := hi_old h HI i a Ha).
  assert (Hc : nd_ch (e_node a) = nd_ch (e_node b)).
  { clear Hi Hj Ha Hb. revert Hta Htb Ho. generalize (nd_ch (e_node a)), (nd_ch (e_node b)).
    intros l m Hl. revert m. induction Hl as [|x t l ts Hx _ IHl]; intros m Hm Ho.
    - now inversion Hm.
    - inversion Hm as [|y ? m' ? Hy Hm']; subst. inversion Ho as [|? ? Hox Hos]; subst. f_equal.
      + exact (IH x Hox y t Hx Hy).
      + apply IHl; assumption. }
  apply node_eq; congruence.
Qed.
Lemma unfold_total h : HInv h -> forall i, (i < length h)%nat -> exists t, Unfold h i t.
Proof.
  intros HI. induction i as [i IH] using lt_wf_ind. intros Hi.
  destruct (nth_error h i) as [e|] eqn:E; [|apply nth_error_None in E; lia].
  assert (Ho := hi_old h HI i e E).
  assert (H : exists ts, Forall2 (Unfold h) (nd_ch (e_node e)) ts).
  { induction Ho as [|c l Hc _ [ts IHl]]; [exists []; constructor|].
    destruct (IH c Hc) as [t Ht]; [lia|]. exists (t :: ts). constructor; assumption. }
  destruct H as [ts Hts]. eexists. econstructor; eassumption.
Qed.
End H.
