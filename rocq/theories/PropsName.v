(** C88, C89: the tables of variables: mkVar, mkTempVar, declareVar, rename, isDeclaredVariable,
    getVariable, getVariables, getDeclaredVariables. *)
From Verif Require Import Base KindModel SortModel TermModel LexModel ParseModel DagModel DagProofs ParseProofs BVProofs2 SortProofs NameModel NameSpec NameProofs.
From Coq Require Import Lia.
Open Scope Z_scope.

(** Every history of calls on a new parser (any hash function, any interleaving of mkVar, mkTempVar
    and other constructors): every call succeeds; a call for a name gives the
    variable of that name with the sort it was first declared with; *)
Theorem C88_history : forall hstr sstr h0 l, manager0 hstr sstr = Ok h0 -> valid_calls hstr sstr l (tabs0 h0) -> zlen l < two64 ->
  exists is t, calls hstr sstr l (tabs0 h0) = Ok (is, t) /\ length is = length l /\
    (forall k i, nth_error is k = Some i -> node_at (tb_h t) i = wanted l k /\ wanted l k <> None) /\
    (** isDeclaredVariable and getVariable answer by the history alone *)
    (forall n, isDeclaredVariable n t = true <-> exists s, In (NVar s n) l) /\
    (forall n, getVariable n t = Ok None <->
       first_sort n l = None /\ forall j, (j < length (temps l))%nat -> n <> temp_name (Z.of_nat j)) /\
    (forall n s, first_sort n l = Some s -> exists i, getVariable n t = Ok (Some i) /\ node_at (tb_h t) i = Some (Node s NT_VAR n [])) /\
    (forall j s, nth_error (temps l) j = Some s -> first_sort (temp_name (Z.of_nat j)) l = None ->
       exists i, getVariable (temp_name (Z.of_nat j)) t = Ok (Some i) /\
         node_at (tb_h t) i = Some (Node s NT_TEMP_VAR (temp_name (Z.of_nat j)) [])) /\
    (** the two lists hold each variable once, and no other node *)
    (exists vs us, getDeclaredVariables t = Ok vs /\ getVariables t = Ok us /\ NoDup vs /\ NoDup us /\
       (forall i, In i vs <-> exists n s, first_sort n l = Some s /\ node_at (tb_h t) i = Some (Node s NT_VAR n [])) /\
       (forall i, In i us <-> In i vs \/ exists j s, nth_error (temps l) j = Some s /\
          node_at (tb_h t) i = Some (Node s NT_TEMP_VAR (temp_name (Z.of_nat j)) []))).
Proof.
  intros hstr sstr h0 l E Hv Hl. destruct (manager0_ok hstr sstr) as (h & E' & H). rewrite E in E'. injection E' as <-.
  destruct (calls_ok hstr sstr l [] [] (tabs0 h0) (start_ok hstr sstr h0 H) Hv) as (is & t & Ec & V).
  { cbn [app]. assert (length (temps l) <= length l)%nat by (clear; induction l as [|[] l IH]; cbn; lia). unfold zlen in Hl. lia. }
  cbn [app] in V. exists is, t. split; [exact Ec|]. split; [apply (ni_len _ _ _ _ _ V)|]. exact (NInv_spec hstr sstr l is t V).
Qed.
Print Assumptions C88_history.

(** the same name always gives the same node, and different names never do *)
Theorem C88_same_name : forall hstr sstr h0 l is t, manager0 hstr sstr = Ok h0 -> valid_calls hstr sstr l (tabs0 h0) -> zlen l < two64 ->
  calls hstr sstr l (tabs0 h0) = Ok (is, t) ->
  forall p q s s' n n' i j, nth_error l p = Some (NVar s n) -> nth_error l q = Some (NVar s' n') ->
    nth_error is p = Some i -> nth_error is q = Some j -> (n = n' <-> i = j).
Proof.
  intros hstr sstr h0 l is t E Hv Hl Ec p q s s' n n' i j Hp Hq Hi Hj.
  destruct (manager0_ok hstr sstr) as (h & E' & H). rewrite E in E'. injection E' as <-.
  destruct (calls_ok hstr sstr l [] [] (tabs0 h0) (start_ok hstr sstr h0 H) Hv) as (is' & t' & Ec' & V).
  { cbn [app]. assert (length (temps l) <= length l)%nat by (clear; induction l as [|[] l IH]; cbn; lia). unfold zlen in Hl. lia. }
  rewrite Ec in Ec'. injection Ec' as <- <-. cbn [app] in V.
  destruct (ni_res _ _ _ _ _ V p i Hi) as (m & A & B). destruct (ni_res _ _ _ _ _ V q j Hj) as (m' & A' & B').
  unfold wanted in A, A'. rewrite Hp in A. rewrite Hq in A'.
  destruct (first_sort n l) as [u|] eqn:F; [|discriminate A]. destruct (first_sort n' l) as [u'|] eqn:F'; [|discriminate A'].
  cbn in A, A'. injection A as <-. injection A' as <-. split.
  - intros <-. rewrite F in F'. injection F' as <-. eapply node_at_inj; [apply (ni_h _ _ _ _ _ V)|exact B|exact B'].
  - intros <-. congruence.
Qed.
Print Assumptions C88_same_name.

Lemma valid_kinds hstr sstr l : forall t r, valid_calls hstr sstr l t -> calls hstr sstr l t = Ok r ->
  forall n, In (NNode n) l -> nd_kind n <> NT_TEMP_VAR.
Proof.
  induction l as [|o l IH]; intros t r Hv Ec n Hn; [destruct Hn|]. cbn [valid_calls calls] in *. destruct Hv as (Ho & Hv).
  destruct (do_call hstr sstr o t) as [(i & t1)|?| | | |]; try discriminate Ec. cbn [bind snd] in Ec.
  destruct Hn as [->|Hn]; [apply Ho|]. destruct (calls hstr sstr l t1) as [q|?| | | |] eqn:Eq; try discriminate Ec. now apply (IH _ _ Hv Eq).
Qed.
(** a temporary variable is new: no other call of the history gives it *)
Theorem C88_temporary_fresh : forall hstr sstr h0 l is t, manager0 hstr sstr = Ok h0 -> valid_calls hstr sstr l (tabs0 h0) -> zlen l < two64 ->
  calls hstr sstr l (tabs0 h0) = Ok (is, t) ->
  forall p q s i j, nth_error l p = Some (NTemp s) -> q <> p -> nth_error is p = Some i -> nth_error is q = Some j -> i <> j.
Proof.
  intros hstr sstr h0 l is t E Hv Hl Ec p q s i j Hp Hpq Hi Hj <-. pose proof (valid_kinds hstr sstr l _ _ Hv Ec) as Hn.
  destruct (manager0_ok hstr sstr) as (h & E' & H). rewrite E in E'. injection E' as <-.
  destruct (calls_ok hstr sstr l [] [] (tabs0 h0) (start_ok hstr sstr h0 H) Hv) as (is' & t' & Ec' & V).
  { cbn [app]. assert (length (temps l) <= length l)%nat by (clear; induction l as [|[] l IH]; cbn; lia). unfold zlen in Hl. lia. }
  rewrite Ec in Ec'. injection Ec' as <- <-. cbn [app] in V.
  destruct (ni_res _ _ _ _ _ V p i Hi) as (m & A & B). destruct (ni_res _ _ _ _ _ V q i Hj) as (m' & A' & B').
  rewrite B in B'. injection B' as <-. unfold wanted in A, A'. rewrite Hp in A. injection A as <-.
  destruct (nth_error l q) as [[u n|u|n]|] eqn:Hq; [| | |discriminate A'].
  - destruct (first_sort n l); discriminate A'.
  - injection A' as -> A'. apply (f_equal (fun x => L "temp_" ++ x)) in A'. apply temp_inj in A'. apply Nat2Z.inj in A'.
    assert (X : forall a b, (a < b)%nat -> forall u, nth_error l a = Some (NTemp u) -> (length (temps (firstn a l)) < length (temps (firstn b l)))%nat).
    { intros a b Hab v Ha. rewrite <- (firstn_skipn a (firstn b l)). rewrite firstn_firstn, Nat.min_l by lia. rewrite temps_app, app_length.
      assert (Y : exists r, skipn a (firstn b l) = NTemp v :: r).
      { clear - Ha Hab. revert b l Ha Hab. induction a as [|a IH]; intros [|b] [|x l] Ha Hab; cbn in *; try lia; try discriminate.
        - injection Ha as ->. eauto.
        - apply IH; [exact Ha|lia]. }
      destruct Y as (r & ->). cbn [temps length]. lia. }
    destruct (Nat.lt_trichotomy p q) as [G|[G|G]]; [specialize (X p q G _ Hp)|congruence|specialize (X q p G _ Hq)]; lia.
  - injection A' as ->. apply nth_error_In in Hq. now apply (Hn _ Hq).
Qed.
Print Assumptions C88_temporary_fresh.

(** rename of a declared variable to an unused name: the variable is found under its new name and has
    it; every other variable is found as before *)
Theorem C89_rename_partial : forall hstr sstr h0 l is t i s n n', manager0 hstr sstr = Ok h0 -> valid_calls hstr sstr l (tabs0 h0) -> zlen l < two64 ->
  calls hstr sstr l (tabs0 h0) = Ok (is, t) -> first_sort n l = Some s -> getVariable n t = Ok (Some i) ->
  getVariable n' t = Ok None ->
  exists t', rename i n' t = Ok (i, t') /\ getVariable n' t' = Ok (Some i) /\ isDeclaredVariable n' t' = true /\
    node_at (tb_h t') i = Some (Node s NT_VAR n' []) /\
    (forall j, j <> i -> node_at (tb_h t') j = node_at (tb_h t) j) /\
    (forall m, m <> n' -> getVariable m t' = getVariable m t).
Proof.
  intros hstr sstr h0 l is t i s n n' E Hv Hl Ec F G G'.
  destruct (manager0_ok hstr sstr) as (h & E' & H). rewrite E in E'. injection E' as <-.
  destruct (calls_ok hstr sstr l [] [] (tabs0 h0) (start_ok hstr sstr h0 H) Hv) as (is' & t'' & Ec' & V).
  { cbn [app]. assert (length (temps l) <= length l)%nat by (clear; induction l as [|[] l IH]; cbn; lia). unfold zlen in Hl. lia. }
  rewrite Ec in Ec'. injection Ec' as <- <-. cbn [app] in V.
  destruct (NInv_spec _ _ _ _ _ V) as (_ & _ & _ & S4 & _). destruct (S4 n s F) as (i' & Gi & N). rewrite G in Gi. injection Gi as <-.
  pose proof (node_at_lt _ _ _ N) as Li. unfold rename. destruct (nth_error (tb_h t) i) as [e|] eqn:Ee; [|apply nth_error_None in Ee; lia].
  assert (Ne : e_node e = Node s NT_VAR n []) by (unfold node_at in N; rewrite Ee in N; cbn in N; congruence).
  rewrite Ne. cbn [nd_kind nd_name]. change (keq NT_VAR NT_TEMP_VAR) with false. cbv iota zeta.
  assert (Lu : forall (f : entry -> entry) k (x : heap), length (upd_nth k f x) = length x)
    by (clear; intros f k x; revert k; induction x as [|y x IH]; intros [|k]; cbn; auto).
  assert (Lo : forall (f : entry -> entry) k (x : heap) j, j <> k -> nth_error (upd_nth k f x) j = nth_error x j)
    by (clear; intros f k x; revert k; induction x as [|y x IH]; intros [|k] [|j] Hj; cbn; auto; try congruence).
  assert (Ls : forall (f : entry -> entry) k (x : heap), nth_error (upd_nth k f x) k = option_map f (nth_error x k))
    by (clear; intros f k x; revert k; induction x as [|y x IH]; intros [|k]; cbn; auto).
  unfold getVariable in G, G'. pose proof (ni_var _ _ _ _ _ V n) as Gn. destruct (mget n (tb_var t)) as [a|] eqn:En; [|congruence].
  destruct Gn as (s' & _ & Na). rewrite (getNode_ok _ _ (node_at_lt _ _ _ Na)) in G. cbn [bind] in G. injection G as ->.
  pose proof (ni_var _ _ _ _ _ V n') as Gn'. destruct (mget n' (tb_var t)) as [b|] eqn:En'.
  { destruct Gn' as (? & _ & Nb). rewrite (getNode_ok _ _ (node_at_lt _ _ _ Nb)) in G'. discriminate G'. }
  unfold at_or_zero. rewrite En. cbn [fst snd]. eexists. split; [reflexivity|].
  unfold getVariable, isDeclaredVariable, node_at. cbn [tb_h tb_var tb_tmp].
  assert (Gs : mget n' (mset n' i (tb_var t)) = Some i) by (unfold mset; rewrite mget_cons; now rewrite seq_str_refl).
  rewrite Gs. unfold getNode. rewrite Lu, (proj2 (Nat.ltb_lt _ _) Li). cbn [bind].
  split; [reflexivity|]. split; [reflexivity|]. split; [|split].
  - rewrite Ls, Ee. cbn. rewrite Ne. reflexivity.
  - intros j Hj. now rewrite (Lo _ _ _ _ Hj).
  - intros m Hm. unfold mset. rewrite mget_cons. destruct (seq_str n' m) eqn:Q; [apply seq_str_spec in Q; congruence|].
    rewrite mget_mdel, Q. reflexivity.
Qed.
Print Assumptions C89_rename_partial.

(** a history that meets the hypotheses, with a name declared twice *)
Definition hs88 (s : str) : Z := fold_left (fun a c => (a * 31 + Z.of_N (N_of_ascii c)) mod two64) s 7.
Definition ss88 (i : nat) : str := Idec (Z.of_nat i).
Definition l88 : list ncall := [NVar 2 (L "x"); NTemp 2; NNode (Node 2 NT_NOT (L "not") [20%nat]); NVar 4 (L "y"); NVar 4 (L "x"); NTemp 4].
Definition on88 {A} (f : list nat * tabs -> A) : option A :=
  match manager0 hs88 ss88 with Ok h => match calls hs88 ss88 l88 (tabs0 h) with Ok r => Some (f r) | _ => None end | _ => None end.
Example C88_ex : on88 fst = Some [20; 21; 22; 23; 20; 24]%nat /\
  on88 (fun r => getVariable (L "x") (snd r)) = Some (Ok (Some 20%nat)) /\
  on88 (fun r => getVariable (L "z") (snd r)) = Some (Ok None) /\
  on88 (fun r => getVariable (L "temp_1") (snd r)) = Some (Ok (Some 24%nat)) /\
  on88 (fun r => getDeclaredVariables (snd r)) = Some (Ok [23; 20]%nat) /\
  on88 (fun r => getVariables (snd r)) = Some (Ok [23; 20; 24; 21]%nat).
Proof. repeat split; vm_compute; reflexivity. Qed.
Example C88_ex_valid : exists h, manager0 hs88 ss88 = Ok h /\ valid_calls hs88 ss88 l88 (tabs0 h).
Proof.
  eexists. split; [vm_compute; reflexivity|]. vm_compute. repeat split; try discriminate; auto 30.
Qed.

(** after rename the old name is still declared, and stands for the renamed variable *)
Definition ren88 (i : nat) (n : str) : option tabs :=
  match on88 (fun r => rename i n (snd r)) with Some (Ok (_, t)) => Some t | _ => None end.
Theorem C89_rename_refuted : exists t, ren88 20 (L "w") = Some t /\ isDeclaredVariable (L "x") t = true /\
  getVariable (L "x") t = Ok (Some 20%nat) /\ node_at (tb_h t) 20 = Some (Node 2 NT_VAR (L "w") []) /\
  getDeclaredVariables t = Ok [20; 23; 20]%nat.
Proof. eexists. split; [vm_compute; reflexivity|]. repeat split; vm_compute; reflexivity. Qed.
Print Assumptions C89_rename_refuted.
(** renaming y to the name of another variable of the same sort makes two different nodes that agree in
    everything, and the first can no longer be found *)
Definition two88 : option tabs :=
  match manager0 hs88 ss88 with
  | Ok h => match calls hs88 ss88 [NVar 2 (L "x"); NVar 2 (L "y")] (tabs0 h) with
            | Ok r => match rename 21 (L "x") (snd r) with Ok q => Some (snd q) | _ => None end | _ => None end | _ => None end.
Theorem C89_rename_clash_refuted : exists t, two88 = Some t /\ node_at (tb_h t) 20 = Some (Node 2 NT_VAR (L "x") []) /\
  node_at (tb_h t) 21 = node_at (tb_h t) 20 /\ getVariable (L "x") t = Ok (Some 21%nat) /\ getVariable (L "y") t = Ok (Some 21%nat).
Proof. eexists. split; [vm_compute; reflexivity|]. repeat split; vm_compute; reflexivity. Qed.
Print Assumptions C89_rename_clash_refuted.
(** renaming a quantified variable declares its old and its new name, both for node 0, the NULL node *)
Definition quant88 : option tabs :=
  match manager0 hs88 ss88 with
  | Ok h => match calls hs88 ss88 [NNode (Node 2 NT_QUANT_VAR (L "v") [])] (tabs0 h) with
            | Ok r => match rename 20 (L "w") (snd r) with Ok q => Some (snd q) | _ => None end | _ => None end | _ => None end.
Theorem C89_rename_quantified_refuted : exists t, quant88 = Some t /\ isDeclaredVariable (L "v") t = true /\
  getVariable (L "w") t = Ok (Some 0%nat) /\ node_at (tb_h t) 0 = Some (Node 0 NT_NULL (L "NULL") []).
Proof. eexists. split; [vm_compute; reflexivity|]. repeat split; vm_compute; reflexivity. Qed.
Print Assumptions C89_rename_quantified_refuted.
(** a declared variable may have the name of a temporary one: two variables with one name *)
Theorem C89_temporary_name_refuted : forall hstr sstr h0, manager0 hstr sstr = Ok h0 -> exists i j t,
  calls hstr sstr [NVar 2 (L "temp_0"); NTemp 2] (tabs0 h0) = Ok ([i; j], t) /\ i <> j /\
  node_at (tb_h t) i = Some (Node 2 NT_VAR (L "temp_0") []) /\ node_at (tb_h t) j = Some (Node 2 NT_TEMP_VAR (L "temp_0") []).
Proof.
  intros hstr sstr h0 E. set (l := [NVar 2 (L "temp_0"); NTemp 2]).
  assert (V : valid_calls hstr sstr l (tabs0 h0)).
  { cbn [valid_calls l]. split; [exact I|]. destruct (do_call _ _ _ _) as [(i & t)|?| | | |]; try exact I. split; [exact I|].
    destruct (do_call _ _ _ _) as [(? & ?)|?| | | |]; exact I. }
  destruct (C88_history hstr sstr h0 l E V) as (is & t & Ec & Len & W & _); [now vm_compute|].
  destruct is as [|i [|j [|]]]; try discriminate Len. destruct (W 0%nat i eq_refl) as (A & _). destruct (W 1%nat j eq_refl) as (B & _).
  exists i, j, t. split; [exact Ec|]. rewrite A, B. repeat split; try (vm_compute; reflexivity). intros ->. rewrite A in B. vm_compute in B. discriminate B.
Qed.
Print Assumptions C89_temporary_name_refuted.
(** declareVar with the name of a sort dereferences a null pointer for every name the script did not
    introduce itself, "Bool", "Int" and "Real" included *)
Theorem C89_declareVar_refuted : forall hstr sstr n s t, mget s (tb_srt t) = None -> mget n (tb_var t) = None ->
  declareVar hstr sstr n s t = UB.
Proof. intros hstr sstr n s t Es En. unfold declareVar, mkVar. rewrite Es. cbn [tb_var]. now rewrite En. Qed.
Print Assumptions C89_declareVar_refuted.
Example C89_declareVar_ex : forall hstr sstr h, declareVar hstr sstr (L "x") (L "Int") (tabs0 h) = UB.
Proof. intros. apply C89_declareVar_refuted; reflexivity. Qed.
