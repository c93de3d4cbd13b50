(** C29 traversal, C30 rewriting, C45 models: the theorems. *)
From Coq Require Import QArith Qcanon.
From Verif Require Import Base KindModel SortModel TermModel OpModel Sem SemProofs OpSpec BVProofs BVProofs2 DagProofs ParseModel ParseProofs
  TraverseModel TraverseSpec TraverseProofs TraverseProofs2 TraverseProofs3 TraverseProofs4 OpExamples.
Open Scope nat_scope.

(** ** C29 *)
(** A fresh visitor: visit is called once per distinct node of the term, on nothing else, in the
    order of the first occurrences in the depth-first left-to-right preorder. *)
Theorem C29_walk : forall t, exists V,
  walk t [] = Ok (firsts [] (preorder t), V) /\ NoDup (firsts [] (preorder t)) /\
  (forall u, In u (firsts [] (preorder t)) <-> subterm u t).
Proof.
  intros t. destruct (walk_ok t []) as [E _]; [intros v u []|]. eexists. split; [exact E|]. split; [apply firsts_nodup|].
  intros u. rewrite firsts_In, preorder_sub. cbn. tauto.
Qed.
Print Assumptions C29_walk.
(** no node comes before its parent: every node but the root is after some node that has it as a child *)
Theorem C29_parent_first : forall t vs V, walk t [] = Ok (vs, V) ->
  exists rest, vs = t :: rest /\ forall a b u, vs = a ++ u :: b -> u = t \/ exists p, In p a /\ In u (t_ch p).
Proof.
  intros t vs V E. destruct (walk_ok t []) as [E' _]; [intros v u []|]. rewrite E' in E. injection E as <- _.
  assert (E0 : firsts [] (preorder t) = t :: firsts [t] (flat_map preorder (t_ch t))) by (destruct t; reflexivity).
  eexists. split; [exact E0|]. intros a b u H. destruct (teq_dec u t) as [|Nu]; [now left|]. right.
  apply (firsts_parent t a b u); assumption.
Qed.
Print Assumptions C29_parent_first.
(** One visitor used for several walks: together they visit the nodes of all the terms once, in the
    order of the first occurrences; a walk skips what an earlier walk has visited. *)
Theorem C29_several : forall roots, exists vs V, walks roots [] = Ok (vs, V) /\ length vs = length roots /\
  concat vs = firsts [] (flat_map preorder roots) /\ NoDup (concat vs) /\
  (forall u, In u (concat vs) <-> exists t, In t roots /\ subterm u t).
Proof.
  intros roots. destruct (walks_ok roots []) as (V & E); [intros v u []|]. exists (walks_spec roots []), V. split; [exact E|].
  split; [apply walks_len|]. rewrite walks_flat. split; [reflexivity|]. split; [apply firsts_nodup|].
  intros u. rewrite firsts_In, in_flat_map. split.
  - intros [(t & H1 & H2) _]. apply preorder_sub in H2. eauto.
  - intros (t & H1 & H2). split; [|cbn; tauto]. exists t. split; [exact H1|now apply preorder_sub].
Qed.
Print Assumptions C29_several.
Definition t29 : term := T NT_AND boolS (L "and") [T NT_OR boolS (L "or") [pa; pb]; pb; T NT_NOT boolS (L "not") [T NT_OR boolS (L "or") [pa; pb]]].
Example C29_ex : option_map (map t_kind) (match walk t29 [] with Ok (l, _) => Some l | _ => None end) = Some [NT_AND; NT_OR; NT_VAR; NT_VAR; NT_NOT].
Proof. vm_compute. reflexivity. Qed.

(** ** C30 *)
(** Rules of the user, fixpoint or not, any bound on the rounds: if every handler keeps the value of
    the node it is given, the whole rewriting keeps the value of the term. *)
Theorem C30_any_rules : forall dbg r fixpoint max t u, keeps_value dbg r -> binders t ->
  rewrite dbg r fixpoint max t = Ok (Some u) -> binders u /\ forall I e, eval I e u = eval I e t.
Proof. exact any_rules. Qed.
Print Assumptions C30_any_rules.
Example C30_any_rules_ex : keeps_value false default_rules -> False.
Proof.
  intros H. destruct (H (T NT_NOT intS [] [T NT_NOT intS [] [xi]]) xi) as (_ & E & _).
  - apply binders_ex.
  - reflexivity.
  - specialize (E I0 (e_all (VNum (Q2Qc 0)))). vm_compute in E. discriminate E.
Qed.
(** x + y = y + x as a rule (TraverseProofs4.swap_rule) *)
Example C30_swap : keeps_value false swap_rule.
Proof. exact swap_keeps. Qed.
(** The default rules on a term whose Boolean and numeric operators have Boolean and numeric
    arguments: the value in every interpretation is kept. *)
Theorem C30_default_value : forall dbg fixpoint max t u, sane t -> rewrite dbg default_rules fixpoint max t = Ok (Some u) ->
  sane u /\ forall I e, eval I e u = eval I e t.
Proof. exact default_ok. Qed.
Print Assumptions C30_default_value.
(** They end, in a term in which no rule applies anywhere; one pass reaches it. *)
Theorem C30_default_normal : forall dbg fixpoint max t, (fixpoint = true -> 1 <= max) ->
  exists u, rewrite dbg default_rules fixpoint max t = Ok (Some u) /\ normal u /\
    rewrite dbg default_rules false 0 t = Ok (Some u).
Proof.
  intros dbg fixpoint max t H. destruct (rewrite_default dbg fixpoint max t H) as (u & E & P & N). exists u. split; [exact E|]. split; [exact N|].
  destruct (rewrite_default dbg false 0 t) as (v & E' & P' & _); [discriminate|]. congruence.
Qed.
Print Assumptions C30_default_normal.
(** A term in which no rule applies is returned as it is; so rewriting twice is rewriting once. *)
Theorem C30_default_fixed : forall dbg fixpoint max t, normal t -> rewrite dbg default_rules fixpoint max t = Ok (Some t).
Proof. exact rewrite_normal. Qed.
Print Assumptions C30_default_fixed.
(** Several calls on one rewriter with unchanged rules: each result is that of a fresh rewriter. *)
Theorem C30_calls : forall dbg r ts us, calls dbg (map (fun t => (r, t)) ts) [] = Ok us ->
  Forall2 (fun t u => rewrite dbg r false 0 t = Ok u) ts us.
Proof. intros dbg r ts us. apply calls_ok, correct_nil. Qed.
Print Assumptions C30_calls.
Example C30_ex : rewrite false default_rules true 10 t30 = Ok (Some (T NT_EQ boolS (L "=") [xi; xi])).
Proof. vm_compute. reflexivity. Qed.
Example C30_sane : sane t30.
Proof. exact t30_sane. Qed.
(** What does not hold.  Without any rule the result is a null pointer, and below a parent it is
    dereferenced; the rules added after a call are not applied to the nodes it has seen; and outside
    the typed terms the value changes (a negation of a negation of an integer). *)
Theorem C30_no_rules_refuted : rewrite false no_rules false 0 pa = Ok None /\
  rewrite false no_rules false 0 (T NT_NOT boolS (L "not") [pa]) = UB.
Proof. split; vm_compute; reflexivity. Qed.
Print Assumptions C30_no_rules_refuted.
Theorem C30_stale_refuted : exists a b, a <> b /\ calls false [(no_rules_but_id, a); (default_rules, a)] [] = Ok [Some a; Some a] /\
  rewrite false default_rules false 0 a = Ok (Some b).
Proof.
  exists (T NT_AND boolS (L "and") [pa; pa]), pa. split; [discriminate|]. split; vm_compute; reflexivity.
Qed.
Print Assumptions C30_stale_refuted.
Theorem C30_zero_refuted : exists t u, rewrite false default_rules false 0 t = Ok (Some u) /\ t_sort u <> t_sort t /\
  t_kind t = NT_ADD /\ Forall numv (t_ch t).
Proof.
  exists (T NT_ADD realS (L "+") [T NT_CONST realS (L "0.0") []; xi]), xi. split; [vm_compute; reflexivity|]. split; [discriminate|]. split; [reflexivity|].
  repeat constructor; intros I e; eexists; reflexivity.
Qed.
Print Assumptions C30_zero_refuted.

(** ** C45 *)
(** Every history of updates with by-name updates only of names the model has: no failure, and each
    query answers from the history.  [after l n] is the last value n got since the last clear. *)
Theorem C45_history : forall dbg l, names_known l [] -> exists m, m_run dbg l newModel = Ok m /\
  (forall n, m_getName n m = Ok (m_result (after l n))) /\ (forall x, m_get x m = Ok (m_result (after l (t_name x)))) /\
  m_getPairs m = map (fun n => (n, m_result (after l n))) (order l) /\ m_size m = length (order l) /\ NoDup (order l) /\
  (m_isFull m = true <-> forall n, In n (order l) -> isUnknown (m_result (after l n)) = false) /\
  (m_isEmpty m = true <-> forall n, In n (order l) -> isUnknown (m_result (after l n)) = true).
Proof.
  intros dbg l HK. destruct (agrees_run dbg l [] newModel agrees_nil HK) as (m & E & A). cbn [app] in A. exists m. split; [exact E|].
  split; [intros n; now apply agrees_get|]. split; [intros x; now apply agrees_get|]. split; [now apply agrees_pairs|]. split; [now apply agrees_size|].
  split; [apply A|]. split; [now apply agrees_full|now apply agrees_empty].
Qed.
Print Assumptions C45_history.
(** the names in the model are those with an update since the last clear *)
Theorem C45_names : forall l, names_known l [] -> forall n, In n (order l) <-> after l n <> MNone.
Proof.
  intros l HK n. destruct (agrees_run false l [] newModel agrees_nil HK) as (m & _ & A). cbn [app] in A.
  destruct A as (_ & _ & _ & _ & A & _). rewrite A. split; [tauto|]. intros H.
  destruct (in_dec (list_eq_dec Ascii.ascii_dec) n (order l)) as [K|K]; [exact K|contradiction].
Qed.
Print Assumptions C45_names.
Definition h45 : list update := [UAdd xi (num0 1); UAddVar yi; UAdd xi (num0 2); UAddName (L "y") (num0 3); UAddVar xi; UAdd zi (num0 4)].
Example C45_ex : names_known h45 [] /\ (m <- m_run false h45 newModel ;; Ok (m_getPairs m)) = Ok [(L "x", num0 2); (L "y", num0 3); (L "z", num0 4)].
Proof. split; [repeat split; vm_compute; discriminate|vm_compute; reflexivity]. Qed.
(** What does not hold: a value for an unknown name overwrites the value of the first variable, and
    the name then reads that value too; in an empty model it writes outside the vector.  A debug build aborts. *)
Theorem C45_unknown_name_refuted :
  (m <- m_run false [UAdd xi (num0 1); UAddName (L "y") (num0 3)] newModel ;; a <- m_get xi m ;; b <- m_getName (L "y") m ;; Ok (a, b, m_size m)) = Ok (num0 3, num0 3, 1) /\
  m_run false [UAddName (L "y") (num0 3)] newModel = UB /\ exists s, m_run true [UAddName (L "y") (num0 3)] newModel = s /\ forall m, s <> Ok m.
Proof. split; [vm_compute; reflexivity|]. split; [vm_compute; reflexivity|]. eexists. split; [reflexivity|]. intros m. vm_compute. discriminate. Qed.
Print Assumptions C45_unknown_name_refuted.
