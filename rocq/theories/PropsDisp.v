(** C98: the handler that a dispatcher calls, after any sequence of registrations. *)
From Coq Require Import String Lia.
From Verif Require Import Base KindModel SortModel TermModel DagProofs DispModel.

Section D.
Context {R C : Type}.
Notation call := (call R C).
(** no registration for kind [k], resp. no fallback, among the calls *)
Definition silent (k : kind) (l : list call) : Prop := forall h, ~ In (On k h) l.
Definition silent_else (l : list call) : Prop := forall h, ~ In (Otherwise h) l.
(** running a handler *)
Definition runs (h : handler R C) (t : term) (c : C) : res (option R * C) := r <- h t c ;; Ok (Some (fst r), snd r).

Lemma build_app (l m : list call) : build (l ++ m) = fold_left do m (build l).
Proof. unfold build. apply fold_left_app. Qed.
Lemma keq_refl k : keq k k = true. Proof. now apply keq_spec. Qed.
Lemma keep k (l : list call) : silent k l -> forall d : dispatcher R C, d_has (fold_left do l d) k = d_has d k /\ d_table (fold_left do l d) k = d_table d k.
Proof.
  induction l as [|x l IH]; intros S d; [split; reflexivity|].
  assert (S' : silent k l) by (intros h H; apply (S h); right; exact H).
  cbn [fold_left]. destruct (IH S' (do d x)) as [-> ->]. destruct x as [k' h|h]; [|split; reflexivity].
  cbn [do on d_has d_table]. unfold put. destruct (keq k k') eqn:E; [|split; reflexivity].
  apply keq_spec in E. subst k'. exfalso. apply (S h). now left.
Qed.
Lemma keep_else (l : list call) : silent_else l -> forall d : dispatcher R C, d_else (fold_left do l d) = d_else d.
Proof.
  induction l as [|x l IH]; intros S d; [reflexivity|]. cbn [fold_left]. rewrite IH.
  - destruct x as [k' h|h]; [reflexivity|]. exfalso. apply (S h). now left.
  - intros h H; apply (S h); right; exact H.
Qed.

(** the handler registered last for the node's kind is called, with this node and context, and its result and context come back *)
Theorem C98_last_handler : forall dbg (l m : list call) k h t c, t_kind t = k -> silent k m ->
  dispatch dbg (build (l ++ On k (Some h) :: m)) t c = runs h t c /\ has (build (l ++ On k (Some h) :: m)) k = true.
Proof.
  intros dbg l m k h t c Hk S. rewrite build_app. cbn [fold_left]. destruct (keep k m S (do (build l) (On k (Some h)))) as [A B].
  unfold dispatch, has. rewrite Hk, A, B. cbn [do on d_has d_table]. unfold put. rewrite keq_refl. split; reflexivity.
Qed.
(** without a registration for the kind, or when the last one took the handler away, the fallback set last is called *)
Definition unhandled (k : kind) (l : list call) : Prop := silent k l \/ exists l1 l2, l = l1 ++ On k None :: l2 /\ silent k l2.
Lemma unhandled_has k (l : list call) : unhandled k l -> d_has (build l) k = false.
Proof.
  intros [S|(l1 & l2 & -> & S)].
  - unfold build. destruct (keep k l S empty) as [-> _]. reflexivity.
  - rewrite build_app. cbn [fold_left]. destruct (keep k l2 S (do (build l1) (On k None))) as [-> _].
    cbn [do on d_has]. unfold put. now rewrite keq_refl.
Qed.
Theorem C98_fallback : forall dbg (l m : list call) h t c, unhandled (t_kind t) (l ++ Otherwise (Some h) :: m) -> silent_else m ->
  dispatch dbg (build (l ++ Otherwise (Some h) :: m)) t c = runs h t c.
Proof.
  intros dbg l m h t c U S. unfold dispatch. rewrite (unhandled_has _ _ U), build_app. cbn [fold_left].
  rewrite (keep_else m S). reflexivity.
Qed.
(** with neither, the release build gives no result and leaves the context alone; the debug build stops *)
Theorem C98_neither : forall (l : list call) t c, unhandled (t_kind t) l ->
  silent_else l \/ (exists l1 l2, l = l1 ++ Otherwise None :: l2 /\ silent_else l2) ->
  has (build l) (t_kind t) = false /\ dispatch false (build l) t c = Ok (None, c) /\ dispatch true (build l) t c = Abort.
Proof.
  intros l t c U E. assert (N : d_else (build l) = None).
  { destruct E as [E|(l1 & l2 & -> & E)]; [unfold build; now rewrite (keep_else l E)|]. rewrite build_app. cbn [fold_left]. now rewrite (keep_else l2 E). }
  unfold has, dispatch. rewrite (unhandled_has _ _ U), N. repeat split.
Qed.
(** every history is of one of these forms, so dispatch never calls a null pointer *)
Theorem C98_total : forall (l : list call) k, unhandled k l \/ exists l1 h l2, l = l1 ++ On k (Some h) :: l2 /\ silent k l2.
Proof.
  intros l k. induction l as [|x l IH] using rev_ind; [left; left; intros h []|].
  assert (A : forall y, (forall h, y <> On k h) -> forall m, silent k m -> silent k (m ++ [y])).
  { intros y Hy m S h H. apply in_app_or in H. destruct H as [H|[H|[]]]; [now apply (S h)|now apply (Hy h)]. }
  assert (B : (forall h, x <> On k h) -> unhandled k (l ++ [x]) \/ exists l1 h l2, l ++ [x] = l1 ++ On k (Some h) :: l2 /\ silent k l2).
  { intros Hx. destruct IH as [[S|(l1 & l2 & -> & S)]|(l1 & h & l2 & -> & S)].
    - left. left. now apply A.
    - left. right. exists l1, (l2 ++ [x]). split; [now rewrite <- app_assoc|now apply A].
    - right. exists l1, h, (l2 ++ [x]). split; [now rewrite <- app_assoc|now apply A]. }
  destruct x as [k' o|o]; [|apply B; discriminate].
  destruct (keq k k') eqn:E.
  - apply keq_spec in E. subst k'. destruct o as [h|].
    + right. exists l, h, []. split; [reflexivity|intros h' []].
    + left. right. exists l, []. split; [reflexivity|intros h' []].
  - apply B. intros h H. injection H as -> _. now rewrite keq_refl in E.
Qed.
Theorem C98_no_null_call : forall dbg (l : list call) t c, (forall k h, In (On k (Some h)) l -> h t c <> UB) -> (forall h, In (Otherwise (Some h)) l -> h t c <> UB) ->
  dispatch dbg (build l) t c <> UB.
Proof.
  intros dbg l t c H1 H2. destruct (C98_total l (t_kind t)) as [U|(l1 & h & l2 & -> & S)].
  - unfold dispatch. rewrite (unhandled_has _ _ U). destruct (d_else (build l)) as [h|] eqn:E; [|destruct dbg; discriminate].
    assert (Hi : In (Otherwise (Some h)) l).
    { clear -E. unfold build in E. assert (G : forall d : dispatcher R C, d_else (fold_left do l d) = Some h -> d_else d = Some h \/ In (Otherwise (Some h)) l).
      { clear E. induction l as [|x l IH]; intros d E; [left; exact E|]. cbn [fold_left] in E. apply IH in E. destruct E as [E|E]; [|right; right; exact E].
        destruct x as [k o|o]; [left; exact E|]. cbn in E. subst o. right. left. reflexivity. }
      destruct (G _ E) as [X|X]; [discriminate X|exact X]. }
    specialize (H2 h Hi). destruct (h t c); cbn; congruence.
  - destruct (C98_last_handler dbg l1 l2 _ h t c eq_refl S) as [-> _].
    assert (X : h t c <> UB) by (apply (H1 (t_kind t)); apply in_or_app; right; left; reflexivity).
    unfold runs. destruct (h t c); cbn; congruence.
Qed.
End D.
Print Assumptions C98_last_handler.
Print Assumptions C98_fallback.
Print Assumptions C98_neither.
Print Assumptions C98_total.
Print Assumptions C98_no_null_call.

(** ** the named methods: exactly one for every operator the parser knows, none for the named constants *)
Definition constant_names : list string := ["true"; "false"; "pi"; "e"; "nan"; "epsilon"; "+epsilon"; "-epsilon"; "+oo"; "-oo"; "inf"]%string.
Theorem C98_sugar : NoDup sugar_kinds /\ forall n k, In (n, k) oper_key_map -> In k sugar_kinds \/ In n constant_names.
Proof.
  split.
  - assert (D : (fix d (l : list kind) : bool := match l with [] => true | x :: l' => negb (kin x l') && d l' end) sugar_kinds = true) by (vm_compute; reflexivity).
    revert D. generalize sugar_kinds. induction l as [|x l IH]; intros D; constructor.
    + intros H. apply andb_prop in D. destruct D as [D _]. apply negb_true_iff in D. unfold kin in D.
      assert (E : existsb (keq x) l = true) by (apply existsb_exists; exists x; split; [exact H|apply keq_refl]). congruence.
    + apply IH. apply andb_prop in D. apply D.
  - assert (F : forallb (fun p => kin (snd p) sugar_kinds || existsb (String.eqb (fst p)) constant_names) oper_key_map = true) by (vm_compute; reflexivity).
    intros n k H. rewrite forallb_forall in F. specialize (F _ H). cbn [fst snd] in F. apply orb_prop in F. destruct F as [F|F].
    + left. unfold kin in F. apply existsb_exists in F. destruct F as (x & Hx & E). apply keq_spec in E. now subst x.
    + right. apply existsb_exists in F. destruct F as (x & Hx & E). apply String.eqb_eq in E. now subst x.
Qed.
Print Assumptions C98_sugar.
(** not vacuous: counting conjunctions, everything else through the fallback, one handler replaced, one taken away *)
Definition count (n : nat) : handler bool nat := fun t c => Ok (isk NT_AND t, c + n)%nat.
Example C98_ex : let a := T NT_AND boolS (L "and") [TRUE; TRUE] in let o := T NT_OR boolS (L "or") [TRUE; TRUE] in
  let l := [On NT_AND (Some (count 1)); Otherwise (Some (count 100)); On NT_OR (Some (count 5)); On NT_AND (Some (count 10)); On NT_OR None] in
  dispatch false (build l) a 0%nat = Ok (Some true, 10%nat) /\ dispatch false (build l) o 0%nat = Ok (Some false, 100%nat) /\
  dispatch false (build [On NT_AND (Some (count 1))]) o 7%nat = Ok (None, 7%nat) /\
  has (build l) NT_AND = true /\ has (build l) NT_OR = false /\ In NT_BV_UMOD sugar_kinds.
Proof. repeat split; vm_compute; tauto. Qed.
