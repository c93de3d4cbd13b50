(** Evaluation under a model that assigns every variable. *)
From Coq Require Import QArith Qcanon Qround Permutation ZifyBool ZifyNat.
From Verif Require Import Base KindModel SortModel TermModel BVModel BVSpec BVProofs BVProofs2 BVProofs4 BVProofs5
  UtilModel UtilSpec UtilProofs UtilProofs2 DagProofs SortProofs Sem SemProofs ArrayModel SimpModel OpModel OpSpec
  OpProofs OpProofs2 OpProofs3 OpProofs4 OpProofs5 TypedProofs TraverseModel EvalModel EvalSpec EvalProofs.
Open Scope Z_scope.

(** ** the loops over the children, when every child evaluates to a constant *)
Definition ran (f : evalf) (x v : term) : Prop := f x = Ok (negb (isConst x), Some v).
Definition moved (ch : list term) : bool := existsb (fun x => negb (isConst x)) ch.
Lemma moved_ex ch : Exists (fun x => isConst x = false) ch -> moved ch = true.
Proof. intros H. unfold moved. rewrite existsb_exists. apply Exists_exists in H. destruct H as (x & X & E). exists x. now rewrite E. Qed.
Lemma ev_all_ran f ch vs : Forall2 (ran f) ch vs -> ev_all f ch = Ok (moved ch, vs).
Proof.
  induction 1 as [|x v ch vs H _ IH]; [reflexivity|]. unfold ran in H. cbn [ev_all]. fold (ev_all f). rewrite H. cbn [bind].
  rewrite IH. reflexivity.
Qed.
Definition lits (r : ety) (vs : list term) : Prop := Forall (islit r) vs.
Lemma lits_consts r vs : lits r vs -> consts vs = vs /\ others vs = [].
Proof.
  induction 1 as [|v vs H _ [IH1 IH2]]; [auto|]. unfold consts, others. cbn [filter]. destruct (islit_const r v H) as [-> _]. cbn [negb].
  fold (consts vs) (others vs). now rewrite IH1, IH2.
Qed.
Lemma ev_junction_ran f zero r ch vs : Forall2 (ran f) ch vs -> lits r vs ->
  ev_junction f zero ch = Ok (match find zero vs with Some v => inl v | None => inr (moved ch, []) end).
Proof.
  intros H. induction H as [|x v ch vs H _ IH]; intros L; [reflexivity|]. inversion L as [|? ? Lv L']; subst. unfold ran in H. cbn [ev_junction].
  fold (ev_junction f zero). rewrite H. cbn [bind snd val]. destruct (islit_const r v Lv) as [C _]. rewrite C. cbn [andb find].
  destruct (zero v); [reflexivity|]. rewrite (IH L'). cbn [bind]. destruct (find zero vs); reflexivity.
Qed.
Fixpoint dup (vs cs : list term) : bool :=
  match vs with [] => false | v :: vs' => existsb (teq v) cs || dup vs' (v :: cs) end.
Lemma ev_distinct_ran f r ch vs : Forall2 (ran f) ch vs -> lits r vs -> forall cs,
  ev_distinct f ch cs = Ok (if dup vs cs then None else Some (moved ch, vs)).
Proof.
  intros H. induction H as [|x v ch vs H _ IH]; intros L cs; [reflexivity|]. inversion L as [|? ? Lv L']; subst. unfold ran in H. cbn [ev_distinct].
  fold (ev_distinct f). rewrite H. cbn [bind snd val]. destruct (islit_const r v Lv) as [C _]. rewrite C. cbn [dup].
  destruct (existsb (teq v) cs); [reflexivity|]. rewrite (IH L'). cbn [bind orb]. destruct (dup vs (v :: cs)); reflexivity.
Qed.

(** ** equality of constants *)
Lemma lit_eq r a b I e : islit r a -> islit r b -> veqb (eval I e a) (eval I e b) = teq a b.
Proof.
  intros Ha Hb. destruct (teq a b) eqn:E; [apply teq_spec in E; subst; apply veqb_refl|].
  destruct (veqb (eval I e a) (eval I e b)) eqn:V; [|reflexivity]. exfalso.
  enough (X : a = b) by (subst; rewrite teq_refl in E; discriminate).
  destruct r as [| |w].
  - destruct (islit_B a Ha) as (x & ->). destruct (islit_B b Hb) as (y & ->). rewrite !eval_mkB in V. destruct x, y; try discriminate V; reflexivity.
  - destruct (islit_I a Ha) as (x & ->). destruct (islit_I b Hb) as (y & ->). rewrite !eval_ic, veqb_ZQ in V by auto. f_equal. now rewrite (proj1 (Z.eqb_eq x y) V).
  - destruct (islit_V w a Ha) as (x & _ & _ & ->). destruct (islit_V w b Hb) as (y & _ & _ & ->). rewrite !eval_bc in V.
    rewrite <- lit_veq in V. apply seq_str_eq in V. unfold bc. now rewrite V.
Qed.
Lemma const_eq_lit c r a b : islit r a -> islit r b -> const_eq c a b = Ok (teq a b).
Proof.
  intros Ha Hb. destruct r as [| |w].
  - destruct (islit_B a Ha) as (x & ->). destruct (islit_B b Hb) as (y & ->). destruct x, y; reflexivity.
  - destruct (islit_I a Ha) as (x & ->). destruct (islit_I b Hb) as (y & ->). unfold const_eq. rewrite !isCInt_ic by auto. cbn [andb].
    rewrite !toInt_ic by auto. cbn [bind]. f_equal. rewrite <- (lit_eq EI (ic intorealS x) (ic intorealS y) I0 (fun _ => VBool true)) by assumption.
    rewrite !eval_ic, veqb_ZQ by auto. reflexivity.
  - destruct (islit_V w a Ha) as (x & _ & _ & ->). destruct (islit_V w b Hb) as (y & _ & _ & ->).
    assert (X : const_eq c (bc w x) (bc w y) = Ok (seq_str (lit w x) (lit w y))) by reflexivity. rewrite X. f_equal.
    rewrite <- (lit_eq (EV w) (bc w x) (bc w y) I0 (fun _ => VBool true)) by assumption. rewrite !eval_bc. apply lit_veq.
Qed.
Lemma all_eq_lit c r a l : islit r a -> lits r l -> all_eq c a l = Ok (forallb (teq a) l).
Proof.
  intros Ha. induction 1 as [|b l Hb _ IH]; [reflexivity|]. cbn [all_eq forallb]. rewrite (const_eq_lit c r) by assumption. cbn [bind].
  destruct (teq a b); [exact IH|reflexivity].
Qed.
Lemma forallb_map_ext {A B} (g : B -> bool) (h : A -> B) (k : A -> bool) l : (forall x, In x l -> g (h x) = k x) -> forallb g (map h l) = forallb k l.
Proof. induction l as [|a l IH]; intros H; [reflexivity|]. cbn. rewrite H by (now left). f_equal. apply IH. intros x X. apply H. now right. Qed.
Lemma eq_lits r a l I e : lits r (a :: l) -> l <> [] -> op_sem NT_EQ (map (eval I e) (a :: l)) = Some (VBool (forallb (teq a) l)).
Proof.
  intros L N. inversion L as [|? ? La L']; subst. rewrite eq_op; [|reflexivity|rewrite map_length; destruct l; [congruence|cbn; lia]].
  rewrite (chain_all (eval I e a)) by (now left). cbn [map forallb]. rewrite veqb_refl. cbn [andb]. do 2 f_equal.
  apply forallb_map_ext. intros x X. apply (lit_eq r); [assumption|]. now apply (proj1 (Forall_forall _ _) L').
Qed.
Lemma dup_spec vs : forall cs, dup vs cs = false <-> (forall v, In v vs -> ~ In v cs) /\ NoDup vs.
Proof.
  induction vs as [|v vs IH]; intros cs; cbn [dup]; [split; [intros _; split; [intros ? []|constructor]|reflexivity]|].
  rewrite orb_false_iff, IH. split.
  - intros [H1 [H2 H3]]. split.
    + intros u [ <- | U] C; [|apply (H2 u U); now right]. apply existsb_teq in C. congruence.
    + constructor; [|exact H3]. intros V. apply (H2 v V). now left.
  - intros [H1 H2]. inversion H2 as [|? ? N D]; subst. split.
    + destruct (existsb (teq v) cs) eqn:E; [|reflexivity]. apply existsb_teq in E. exfalso. apply (H1 v); [now left|exact E].
    + split; [|exact D]. intros u U [ -> | C]; [contradiction|]. apply (H1 u); [now right|exact C].
Qed.
Lemma pairwise_lits r vs I e : lits r vs -> pairwise (fun a b => negb (veqb a b)) (map (eval I e) vs) = negb (dup vs []).
Proof.
  intros L. apply eq_true_iff_eq. rewrite negb_true_iff, dup_spec.
  transitivity (NoDup vs); [|split; [intros N; split; [intros ? _ []|exact N]|tauto]].
  induction L as [|v vs Lv L IH]; [split; [constructor|reflexivity]|]. cbn [map pairwise]. rewrite andb_true_iff, IH.
  assert (X : forallb (fun b => negb (veqb (eval I e v) b)) (map (eval I e) vs) = true <-> ~ In v vs).
  { rewrite forallb_forall. split.
    - intros H V. specialize (H (eval I e v) (in_map _ _ _ V)). now rewrite veqb_refl in H.
    - intros H y Y. apply in_map_iff in Y. destruct Y as (u & <- & U). rewrite (lit_eq r); [|assumption|now apply (proj1 (Forall_forall _ _) L)].
      destruct (teq v u) eqn:E; [apply teq_spec in E; subst; contradiction|reflexivity]. }
  rewrite X. split; [intros [A B]; now constructor|intros N; inversion N; auto].
Qed.

(** ** folding from the left *)
Lemma fold_lits c s r k V : assoc_sem k V -> (forall v I e, islit r v -> V (eval I e v)) ->
  (forall a b, islit r a -> islit r b -> yields r k [a; b] (simp c k [a; b])) ->
  forall l x, islit r x -> lits r l -> exists v, foldM (fun a y => mkOper c s k [a; y]) x l = Ok v /\ islit r v /\
    (l = [] -> v = x) /\ (l <> [] -> forall I e, op_sem k (map (eval I e) (x :: l)) = Some (eval I e v)).
Proof.
  intros A HV Y. induction l as [|y l IH]; intros x Hx L.
  - exists x. cbn [foldM]. split; [reflexivity|]. split; [exact Hx|]. split; [reflexivity|congruence].
  - inversion L as [|? ? Ly L']; subst. destruct (yields_oper c s r k [x; y] (Y x y Hx Ly)) as (a & E & Ha & S).
    destruct (IH a Ha L') as (v & E' & Hv & N & C). exists v. cbn [foldM]. rewrite E. cbn [bind]. split; [exact E'|]. split; [exact Hv|].
    split; [discriminate|]. intros _ I e. destruct l as [|z l].
    + rewrite (N eq_refl). apply S.
    + rewrite <- (C ltac:(discriminate)). symmetry. cbn [map]. apply A; [discriminate| | |apply S]; apply HV; assumption.
Qed.
Lemma xor_count vs I e : lits EB vs -> xorl (map (eval I e) vs) = Nat.odd (length (filter (fun v => isConst v && isTrue v) vs)).
Proof.
  rewrite xorl_xors, map_map. induction 1 as [|v vs H L IH]; [reflexivity|]. cbn [map xors fold_right filter]. fold (xors (map (fun x => truth (eval I e x)) vs)).
  rewrite IH. destruct (islit_B v H) as (b & ->). rewrite eval_mkB. cbn [truth]. destruct b.
  - change (isConst TRUE && isTrue TRUE) with true. cbv iota. cbn [length]. rewrite Nat.odd_succ, <- Nat.negb_odd. now destruct (Nat.odd _).
  - change (isConst FALSE && isTrue FALSE) with false. cbv iota. now destruct (Nat.odd _).
Qed.
Lemma find_truth (b : bool) vs I e : lits EB vs ->
  match find (if b then isFalse else isTrue) vs with
  | Some v => v = (if b then FALSE else TRUE) /\ (if b then forallb truth (map (eval I e) vs) = false else existsb truth (map (eval I e) vs) = true)
  | None => if b then forallb truth (map (eval I e) vs) = true else existsb truth (map (eval I e) vs) = false
  end.
Proof.
  induction 1 as [|v vs H L IH]; [destruct b; reflexivity|]. destruct (islit_B v H) as (x & ->). cbn [find map forallb existsb]. rewrite eval_mkB. cbn [truth].
  destruct b, x; cbn [isFalse isTrue isk keq t_kind TRUE FALSE sis s_is t_sort andb orb]; try (split; reflexivity); exact IH.
Qed.
