(** Proofs about the collecting traversals. *)
From Verif Require Import Base KindModel SortModel TermModel Sem SemProofs SimpModel OpModel OpSpec OpProofs TraverseModel TraverseSpec TraverseProofs
  ConvModel ConvSpec ConvProofs CommandModel CollectModel CollectSpec.
From Coq Require Import Lia.
Open Scope nat_scope.
Lemma Ok_inj {A} (a b : A) : Ok a = Ok b -> a = b. Proof. congruence. Qed.

Lemma add_In x t l : In x (add t l) <-> x = t \/ In x l.
Proof.
  unfold add. destruct (seen t l) eqn:E; [|cbn; intuition congruence].
  apply seen_In in E. intuition congruence.
Qed.
Lemma add_nodup t l : NoDup l -> NoDup (add t l).
Proof.
  intros H. unfold add. destruct (seen t l) eqn:E; [exact H|]. constructor; [|exact H]. intros X. apply seen_In in X. congruence.
Qed.

Section col.
Variable hit : term -> res bool.
Variable into : term -> bool.
(** [t] reaches [u] *)
Inductive reach (u : term) : term -> Prop :=
| R_here : reach u u
| R_below t x : hit t = Ok false -> into t = true -> In x (t_ch t) -> reach u x -> reach u t.
Definition good (A : sets) (v : term) : Prop :=
  (hit v = Ok true /\ In v (fst A)) \/
  (hit v = Ok false /\ (into v = true -> forall x, In x (t_ch v) -> In x (snd A))).
Definition sub2 (A B : sets) : Prop := incl (fst A) (fst B) /\ incl (snd A) (snd B).
Lemma good_mono A B v : sub2 A B -> good A v -> good B v.
Proof. intros [H K] [[h X]|[h X]]; [left; auto|right; split; [exact h|intros y z w; apply K; now apply X]]. Qed.
Lemma sub2_refl A : sub2 A A. Proof. split; apply incl_refl. Qed.
Lemma sub2_trans A B C : sub2 A B -> sub2 B C -> sub2 A C.
Proof. intros [a b] [c d]. split; eapply incl_tran; eassumption. Qed.
Definition post (roots : list term) (A B : sets) : Prop :=
  sub2 A B /\ (forall t, In t roots -> In t (snd B)) /\
  (forall v, In v (snd B) -> In v (snd A) \/ good B v) /\
  (forall a, In a (fst B) -> In a (fst A) \/ (hit a = Ok true /\ exists t, In t roots /\ reach a t)) /\
  (NoDup (fst A) -> NoDup (fst B)).
Definition okc (t : term) : Prop := forall A B, (forall v, In v (snd A) -> tsize v <= tsize t -> good A v) ->
  collect hit into t A = Ok B -> post [t] A B.
Lemma list_post l : (forall t, In t l -> okc t) -> forall n A B, (forall t, In t l -> tsize t <= n) ->
  (forall v, In v (snd A) -> tsize v <= n -> good A v) ->
  col_list (collect hit into) l A = Ok B -> post l A B.
Proof.
  induction l as [|x l IH]; intros HO n A B HS HG H.
  - cbn in H. apply Ok_inj in H. subst. split; [apply sub2_refl|]. split; [intros t []|]. split; [auto|]. split; auto.
  - cbn [col_list] in H. destruct (collect hit into x A) as [C| | | | |] eqn:E; cbn [bind] in H; try discriminate H.
    fold (col_list (collect hit into)) in H.
    assert (P1 : post [x] A C).
    { apply (HO x (or_introl eq_refl) A C); [|exact E]. intros v Hv Hl. apply HG; [exact Hv|]. specialize (HS x (or_introl eq_refl)). lia. }
    destruct P1 as (S1 & R1 & V1 & A1 & N1).
    assert (P2 : post l C B).
    { apply (IH (fun t Ht => HO t (or_intror Ht)) n C B (fun t Ht => HS t (or_intror Ht))); [|exact H].
      intros v Hv Hl. destruct (V1 v Hv) as [Hv'|G]; [|exact G]. apply (good_mono A C v S1). now apply HG. }
    destruct P2 as (S2 & R2 & V2 & A2 & N2).
    split; [eapply sub2_trans; eassumption|]. split.
    { intros t [ <- | Ht ]; [|now apply R2]. apply S2. apply R1. now left. }
    split.
    { intros v Hv. destruct (V2 v Hv) as [Hc|G]; [|now right]. destruct (V1 v Hc) as [Ha|G]; [now left|]. right. now apply (good_mono C B). }
    split; [|auto].
    intros a Ha. destruct (A2 a Ha) as [Hc|(h & t & Ht & R)].
    + destruct (A1 a Hc) as [Ha'|(h & t & Ht & R)]; [now left|]. right. split; [exact h|]. exists t. split; [|exact R]. destruct Ht as [ <- | [] ]. now left.
    + right. split; [exact h|]. exists t. split; [now right|exact R].
Qed.
Lemma collect_eq t A : collect hit into t A =
  if seen t (snd A) then Ok A
  else b <- hit t ;;
       if b then Ok (add t (fst A), t :: snd A)
       else if into t then col_list (collect hit into) (t_ch t) (fst A, t :: snd A) else Ok (fst A, t :: snd A).
Proof. destruct t. reflexivity. Qed.
Lemma collect_ok t : okc t.
Proof.
  remember (tsize t) as n eqn:En. revert t En. induction n as [n IH] using lt_wf_ind. intros t -> A B HG H.
  rewrite collect_eq in H. destruct (seen t (snd A)) eqn:E.
  { apply Ok_inj in H. subst. apply seen_In in E. split; [apply sub2_refl|].
    split; [intros y [ <- | [] ]; exact E|]. split; [auto|]. split; auto. }
  destruct (hit t) as [b| | | | |] eqn:Eh; cbn [bind] in H; try discriminate H.
  destruct b.
  { apply Ok_inj in H. subst. split; [split; cbn; [intros y Hy; apply add_In; auto|intros y Hy; now right]|]. cbn [fst snd].
    split; [intros y [ <- | [] ]; now left|].
    split; [intros v [ <- | Hv ]; [right; left; split; [exact Eh|apply add_In; now left]|now left]|]. split; [|apply add_nodup].
    intros a Ha. apply add_In in Ha. destruct Ha as [ -> | Ha ]; [right|now left]. split; [exact Eh|]. exists t. split; [now left|constructor]. }
  destruct (into t) eqn:Ei.
  - assert (P : post (t_ch t) (fst A, t :: snd A) B).
    { apply (list_post (t_ch t)) with (n := sizes (t_ch t)); [| | |exact H].
      - intros x Hx. apply (IH (tsize x)); [|reflexivity]. rewrite (tsize_eq t). apply size_in in Hx. lia.
      - intros x Hx. now apply size_in.
      - intros v [ <- | Hv ] Hl; [rewrite tsize_eq in Hl; lia|]. cbn [snd] in Hv.
        apply (good_mono A); [split; cbn; [apply incl_refl|intros y Hy; now right]|]. apply HG; [exact Hv|]. pose proof (tsize_eq t); lia. }
    destruct P as (S1 & R1 & V1 & A1 & N1). cbn [fst snd] in *.
    assert (S0 : sub2 A (fst A, t :: snd A)) by (split; cbn; [apply incl_refl|intros y Hy; now right]).
    split; [eapply sub2_trans; eassumption|]. split.
    { intros y [ <- | [] ]. apply S1. now left. }
    split.
    { intros v Hv. destruct (V1 v Hv) as [[ <- | Ha ]|G]; [|now left|now right].
      right. right. split; [exact Eh|]. intros _ x Hx. now apply R1. }
    split; [|exact N1]. intros a Ha. destruct (A1 a Ha) as [Ha'|(h & x & Hx & R)]; [now left|]. right. split; [exact h|].
    exists t. split; [now left|]. eapply R_below; eassumption.
  - apply Ok_inj in H. subst. split; [split; cbn; [apply incl_refl|intros y Hy; now right]|]. cbn [fst snd].
    split; [intros y [ <- | [] ]; now left|].
    split; [intros v [ <- | Hv ]; [right; right; split; [exact Eh|congruence]|now left]|]. split; auto.
Qed.
Theorem collects_exact ts vars out : collects hit into ts vars = Ok out ->
  (NoDup vars -> NoDup out) /\
  forall x, In x out <-> In x vars \/ (hit x = Ok true /\ exists t, In t ts /\ reach x t).
Proof.
  unfold collects. destruct (col_list (collect hit into) ts (vars, [])) as [B| | | | |] eqn:E; cbn [bind]; intros H; try discriminate H.
  apply Ok_inj in H. subst out.
  assert (P : post ts (vars, []) B).
  { apply (list_post ts) with (n := sizes ts); [intros t _; apply collect_ok|intros t Ht; now apply size_in| |exact E]. intros v []. }
  destruct P as (S1 & R1 & V1 & A1 & N1). cbn [fst snd] in *. split; [exact N1|]. intros x. split; [apply A1|].
  intros [Hx|(h & t & Ht & R)]; [now apply S1|].
  assert (X : In x (snd B)).
  { apply R1 in Ht. clear R1. induction R as [|t y Hf Hi Hy R IH]; [exact Ht|]. apply IH.
    destruct (V1 t Ht) as [[]|[[G _]|[_ G]]]; [congruence|]. now apply G. }
  destruct (V1 x X) as [[]|[[_ G]|[G _]]]; [exact G|congruence].
Qed.
(** the traversal ends *)
Lemma col_total l : (forall t, In t l -> forall A, exists B, collect hit into t A = Ok B) -> forall A, exists B, col_list (collect hit into) l A = Ok B.
Proof.
  induction l as [|x l IH]; intros H A; [eexists; reflexivity|]. cbn [col_list].
  destruct (H x (or_introl eq_refl) A) as [C ->]. cbn [bind]. apply IH. intros t Ht. apply H. now right.
Qed.
Lemma collect_total t : (forall p, subterm p t -> exists b, hit p = Ok b) -> forall A, exists B, collect hit into t A = Ok B.
Proof.
  induction t as [k s n ch IH] using term_ind'. rewrite Forall_forall in IH. intros H A. rewrite collect_eq.
  destruct (seen _ _); [eexists; reflexivity|]. destruct (H _ (Sub_refl _)) as [b ->]. cbn [bind].
  destruct b; [eexists; reflexivity|]. destruct (into _); [|eexists; reflexivity]. cbn [t_ch].
  apply col_total. intros x Hx. apply IH; [exact Hx|]. intros p Hp. apply H. now apply (Sub_ch p x).
Qed.
Lemma collects_total ts vars : (forall t, In t ts -> forall p, subterm p t -> exists b, hit p = Ok b) -> exists out, collects hit into ts vars = Ok out.
Proof.
  intros H. unfold collects. destruct (col_total ts (fun t Ht => collect_total t (H t Ht)) (vars, [])) as [B ->]. eexists. reflexivity.
Qed.
End col.

Lemma reach_outer (f : term -> bool) u t : reach (fun t => Ok (f t)) always u t <-> outer f u t.
Proof.
  split; intros H; induction H as [|t x a b c d]; try constructor.
  - apply Out_below with x; [congruence|assumption|assumption].
  - apply R_below with x; [now rewrite a|reflexivity|assumption|assumption].
Qed.
Lemma reach_atom u t : atom_tests t -> reach isAtom always u t <-> outer atomb u t.
Proof.
  intros T. split; intros H.
  - clear T. induction H as [|t x a b c d]; [constructor|]. apply Out_below with x; [unfold atomb; now rewrite a|assumption|assumption].
  - induction H as [|t x a b c IH]; [constructor|]. apply R_below with x; [|reflexivity|assumption|].
    + destruct (T t (Sub_refl t)) as [v E]. unfold atomb in a. rewrite E in a. now subst.
    + apply IH. intros p Hp. apply T. now apply (Sub_ch p x).
Qed.
Lemma outer_sub f u t : outer f u t -> subterm u t.
Proof. intros H. induction H; [constructor|]. eapply Sub_ch; eassumption. Qed.
Lemma plain_ch t x : plain_vars t -> In x (t_ch t) -> plain_vars x.
Proof. intros H Hx p Hp. apply H. now apply (Sub_ch p x). Qed.
Lemma plain_outer u t : plain_vars t -> subterm u t -> outer isVar u t.
Proof.
  intros P H. induction H as [|u x t Hx Hu IH]; [constructor|].
  apply Out_below with x; [|exact Hx|apply IH; now apply (plain_ch t)].
  destruct (isVar t) eqn:E; [|reflexivity]. destruct (P t (Sub_refl t)) as [K _]. rewrite (K E) in Hx. destruct Hx.
Qed.
Lemma leaf_isVar k s n : is_leaf_var k = true -> k <> NT_FUNC_PARAM -> isVar (T k s n []) = true.
Proof. intros H N. unfold isVar. cbn [t_kind]. destruct k; try discriminate H; try congruence; reflexivity. Qed.
Lemma upd_agree xs : forall vs (e f : env) x, e x = f x -> upd e xs vs x = upd f xs vs x.
Proof.
  induction xs as [|y xs IH]; intros vs e f x H; [exact H|]. destruct vs as [|v vs]; [exact H|]. cbn [upd].
  destruct (teq x y); [reflexivity|]. now apply IH.
Qed.
Lemma vars_decide I t : plain_vars t -> forall e f, (forall x, isVar x = true -> subterm x t -> e x = f x) -> eval I e t = eval I f t.
Proof.
  induction t as [k s n ch IH] using term_ind'. rewrite Forall_forall in IH. intros P e f H.
  destruct ch as [|b xs].
  - cbn. unfold leaf_sem. destruct (is_leaf_var k) eqn:E; [|reflexivity].
    rewrite (H (T k s n [])); [reflexivity| |constructor]. apply leaf_isVar; [exact E|]. apply (P _ (Sub_refl _)).
  - assert (Hm : forall e f, (forall x, isVar x = true -> subterm x (T k s n (b :: xs)) -> e x = f x) -> map (eval I e) (b :: xs) = map (eval I f) (b :: xs)).
    { clear e f H. intros e f H. apply map_ext_in. intros c Hc. apply IH; [exact Hc|now apply (plain_ch (T k s n (b :: xs)))|].
      intros x Hx Hs. apply H; [exact Hx|]. now apply (Sub_ch x c). }
    assert (Hb : forall vs, eval I (upd e xs vs) b = eval I (upd f xs vs) b).
    { intros vs. assert (Y : map (eval I (upd e xs vs)) (b :: xs) = map (eval I (upd f xs vs)) (b :: xs)).
      { apply Hm. intros x Hx Hs. apply upd_agree. now apply H. }
      cbn [map] in Y. now injection Y. }
    destruct (kin k [NT_FORALL; NT_EXISTS]) eqn:K.
    + destruct k; try discriminate K; cbn [eval]; f_equal.
      * apply i_all_ext. intros vs. now rewrite Hb.
      * f_equal. apply i_all_ext. intros vs. now rewrite Hb.
    + assert (forall e, eval I e (T k s n (b :: xs)) = app_sem I k s n (map (eval I e) (b :: xs))) as X by (destruct k; try discriminate K; reflexivity).
      rewrite !X. f_equal. now apply Hm.
Qed.
(** the atoms and the variables outside them decide a quantifier-free term *)
Lemma atoms_decide I t : no_quant t -> (forall p, subterm p t -> t_kind p <> NT_FUNC_PARAM) -> forall e f,
  (forall x, outer atomb x t -> atomb x = true -> eval I e x = eval I f x) ->
  (forall x, outer atomb x t -> isVar x = true -> t_ch x = [] -> e x = f x) -> eval I e t = eval I f t.
Proof.
  induction t as [k s n ch IH] using term_ind'. rewrite Forall_forall in IH. intros Q NP e f H V.
  destruct (atomb (T k s n ch)) eqn:A; [now apply H; [constructor|]|].
  destruct ch as [|b xs].
  - cbn. unfold leaf_sem. destruct (is_leaf_var k) eqn:E; [|reflexivity].
    rewrite (V (T k s n [])); [reflexivity|constructor| |reflexivity]. apply leaf_isVar; [exact E|]. apply (NP _ (Sub_refl _)).
  - assert (forall e, eval I e (T k s n (b :: xs)) = app_sem I k s n (map (eval I e) (b :: xs))) as X.
    { destruct (Q _ (Sub_refl _)) as [Q1 Q2]. cbn [t_kind] in Q1, Q2. destruct k; try reflexivity; congruence. }
    rewrite !X. f_equal. apply map_ext_in. intros x Hx. apply IH; [exact Hx| | | |].
    + intros p Hp. apply Q. now apply (Sub_ch p x).
    + intros p Hp. apply NP. now apply (Sub_ch p x).
    + intros y Hy. apply H. now apply Out_below with x.
    + intros y Hy. apply V. now apply Out_below with x.
Qed.
(** conjuncts *)
Lemma atom_and s n ps : isAtom (T NT_AND s n ps) = Ok false.
Proof. destruct ps; reflexivity. Qed.
Lemma reach_conj u t : reach isAtom (isk NT_AND) u t <-> conjunct u t.
Proof.
  split; intros H.
  - induction H as [|t x a b c d]; [constructor|]. destruct t as [k s n ps]. unfold isk in b. cbn in b. apply DagProofs.keq_spec in b. subst k.
    now apply Cj_and with x.
  - induction H as [|s n ps p Hp H IH]; [constructor|]. apply R_below with p; [apply atom_and|reflexivity|exact Hp|exact IH].
Qed.
Lemma conj_holds I e u t : conjunct u t -> holds I e t = true -> holds I e u = true.
Proof.
  intros H. induction H as [|s n ps p Hp H IH]; [auto|]. rewrite holds_and by (intros ->; destruct Hp). rewrite forallb_forall. auto.
Qed.
Lemma mapM_nnf2 c ts : cfg_ok c -> (forall t, In t ts -> fml c t) -> exists ns, mapM (toNNF c) ts = Ok ns /\
  Forall2 (fun t r => toNNF c t = Ok r /\ forall I e, holds I e r = holds I e t) ts ns.
Proof.
  intros Hc. induction ts as [|t ts IH]; intros H; [exists []; split; [reflexivity|constructor]|].
  destruct (toNNF_ok c t Hc (H t (or_introl eq_refl))) as (r & E & _ & V). destruct IH as (ns & E' & F); [intros x Hx; apply H; now right|].
  exists (r :: ns). cbn [mapM]. rewrite E. cbn [bind]. rewrite E'. split; [reflexivity|constructor; [split; assumption|exact F]].
Qed.

(** ** isUnit *)
Lemma filter_sizes f l : sizes (rev (filter f l)) <= sizes l.
Proof.
  assert (X : forall m, sizes (rev m) = sizes m).
  { induction m as [|x m IH]; [reflexivity|]. cbn [rev]. rewrite sizes_app, IH. change (sizes [x]) with (tsize x + 0). change (sizes (x :: m)) with (tsize x + sizes m). lia. }
  rewrite X. induction l as [|x l IH]; [cbn; lia|]. cbn [filter]. change (sizes (x :: l)) with (tsize x + sizes l).
  destruct (f x); [change (sizes (x :: filter f l)) with (tsize x + sizes (filter f l))|]; lia.
Qed.
Definition covered (t : term) (stack V vars : list term) : Prop :=
  (forall x, In x vars <-> In x V /\ isVar x = true) /\ NoDup vars /\
  (forall x, In x V \/ In x stack -> subterm x t) /\ (In t V \/ In t stack) /\
  (forall v x, In v V -> In x (t_ch v) -> In x V \/ In x stack).
Lemma unit_ok t fuel : forall stack V vars, sizes stack < fuel -> covered t stack V vars -> length vars <= 1 ->
  exists r, unit_loop fuel stack V vars = Ok r /\
    match r with
    | None => exists x y, x <> y /\ isVar x = true /\ isVar y = true /\ subterm x t /\ subterm y t
    | Some vs => length vs <= 1 /\ NoDup vs /\ forall x, In x vs <-> subterm x t /\ isVar x = true
    end.
Proof.
  induction fuel as [|f IH]; intros stack V vars HF C HL; [lia|].
  destruct C as (C1 & C2 & C3 & C4 & C5). cbn [unit_loop]. destruct stack as [|n rest].
  - eexists. split; [reflexivity|]. split; [exact HL|]. split; [exact C2|]. intros x. rewrite C1. split; intros [A B]; split; auto.
    assert (Y : forall u w, subterm u w -> In w V -> In u V).
    { intros u w S. induction S as [|u y w Hy S IHS]; [auto|]. intros Hw. apply IHS. now destruct (C5 w y Hw Hy) as [|[]]. }
    apply (Y x t A). now destruct C4 as [|[]].
  - change (sizes (n :: rest)) with (tsize n + sizes rest) in HF.
    destruct (seen n V) eqn:E.
    + apply IH; [pose proof (tsize_eq n); lia| |exact HL]. apply seen_In in E. split; [exact C1|]. split; [exact C2|]. split; [intros x [Hx|Hx]; apply C3; cbn; auto|].
      split; [destruct C4 as [H|[ -> | H ]]; auto|]. intros v x Hv Hx. destruct (C5 v x Hv Hx) as [H|[ -> | H ]]; auto.
    + assert (HS : sizes (push_new (n :: V) (t_ch n) rest) < f).
      { unfold push_new. rewrite sizes_app. pose proof (filter_sizes (fun x => negb (seen x (n :: V))) (t_ch n)). pose proof (tsize_eq n). lia. }
      assert (PI : forall x, In x (push_new (n :: V) (t_ch n) rest) <-> (In x (t_ch n) /\ ~ In x (n :: V)) \/ In x rest).
      { intros x. unfold push_new. rewrite in_app_iff, <- in_rev, filter_In, negb_true_iff. 
        assert (seen x (n :: V) = false <-> ~ In x (n :: V)) as ->; [|tauto]. rewrite <- seen_In. destruct (seen x (n :: V)); intuition congruence. }
      assert (Hn : subterm n t) by (apply C3; cbn; auto).
      assert (B3 : forall x, In x (n :: V) \/ In x (push_new (n :: V) (t_ch n) rest) -> subterm x t).
      { intros x [[ <- | Hx ]|Hx]; [exact Hn|apply C3; now left|]. apply PI in Hx. destruct Hx as [[Hx _]|Hx]; [|apply C3; right; now right].
        apply (sub_trans x n t); [eapply Sub_ch; [exact Hx|constructor]|exact Hn]. }
      assert (B4 : In t (n :: V) \/ In t (push_new (n :: V) (t_ch n) rest)).
      { destruct C4 as [H|[ <- | H ]]; [left; now right|left; now left|right; apply PI; now right]. }
      assert (B5 : forall v x, In v (n :: V) -> In x (t_ch v) -> In x (n :: V) \/ In x (push_new (n :: V) (t_ch n) rest)).
      { intros v x Hv Hx. destruct (in_dec teq_dec x (n :: V)) as [D|D]; [now left|]. right. apply PI.
        destruct Hv as [ <- | Hv ]; [left; auto|]. destruct (C5 v x Hv Hx) as [H|[ <- | H ]]; [exfalso; apply D; now right|exfalso; apply D; now left|now right]. }
      destruct (isVar n) eqn:EV.
      * assert (NI : ~ In n vars) by (rewrite C1; intros [X _]; apply seen_In in X; congruence).
        assert (EA : add n vars = n :: vars) by (unfold add; destruct (seen n vars) eqn:Y; [apply seen_In in Y; contradiction|reflexivity]).
        rewrite EA. destruct vars as [|w vars].
        -- cbn [length Nat.ltb Nat.leb]. apply IH; [exact HS| |cbn; lia]. split; [|split; [constructor; [intros []|constructor]|split; [exact B3|split; [exact B4|exact B5]]]].
           intros x. cbn [In]. rewrite <- (C1 x) || idtac. specialize (C1 x). cbn [In] in C1. split.
           ++ intros [ <- | [] ]. auto.
           ++ intros [[ <- | Hx ] Hv]; [now left|]. tauto.
        -- cbn [length] in HL |- *. assert (length vars = 0) as L0 by lia. destruct vars; [|discriminate L0]. cbn [length Nat.ltb Nat.leb].
           eexists. split; [reflexivity|]. cbn beta iota. exists n, w. destruct (proj1 (C1 w) (or_introl eq_refl)) as [W1 W2].
           split; [intros ->; apply NI; now left|]. split; [exact EV|]. split; [exact W2|]. split; [exact Hn|apply C3; now left].
      * apply IH; [exact HS| |exact HL]. split; [|split; [exact C2|split; [exact B3|split; [exact B4|exact B5]]]].
        intros x. rewrite C1. cbn [In]. split; [tauto|]. intros [[ <- | Hx ] Hv]; [congruence|auto].
Qed.
Lemma unit_search_ok t : exists r, unit_search t = Ok r /\
    match r with
    | None => exists x y, x <> y /\ isVar x = true /\ isVar y = true /\ subterm x t /\ subterm y t
    | Some vs => length vs <= 1 /\ NoDup vs /\ forall x, In x vs <-> subterm x t /\ isVar x = true
    end.
Proof.
  unfold unit_search. apply unit_ok; [change (sizes [t]) with (tsize t + 0); lia| |cbn; lia].
  split; [intros x; cbn; tauto|]. split; [constructor|]. split; [intros x [[]|[ <- | [] ]]; constructor|]. split; [right; now left|intros v x []].
Qed.

(** ** getNodeCount *)
Lemma remove_len x (l : list term) : In x l -> length (List.remove teq_dec x l) < length l.
Proof. apply remove_length_lt. Qed.
Lemma visit_fold ch : forall q V U n, (forall x, In x ch -> In x V \/ In x U) -> length q + length U <= n ->
  exists q' V' U', fold_left (fun a x => visit_ch (fst a) (snd a) x) ch (q, V) = (q ++ q', V') /\
    length (q ++ q') + length U' <= n /\ (NoDup V -> NoDup V') /\
    (forall x, In x V' <-> In x V \/ In x q') /\ (forall x, In x q' -> In x ch) /\ (forall x, In x ch -> In x V') /\
    (forall x, In x U -> In x V' \/ In x U') .
Proof.
  induction ch as [|c ch IH]; intros q V U n H L.
  - exists [], V, U. cbn [fold_left]. rewrite app_nil_r. split; [reflexivity|]. split; [exact L|]. split; [auto|]. split; [intros x; cbn; tauto|].
    split; [intros x []|]. split; [intros x []|]. auto.
  - cbn [fold_left fst snd]. unfold visit_ch at 2. destruct (seen c V) eqn:E.
    + destruct (IH q V U n (fun x Hx => H x (or_intror Hx)) L) as (q' & V' & U' & A & B & C & D & F & G & K).
      exists q', V', U'. split; [exact A|]. split; [exact B|]. split; [exact C|]. split; [exact D|]. split; [intros x Hx; right; now apply F|].
      split; [|exact K]. intros x [ <- | Hx ]; [|now apply G]. apply D. left. now apply seen_In.
    + assert (NV : ~ In c V) by (intros X; apply seen_In in X; congruence).
      assert (CU : In c U) by (destruct (H c (or_introl eq_refl)); tauto).
      destruct (IH (q ++ [c]) (c :: V) (List.remove teq_dec c U) n) as (q' & V' & U' & A & B & C & D & F & G & K).
      * intros x Hx. destruct (teq_dec c x) as [ <- |N]; [left; now left|]. destruct (H x (or_intror Hx)) as [X|X]; [left; now right|right; apply in_in_remove; [congruence|exact X]].
      * rewrite app_length. pose proof (remove_len c U CU). cbn [length]. lia.
      * exists (c :: q'), V', U'. split; [rewrite A; f_equal; now rewrite <- app_assoc|]. split; [rewrite <- app_assoc in B; exact B|].
        split; [intros Z; apply C; now constructor|]. split; [intros x; rewrite D; cbn [In]; tauto|].
        split; [intros x [ <- | Hx ]; [now left|right; now apply F]|].
        split; [intros x [ <- | Hx ]; [apply D; left; now left|now apply G]|].
        intros x Hx. destruct (teq_dec c x) as [ <- |N]; [left; apply D; left; now left|]. apply K. apply in_in_remove; [congruence|exact Hx].
Qed.
Lemma count_ok rs fuel : forall q V U, length q + length U < fuel -> NoDup V ->
  (forall x, In x V -> exists r, In r rs /\ subterm x r) -> (forall x, In x q -> In x V) -> (forall r, In r rs -> In r V) ->
  (forall v x, In v V -> In x (t_ch v) -> In x V \/ In v q) ->
  (forall x r, In r rs -> subterm x r -> In x V \/ In x U) ->
  exists D, count_loop fuel q V = Ok D /\ subterms_of rs D.
Proof.
  induction fuel as [|f IH]; intros q V U HF ND HV HQ HR HC HU; [lia|]. cbn [count_loop]. destruct q as [|n q].
  - exists V. split; [reflexivity|]. split; [exact ND|]. intros x. split; [apply HV|]. intros (r & Hr & S). apply HR in Hr.
    induction S as [|x y r Hy S IHS]; [exact Hr|]. apply IHS. now destruct (HC r y Hr Hy) as [|[]].
  - assert (Hn : exists r, In r rs /\ subterm n r) by (apply HV, HQ; now left). destruct Hn as (r0 & Hr0 & Sn).
    destruct (visit_fold (t_ch n) q V U (length q + length U)) as (q' & V' & U' & A & B & C & D & F & G & K); [|lia|].
    { intros x Hx. apply (HU x r0 Hr0). apply (sub_trans x n r0); [eapply Sub_ch; [exact Hx|constructor]|exact Sn]. }
    rewrite A. cbn [fst snd]. apply (IH (q ++ q') V' U'); [cbn [length] in HF; lia|now apply C| | | | |].
    + intros x Hx. apply D in Hx. destruct Hx as [Hx|Hx]; [now apply HV|]. exists r0. split; [exact Hr0|].
      apply (sub_trans x n r0); [eapply Sub_ch; [apply F; exact Hx|constructor]|exact Sn].
    + intros x Hx. apply D. apply in_app_or in Hx. destruct Hx as [Hx|Hx]; [left; apply HQ; now right|now right].
    + intros r Hr. apply D. left. now apply HR.
    + intros v x Hv Hx. apply D in Hv. destruct Hv as [Hv|Hv]; [|right; apply in_or_app; now right].
      destruct (HC v x Hv Hx) as [H|[ <- | H ]]; [left; apply D; now left|left; now apply G|right; apply in_or_app; now left].
    + intros x r Hr S. destruct (HU x r Hr S) as [H|H]; [left; apply D; now left|now apply K].
Qed.
Lemma fold_add rs : forall V, NoDup V -> NoDup (fold_left (fun V x => add x V) rs V) /\
  forall x, In x (fold_left (fun V x => add x V) rs V) <-> In x V \/ In x rs.
Proof.
  induction rs as [|r rs IH]; intros V H; [cbn; split; [exact H|tauto]|]. cbn [fold_left].
  destruct (IH (add r V) (add_nodup r V H)) as [A B]. split; [exact A|]. intros x. rewrite B, add_In. cbn [In]. intuition congruence.
Qed.
Lemma preorder_len t : length (preorder t) = tsize t.
Proof.
  induction t as [k s n ch IH] using term_ind'. cbn [preorder]. rewrite tsize_eq. cbn [t_ch length]. f_equal.
  induction IH as [|x l H F IHl]; [reflexivity|]. cbn [flat_map]. rewrite app_length, H, IHl. reflexivity.
Qed.
Lemma node_count_ok rs : exists D, node_count rs = Ok (length D) /\ subterms_of rs D.
Proof.
  unfold node_count. destruct (fold_add rs [] (NoDup_nil _)) as [N F]. 
  destruct (count_ok rs (S (sizes rs)) rs (fold_left (fun V x => add x V) rs []) (flat_map (fun r => flat_map preorder (t_ch r)) rs)) as (D & E & S).
  - clear. assert (Y : length rs + length (flat_map (fun r => flat_map preorder (t_ch r)) rs) = sizes rs).
    { induction rs as [|r rs IH]; [reflexivity|]. cbn [flat_map length]. rewrite app_length. change (sizes (r :: rs)) with (tsize r + sizes rs).
      rewrite <- IH, (tsize_eq r).
      assert (length (flat_map preorder (t_ch r)) = sizes (t_ch r)) as ->; [|lia].
      clear. induction (t_ch r) as [|x l IHl]; [reflexivity|]. cbn [flat_map]. rewrite app_length, preorder_len, IHl. reflexivity. }
    lia.
  - exact N.
  - intros x Hx. apply F in Hx. destruct Hx as [[]|Hx]. exists x. split; [exact Hx|constructor].
  - intros x Hx. apply F. now right.
  - intros x Hx. apply F. now right.
  - intros v x Hv Hx. apply F in Hv. destruct Hv as [[]|Hv]. now right.
  - intros x r Hr S. destruct S as [|x y r Hy S]; [left; apply F; now right|]. right. apply in_flat_map. exists r. split; [exact Hr|].
    apply in_flat_map. exists y. split; [exact Hy|]. now apply preorder_sub.
  - exists D. change (fold_right (fun x a => tsize x + a) 0 rs) with (sizes rs). rewrite E. split; [reflexivity|exact S].
Qed.
Lemma subterms_len rs D D' : subterms_of rs D -> subterms_of rs D' -> length D = length D'.
Proof.
  intros [N H] [N' H']. apply Nat.le_antisymm; apply NoDup_incl_length; try assumption; intros x Hx; [apply H', H|apply H, H']; exact Hx.
Qed.
Lemma objTerm_ok o t : obj_term o t -> objTerm o = Ok t.
Proof.
  intros H. induction H as [|k id o l t Hk H IH]; [reflexivity|]. cbn [objTerm].
  destruct Hk as [ <- | [ <- | [ <- | [ <- | [] ]]]]; cbn [single_kind]; exact IH.
Qed.

Lemma i_all_dom I ss f g : (forall vs, Forall2 (i_dom I) ss vs -> f vs = g vs) -> i_all I ss f = i_all I ss g.
Proof.
  intros H. destruct (i_all I ss f) eqn:E.
  - symmetry. apply i_all_ok. intros vs Hv. rewrite <- (H vs Hv). revert vs Hv. now apply i_all_ok.
  - destruct (i_all I ss g) eqn:F; [|reflexivity].
    rewrite <- E. apply i_all_ok. intros vs Hv. rewrite (H vs Hv). revert vs Hv. now apply i_all_ok.
Qed.
