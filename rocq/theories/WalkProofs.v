(** Memoised rewriting: node replacement. *)
From Coq Require Import Permutation.
From Verif Require Import Base KindModel SortModel TermModel Sem SemProofs SimpModel OpModel OpSpec ConvModel ConvSpec.
Open Scope Z_scope.

Lemma mfind_cons t a b V : mfind t ((a, b) :: V) = if teq t a then Some b else mfind t V.
Proof. reflexivity. Qed.
Lemma mfind_same t b V : mfind t ((t, b) :: V) = Some b.
Proof. cbn. now rewrite teq_refl. Qed.
Lemma mfind_in t u V : mfind t V = Some u -> In (t, u) V.
Proof.
  induction V as [|[a b] V IH]; cbn; [discriminate|]. destruct (teq t a) eqn:E; [|auto].
  apply teq_spec in E. intros H. injection H as <-. left. now subst.
Qed.
(** the loop over the children *)
Definition walks (c : cfg) (sel : term -> option (res act)) : list term -> memo -> res (list term * bool * memo * list term) :=
  fix go (l : list term) (V : memo) :=
    match l with
    | [] => Ok ([], false, V, [])
    | x :: l' =>
        p <- walk c sel x V ;;
        let '(u, b, V1, ls) := p in
        p' <- go l' V1 ;;
        let '(us, b', V2, ls') := p' in
        Ok (u :: us, b || b', V2, ls ++ ls')
    end.
Lemma walk_eq c sel k s n ch V : walk c sel (T k s n ch) V =
  match mfind (T k s n ch) V with
  | Some u => Ok (u, false, V, [])
  | None =>
      match sel (T k s n ch) with
      | Some r => a <- r ;; Ok (a_res a, a_chg a, if a_memo a then (T k s n ch, a_res a) :: V else V, a_lem a)
      | None => q <- walks c sel ch V ;;
                let '(us, b, V', ls) := q in
                if b : bool then u <- mkOper c s k us ;; Ok (u, true, (T k s n ch, u) :: V', ls)
                else Ok (T k s n ch, false, (T k s n ch, T k s n ch) :: V', ls)
      end
  end.
Proof. reflexivity. Qed.
Lemma walks_cons c sel x l V : walks c sel (x :: l) V =
  (p <- walk c sel x V ;; let '(u, b, V1, ls) := p in
   p' <- walks c sel l V1 ;; let '(us, b', V2, ls') := p' in Ok (u :: us, b || b', V2, ls ++ ls')).
Proof. reflexivity. Qed.

(** ** every result is a partial replacement *)
Definition sound_sel (sel : term -> option (res act)) (m : term -> option term) : Prop :=
  forall t a, sel t = Some (Ok a) -> m t = Some (a_res a).
Definition memo_ok (c : cfg) (m : term -> option term) (V : memo) : Prop := forall t u, In (t, u) V -> replaced c m t u.
Lemma walk_replaced c sel m : sound_sel sel m -> forall t V u b V' ls, memo_ok c m V ->
  walk c sel t V = Ok (u, b, V', ls) -> replaced c m t u /\ memo_ok c m V'.
Proof.
  intros HS. induction t as [k s n ch IH] using term_ind'. intros V u b V' ls HV H. rewrite walk_eq in H.
  destruct (mfind (T k s n ch) V) as [w|] eqn:F.
  { injection H as <- <- <- <-. split; [apply HV; now apply mfind_in|exact HV]. }
  destruct (sel (T k s n ch)) as [r|] eqn:S.
  { destruct r as [a| | | | |]; cbn [bind] in H; try discriminate H. injection H as <- <- <- <-.
    pose proof (HS _ _ S) as M. split; [now apply R_key|]. destruct (a_memo a); [|exact HV].
    intros t0 u0 [E|E]; [injection E as <- <-; now apply R_key|now apply HV]. }
  assert (WS : forall l V us b V' ls, Forall (fun x => forall V u b V' ls, memo_ok c m V -> walk c sel x V = Ok (u, b, V', ls) -> replaced c m x u /\ memo_ok c m V') l ->
    memo_ok c m V -> walks c sel l V = Ok (us, b, V', ls) -> Forall2 (replaced c m) l us /\ memo_ok c m V').
  { clear. induction l as [|x l IHl]; intros V us b V' ls HF HV H.
    - injection H as <- <- <- <-. split; [constructor|exact HV].
    - rewrite walks_cons in H. inversion HF as [|? ? Hx Hl]; subst.
      destruct (walk c sel x V) as [[[[w bw] V1] l1]| | | | |] eqn:E1; cbn [bind] in H; try discriminate H.
      destruct (Hx V w bw V1 l1 HV E1) as [R1 HV1].
      destruct (walks c sel l V1) as [[[[ws bws] V2] l2]| | | | |] eqn:E2; cbn [bind] in H; try discriminate H.
      injection H as <- <- <- <-. destruct (IHl V1 ws bws V2 l2 Hl HV1 E2) as [R2 HV2]. split; [now constructor|exact HV2]. }
  destruct (walks c sel ch V) as [[[[us bs] V1] l1]| | | | |] eqn:E; cbn [bind] in H; try discriminate H.
  destruct (WS ch V us bs V1 l1 IH HV E) as [R HV1]. destruct bs.
  - destruct (mkOper c s k us) as [w| | | | |] eqn:M; cbn [bind] in H; try discriminate H. injection H as <- <- <- <-.
    assert (X : replaced c m (T k s n ch) w) by (eapply R_node; eassumption). split; [exact X|].
    intros t0 u0 [E0|E0]; [injection E0 as <- <-; exact X|now apply HV1].
  - injection H as <- <- <- <-. split; [apply R_same|]. intros t0 u0 [E0|E0]; [injection E0 as <- <-; apply R_same|now apply HV1].
Qed.

(** ** complete replacement when no key occurs twice *)
Definition exact_sel (sel : term -> option (res act)) (m : term -> option term) (r : term) : Prop :=
  forall t, subterm t r -> sel t = match m t with Some u => Some (Ok (Act u true true [])) | None => None end.
(** what [visited] contains after the keys [H] have been replaced *)
Definition memo_ex (c : cfg) (m : term -> option term) (H : list term) (V : memo) : Prop :=
  forall t u, In (t, u) V -> replace_all c m t = Ok u /\ incl (keys_in m t) H.
Definition has {A} (l : list A) : bool := match l with [] => false | _ => true end.
Lemma NoDup_app_incl {A} (H l : list A) : NoDup (H ++ l) -> incl l H -> l = [].
Proof.
  intros N I. destruct l as [|x l]; [reflexivity|exfalso]. apply NoDup_remove_2 in N. apply N. apply in_or_app. left. apply I. now left.
Qed.
Lemma replace_none c m t : keys_in m t = [] -> replace_all c m t = Ok t.
Proof. destruct t as [k s n ch]. cbn. destruct (m (T k s n ch)); [discriminate|]. intros ->. reflexivity. Qed.
Definition replaces (c : cfg) (m : term -> option term) : list term -> res (list term) :=
  fix go (l : list term) := match l with [] => Ok [] | x :: l' => u <- replace_all c m x ;; us <- go l' ;; Ok (u :: us) end.
Lemma replaces_none c m l : flat_map (keys_in m) l = [] -> replaces c m l = Ok l.
Proof.
  induction l as [|x l IH]; cbn; [reflexivity|]. intros H. apply app_eq_nil in H. destruct H as [H1 H2].
  rewrite (replace_none c m x H1). cbn [bind]. fold (replaces c m). now rewrite (IH H2).
Qed.
Lemma NoDup_app_left {A} (a b : list A) : NoDup (a ++ b) -> NoDup a.
Proof. induction a as [|x a IH]; cbn; [constructor|]. intros H. inversion H as [|? ? N R]; subst. constructor; [intros F; apply N; apply in_or_app; now left|now apply IH]. Qed.
Lemma walk_exact c sel m : forall t, exact_sel sel m t -> forall V H, memo_ex c m H V -> NoDup (H ++ keys_in m t) ->
  match replace_all c m t with
  | Ok u => exists V' ls, walk c sel t V = Ok (u, has (keys_in m t), V', ls) /\ memo_ex c m (H ++ keys_in m t) V'
  | r => walk c sel t V = (x <- r ;; Ok (x, false, V, []))
  end.
Proof.
  induction t as [k s n ch IH] using term_ind'. intros HS V H HV ND. rewrite walk_eq.
  destruct (mfind (T k s n ch) V) as [w|] eqn:F.
  { apply mfind_in in F. destruct (HV _ _ F) as [E I]. pose proof (NoDup_app_incl _ _ ND I) as K.
    rewrite E, K. rewrite app_nil_r. exists V, []. split; [reflexivity|exact HV]. }
  rewrite (HS _ (Sub_refl _)). destruct (m (T k s n ch)) as [w|] eqn:M.
  { assert (K : keys_in m (T k s n ch) = [T k s n ch]) by (cbn; now rewrite M).
    assert (E : replace_all c m (T k s n ch) = Ok w) by (cbn; now rewrite M).
    rewrite E, K. cbn [bind a_res a_chg a_memo a_lem]. eexists _, _. split; [reflexivity|].
    intros t0 u0 [E0|E0].
    - injection E0 as <- <-. rewrite K. split; [exact E|]. intros x Hx. apply in_or_app. now right.
    - destruct (HV _ _ E0) as [A B]. split; [exact A|]. intros x Hx. apply in_or_app. left. now apply B. }
  assert (K : keys_in m (T k s n ch) = flat_map (keys_in m) ch) by (cbn; now rewrite M).
  rewrite K in ND |- *.
  assert (WS : forall l V H, Forall (fun t => exact_sel sel m t -> forall V H, memo_ex c m H V -> NoDup (H ++ keys_in m t) ->
      match replace_all c m t with
      | Ok u => exists V' ls, walk c sel t V = Ok (u, has (keys_in m t), V', ls) /\ memo_ex c m (H ++ keys_in m t) V'
      | r => walk c sel t V = (x <- r ;; Ok (x, false, V, []))
      end) l -> Forall (exact_sel sel m) l -> memo_ex c m H V -> NoDup (H ++ flat_map (keys_in m) l) ->
    match replaces c m l with
    | Ok us => exists V' ls, walks c sel l V = Ok (us, has (flat_map (keys_in m) l), V', ls) /\ memo_ex c m (H ++ flat_map (keys_in m) l) V'
    | r => walks c sel l V = (x <- r ;; Ok (x, false, V, []))
    end).
  { clear. induction l as [|x l IHl]; intros V H HF HE HV ND.
    - cbn. eexists _, _. split; [reflexivity|]. now rewrite app_nil_r.
    - inversion HF as [|? ? Hx Hl]; subst. inversion HE as [|? ? Ex El]; subst. cbn [flat_map] in ND. rewrite walks_cons. cbn [replaces]. fold (replaces c m).
      rewrite app_assoc in ND. pose proof (NoDup_app_left _ _ ND) as ND1. specialize (Hx Ex V H HV ND1).
      destruct (replace_all c m x) as [u| | | | |]; cbn [bind]; try (rewrite Hx; reflexivity).
      destruct Hx as (V1 & l1 & -> & HV1). cbn [bind]. specialize (IHl V1 (H ++ keys_in m x) Hl El HV1 ND).
      destruct (replaces c m l) as [us| | | | |]; cbn [bind]; try (rewrite IHl; reflexivity).
      destruct IHl as (V2 & l2 & -> & HV2). cbn [bind]. eexists _, _. split.
      + replace (has (flat_map (keys_in m) (x :: l))) with (has (keys_in m x) || has (flat_map (keys_in m) l)); [reflexivity|].
        cbn [flat_map]. now destruct (keys_in m x).
      + cbn [flat_map]. rewrite app_assoc. exact HV2. }
  assert (HE : Forall (exact_sel sel m) ch).
  { apply Forall_forall. intros x Hx p Hp. apply HS. now apply (Sub_ch p x). }
  specialize (WS ch V H IH HE HV ND).
  assert (RE : replace_all c m (T k s n ch) = match flat_map (keys_in m) ch with [] => Ok (T k s n ch) | _ => us <- replaces c m ch ;; mkOper c s k us end).
  { cbn [replace_all]. rewrite M. reflexivity. }
  assert (KI : forall V', memo_ex c m (H ++ flat_map (keys_in m) ch) V' -> forall w, replace_all c m (T k s n ch) = Ok w ->
     memo_ex c m (H ++ flat_map (keys_in m) ch) ((T k s n ch, w) :: V')).
  { intros V' HV' w Ew t0 u0 [E0|E0]; [|now apply HV']. injection E0 as <- <-. split; [exact Ew|]. rewrite K. intros x Hx. apply in_or_app. now right. }
  destruct (flat_map (keys_in m) ch) as [|y ys] eqn:FM.
  - rewrite (replaces_none c m ch FM) in WS. destruct WS as (V1 & l1 & -> & HV1). cbn [bind has]. rewrite RE.
    eexists _, _. split; [reflexivity|]. now apply KI.
  - rewrite RE. destruct (replaces c m ch) as [us| | | | |]; cbn [bind]; try (rewrite WS; reflexivity).
    destruct WS as (V1 & l1 & -> & HV1). cbn [bind has]. destruct (mkOper c s k us) as [w| | | | |] eqn:MO; cbn [bind]; try reflexivity.
    eexists _, _. split; [reflexivity|]. apply KI; [exact HV1|]. rewrite RE. cbn [bind]. exact MO.
Qed.
Lemma sel_nodes_exact m r : exact_sel (sel_nodes m) (fun t => mfind t m) r.
Proof. intros t _. reflexivity. Qed.
Theorem replaceNodes_all c m t : NoDup (keys_in (fun x => mfind x m) t) -> replaceNodes c m t = replace_all c (fun x => mfind x m) t.
Proof.
  intros ND. unfold replaceNodes. pose proof (walk_exact c _ _ t (sel_nodes_exact m t) [] []) as W.
  assert (HV : memo_ex c (fun x => mfind x m) [] []) by (intros ? ? []). specialize (W HV ND).
  destruct (replace_all c (fun x => mfind x m) t) as [u| | | | |] eqn:E; try (rewrite W; reflexivity).
  destruct W as (V' & ls & -> & _). cbn [bind]. destruct (keys_in (fun x => mfind x m) t) eqn:K; cbn [has]; [|reflexivity].
  rewrite (replace_none c _ t K) in E. congruence.
Qed.
Theorem replaceNodes_some c m t u : replaceNodes c m t = Ok u -> replaced c (fun x => mfind x m) t u.
Proof.
  unfold replaceNodes. intros H. destruct (walk c (sel_nodes m) t []) as [[[[w b] V] ls]| | | | |] eqn:E; cbn [bind] in H; try discriminate H.
  injection H as <-. destruct b; [|apply R_same].
  refine (proj1 (walk_replaced c (sel_nodes m) (fun x => mfind x m) _ t [] w true V ls _ E)); [|intros ? ? []].
  intros x a. unfold sel_nodes. destruct (mfind x m); [|discriminate]. intros X. now injection X as <-.
Qed.
Theorem replaceNodes_none c m t : keys_in (fun x => mfind x m) t = [] -> replaceNodes c m t = Ok t.
Proof. intros K. rewrite replaceNodes_all by (rewrite K; constructor). now apply replace_none. Qed.

(** atoms: the map restricted to atoms *)
Definition atom_map (m : memo) (t : term) : option term := match isAtom t with Ok true => mfind t m | _ => None end.
Lemma sel_atoms_exact m t : (forall p, subterm p t -> exists b, isAtom p = Ok b) -> exact_sel (sel_atoms m) (atom_map m) t.
Proof.
  intros H p Hp. destruct (H p Hp) as (b & E). unfold sel_atoms, atom_map, sel_nodes. rewrite E. now destruct b.
Qed.
Theorem replaceAtoms_all c m t : (forall p, subterm p t -> exists b, isAtom p = Ok b) -> NoDup (keys_in (atom_map m) t) ->
  replaceAtoms c m t = replace_all c (atom_map m) t.
Proof.
  intros HA ND. unfold replaceAtoms. pose proof (walk_exact c _ _ t (sel_atoms_exact m t HA) [] []) as W.
  assert (HV : memo_ex c (atom_map m) [] []) by (intros ? ? []). specialize (W HV ND).
  destruct (replace_all c (atom_map m) t) as [u| | | | |] eqn:E; try (rewrite W; reflexivity).
  destruct W as (V' & ls & -> & _). cbn [bind]. destruct (keys_in (atom_map m) t) eqn:K; cbn [has]; [|reflexivity].
  rewrite (replace_none c _ t K) in E. congruence.
Qed.
Theorem replaceAtoms_some c m t u : replaceAtoms c m t = Ok u -> replaced c (atom_map m) t u.
Proof.
  unfold replaceAtoms. intros H. destruct (walk c (sel_atoms m) t []) as [[[[w b] V] ls]| | | | |] eqn:E; cbn [bind] in H; try discriminate H.
  injection H as <-. destruct b; [|apply R_same].
  refine (proj1 (walk_replaced c (sel_atoms m) (atom_map m) _ t [] w true V ls _ E)); [|intros ? ? []].
  intros x a. unfold sel_atoms, atom_map, sel_nodes. destruct (isAtom x) as [[|]| | | | |]; try discriminate.
  destruct (mfind x m); [|discriminate]. intros X. now injection X as <-.
Qed.
