(** The stack-based traversals compute the recursion. *)
From Verif Require Import Base KindModel SortModel TermModel SemProofs OpModel SimpModel ConvModel WalkProofs PostModel.

Section Post.
Context (skip : bool) (leaf : term -> option (res term)) (drop : term -> bool) (build : term -> list term -> res term).
Notation post := (post leaf drop build).
Notation loop := (post_loop skip leaf drop build).
Notation kids := (kids drop).

Lemma post_eq t : post t = match leaf t with Some r => r | None => us <- mapR post (kids t) ;; build t us end.
Proof. destruct t as [k s n ch]. cbn [PostModel.post]. destruct (leaf (T k s n ch)); [reflexivity|]. unfold PostModel.kids. destruct (drop (T k s n ch)); [|reflexivity]. now destruct ch. Qed.

Definition sound (V : memo) : Prop := forall t u, mfind t V = Some u -> post t = Ok u.
Definition grows (V W : memo) : Prop := forall t, known V t = true -> known W t = true.
Lemma sound_cons t u V : sound V -> post t = Ok u -> sound ((t, u) :: V).
Proof. intros H E x y. rewrite mfind_cons. destruct (teq x t) eqn:X; [|apply H]. apply teq_spec in X. subst. intros Q. injection Q as <-. exact E. Qed.
Lemma grows_cons t u V : grows V ((t, u) :: V).
Proof. intros x. unfold known. rewrite mfind_cons. now destruct (teq x t). Qed.
Lemma known_same t u V : known ((t, u) :: V) t = true.
Proof. unfold known. now rewrite mfind_same. Qed.
Lemma known_post V t : sound V -> known V t = true -> exists u, post t = Ok u /\ mfind t V = Some u.
Proof. intros H. unfold known. destruct (mfind t V) as [u|] eqn:E; [|discriminate]. intros _. exists u. split; [now apply H|reflexivity]. Qed.
Lemma lookups_ok V l us : sound V -> (forall x, In x l -> known V x = true) -> mapR post l = Ok us -> lookups V l = Ok us.
Proof.
  intros H. revert us. induction l as [|x l IH]; intros us K E; cbn in *; [exact E|].
  destruct (known_post V x H (K x (or_introl eq_refl))) as (u & P & M). rewrite M. rewrite P in E. cbn [bind] in *.
  destruct (mapR post l) as [vs| | | | |]; cbn [bind] in E; try discriminate E. rewrite (IH vs); [exact E|intros y Hy; apply K; now right|reflexivity].
Qed.
Lemma loop_done t rest V : sound V -> leaf t = None -> (forall x, In x (kids t) -> known V x = true) ->
  exists V', sound V' /\ grows V V' /\ (forall u, post t = Ok u -> known V' t = true) /\
  forall f, loop (S f) ((t, true) :: rest) V = (u <- post t ;; loop f rest V').
Proof.
  intros H L K. cbn [PostModel.post_loop]. destruct (skip && known V t) eqn:SK.
  - apply andb_true_iff in SK. destruct SK as [_ SK]. destruct (known_post V t H SK) as (u & P & M). exists V. split; [exact H|]. split; [intros x Hx; exact Hx|]. split; [auto|]. intros f. rewrite P. reflexivity.
  - rewrite (post_eq t), L.
    assert (Q : exists us, mapR post (kids t) = Ok us).
    { clear -H K. induction (kids t) as [|x l IH]; cbn; [now exists []|]. destruct (known_post V x H (K x (or_introl eq_refl))) as (u & -> & _).
      destruct IH as (us & ->); [intros y Hy; apply K; now right|]. cbn. now exists (u :: us). }
    destruct Q as (us & Q). rewrite (lookups_ok V _ us H K Q), Q. cbn [bind]. destruct (build t us) as [u| | | | |] eqn:B; cbn [bind].
    1: { exists ((t, u) :: V). split; [apply sound_cons; [exact H|rewrite post_eq, L, Q; exact B]|]. split; [apply grows_cons|]. split; [intros; apply known_same|reflexivity]. }
    all: exists V; split; [exact H|]; split; [intros x Hx; exact Hx|]; split; [intros u X; discriminate X|reflexivity].
Qed.
Definition lsize (l : list term) : nat := fold_right (fun x a => tsize x + a)%nat O l.
Lemma kids_size k s n ch : (lsize (kids (T k s n ch)) < tsize (T k s n ch))%nat.
Proof. unfold PostModel.kids, lsize. cbn [t_ch tsize]. destruct (drop (T k s n ch)); [|lia]. destruct ch as [|x l]; cbn [tl fold_right]; lia. Qed.
Definition steps (t : term) : Prop := forall V rest, sound V -> exists n V', (n <= 2 * tsize t)%nat /\ sound V' /\ grows V V' /\
  (forall u, post t = Ok u -> known V' t = true) /\ forall f, loop (n + f) ((t, false) :: rest) V = (u <- post t ;; loop f rest V').
Definition pend (W : memo) (l : list term) : list (term * bool) := map (fun x => (x, false)) (filter (fun x => negb (skip && known W x)) l).
Lemma steps_list l : Forall steps l -> forall W V rest, sound W -> sound V -> grows W V -> exists n V', (n <= 2 * lsize l)%nat /\ sound V' /\ grows V V' /\
  (forall us, mapR post l = Ok us -> forall x, In x l -> known V' x = true) /\ forall f, loop (n + f) (pend W l ++ rest) V = (us <- mapR post l ;; loop f rest V').
Proof.
  induction 1 as [|x l Hx Hl IH]; intros W V rest HW HV G.
  - exists O, V. split; [cbn; lia|]. split; [exact HV|]. split; [intros x; auto|]. split; [intros us _ x []|reflexivity].
  - unfold pend. cbn [filter]. destruct (skip && known W x) eqn:SK; cbn [negb].
    + apply andb_true_iff in SK. destruct SK as [_ SK]. destruct (known_post W x HW SK) as (u & P & M).
      destruct (IH W V rest HW HV G) as (n & V' & Hn & HV' & G' & K & E). exists n, V'. split; [unfold lsize in *; cbn [fold_right]; lia|]. split; [exact HV'|]. split; [exact G'|].
      cbn [mapR]. rewrite P. cbn [bind]. split.
      * intros us. fold (mapR post l). destruct (mapR post l) as [vs| | | | |]; intros Q y Hy; try discriminate Q. destruct Hy as [ <- | Hy ]; [apply G', G, SK|now apply (K vs)].
      * intros f. fold (pend W l). rewrite E. fold (mapR post l). destruct (mapR post l); reflexivity.
    + cbn [map]. destruct (Hx V (pend W l ++ rest) HV) as (n1 & V1 & Hn1 & HV1 & G1 & K1 & E1).
      destruct (post x) as [u| | | | |] eqn:P.
      { destruct (IH W V1 rest HW HV1) as (n2 & V2 & Hn2 & HV2 & G2 & K2 & E2); [intros y Hy; now apply G1, G|].
        exists (n1 + n2)%nat, V2. split; [unfold lsize in *; cbn [fold_right]; lia|]. split; [exact HV2|]. split; [intros y Hy; now apply G2, G1|].
        cbn [mapR]. rewrite P. cbn [bind]. split.
        - intros us. fold (mapR post l). destruct (mapR post l) as [vs| | | | |]; intros Q y Hy; try discriminate Q. destruct Hy as [ <- | Hy ]; [apply G2; now apply (K1 u)|now apply (K2 vs)].
        - intros f. rewrite <- Nat.add_assoc. cbn [app]. fold (pend W l). rewrite E1. cbn [bind]. rewrite E2. fold (mapR post l). destruct (mapR post l); reflexivity. }
      all: exists n1, V1; split; [unfold lsize; cbn [fold_right]; lia|]; split; [exact HV1|]; split; [exact G1|]; cbn [mapR]; rewrite P; cbn [bind]; split;
        [intros us X; discriminate X|intros f; cbn [app]; fold (pend W l); rewrite E1; reflexivity].
Qed.
Lemma steps_all t : steps t.
Proof.
  induction t as [k s n ch IH] using term_ind'. intros V rest HV.
  destruct (skip && known V (T k s n ch)) eqn:SK.
  { pose proof SK as S'. apply andb_true_iff in SK. destruct SK as [_ SK]. destruct (known_post V _ HV SK) as (u & P & M). exists 1%nat, V. split; [cbn [tsize]; lia|].
    split; [exact HV|]. split; [intros x; auto|]. split; [auto|]. intros f. cbn [PostModel.post_loop Nat.add]. rewrite S', P. reflexivity. }
  destruct (leaf (T k s n ch)) as [r|] eqn:L.
  { assert (P : post (T k s n ch) = r) by (now rewrite post_eq, L). rewrite P.
    destruct r as [u| | | | |].
    1: { exists 1%nat, ((T k s n ch, u) :: V). split; [cbn [tsize]; lia|]. split; [now apply sound_cons|]. split; [apply grows_cons|]. split; [intros; apply known_same|].
         intros f. cbn [PostModel.post_loop Nat.add]. rewrite SK, L. reflexivity. }
    all: exists 1%nat, V; split; [cbn [tsize]; lia|]; split; [exact HV|]; split; [intros x; auto|]; split; [intros u X; discriminate X|];
      intros f; cbn [PostModel.post_loop Nat.add]; rewrite SK, L; reflexivity. }
  assert (IK : Forall steps (kids (T k s n ch))).
  { unfold PostModel.kids. cbn [t_ch]. destruct (drop (T k s n ch)); [|exact IH]. destruct IH; [constructor|assumption]. }
  destruct (steps_list _ IK V V ((T k s n ch, true) :: rest) HV HV (fun _ X => X)) as (m & V1 & Hm & HV1 & G1 & K1 & E1).
  pose proof (kids_size k s n ch) as KS.
  destruct (mapR post (kids (T k s n ch))) as [us| | | | |] eqn:Q.
  1: { destruct (loop_done (T k s n ch) rest V1 HV1 L) as (V2 & HV2 & G2 & K2 & E2); [now apply (K1 us)|].
       exists (S (m + 1)), V2. split; [lia|]. split; [exact HV2|]. split; [intros x Hx; now apply G2, G1|]. split; [exact K2|].
       intros f. rewrite Nat.add_succ_l. cbn [PostModel.post_loop]. rewrite SK, L. fold (pend V (kids (T k s n ch))). rewrite <- Nat.add_assoc, E1. cbn [bind Nat.add].
       apply E2. }
  all: exists (S m), V1; split; [lia|]; split; [exact HV1|]; split; [exact G1|]; rewrite (post_eq (T k s n ch)), L, Q; cbn [bind]; split;
    [intros u X; discriminate X|]; intros f; rewrite Nat.add_succ_l; cbn [PostModel.post_loop]; rewrite SK, L; fold (pend V (kids (T k s n ch))); rewrite E1; reflexivity.
Qed.
(** the loop returns what the recursion returns, errors included *)
Lemma post_run_eq t : post_run skip leaf drop build t = post t.
Proof.
  unfold post_run. destruct (steps_all t [] []) as (n & V' & Hn & HV & _ & K & E); [intros x y; discriminate|].
  replace (S (2 * tsize t)) with (n + S (2 * tsize t - n))%nat by lia. rewrite E. destruct (post t) as [u| | | | |] eqn:P; cbn [bind PostModel.post_loop]; try reflexivity.
  destruct (known_post V' t HV (K u eq_refl)) as (w & Q & M). rewrite M. congruence.
Qed.
End Post.
