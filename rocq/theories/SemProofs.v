(** Basic facts about terms and their meaning. *)
From Coq Require Import QArith Qcanon Qround.
From Verif Require Import Base KindModel SortModel SortProofs DagProofs BVProofs2 TermModel BVSpec Sem.
Open Scope Z_scope.

(** ** induction on terms and sorts *)
Lemma term_ind' (P : term -> Prop) :
  (forall k s n ch, Forall P ch -> P (T k s n ch)) -> forall t, P t.
Proof.
  intros H. fix IH 1. intros [k s n ch]. apply H.
  induction ch as [|c ch IHc]; constructor; [apply IH|exact IHc].
Qed.
Lemma sort_ind' (P : sort -> Prop) :
  (forall k n a ch, Forall P ch -> P (Srt k n a ch)) -> forall t, P t.
Proof.
  intros H. fix IH 1. intros [k n a ch]. apply H.
  induction ch as [|c ch IHc]; constructor; [apply IH|exact IHc].
Qed.

Lemma sort_same_spec a : forall b, sort_same a b = true <-> a = b.
Proof.
  induction a as [k n a ch IH] using sort_ind'. intros [k' n' a' ch'].
  cbn [sort_same]. rewrite !andb_true_iff, skeq_spec, seq_str_spec, Z.eqb_eq.
  match goal with |- (_ /\ ?g ch ch' = true) <-> _ => assert (G : g ch ch' = true <-> ch = ch') end.
  { revert ch'. induction IH as [|c ch Hc _ IHl]; intros [|d ch']; try (split; congruence).
    rewrite andb_true_iff, Hc, IHl. split; [intros [-> ->]; reflexivity|intros E; injection E; auto]. }
  rewrite G. split; [intros [[[-> ->] ->] ->]; reflexivity|intros E; injection E; intuition congruence].
Qed.
Lemma teq_spec a : forall b, teq a b = true <-> a = b.
Proof.
  induction a as [k s n ch IH] using term_ind'. intros [k' s' n' ch'].
  cbn [teq]. rewrite !andb_true_iff, keq_spec, seq_str_spec, sort_same_spec.
  match goal with |- (_ /\ ?g ch ch' = true) <-> _ => assert (G : g ch ch' = true <-> ch = ch') end.
  { revert ch'. induction IH as [|c ch Hc _ IHl]; intros [|d ch']; try (split; congruence).
    rewrite andb_true_iff, Hc, IHl. split; [intros [-> ->]; reflexivity|intros E; injection E; auto]. }
  rewrite G. split; [intros [[[-> ->] ->] ->]; reflexivity|intros E; injection E; intuition congruence].
Qed.
Lemma teq_refl a : teq a a = true.
Proof. now apply teq_spec. Qed.
Lemma teq_dec (a b : term) : {a = b} + {a <> b}.
Proof.
  destruct (teq a b) eqn:E; [left; now apply teq_spec|right].
  intros H. apply teq_spec in H. congruence.
Qed.

(** ** value equality *)
Lemma fpv_eqb_spec a b : fpv_eqb a b = true <-> a = b.
Proof.
  destruct a, b; cbn; try (split; congruence).
  - rewrite Bool.eqb_true_iff. split; congruence.
  - rewrite andb_true_iff, Bool.eqb_true_iff. destruct (Qc_eq_dec q q0); split; intuition congruence.
Qed.
Lemma veqb_spec a b : veqb a b = true <-> a = b.
Proof.
  destruct a, b; cbn; try (split; congruence).
  - rewrite Bool.eqb_true_iff. split; congruence.
  - destruct (Qc_eq_dec q q0); split; congruence.
  - rewrite andb_true_iff, Nat.eqb_eq, Z.eqb_eq. split; [intros [-> ->]; reflexivity|intros E; injection E; auto].
  - destruct (list_eq_dec ascii_dec s s0); split; congruence.
  - rewrite fpv_eqb_spec. split; congruence.
  - rewrite Z.eqb_eq. split; congruence.
Qed.
Lemma veqb_refl a : veqb a a = true.
Proof. now apply veqb_spec. Qed.
Lemma veqb_sym a b : veqb a b = veqb b a.
Proof.
  destruct (veqb a b) eqn:E.
  - apply veqb_spec in E. subst. now rewrite veqb_refl.
  - destruct (veqb b a) eqn:F; [|reflexivity]. apply veqb_spec in F. subst. now rewrite veqb_refl in E.
Qed.

(** ** orders *)
Lemma Qcleb_spec a b : Qcleb a b = true <-> (a <= b)%Qc.
Proof.
  unfold Qcleb. destruct (Qclt_le_dec b a) as [H|H]; split; try tauto; try discriminate.
  intros K. exfalso. exact (Qclt_not_le _ _ H K).
Qed.
Lemma Qcltb_spec a b : Qcltb a b = true <-> (a < b)%Qc.
Proof.
  unfold Qcltb. destruct (Qclt_le_dec a b) as [H|H]; split; try tauto; try discriminate.
  intros K. exfalso. exact (Qclt_not_le _ _ K H).
Qed.
Lemma Qcleb_negb a b : Qcleb a b = negb (Qcltb b a).
Proof. unfold Qcleb, Qcltb. now destruct (Qclt_le_dec b a). Qed.
Lemma Qcltb_negb a b : Qcltb a b = negb (Qcleb b a).
Proof. rewrite Qcleb_negb. now rewrite negb_involutive. Qed.
Lemma Qcleb_refl a : Qcleb a a = true.
Proof. apply Qcleb_spec, Qcle_refl. Qed.
Lemma Qcltb_irrefl a : Qcltb a a = false.
Proof. rewrite Qcltb_negb, Qcleb_refl. reflexivity. Qed.

(** ** evaluation *)
Definition quantk (k : kind) : bool := kin k [NT_FORALL; NT_EXISTS].
Lemma eval_app I e k s n ch : ch <> [] -> quantk k = false ->
  eval I e (T k s n ch) = app_sem I k s n (map (eval I e) ch).
Proof.
  intros H Q. destruct ch as [|b xs]; [congruence|]. destruct k; try discriminate Q; reflexivity.
Qed.
Lemma eval_op I e k s n ch v : ch <> [] -> quantk k = false ->
  op_sem k (map (eval I e) ch) = Some v -> eval I e (T k s n ch) = v.
Proof. intros H Q E. rewrite eval_app by assumption. unfold app_sem. now rewrite E. Qed.

Lemma upd_in e xs vs x : ~ In x xs -> upd e xs vs x = e x.
Proof.
  revert vs. induction xs as [|y xs IH]; intros [|v vs] H; cbn; try reflexivity.
  destruct (teq x y) eqn:E.
  - apply teq_spec in E. subst. exfalso. apply H. now left.
  - apply IH. intros K. apply H. now right.
Qed.
Lemma upd_ext e f xs vs x : (e x = f x) -> upd e xs vs x = upd f xs vs x.
Proof.
  intros H. revert vs. induction xs as [|y xs IH]; intros [|v vs]; cbn; try exact H.
  destruct (teq x y); [reflexivity|apply IH].
Qed.
Lemma i_all_ext I ss f g : (forall vs, f vs = g vs) -> i_all I ss f = i_all I ss g.
Proof.
  intros H. destruct (i_all I ss f) eqn:E.
  - symmetry. apply i_all_ok. intros vs Hv. rewrite <- H. revert vs Hv. now apply i_all_ok.
  - destruct (i_all I ss g) eqn:F; [|reflexivity].
    rewrite <- E. apply i_all_ok. intros vs Hv. rewrite H. revert vs Hv. now apply i_all_ok.
Qed.
Lemma eval_ext I t : forall e f, (forall x, e x = f x) -> eval I e t = eval I f t.
Proof.
  induction t as [k s n ch IH] using term_ind'. intros e f H.
  destruct ch as [|b xs].
  - cbn. unfold leaf_sem. destruct (is_leaf_var k); [now rewrite H|reflexivity].
  - assert (Hm : map (eval I e) (b :: xs) = map (eval I f) (b :: xs)).
    { apply map_ext_in. intros c Hc. rewrite Forall_forall in IH. now apply IH. }
    destruct (quantk k) eqn:Q.
    + inversion IH as [|? ? Hb _]; subst.
      assert (Hu : forall vs, eval I (upd e xs vs) b = eval I (upd f xs vs) b)
        by (intros vs; apply Hb; intros x; apply upd_ext, H).
      destruct k; try discriminate Q; cbn [eval].
      * f_equal. apply i_all_ext. intros vs. now rewrite Hu.
      * do 2 f_equal. apply i_all_ext. intros vs. now rewrite Hu.
    + rewrite !eval_app by (assumption || discriminate). now rewrite Hm.
Qed.

Lemma cmpop2 r a b : cmpop r [a; b] = Some (VBool (r a b)).
Proof. cbn. now rewrite andb_true_r. Qed.

(** a small interpretation, to show that hypotheses can be met: quantifiers range over
    one value *)
Definition I0 : interp.
Proof.
  refine {| i_op := fun _ _ _ _ => VOther 0; i_dom := fun _ v => v = VNum (ZQ 0);
            i_all := fun ss f => f (map (fun _ => VNum (ZQ 0)) ss) |}.
  intros ss f. split.
  - intros H vs Hv. replace vs with (map (fun _ : sort => VNum (ZQ 0)) ss); [exact H|].
    clear H. induction Hv as [|s v ss vs Hs _ IH]; cbn; [reflexivity|]. now rewrite Hs, IH.
  - intros H. apply H. clear H. induction ss as [|s ss IH]; cbn; constructor; [reflexivity|exact IH].
Defined.
