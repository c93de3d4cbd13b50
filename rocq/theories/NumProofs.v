(** Proofs about numbers and the comparison-based interval operations. *)
From Coq Require Import QArith Qround Qabs Qpower ZArith List Bool Lia Lqa Sorting.Sorted Permutation.
From Verif Require Import Base NumModel RoundModel NumSpec.
Open Scope Z_scope.

(** ** booleans *)
Lemma qlt_spec x y : reflect (x < y)%Q (qlt x y).
Proof.
  unfold qlt. destruct (Qle_bool y x) eqn:E; cbn; constructor.
  - apply Qle_bool_iff in E. lra.
  - destruct (Qlt_le_dec x y) as [|K]; [assumption|]. apply Qle_bool_iff in K. congruence.
Qed.
Lemma qeq_spec x y : reflect (x == y)%Q (Qeq_bool x y).
Proof. destruct (Qeq_bool x y) eqn:E; constructor; [now apply Qeq_bool_iff|]. intros H. apply Qeq_bool_iff in H. congruence. Qed.
Ltac qcase :=
  repeat match goal with
  | |- context [qlt ?x ?y] => destruct (qlt_spec x y)
  | |- context [Qeq_bool ?x ?y] => destruct (qeq_spec x y)
  | H : context [qlt ?x ?y] |- _ => destruct (qlt_spec x y)
  | H : context [Qeq_bool ?x ?y] |- _ => destruct (qeq_spec x y)
  end.
Lemma xlt_iff a b : xlt a b = true <-> ltX a b.
Proof.
  destruct a as [|[]|x], b as [|[]|y]; cbn [xlt ltX andb negb]; try (split; [discriminate|contradiction]); try (split; [exact (fun _ => I)|reflexivity]).
  destruct (qlt_spec x y) as [K|K]; split; intros H; [exact K|reflexivity|discriminate H|contradiction].
Qed.
Lemma xeq_iff a b : xeq a b = true <-> eqX a b.
Proof.
  destruct a as [|[]|x], b as [|[]|y]; cbn [xeq eqX Bool.eqb]; try (split; [discriminate|contradiction]); try (split; [discriminate|discriminate]); try (split; reflexivity).
  destruct (qeq_spec x y) as [K|K]; split; intros H; [exact K|reflexivity|discriminate H|contradiction].
Qed.
Lemma xle_iff a b : xle a b = true <-> leX a b.
Proof. unfold xle, leX. rewrite orb_true_iff, xlt_iff, xeq_iff. reflexivity. Qed.
Lemma xle_lt a b : a <> Nan -> b <> Nan -> xle a b = negb (xlt b a).
Proof.
  intros A B. unfold xle. destruct a as [|[]|x], b as [|[]|y]; try (exfalso; auto; fail); try reflexivity. cbn -[Qlt Qeq]. qcase; cbn; try reflexivity; exfalso; lra.
Qed.

(** ** sets given by two cuts *)
Definition abv (l : xr) (c : bool) (q : Q) : Prop := if c then leX l (Fin q) else ltX l (Fin q).
Definition blw (h : xr) (c : bool) (q : Q) : Prop := if c then leX (Fin q) h else ltX (Fin q) h.
Definition lwf (l : xr) (c : bool) : Prop := match l with Nan => False | Inf s => s = true /\ c = false | Fin _ => True end.
Definition hwf (l : xr) (c : bool) : Prop := match l with Nan => False | Inf s => s = false /\ c = false | Fin _ => True end.
Definition xempty (l h : xr) (c d : bool) : bool := xlt h l || (xeq l h && (negb c || negb d)).
(** lower cut (l,c) is strictly tighter than or equal to (m,d) *)
Definition ltighter (l : xr) (c : bool) (m : xr) (d : bool) : Prop := ltX m l \/ (eqX l m /\ (c = false \/ d = true)).
Definition htighter (l : xr) (c : bool) (m : xr) (d : bool) : Prop := ltX l m \/ (eqX l m /\ (c = false \/ d = true)).
Ltac xd := 
  repeat match goal with
  | H : lwf ?l _ |- _ => is_var l; destruct l as [|[]|?]; cbn [lwf] in H; try contradiction H; try (match type of H with _ /\ _ => destruct H as [? ?]; try discriminate; subst end); try clear H
  | H : hwf ?l _ |- _ => is_var l; destruct l as [|[]|?]; cbn [hwf] in H; try contradiction H; try (match type of H with _ /\ _ => destruct H as [? ?]; try discriminate; subst end); try clear H
  end.
Ltac xsimp := unfold abv, blw, leX in *; cbn [ltX eqX] in *.
Lemma abv_dec l c q : lwf l c -> abv l c q \/ ~ abv l c q.
Proof. intros H. xd; [left; exact I|]. xsimp. destruct c; [destruct (Qlt_le_dec q q0)|destruct (Qlt_le_dec q0 q)]; [right|left|left|right]; lra. Qed.
Lemma blw_dec l c q : hwf l c -> blw l c q \/ ~ blw l c q.
Proof. intros H. xd; [left; exact I|]. xsimp. destruct c; [destruct (Qlt_le_dec q0 q)|destruct (Qlt_le_dec q q0)]; [right|left|left|right]; lra. Qed.
Lemma xempty_spec l h c d : lwf l c -> hwf h d -> (xempty l h c d = true <-> ~ exists q, abv l c q /\ blw h d q).
Proof.
  intros H K. unfold xempty. rewrite orb_true_iff, andb_true_iff, orb_true_iff, !negb_true_iff, xlt_iff, xeq_iff. split.
  - intros E (q & A & B). destruct c, d; xd; xsimp; destruct E as [E|[E [F|F]]]; try discriminate; try contradiction; lra.
  - intros N. xd; xsimp.
    + exfalso. apply N. exists 0%Q. auto.
    + exfalso. apply N. exists (q - 1)%Q. split; [exact I|destruct d; lra].
    + exfalso. apply N. exists (q + 1)%Q. split; [destruct c; lra|exact I].
    + destruct (Q_dec q q0) as [[L|L]|E].
      * exfalso. apply N. exists ((q + q0) / 2)%Q. assert (q < (q + q0) / 2 < q0)%Q. { split; [apply Qlt_shift_div_l|apply Qlt_shift_div_r]; lra. } destruct c, d; split; lra.
      * left. exact L.
      * destruct c; [|right; auto]. destruct d; [|right; auto]. exfalso. apply N. exists q. split; lra.
Qed.
Lemma xempty_false l h c d : lwf l c -> hwf h d -> (xempty l h c d = false <-> exists q, abv l c q /\ blw h d q).
Proof.
  intros H K. pose proof (xempty_spec l h c d H K) as S. split; intros X.
  2: { destruct (xempty l h c d); [|reflexivity]. exfalso. now apply S. }
  - xd; unfold xempty in X.
    + exists 0%Q; split; exact I.
    + exists (q - 1)%Q. xsimp. split; [exact I|destruct d; lra].
    + exists (q + 1)%Q. xsimp. split; [destruct c; lra|exact I].
    + cbn [xlt xeq] in X. destruct (qlt_spec q0 q); [discriminate X|]. destruct (qeq_spec q q0).
      * exists q. xsimp. destruct c, d; try discriminate X. split; lra.
      * exists ((q + q0) / 2)%Q. assert (q < (q + q0) / 2 < q0)%Q. { split; [apply Qlt_shift_div_l|apply Qlt_shift_div_r]; lra. } xsimp. destruct c, d; split; lra.
Qed.
Lemma ltighter_spec l c h d m c' : lwf l c -> lwf m c' -> hwf h d -> (exists q, abv l c q /\ blw h d q) ->
  (ltighter l c m c' <-> forall q, abv l c q -> blw h d q -> abv m c' q).
Proof.
  intros L M H (w & A & B). unfold ltighter. split.
  - intros T q Aq _. destruct c, c'; xd; xsimp; destruct T as [T|[T [U|U]]]; try discriminate; try contradiction; try exact I; try lra.
  - intros F. destruct l as [|[]|x]; cbn in L; try contradiction; try (destruct L; discriminate); destruct m as [|[]|y]; cbn in M; try contradiction; try (destruct M; discriminate).
    + right. split; [reflexivity|]. left. apply L.
    + exfalso. destruct L as [_ ->].
      set (q := ((if Qlt_le_dec w y then w else y) - 1)%Q). assert (Hq : (q < y /\ q < w)%Q). { unfold q. destruct (Qlt_le_dec w y); split; lra. } clearbody q.
      assert (X := F q I). cbn [abv] in X. destruct Hq as [Hy Hw]. assert (Bq : blw h d q). { xd; xsimp; [exact I|destruct d; lra]. } specialize (X Bq). xsimp. destruct c'; lra.
    + left. exact I.
    + cbn [ltX eqX]. destruct (Q_dec x y) as [[K|K]|K].
      * exfalso. set (z := if Qlt_le_dec w y then w else ((x + y) / 2)%Q). assert (Hz : (z < y /\ z <= w)%Q /\ abv (Fin x) c z).
        { unfold z. destruct (Qlt_le_dec w y); [split; [split; lra|exact A]|]. assert (x < (x + y) / 2 < y)%Q. { split; [apply Qlt_shift_div_l|apply Qlt_shift_div_r]; lra. } split; [split; lra|xsimp; destruct c; lra]. }
        clearbody z. destruct Hz as [[Z1 Z2] Z3]. assert (Bz : blw h d z). { xd; xsimp; [exact I|destruct d; lra]. } specialize (F z Z3 Bz). xsimp. destruct c'; lra.
      * left. exact K.
      * right. split; [exact K|]. destruct c; [|left; reflexivity]. right. destruct c'; [reflexivity|]. exfalso.
        assert (Az : abv (Fin x) true x) by (xsimp; lra). assert (Bz : blw h d x). { xd; xsimp; [exact I|destruct d; lra]. } specialize (F x Az Bz). xsimp. lra.
Qed.
Definition xopp (a : xr) : xr := match a with Nan => Nan | Inf s => Inf (negb s) | Fin q => Fin (- q) end.
Lemma blw_opp h d q : blw (xopp h) d (- q) <-> abv h d q.
Proof. unfold abv, blw, leX. destruct d; destruct h as [|[]|x]; cbn; try tauto; try lra; split; intros; try tauto; lra. Qed.
Lemma abv_opp h d q : abv (xopp h) d (- q) <-> blw h d q.
Proof. unfold abv, blw, leX. destruct d; destruct h as [|[]|x]; cbn; try tauto; try lra; split; intros; try tauto; lra. Qed.
Lemma abv_eq h d q q' : (q == q')%Q -> abv h d q -> abv h d q'.
Proof. intros E. unfold abv, leX. destruct d, h as [|[]|x]; cbn; try tauto; lra. Qed.
Lemma blw_eq h d q q' : (q == q')%Q -> blw h d q -> blw h d q'.
Proof. intros E. unfold blw, leX. destruct d, h as [|[]|x]; cbn; try tauto; lra. Qed.
Lemma htighter_spec l c h d m c' : lwf l c -> hwf m c' -> hwf h d -> (exists q, abv l c q /\ blw h d q) ->
  (htighter h d m c' <-> forall q, abv l c q -> blw h d q -> blw m c' q).
Proof.
  intros L M H (w & A & B).
  assert (Lo : lwf (xopp h) d) by (destruct h as [|[]|]; cbn in *; intuition congruence).
  assert (Mo : lwf (xopp m) c') by (destruct m as [|[]|]; cbn in *; intuition congruence).
  assert (Ho : hwf (xopp l) c) by (destruct l as [|[]|]; cbn in *; intuition congruence).
  pose proof (ltighter_spec (xopp h) d (xopp l) c (xopp m) c' Lo Mo Ho) as S.
  assert (T : ltighter (xopp h) d (xopp m) c' <-> htighter h d m c').
  { unfold ltighter, htighter. destruct h as [|[]|x], m as [|[]|y]; cbn [xopp ltX eqX negb]; try tauto; try (intuition discriminate). split; intros [K|[K1 K2]]; [left; lra|right; split; [lra|exact K2]|left; lra|right; split; [lra|exact K2]]. }
  rewrite <- T, S.
  - split; intros F q Q1 Q2.
    + apply abv_opp. apply F; [now apply abv_opp|now apply blw_opp].
    + apply (abv_eq _ _ (- - q)); [ring|]. apply abv_opp, F; [apply blw_opp, (blw_eq _ _ q)|apply abv_opp, (abv_eq _ _ q)]; auto; ring.
  - exists (- w)%Q. split; [now apply abv_opp|now apply blw_opp].
Qed.

Lemma eqX_sym a b : eqX a b <-> eqX b a.
Proof. destruct a as [|s|x], b as [|t|y]; cbn; try tauto; split; intros; try congruence; now symmetry. Qed.
Definition xsep (h : xr) (c : bool) (l : xr) (d : bool) : bool := xlt h l || (xeq h l && (negb c || negb d)).
Lemma xsep_iff h c l d : xsep h c l d = true <-> ltX h l \/ (eqX h l /\ (c = false \/ d = false)).
Proof. unfold xsep. rewrite orb_true_iff, andb_true_iff, orb_true_iff, !negb_true_iff, xlt_iff, xeq_iff. reflexivity. Qed.
Lemma xsep_spec h c l d : hwf h c -> lwf l d -> (xsep h c l d = true <-> forall q, blw h c q -> abv l d q -> False).
Proof.
  intros H L. pose proof (xempty_spec l h d c L H) as S. unfold xempty in S. unfold xsep. rewrite orb_true_iff, andb_true_iff, orb_true_iff, xeq_iff in S |- *.
  rewrite eqX_sym. rewrite (or_comm (negb c = true)). rewrite S. firstorder.
Qed.

Lemma blw_dn h c x y : blw h c x -> (y <= x)%Q -> blw h c y.
Proof. intros H K. unfold blw, leX in *. destruct c, h as [|[]|z]; cbn in *; try tauto; lra. Qed.
Lemma abv_up h c x y : abv h c x -> (x <= y)%Q -> abv h c y.
Proof. intros H K. unfold abv, leX in *. destruct c, h as [|[]|z]; cbn in *; try tauto; lra. Qed.
Lemma lcut_total l c m d : lwf l c -> lwf m d -> (forall q, abv l c q -> abv m d q) \/ (forall q, abv m d q -> abv l c q).
Proof.
  intros La Lb. destruct c, d; destruct l as [|[]|x], m as [|[]|y]; cbn in La, Lb; try contradiction; try (destruct La; discriminate); try (destruct Lb; discriminate); unfold abv, leX; cbn; try (left; intros; tauto); try (right; intros; tauto); (destruct (Qlt_le_dec x y); [right; intros; lra|]); (destruct (Qlt_le_dec y x); [left; intros; lra|]); try (left; intros; lra); right; intros; lra.
Qed.
Lemma hcut_total l c m d : hwf l c -> hwf m d -> (forall q, blw l c q -> blw m d q) \/ (forall q, blw m d q -> blw l c q).
Proof.
  intros Ha Hb. destruct c, d; destruct l as [|[]|x], m as [|[]|y]; cbn in Ha, Hb; try contradiction; try (destruct Ha; discriminate); try (destruct Hb; discriminate); unfold blw, leX; cbn; try (left; intros; tauto); try (right; intros; tauto); (destruct (Qlt_le_dec x y); [left; intros; lra|]); (destruct (Qlt_le_dec y x); [right; intros; lra|]); try (left; intros; lra); right; intros; lra.
Qed.
(** two sets, neither entirely on one side of the other, meet *)
Lemma meet l c h d l' c' h' d' : lwf l c -> hwf h d -> lwf l' c' -> hwf h' d' ->
  (exists q, abv l c q /\ blw h d q) -> (exists q, abv l' c' q /\ blw h' d' q) ->
  xsep h d l' c' = false -> xsep h' d' l c = false ->
  exists q, (abv l c q /\ blw h d q) /\ (abv l' c' q /\ blw h' d' q).
Proof.
  intros La Ha Lb Hb (na & Na1 & Na2) (nb & Nb1 & Nb2) S1 S2.
  assert (T1 : exists q, abv l' c' q /\ blw h d q).
  { apply xempty_false; auto. rewrite <- S1. unfold xempty, xsep. f_equal. rewrite (orb_comm (negb c')). f_equal. apply Bool.eq_iff_eq_true. rewrite !xeq_iff. apply eqX_sym. }
  assert (T2 : exists q, abv l c q /\ blw h' d' q).
  { apply xempty_false; auto. rewrite <- S2. unfold xempty, xsep. f_equal. rewrite (orb_comm (negb c)). f_equal. apply Bool.eq_iff_eq_true. rewrite !xeq_iff. apply eqX_sym. }
  destruct T1 as (t1 & T1a & T1b), T2 as (t2 & T2a & T2b).
  destruct (lcut_total l c l' c' La Lb) as [C|C], (hcut_total h d h' d' Ha Hb) as [D|D].
  + exists na. auto.
  + exists t2. auto.
  + exists t1. auto.
  + exists nb. auto.
Qed.


(** the larger of two lower cuts, and so on *)
Lemma lmax_spec l c m d q : lwf l c -> lwf m d ->
  abv (if xlt l m then m else l) (if xlt l m then d else if xlt m l then c else c && d) q <-> abv l c q /\ abv m d q.
Proof.
  intros A B. destruct c, d; destruct l as [|[]|x], m as [|[]|y]; cbn in A, B; try contradiction; try (destruct A; discriminate); try (destruct B; discriminate);
    cbn [xlt xeq andb negb]; try (unfold abv, leX; cbn; tauto); destruct (qlt_spec x y), (qlt_spec y x); unfold abv, leX; cbn; lra.
Qed.
Lemma hmin_spec l c m d q : hwf l c -> hwf m d ->
  blw (if xlt m l then m else l) (if xlt m l then d else if xlt l m then c else c && d) q <-> blw l c q /\ blw m d q.
Proof.
  intros A B. destruct c, d; destruct l as [|[]|x], m as [|[]|y]; cbn in A, B; try contradiction; try (destruct A; discriminate); try (destruct B; discriminate);
    cbn [xlt xeq andb negb]; try (unfold blw, leX; cbn; tauto); destruct (qlt_spec x y), (qlt_spec y x); unfold blw, leX; cbn; lra.
Qed.
Lemma lmin_spec l c m d q : lwf l c -> lwf m d ->
  abv (if xlt m l then m else l) (if xlt l m then c else if xlt m l then d else c || d) q <-> abv l c q \/ abv m d q.
Proof.
  intros A B. destruct c, d; destruct l as [|[]|x], m as [|[]|y]; cbn in A, B; try contradiction; try (destruct A; discriminate); try (destruct B; discriminate);
    cbn [xlt xeq andb orb negb]; try (unfold abv, leX; cbn; tauto); destruct (qlt_spec x y), (qlt_spec y x); unfold abv, leX; cbn; lra.
Qed.
Lemma hmax_spec l c m d q : hwf l c -> hwf m d ->
  blw (if xlt l m then m else l) (if xlt m l then c else if xlt l m then d else c || d) q <-> blw l c q \/ blw m d q.
Proof.
  intros A B. destruct c, d; destruct l as [|[]|x], m as [|[]|y]; cbn in A, B; try contradiction; try (destruct A; discriminate); try (destruct B; discriminate);
    cbn [xlt xeq andb orb negb]; try (unfold blw, leX; cbn; tauto); destruct (qlt_spec x y), (qlt_spec y x); unfold blw, leX; cbn; lra.
Qed.
Lemma lmax_wf l c m d : lwf l c -> lwf m d -> lwf (if xlt l m then m else l) (if xlt l m then d else if xlt m l then c else c && d).
Proof. intros A B. destruct l as [|[]|x], m as [|[]|y]; cbn in A, B |- *; try contradiction; try (destruct A; discriminate); try (destruct B; discriminate); auto; [|destruct (qlt x y); exact I]. destruct A as [_ ->], B as [_ ->]. auto. Qed.
Lemma hmin_wf l c m d : hwf l c -> hwf m d -> hwf (if xlt m l then m else l) (if xlt m l then d else if xlt l m then c else c && d).
Proof. intros A B. destruct l as [|[]|x], m as [|[]|y]; cbn in A, B |- *; try contradiction; try (destruct A; discriminate); try (destruct B; discriminate); auto; [|destruct (qlt y x); exact I]. destruct A as [_ ->], B as [_ ->]. auto. Qed.
Lemma lmin_wf l c m d : lwf l c -> lwf m d -> lwf (if xlt m l then m else l) (if xlt l m then c else if xlt m l then d else c || d).
Proof. intros A B. destruct l as [|[]|x], m as [|[]|y]; cbn in A, B |- *; try contradiction; try (destruct A; discriminate); try (destruct B; discriminate); auto; [|destruct (qlt y x); exact I]. destruct A as [_ ->], B as [_ ->]. auto. Qed.
Lemma hmax_wf l c m d : hwf l c -> hwf m d -> hwf (if xlt l m then m else l) (if xlt m l then c else if xlt l m then d else c || d).
Proof. intros A B. destruct l as [|[]|x], m as [|[]|y]; cbn in A, B |- *; try contradiction; try (destruct A; discriminate); try (destruct B; discriminate); auto; [|destruct (qlt x y); exact I]. destruct A as [_ ->], B as [_ ->]. auto. Qed.


(** ** sums of sets *)
Definition xs (a b : xr) : xr := match a, b with Fin x, Fin y => Fin (x + y) | Inf s, Fin _ | Fin _, Inf s => Inf s | Inf s, Inf t => if Bool.eqb s t then Inf s else Nan | _, _ => Nan end.
Definition xshift (q : Q) (a : xr) : xr := match a with Nan => Nan | Inf s => Inf (negb s) | Fin y => Fin (q - y) end.
Lemma shift_abv q h c x : abv (xshift q h) c x <-> blw h c (q - x).
Proof. unfold abv, blw, leX. destruct c, h as [|[]|y]; cbn; try tauto; lra. Qed.
Lemma shift_blw q h c x : blw (xshift q h) c x <-> abv h c (q - x).
Proof. unfold abv, blw, leX. destruct c, h as [|[]|y]; cbn; try tauto; lra. Qed.
Lemma sum_set l1 c1 h1 d1 l2 c2 h2 d2 q : lwf l1 c1 -> hwf h1 d1 -> lwf l2 c2 -> hwf h2 d2 ->
  (exists x, abv l1 c1 x /\ blw h1 d1 x) -> (exists y, abv l2 c2 y /\ blw h2 d2 y) ->
  (abv (xs l1 l2) (c1 && c2) q /\ blw (xs h1 h2) (d1 && d2) q <->
   exists x y, (abv l1 c1 x /\ blw h1 d1 x) /\ (abv l2 c2 y /\ blw h2 d2 y) /\ (q == x + y)%Q).
Proof.
  intros L1 H1 L2 H2 N1 N2. split.
  - intros [A B]. destruct (meet l1 c1 h1 d1 (xshift q h2) d2 (xshift q l2) c2) as (x & X & Y); auto.
    + destruct h2 as [|[]|]; cbn in *; intuition congruence.
    + destruct l2 as [|[]|]; cbn in *; intuition congruence.
    + destruct N2 as (y & Y1 & Y2). exists (q - y)%Q. split; [apply shift_abv, (blw_eq _ _ y); [ring|exact Y2]|apply shift_blw, (abv_eq _ _ y); [ring|exact Y1]].
    + apply not_true_iff_false. rewrite xsep_iff. unfold blw, leX in B.
      destruct d1, d2, h1 as [|[]|u], h2 as [|[]|v]; cbn in H1, H2, B |- *; try contradiction; try (destruct H1; discriminate); try (destruct H2; discriminate); try tauto; try (intros [K|[K _]]; discriminate || tauto); intros [K|[K [J|J]]]; try discriminate; lra.
    + apply not_true_iff_false. rewrite xsep_iff. unfold abv, leX in A.
      destruct c1, c2, l1 as [|[]|u], l2 as [|[]|v]; cbn in L1, L2, A |- *; try contradiction; try (destruct L1; discriminate); try (destruct L2; discriminate); try tauto; try (intros [K|[K _]]; discriminate || tauto); intros [K|[K [J|J]]]; try discriminate; lra.
    + destruct Y as [Y1 Y2]. exists x, (q - x)%Q. split; [exact X|]. split; [split; [now apply shift_blw|now apply shift_abv]|ring].
  - intros (x & y & [X1 X2] & [Y1 Y2] & E). split.
    + destruct c1, c2, l1 as [|[]|u], l2 as [|[]|v]; cbn in L1, L2; try contradiction; try (destruct L1; discriminate); try (destruct L2; discriminate); unfold abv, leX in *; cbn in *; try tauto; lra.
    + destruct d1, d2, h1 as [|[]|u], h2 as [|[]|v]; cbn in H1, H2; try contradiction; try (destruct H1; discriminate); try (destruct H2; discriminate); unfold blw, leX in *; cbn in *; try tauto; lra.
Qed.
Lemma abv_eqX l l' c q : eqX l l' -> abv l c q <-> abv l' c q.
Proof. unfold abv, leX. intros E. destruct l as [|s|x], l' as [|t|y]; cbn in E; try contradiction; [now subst|]. destruct c; cbn; lra. Qed.
Lemma blw_eqX l l' c q : eqX l l' -> blw l c q <-> blw l' c q.
Proof. unfold blw, leX. intros E. destruct l as [|s|x], l' as [|t|y]; cbn in E; try contradiction; [now subst|]. destruct c; cbn; lra. Qed.
(** scaling by a non-zero rational *)
Definition xscale (k : Q) (a : xr) : xr := match a with Nan => Nan | Inf s => Inf (if qlt k 0 then negb s else s) | Fin x => Fin (x * k) end.
Lemma scale_pos k l c q : (0 < k)%Q -> (abv (xscale k l) c (q * k) <-> abv l c q) /\ (blw (xscale k l) c (q * k) <-> blw l c q).
Proof. intros K. unfold abv, blw, leX. destruct (qlt_spec k 0); [exfalso; lra|]. destruct c, l as [|[]|x]; cbn; destruct (qlt_spec k 0); try (exfalso; lra); split; try tauto; split; intros; nra. Qed.
Lemma scale_neg k l c q : (k < 0)%Q -> (abv (xscale k l) c (q * k) <-> blw l c q) /\ (blw (xscale k l) c (q * k) <-> abv l c q).
Proof. intros K. unfold abv, blw, leX. destruct c, l as [|[]|x]; cbn; destruct (qlt_spec k 0); try (exfalso; lra); cbn; split; try tauto; split; intros; nra. Qed.
(** products of closed sets *)
Lemma lin_sound k u v y lo hi : (u <= y <= v)%Q -> (lo <= k * u)%Q -> (lo <= k * v)%Q -> (k * u <= hi)%Q -> (k * v <= hi)%Q -> (lo <= k * y <= hi)%Q.
Proof.
  intros [Y1 Y2] L1 L2 H1 H2. destruct (Qlt_le_dec k 0) as [K|K].
  - assert (k * v <= k * y <= k * u)%Q by (clear - K Y1 Y2; split; nra). lra.
  - assert (k * u <= k * y <= k * v)%Q by (clear - K Y1 Y2; split; nra). lra.
Qed.
Lemma prod_sound a b c d x y lo hi : (a <= x <= b)%Q -> (c <= y <= d)%Q ->
  (lo <= a * c)%Q -> (lo <= a * d)%Q -> (lo <= b * c)%Q -> (lo <= b * d)%Q ->
  (a * c <= hi)%Q -> (a * d <= hi)%Q -> (b * c <= hi)%Q -> (b * d <= hi)%Q -> (lo <= x * y <= hi)%Q.
Proof.
  intros X Y L1 L2 L3 L4 H1 H2 H3 H4.
  pose proof (lin_sound a c d y lo hi Y L1 L2 H1 H2) as Ac. pose proof (lin_sound b c d y lo hi Y L3 L4 H3 H4) as Bc.
  pose proof (lin_sound y a b x lo hi X). assert (y * a == a * y)%Q by ring. assert (y * b == b * y)%Q by ring. assert (y * x == x * y)%Q by ring. clear L1 L2 L3 L4 H1 H2 H3 H4. lra.
Qed.
Lemma edge u v k q : (k * u <= q <= k * v \/ k * v <= q <= k * u)%Q -> (u <= v)%Q -> exists y, (u <= y <= v)%Q /\ (q == k * y)%Q.
Proof.
  intros H L. destruct (Q_dec k 0) as [[K|K]|K].
  - exists (q / k)%Q. assert (E : (q == k * (q / k))%Q) by (field; lra). split; [|exact E]. set (y := (q / k)%Q) in *. clearbody y. split; nra.
  - exists (q / k)%Q. assert (E : (q == k * (q / k))%Q) by (field; lra). split; [|exact E]. set (y := (q / k)%Q) in *. clearbody y. split; nra.
  - exists u. split; [lra|]. rewrite K in *. lra.
Qed.
Lemma prod_complete a b c d q lo hi : (a <= b)%Q -> (c <= d)%Q ->
  (lo == a * c \/ lo == a * d \/ lo == b * c \/ lo == b * d)%Q -> (hi == a * c \/ hi == a * d \/ hi == b * c \/ hi == b * d)%Q ->
  (lo <= q <= hi)%Q -> exists x y, (a <= x <= b)%Q /\ (c <= y <= d)%Q /\ (q == x * y)%Q.
Proof.
  intros AB CD L H Q1.
  destruct (Qeq_dec q (a * c)) as [E|N1]; [exists a, c; split; [lra|split; [lra|exact E]]|].
  destruct (Qeq_dec q (a * d)) as [E|N2]; [exists a, d; split; [lra|split; [lra|exact E]]|].
  destruct (Qeq_dec q (b * c)) as [E|N3]; [exists b, c; split; [lra|split; [lra|exact E]]|].
  destruct (Qeq_dec q (b * d)) as [E|N4]; [exists b, d; split; [lra|split; [lra|exact E]]|].
  assert (E : (exists y, (c <= y <= d)%Q /\ (q == a * y)%Q) \/ (exists y, (c <= y <= d)%Q /\ (q == b * y)%Q) \/ (exists x, (a <= x <= b)%Q /\ (q == d * x)%Q)).
  { destruct (Qlt_le_dec q (a * c)), (Qlt_le_dec q (a * d)), (Qlt_le_dec q (b * c)), (Qlt_le_dec q (b * d));
      try (left; apply edge; [first [left; split; lra|right; split; lra]|exact CD]); try (right; left; apply edge; [first [left; split; lra|right; split; lra]|exact CD]);
      try (right; right; apply edge; [first [left; split; lra|right; split; lra]|exact AB]);
      exfalso; destruct L as [L|[L|[L|L]]], H as [H|[H|[H|H]]]; first [lra|apply N1; lra|apply N2; lra|apply N3; lra|apply N4; lra]. }
  destruct E as [(y & Y & E)|[(y & Y & E)|(x & X & E)]].
  - exists a, y. split; [lra|]. split; [exact Y|exact E].
  - exists b, y. split; [lra|]. split; [exact Y|exact E].
  - exists x, d. split; [exact X|]. split; [lra|]. rewrite E. ring.
Qed.

Lemma xlt_eq a a' b b' : eqX a a' -> eqX b b' -> xlt a b = xlt a' b'.
Proof.
  intros A B. destruct a as [|s|x], a' as [|s'|x']; cbn in A; try contradiction; destruct b as [|t|y], b' as [|t'|y']; cbn in B; try contradiction; subst; try reflexivity.
  cbn [xlt]. destruct (qlt_spec x y), (qlt_spec x' y'); try reflexivity; exfalso; lra.
Qed.
Lemma xeq_eq a a' b b' : eqX a a' -> eqX b b' -> xeq a b = xeq a' b'.
Proof.
  intros A B. destruct a as [|s|x], a' as [|s'|x']; cbn in A; try contradiction; destruct b as [|t|y], b' as [|t'|y']; cbn in B; try contradiction; subst; try reflexivity.
  cbn [xeq]. destruct (qeq_spec x y), (qeq_spec x' y'); try reflexivity; exfalso; lra.
Qed.
Lemma eqX_refl a : a <> Nan -> eqX a a. Proof. destruct a; cbn; [congruence|reflexivity|reflexivity]. Qed.

Lemma Qabs_case x : ((0 <= x)%Q /\ (Qabs x == x)%Q) \/ ((x < 0)%Q /\ (Qabs x == - x)%Q).
Proof. destruct (Qlt_le_dec x 0); [right; split; [assumption|apply Qabs_neg; lra]|left; split; [assumption|now apply Qabs_pos]]. Qed.
(** ** exact comparison *)
Section C.
Set Default Proof Using "All".
Context (r : Q -> Q) (P : number -> Prop).
Context (Pn : forall a, P a -> val a <> Nan).
Context (Plt : forall a b, P a -> P b -> n_lt r a b = xlt (val a) (val b)).
Context (Peq : forall a b, P a -> P b -> n_eq r a b = xeq (val a) (val b)).
Context (Ple : forall a b, P a -> P b -> n_le r a b = xle (val a) (val b)).
Lemma Pgt a b : P a -> P b -> n_gt r a b = xlt (val b) (val a).
Proof. intros A B. unfold n_gt. rewrite Ple, xle_lt by auto. apply negb_involutive. Qed.
Lemma Pge a b : P a -> P b -> n_ge r a b = xle (val b) (val a).
Proof. intros A B. unfold n_ge. rewrite Plt, xle_lt by auto. reflexivity. Qed.
Definition PI (a : interval) := P (lo a) /\ P (hi a) /\ iwf a.
Ltac cmp := rewrite ?Pgt, ?Pge, ?Plt, ?Peq, ?Ple by auto.


Lemma emp_x a : PI a -> isEmptyI r a = xempty (val (lo a)) (val (hi a)) (lc a) (rc a).
Proof. intros (A & B & _). unfold isEmptyI. cmp. reflexivity. Qed.
Lemma PI_l a : PI a -> lwf (val (lo a)) (lc a). Proof. intros (_ & _ & H & _). exact H. Qed.
Lemma PI_h a : PI a -> hwf (val (hi a)) (rc a). Proof. intros (_ & _ & _ & H). exact H. Qed.
Lemma emp_t a : PI a -> isEmptyI r a = true <-> ~ inhabited a.
Proof. intros H. rewrite (emp_x a H), xempty_spec; [reflexivity|now apply PI_l|now apply PI_h]. Qed.
Lemma emp_f a : PI a -> isEmptyI r a = false <-> inhabited a.
Proof. intros H. rewrite (emp_x a H), xempty_false; [reflexivity|now apply PI_l|now apply PI_h]. Qed.
Lemma inh_dec a : PI a -> {inhabited a} + {~ inhabited a}.
Proof. intros H. destruct (isEmptyI r a) eqn:E; [right; now apply emp_t|left; now apply emp_f]. Qed.
Lemma contains_x a v q : PI a -> P v -> finite v q -> containsI r a v = true <-> member a q.
Proof.
  intros H V F. unfold containsI. destruct (isEmptyI r a) eqn:E.
  - split; [discriminate|]. intros M. apply (emp_t a H) in E. exfalso. apply E. now exists q.
  - destruct H as (A & B & _). cmp. unfold member, above, below. rewrite andb_true_iff.
    assert (X1 : (if lc a then xle (val (lo a)) (val v) else xlt (val (lo a)) (val v)) = true <-> if lc a then leX (val (lo a)) (val v) else ltX (val (lo a)) (val v)) by (destruct (lc a); [apply xle_iff|apply xlt_iff]).
    assert (X2 : (if rc a then xle (val v) (val (hi a)) else xlt (val v) (val (hi a))) = true <-> if rc a then leX (val v) (val (hi a)) else ltX (val v) (val (hi a))) by (destruct (rc a); [apply xle_iff|apply xlt_iff]).
    rewrite X1, X2. clear X1 X2. unfold finite in F. destruct (val v) as [|s|x]; cbn in F; try contradiction.
    assert (Y1 : (if lc a then leX (val (lo a)) (Fin x) else ltX (val (lo a)) (Fin x)) <-> (if lc a then leX (val (lo a)) (Fin q) else ltX (val (lo a)) (Fin q))) by (split; [apply (abv_eq _ _ x q F)|apply (abv_eq _ _ q x); now symmetry]).
    assert (Y2 : (if rc a then leX (Fin x) (val (hi a)) else ltX (Fin x) (val (hi a))) <-> (if rc a then leX (Fin q) (val (hi a)) else ltX (Fin q) (val (hi a)))) by (split; [apply (blw_eq _ _ x q F)|apply (blw_eq _ _ q x); now symmetry]).
    rewrite Y1, Y2. reflexivity.
Qed.
Definition incl_I (a b : interval) : Prop := forall q, member a q -> member b q.
Lemma incl_x a b : PI a -> PI b -> inhabited a ->
  (ltighter (val (lo a)) (lc a) (val (lo b)) (lc b) /\ htighter (val (hi a)) (rc a) (val (hi b)) (rc b) <-> incl_I a b).
Proof.
  intros A B N. rewrite (ltighter_spec _ _ (val (hi a)) (rc a)); [|now apply PI_l|now apply PI_l|now apply PI_h|exact N].
  rewrite (htighter_spec (val (lo a)) (lc a)); [|now apply PI_l|now apply PI_h|now apply PI_h|exact N].
  unfold incl_I, member. change (abv (val (lo a)) (lc a)) with (above a). change (abv (val (lo b)) (lc b)) with (above b).
  change (blw (val (hi a)) (rc a)) with (below a). change (blw (val (hi b)) (rc b)) with (below b). firstorder.
Qed.
Lemma negb_or_t c d : negb c || d = true <-> c = false \/ d = true. Proof. destruct c, d; cbn; intuition discriminate. Qed.
Lemma subset_x a b : PI a -> PI b -> isSubsetOf r a b = true <-> incl_I a b.
Proof.
  intros A B. unfold isSubsetOf. destruct (isEmptyI r a) eqn:Ea.
  { apply (emp_t a A) in Ea. split; [|reflexivity]. intros _ q M. exfalso. apply Ea. now exists q. }
  apply (emp_f a A) in Ea. destruct (isEmptyI r b) eqn:Eb.
  { apply (emp_t b B) in Eb. split; [discriminate|]. intros F. destruct Ea as [q Hq]. exfalso. apply Eb. exists q. auto. }
  rewrite <- (incl_x a b A B Ea). destruct A as (A1 & A2 & _), B as (B1 & B2 & _). cmp.
  rewrite andb_true_iff, !orb_true_iff, !andb_true_iff, !negb_or_t, !xlt_iff, !xeq_iff. reflexivity.
Qed.
Lemma subsetEq_x a b : PI a -> PI b -> isSubsetEqOf r a b = true <-> incl_I a b.
Proof.
  intros A B. unfold isSubsetEqOf. destruct (isEmptyI r a) eqn:Ea.
  { apply (emp_t a A) in Ea. split; [|reflexivity]. intros _ q M. exfalso. apply Ea. now exists q. }
  apply (emp_f a A) in Ea.
  rewrite <- (incl_x a b A B Ea). destruct A as (A1 & A2 & _), B as (B1 & B2 & _). cmp.
  rewrite !andb_true_iff, !orb_true_iff, !negb_true_iff, !xle_iff, !xlt_iff. unfold ltighter, htighter, leX. rewrite (eqX_sym (val (lo b))). tauto.
Qed.
Lemma superset_x a b : PI a -> PI b -> inhabited b -> isSupersetOf r a b = true <-> incl_I b a.
Proof.
  intros A B Nb. unfold isSupersetOf. destruct (isEmptyI r a) eqn:Ea.
  { apply (emp_t a A) in Ea. split; [discriminate|]. intros F. destruct Nb as [q Hq]. exfalso. apply Ea. exists q. auto. }
  rewrite <- (incl_x b a B A Nb). destruct A as (A1 & A2 & _), B as (B1 & B2 & _). cmp.
  rewrite andb_true_iff, !orb_true_iff, !andb_true_iff, !orb_true_iff, !negb_true_iff, !xlt_iff, !xeq_iff. unfold ltighter, htighter.
  rewrite (eqX_sym (val (lo a))), (eqX_sym (val (hi a))). tauto.
Qed.
Lemma disj_x a b : PI a -> PI b -> inhabited a -> inhabited b -> isDisjointFrom r a b = true <-> (forall q, member a q -> member b q -> False).
Proof.
  intros A B Na Nb. unfold isDisjointFrom. rewrite (proj2 (emp_f a A) Na), (proj2 (emp_f b B) Nb). cbn [orb].
  pose proof (PI_l a A) as La. pose proof (PI_h a A) as Ha. pose proof (PI_l b B) as Lb. pose proof (PI_h b B) as Hb.
  destruct A as (A1 & A2 & _), B as (B1 & B2 & _). cmp.
  assert (E1 : xlt (val (hi a)) (val (lo b)) || (xeq (val (hi a)) (val (lo b)) && (negb (rc a) || negb (lc b))) || xlt (val (hi b)) (val (lo a)) || (xeq (val (lo a)) (val (hi b)) && (negb (lc a) || negb (rc b))) = xsep (val (hi a)) (rc a) (val (lo b)) (lc b) || xsep (val (hi b)) (rc b) (val (lo a)) (lc a)).
  { unfold xsep. rewrite orb_assoc, (orb_comm (negb (lc a))). f_equal. f_equal. apply Bool.eq_iff_eq_true. rewrite !xeq_iff. apply eqX_sym. }
  rewrite E1, orb_true_iff. split.
  - intros [F|F] q [M1 M2] [M3 M4]; [apply (proj1 (xsep_spec _ _ _ _ Ha Lb) F q M2 M3)|apply (proj1 (xsep_spec _ _ _ _ Hb La) F q M4 M1)].
  - intros F. destruct (xsep (val (hi a)) (rc a) (val (lo b)) (lc b)) eqn:S1; [left; reflexivity|]. destruct (xsep (val (hi b)) (rc b) (val (lo a)) (lc a)) eqn:S2; [right; reflexivity|]. exfalso.
    destruct (meet _ _ _ _ _ _ _ _ La Ha Lb Hb Na Nb S1 S2) as (q & Q1 & Q2). exact (F q Q1 Q2).
Qed.
Lemma inter_x a b : PI a -> PI b -> isIntersectingWith r a b = true <-> exists q, member a q /\ member b q.
Proof.
  intros A B. unfold isIntersectingWith. destruct (isEmptyI r a) eqn:Ea.
  { apply (emp_t a A) in Ea. cbn [orb]. split; [discriminate|]. intros (q & H & _). exfalso. apply Ea. now exists q. }
  destruct (isEmptyI r b) eqn:Eb.
  { apply (emp_t b B) in Eb. cbn [orb]. split; [discriminate|]. intros (q & _ & H). exfalso. apply Eb. now exists q. }
  cbn [orb]. apply (emp_f a A) in Ea. apply (emp_f b B) in Eb. pose proof (disj_x a b A B Ea Eb) as D. rewrite negb_true_iff.
  destruct (isDisjointFrom r a b) eqn:E.
  - split; [discriminate|]. intros (q & H & K). exfalso. exact (proj1 D eq_refl q H K).
  - split; [intros _|reflexivity]. revert E. unfold isDisjointFrom. rewrite (proj2 (emp_f a A) Ea), (proj2 (emp_f b B) Eb). cbn [orb].
    pose proof (PI_l a A) as La. pose proof (PI_h a A) as Ha. pose proof (PI_l b B) as Lb. pose proof (PI_h b B) as Hb.
    destruct A as (A1 & A2 & _), B as (B1 & B2 & _). cmp. intros E. rewrite !orb_false_iff in E. destruct E as [[[E1 E2] E3] E4].
    destruct (meet _ _ _ _ _ _ _ _ La Ha Lb Hb Ea Eb) as (q & Q1 & Q2).
    + unfold xsep. now rewrite E1, E2.
    + unfold xsep. rewrite E3. rewrite (orb_comm (negb (rc b))). replace (xeq (val (hi b)) (val (lo a))) with (xeq (val (lo a)) (val (hi b))); [exact E4|]. apply Bool.eq_iff_eq_true. rewrite !xeq_iff. apply eqX_sym.
    + now exists q.
Qed.

Lemma val_max a b : P a -> P b -> val (n_max r a b) = (if xlt (val a) (val b) then val b else val a) /\ P (n_max r a b).
Proof. intros A B. unfold n_max. cmp. destruct (xlt (val a) (val b)); auto. Qed.
Lemma val_min a b : P a -> P b -> val (n_min r a b) = (if xlt (val b) (val a) then val b else val a) /\ P (n_min r a b).
Proof. intros A B. unfold n_min. cmp. destruct (xlt (val b) (val a)); auto. Qed.
Lemma EmptyI_no q : ~ member EmptyI q.
Proof. intros [A B]. unfold above, below in *. cbn in A, B. change (inject_Z 1) with 1%Q in A. change (inject_Z (-1)) with (-1)%Q in B. lra. Qed.
Lemma EmptyI_wf : iwf EmptyI. Proof. split; exact I. Qed.
Lemma intersection_x a b q : PI a -> PI b -> member (intersection r a b) q <-> member a q /\ member b q.
Proof.
  intros A B. unfold intersection. destruct (isEmptyI r a) eqn:Ea.
  { apply (emp_t a A) in Ea. cbn [orb]. split; [intros H; now apply EmptyI_no in H|]. intros (H & _). exfalso. apply Ea. now exists q. }
  destruct (isEmptyI r b) eqn:Eb.
  { apply (emp_t b B) in Eb. cbn [orb]. split; [intros H; now apply EmptyI_no in H|]. intros (_ & H). exfalso. apply Eb. now exists q. }
  cbn [orb]. pose proof (PI_l a A) as La. pose proof (PI_h a A) as Ha. pose proof (PI_l b B) as Lb. pose proof (PI_h b B) as Hb. destruct A as (A1 & A2 & _), B as (B1 & B2 & _).
  unfold member, above, below. cbn [lo hi lc rc]. rewrite (proj1 (val_max _ _ A1 B1)), (proj1 (val_min _ _ A2 B2)). cmp.
  pose proof (lmax_spec (val (lo a)) (lc a) (val (lo b)) (lc b) q La Lb) as S1. pose proof (hmin_spec (val (hi a)) (rc a) (val (hi b)) (rc b) q Ha Hb) as S2. unfold abv, blw in S1, S2.
  rewrite S1, S2. tauto.
Qed.
Lemma intersection_wf a b : PI a -> PI b -> iwf (intersection r a b).
Proof.
  intros A B. unfold intersection. destruct (isEmptyI r a || isEmptyI r b); [exact EmptyI_wf|].
  pose proof (PI_l a A) as La. pose proof (PI_h a A) as Ha. pose proof (PI_l b B) as Lb. pose proof (PI_h b B) as Hb. destruct A as (A1 & A2 & _), B as (B1 & B2 & _).
  split; cbn [lo hi lc rc]; [rewrite (proj1 (val_max _ _ A1 B1))|rewrite (proj1 (val_min _ _ A2 B2))]; cmp; [apply (lmax_wf _ _ _ _ La Lb)|apply (hmin_wf _ _ _ _ Ha Hb)].
Qed.
Lemma hull_PI a b : PI a -> PI b -> PI (hull r a b).
Proof.
  intros A B. pose proof (PI_l a A) as La. pose proof (PI_h a A) as Ha. pose proof (PI_l b B) as Lb. pose proof (PI_h b B) as Hb. destruct A as (A1 & A2 & _), B as (B1 & B2 & _).
  split; [apply (val_min _ _ A1 B1)|split; [apply (val_max _ _ A2 B2)|]].
  split; cbn [lo hi lc rc hull]; [rewrite (proj1 (val_min _ _ A1 B1))|rewrite (proj1 (val_max _ _ A2 B2))]; cmp; [apply (lmin_wf _ _ _ _ La Lb)|apply (hmax_wf _ _ _ _ Ha Hb)].
Qed.
Lemma hull_above a b q : PI a -> PI b -> above (hull r a b) q <-> above a q \/ above b q.
Proof.
  intros A B. pose proof (PI_l a A) as La. pose proof (PI_l b B) as Lb. destruct A as (A1 & A2 & _), B as (B1 & B2 & _).
  unfold above. cbn [lo hi lc rc hull]. rewrite (proj1 (val_min _ _ A1 B1)). cmp. apply (lmin_spec _ _ _ _ q La Lb).
Qed.
Lemma hull_below a b q : PI a -> PI b -> below (hull r a b) q <-> below a q \/ below b q.
Proof.
  intros A B. pose proof (PI_h a A) as La. pose proof (PI_h b B) as Lb. destruct A as (A1 & A2 & _), B as (B1 & B2 & _).
  unfold below. cbn [lo hi lc rc hull]. rewrite (proj1 (val_max _ _ A2 B2)). cmp. apply (hmax_spec _ _ _ _ q La Lb).
Qed.
Lemma above_up a x y : above a x -> (x <= y)%Q -> above a y. Proof. apply abv_up. Qed.
Lemma below_dn a x y : below a x -> (y <= x)%Q -> below a y. Proof. apply blw_dn. Qed.
Lemma hull_union a b w q : PI a -> PI b -> member a w -> member b w -> member (hull r a b) q <-> member a q \/ member b q.
Proof.
  intros A B [W1 W2] [W3 W4]. unfold member. rewrite hull_above, hull_below by assumption. split; [|tauto].
  intros [[X|X] [Y|Y]]; try tauto; destruct (Qlt_le_dec q w) as [L|L].
  - left. split; [exact X|]. apply (below_dn a w q W2). lra.
  - right. split; [|exact Y]. exact (above_up b w q W3 L).
  - right. split; [exact X|]. apply (below_dn b w q W4). lra.
  - left. split; [|exact Y]. exact (above_up a w q W1 L).
Qed.
Lemma not_disj a b : PI a -> PI b -> inhabited a -> inhabited b -> isDisjointFrom r a b = false -> exists w, member a w /\ member b w.
Proof.
  intros A B Na Nb E. apply (inter_x a b A B). unfold isIntersectingWith. rewrite (proj2 (emp_f a A) Na), (proj2 (emp_f b B) Nb), E. reflexivity.
Qed.
Lemma union_x a b : PI a -> PI b -> inhabited a -> inhabited b ->
  ((exists w, member a w /\ member b w) -> exists u, unionWith r a b = Ok u /\ iwf u /\ forall q, member u q <-> member a q \/ member b q) /\
  ((forall w, member a w -> member b w -> False) -> unionWith r a b = Throw InvalidArgument).
Proof.
  intros A B Na Nb. unfold unionWith. rewrite (proj2 (emp_f a A) Na), (proj2 (emp_f b B) Nb). cbn [orb]. pose proof (disj_x a b A B Na Nb) as D. split.
  - intros (w & W1 & W2). destruct (isDisjointFrom r a b). { exfalso. exact (proj1 D eq_refl w W1 W2). }
    exists (hull r a b). split; [reflexivity|]. split; [apply (hull_PI a b A B)|]. intros q. now apply (hull_union a b w q).
  - intros F. now rewrite (proj2 D F).
Qed.
Lemma lt_x a b : PI a -> PI b -> inhabited a -> inhabited b -> exists t, i_lt r a b = Ok t /\ (t = true <-> forall x y, member a x -> member b y -> (x < y)%Q).
Proof.
  intros A B Na Nb. unfold i_lt. rewrite (proj2 (emp_f a A) Na), (proj2 (emp_f b B) Nb). cbn [orb].
  pose proof (PI_h a A) as Ha. pose proof (PI_l b B) as Lb. destruct A as (A1 & A2 & _), B as (B1 & B2 & _). cmp.
  eexists. split; [reflexivity|]. fold (xsep (val (hi a)) (rc a) (val (lo b)) (lc b)). rewrite (xsep_spec _ _ _ _ Ha Lb). split.
  - intros F x y [_ X] [Y _]. destruct (Qlt_le_dec x y) as [|L]; [assumption|]. exfalso. exact (F y (blw_dn _ _ x y X L) Y).
  - intros F q Q1 Q2. destruct Na as (x & X1 & X2), Nb as (y & Y1 & Y2).
    assert (Hx : exists x', member a x' /\ (q <= x')%Q). { destruct (Qlt_le_dec x q) as [L|L]; [exists q|exists x; split; [split|]; assumption]. split; [|lra]. split; [apply (above_up a x q X1); lra|exact Q1]. }
    assert (Hy : exists y', member b y' /\ (y' <= q)%Q). { destruct (Qlt_le_dec q y) as [L|L]; [exists q|exists y; split; [split|]; assumption]. split; [|lra]. split; [exact Q2|apply (below_dn b y q Y2); lra]. }
    destruct Hx as (x' & X' & Lx), Hy as (y' & Y' & Ly). pose proof (F x' y' X' Y'). lra.
Qed.
Lemma gt_lt a b : PI a -> PI b -> i_gt r a b = i_lt r b a.
Proof.
  intros (A1 & A2 & _) (B1 & B2 & _). unfold i_gt, i_lt. rewrite (orb_comm (isEmptyI r b)). destruct (isEmptyI r a || isEmptyI r b); [reflexivity|]. cmp.
  rewrite (orb_comm (negb (lc a))). do 3 f_equal. apply Bool.eq_iff_eq_true. rewrite !xeq_iff. apply eqX_sym.
Qed.

Lemma lcut_neg l c q : lwf l c -> (~ abv l c q <-> blw l (negb c) q).
Proof. intros H. destruct l as [|[]|x]; cbn in H; try contradiction; try (destruct H; discriminate); [destruct H as [_ ->]; unfold abv, blw, leX; cbn; tauto|]. destruct c; unfold abv, blw, leX; cbn; lra. Qed.
Lemma hcut_neg l c q : hwf l c -> (~ blw l c q <-> abv l (negb c) q).
Proof. intros H. destruct l as [|[]|x]; cbn in H; try contradiction; try (destruct H; discriminate); [destruct H as [_ ->]; unfold abv, blw, leX; cbn; tauto|]. destruct c; unfold abv, blw, leX; cbn; lra. Qed.
Definition in_any (l : list interval) (q : Q) : Prop := exists a, In a l /\ member a q.

Lemma cut_no l c h d q : abv l c q -> blw h d q -> ltX h l -> False.
Proof. unfold abv, blw, leX. destruct c, d, l as [|[]|x], h as [|[]|y]; cbn; try tauto; lra. Qed.
Lemma cut_eq l c h d q : abv l c q -> blw h d q -> eqX l h -> c = false \/ d = false -> False.
Proof. unfold abv, blw, leX. destruct c, d, l as [|[]|x], h as [|[]|y]; cbn; try tauto; intros A B C [D|D]; try discriminate; try lra. Qed.
Lemma lt_irr x y : ltX x y -> ltX y x -> False.
Proof. destruct x as [|[]|x], y as [|[]|y]; cbn; try tauto; lra. Qed.
Lemma lt_neq x y : ltX x y -> eqX x y -> False.
Proof. destruct x as [|[]|x], y as [|[]|y]; cbn; try tauto; try discriminate; lra. Qed.
Lemma trich x y : x <> Nan -> y <> Nan -> ltX x y \/ eqX x y \/ ltX y x.
Proof. intros A B. destruct x as [|[]|x], y as [|[]|y]; cbn; try tauto; try (exfalso; auto; fail). destruct (Q_dec x y) as [[H|H]|H]; auto. Qed.
Lemma xeq_sym x y : xeq x y = xeq y x.
Proof. apply Bool.eq_iff_eq_true. rewrite !xeq_iff. apply eqX_sym. Qed.
Definition one3 (u v w : bool) : bool := match u, v, w with true, false, false | false, true, false | false, false, true => true | _, _, _ => false end.
Lemma xtri x y : x <> Nan -> y <> Nan -> one3 (xlt x y) (xeq x y) (xlt y x) = true.
Proof.
  intros A B. destruct x as [|[]|x], y as [|[]|y]; try (exfalso; auto; fail); try reflexivity. cbn [xlt xeq].
  destruct (qlt_spec x y), (qeq_spec x y), (qlt_spec y x); try reflexivity; exfalso; lra.
Qed.
Definition diff4 (u1 u2 u3 v1 v2 v3 c d e f : bool) : bool := (u3 || u2 || (u2 && implb c d)) && (v3 || (v2 && negb f && e)).
Definition diff5 (u1 u2 u3 v1 v2 v3 c d e f : bool) : bool := (u1 || (u2 && negb d && c)) && (v1 || v2 || (v2 && implb e f)).
Lemma diff_bool u1 u2 u3 v1 v2 v3 c d e f : one3 u1 u2 u3 = true -> one3 v1 v2 v3 = true ->
  (u3 || (u2 && (negb c || d))) && (v1 || (v2 && (negb e || f))) = false ->
  (u1 || (u2 && (negb d || c))) && (v3 || (v2 && (negb f || e))) = false ->
  (diff4 u1 u2 u3 v1 v2 v3 c d e f = true /\ u3 || (u2 && (negb c || d)) = true) \/
  (diff4 u1 u2 u3 v1 v2 v3 c d e f = false /\ diff5 u1 u2 u3 v1 v2 v3 c d e f = true /\ v1 || (v2 && (negb e || f)) = true).
Proof.
  destruct u1, u2, u3; try discriminate; destruct v1, v2, v3; try discriminate; destruct c, d, e, f; intros _ _; cbn; intros; try discriminate; auto.
Qed.
(** the difference is right unless b lies strictly inside a, or a inside b touching an open upper end *)
Lemma difference_x a b q : PI a -> PI b -> inhabited a -> inhabited b ->
  (incl_I b a -> incl_I a b) ->
  ~ (incl_I a b /\ eqX (val (hi b)) (val (hi a)) /\ rc b = false /\ lc b = false) ->
  in_any (difference r a b) q <-> member a q /\ ~ member b q.
Proof.
  intros A B Na Nb NI1 NI2. unfold difference. pose proof (disj_x a b A B Na Nb) as D. destruct (isDisjointFrom r a b) eqn:Ed.
  { split.
    - intros (x & [<-|[]] & M). split; [exact M|]. intros K. exact (proj1 D eq_refl q M K).
    - intros [M _]. exists a. split; [now left|exact M]. }
  destruct (not_disj a b A B Na Nb Ed) as (w & [Wa1 Wa2] & [Wb1 Wb2]).
  pose proof (superset_x a b A B Nb) as Sp. destruct (isSupersetOf r a b) eqn:Es.
  { split; [intros (x & [] & _)|]. intros [M N]. exfalso. apply N. apply NI1; [now apply Sp|exact M]. }
  assert (Sp' : ~ incl_I b a) by (intros K; apply Sp in K; discriminate). clear Sp.
  pose proof (subset_x a b A B) as Sb. destruct (isSubsetOf r a b) eqn:Eb.
  { assert (K : incl_I a b) by (now apply Sb). pose proof (proj2 (incl_x a b A B Na) K) as [T1 T2]. split.
    2: { intros [M N]. exfalso. apply N, K, M. }
    intros (x & [<-|[<-|[]]] & [M1 M2]); exfalso; unfold above, below in M1, M2; cbn [lo hi lc rc] in M1, M2.
    - destruct T1 as [T1|[T1 T1']]; [exact (cut_no _ _ _ _ q M1 M2 T1)|]. apply (cut_eq _ _ _ _ q M1 M2 T1). destruct T1' as [-> | ->]; auto.
    - destruct T2 as [T2|[T2 T2']]; [exact (cut_no _ _ _ _ q M1 M2 T2)|]. apply (cut_eq _ _ _ _ q M1 M2); [now apply eqX_sym|].
      destruct (rc b) eqn:Rb; [left; reflexivity|]. destruct (lc b) eqn:Lb; [right; reflexivity|]. exfalso. apply NI2. split; [exact K|]. split; [now apply eqX_sym|auto]. }
  assert (Sb' : ~ incl_I a b) by (intros K; apply Sb in K; discriminate). clear Sb.
  rewrite <- (incl_x a b A B Na) in Sb'. rewrite <- (incl_x b a B A Nb) in Sp'.
  pose proof (PI_l a A) as La. pose proof (PI_h a A) as Ha. pose proof (PI_l b B) as Lb. pose proof (PI_h b B) as Hb. destruct A as (A1 & A2 & A3), B as (B1 & B2 & B3).
  pose proof (trich _ _ (Pn _ A1) (Pn _ B1)) as Tl. pose proof (trich _ _ (Pn _ A2) (Pn _ B2)) as Th.
  assert (Tlb := xtri _ _ (Pn _ A1) (Pn _ B1)). assert (Thb := xtri _ _ (Pn _ A2) (Pn _ B2)).
  assert (Fb : (xlt (val (lo b)) (val (lo a)) || (xeq (val (lo a)) (val (lo b)) && (negb (lc a) || lc b))) && (xlt (val (hi a)) (val (hi b)) || (xeq (val (hi a)) (val (hi b)) && (negb (rc a) || rc b))) = false).
  { apply not_true_iff_false. rewrite andb_true_iff, !orb_true_iff, !andb_true_iff, !negb_or_t, !xlt_iff, !xeq_iff. exact Sb'. }
  assert (Fp : (xlt (val (lo a)) (val (lo b)) || (xeq (val (lo a)) (val (lo b)) && (negb (lc b) || lc a))) && (xlt (val (hi b)) (val (hi a)) || (xeq (val (hi a)) (val (hi b)) && (negb (rc b) || rc a))) = false).
  { rewrite (xeq_sym (val (lo a))), (xeq_sym (val (hi a))). apply not_true_iff_false. rewrite andb_true_iff, !orb_true_iff, !andb_true_iff, !negb_or_t, !xlt_iff, !xeq_iff. exact Sp'. }
  pose proof (diff_bool _ _ _ _ _ _ (lc a) (lc b) (rc a) (rc b) Tlb Thb Fb Fp) as DB. clear Fb Fp Tlb Thb Sb' Sp'. cmp. unfold xle. rewrite (xeq_sym (val (lo b))), (xeq_sym (val (hi b))). unfold diff4, diff5 in DB.
  match goal with |- context [if ?c then [Itv (hi b) (hi a) _ _] else _] => set (c4 := c) in * end.
  match goal with |- context [if ?c then [Itv (lo a) (lo b) _ _] else _] => set (c5 := c) in * end.
  clearbody c4 c5.
  destruct c4.
  - assert (Lt : ltighter (val (lo a)) (lc a) (val (lo b)) (lc b)). { destruct DB as [[_ DB]|[DB _]]; [|discriminate]. rewrite orb_true_iff, andb_true_iff, negb_or_t, xlt_iff, xeq_iff in DB. exact DB. }
    split.
    + intros (x & [<-|[]] & [M1 M2]). unfold above, below in M1, M2. cbn [lo hi lc rc] in M1, M2.
      assert (N : ~ below b q). { intros K. revert M1. change (abv (val (hi b)) (negb (rc b)) q -> False). rewrite <- hcut_neg by exact Hb. intros U. exact (U K). }
      split; [split; [|exact M2]|intros [_ K]; exact (N K)]. destruct (Qlt_le_dec q w) as [L|L]; [|exact (above_up a w q Wa1 L)]. exfalso. apply N. apply (below_dn b w q Wb2). lra.
    + intros [[M1 M2] N]. exists (Itv (hi b) (hi a) (negb (rc b)) (rc a)). split; [now left|]. split; [|exact M2]. unfold above. cbn [lo hi lc rc].
      apply hcut_neg; [exact Hb|]. intros K. apply N. split; [|exact K]. apply (proj1 (ltighter_spec _ _ (val (hi a)) (rc a) _ _ La Lb Ha Na) Lt q M1 M2).
  - destruct DB as [[DB _]|(_ & -> & DB)]; [discriminate|].
      assert (Ht : htighter (val (hi a)) (rc a) (val (hi b)) (rc b)). { rewrite orb_true_iff, andb_true_iff, negb_or_t, xlt_iff, xeq_iff in DB. exact DB. }
      split.
      * intros (x & [<-|[]] & [M1 M2]). unfold above, below in M1, M2. cbn [lo hi lc rc] in M1, M2.
        assert (N : ~ above b q). { intros K. revert M2. change (blw (val (lo b)) (negb (lc b)) q -> False). rewrite <- lcut_neg by exact Lb. intros U. exact (U K). }
        split; [split; [exact M1|]|intros [K _]; exact (N K)]. destruct (Qlt_le_dec w q) as [L|L]; [|exact (below_dn a w q Wa2 L)]. exfalso. apply N. apply (above_up b w q Wb1). lra.
      * intros [[M1 M2] N]. exists (Itv (lo a) (lo b) (lc a) (negb (lc b))). split; [now left|]. split; [exact M1|]. unfold below. cbn [lo hi lc rc].
        apply lcut_neg; [exact Lb|]. intros K. apply N. split; [exact K|]. apply (proj1 (htighter_spec (val (lo a)) (lc a) _ _ _ _ La Hb Ha Na) Ht q M1 M2).
Qed.

Definition under (b a : interval) : Prop := forall q, above b q -> above a q.
Lemma less_under a b : PI a -> PI b -> i_less r b a = false -> under b a.
Proof.
  intros A B. pose proof (PI_l a A) as La. pose proof (PI_l b B) as Lb. destruct A as (A1 & A2 & _), B as (B1 & B2 & _). unfold i_less. cmp. intros E q. unfold above.
  rewrite orb_false_iff in E. destruct E as [E1 E2].
  assert (N1 : ~ ltX (val (lo b)) (val (lo a))) by (rewrite <- xlt_iff; congruence).
  assert (N2 : eqX (val (lo b)) (val (lo a)) -> lc b = true -> lc a = true). { rewrite <- xeq_iff. intros H1 H2. rewrite H1, H2 in E2. destruct (lc a); [reflexivity|discriminate]. }
  clear E1 E2. destruct (lc a), (lc b); destruct (val (lo a)) as [|[]|x], (val (lo b)) as [|[]|y]; cbn in La, Lb; try contradiction; try (destruct La; discriminate); try (destruct Lb; discriminate); unfold leX; cbn in *; try tauto; try lra.
Qed.
Lemma under_hull a b c : PI a -> PI b -> under c a -> under c (hull r a b).
Proof. intros A B U q H. apply hull_above; auto. Qed.
Definition disjI (a b : interval) : Prop := forall q, member a q -> member b q -> False.
Lemma merge_x l : forall cur, PI cur -> inhabited cur -> (forall b, In b l -> PI b /\ inhabited b /\ under b cur) ->
  StronglySorted (fun a b => under b a) l ->
  (forall q, in_any (merge_loop r cur l) q <-> member cur q \/ in_any l q) /\
  ForallOrdPairs disjI (merge_loop r cur l) /\
  (forall o, In o (merge_loop r cur l) -> PI o /\ inhabited o /\ under o cur).
Proof.
  induction l as [|b l IH]; intros cur C NC Hl S.
  - cbn [merge_loop]. split; [|split].
    + intros q. split; [intros (a & [<-|[]] & M); auto|intros [M|(a & [] & _)]; exists cur; split; [now left|exact M]].
    + constructor; [constructor|constructor].
    + intros o [<-|[]]. split; [exact C|]. split; [exact NC|]. intros q H. exact H.
  - cbn [merge_loop]. destruct (Hl b (or_introl eq_refl)) as (B & NB & U). inversion S as [|? ? S1 S2]; subst.
    rewrite Forall_forall in S2. destruct (isDisjointFrom r cur b) eqn:E; cbn [negb].
    + destruct (IH b B NB) as (I1 & I2 & I3); [|exact S1|].
      { intros x Hx. destruct (Hl x (or_intror Hx)) as (X1 & X2 & _). auto. }
      pose proof (proj1 (disj_x cur b C B NC NB) E) as E0; clear E; rename E0 into E. split; [|split].
      * intros q. split.
        -- intros (a & [<-|Ha] & M); [auto|]. right. assert (K : in_any (merge_loop r b l) q) by (exists a; auto). apply I1 in K. destruct K as [K|(x & X & K)]; [exists b; split; [now left|exact K]|exists x; split; [now right|exact K]].
        -- intros [M|(x & [<-|X] & M)]; [exists cur; split; [now left|exact M]| |].
           ++ destruct (proj2 (I1 q) (or_introl M)) as (y & Y & M'). exists y. split; [now right|exact M'].
           ++ destruct (proj2 (I1 q) (or_intror (ex_intro _ x (conj X M)))) as (y & Y & M'). exists y. split; [now right|exact M'].
      * constructor; [|exact I2]. rewrite Forall_forall. intros o Ho. destruct (I3 o Ho) as (O1 & O2 & O3). intros q [Q1 Q2] [Q3 Q4].
        destruct (blw_dec (val (hi b)) (rc b) q (PI_h b B)) as [K|K].
        { apply (E q); split; auto. }
        destruct NB as (y & Y1 & Y2). assert (L : (y <= q)%Q). { destruct (Qlt_le_dec q y) as [L|L]; [|exact L]. exfalso. apply K. apply (blw_dn _ _ y q Y2). lra. }
        apply (E y); split; auto. exact (below_dn cur q y Q2 L).
      * intros o [<-|Ho]; [split; [exact C|]; split; [exact NC|]; intros q H; exact H|]. destruct (I3 o Ho) as (O1 & O2 & O3). split; [exact O1|]. split; [exact O2|]. intros q H. apply U, O3, H.
    + destruct (not_disj cur b C B NC NB E) as (w & W1 & W2).
      destruct (IH (hull r cur b) (hull_PI cur b C B)) as (I1 & I2 & I3); [| |exact S1|].
      { exists w. apply (hull_union cur b w w C B W1 W2). auto. }
      { intros x Hx. destruct (Hl x (or_intror Hx)) as (X1 & X2 & X3). split; [exact X1|]. split; [exact X2|]. now apply under_hull. }
      split; [|split; [exact I2|]].
      * intros q. rewrite I1, (hull_union cur b w q C B W1 W2). split.
        -- intros [[M|M]|(x & X & M)]; [auto|right; exists b; split; [now left|exact M]|right; exists x; split; [now right|exact M]].
        -- intros [M|(x & [<-|X] & M)]; [auto|auto|right; exists x; auto].
      * intros o Ho. destruct (I3 o Ho) as (O1 & O2 & O3). split; [exact O1|]. split; [exact O2|]. intros q H. apply O3 in H. apply hull_above in H; auto. destruct H as [H|H]; auto.
Qed.
Lemma unionMulti_x srt l : (Permutation l (srt l)) -> StronglySorted (fun a b => i_less r b a = false) (srt l) ->
  (forall a, In a l -> PI a /\ inhabited a) ->
  (forall q, in_any (unionMulti r srt l) q <-> in_any l q) /\ ForallOrdPairs disjI (unionMulti r srt l) /\
  (forall o, In o (unionMulti r srt l) -> iwf o /\ inhabited o).
Proof.
  intros Pm S Hl. destruct l as [|a [|b l]].
  - cbn. split; [reflexivity|]. split; [constructor|]. intros o [].
  - cbn. split; [reflexivity|]. split; [constructor; constructor|]. intros o [<-|[]]. destruct (Hl a (or_introl eq_refl)) as ((_ & _ & W) & N). auto.
  - unfold unionMulti. assert (Hs : forall x, In x (srt (a :: b :: l)) -> PI x /\ inhabited x) by (intros x Hx; apply Hl; now apply Permutation_in with (srt (a :: b :: l)); [apply Permutation_sym|]).
    assert (EQ : forall q, in_any (srt (a :: b :: l)) q <-> in_any (a :: b :: l) q).
    { intros q. split; intros (x & X & M); exists x; (split; [|exact M]); [now apply Permutation_in with (srt (a :: b :: l)); [apply Permutation_sym|]|now apply Permutation_in with (a :: b :: l)]. }
    revert Hs EQ S. clear Pm Hl. generalize (srt (a :: b :: l)). generalize (a :: b :: l). clear a b l. intros l s Hs EQ S. destruct s as [|c s].
    { split; [exact EQ|]. split; [constructor|]. intros o []. }
    inversion S as [|? ? S1 S2]; subst. rewrite Forall_forall in S2.
    destruct (merge_x s c) as (M1 & M2 & M3).
    + apply Hs; now left.
    + apply Hs; now left.
    + intros x Hx. destruct (Hs x (or_intror Hx)) as [X1 X2]. split; [exact X1|]. split; [exact X2|]. apply less_under; [apply Hs; now left|exact X1|now apply S2].
    + clear - Hs S1 Pn Plt Peq Ple. induction S1 as [|x s S1 IH F]; [constructor|]. constructor.
      * apply IH. intros y [<-|Hy]; apply Hs; [now left|now right; right].
      * rewrite Forall_forall in F |- *. intros y Hy. apply less_under; [apply Hs; right; now left|apply Hs; now right; right|now apply F].
    + split; [|split; [exact M2|]].
      * intros q. rewrite M1, <- EQ. split; [intros [M|(x & X & M)]; [exists c; split; [now left|exact M]|exists x; split; [now right|exact M]]|intros (x & [<-|X] & M); [auto|right; exists x; auto]].
      * intros o Ho. destruct (M3 o Ho) as ((_ & _ & W) & N & _). auto.
Qed.

(** ** arithmetic; the hypotheses say that the bounds of the result were computed without rounding *)
Lemma mem_l a q : member a q -> abv (val (lo a)) (lc a) q. Proof. intros [H _]. exact H. Qed.
Lemma mem_h a q : member a q -> blw (val (hi a)) (rc a) q. Proof. intros [_ H]. exact H. Qed.
Lemma wf_eqX_l n l c : eqX (val n) l -> lwf l c -> lwf (val n) c.
Proof. intros E W. destruct (val n), l; cbn in *; try contradiction; try (subst; assumption); exact I. Qed.
Lemma wf_eqX_h n l c : eqX (val n) l -> hwf l c -> hwf (val n) c.
Proof. intros E W. destruct (val n), l; cbn in *; try contradiction; try (subst; assumption); exact I. Qed.
Lemma xs_lwf l c m d : lwf l c -> lwf m d -> lwf (xs l m) (c && d).
Proof. intros A B. destruct l as [|[]|x], m as [|[]|y]; cbn in *; try contradiction; try (destruct A; discriminate); try (destruct B; discriminate); auto; [destruct A as [_ ->]; auto|destruct A as [_ ->]; auto|destruct B as [_ ->]; rewrite andb_false_r; auto]. Qed.
Lemma xs_hwf l c m d : hwf l c -> hwf m d -> hwf (xs l m) (c && d).
Proof. intros A B. destruct l as [|[]|x], m as [|[]|y]; cbn in *; try contradiction; try (destruct A; discriminate); try (destruct B; discriminate); auto; [destruct A as [_ ->]; auto|destruct A as [_ ->]; auto|destruct B as [_ ->]; rewrite andb_false_r; auto]. Qed.
Lemma add_x a b q : PI a -> PI b ->
  eqX (val (n_add r (lo a) (lo b))) (xs (val (lo a)) (val (lo b))) -> eqX (val (n_add r (hi a) (hi b))) (xs (val (hi a)) (val (hi b))) ->
  (iwf (i_add r a b)) /\ (member (i_add r a b) q <-> exists x y, member a x /\ member b y /\ (q == x + y)%Q).
Proof.
  intros A B E1 E2. unfold i_add. destruct (isEmptyI r a) eqn:Ea.
  { apply (emp_t a A) in Ea. cbn [orb]. split; [exact EmptyI_wf|]. split; [intros H; now apply EmptyI_no in H|]. intros (x & y & H & _). exfalso. apply Ea. now exists x. }
  destruct (isEmptyI r b) eqn:Eb.
  { apply (emp_t b B) in Eb. cbn [orb]. split; [exact EmptyI_wf|]. split; [intros H; now apply EmptyI_no in H|]. intros (x & y & _ & H & _). exfalso. apply Eb. now exists y. }
  cbn [orb]. apply (emp_f a A) in Ea. apply (emp_f b B) in Eb.
  pose proof (PI_l a A) as La. pose proof (PI_h a A) as Ha. pose proof (PI_l b B) as Lb. pose proof (PI_h b B) as Hb. split.
  - split; cbn [lo hi lc rc]; [apply (wf_eqX_l _ _ _ E1), xs_lwf; assumption|apply (wf_eqX_h _ _ _ E2), xs_hwf; assumption].
  - pose proof (sum_set _ _ _ _ _ _ _ _ q La Ha Lb Hb Ea Eb) as S. unfold member at 1, above, below. cbn [lo hi lc rc].
    change ((abv (val (n_add r (lo a) (lo b))) (lc a && lc b) q /\ blw (val (n_add r (hi a) (hi b))) (rc a && rc b) q) <-> exists x y, member a x /\ member b y /\ (q == x + y)%Q).
    rewrite (abv_eqX _ _ _ _ E1), (blw_eqX _ _ _ _ E2), S. split; intros (x & y & X & Y & Z); exists x, y; split; auto.
Qed.
Lemma opp_lwf l c : hwf l c -> lwf (xopp l) c. Proof. destruct l as [|[]|]; cbn; intuition congruence. Qed.
Lemma opp_hwf l c : lwf l c -> hwf (xopp l) c. Proof. destruct l as [|[]|]; cbn; intuition congruence. Qed.
Lemma sub_x a b q : PI a -> PI b ->
  eqX (val (n_sub r (lo a) (hi b))) (xs (val (lo a)) (xopp (val (hi b)))) -> eqX (val (n_sub r (hi a) (lo b))) (xs (val (hi a)) (xopp (val (lo b)))) ->
  (iwf (i_sub r a b)) /\ (member (i_sub r a b) q <-> exists x y, member a x /\ member b y /\ (q == x - y)%Q).
Proof.
  intros A B E1 E2. unfold i_sub. destruct (isEmptyI r a) eqn:Ea.
  { apply (emp_t a A) in Ea. cbn [orb]. split; [exact EmptyI_wf|]. split; [intros H; now apply EmptyI_no in H|]. intros (x & y & H & _). exfalso. apply Ea. now exists x. }
  destruct (isEmptyI r b) eqn:Eb.
  { apply (emp_t b B) in Eb. cbn [orb]. split; [exact EmptyI_wf|]. split; [intros H; now apply EmptyI_no in H|]. intros (x & y & _ & H & _). exfalso. apply Eb. now exists y. }
  cbn [orb]. apply (emp_f a A) in Ea. apply (emp_f b B) in Eb.
  pose proof (PI_l a A) as La. pose proof (PI_h a A) as Ha. pose proof (opp_hwf _ _ (PI_l b B)) as Lb. pose proof (opp_lwf _ _ (PI_h b B)) as Hb. split.
  - split; cbn [lo hi lc rc]; [apply (wf_eqX_l _ _ _ E1), xs_lwf; assumption|apply (wf_eqX_h _ _ _ E2), xs_hwf; assumption].
  - assert (Eb' : exists y, abv (xopp (val (hi b))) (rc b) y /\ blw (xopp (val (lo b))) (lc b) y). { destruct Eb as (y & Y1 & Y2). exists (- y)%Q. split; [now apply abv_opp|now apply blw_opp]. }
    pose proof (sum_set _ _ _ _ _ _ _ _ q La Ha Hb Lb Ea Eb') as S. unfold member at 1, above, below. cbn [lo hi lc rc].
    change ((abv (val (n_sub r (lo a) (hi b))) (lc a && rc b) q /\ blw (val (n_sub r (hi a) (lo b))) (rc a && lc b) q) <-> exists x y, member a x /\ member b y /\ (q == x - y)%Q).
    rewrite (abv_eqX _ _ _ _ E1), (blw_eqX _ _ _ _ E2), S. split; intros (x & y & X & [Y1 Y2] & Z); exists x, (- y)%Q; (split; [exact X|]).
    + split; [|lra]. split; [apply blw_opp, (blw_eq _ _ y); [ring|exact Y2]|apply abv_opp, (abv_eq _ _ y); [ring|exact Y1]].
    + split; [|lra]. split; [now apply abv_opp|now apply blw_opp].
Qed.
Lemma val_neg n : val (n_neg n) = xopp (val n) \/ exists z, n = NI z /\ eqX (val (n_neg n)) (xopp (val n)).
Proof. destruct n as [z|[|s|x]]; [right; exists z; split; [reflexivity|]; cbn; rewrite inject_Z_opp; reflexivity|left; reflexivity|left; reflexivity|left; reflexivity]. Qed.
Lemma val_neg_eq n : val n <> Nan -> eqX (val (n_neg n)) (xopp (val n)).
Proof. intros N. destruct (val_neg n) as [->|(z & -> & H)]; [|exact H]. apply eqX_refl. destruct (val n) as [|s|x]; cbn; [congruence|discriminate|discriminate]. Qed.
Lemma neg_cuts a q : PI a -> (abv (val (n_neg (hi a))) (rc a) q /\ blw (val (n_neg (lo a))) (lc a) q) <-> member a (- q).
Proof.
  intros (A1 & A2 & _). rewrite (abv_eqX _ _ _ _ (val_neg_eq _ (Pn _ A2))), (blw_eqX _ _ _ _ (val_neg_eq _ (Pn _ A1))).
  pose proof (abv_opp (val (hi a)) (rc a) (- q)) as S1. pose proof (blw_opp (val (lo a)) (lc a) (- q)) as S2.
  assert (E : (- - q == q)%Q) by ring. unfold member, above, below. split.
  - intros [X Y]. split; [apply S2, (blw_eq _ _ q); [now symmetry|exact Y]|apply S1, (abv_eq _ _ q); [now symmetry|exact X]].
  - intros [X Y]. split; [apply (abv_eq _ _ _ _ E), S1, Y|apply (blw_eq _ _ _ _ E), S2, X].
Qed.
Lemma neg_x a q : PI a -> (member (i_neg r a) q <-> member a (- q)).
Proof.
  intros A. unfold i_neg. destruct (isEmptyI r a) eqn:Ea.
  { apply (emp_t a A) in Ea. split; [intros H; now apply EmptyI_no in H|]. intros H. exfalso. apply Ea. now exists (- q)%Q. }
  apply (neg_cuts a q A).
Qed.
Lemma addN_x a v q t : finite v t -> 
  eqX (val (n_add r (lo a) v)) (xs (val (lo a)) (Fin t)) -> eqX (val (n_add r (hi a) v)) (xs (val (hi a)) (Fin t)) ->
  (member (i_addN r a v) q <-> exists x, member a x /\ (q == x + t)%Q).
Proof.
  intros F E1 E2. unfold member at 1, above, below, i_addN. cbn [lo hi lc rc].
  change ((abv (val (n_add r (lo a) v)) (lc a) q /\ blw (val (n_add r (hi a) v)) (rc a) q) <-> exists x, member a x /\ (q == x + t)%Q).
  rewrite (abv_eqX _ _ _ _ E1), (blw_eqX _ _ _ _ E2).
  assert (S1 : forall x, abv (xs (val (lo a)) (Fin t)) (lc a) (x + t) <-> abv (val (lo a)) (lc a) x). { intros x. unfold abv, leX. destruct (lc a), (val (lo a)) as [|[]|l]; cbn; try tauto; lra. }
  assert (S2 : forall x, blw (xs (val (hi a)) (Fin t)) (rc a) (x + t) <-> blw (val (hi a)) (rc a) x). { intros x. unfold blw, leX. destruct (rc a), (val (hi a)) as [|[]|l]; cbn; try tauto; lra. }
  split.
  - intros [X Y]. exists (q - t)%Q. split; [|ring]. split; [apply S1, (abv_eq _ _ q); [ring|exact X]|apply S2, (blw_eq _ _ q); [ring|exact Y]].
  - intros (x & [X Y] & E). symmetry in E. split; [apply (abv_eq _ _ _ _ E), S1, X|apply (blw_eq _ _ _ _ E), S2, Y].
Qed.
Lemma scale_image a k q : (~ k == 0)%Q ->
  (if qlt k 0 then abv (xscale k (val (hi a))) (rc a) q /\ blw (xscale k (val (lo a))) (lc a) q
   else abv (xscale k (val (lo a))) (lc a) q /\ blw (xscale k (val (hi a))) (rc a) q) <-> exists x, member a x /\ (q == x * k)%Q.
Proof.
  intros K. assert (E : (q == q / k * k)%Q) by (field; exact K). destruct (qlt_spec k 0) as [N|N].
  - assert (S := fun l c x => scale_neg k l c x N). split.
    + intros [X Y]. exists (q / k)%Q. split; [|exact E]. split; [apply (proj2 (S _ _ _)), (blw_eq _ _ q _ E), Y|apply (proj1 (S _ _ _)), (abv_eq _ _ q _ E), X].
    + intros (x & [X Y] & Ex). symmetry in Ex. split; [apply (abv_eq _ _ _ _ Ex), (proj1 (S _ _ _)), Y|apply (blw_eq _ _ _ _ Ex), (proj2 (S _ _ _)), X].
  - assert (N' : (0 < k)%Q). { destruct (Q_dec k 0) as [[?|?]|?]; [contradiction|assumption|contradiction]. }
    assert (S := fun l c x => scale_pos k l c x N'). split.
    + intros [X Y]. exists (q / k)%Q. split; [|exact E]. split; [apply (proj1 (S _ _ _)), (abv_eq _ _ q _ E), X|apply (proj2 (S _ _ _)), (blw_eq _ _ q _ E), Y].
    + intros (x & [X Y] & Ex). symmetry in Ex. split; [apply (abv_eq _ _ _ _ Ex), (proj1 (S _ _ _)), X|apply (blw_eq _ _ _ _ Ex), (proj2 (S _ _ _)), Y].
Qed.
Context (P0 : P (NI 0)).
Lemma sign_x v t : P v -> finite v t -> n_gt r v (NI 0) = qlt 0 t /\ n_lt r v (NI 0) = qlt t 0 /\ n_eq r v (NI 0) = Qeq_bool t 0.
Proof.
  intros V F. cmp. unfold finite in F. change (val (NI 0)) with (Fin 0). split; [|split].
  - rewrite (xlt_eq (Fin 0) (Fin 0) (val v) (Fin t)); [reflexivity|reflexivity|exact F].
  - rewrite (xlt_eq (val v) (Fin t) (Fin 0) (Fin 0)); [reflexivity|exact F|reflexivity].
  - rewrite (xeq_eq (val v) (Fin t) (Fin 0) (Fin 0)); [reflexivity|exact F|reflexivity].
Qed.
Lemma mulN_x a v q t : PI a -> P v -> finite v t -> (~ t == 0)%Q ->
  eqX (val (n_mul r (lo a) v)) (xscale t (val (lo a))) -> eqX (val (n_mul r (hi a) v)) (xscale t (val (hi a))) ->
  (member (i_mulN r a v) q <-> exists x, member a x /\ (q == x * t)%Q).
Proof.
  intros A V F N E1 E2. unfold i_mulN. destruct (isEmptyI r a) eqn:Ea.
  { apply (emp_t a A) in Ea. split; [intros H; now apply EmptyI_no in H|]. intros (x & H & _). exfalso. apply Ea. now exists x. }
  destruct (sign_x v t V F) as (S1 & S2 & _). rewrite S1, S2. pose proof (scale_image a t q N) as SI. destruct (qlt_spec 0 t) as [T|T].
  - destruct (qlt_spec t 0); [exfalso; lra|]. rewrite <- SI, <- (abv_eqX _ _ _ _ E1), <- (blw_eqX _ _ _ _ E2). reflexivity.
  - destruct (qlt_spec t 0) as [U|U]; [|exfalso; apply N; lra]. rewrite <- SI, <- (abv_eqX _ _ _ _ E2), <- (blw_eqX _ _ _ _ E1). reflexivity.
Qed.
Lemma divN_x a v q t l h : PI a -> P v -> finite v t -> (~ t == 0)%Q -> inhabited a ->
  n_div r (lo a) v = Ok l -> n_div r (hi a) v = Ok h ->
  eqX (val l) (xscale (/ t) (val (lo a))) -> eqX (val h) (xscale (/ t) (val (hi a))) ->
  exists u, i_divN r a v = Ok u /\ (member u q <-> exists x, member a x /\ (q == x / t)%Q).
Proof.
  intros A V F N Na D1 D2 E1 E2. unfold i_divN. rewrite (proj2 (emp_f a A) Na). destruct (sign_x v t V F) as (S1 & S2 & S3). rewrite S1, S3.
  destruct (qeq_spec t 0) as [Z|_]; [contradiction|]. assert (N' : (~ / t == 0)%Q). { intros K. assert (1 == 0)%Q; [|lra]. rewrite <- (Qmult_inv_r t N), K. ring. }
  pose proof (scale_image a (/ t) q N') as SI. destruct (qlt_spec 0 t) as [T|T].
  - rewrite D1, D2. cbn [bind]. eexists. split; [reflexivity|]. pose proof (Qinv_lt_0_compat t T). destruct (qlt_spec (/ t) 0); [exfalso; lra|]. unfold Qdiv. rewrite <- SI, <- (abv_eqX _ _ _ _ E1), <- (blw_eqX _ _ _ _ E2). reflexivity.
  - rewrite D2, D1. cbn [bind]. eexists. split; [reflexivity|]. assert (T' : (t < 0)%Q). { destruct (Q_dec t 0) as [[?|?]|?]; [assumption|contradiction|contradiction]. }
    assert (/ t < 0)%Q. { pose proof (Qmult_inv_r t N) as I1. destruct (Qlt_le_dec (/ t) 0) as [|J]; [assumption|]. exfalso. set (w := (/ t)%Q) in *. clearbody w. nra. }
    destruct (qlt_spec (/ t) 0); [|contradiction]. unfold Qdiv. rewrite <- SI, <- (abv_eqX _ _ _ _ E2), <- (blw_eqX _ _ _ _ E1). reflexivity.
Qed.

Definition isq (n : number) (q : Q) : Prop := P n /\ finite n q.
Lemma isq_lt a b x y : isq a x -> isq b y -> n_lt r a b = qlt x y.
Proof. intros [A A'] [B B']. cmp. rewrite (xlt_eq (val a) (Fin x) (val b) (Fin y)); [reflexivity|exact A'|exact B']. Qed.
Lemma isq_eq a b x y : isq a x -> isq b y -> n_eq r a b = Qeq_bool x y.
Proof. intros [A A'] [B B']. cmp. rewrite (xeq_eq (val a) (Fin x) (val b) (Fin y)); [reflexivity|exact A'|exact B']. Qed.
Definition qor (x a b c d : Q) : Prop := (x == a \/ x == b \/ x == c \/ x == d)%Q.
Lemma min4 p1 p2 p3 p4 a b c d : isq p1 a -> isq p2 b -> isq p3 c -> isq p4 d ->
  exists x, isq (n_minl r p1 [p2; p3; p4]) x /\ qor x a b c d /\ (x <= a /\ x <= b /\ x <= c /\ x <= d)%Q.
Proof.
  intros A B C D. unfold n_minl. cbn [fold_left]. rewrite (isq_lt _ _ _ _ B A). unfold qor.
  destruct (qlt_spec b a); [rewrite (isq_lt _ _ _ _ C B); destruct (qlt_spec c b)|rewrite (isq_lt _ _ _ _ C A); destruct (qlt_spec c a)];
    (rewrite (isq_lt _ _ _ _ D C) || rewrite (isq_lt _ _ _ _ D B) || rewrite (isq_lt _ _ _ _ D A));
    match goal with |- context [qlt ?u ?v] => destruct (qlt_spec u v) end;
    (exists a; split; [exact A|split; [lra|lra]]) || (exists b; split; [exact B|split; [lra|lra]]) || (exists c; split; [exact C|split; [lra|lra]]) || (exists d; split; [exact D|split; [lra|lra]]).
Qed.
Lemma max4 p1 p2 p3 p4 a b c d : isq p1 a -> isq p2 b -> isq p3 c -> isq p4 d ->
  exists x, isq (n_maxl r p1 [p2; p3; p4]) x /\ qor x a b c d /\ (a <= x /\ b <= x /\ c <= x /\ d <= x)%Q.
Proof.
  intros A B C D. unfold n_maxl. cbn [fold_left]. rewrite (isq_lt _ _ _ _ A B). unfold qor.
  destruct (qlt_spec a b); [rewrite (isq_lt _ _ _ _ B C); destruct (qlt_spec b c)|rewrite (isq_lt _ _ _ _ A C); destruct (qlt_spec a c)];
    (rewrite (isq_lt _ _ _ _ C D) || rewrite (isq_lt _ _ _ _ B D) || rewrite (isq_lt _ _ _ _ A D));
    match goal with |- context [qlt ?u ?v] => destruct (qlt_spec u v) end;
    (exists a; split; [exact A|split; [lra|lra]]) || (exists b; split; [exact B|split; [lra|lra]]) || (exists c; split; [exact C|split; [lra|lra]]) || (exists d; split; [exact D|split; [lra|lra]]).
Qed.
Definition closedI (a : interval) (l h : Q) : Prop := lc a = true /\ rc a = true /\ isq (lo a) l /\ isq (hi a) h.
Lemma closed_mem a l h q : closedI a l h -> member a q <-> (l <= q <= h)%Q.
Proof.
  intros (C1 & C2 & [_ F1] & [_ F2]). unfold member, above, below. rewrite C1, C2. change ((abv (val (lo a)) true q /\ blw (val (hi a)) true q) <-> (l <= q <= h)%Q).
  rewrite (abv_eqX _ _ _ _ F1), (blw_eqX _ _ _ _ F2). unfold abv, blw, leX. cbn. lra.
Qed.
Lemma closed_empty a l h : closedI a l h -> isEmptyI r a = qlt h l.
Proof.
  intros (C1 & C2 & F1 & F2). unfold isEmptyI. rewrite C1, C2. cbn [negb orb]. rewrite andb_false_r, orb_false_r. unfold n_gt.
  destruct F1 as [A A'], F2 as [B B']. rewrite Ple, xle_lt, negb_involutive by auto. rewrite (xlt_eq (val (hi a)) (Fin h) (val (lo a)) (Fin l)); [reflexivity|exact B'|exact A'].
Qed.
Lemma corners_x a b p1 p2 p3 p4 u v w z : lc a = true -> rc a = true -> lc b = true -> rc b = true ->
  isq p1 u -> isq p2 v -> isq p3 w -> isq p4 z ->
  exists l h, closedI (corners r a b p1 p2 p3 p4) l h /\ qor l u v w z /\ qor h u v w z /\
    (l <= u /\ l <= v /\ l <= w /\ l <= z)%Q /\ (u <= h /\ v <= h /\ w <= h /\ z <= h)%Q.
Proof.
  intros C1 C2 C3 C4 U V W Z. destruct (min4 _ _ _ _ _ _ _ _ U V W Z) as (l & L1 & L2 & L3). destruct (max4 _ _ _ _ _ _ _ _ U V W Z) as (h & H1 & H2 & H3).
  exists l, h. split; [|auto].
  assert (Fl : forall n x, isq n x -> qor x u v w z -> (if n_eq r p1 n then true else if n_eq r p2 n then true else if n_eq r p3 n then true else if n_eq r p4 n then true else false) = true).
  { intros n x N X. rewrite (isq_eq _ _ _ _ U N), (isq_eq _ _ _ _ V N), (isq_eq _ _ _ _ W N), (isq_eq _ _ _ _ Z N).
    destruct (qeq_spec u x), (qeq_spec v x), (qeq_spec w x), (qeq_spec z x); try reflexivity. exfalso. destruct X as [X|[X|[X|X]]]; symmetry in X; contradiction. }
  unfold corners. cbv zeta. unfold closedI. cbn [lo hi lc rc]. rewrite C1, C2, C3, C4. cbn [andb]. split; [exact (Fl _ l L1 L2)|]. split; [exact (Fl _ h H1 H2)|]. auto.
Qed.
Lemma mul_x a b la ha lb hb q : closedI a la ha -> closedI b lb hb -> ~ (la == lb /\ ha == hb /\ la <= 0 <= ha)%Q ->
  isq (n_mul r (lo a) (lo b)) (la * lb) -> isq (n_mul r (lo a) (hi b)) (la * hb) -> isq (n_mul r (hi a) (lo b)) (ha * lb) -> isq (n_mul r (hi a) (hi b)) (ha * hb) ->
  (member (i_mul r a b) q <-> exists x y, member a x /\ member b y /\ (q == x * y)%Q).
Proof.
  intros A B Nc U V W Z. unfold i_mul. rewrite (closed_empty a la ha A), (closed_empty b lb hb B).
  assert (E : forall x y, (member a x /\ member b y /\ (q == x * y)%Q) <-> ((la <= x <= ha)%Q /\ (lb <= y <= hb)%Q /\ (q == x * y)%Q)).
  { intros x y. rewrite (closed_mem a la ha x A), (closed_mem b lb hb y B). reflexivity. }
  destruct (qlt_spec ha la) as [Ka|Ka]. { split; [intros H; now apply EmptyI_no in H|]. intros (x & y & H). apply E in H. exfalso. lra. }
  destruct (qlt_spec hb lb) as [Kb|Kb]. { split; [intros H; now apply EmptyI_no in H|]. intros (x & y & H). apply E in H. exfalso. lra. }
  cbn [orb]. assert (F : i_eqb r a b && n_le r (lo a) (NI 0) && n_ge r (hi a) (NI 0) = false).
  { destruct A as (A1 & A2 & A3 & A4), B as (B1 & B2 & B3 & B4). unfold i_eqb, n_ge. rewrite (isq_eq _ _ _ _ A3 B3), (isq_eq _ _ _ _ A4 B4). destruct (sign_x (hi a) ha) as (_ & -> & _); [apply A4|apply A4|].
    destruct (sign_x (lo a) la) as (S1 & _); [apply A3|apply A3|]. unfold n_gt in S1. apply not_true_iff_false. rewrite !andb_true_iff. intros [[[[[K1 K2] _] _] K3] K4].
    apply Nc. apply Qeq_bool_iff in K1, K2. rewrite K3 in S1. cbn in S1. destruct (qlt_spec ha 0); [discriminate|]. destruct (qlt_spec 0 la); [discriminate|]. split; [exact K1|]. split; [exact K2|lra]. }
  rewrite F. destruct A as (A1 & A2 & A3 & A4), B as (B1 & B2 & B3 & B4).
  destruct (corners_x a b _ _ _ _ _ _ _ _ A1 A2 B1 B2 U V W Z) as (l & h & C & L1 & H1 & (L2 & L3 & L4 & L5) & (H2 & H3 & H4 & H5)).
  rewrite (closed_mem _ l h q C). split.
  - intros Q1. destruct (prod_complete la ha lb hb q l h) as (x & y & X & Y & K); auto; [lra|lra|]. exists x, y. apply E. auto.
  - intros (x & y & H). apply E in H. destruct H as (X & Y & K). pose proof (prod_sound la ha lb hb x y l h X Y L2 L3 L4 L5 H2 H3 H4 H5). lra.
Qed.
Lemma inv_between lb hb y : (0 < lb \/ hb < 0)%Q -> (lb <= y <= hb)%Q -> (/ hb <= / y <= / lb)%Q.
Proof.
  assert (Pos : forall a b, (0 < a)%Q -> (a <= b)%Q -> (/ b <= / a)%Q).
  { intros a b Ha H. pose proof (Qinv_lt_0_compat a Ha). pose proof (Qinv_lt_0_compat b ltac:(lra)). assert (a * / a == 1)%Q by (field; lra). assert (b * / b == 1)%Q by (field; lra).
    set (u := (/ a)%Q) in *. set (v := (/ b)%Q) in *. clearbody u v. destruct (Qlt_le_dec u v) as [K|K]; [|exact K]. exfalso. assert (a * u < b * v)%Q; [|lra]. assert (a * u < a * v)%Q by (clear - K Ha; nra). assert (a * v <= b * v)%Q by (clear - H H1; nra). lra. }
  intros [P1|P1] [Y1 Y2]; [split; apply Pos; lra|].
  assert (Neg : forall a, (/ - a == - / a)%Q). { intros a. destruct a as [[|n|n] d]; reflexivity. }
  pose proof (Pos (- hb) (- y) ltac:(lra) ltac:(lra))%Q as K1. pose proof (Pos (- y) (- lb) ltac:(lra) ltac:(lra))%Q as K2. rewrite !Neg in K1, K2. lra.
Qed.
Lemma div_x dbg a b la ha lb hb p1 p2 p3 p4 q : closedI a la ha -> closedI b lb hb -> (la <= ha)%Q -> (lb <= hb)%Q -> (0 < lb \/ hb < 0)%Q ->
  n_div r (lo a) (lo b) = Ok p1 -> n_div r (lo a) (hi b) = Ok p2 -> n_div r (hi a) (lo b) = Ok p3 -> n_div r (hi a) (hi b) = Ok p4 ->
  isq p1 (la / lb) -> isq p2 (la / hb) -> isq p3 (ha / lb) -> isq p4 (ha / hb) ->
  exists u, i_div r dbg a b = Ok u /\ (member u q <-> exists x y, member a x /\ member b y /\ (q == x / y)%Q).
Proof.
  intros A B Ka Kb Nz D1 D2 D3 D4 U V W Z. unfold i_div. rewrite (closed_empty a la ha A), (closed_empty b lb hb B).
  destruct (qlt_spec ha la); [exfalso; lra|]. destruct (qlt_spec hb lb); [exfalso; lra|]. cbn [orb].
  assert (E : forall x y, (member a x /\ member b y /\ (q == x / y)%Q) <-> ((la <= x <= ha)%Q /\ (lb <= y <= hb)%Q /\ (q == x / y)%Q)).
  { intros x y. rewrite (closed_mem a la ha x A), (closed_mem b lb hb y B). reflexivity. }
  assert (Hc : containsI r b (NI 0) = false).
  { apply not_true_iff_false. rewrite (contains_x b (NI 0) 0); [|destruct B as (_ & _ & [B3 B4] & [B5 B6]); split; [exact B3|split; [exact B5|]]; split; [unfold finite in B4; destruct (val (lo b)); cbn in B4; try contradiction; exact I|unfold finite in B6; destruct (val (hi b)); cbn in B6; try contradiction; exact I]|exact P0|reflexivity].
    rewrite (closed_mem b lb hb 0 B). lra. }
  pose proof B as (B1 & B2 & B3 & B4). pose proof A as (A1 & A2 & A3 & A4).
  assert (Hz : has0 r b = false).
  { unfold has0. destruct (sign_x (lo b) lb) as (_ & -> & ->); [apply B3|apply B3|]. destruct (sign_x (hi b) hb) as (-> & _ & ->); [apply B4|apply B4|].
    destruct (qlt_spec lb 0), (qlt_spec 0 hb), (qeq_spec lb 0), (qeq_spec hb 0); try (exfalso; lra); reflexivity. }
  rewrite Hz. assert (Ei : forall x y, (q == x / y)%Q <-> (q == x * / y)%Q) by (intros; reflexivity).
  assert (Iv : forall y, (lb <= y <= hb)%Q -> (/ hb <= / y <= / lb)%Q) by (intros y; now apply inv_between).
  destruct (is00 r a) eqn:Ez.
  - exists (Itv (NI 0) (NI 0) true true). split; [reflexivity|]. unfold is00 in Ez. destruct (sign_x (lo a) la) as (_ & _ & S1); [apply A3|apply A3|]. destruct (sign_x (hi a) ha) as (_ & _ & S2); [apply A4|apply A4|].
    rewrite S1, S2, !andb_true_iff in Ez. destruct Ez as [[[Z1 Z2] _] _]. apply Qeq_bool_iff in Z1, Z2. unfold member, above, below, leX. cbn. change (inject_Z 0) with 0%Q. split.
    + intros Hq. exists 0%Q, lb. rewrite (closed_mem a la ha 0 A), (closed_mem b lb hb lb B). split; [lra|]. split; [lra|]. assert (E0 : (0 / lb == 0)%Q) by (unfold Qdiv; ring). rewrite E0. lra.
    + intros (x & y & H). apply E in H. destruct H as (X & Y & K). assert (X0 : (x == 0)%Q) by lra. assert (q == 0)%Q by (rewrite K; unfold Qdiv; rewrite X0; ring). lra.
  - rewrite Hc, D1, D2, D3, D4. cbn [negb]. assert (Ca : condAssert dbg true = Ok tt) by (destruct dbg; reflexivity). rewrite Ca. cbn [bind]. eexists. split; [reflexivity|].
    destruct (corners_x a b _ _ _ _ _ _ _ _ A1 A2 B1 B2 U V W Z) as (l & h & C & L1 & H1 & (L2 & L3 & L4 & L5) & (H2 & H3 & H4 & H5)).
    rewrite (closed_mem _ l h q C). unfold Qdiv in *. split.
    + intros Q1. destruct (prod_complete la ha (/ hb) (/ lb) q l h) as (x & y & X & Y & K); auto.
      * apply (Iv hb). lra.
      * destruct L1 as [L1|[L1|[L1|L1]]]; auto.
      * destruct H1 as [H1|[H1|[H1|H1]]]; auto.
      * exists x, (/ y)%Q. apply E. split; [exact X|]. assert (Nb : (0 < / hb \/ / lb < 0)%Q).
        { destruct Nz as [N|N]; [left; apply Qinv_lt_0_compat; lra|right]. assert (lb * / lb == 1)%Q by (field; lra). assert (lb < 0)%Q by lra. set (w := (/ lb)%Q) in *. clearbody w. destruct (Qlt_le_dec w 0) as [|J]; [assumption|]. exfalso. nra. }
        pose proof (inv_between (/ hb) (/ lb) y Nb Y) as J. rewrite !Qinv_involutive in J. split; [exact J|]. rewrite Qinv_involutive. exact K.
    + intros (x & y & H). apply E in H. destruct H as (X & Y & K). pose proof (prod_sound la ha (/ hb) (/ lb) x (/ y) l h X (Iv y Y) L3 L2 L5 L4 H3 H2 H5 H4). lra.
Qed.
Context (Pabs : forall n, P n -> P (n_abs n)).
Lemma val_abs n : val n <> Nan -> eqX (val (n_abs n)) (xabs (val n)).
Proof. intros N. destruct n as [z|[|s|x]]; cbn in *; try reflexivity. congruence. Qed.
Lemma abs_x a q : PI a -> ~ (eqX (val (hi a)) (xopp (val (lo a))) /\ lc a = false /\ rc a = true) ->
  (member (i_abs r a) q <-> exists x, member a x /\ (q == Qabs x)%Q).
Proof.
  intros A Tie. unfold i_abs. destruct (isEmptyI r a) eqn:Ea.
  { apply (emp_t a A) in Ea. split; [intros H; now apply EmptyI_no in H|]. intros (x & H & _). exfalso. apply Ea. now exists x. }
  pose proof (PI_l a A) as La. pose proof (PI_h a A) as Ha. pose proof A as (A1 & A2 & _). rewrite Pge, Ple by auto. change (val (NI 0)) with (Fin 0).
  destruct (xle (Fin 0) (val (lo a))) eqn:E0.
  - apply xle_iff in E0. assert (Nn : forall x, member a x -> (0 <= x)%Q). { intros x [X _]. unfold above, leX in X, E0. destruct (lc a), (val (lo a)) as [|[]|l]; cbn in *; try tauto; try lra; destruct La; discriminate. }
    split; [intros M; exists q; split; [exact M|]; symmetry; apply Qabs_pos; auto|]. intros (x & M & E). rewrite (Qabs_pos x (Nn x M)) in E. destruct M as [M1 M2]. symmetry in E. split; [apply (abv_eq _ _ x q E M1)|apply (blw_eq _ _ x q E M2)].
  - assert (L0 : ltX (val (lo a)) (Fin 0)). { rewrite xle_lt in E0; [|discriminate|auto]. apply negb_false_iff in E0. now apply xlt_iff in E0. } clear E0.
    destruct (xle (val (hi a)) (Fin 0)) eqn:E1.
    + apply xle_iff in E1. assert (Np : forall x, member a x -> (x <= 0)%Q). { intros x [_ X]. unfold below, leX in X, E1. destruct (rc a), (val (hi a)) as [|[]|l]; cbn in *; try tauto; try lra; destruct Ha; discriminate. }
      pose proof (neg_cuts a q A) as S. change (abv (val (n_neg (hi a))) (rc a) q /\ blw (val (n_neg (lo a))) (lc a) q <-> (exists x, member a x /\ (q == Qabs x)%Q)). rewrite S. split.
      * intros M. exists (- q)%Q. split; [exact M|]. rewrite (Qabs_neg (- q) (Np _ M)). ring.
      * intros (x & M & E). rewrite (Qabs_neg x (Np x M)) in E. destruct M as [M1 M2]. assert (E' : (x == - q)%Q) by lra. split; [apply (abv_eq _ _ x _ E' M1)|apply (blw_eq _ _ x _ E' M2)].
    + assert (H0 : ltX (Fin 0) (val (hi a))). { rewrite xle_lt in E1; [|auto|discriminate]. apply negb_false_iff in E1. now apply xlt_iff in E1. } clear E1.
      assert (Al : eqX (val (n_abs (lo a))) (xopp (val (lo a)))). { pose proof (val_abs (lo a) (Pn _ A1)) as V. destruct (val (lo a)) as [|[]|l]; cbn in V, L0 |- *; try contradiction; destruct (val (n_abs (lo a))) as [|[]|m]; cbn in V |- *; try contradiction; try assumption; try discriminate. rewrite V. apply Qabs_neg. lra. }
      assert (Ah : eqX (val (n_abs (hi a))) (val (hi a))). { pose proof (val_abs (hi a) (Pn _ A2)) as V. destruct (val (hi a)) as [|[]|l]; cbn in V, H0 |- *; try contradiction; destruct (val (n_abs (hi a))) as [|[]|m]; cbn in V |- *; try contradiction; try assumption; try discriminate. rewrite V. apply Qabs_pos. lra. }
      set (mm := n_max r (n_abs (lo a)) (n_abs (hi a))). set (fl := if n_eq r mm (n_abs (lo a)) then lc a else rc a).
      pose proof (opp_hwf _ _ La) as Lo.
      pose proof (hmax_spec (xopp (val (lo a))) (lc a) (val (hi a)) (rc a) q Lo Ha) as S.
      assert (K : eqX (val mm) (if xlt (xopp (val (lo a))) (val (hi a)) then val (hi a) else xopp (val (lo a))) /\
                  fl = (if xlt (val (hi a)) (xopp (val (lo a))) then lc a else if xlt (xopp (val (lo a))) (val (hi a)) then rc a else lc a || rc a)).
      { pose proof (Pabs _ A1) as Q1. pose proof (Pabs _ A2) as Q2. assert (Pm : P mm) by (unfold mm, n_max; destruct (n_lt r (n_abs (lo a)) (n_abs (hi a))); assumption).
        assert (Vm : val mm = if xlt (xopp (val (lo a))) (val (hi a)) then val (n_abs (hi a)) else val (n_abs (lo a))). { unfold mm. rewrite (proj1 (val_max _ _ Q1 Q2)). rewrite (xlt_eq _ _ _ _ Al Ah). reflexivity. }
        assert (Nl : xopp (val (lo a)) <> Nan) by (destruct (val (lo a)) as [|[]|]; cbn in *; congruence || discriminate || contradiction).
        pose proof (xtri (xopp (val (lo a))) (val (hi a)) Nl (Pn _ A2)) as T. unfold fl. rewrite Peq by assumption. rewrite Vm.
        destruct (xlt (xopp (val (lo a))) (val (hi a))) eqn:C1, (xeq (xopp (val (lo a))) (val (hi a))) eqn:C2, (xlt (val (hi a)) (xopp (val (lo a)))) eqn:C3; try discriminate T.
        - split; [exact Ah|]. rewrite (xeq_eq _ _ _ _ Ah Al), xeq_sym, C2. reflexivity.
        - split; [exact Al|]. rewrite (xeq_eq _ _ _ _ Al Al). rewrite (proj2 (xeq_iff _ _) (eqX_refl _ Nl)). apply xeq_iff in C2. apply eqX_sym in C2. destruct (lc a), (rc a); try reflexivity. exfalso. auto.
        - split; [exact Al|]. rewrite (xeq_eq _ _ _ _ Al Al). rewrite (proj2 (xeq_iff _ _) (eqX_refl _ Nl)). reflexivity. }
      destruct K as [K1 K2]. unfold member at 1, above, below. cbn [lo hi lc rc]. fold mm. fold fl.
      change ((leX (Fin 0) (Fin q) /\ blw (val mm) fl q) <-> exists x, member a x /\ (q == Qabs x)%Q). rewrite (blw_eqX _ _ _ _ K1), K2, S.
      assert (Up : forall x, (0 <= x)%Q -> above a x). { intros x X. unfold above, leX. destruct (lc a), (val (lo a)) as [|[]|l]; cbn in *; try tauto; lra. }
      assert (Dn : forall x, (x <= 0)%Q -> below a x). { intros x X. unfold below, leX. destruct (rc a), (val (hi a)) as [|[]|l]; cbn in *; try tauto; lra. }
      split.
      * intros [Q0 [B|B]]; assert (Q0' : (0 <= q)%Q) by (unfold leX in Q0; cbn in Q0; lra).
        -- exists (- q)%Q. split; [|rewrite Qabs_neg; lra]. split; [|apply Dn; lra]. apply blw_opp. apply (blw_eq _ _ q); [ring|exact B].
        -- exists q. split; [|rewrite Qabs_pos; lra]. split; [now apply Up|exact B].
      * intros (x & [X1 X2] & E). pose proof (Qabs_nonneg x). split; [unfold leX; cbn; lra|]. destruct (Qabs_case x) as [[N Ex]|[N Ex]].
        -- right. apply (blw_eq _ _ x); [lra|exact X2].
        -- left. apply (blw_eq _ _ (- x)); [lra|]. apply blw_opp. exact X1.
Qed.
End C.

Unset Default Proof Using.
(** ** the two ways in which comparisons are exact *)
Lemma xle_eq a a' b b' : eqX a a' -> eqX b b' -> xle a b = xle a' b'.
Proof. intros A B. unfold xle. now rewrite (xlt_eq a a' b b' A B), (xeq_eq a a' b b' A B). Qed.
Lemma Zlt_inj x y : (x <? y)%Z = xlt (Fin (inject_Z x)) (Fin (inject_Z y)).
Proof. cbn [xlt]. destruct (qlt_spec (inject_Z x) (inject_Z y)) as [H|H]; rewrite <- Zlt_Qlt in H; [apply Z.ltb_lt|apply Z.ltb_ge]; lia. Qed.
Lemma inj_eq x y : (inject_Z x == inject_Z y)%Q <-> x = y.
Proof. unfold Qeq. cbn. lia. Qed.
Lemma Zeq_inj x y : (x =? y)%Z = xeq (Fin (inject_Z x)) (Fin (inject_Z y)).
Proof. cbn [xeq]. destruct (qeq_spec (inject_Z x) (inject_Z y)) as [H|H]; rewrite inj_eq in H; [apply Z.eqb_eq|apply Z.eqb_neq]; assumption. Qed.
Lemma Zle_inj x y : (x <=? y)%Z = xle (Fin (inject_Z x)) (Fin (inject_Z y)).
Proof. unfold xle. rewrite <- Zlt_inj, <- Zeq_inj. destruct (Z.ltb_spec x y), (Z.eqb_spec x y), (Z.leb_spec x y); try reflexivity; lia. Qed.
Lemma fits_nn a : fits a -> val a <> Nan. Proof. destruct a; cbn; [discriminate|auto]. Qed.
Lemma whole_nn a : whole a -> val a <> Nan. Proof. destruct a as [z|[|s|q]]; cbn; [discriminate|contradiction|discriminate|discriminate]. Qed.
Lemma fits_real a : fits a -> eqX (toReal rn128 a) (val a).
Proof. destruct a as [z|x]; cbn; intros H; [|now apply eqX_refl]. apply (rn_exact 128 ltac:(lia)). apply repr_Z. exact H. Qed.
Lemma fits_lt a b : fits a -> fits b -> n_lt rn128 a b = xlt (val a) (val b).
Proof. intros A B. destruct a as [x|x], b as [y|y]; [apply Zlt_inj| | |]; apply xlt_eq; now apply fits_real. Qed.
Lemma fits_eq a b : fits a -> fits b -> n_eq rn128 a b = xeq (val a) (val b).
Proof. intros A B. destruct a as [x|x], b as [y|y]; [apply Zeq_inj| | |]; apply xeq_eq; now apply fits_real. Qed.
Lemma fits_le a b : fits a -> fits b -> n_le rn128 a b = xle (val a) (val b).
Proof. intros A B. destruct a as [x|x], b as [y|y]; [apply Zle_inj| | |]; apply xle_eq; now apply fits_real. Qed.
Lemma whole_lt r a b : whole a -> whole b -> n_lt r a b = xlt (val a) (val b).
Proof. intros A B. destruct a as [x|[|s|x]], b as [y|[|t|y]]; cbn in A, B; try contradiction; try reflexivity; apply Zlt_inj. Qed.
Lemma whole_eq r a b : whole a -> whole b -> n_eq r a b = xeq (val a) (val b).
Proof. intros A B. destruct a as [x|[|s|x]], b as [y|[|t|y]]; cbn in A, B; try contradiction; try reflexivity; apply Zeq_inj. Qed.
Lemma whole_le r a b : whole a -> whole b -> n_le r a b = xle (val a) (val b).
Proof. intros A B. destruct a as [x|[|s|x]], b as [y|[|t|y]]; cbn in A, B; try contradiction; try reflexivity; apply Zle_inj. Qed.
