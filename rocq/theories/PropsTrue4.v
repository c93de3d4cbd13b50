(** C82, C83: complete statements about parts of C38 and C40. *)
From Coq Require Import QArith Qround Qabs Qpower ZArith List Bool Lia Lqa Sorting.Sorted Permutation.
From Verif Require Import Base NumModel RoundModel NumSpec NumProofs NumMore PropsNum.
Open Scope Z_scope.
Local Notation R := rn128.

(** C82: the queries on intervals and their intersection are those of the sets of rationals they stand for.  [good]: no bound is NaN,
    and either all bounds are INT or infinite (of any size), or all have at most 128 significant bits; a number [v] is asked
    about as the bound it would be. *)
Theorem C82_intervals : forall a b, good [a; b] ->
  (isSubsetOf R a b = true <-> forall q, member a q -> member b q) /\
  (isSubsetEqOf R a b = true <-> forall q, member a q -> member b q) /\
  (isIntersectingWith R a b = true <-> exists q, member a q /\ member b q) /\
  (forall q, member (intersection R a b) q <-> member a q /\ member b q) /\
  (inhabited a -> inhabited b ->
     (exists t, i_lt R a b = Ok t /\ (t = true <-> forall x y, member a x -> member b y -> (x < y)%Q)) /\
     (exists t, i_gt R a b = Ok t /\ (t = true <-> forall x y, member a x -> member b y -> (y < x)%Q))) /\
  (good [a] -> (isEmptyI R a = true <-> forall q, ~ member a q) /\ (forall q, member (i_neg R a) q <-> member a (- q)) /\
     forall v q, good [Itv v v true true; a] -> finite v q -> (containsI R a v = true <-> member a q)).
Proof.
  intros a b G. split; [now apply C38_isSubsetOf|]. split; [now apply C38_isSubsetEqOf|]. split; [now apply C38_isIntersectingWith|].
  split; [intros q; now apply C38_intersection|]. split; [intros Ia Ib; now apply C38_less|].
  intros Ga. split; [now apply C38_isEmpty|]. split; [intros q; now apply C38_neg|]. intros v q Gv Fv. now apply C38_contains.
Qed.
Print Assumptions C82_intervals.
Example C82_ex : good [ex_a; ex_b] /\ inhabited ex_a /\ inhabited ex_b.
Proof. destruct ex_good as (H1 & H2 & H3 & _). auto. Qed.

(** C83: floor, ceiling, rounding (half away from zero), absolute value and negation of any finite number *)
Theorem C83_rounding : forall a x, finite a x ->
  (exists k, finite (n_floor a) (inject_Z k) /\ (inject_Z k <= x < inject_Z k + 1)%Q) /\
  (exists k, finite (n_ceil a) (inject_Z k) /\ (inject_Z k - 1 < x <= inject_Z k)%Q) /\
  (exists k, finite (n_round a) (inject_Z k) /\ (Qabs (inject_Z k - x) <= 1 # 2)%Q /\ ((Qabs (inject_Z k - x) == 1 # 2)%Q -> (Qabs x < Qabs (inject_Z k))%Q)) /\
  finite (n_abs a) (Qabs x) /\ finite (n_neg a) (- x).
Proof.
  intros a x F. split; [now apply C40_floor|]. split; [now apply C40_ceil|]. split; [now apply C40_round|]. now apply C40_abs_neg.
Qed.
Print Assumptions C83_rounding.
Example C83_ex : finite (NR (Fin (-5 # 2))) (-5 # 2) /\ n_round (NR (Fin (-5 # 2))) = NR (Fin (-3)).
Proof. split; [reflexivity|vm_compute; reflexivity]. Qed.
