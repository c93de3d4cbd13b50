(** What numbers and intervals mean, independently of the code: a number is an extended real, an
    interval is a set of rationals. *)
From Coq Require Import QArith Qround Qabs Qpower ZArith List Bool.
From Verif Require Import Base NumModel RoundModel.
Open Scope Z_scope.

(** the value of a number, and the order of the extended reals (NaN is related to nothing) *)
Definition val (n : number) : xr := match n with NI z => Fin (inject_Z z) | NR x => x end.
Definition ltX (a b : xr) : Prop :=
  match a, b with
  | Fin x, Fin y => (x < y)%Q
  | Inf true, Inf false | Inf true, Fin _ | Fin _, Inf false => True
  | _, _ => False
  end.
Definition eqX (a b : xr) : Prop :=
  match a, b with Fin x, Fin y => (x == y)%Q | Inf s, Inf t => s = t | _, _ => False end.
Definition leX (a b : xr) : Prop := ltX a b \/ eqX a b.
Definition finite (n : number) (q : Q) : Prop := eqX (val n) (Fin q).

(** numbers that a 128-bit real can hold: comparisons of these are exact *)
Definition fits (n : number) : Prop := match n with NI z => Z.abs z <= 2 ^ 128 | NR x => x <> Nan end.
(** integers of any size, and infinities *)
Definition whole (n : number) : Prop := match n with NI _ => True | NR (Inf _) => True | NR _ => False end.

(** ** intervals as sets *)
Definition above (a : interval) (q : Q) : Prop := if lc a then leX (val (lo a)) (Fin q) else ltX (val (lo a)) (Fin q).
Definition below (a : interval) (q : Q) : Prop := if rc a then leX (Fin q) (val (hi a)) else ltX (Fin q) (val (hi a)).
Definition member (a : interval) (q : Q) : Prop := above a q /\ below a q.
Definition inhabited (a : interval) : Prop := exists q, member a q.
(** well-formed: no NaN, an infinite bound is open and on its own side *)
Definition iwf (a : interval) : Prop :=
  match val (lo a) with Nan => False | Inf s => s = true /\ lc a = false | Fin _ => True end /\
  match val (hi a) with Nan => False | Inf s => s = false /\ rc a = false | Fin _ => True end.
(** the two ways in which the bounds of the intervals at hand are compared exactly *)
Definition ibounds (P : number -> Prop) (l : list interval) : Prop := forall a, In a l -> P (lo a) /\ P (hi a).
Definition comparable (l : list interval) : Prop := ibounds fits l \/ ibounds whole l.
Definition good (l : list interval) : Prop := comparable l /\ forall a, In a l -> iwf a.
