(** Specification vocabulary for numerals, integer maths and strings. *)
From Coq Require Import ZArith List Ascii Bool.
Import ListNotations.
Open Scope Z_scope.

(** ** numerals *)
Definition digitC (c : ascii) : Prop := (48 <= nat_of_ascii c <= 57)%nat.
Definition digit_of (c : ascii) : Z := Z.of_nat (nat_of_ascii c) - 48.
Definition num_of (s : list ascii) : Z := fold_left (fun a c => a * 10 + digit_of c) s 0.
Definition SignC (c : ascii) : Prop := c = "-"%char \/ c = "+"%char.
(** [sign] digits, at least one digit *)
Inductive IntNumeral : list ascii -> Prop :=
| IntPlain ds : ds <> [] -> Forall digitC ds -> IntNumeral ds
| IntSigned c ds : SignC c -> ds <> [] -> Forall digitC ds -> IntNumeral (c :: ds).
(** a body of digits with at most one point *)
Inductive RealBody : list ascii -> Prop :=
| RBint ds : Forall digitC ds -> RealBody ds
| RBdot ds es : Forall digitC ds -> Forall digitC es -> RealBody (ds ++ "."%char :: es).
Definition hexC (c : ascii) : Prop :=
  let n := nat_of_ascii c in (48 <= n <= 57 \/ 65 <= n <= 70 \/ 97 <= n <= 102)%nat.
Definition binC (c : ascii) : Prop := c = "0"%char \/ c = "1"%char.
Inductive BVLiteral : list ascii -> Prop :=
| BVbin k ds : (k = "b" \/ k = "B")%char -> ds <> [] -> Forall binC ds -> BVLiteral ("#"%char :: k :: ds)
| BVhex k ds : (k = "x" \/ k = "X")%char -> ds <> [] -> Forall hexC ds -> BVLiteral ("#"%char :: k :: ds)
| BVdec k ds : (k = "d" \/ k = "D")%char -> ds <> [] -> Forall digitC ds -> BVLiteral ("#"%char :: k :: ds).

(** ** strings *)
Definition Q (s : list ascii) : list ascii := """"%char :: s ++ [""""%char].
(** the part of s of length at most n from position i *)
Definition sub (s : list ascii) (i n : Z) : list ascii :=
  firstn (Z.to_nat n) (skipn (Z.to_nat i) s).
Definition Occurs (t s : list ascii) (p : nat) : Prop :=
  exists a b, s = a ++ t ++ b /\ length a = p.
Definition Contains (t s : list ascii) : Prop := exists p, Occurs t s p.
(** SMT-LIB str.substr *)
Definition substrS (s : list ascii) (i j : Z) : list ascii :=
  if (0 <=? i) && (i <? Z.of_nat (length s)) && (0 <? j) then sub s i j else [].
(** SMT-LIB str.indexof, as a relation *)
Definition IndexOf (s t : list ascii) (i r : Z) : Prop :=
  (exists p, r = Z.of_nat p /\ 0 <= i <= r /\ Occurs t s p /\
             forall q, Occurs t s q -> i <= Z.of_nat q -> (p <= q)%nat)
  \/ (r = -1 /\ ~ (0 <= i /\ exists p, i <= Z.of_nat p /\ Occurs t s p)).
(** SMT-LIB str.at *)
Definition atS (s : list ascii) (i : Z) : list ascii := substrS s i 1.
(** first occurrence: s = a ++ t ++ b with no occurrence before |a| *)
Definition First (t s a b : list ascii) : Prop :=
  s = a ++ t ++ b /\ forall q, Occurs t s q -> (length a <= q)%nat.
(** SMT-LIB str.replace *)
Inductive Replace (t u : list ascii) : list ascii -> list ascii -> Prop :=
| RepNone s : ~ Contains t s -> Replace t u s s
| RepOne s a b : First t s a b -> Replace t u s (a ++ u ++ b).
(** SMT-LIB str.replace_all for non-empty t *)
Inductive ReplaceAll (t u : list ascii) : list ascii -> list ascii -> Prop :=
| RaNone s : ~ Contains t s -> ReplaceAll t u s s
| RaStep s a b r : First t s a b -> ReplaceAll t u b r -> ReplaceAll t u s (a ++ u ++ r).

(** characters with a one-letter escape, or printable *)
Definition escapable (c : ascii) : bool :=
  let n := Z.of_nat (nat_of_ascii c) in
  (n =? 0) || ((7 <=? n) && (n <=? 13)) || ((32 <=? n) && (n <=? 126)).
