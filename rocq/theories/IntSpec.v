(** What the operations of C100 have to compute.  Nothing here refers to the model. *)
From Coq Require Import ZArith.
Open Scope Z_scope.

(** bit k of the two's complement of z, which has infinitely many bits *)
Definition bit (z k : Z) : bool := Z.eqb ((z / 2 ^ k) mod 2) 1.
(** the sequence 0, 1, 1, 2, 3, 5, 8, ... *)
Fixpoint fib (n : nat) : Z :=
  match n with O => 0 | S m => match m with O => 1 | S k => fib k + fib m end end.
(** 1 * 2 * ... * n *)
Fixpoint prod_to (n : nat) : Z := match n with O => 1 | S m => prod_to m * Z.of_nat n end.
(** the greatest common divisor and the least common multiple *)
Definition is_gcd (a b g : Z) : Prop := 0 <= g /\ (g | a) /\ (g | b) /\ forall d, (d | a) -> (d | b) -> (d | g).
Definition is_lcm (a b m : Z) : Prop := 0 <= m /\ (a | m) /\ (b | m) /\ forall d, (a | d) -> (b | d) -> (m | d).
