(** Vocabulary of property C62. *)
From Coq Require Import Permutation.
From Verif Require Import Base TermModel SimpModel OpModel ConvModel CnfModel.

(** the tables after any sequence of conversions that return, from an empty table *)
Inductive reached (c : cfg) : cnfst -> Prop :=
| Re_start n : reached c (CnfSt n [] [])
| Re_one ord t S u S' : reached c S -> toCNF1 c ord t S = Ok (u, S') -> reached c S'
| Re_set ord ts S u S' : reached c S -> toCNF c ord ts S = Ok (u, S') -> reached c S'.
(** an iteration order of a map *)
Definition any_order (ord : memo -> memo) : Prop := forall m, Permutation (ord m) m.
(** an iteration in which every new variable comes before every negated one *)
Definition positives_first (w : term * term -> term) (l : memo) : Prop :=
  exists ps ns, l = ps ++ ns /\ (forall p, In p ps -> isNot (w p) = false) /\ (forall p, In p ns -> isNot (w p) = true).
