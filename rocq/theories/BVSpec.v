(** Specification vocabulary for bit-vector literals (SMT-LIB FixedSizeBitVectors),
    independent of the model. *)
From Coq Require Import ZArith List Ascii Bool.
Import ListNotations.
Open Scope Z_scope.

(** The text of the [w]-bit literal of value [v] (taken modulo 2^w): "#b" then
    bits w-1 down to 0 of [v]. *)
Definition lit (w : nat) (v : Z) : list ascii :=
  "#"%char :: "b"%char ::
  map (fun i => if Z.testbit v (Z.of_nat i) then "1"%char else "0"%char) (rev (seq 0 w)).

(** unsigned value *)
Definition uv (w : nat) (v : Z) : Z := v mod 2 ^ Z.of_nat w.
(** sign bit and two's-complement value *)
Definition msb (w : nat) (v : Z) : bool := 2 ^ (Z.of_nat w - 1) <=? uv w v.
Definition sv (w : nat) (v : Z) : Z :=
  if msb w v then uv w v - 2 ^ Z.of_nat w else uv w v.

(** SMT-LIB operations on unsigned values in [0, 2^w). *)
Definition udivS (w : nat) (a b : Z) : Z := if b =? 0 then 2 ^ Z.of_nat w - 1 else a / b.
Definition uremS (w : nat) (a b : Z) : Z := if b =? 0 then a else a mod b.
Definition negS (w : nat) (a : Z) : Z := uv w (- a).
(** The literal by-cases definitions of bvsdiv, bvsrem, bvsmod of SMT-LIB QF_BV. *)
Definition sdivS (w : nat) (s t : Z) : Z :=
  match msb w s, msb w t with
  | false, false => udivS w s t
  | true, false => negS w (udivS w (negS w s) t)
  | false, true => negS w (udivS w s (negS w t))
  | true, true => udivS w (negS w s) (negS w t)
  end.
Definition sremS (w : nat) (s t : Z) : Z :=
  match msb w s, msb w t with
  | false, false => uremS w s t
  | true, false => negS w (uremS w (negS w s) t)
  | false, true => uremS w s (negS w t)
  | true, true => negS w (uremS w (negS w s) (negS w t))
  end.
Definition smodS (w : nat) (s t : Z) : Z :=
  let abs_s := if msb w s then negS w s else s in
  let abs_t := if msb w t then negS w t else t in
  let u := uremS w abs_s abs_t in
  if u =? 0 then u
  else match msb w s, msb w t with
       | false, false => u
       | true, false => uv w (negS w u + t)
       | false, true => uv w (u + t)
       | true, true => negS w u
       end.

(** Shifts by the unsigned value of the amount. *)
Definition shlS (w : nat) (a n : Z) : Z := uv w (a * 2 ^ n).
Definition lshrS (w : nat) (a n : Z) : Z := a / 2 ^ n.
Definition ashrS (w : nat) (a n : Z) : Z := uv w (sv w a / 2 ^ n).

(** Rotation by [n] modulo the width. *)
Definition rotlS (w : nat) (a n : Z) : Z :=
  let k := n mod Z.of_nat w in uv w (a * 2 ^ k + a / 2 ^ (Z.of_nat w - k)).
Definition rotrS (w : nat) (a n : Z) : Z :=
  let k := n mod Z.of_nat w in uv w (a / 2 ^ k + a * 2 ^ (Z.of_nat w - k)).

(** [w] characters and the prefix fit in a std::string. *)
Definition fits (w : nat) : Prop := Z.of_nat w + 2 <= 9223372036854775807.

(** The base-10 reading of the binary digits of an amount (what a reader who
    mistakes "#b0010" for the number ten computes). *)
Fixpoint dec_of_bin (w : nat) (n : Z) : Z :=
  match w with
  | O => 0
  | S w' => (if Z.testbit n (Z.of_nat w') then 10 ^ Z.of_nat w' else 0) + dec_of_bin w' n
  end.

(** [n] copies of a w-bit value. *)
Fixpoint repS (n w : nat) (a : Z) : Z :=
  match n with O => 0 | S n' => repS n' w a * 2 ^ Z.of_nat w + uv w a end.

(** Hexadecimal numerals, by character ranges. *)
Definition hexval (c : ascii) : option Z :=
  let n := Z.of_nat (nat_of_ascii c) in
  if (48 <=? n) && (n <=? 57) then Some (n - 48)
  else if (65 <=? n) && (n <=? 70) then Some (n - 55)
  else if (97 <=? n) && (n <=? 102) then Some (n - 87)
  else None.
Fixpoint hexnum_from (acc : Z) (s : list ascii) : option Z :=
  match s with
  | [] => Some acc
  | c :: s' => match hexval c with Some v => hexnum_from (acc * 16 + v) s' | None => None end
  end.
Definition hexnum : list ascii -> option Z := hexnum_from 0.
