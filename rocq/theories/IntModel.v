(** Model of HighPrecisionInteger (src/number.cpp:691-1045): the integers every INT Number, every bit-vector count and
    every constant is computed with.  A value is the integer its mpz_class holds; GMP's functions are modelled by what
    its manual says of them.  Not here: the texts (TextModel.v), isProbablePrime (964-966, a random test), the access
    to the mpz_class itself (1024-1031), and the factorial of MathUtils (UtilModel.v).  unsigned long and long have 64
    bits; a double is a rational or an infinity or NaN, as reals are in NumModel.v. *)
From Coq Require Import QArith Qround Qabs.
From Verif Require Import Base SimpModel NumModel FunModel.
Open Scope Z_scope.
Local Notation Q := QArith_base.Q.

(** ++i of an unsigned long *)
Definition unext (i : Z) : Z := (i + 1) mod 2 ^ 64.
(** number.cpp:691-697; the loop ends only when i passes n *)
Fixpoint fact_from (fuel : nat) (i n acc : Z) : res Z :=
  match fuel with
  | O => NoFuel
  | S f => if i <=? n then fact_from f (unext i) n (acc * i) else Ok acc
  end.
Definition h_factorial (fuel : nat) (n : Z) : res Z := fact_from fuel 2 n 1.
(** number.cpp:699-710: c := a + b, a := b, b := c *)
Fixpoint fib_from (fuel : nat) (i n a b : Z) : res Z :=
  match fuel with
  | O => NoFuel
  | S f => if i <=? n then let c := a + b in fib_from f (unext i) n b c else Ok b
  end.
Definition h_fibonacci (fuel : nat) (n : Z) : res Z := if n <=? 1 then Ok n else fib_from fuel 2 n 0 1.
(** number.cpp:712-722 *)
Definition h_gcd (a b : Z) : Z := Z.gcd a b.
Definition h_lcm (a b : Z) : Z := Z.lcm a b.

(** number.cpp:733 with mpz_set_d: towards zero; an infinity or NaN raises SIGFPE *)
Definition Qtrunc (x : Q) : Z := if qneg x then - Qfloor (- x) else Qfloor x.
Definition h_ofDouble (x : xr) : res Z := match x with Fin q => Ok (Qtrunc q) | _ => Abort end.

(** number.cpp:762-778 *)
Definition h_add (a b : Z) : Z := a + b.
Definition h_sub (a b : Z) : Z := a - b.
Definition h_neg (a : Z) : Z := - a.
Definition h_mul (a b : Z) : Z := a * b.
(** number.cpp:786-802: gmpxx's / and % truncate *)
Definition h_div (a b : Z) : res Z := if b =? 0 then Throw DomainError else Ok (Z.quot a b).
Definition h_rem (a b : Z) : res Z := if b =? 0 then Throw DomainError else Ok (Z.rem a b).
(** number.cpp:804-833: the compound operators; the new value of the left operand *)
Definition h_addA (a b : Z) : Z := a + b.
Definition h_subA (a b : Z) : Z := a - b.
Definition h_mulA (a b : Z) : Z := a * b.
Definition h_divA (a b : Z) : res Z := if b =? 0 then Throw DomainError else Ok (Z.quot a b).
Definition h_remA (a b : Z) : res Z := if b =? 0 then Throw DomainError else Ok (Z.rem a b).
(** number.cpp:836-856: what is returned, and the new value of the operand *)
Definition h_preInc (a : Z) : Z * Z := (a + 1, a + 1).
Definition h_postInc (a : Z) : Z * Z := (a, a + 1).
Definition h_preDec (a : Z) : Z * Z := (a - 1, a - 1).
Definition h_postDec (a : Z) : Z * Z := (a, a - 1).
(** number.cpp:859-881 *)
Definition h_eq (a b : Z) : bool := a =? b.
Definition h_ne (a b : Z) : bool := negb (a =? b).
Definition h_lt (a b : Z) : bool := a <? b.
Definition h_le (a b : Z) : bool := a <=? b.
Definition h_gt (a b : Z) : bool := b <? a.
Definition h_ge (a b : Z) : bool := b <=? a.
(** number.cpp:884-906: mpz_and, mpz_ior, mpz_xor and mpz_com work on two's complement *)
Definition h_and (a b : Z) : Z := Z.land a b.
Definition h_or (a b : Z) : Z := Z.lor a b.
Definition h_xor (a b : Z) : Z := Z.lxor a b.
Definition h_not (a : Z) : Z := - a - 1.
(** number.cpp:908-918: mpz_mul_2exp and mpz_fdiv_q_2exp *)
Definition h_shl (a k : Z) : Z := Z.shiftl a k.
Definition h_shr (a k : Z) : Z := Z.shiftr a k.
(** number.cpp:921-931 *)
Definition h_abs' (a : Z) : Z := Z.abs a.
Definition h_pow' (a n : Z) : Z := a ^ n.
(** number.cpp:933-948 *)
Definition h_sqrt' (a : Z) : res Z := if a <? 0 then Throw DomainError else Ok (Z.sqrt a).
Definition h_safeSqrt' (a : Z) : Z := if a <? 0 then 0 else Z.sqrt a.
(** mpz_root of a natural number: its bits, the highest first *)
Fixpoint root_bits (k : nat) (n z acc : Z) : Z :=
  match k with
  | O => acc
  | S k' => let a := acc + 2 ^ Z.of_nat k' in root_bits k' n z (if a ^ n <=? z then a else acc)
  end.
Definition root_nat (n z : Z) : Z := root_bits (S (Z.to_nat (Z.log2 z))) n z 0.
(** number.cpp:951-962: mpz_root truncates towards zero *)
Definition h_root (n a : Z) : res Z :=
  if n =? 0 then Throw DomainError
  else if (a <? 0) && Z.even n then Throw DomainError
  else Ok (if a <? 0 then - root_nat n (- a) else root_nat n a).
(** number.cpp:967-972 *)
Definition h_divides (a d : Z) : res bool := if d =? 0 then Throw DomainError else Ok (Z.rem a d =? 0).
(** number.cpp:985-990 *)
Definition h_toInt (z : Z) : res Z := toInt z.
(** number.cpp:992-997 *)
Definition fits_slong (z : Z) : bool := (- 2 ^ 63 <=? z) && (z <? 2 ^ 63).
Definition h_toLong (z : Z) : res Z := if fits_slong z then Ok z else Throw OverflowError.
(** number.cpp:999-1004 *)
Definition h_toULong (z : Z) : res Z := NumModel.toULong z.
(** number.cpp:1006-1018: long long has the range of long, so std::stoll throws out_of_range on the other texts *)
Definition h_toLongLong (z : Z) : res Z := if fits_slong z then Ok z else Throw OverflowError.
(** number.cpp:1020-1022 with mpz_get_d: the highest 53 bits; past the largest double an infinity *)
Definition h_toDouble (z : Z) : xr :=
  if Z.abs z <? 2 ^ 1024
  then let k := Z.max 0 (Z.log2 (Z.abs z) - 52) in Fin (inject_Z (Z.sgn z * (Z.abs z / 2 ^ k * 2 ^ k)))
  else Inf (z <? 0).
(** number.cpp:1034-1045 *)
Definition h_nextBelow (z : Z) : Z := z - 1.
Definition h_nextAbove (z : Z) : Z := z + 1.

(** ** conversions of a real to a machine integer *)
(** number.cpp:597-599: mpfr_get_si to the nearest (NaN: 0, past the ends of long: the end), of which int keeps 32 bits *)
Definition x_toInt (x : xr) : Z :=
  realToInt (match x with Nan => 0 | Inf s => if s then - 2 ^ 63 else 2 ^ 63 - 1 | Fin q => Qeven q end).
(** number.cpp:610-634: mpfr_get_z gives 0 for NaN and infinities; other integers stop at the ends of long long *)
Definition x_toLongLong (x : xr) : Z := let z := xint x in if fits_slong z then z else if 0 <=? z then 2 ^ 63 - 1 else - 2 ^ 63.
