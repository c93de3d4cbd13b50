(** The texts of numbers, intervals and values: HighPrecisionInteger::toString and its constructor from a text
    (number.cpp:736-742, 975-985), Number::toString and its constructor from a text (1068-1076, 1381-1387),
    HighPrecisionReal from a text (144-151), Interval::toString (interval.cpp:95-109), Value::toString
    (value.cpp:155-168).  HighPrecisionReal::toString (number.cpp:551-585) is in SciModel.v. *)
From Coq Require Import QArith Qround Qabs.
From Verif Require Import Base NumModel RoundModel UtilModel SciModel ValueModel.
Open Scope Z_scope.

(** the digits of mpz_get_str: up to base 36 lower-case letters, above first the capitals *)
Definition digit_char (b d : Z) : ascii :=
  ascii_of_nat (Z.to_nat (if d <? 10 then 48 + d else if b <=? 36 then 87 + d else if d <? 36 then 55 + d else 61 + d)).
Fixpoint digits (fuel : nat) (b z : Z) (acc : str) : str :=
  if z <? b then digit_char b z :: acc
  else match fuel with O => acc | S f => digits f b (z / b) (digit_char b (z mod b) :: acc) end.
(** mpz_get_str *)
Definition ztxt (b z : Z) : str :=
  let t := digits (Z.to_nat (Z.log2 (Z.abs z))) b (Z.abs z) [] in if z <? 0 then "-"%char :: t else t.
(** number.cpp:975-983 *)
Definition i_toString (b z : Z) : res str := if (b <? 2) || (62 <? b) then Throw InvalidArgument else Ok (ztxt b z).
(** the value of a character for mpz_set_str: up to base 36 letters of either case mean the same *)
Definition char_digit (b : Z) (c : ascii) : option Z :=
  let n := Z.of_nat (nat_of_ascii c) in
  let d := if (48 <=? n) && (n <=? 57) then n - 48
           else if (65 <=? n) && (n <=? 90) then n - 55
           else if (97 <=? n) && (n <=? 122) then (if b <=? 36 then n - 87 else n - 61) else 99 in
  if d <? b then Some d else None.
(** white space between digits is skipped, a NUL byte ends the text (c_str) *)
Fixpoint read_digits (b : Z) (s : str) (acc : Z) : option Z :=
  match s with
  | [] => Some acc
  | c :: s' => if aeq c nul then Some acc else if isspace c then read_digits b s' acc
               else match char_digit b c with Some d => read_digits b s' (acc * b + d) | None => None end
  end.
Definition read_nat (b : Z) (s : str) : option Z :=
  match s with c :: _ => match char_digit b c with Some _ => read_digits b s 0 | None => None end | [] => None end.
(** number.cpp:736-742 with mpz_set_str: leading white space, optional '-', at least one digit; bases below 2 (0: the
    base is taken from a prefix) are not modelled and treated as an error, as are the bases mpz_set_str rejects *)
Definition i_ofString (b : Z) (s : str) : res Z :=
  if (b <? 2) || (62 <? b) then Throw InvalidArgument
  else match match skip_space s with
             | [] => None
             | c :: r => if aeq c "-"%char then option_map Z.opp (read_nat b r) else read_nat b (c :: r)
             end with Some z => Ok z | None => Throw InvalidArgument end.
(** number.cpp:551-585; a real zero is unsigned in the model (the code prints "-0" for the negative one) *)
Definition x_str (x : xr) : str :=
  match x with
  | Nan => L "NaN"
  | Inf s => if s then L "-inf" else L "inf"
  | Fin q => signed (qlt q 0) (realtxt (Qabs q))
  end.
(** number.cpp:1381-1387 *)
Definition n_str (n : number) : str := match n with NI z => ztxt 10 z | NR x => x_str x end.
(** number.cpp:144-151 for a decimal numeral; other texts mpfr_set_str accepts (exponents, words) are not modelled
    and treated as an error *)
Definition n_real (s : str) : res number :=
  if isReal s then match set_str s with Some (neg, q) => Ok (NR (Fin (if neg then - rn128 q else rn128 q)%Q)) | None => Throw InvalidArgument end
  else Throw InvalidArgument.
(** interval.cpp:95-109 *)
Definition i_str (i : interval) : str :=
  (if lc i then "["%char else "("%char) :: (n_str (lo i) ++ L ", " ++ n_str (hi i)) ++ [if rc i then "]"%char else ")"%char].
(** value.cpp:155-168 *)
Definition v_text (v : Val) : res str :=
  match v_ty v with
  | VT_STRING => Ok (v_str v)
  | VT_NUMBER => Ok (n_str (v_num v))
  | VT_INTERVAL => Ok (i_str (v_itv v))
  | VT_BOOLEAN => b <- rdBool v ;; Ok (if b then L "true" else L "false")
  | _ => Ok (L "unknown")
  end.
