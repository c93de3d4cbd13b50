(** Model of ConversionUtils::parseScientificNotation (src/util.cpp:132-196): the text of a number in
    scientific notation is replaced by the decimal text of its value, computed with two conversions of a
    text to a HighPrecisionReal (src/number.cpp:144-151, mpfr_set_str), MathUtils::pow
    (src/util.cpp:266-268, number.cpp:289-293), one multiplication, and HighPrecisionReal::toString
    (number.cpp:551-585).  Simplified: the exponent range of MPFR is unbounded, an exponent text that is
    not a signed integer (which isScientificNotation excludes before the function is called) leaves the
    text unchanged. *)
From Coq Require Import QArith Qround Qpower.
From Verif Require Import Base UtilModel NumModel RoundModel.
Open Scope Z_scope.

(** powers of ten, as rationals (number.cpp:289-293: mpfr_pow of 10 and an integer, before rounding) *)
Definition p10 (n : Z) : Q := Qpower 10 n.

(** the digits before and after the first '.', as mpfr_set_str (number.cpp:147) reads them *)
Fixpoint cut (s : str) : str * str :=
  match s with
  | [] => ([], [])
  | c :: s' => if aeq c "."%char then ([], s') else let '(a, b) := cut s' in (c :: a, b)
  end.
(** the value of a sequence of digits *)
Definition nval (s : str) : Z := fold_left (fun a c => a * 10 + (Z.of_nat (nat_of_ascii c) - 48)) s 0.
(** number.cpp:144-151: sign and absolute value of the text; without a digit mpfr_set_str fails *)
Definition set_str (s : str) : option (bool * Q) :=
  let '(neg, body) := match s with c :: r => if is_sign c then (aeq c "-"%char, r) else (false, s) | [] => (false, []) end in
  let '(a, b) := cut body in
  match a ++ b with
  | [] => None
  | ds => Some (neg, (inject_Z (nval ds) * p10 (- zlen b))%Q)
  end.
(** the same for the exponent (number.cpp:144-151): an integer with an optional sign *)
Definition set_exp (s : str) : option Z :=
  match s with
  | [] => None
  | c :: r => if is_sign c
              then match r with
                   | [] => None
                   | _ => if forallb isdigit r then Some (if aeq c "-"%char then - nval r else nval r) else None
                   end
              else if forallb isdigit s then Some (nval s) else None
  end.

(** ** HighPrecisionReal::toString, number.cpp:551-585 *)
(** the number of decimal digits of a positive integer *)
Fixpoint ndig_go (fuel : nat) (z : Z) : Z :=
  match fuel with O => 1 | S f => if z <? 10 then 1 else 1 + ndig_go f (z / 10) end.
Definition ndig (z : Z) : Z := ndig_go (Z.to_nat (Z.log2 z)) z.
(** the decimal exponent of a positive rational: 10^(e-1) <= q < 10^e *)
Definition dmag (q : Q) : Z := if Qle_bool 1 q then ndig (Qfloor q) else 1 - ndig (Qceiling (/ q) - 1).
(** number.cpp:565-566, mpfr_get_str with n = 0: the exponent after rounding to the 40 digits that a 128
    bit number needs *)
Definition exp10 (q : Q) : Z :=
  let e := dmag q in if Qeven (q * p10 (40 - e)) =? 10 ^ 40 then e + 1 else e.
(** [k / 10^d] with d digits after the point: the conversion %.dRf of a number that rounds to it *)
Definition fixtxt (d : nat) (k : Z) : str :=
  let t := Idec k in
  let t := repeat "0"%char (S d - length t) ++ t in
  match d with
  | O => t
  | _ => firstn (length t - d) t ++ "."%char :: skipn (length t - d) t
  end.
(** 571-572: trailing zeros, then the point, are removed *)
Fixpoint drop0 (r : str) : str := match r with c :: r' => if aeq c "0"%char then drop0 r' else r | [] => [] end.
Definition dropdot (r : str) : str := match r with c :: r' => if aeq c "."%char then r' else r | [] => [] end.
Definition strip (s : str) : str := rev (dropdot (drop0 (rev s))).
(** %.17Rg (575) *)
Definition gtxt (q : Q) : str :=
  let x := dmag q - 1 in
  let k := Qeven (q * p10 (16 - x)) in
  let '(k, x) := if k =? 10 ^ 17 then (10 ^ 16, x + 1) else (k, x) in
  if (-4 <=? x) && (x <? 17)
  then let t := fixtxt (Z.to_nat (16 - x)) k in if x =? 16 then t else strip t
  else strip (fixtxt 16 k) ++ "e"%char :: (if x <? 0 then "-"%char else "+"%char)
       :: (if Z.abs x <? 10 then ["0"%char] else []) ++ Idec (Z.abs x).
(** 551-585 on the absolute value *)
Definition realtxt (q : Q) : str :=
  if Qeq_bool q (inject_Z (Qfloor q)) then Idec (Qfloor q)
  else if (-6 <=? exp10 q) && (exp10 q <=? 6) then strip (fixtxt 17 (Qeven (q * p10 17)))
  else gtxt q.
Definition signed (neg : bool) (s : str) : str := if neg then "-"%char :: s else s.

(** util.cpp:148-176: the exponent text without spaces and parentheses *)
Definition exp_text (ex : str) : str :=
  let ns := filter (fun c => negb (isspace c)) ex in
  match ns with
  | [] => []
  | c :: r => if aeq c "("%char
              then match find_rpar ns 0 with Some p => firstn (p - 1) r | None => r end
              else ns
  end.
(** util.cpp:132-196 *)
Definition sci (s : str) : str :=
  match find_e s 0 with
  | None => s
  | Some e =>
      let m := firstn e s in
      if negb (isReal m) then s else
      match set_str m, set_exp (exp_text (skipn (S e) s)) with
      | Some (neg, q), Some n =>
          signed neg (realtxt (rn128 (rn128 q * rn128 (p10 (Qeven (rn128 (inject_Z n)))))))
      | _, _ => s
      end
  end.
