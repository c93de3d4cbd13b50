(** Interval::operate (src/interval.cpp:2326-2487) and the powers of intervals FunModel.v leaves out
    (infinite exponents, an interval as exponent).  Interval::atan2 is a parameter. *)
From Coq Require Import QArith Qround Qabs ZArith List Bool.
From Verif Require Import Base KindModel NumModel RoundModel FunModel.
Open Scope Z_scope.

Section M.
Context (M : mpfr).
Notation r := rn128.
(** interval.cpp:1846-1877: an infinite exponent ([s]: minus infinity); None: no branch is taken and the
    function goes on *)
Definition i_powInf (a : interval) (s : bool) : option (res interval) :=
  if negb s then
    if n_gt r (lo a) (NI 1) then Some (Ok (Itv posInf posInf false false))
    else if n_ge r (lo a) (NI 0) && n_le r (hi a) (NI 1) then
      if n_eq r (lo a) (NI 0) && n_eq r (hi a) (NI 1) then Some (Ok (Itv (NI 0) (NI 1) true true))
      else Some (Ok (Itv (NI 0) (n_above M (NI 0)) false false))
    else if n_lt r (lo a) (NI 0) then Some (Throw DomainError) else None
  else
    if n_gt r (lo a) (NI 1) then Some (Ok (Itv (NI 0) (n_above M (NI 0)) false false))
    else if n_ge r (lo a) (NI 0) && n_le r (hi a) (NI 1) then
      if n_eq r (hi a) (NI 1) then Some (Ok (Itv (NI 1) posInf true false)) else Some (Ok (Itv posInf posInf false false))
    else Some (Throw DomainError).
(** interval.cpp:1841-1962 pow(Number), any exponent *)
Definition i_pow (a : interval) (e : number) : res interval :=
  if isEmptyI r a then Ok EmptyI
  else if n_isInf e then match i_powInf a (n_isNegInf e) with Some x => x | None => i_powN M a e end
  else i_powN M a e.
(** interval.cpp:1985-2026: a point as base, not 0, 1 or 2 *)
Definition i_powBase (v : number) (e : interval) : interval :=
  let '(l, c) := if n_isPosInf (lo e) then (posInf, false) else if n_isNegInf (lo e) then (NI 0, false)
                 else if n_isInteger (lo e) && n_isInteger v then (n_pow M v (NI (toInteger (lo e))), true)
                 else (n_below M (n_pow M v (lo e)), false) in
  let '(h, d) := if n_isPosInf (hi e) then (posInf, false) else if n_isNegInf (hi e) then (NI 0, false)
                 else if n_isInteger (hi e) && n_isInteger v then (n_pow M v (NI (toInteger (hi e))), true)
                 else (n_above M (n_pow M v (hi e)), false) in
  Itv l h c d.
(** vals[i]; past the end is undefined *)
Definition at_ (l : list number) (i : nat) : res number := match nth_error l i with Some v => Ok v | None => UB end.
(** interval.cpp:2057-2084: the flag of a bound [x], from the corner it equals *)
Definition corner_flag (vs : list number) (fs : list bool) (x : number) : res bool :=
  (fix go (i : nat) (fs : list bool) : res bool :=
     match fs with
     | [] => Ok false
     | f :: fs' => v <- at_ vs i ;; if n_eq r x v then Ok f else go (S i) fs'
     end) O fs.
(** interval.cpp:1964-2093 pow(Interval) *)
Definition i_powI (dbg : bool) (a e : interval) : res interval :=
  if isEmptyI r a || isEmptyI r e then Ok EmptyI
  else if isPoint r e then i_pow a (lo e)
  else if isPoint r a then
    if n_eq r (lo a) (NI 0) || n_eq r (lo a) (NI 1) then Ok (Itv (lo a) (lo a) true true)
    else if n_eq r (lo a) (NI 2) then i_pow2 M dbg e
    else Ok (i_powBase (lo a) e)
  else if n_gt r (lo a) (NI 0) then
    let vs := filter (fun v => negb (n_isNaN v)) [n_pow M (lo a) (lo e); n_pow M (lo a) (hi e); n_pow M (hi a) (lo e); n_pow M (hi a) (hi e)] in
    match vs with
    | [] => Ok FullI
    | v0 :: _ =>
        let mn := fold_left (fun m v => if n_lt r v m then v else m) vs v0 in
        let mx := fold_left (fun m v => if n_gt r v m then v else m) vs v0 in
        let fs := [lc a && lc e; lc a && rc e; rc a && lc e; rc a && rc e] in
        f1 <- corner_flag vs fs mn ;; f2 <- corner_flag vs fs mx ;; Ok (Itv mn mx f1 f2)
    end
  else Throw DomainError.

(** interval.cpp:2326-2399 operate(kind) *)
Definition operate1 (dbg : bool) (k : kind) (a : interval) : res interval :=
  if isEmptyI r a then Ok EmptyI
  else match k with
  | NT_NEG => Ok (i_neg r a) | NT_ABS => Ok (i_abs r a) | NT_LB => i_lb M a | NT_LN => i_ln M a | NT_LG => i_lg M a
  | NT_EXP => i_exp M a | NT_SQRT => i_sqrt M a | NT_SAFESQRT => i_safeSqrt M a
  | NT_SIN => i_sin M a | NT_COS => i_cos M a | NT_TAN => i_tan M a | NT_COT => i_cot M dbg a | NT_SEC => i_sec M dbg a | NT_CSC => i_csc M dbg a
  | NT_ASIN => i_asin M a | NT_ACOS => i_acos M a | NT_ATAN => i_atan M a | NT_ACOT => i_acot M a | NT_ASEC => i_asec M dbg a | NT_ACSC => i_acsc M dbg a
  | NT_SINH => i_sinh M a | NT_COSH => i_cosh M a | NT_TANH => i_tanh M a | NT_COTH => i_coth M a | NT_SECH => i_sech M dbg a | NT_CSCH => i_csch M dbg a
  | NT_ASINH => i_asinh M a | NT_ACOSH => i_acosh M a | NT_ATANH => i_atanh M a | NT_ACOTH => i_acoth M dbg a
  | NT_ASECH => i_asech M dbg a | NT_ACSCH => i_acsch M dbg a
  | _ => Throw InvalidArgument
  end.
(** interval.cpp:2401-2434 operate(kind, Number); [at2]: atan2(Number) *)
Definition operateN (at2 : interval -> number -> res interval) (k : kind) (a : interval) (v : number) : res interval :=
  if isEmptyI r a then Ok EmptyI
  else match k with
  | NT_ADD => Ok (i_addN r a v) | NT_SUB => Ok (i_subN r a v) | NT_MUL => Ok (i_mulN r a v)
  | NT_DIV_REAL => i_divN r a v | NT_DIV_INT => i_divIntN r a v | NT_MOD => i_modN r a v | NT_POW => i_pow a v | NT_ATAN2 => at2 a v
  | _ => Throw InvalidArgument
  end.
(** interval.cpp:2436-2487 operate(kind, Interval); [at2]: atan2(Interval) *)
Definition operate2 (at2 : interval -> interval -> res interval) (dbg : bool) (k : kind) (a b : interval) : res interval :=
  if isEmptyI r a || isEmptyI r b then Throw InvalidArgument
  else match k with
  | NT_ADD => Ok (i_add r a b) | NT_SUB => Ok (i_sub r a b) | NT_MUL => Ok (i_mul r a b)
  | NT_DIV_REAL => i_div r dbg a b | NT_DIV_INT => i_divInt r a b | NT_MOD => i_mod r a b | NT_POW => i_powI dbg a b | NT_ATAN2 => at2 a b
  | NT_AND => i_operAnd r a b | NT_OR => i_operOr r a b
  | _ => Throw InvalidArgument
  end.
End M.
