(** What the elementary functions of numbers and intervals should compute, with the real numbers of Coq's
    standard library, and what is assumed of MPFR. *)
From Coq Require Import Reals QArith Qreals ZArith List Bool.
From Verif Require Import Base NumModel RoundModel NumSpec FunModel.

(** ** the mathematical functions and their domains *)
Definition real_fun (f : rfun) (x : R) : R :=
  (match f with
   | F_exp => exp x | F_ln => ln x | F_lg => ln x / ln 10 | F_lb => ln x / ln 2 | F_sqrt => sqrt x
   | F_sin => sin x | F_cos => cos x | F_tan => tan x | F_asin => asin x | F_acos => acos x | F_atan => atan x
   | F_sinh => sinh x | F_cosh => cosh x | F_tanh => tanh x
   | F_asinh => arcsinh x | F_acosh => ln (x + sqrt (x * x - 1)) | F_atanh => ln ((1 + x) / (1 - x)) / 2
   end)%R.
Definition in_domain (f : rfun) (x : R) : Prop :=
  (match f with
   | F_ln | F_lg | F_lb => 0 < x
   | F_sqrt => 0 <= x
   | F_asin | F_acos => -1 <= x <= 1
   | F_acosh => 1 <= x
   | F_atanh => -1 < x < 1
   | F_tan => cos x <> 0
   | _ => True
   end)%R.

(** ** MPFR: the result is a number of 128 bits and none is nearer to the exact value *)
Definition nearest (q : Q) (x : R) : Prop :=
  repr 128 q /\ forall y, repr 128 y -> (Rabs (Q2R q - x) <= Rabs (Q2R y - x))%R.
Record correct (M : mpfr) : Prop := {
  ok_fun : forall f q, repr 128 q -> in_domain f (Q2R q) -> nearest (m_fun M f q) (real_fun f (Q2R q));
  ok_pow : forall a b, repr 128 a -> repr 128 b -> (0 < a)%Q -> nearest (m_pow M a b) (Rpower (Q2R a) (Q2R b));
  ok_pi : nearest (m_pi M) PI;
  ok_atanInf : nearest (m_atanInf M) (PI / 2);
  ok_below : forall q, repr 128 q -> repr 128 (m_below M q) /\ (m_below M q < q)%Q;
  ok_above : forall q, repr 128 q -> repr 128 (m_above M q) /\ (q < m_above M q)%Q }.

(** ** intervals as sets of reals *)
Definition lowR (l : xr) (c : bool) (x : R) : Prop :=
  match l with Fin q => if c then (Q2R q <= x)%R else (Q2R q < x)%R | Inf s => s = true | Nan => False end.
Definition highR (h : xr) (c : bool) (x : R) : Prop :=
  match h with Fin q => if c then (x <= Q2R q)%R else (x < Q2R q)%R | Inf s => s = false | Nan => False end.
Definition memberR (a : interval) (x : R) : Prop := lowR (val (lo a)) (lc a) x /\ highR (val (hi a)) (rc a) x.

(** a number the library can hold exactly as a 128-bit real; an interval with such bounds, the infinite ones
    open and on their own side *)
Definition held (n : number) : Prop :=
  match n with NI z => (Z.abs z <= 2 ^ 128)%Z | NR (Fin q) => repr 128 q | NR (Inf _) => True | NR Nan => False end.
Definition usable (a : interval) : Prop := held (lo a) /\ held (hi a) /\ iwf a.
