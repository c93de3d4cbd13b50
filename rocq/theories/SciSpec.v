(** What a text in scientific notation stands for: the value of the mantissa, a decimal numeral (Sem.real_val:
    digits, optionally a point, more digits, optionally a minus sign), times ten to the exponent. *)
From Coq Require Import QArith Qcanon Qpower ZArith List.
From Verif Require Import Base UtilSpec Sem.
Open Scope Z_scope.
Local Notation Q := QArith_base.Q.

(** an integer with an optional sign *)
Definition signed_int (s : str) (n : Z) : Prop :=
  int_val s = Some n \/ exists r, s = "+"%char :: r /\ int_val r = Some n /\ 0 <= n /\ Forall digitC r.
(** ... or that in parentheses *)
Definition exponent (s : str) (n : Z) : Prop :=
  signed_int s n \/ exists r, s = "("%char :: r ++ [")"%char] /\ signed_int r n.
Definition pow10 (n : Z) : Qc := Q2Qc (Qpower 10 n).
(** [sci_means s m n v]: s is mantissa, E or e, exponent; the mantissa has the value m and at least one
    digit, the exponent is n, and v = m * 10^n *)
Definition sci_means (s : str) (m : Qc) (n : Z) (v : Qc) : Prop := exists a e ex,
  s = a ++ e :: ex /\ (e = "E"%char \/ e = "e"%char) /\ real_val a = Some m /\ (exists c, In c a /\ digitC c) /\
  exponent ex n /\ v = (m * pow10 n)%Qc.
(** the absolute value *)
Definition Qcabs (v : Qc) : Qc := if Qclt_le_dec v 0 then (- v)%Qc else v.
(** a decimal that needs at most 17 places after the point *)
Definition places17 (v : Qc) : Prop := exists k, (v * pow10 17)%Qc = ZQ k.
(** a decimal of at most 17 significant digits *)
Definition digits17 (v : Qc) : Prop := exists k j, Z.abs k < 10 ^ 17 /\ v = (ZQ k * pow10 j)%Qc.
(** the numbers that are printed as they are *)
Definition printable (v : Qc) : Prop :=
  v = 0%Qc \/
  ((pow10 (-7) < Qcabs v)%Qc /\ (Qcabs v < pow10 6)%Qc /\ places17 v) \/
  ((pow10 6 <= Qcabs v)%Qc /\ (Qcabs v < pow10 17)%Qc /\ digits17 v).
(** a number of 128 significant bits *)
Definition fits128 (v : Qc) : Prop := exists m e, Z.abs m <= 2 ^ 128 /\ v = (ZQ m * Q2Qc (Qpower 2 e))%Qc.
