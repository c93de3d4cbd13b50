(** Model of the overloads of mkConstInt and mkConstReal that take a number (src/op_parser.cpp:617-650).  The text of an Integer
    is its decimal numeral (util.cpp:248-250), the text of a Real is that of HighPrecisionReal::toString
    (util.cpp:252-254, SciModel.v). *)
From Coq Require Import QArith Qround Qabs.
From Verif Require Import Base KindModel SortModel TermModel UtilModel SimpModel NumModel RoundModel SciModel TextModel.
Open Scope Z_scope.
Local Notation Q := QArith_base.Q.

(** std::to_string(double): the conversion %f, six decimals, to the nearest, ties to even (a zero is unsigned here, the code keeps
    the sign of -0.0) *)
Definition dbl_txt (x : xr) : str :=
  match x with
  | Nan => L "nan"
  | Inf s => if s then L "-inf" else L "inf"
  | Fin q => signed (qlt q 0) (fixtxt 6 (Qeven (Qabs q * p10 6)))
  end.
(** op_parser.cpp:640-643 *)
Definition mkConstReal_double (x : xr) : term := mkConstReal (dbl_txt x).
(** op_parser.cpp:636-639 *)
Definition mkConstReal_real (x : xr) : term := mkConstReal (x_str x).
(** op_parser.cpp:644-647 *)
Definition mkConstReal_int (z : Z) : term := mkConstReal (Idec z).
(** op_parser.cpp:648-650: toReal with the default precision *)
Definition mkConstReal_num (n : number) : term := mkConstReal_real (toReal rn128 n).
(** op_parser.cpp:627-629 *)
Definition mkConstInt_num (n : number) : term := mkConstInt (toInteger n).
