(** What the text of an integer in a base, of a number and of an interval stand for. *)
From Coq Require Import QArith Qcanon.
From Verif Require Import Base Sem SciSpec NumModel RoundModel.
Open Scope Z_scope.

(** the 62 digit characters; up to base 36 capitals mean the same as small letters *)
Definition small : str := L "0123456789abcdefghijklmnopqrstuvwxyz".
Definition capital : str := L "0123456789ABCDEFGHIJKLMNOPQRSTUVWXYZ".
Definition both : str := L "0123456789ABCDEFGHIJKLMNOPQRSTUVWXYZabcdefghijklmnopqrstuvwxyz".
Definition is_digit (b : Z) (c : ascii) (d : Z) : Prop :=
  0 <= d < b /\ (if b <=? 36 then nth_error small (Z.to_nat d) = Some c \/ nth_error capital (Z.to_nat d) = Some c else nth_error both (Z.to_nat d) = Some c).
(** digits, the most significant first *)
Inductive natural (b : Z) : str -> Z -> Prop :=
| nat_one c d : is_digit b c d -> natural b [c] d
| nat_more s c z d : natural b s z -> is_digit b c d -> natural b (s ++ [c]) (z * b + d).
Definition integer (b : Z) (s : str) (z : Z) : Prop := natural b s z \/ exists r, s = "-"%char :: r /\ natural b r (- z).

(** a number of the extended line *)
Inductive ext := MinusInf | PlusInf | Val (v : Qc).
Definition reads (t : str) (x : ext) : Prop :=
  match x with MinusInf => t = L "-inf" | PlusInf => t = L "inf" | Val v => real_val t = Some v end.
(** the number a Number is shown as: integers, integral reals, and reals that are the nearest to a decimal of at most 17
    places (or digits) *)
Inductive shown : number -> ext -> Prop :=
| sh_int z : shown (NI z) (Val (ZQ z))
| sh_inf s : shown (NR (Inf s)) (if s then MinusInf else PlusInf)
| sh_whole q z : (q == inject_Z z)%Q -> shown (NR (Fin q)) (Val (ZQ z))
| sh_dec q v : printable v -> (q == rn128 (this v))%Q -> shown (NR (Fin q)) (Val v).
