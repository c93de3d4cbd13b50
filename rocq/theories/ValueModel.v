(** The class Value: src/value.cpp, include/value.h.

    Simplifications: the functions that only pass a NUMBER or an INTERVAL on to a function of
    number.cpp or interval.cpp not modelled here (sin, exp, ln, ...) are one definition with the two
    functions as parameters; copying a Value whose boolean was never set is taken to
    copy the absence of a value (formally undefined already). *)
From Coq Require Import QArith.
From Verif Require Import Base NumModel UtilModel.
Open Scope Z_scope.

(** include/value.h:36-45 *)
Inductive vty := VT_UNKNOWN | VT_STRING | VT_NUMBER | VT_INTERVAL | VT_BOOLEAN | VT_BV | VT_FP | VT_ARRAY.
Definition vty_eqb (a b : vty) : bool :=
  match a, b with
  | VT_UNKNOWN, VT_UNKNOWN | VT_STRING, VT_STRING | VT_NUMBER, VT_NUMBER | VT_INTERVAL, VT_INTERVAL
  | VT_BOOLEAN, VT_BOOLEAN | VT_BV, VT_BV | VT_FP, VT_FP | VT_ARRAY, VT_ARRAY => true
  | _, _ => false
  end.
(** include/value.h, private members; [None]: boolean_value has not been given a value *)
Record Val := MkVal { v_str : str; v_num : number; v_itv : interval; v_bool : option bool; v_ty : vty }.
(** number.cpp:1047 and interval.h:44: default members *)
Definition itv0 : interval := Itv (NI 0) (NI 0) true true.
(** value.cpp:35, 61-73: constructors *)
Definition vEmpty (t : vty) : Val := MkVal [] (NI 0) itv0 None t.
Definition vNew : Val := vEmpty VT_UNKNOWN.
Definition vStr (s : str) : Val := MkVal s (NI 0) itv0 None VT_STRING.
Definition vNum (n : number) : Val := MkVal [] n itv0 None VT_NUMBER.
Definition vItv (i : interval) : Val := MkVal [] (NI 0) i None VT_INTERVAL.
Definition vBool (b : bool) : Val := MkVal [] (NI 0) itv0 (Some b) VT_BOOLEAN.
(** value.cpp:38-55: copying *)
Definition vCopy (v : Val) : Val := MkVal (v_str v) (v_num v) (v_itv v) (v_bool v) (v_ty v).
(** value.cpp:76-94 (setValue) and 130-152 (assignment from a plain value) *)
Definition setStr (s : str) (v : Val) : Val := MkVal s (v_num v) (v_itv v) (v_bool v) VT_STRING.
Definition setNum (n : number) (v : Val) : Val := MkVal (v_str v) n (v_itv v) (v_bool v) VT_NUMBER.
Definition setItv (i : interval) (v : Val) : Val := MkVal (v_str v) (v_num v) i (v_bool v) VT_INTERVAL.
Definition setBool (b : bool) (v : Val) : Val := MkVal (v_str v) (v_num v) (v_itv v) (Some b) VT_BOOLEAN.
(** reading boolean_value *)
Definition rdBool (v : Val) : res bool := match v_bool v with Some b => Ok b | None => UB end.
(** value.cpp:97-127: getters *)
Definition getStringValue (v : Val) : res str := if vty_eqb (v_ty v) VT_STRING then Ok (v_str v) else Throw RuntimeError.
Definition getNumberValue (v : Val) : res number := if vty_eqb (v_ty v) VT_NUMBER then Ok (v_num v) else Throw RuntimeError.
Definition getIntervalValue (v : Val) : res interval := if vty_eqb (v_ty v) VT_INTERVAL then Ok (v_itv v) else Throw RuntimeError.
Definition getBooleanValue (v : Val) : res bool := if vty_eqb (v_ty v) VT_BOOLEAN then rdBool v else Throw RuntimeError.
(** value.cpp:191-212: newValue(int), newValue(long): the long is cast to int (two's complement) *)
Definition cast32 (z : Z) : Z := (z + 2147483648) mod 4294967296 - 2147483648.
Definition newInt (z : Z) : Val := vNum (NI z).
Definition newLong (z : Z) : Val := vNum (NI (cast32 z)).

(** std::string::operator<: bytes compared as unsigned char *)
Fixpoint s_lt (a b : str) : bool :=
  match a, b with
  | [], [] => false
  | [], _ :: _ => true
  | _ :: _, [] => false
  | x :: a', y :: b' => Nat.ltb (code x) (code y) || (aeq x y && s_lt a' b')
  end.

Section Rounding.
Context (r : Q -> Q) (dbg : bool).
(** value.cpp:216-233 *)
Definition v_eq (a b : Val) : res bool :=
  if vty_eqb (v_ty a) (v_ty b) then
    match v_ty a with
    | VT_STRING => Ok (seq_str (v_str a) (v_str b))
    | VT_NUMBER => Ok (n_eq r (v_num a) (v_num b))
    | VT_INTERVAL => Ok (i_eqb r (v_itv a) (v_itv b))
    | VT_BOOLEAN => x <- rdBool a ;; y <- rdBool b ;; Ok (Bool.eqb x y)
    | _ => Ok false
    end
  else Ok false.
(** value.cpp:235-237 *)
Definition v_ne (a b : Val) : res bool := x <- v_eq a b ;; Ok (negb x).
(** value.cpp:239-256 *)
Definition v_lt (a b : Val) : res bool :=
  if vty_eqb (v_ty a) (v_ty b) then
    match v_ty a with
    | VT_STRING => Ok (s_lt (v_str a) (v_str b))
    | VT_NUMBER => Ok (n_lt r (v_num a) (v_num b))
    | VT_INTERVAL => i_lt r (v_itv a) (v_itv b)
    | VT_BOOLEAN => x <- rdBool a ;; y <- rdBool b ;; Ok (negb x && y)
    | _ => Throw RuntimeError
    end
  else Throw RuntimeError.
(** value.cpp:258-268 *)
Definition v_le (a b : Val) : res bool := x <- v_lt a b ;; if x then Ok true else v_eq a b.
Definition v_gt (a b : Val) : res bool := x <- v_le a b ;; Ok (negb x).
Definition v_ge (a b : Val) : res bool := x <- v_lt a b ;; Ok (negb x).

(** value.cpp:271-325: + - * / %, on two numbers, two intervals, or (for +) two strings *)
Definition v_op2 (fn : number -> number -> res number) (fi : interval -> interval -> res interval) (a b : Val) : res Val :=
  match v_ty a, v_ty b with
  | VT_NUMBER, VT_NUMBER => n <- fn (v_num a) (v_num b) ;; Ok (vNum n)
  | VT_INTERVAL, VT_INTERVAL => i <- fi (v_itv a) (v_itv b) ;; Ok (vItv i)
  | _, _ => Throw RuntimeError
  end.
Definition v_add (a b : Val) : res Val :=
  match v_ty a, v_ty b with
  | VT_STRING, VT_STRING => Ok (vStr (v_str a ++ v_str b))
  | _, _ => v_op2 (fun x y => Ok (n_add r x y)) (fun x y => Ok (i_add r x y)) a b
  end.
Definition v_sub : Val -> Val -> res Val := v_op2 (fun x y => Ok (n_sub r x y)) (fun x y => Ok (i_sub r x y)).
Definition v_mul : Val -> Val -> res Val := v_op2 (fun x y => Ok (n_mul r x y)) (fun x y => Ok (i_mul r x y)).
Definition v_div : Val -> Val -> res Val := v_op2 (n_div r) (i_div r dbg).
Definition v_mod : Val -> Val -> res Val := v_op2 (n_mod dbg) (i_mod r).
(** value.cpp:329-404 (abs 395-404), 562-593, 640-738, 749-880: a function of a number or interval *)
Definition v_fun1 (fn : number -> res number) (fi : interval -> res interval) (a : Val) : res Val :=
  match v_ty a with
  | VT_NUMBER => n <- fn (v_num a) ;; Ok (vNum n)
  | VT_INTERVAL => i <- fi (v_itv a) ;; Ok (vItv i)
  | _ => Throw RuntimeError
  end.
Definition v_abs : Val -> res Val := v_fun1 (fun n => Ok (n_abs n)) (fun i => Ok (i_abs r i)).
(** value.cpp:551-559 *)
Definition v_neg : Val -> res Val := v_fun1 (fun n => Ok (n_neg n)) (fun i => Ok (i_neg r i)).
(** value.cpp:603-637: not for intervals *)
Definition v_ceil : Val -> res Val := v_fun1 (fun n => Ok (n_ceil n)) (fun _ => Throw RuntimeError).
Definition v_floor : Val -> res Val := v_fun1 (fun n => Ok (n_floor n)) (fun _ => Throw RuntimeError).
Definition v_round : Val -> res Val := v_fun1 (fun n => Ok (n_round n)) (fun _ => Throw RuntimeError).
(** value.cpp:420-439 *)
Definition v_and (a b : Val) : res bool :=
  if vty_eqb (v_ty a) VT_BOOLEAN && vty_eqb (v_ty b) VT_BOOLEAN then x <- rdBool a ;; if x then rdBool b else Ok false else Throw RuntimeError.
Definition v_or (a b : Val) : res bool :=
  if vty_eqb (v_ty a) VT_BOOLEAN && vty_eqb (v_ty b) VT_BOOLEAN then x <- rdBool a ;; if x then Ok true else rdBool b else Throw RuntimeError.
Definition v_not (a : Val) : res bool := if vty_eqb (v_ty a) VT_BOOLEAN then x <- rdBool a ;; Ok (negb x) else Throw RuntimeError.
(** value.cpp:442-465: x op= y assigns x op y: all members are overwritten *)
Definition v_assign (op : Val -> Val -> res Val) (a b : Val) : res Val := v <- op a b ;; Ok (vCopy v).
(** value.cpp:468-501 and 1086-1124: ^ & | << >> and their assignments *)
Definition v_bits (a b : Val) : res Val := Throw RuntimeError.
(** value.cpp:541-549: ~ negates an interval *)
Definition v_compl (a : Val) : res Val :=
  match v_ty a with VT_INTERVAL => Ok (vItv (i_neg r (v_itv a))) | _ => Throw RuntimeError end.
(** value.cpp:504-538: ++ and --; the pair is (result, the object afterwards) *)
Definition v_inc (a : Val) : res Val :=
  match v_ty a with
  | VT_NUMBER => Ok (MkVal (v_str a) (n_add r (v_num a) (NI 1)) (v_itv a) (v_bool a) VT_NUMBER)
  | VT_INTERVAL => Ok (MkVal (v_str a) (v_num a) (i_inc r (v_itv a)) (v_bool a) VT_INTERVAL)
  | _ => Throw RuntimeError
  end.
Definition v_dec (a : Val) : res Val :=
  match v_ty a with
  | VT_NUMBER => Ok (MkVal (v_str a) (n_sub r (v_num a) (NI 1)) (v_itv a) (v_bool a) VT_NUMBER)
  | VT_INTERVAL => Ok (MkVal (v_str a) (v_num a) (i_dec r (v_itv a)) (v_bool a) VT_INTERVAL)
  | _ => Throw RuntimeError
  end.
Definition v_incpost (a : Val) : res (Val * Val) := let old := vCopy a in b <- v_inc a ;; Ok (old, b).
Definition v_decpost (a : Val) : res (Val * Val) := let old := vCopy a in b <- v_dec a ;; Ok (old, b).

(** value.cpp:1042-1068; [rd]: the MPFR reading of a decimal text (number.cpp:144-152),
    [None] when it is not one *)
Definition v_toNumber (rd : str -> option Q) (a : Val) : res Val :=
  match v_ty a with
  | VT_STRING => match rd (v_str a) with Some q => Ok (vNum (NR (Fin q))) | None => Throw RuntimeError end
  | VT_BOOLEAN => b <- rdBool a ;; Ok (vNum (NI (if b then 1 else 0)))
  | VT_NUMBER => Ok (vCopy a)
  | _ => Throw RuntimeError
  end.
Definition v_toBoolean (a : Val) : res Val :=
  match v_ty a with
  | VT_STRING => Ok (vBool (seq_str (v_str a) (L "true") || seq_str (v_str a) (L "1")))
  | VT_NUMBER => Ok (vBool (negb (n_eq r (v_num a) (NI 0))))
  | VT_BOOLEAN => Ok (vCopy a)
  | _ => Throw RuntimeError
  end.
End Rounding.

(** ** strings *)
(** a Value that must be a string *)
Definition on_str (a : Val) (f : str -> res str) : res Val :=
  match v_ty a with VT_STRING => s <- f (v_str a) ;; Ok (vStr s) | _ => Throw RuntimeError end.
(** value.cpp:883-889 *)
Definition v_concat (a b : Val) : res Val :=
  match v_ty a, v_ty b with VT_STRING, VT_STRING => Ok (vStr (v_str a ++ v_str b)) | _, _ => Throw RuntimeError end.
(** number.cpp:985-990: toInt *)
Definition toInt32 (z : Z) : res Z := if (2147483647 <? z) || (z <? -2147483648) then Throw OverflowError else Ok z.
(** value.cpp:891-902 *)
Fixpoint times (n : nat) (s : str) : str := match n with O => [] | S n' => s ++ times n' s end.
Definition v_repeat (a b : Val) : res Val :=
  match v_ty a, v_ty b with
  | VT_STRING, VT_NUMBER => c <- toInt32 (toInteger (v_num b)) ;; Ok (vStr (times (Z.to_nat c) (v_str a)))
  | _, _ => Throw RuntimeError
  end.
(** value.cpp:904-912: std::sort on char, which is signed *)
Definition schar (c : ascii) : Z := let z := Z.of_nat (code c) in if 127 <? z then z - 256 else z.
Fixpoint ins (c : ascii) (s : str) : str :=
  match s with [] => [c] | d :: s' => if schar c <=? schar d then c :: s else d :: ins c s' end.
Definition v_sort (a : Val) : res Val := on_str a (fun s => Ok (fold_right ins [] s)).
(** value.cpp:915-928: the second argument is a length; a negative one becomes huge. Simplified: the cast of
    the length of the string to int is the identity (strings below 2^31 bytes). *)
Definition v_substr (a b d : Val) : res Val :=
  match v_ty a, v_ty b, v_ty d with
  | VT_STRING, VT_NUMBER, VT_NUMBER =>
      i <- toInt32 (toInteger (v_num b)) ;; l <- toInt32 (toInteger (v_num d)) ;;
      if (i <? 0) || (zlen (v_str a) <=? i) then Throw OutOfRange
      else s <- substr (v_str a) i (u64 l) ;; Ok (vStr s)
  | _, _, _ => Throw RuntimeError
  end.
(** value.cpp:930-942: the loop is that of util.cpp:1191-1194 *)
Definition v_replace (fuel : nat) (a b d : Val) : res Val :=
  match v_ty a, v_ty b, v_ty d with
  | VT_STRING, VT_STRING, VT_STRING =>
      s <- repl_loop fuel (v_str b) (v_str d) (v_str a) (find_from (v_str b) (v_str a) 0) ;; Ok (vStr s)
  | _, _, _ => Throw RuntimeError
  end.
(** value.cpp:954-962 *)
Definition v_reverse (a : Val) : res Val := on_str a (fun s => Ok (rev s)).
(** value.cpp:964-976 *)
Fixpoint uniq_loop (s out : str) : str :=
  match s with [] => out | c :: s' => uniq_loop s' (if existsb (aeq c) out then out else out ++ [c]) end.
Definition v_unique (a : Val) : res Val := on_str a (fun s => Ok (uniq_loop s [])).
(** std::isspace of a char passed as int: defined for 0..127 and EOF (byte 255) only *)
Definition isspace_int (c : ascii) : res bool :=
  if Nat.ltb (code c) 128 then Ok (isspace c) else if Nat.eqb (code c) 255 then Ok false else UB.
Fixpoint lstrip (s : str) : res str :=
  match s with [] => Ok [] | c :: s' => b <- isspace_int c ;; if b then lstrip s' else Ok s end.
Definition rstrip (s : str) : res str := t <- lstrip (rev s) ;; Ok (rev t).
(** value.cpp:978-1017: trim, ltrim, rtrim *)
Definition v_ltrim (a : Val) : res Val := on_str a lstrip.
Definition v_rtrim (a : Val) : res Val := on_str a rstrip.
Definition v_trim (a : Val) : res Val := on_str a (fun s => t <- lstrip s ;; rstrip t).
(** value.cpp:1019-1039 *)
Definition v_toLower (a : Val) : res Val := on_str a (fun s => Ok (map tolower s)).
Definition v_toUpper (a : Val) : res Val := on_str a (fun s => Ok (map toupper s)).
