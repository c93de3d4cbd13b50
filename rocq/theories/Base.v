(** Common infrastructure of the model: outcomes, C++ strings and integers. *)
From Coq Require Export Ascii String ZArith Lia Bool List.
Export ListNotations.
Open Scope Z_scope.
Open Scope list_scope.

(** ** Outcomes

    A C++ call either returns, throws a standard exception, calls [exit]
    (all [err_*] functions of base_parser.cpp do), aborts (failed [condAssert]
    of a debug build, include/asserting.h:33-42), or has undefined behaviour.
    [NoFuel] marks an exhausted recursion budget of the *model* and is never
    identified with a result; theorems must exclude it. *)
Inductive exn := OutOfRange | InvalidArgument | DomainError | OverflowError
               | LengthError | RuntimeError.

Inductive res (A : Type) :=
| Ok (a : A) | Throw (e : exn) | Exit | Abort | UB | NoFuel.
Arguments Ok {A}. Arguments Throw {A}. Arguments Exit {A}.
Arguments Abort {A}. Arguments UB {A}. Arguments NoFuel {A}.

Definition bind {A B} (m : res A) (k : A -> res B) : res B :=
  match m with
  | Ok a => k a | Throw e => Throw e | Exit => Exit | Abort => Abort
  | UB => UB | NoFuel => NoFuel
  end.
Notation "x <- m ;; k" := (bind m (fun x => k))
  (at level 61, m at next level, right associativity).
Notation "m ;;; k" := (bind m (fun _ => k)) (at level 61, right associativity).

Fixpoint foldM {A S} (f : S -> A -> res S) (s : S) (l : list A) : res S :=
  match l with [] => Ok s | a :: l' => s' <- f s a ;; foldM f s' l' end.

Fixpoint mapM {A B} (f : A -> res B) (l : list A) : res (list B) :=
  match l with
  | [] => Ok []
  | a :: l' => b <- f a ;; bs <- mapM f l' ;; Ok (b :: bs)
  end.

(** [condAssert], include/asserting.h:33-42: active only without NDEBUG; every
    function that contains one takes the build mode [dbg] as parameter. *)
Definition condAssert (dbg c : bool) : res unit :=
  if dbg then (if c then Ok tt else Abort) else Ok tt.

(** ** Strings: std::string as a list of bytes *)
Notation str := (list ascii).
Definition L (s : string) : str := list_ascii_of_string s.

Definition aeq (a b : ascii) : bool := Ascii.eqb a b.
Fixpoint seq_str (a b : str) : bool :=
  match a, b with
  | [], [] => true
  | x :: a', y :: b' => aeq x y && seq_str a' b'
  | _, _ => false
  end.

Definition nul : ascii := "000"%char.

(** std::string::operator[] const: NUL at [size()], undefined beyond. *)
Definition at_ (s : str) (i : nat) : res ascii :=
  if Nat.ltb i (length s) then Ok (nth i s nul)
  else if Nat.eqb i (length s) then Ok nul else UB.

Definition zlen {A} (s : list A) : Z := Z.of_nat (length s).

(** size_t arithmetic wraps modulo 2^64. *)
Definition two64 : Z := 18446744073709551616.
Definition u64 (x : Z) : Z := x mod two64.
Definition npos : Z := two64 - 1.

(** std::string::substr(pos, len). *)
Definition substr (s : str) (pos len : Z) : res str :=
  if zlen s <? pos then Throw OutOfRange
  else Ok (firstn (Z.to_nat (Z.min len (zlen s - pos))) (skipn (Z.to_nat pos) s)).

(** std::string(n, c): length_error above max_size() (libstdc++, 64 bit).
    Running out of memory is not modelled. *)
Definition str_max : Z := 9223372036854775807.
Definition mkstr (n : Z) (c : ascii) : res str :=
  if str_max <? n then Throw LengthError else Ok (repeat c (Z.to_nat n)).

(** is [p] a prefix of [s]? *)
Fixpoint is_prefix (p s : str) : bool :=
  match p, s with
  | [], _ => true
  | _, [] => false
  | a :: p', b :: s' => aeq a b && is_prefix p' s'
  end.

(** std::string::find(t, from): least position >= from, or npos (None). *)
Fixpoint find_go (t s : str) (pos : nat) : option nat :=
  if is_prefix t s then Some pos
  else match s with [] => None | _ :: s' => find_go t s' (S pos) end.
Definition find_from (t s : str) (from : nat) : option nat :=
  if Nat.ltb (length s) from then None else find_go t (skipn from s) from.

(** <cctype> in the C locale. *)
Definition code (c : ascii) : nat := nat_of_ascii c.
Definition isdigit (c : ascii) : bool := (Nat.leb 48 (code c)) && (Nat.leb (code c) 57).
Definition isspace (c : ascii) : bool :=
  Nat.eqb (code c) 32 || (Nat.leb 9 (code c) && Nat.leb (code c) 13).
Definition is_lower (c : ascii) : bool := Nat.leb 97 (code c) && Nat.leb (code c) 122.
Definition is_upper (c : ascii) : bool := Nat.leb 65 (code c) && Nat.leb (code c) 90.
Definition tolower (c : ascii) : ascii :=
  if is_upper c then ascii_of_nat (code c + 32) else c.
Definition toupper (c : ascii) : ascii :=
  if is_lower c then ascii_of_nat (code c - 32) else c.

(** ** Integer = HighPrecisionInteger (GMP mpz), src/number.cpp:680-1045 *)

(** operator/ and operator% (number.cpp:787-803): truncated, throw on zero. *)
Definition Idiv (a b : Z) : res Z := if b =? 0 then Throw DomainError else Ok (Z.quot a b).
Definition Imod (a b : Z) : res Z := if b =? 0 then Throw DomainError else Ok (Z.rem a b).

(** toULong (number.cpp:999-1004). *)
Definition toULong (i : Z) : res Z :=
  if (i <? 0) || (two64 <=? i) then Throw OverflowError else Ok i.

(** operator<< (number.cpp:909-913). *)
Definition Ishl (a bits : Z) : Z := a * 2 ^ bits.

(** toString(2) (number.cpp:975-983 via mpz_get_str). *)
Fixpoint pbits (p : positive) : str :=
  match p with
  | xH => ["1"%char]
  | xO p' => pbits p' ++ ["0"%char]
  | xI p' => pbits p' ++ ["1"%char]
  end.
Definition Ibin (i : Z) : str :=
  match i with
  | Z0 => ["0"%char] | Zpos p => pbits p | Zneg p => "-"%char :: pbits p
  end.

(** Integer(std::string) base 10 (number.cpp:736-742, GMP mpz_set_str): leading
    white space, optional '-', then at least one digit, white space anywhere
    after the first digit; a NUL byte ends the string (c_str()). *)
Definition digit_val (c : ascii) : Z := Z.of_nat (code c) - 48.
Fixpoint mpz_digits (s : str) (acc : Z) : res Z :=
  match s with
  | [] => Ok acc
  | c :: s' =>
      if aeq c nul then Ok acc
      else if isspace c then mpz_digits s' acc
      else if isdigit c then mpz_digits s' (acc * 10 + digit_val c)
      else Throw InvalidArgument
  end.
Fixpoint skip_space (s : str) : str :=
  match s with c :: s' => if isspace c then skip_space s' else s | [] => [] end.
Definition mpz_unsigned (s : str) : res Z :=
  match s with
  | c :: _ => if isdigit c then mpz_digits s 0 else Throw InvalidArgument
  | [] => Throw InvalidArgument
  end.
Definition Integer_of_str (s : str) : res Z :=
  match skip_space s with
  | c :: s' => if aeq c "-"%char then n <- mpz_unsigned s' ;; Ok (- n)
               else mpz_unsigned (c :: s')
  | [] => Throw InvalidArgument
  end.

(** Integer::toString() base 10. *)
Fixpoint udec (d : Decimal.uint) : str :=
  match d with
  | Decimal.Nil => []
  | Decimal.D0 d => "0"%char :: udec d | Decimal.D1 d => "1"%char :: udec d
  | Decimal.D2 d => "2"%char :: udec d | Decimal.D3 d => "3"%char :: udec d
  | Decimal.D4 d => "4"%char :: udec d | Decimal.D5 d => "5"%char :: udec d
  | Decimal.D6 d => "6"%char :: udec d | Decimal.D7 d => "7"%char :: udec d
  | Decimal.D8 d => "8"%char :: udec d | Decimal.D9 d => "9"%char :: udec d
  end.
Definition Idec (i : Z) : str :=
  match Z.to_int i with
  | Decimal.Pos d => udec d
  | Decimal.Neg d => "-"%char :: udec d
  end.
