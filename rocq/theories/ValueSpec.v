(** What a Value holds and what its string operations compute, independently of the members of the class. *)
From Coq Require Import QArith Permutation Sorting.Sorted.
From Verif Require Import Base NumModel NumSpec ValueModel.
Open Scope Z_scope.

(** ** contents *)
Inductive content := CStr (s : str) | CNum (n : number) | CItv (i : interval) | CBool (b : bool).
Definition ctype (c : content) : vty :=
  match c with CStr _ => VT_STRING | CNum _ => VT_NUMBER | CItv _ => VT_INTERVAL | CBool _ => VT_BOOLEAN end.
(** [v] holds [c]: the getter of the type of [c] returns [c], the others throw *)
Definition is_throw {A} (r : res A) : Prop := r = Throw RuntimeError.
Definition vholds (v : Val) (c : content) : Prop :=
  v_ty v = ctype c /\
  match c with CStr s => getStringValue v = Ok s | _ => is_throw (getStringValue v) end /\
  match c with CNum n => getNumberValue v = Ok n | _ => is_throw (getNumberValue v) end /\
  match c with CItv i => getIntervalValue v = Ok i | _ => is_throw (getIntervalValue v) end /\
  match c with CBool b => getBooleanValue v = Ok b | _ => is_throw (getBooleanValue v) end.
Definition construct (c : content) : Val := match c with CStr s => vStr s | CNum n => vNum n | CItv i => vItv i | CBool b => vBool b end.
Definition assign (v : Val) (c : content) : Val := match c with CStr s => setStr s v | CNum n => setNum n v | CItv i => setItv i v | CBool b => setBool b v end.

(** ** order of contents *)
Fixpoint lex_lt (a b : list nat) : Prop :=
  match a, b with
  | [], _ :: _ => True
  | x :: a', y :: b' => (x < y)%nat \/ (x = y /\ lex_lt a' b')
  | _, [] => False
  end.
Definition clt (c d : content) : Prop :=
  match c, d with
  | CStr s, CStr t => lex_lt (map code s) (map code t)
  | CNum m, CNum n => ltX (val m) (val n)
  | CBool x, CBool y => x = false /\ y = true
  | _, _ => False
  end.
Definition ceq (c d : content) : Prop :=
  match c, d with
  | CStr s, CStr t => s = t
  | CNum m, CNum n => eqX (val m) (val n)
  | CBool x, CBool y => x = y
  | _, _ => False
  end.
(** contents with a total order: strings, booleans, numbers that fit in 128 bits *)
Definition orderable (c d : content) : Prop :=
  match c, d with
  | CStr _, CStr _ | CBool _, CBool _ => True
  | CNum m, CNum n => NumSpec.fits m /\ NumSpec.fits n
  | _, _ => False
  end.

(** ** strings *)
(** a subsequence *)
Inductive subseq {A} : list A -> list A -> Prop :=
| ss_nil l : subseq [] l
| ss_take a k l : subseq k l -> subseq (a :: k) (a :: l)
| ss_skip a k l : subseq k l -> subseq k (a :: l).
Definition spaceC (c : ascii) : Prop := In (code c) [9; 10; 11; 12; 13; 32]%nat.
Definition ascii7 (s : str) : Prop := Forall (fun c => (code c < 128)%nat) s.
(** bytes isspace is defined for: ASCII and byte 255 (EOF as an int) *)
Definition ctypeC (s : str) : Prop := Forall (fun c => (code c < 128)%nat \/ code c = 255%nat) s.
(** [t] is [s] without leading (trailing) white space *)
Definition ltrimmed (s t : str) : Prop := exists w, s = w ++ t /\ Forall spaceC w /\ match t with c :: _ => ~ spaceC c | [] => True end.
Definition rtrimmed (s t : str) : Prop := exists w, s = t ++ w /\ Forall spaceC w /\ forall u c, t = u ++ [c] -> ~ spaceC c.
(** the other case of a letter *)
Definition lower_of (c : ascii) (d : ascii) : Prop :=
  ((65 <= code c <= 90)%nat -> code d = (code c + 32)%nat) /\ (~ (65 <= code c <= 90)%nat -> d = c).
Definition upper_of (c : ascii) (d : ascii) : Prop :=
  ((97 <= code c <= 122)%nat -> code d = (code c - 32)%nat) /\ (~ (97 <= code c <= 122)%nat -> d = c).
(** [n] copies of [s] *)
Fixpoint copies (n : nat) (s : str) : str := match n with O => [] | S k => copies k s ++ s end.
