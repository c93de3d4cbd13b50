(** Model of HighPrecisionReal, HighPrecisionInteger and Number (src/number.cpp, include/number.h)
    and of Interval (src/interval.cpp).  A real is NaN, an infinity or a rational: MPFR computes the
    exact result of + - * / and rounds it to 128 bits, to nearest, ties to even; this rounding is the
    argument [r] of the functions (RoundModel.v has the real one).  Simplified: zero has no sign (a
    division by zero is one by +0), the exponent range of MPFR is unbounded, all reals have the default
    precision. *)
From Coq Require Import QArith Qround Qabs ZArith List Bool.
From Verif Require Import Base.
Open Scope Z_scope.

(** ** HighPrecisionReal *)
Inductive xr := Nan | Inf (neg : bool) | Fin (q : Q).
Definition qlt (a b : Q) : bool := negb (Qle_bool b a).
(** 223-245: mpfr_equal_p, mpfr_less_p, mpfr_lessequal_p are false on NaN *)
Definition xeq (a b : xr) : bool :=
  match a, b with Fin x, Fin y => Qeq_bool x y | Inf s, Inf t => Bool.eqb s t | _, _ => false end.
Definition xlt (a b : xr) : bool :=
  match a, b with
  | Nan, _ | _, Nan => false
  | Fin x, Fin y => qlt x y
  | Inf s, Inf t => s && negb t
  | Inf s, Fin _ => s
  | Fin _, Inf t => negb t
  end.
Definition xle (a b : xr) : bool := xlt a b || xeq a b.
Section R.
Context (r : Q -> Q).
(** 173-203 *)
Definition xadd (a b : xr) : xr :=
  match a, b with
  | Nan, _ | _, Nan => Nan
  | Inf s, Inf t => if Bool.eqb s t then Inf s else Nan
  | Inf s, Fin _ | Fin _, Inf s => Inf s
  | Fin x, Fin y => Fin (r (x + y))
  end.
Definition xneg (a : xr) : xr := match a with Nan => Nan | Inf s => Inf (negb s) | Fin x => Fin (- x) end.
Definition xsub (a b : xr) : xr := match a, b with Fin x, Fin y => Fin (r (x - y)) | _, _ => xadd a (xneg b) end.
Definition qneg (x : Q) : bool := qlt x 0.
Definition xmul (a b : xr) : xr :=
  match a, b with
  | Nan, _ | _, Nan => Nan
  | Inf s, Inf t => Inf (xorb s t)
  | Inf s, Fin x | Fin x, Inf s => if Qeq_bool x 0 then Nan else Inf (xorb s (qneg x))
  | Fin x, Fin y => Fin (r (x * y))
  end.
Definition xdiv (a b : xr) : xr :=
  match a, b with
  | Nan, _ | _, Nan => Nan
  | Inf _, Inf _ => Nan
  | Inf s, Fin x => Inf (xorb s (qneg x))
  | Fin _, Inf _ => Fin 0
  | Fin x, Fin y => if Qeq_bool y 0 then (if Qeq_bool x 0 then Nan else Inf (qneg x)) else Fin (r (x / y))
  end.
Definition xabs (a : xr) : xr := match a with Nan => Nan | Inf _ => Inf false | Fin x => Fin (Qabs x) end.
(** 296-312 mpfr_floor, mpfr_ceil, mpfr_round (half away from zero) *)
Definition xfloor (a : xr) : xr := match a with Fin x => Fin (inject_Z (Qfloor x)) | _ => a end.
Definition xceil (a : xr) : xr := match a with Fin x => Fin (inject_Z (Qceiling x)) | _ => a end.
Definition Qaway (x : Q) : Z := if qneg x then - Qfloor (- x + (1 # 2)) else Qfloor (x + (1 # 2)).
Definition xround (a : xr) : xr := match a with Fin x => Fin (inject_Z (Qaway x)) | _ => a end.
(** nearest integer, ties to even *)
Definition Qeven (x : Q) : Z :=
  let f := Qfloor x in
  match (x - inject_Z f ?= 1 # 2)%Q with
  | Lt => f
  | Gt => f + 1
  | Eq => if Z.even f then f else f + 1
  end.
(** 601-607: mpfr_get_z with MPFR_RNDN; 0 for NaN and infinities *)
Definition xint (a : xr) : Z := match a with Fin x => Qeven x | _ => 0 end.
(** 643-645 *)
Definition xisint (a : xr) : bool := match a with Fin x => Qeq_bool x (inject_Z (Qfloor x)) | _ => false end.

(** ** Number.  An INT number has an integer, a REAL number a real; the other member is not
    observable (the copy operations do not copy it), except that % of reals, which the assertion forbids,
    reads the integer member: 0 here. *)
Inductive number := NI (z : Z) | NR (x : xr).
(** 1128-1134: HighPrecisionReal(Integer) rounds *)
Definition toReal (n : number) : xr := match n with NI z => Fin (r (inject_Z z)) | NR x => x end.
(** 1120-1126 *)
Definition toInteger (n : number) : Z := match n with NI z => z | NR x => xint x end.
(** number.h:304 *)
Definition n_isInteger (n : number) : bool := match n with NI _ => true | NR x => xisint x end.
(** 1159-1188, 1685-1690 *)
Definition n_isInf (n : number) : bool := match n with NR (Inf _) => true | _ => false end.
Definition n_isNegInf (n : number) : bool := match n with NR (Inf s) => s | _ => false end.
Definition n_isPosInf (n : number) : bool := match n with NR (Inf s) => negb s | _ => false end.
Definition n_isNaN (n : number) : bool := match n with NR Nan => true | _ => false end.
(** 1216-1237 *)
Definition n_add (a b : number) : number := match a, b with NI x, NI y => NI (x + y) | _, _ => NR (xadd (toReal a) (toReal b)) end.
Definition n_sub (a b : number) : number := match a, b with NI x, NI y => NI (x - y) | _, _ => NR (xsub (toReal a) (toReal b)) end.
Definition n_neg (a : number) : number := match a with NI x => NI (- x) | NR x => NR (xneg x) end.
(** 1239-1244 *)
Definition n_mul (a b : number) : number := match a, b with NI x, NI y => NI (x * y) | _, _ => NR (xmul (toReal a) (toReal b)) end.
(** 1246-1256 *)
Definition n_div (a b : number) : res number :=
  match a, b with
  | NI x, NI y => if y =? 0 then Throw DomainError else if Z.rem x y =? 0 then Ok (NI (Z.quot x y)) else Ok (NR (xdiv (toReal a) (toReal b)))
  | _, _ => Ok (NR (xdiv (toReal a) (toReal b)))
  end.
(** 1258-1261 *)
Definition n_ip (n : number) : Z := match n with NI z => z | NR _ => 0 end.
Definition n_mod (dbg : bool) (a b : number) : res number :=
  condAssert dbg (match a, b with NI _, NI _ => true | _, _ => false end) ;;;
  if n_ip b =? 0 then Throw DomainError else Ok (NI (Z.rem (n_ip a) (n_ip b))).
(** 1263-1297: the compound assignments change the real member of an INT number *)
Definition n_addA (a b : number) : number := match a, b with NI x, NI y => NI (x + y) | NI x, NR _ => NI x | NR x, _ => NR (xadd x (toReal b)) end.
Definition n_subA (a b : number) : number := match a, b with NI x, NI y => NI (x - y) | NI x, NR _ => NI x | NR x, _ => NR (xsub x (toReal b)) end.
Definition n_mulA (a b : number) : number := match a, b with NI x, NI y => NI (x * y) | NI x, NR _ => NI x | NR x, _ => NR (xmul x (toReal b)) end.
Definition n_divA (a b : number) : res number :=
  match a, b with
  | NI x, NI y => if y =? 0 then Throw DomainError else Ok (NI (Z.quot x y))
  | NI x, NR _ => Ok (NI x)
  | NR x, _ => Ok (NR (xdiv x (toReal b)))
  end.
(** 1306-1331 *)
Definition n_inc (a : number) : number := match a with NI x => NI (x + 1) | NR x => NR (xadd x (toReal (NI 1))) end.
Definition n_dec (a : number) : number := match a with NI x => NI (x - 1) | NR x => NR (xsub x (toReal (NI 1))) end.
(** 1334-1378 *)
Definition n_eq (a b : number) : bool := match a, b with NI x, NI y => x =? y | _, _ => xeq (toReal a) (toReal b) end.
Definition n_lt (a b : number) : bool := match a, b with NI x, NI y => x <? y | _, _ => xlt (toReal a) (toReal b) end.
Definition n_le (a b : number) : bool := match a, b with NI x, NI y => x <=? y | _, _ => xle (toReal a) (toReal b) end.
Definition n_gt (a b : number) : bool := negb (n_le a b).
Definition n_ge (a b : number) : bool := negb (n_lt a b).
(** 1390-1396, 1434-1456 *)
Definition n_abs (a : number) : number := match a with NI x => NI (Z.abs x) | NR x => NR (xabs x) end.
Definition n_floor (a : number) : number := match a with NI x => NI x | NR x => NR (xfloor x) end.
Definition n_ceil (a : number) : number := match a with NI x => NI x | NR x => NR (xceil x) end.
Definition n_round (a : number) : number := match a with NI x => NI x | NR x => NR (xround x) end.
(** std::max, std::min *)
Definition n_max (a b : number) : number := if n_lt a b then b else a.
Definition n_min (a b : number) : number := if n_lt b a then b else a.
(** min_element / max_element of an initializer list *)
Definition n_minl (a : number) (l : list number) : number := fold_left (fun m x => if n_lt x m then x else m) l a.
Definition n_maxl (a : number) (l : list number) : number := fold_left (fun m x => if n_lt m x then x else m) l a.

(** ** Interval *)
Record interval := Itv { lo : number; hi : number; lc : bool; rc : bool }.
(** interval.h:177-178 *)
Definition EmptyI : interval := Itv (NI 1) (NI (-1)) false false.
Definition FullI : interval := Itv (NR (Inf true)) (NR (Inf false)) false false.
(** 53-59 *)
Definition i_eqb (a b : interval) : bool :=
  n_eq (lo a) (lo b) && n_eq (hi a) (hi b) && Bool.eqb (lc a) (lc b) && Bool.eqb (rc a) (rc b).
(** 61-73 *)
Definition setLower (v : number) (a : interval) : res interval := if n_gt v (hi a) then Throw InvalidArgument else Ok (Itv v (hi a) (lc a) (rc a)).
Definition setUpper (v : number) (a : interval) : res interval := if n_lt v (lo a) then Throw InvalidArgument else Ok (Itv (lo a) v (lc a) (rc a)).
(** 91-93 *)
Definition midpoint (a : interval) : res number := n_div (n_add (lo a) (hi a)) (NI 2).
(** 111-118: the bounds themselves are included, open or not *)
Fixpoint int_loop (fuel : nat) (i top : number) : res (list number) :=
  match fuel with
  | O => NoFuel
  | S f => if n_le i top then l <- int_loop f (n_inc i) top ;; Ok (i :: l) else Ok []
  end.
Definition getIntegers (fuel : nat) (a : interval) : res (list number) :=
  if n_isInf (lo a) || n_isInf (hi a) then Throw InvalidArgument else int_loop fuel (n_ceil (lo a)) (n_floor (hi a)).
(** 120-134 *)
Definition isPoint (a : interval) : bool := n_eq (lo a) (hi a).
Definition isEmptyI (a : interval) : bool := n_gt (lo a) (hi a) || (n_eq (lo a) (hi a) && (negb (lc a) || negb (rc a))).
Definition width (a : interval) : number := if isEmptyI a then NI (-1) else n_sub (hi a) (lo a).
(** 136-141 *)
Definition containsI (a : interval) (v : number) : bool :=
  if isEmptyI a then false
  else (if lc a then n_le (lo a) v else n_lt (lo a) v) && (if rc a then n_le v (hi a) else n_lt v (hi a)).
(** 143-156 *)
Definition isSubsetOf (a b : interval) : bool :=
  if isEmptyI a then true else if isEmptyI b then false
  else (n_gt (lo a) (lo b) || (n_eq (lo a) (lo b) && (negb (lc a) || lc b)))
    && (n_lt (hi a) (hi b) || (n_eq (hi a) (hi b) && (negb (rc a) || rc b))).
(** 158-170 *)
Definition isSupersetOf (a b : interval) : bool :=
  if isEmptyI a then false
  else (n_lt (lo a) (lo b) || (n_eq (lo a) (lo b) && (lc a || negb (lc b))))
    && (n_gt (hi a) (hi b) || (n_eq (hi a) (hi b) && (rc a || negb (rc b)))).
(** 172-185 *)
Definition isDisjointFrom (a b : interval) : bool :=
  if isEmptyI a || isEmptyI b then false
  else n_lt (hi a) (lo b) || (n_eq (hi a) (lo b) && (negb (rc a) || negb (lc b))) || n_gt (lo a) (hi b)
    || (n_eq (lo a) (hi b) && (negb (lc a) || negb (rc b))).
(** 187-193 *)
Definition isIntersectingWith (a b : interval) : bool := if isEmptyI a || isEmptyI b then false else negb (isDisjointFrom a b).
(** 195-208 *)
Definition intersection (a b : interval) : interval :=
  if isEmptyI a || isEmptyI b then EmptyI
  else Itv (n_max (lo a) (lo b)) (n_min (hi a) (hi b))
    (if n_lt (lo a) (lo b) then lc b else if n_gt (lo a) (lo b) then lc a else lc a && lc b)
    (if n_gt (hi a) (hi b) then rc b else if n_lt (hi a) (hi b) then rc a else rc a && rc b).
(** 210-231, 337-349: the smallest interval around two *)
Definition hull (a b : interval) : interval :=
  Itv (n_min (lo a) (lo b)) (n_max (hi a) (hi b))
    (if n_lt (lo a) (lo b) then lc a else if n_lt (lo b) (lo a) then lc b else lc a || lc b)
    (if n_gt (hi a) (hi b) then rc a else if n_gt (hi b) (hi a) then rc b else rc a || rc b).
Definition unionWith (a b : interval) : res interval :=
  if isEmptyI a || isEmptyI b then Ok EmptyI
  else if isDisjointFrom a b then Throw InvalidArgument else Ok (hull a b).
(** 233-241 *)
Definition isSubsetEqOf (a b : interval) : bool :=
  if isEmptyI a then true
  else n_ge (lo a) (lo b) && n_le (hi a) (hi b) && (lc b || n_gt (lo a) (lo b) || negb (lc a))
    && (rc b || n_lt (hi a) (hi b) || negb (rc a)).
(** toULong (number.cpp:1004-1009) *)
Definition toULong (z : Z) : res Z := if (z <? 0) || (2 ^ 64 <=? z) then Throw OverflowError else Ok z.
(** 243-260 *)
Definition getIntervalIntCount (a : interval) : res Z :=
  if isEmptyI a then Ok 0 else if isPoint a && n_isInteger (lo a) then Ok 1
  else let d := n_sub (n_floor (hi a)) (n_ceil (lo a)) in
       toULong (toInteger (if lc a && rc a then n_add d (NI 1) else if lc a || rc a then d else n_sub d (NI 1))).
(** 262-313 *)
Definition difference (a b : interval) : list interval :=
  if isDisjointFrom a b then [a]
  else if isSupersetOf a b then []
  else if isSubsetOf a b then
    let rc' := negb (lc b) in
    [Itv (lo a) (lo b) (lc a) rc'; Itv (hi b) (hi a) (negb (rc b)) rc']
  else if (n_le (lo b) (lo a) || (n_eq (lo b) (lo a) && implb (lc a) (lc b))) && (n_lt (hi b) (hi a) || (n_eq (hi b) (hi a) && negb (rc b) && rc a))
  then [Itv (hi b) (hi a) (negb (rc b)) (rc a)]
  else if (n_gt (lo b) (lo a) || (n_eq (lo b) (lo a) && negb (lc b) && lc a)) && (n_ge (hi b) (hi a) || (n_eq (hi b) (hi a) && implb (rc a) (rc b)))
  then [Itv (lo a) (lo b) (lc a) (negb (lc b))]
  else [].
(** 319-322: the order of the sort *)
Definition i_less (a b : interval) : bool := n_lt (lo a) (lo b) || (n_eq (lo a) (lo b) && lc a && negb (lc b)).
(** 327-353 *)
Fixpoint merge_loop (cur : interval) (l : list interval) : list interval :=
  match l with
  | [] => [cur]
  | b :: l' => if negb (isDisjointFrom cur b) then merge_loop (hull cur b) l' else cur :: merge_loop b l'
  end.
(** 315-356; [srt] is std::sort with i_less *)
Definition unionMulti (srt : list interval -> list interval) (l : list interval) : list interval :=
  match l with
  | [] => []
  | [a] => [a]
  | _ => match srt l with [] => [] | a :: l' => merge_loop a l' end
  end.
(** 359-412 (++ and -- in both forms; -, ~, !, negate) *)
Definition i_inc (a : interval) : interval := if isEmptyI a then EmptyI else Itv (n_add (lo a) (NI 1)) (n_add (hi a) (NI 1)) (lc a) (rc a).
Definition i_dec (a : interval) : interval := if isEmptyI a then EmptyI else Itv (n_sub (lo a) (NI 1)) (n_sub (hi a) (NI 1)) (lc a) (rc a).
Definition i_neg (a : interval) : interval := if isEmptyI a then EmptyI else Itv (n_neg (hi a)) (n_neg (lo a)) (rc a) (lc a).
(** 413-428 *)
Definition i_abs (a : interval) : interval :=
  if isEmptyI a then EmptyI
  else if n_ge (lo a) (NI 0) then a
  else if n_le (hi a) (NI 0) then Itv (n_neg (hi a)) (n_neg (lo a)) (rc a) (lc a)
  else let m := n_max (n_abs (lo a)) (n_abs (hi a)) in
       Itv (NI 0) m true (if n_eq m (n_abs (lo a)) then lc a else rc a).
(** 1395-1434, 1566-1578 *)
Definition i_addN (a : interval) (v : number) : interval := Itv (n_add (lo a) v) (n_add (hi a) v) (lc a) (rc a).
Definition i_subN (a : interval) (v : number) : interval := Itv (n_sub (lo a) v) (n_sub (hi a) v) (lc a) (rc a).
Definition i_mulN (a : interval) (v : number) : interval :=
  if isEmptyI a then EmptyI
  else if n_gt v (NI 0) then Itv (n_mul (lo a) v) (n_mul (hi a) v) (lc a) (rc a)
  else if n_lt v (NI 0) then Itv (n_mul (hi a) v) (n_mul (lo a) v) (rc a) (lc a)
  else if lc a && rc a then Itv (NI 0) (NI 0) true true else EmptyI.
Definition i_divN (a : interval) (v : number) : res interval :=
  if isEmptyI a then Ok EmptyI
  else if n_eq v (NI 0) then Throw DomainError
  else if n_gt v (NI 0) then l <- n_div (lo a) v ;; h <- n_div (hi a) v ;; Ok (Itv l h (lc a) (rc a))
  else l <- n_div (hi a) v ;; h <- n_div (lo a) v ;; Ok (Itv l h (rc a) (lc a)).
(** 1436-1448 *)
Definition i_add (a b : interval) : interval :=
  if isEmptyI a || isEmptyI b then EmptyI else Itv (n_add (lo a) (lo b)) (n_add (hi a) (hi b)) (lc a && lc b) (rc a && rc b).
Definition i_sub (a b : interval) : interval :=
  if isEmptyI a || isEmptyI b then EmptyI else Itv (n_sub (lo a) (hi b)) (n_sub (hi a) (lo b)) (lc a && rc b) (rc a && lc b).
(** 1484-1519, 1597-1632, 1665-1700: bounds and their flags from the four corner values *)
Definition corners (a b : interval) (p1 p2 p3 p4 : number) : interval :=
  let l := n_minl p1 [p2; p3; p4] in
  let h := n_maxl p1 [p2; p3; p4] in
  let flag (x : number) := if n_eq p1 x then lc a && lc b else if n_eq p2 x then lc a && rc b
                           else if n_eq p3 x then rc a && lc b else if n_eq p4 x then rc a && rc b else false in
  Itv l h (flag l) (flag h).
(** 1450-1520 *)
Definition i_mul (a b : interval) : interval :=
  if isEmptyI a || isEmptyI b then EmptyI
  else if i_eqb a b && n_le (lo a) (NI 0) && n_ge (hi a) (NI 0) then
    let al := n_abs (lo a) in let au := n_abs (hi a) in
    let m := if n_gt al au then al else au in
    Itv (NI 0) (n_mul m m) true (if n_gt al au then lc a else rc a)
  else corners a b (n_mul (lo a) (lo b)) (n_mul (lo a) (hi b)) (n_mul (hi a) (lo b)) (n_mul (hi a) (hi b)).
Definition has0 (b : interval) : bool :=
  (n_lt (lo b) (NI 0) && n_gt (hi b) (NI 0)) || (n_eq (lo b) (NI 0) && lc b) || (n_eq (hi b) (NI 0) && rc b).
Definition is00 (a : interval) : bool := n_eq (lo a) (NI 0) && n_eq (hi a) (NI 0) && lc a && rc a.
(** 1580-1633 *)
Definition i_div (dbg : bool) (a b : interval) : res interval :=
  if isEmptyI a || isEmptyI b then Ok EmptyI
  else if has0 b then Ok FullI
  else if is00 a then Ok (Itv (NI 0) (NI 0) true true)
  else condAssert dbg (negb (containsI b (NI 0))) ;;;
       p1 <- n_div (lo a) (lo b) ;; p2 <- n_div (lo a) (hi b) ;; p3 <- n_div (hi a) (lo b) ;; p4 <- n_div (hi a) (hi b) ;;
       Ok (corners a b p1 p2 p3 p4).
(** 1635-1648 *)
Definition i_divIntN (a : interval) (v : number) : res interval :=
  if isEmptyI a then Ok EmptyI
  else if n_eq v (NI 0) then Throw DomainError
  else if n_gt v (NI 0) then l <- n_div (lo a) v ;; h <- n_div (hi a) v ;; Ok (Itv (n_floor l) (n_floor h) (lc a) (rc a))
  else l <- n_div (hi a) v ;; h <- n_div (lo a) v ;; Ok (Itv (n_floor l) (n_floor h) (rc a) (lc a)).
(** 1650-1702 *)
Definition i_divInt (a b : interval) : res interval :=
  if isEmptyI a || isEmptyI b then Ok EmptyI
  else if has0 b then Ok FullI
  else if is00 a then Ok (Itv (NI 0) (NI 0) true true)
  else p1 <- n_div (lo a) (lo b) ;; p2 <- n_div (lo a) (hi b) ;; p3 <- n_div (hi a) (lo b) ;; p4 <- n_div (hi a) (hi b) ;;
       Ok (corners a b (n_floor p1) (n_floor p2) (n_floor p3) (n_floor p4)).
(** 1704-1736 *)
Definition i_modN (a : interval) (v : number) : res interval :=
  if isEmptyI a then Ok EmptyI
  else if n_eq v (NI 0) then Throw DomainError else if n_lt v (NI 0) then Throw DomainError
  else let u := n_sub (n_abs v) (NI 1) in
       Ok (if n_gt u (hi a) then Itv (NI 0) (hi a) true (rc a)
           else if n_lt u (lo a) then Itv (NI 0) u true (lc a) else Itv (NI 0) u true true).
(** 1738-1770 *)
Definition i_mod (a b : interval) : res interval :=
  if isEmptyI a || isEmptyI b then Ok EmptyI
  else if has0 b then Throw DomainError
  else let u := n_sub (n_max (n_abs (lo b)) (n_abs (hi b))) (NI 1) in
       Ok (if n_lt (hi a) u then Itv (NI 0) (hi a) true (rc a) else Itv (NI 0) u true true).
(** 2239-2279 *)
Definition i_lt (a b : interval) : res bool :=
  if isEmptyI a || isEmptyI b then Throw InvalidArgument else Ok (n_lt (hi a) (lo b) || (n_eq (hi a) (lo b) && (negb (rc a) || negb (lc b)))).
Definition i_gt (a b : interval) : res bool :=
  if isEmptyI a || isEmptyI b then Throw InvalidArgument else Ok (n_gt (lo a) (hi b) || (n_eq (lo a) (hi b) && (negb (lc a) || negb (rc b)))).
Definition i_le (a b : interval) : res bool := if isEmptyI a || isEmptyI b then Throw InvalidArgument else g <- i_gt a b ;; Ok (negb g).
Definition i_ge (a b : interval) : res bool := if isEmptyI a || isEmptyI b then Throw InvalidArgument else g <- i_lt a b ;; Ok (negb g).
(** 2281-2324 *)
Definition i_addA (a : interval) (v : number) : interval := Itv (n_addA (lo a) v) (n_addA (hi a) v) (lc a) (rc a).
Definition i_subA (a : interval) (v : number) : interval := Itv (n_subA (lo a) v) (n_subA (hi a) v) (lc a) (rc a).
Definition i_mulA (a : interval) (v : number) : interval :=
  if n_ge v (NI 0) then Itv (n_mulA (lo a) v) (n_mulA (hi a) v) (lc a) (rc a)
  else Itv (n_mul (hi a) v) (n_mul (lo a) v) (rc a) (lc a).
Definition i_divA (a : interval) (v : number) : res interval :=
  if n_eq v (NI 0) then Throw DomainError
  else if n_gt v (NI 0) then l <- n_divA (lo a) v ;; h <- n_divA (hi a) v ;; Ok (Itv l h (lc a) (rc a))
  else l <- n_div (hi a) v ;; h <- n_div (lo a) v ;; Ok (Itv l h (rc a) (lc a)).
(** 2436-2475 operate with AND and OR *)
Definition i_operAnd (a b : interval) : res interval :=
  if isEmptyI a || isEmptyI b then Throw InvalidArgument
  else Ok (if isIntersectingWith a b then intersection a b else Itv (NI 1) (NI 0) false false).
Definition i_operOr (a b : interval) : res interval :=
  if isEmptyI a || isEmptyI b then Throw InvalidArgument
  else if isIntersectingWith a b || negb (isDisjointFrom a b) then unionWith a b
  else Ok (Itv (n_min (lo a) (lo b)) (n_max (hi a) (hi b)) false false).
End R.
