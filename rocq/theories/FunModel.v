(** Model of the elementary functions of HighPrecisionReal and Number (src/number.cpp) and of Interval
    (src/interval.cpp:429-1392, 1788-1957).  The MPFR routines they call are outside the repository: they are
    the fields of a record, and FunSpec.v says what MPFR documents of them (correct rounding).
    Simplified, as in NumModel.v: one precision, an unbounded exponent range, an unsigned zero. *)
From Coq Require Import QArith Qround Qabs ZArith List Bool.
From Verif Require Import Base NumModel RoundModel.
Open Scope Z_scope.

(** the MPFR functions of one argument that number.cpp calls *)
Inductive rfun := F_exp | F_ln | F_lg | F_lb | F_sqrt | F_sin | F_cos | F_tan
  | F_asin | F_acos | F_atan | F_sinh | F_cosh | F_tanh | F_asinh | F_acosh | F_atanh.
(** mpfr_exp ... on finite arguments inside the domain, mpfr_pow where the power is a number, mpfr_const_pi, mpfr_atan
    at +oo, mpfr_nextbelow and mpfr_nextabove on finite arguments, the largest finite number *)
Record mpfr := Mpfr { m_fun : rfun -> Q -> Q; m_pow : Q -> Q -> Q; m_pi : Q; m_atanInf : Q; m_below : Q -> Q; m_above : Q -> Q; m_max : Q }.

Section M.
Context (M : mpfr).
Notation r := rn128.
(** ** HighPrecisionReal *)
(** number.cpp:274-280, 327-353, 387-403, 499-515: the arguments that make the method throw std::domain_error;
    the comparisons are false on NaN *)
Definition h_outside (f : rfun) (x : xr) : bool :=
  match f with
  | F_sqrt => xlt x (Fin 0)
  | F_ln | F_lg | F_lb => xle x (Fin 0)
  | F_asin | F_acos => xlt x (Fin (-1)) || xlt (Fin 1) x
  | F_acosh => xlt x (Fin 1)
  | F_atanh => xle x (Fin (-1)) || xle (Fin 1) x
  | _ => false
  end.
(** MPFR's results at -oo (true) and +oo (false), where the method does not throw *)
Definition h_inf (f : rfun) (neg : bool) : xr :=
  match f with
  | F_exp => if neg then Fin 0 else Inf false
  | F_ln | F_lg | F_lb | F_sqrt | F_acosh => Inf false
  | F_atan => Fin (if neg then (- m_atanInf M)%Q else m_atanInf M)
  | F_sinh | F_asinh => Inf neg
  | F_cosh => Inf false
  | F_tanh => Fin (if neg then -1 else 1)
  | F_sin | F_cos | F_tan | F_asin | F_acos | F_atanh => Nan
  end.
(** number.cpp:274-280, 315-353, 363-379, 387-416, 453-473, 488-515 *)
Definition h_fun (f : rfun) (x : xr) : res xr :=
  if h_outside f x then Throw DomainError
  else Ok (match x with Nan => Nan | Inf s => h_inf f s | Fin q => Fin (m_fun M f q) end).
(** number.cpp:656-668 with mpfr_nextbelow and mpfr_nextabove *)
Definition h_below (x : xr) : xr := match x with Nan => Nan | Inf true => Inf true | Inf false => Fin (m_max M) | Fin q => Fin (m_below M q) end.
Definition h_above (x : xr) : xr := match x with Nan => Nan | Inf true => Fin (- m_max M) | Inf false => Inf false | Fin q => Fin (m_above M q) end.
(** number.cpp:289-293 with mpfr_pow: its table of special cases (zero is unsigned here) *)
Definition qodd (b : Q) : bool := Qeq_bool b (inject_Z (Qfloor b)) && Z.odd (Qfloor b).
Definition h_pow (x e : xr) : xr :=
  match x, e with
  | _, Nan => match x with Fin a => if Qeq_bool a 1 then Fin 1 else Nan | _ => Nan end
  | Nan, Fin b => if Qeq_bool b 0 then Fin 1 else Nan
  | Nan, Inf _ => Nan
  | Fin a, Fin b =>
      if qlt 0 a then Fin (m_pow M a b)
      else if Qeq_bool a 0 then (if qlt 0 b then Fin 0 else if Qeq_bool b 0 then Fin 1 else Inf false)
      else if Qeq_bool b (inject_Z (Qfloor b)) then Fin (m_pow M a b) else Nan
  | Inf s, Fin b => if Qeq_bool b 0 then Fin 1 else if qlt 0 b then Inf (s && qodd b) else Fin 0
  | Fin a, Inf s => if Qeq_bool (Qabs a) 1 then Fin 1 else if xorb s (qlt (Qabs a) 1) then Fin 0 else Inf false
  | Inf _, Inf s => if s then Fin 0 else Inf false
  end.

(** ** Number *)
(** number.cpp:1460-1665: an INT is converted, then the method of the real is called; exceptions: [n_sqrt] *)
Definition n_fun (f : rfun) (n : number) : res number := x <- h_fun f (toReal r n) ;; Ok (NR x).
(** number.cpp:1399-1407 with 934-941: an INT gets the integer square root *)
Definition n_sqrt (n : number) : res number :=
  match n with NI z => if z <? 0 then Throw DomainError else Ok (NI (Z.sqrt z)) | NR x => n_fun F_sqrt n end.
(** number.cpp:1408-1414 with 282-287 and 943-950 *)
Definition n_safeSqrt (n : number) : res number :=
  match n with
  | NI z => Ok (NI (if z <? 0 then 0 else Z.sqrt z))
  | NR x => if xlt x (Fin 0) then Ok (NR (Fin 0)) else n_fun F_sqrt n
  end.
(** number.cpp:1654-1660: Number::asech calls tanh *)
Definition n_asech (n : number) : res number := n_fun F_tanh n.
(** number.cpp:1190-1192 *)
Definition n_pi : number := NR (Fin (m_pi M)).
(** number.cpp:1669-1683, 1033-1043 *)
Definition n_below (n : number) : number := match n with NI z => NI (z - 1) | NR x => NR (h_below x) end.
Definition n_above (n : number) : number := match n with NI z => NI (z + 1) | NR x => NR (h_above x) end.
(** number.cpp:1416-1430: an exponent that does not fit in an unsigned long falls through to the reals *)
Definition n_pow (n e : number) : number :=
  match n, e with
  | NI a, NI b => if (0 <=? b) && (b <? 2 ^ 64) then NI (a ^ b) else NR (h_pow (toReal r n) (toReal r e))
  | _, _ => NR (h_pow (toReal r n) (toReal r e))
  end.

(** ** Interval *)
Definition posInf : number := NR (Inf false).
Definition negInf : number := NR (Inf true).
Definition fullI1 : interval := Itv (NI (-1)) (NI 1) true true.
Definition wholeI : interval := Itv negInf posInf false false.
Definition oneI : interval := Itv (NI 1) (NI 1) true true.
(** interval.cpp:429-560: lb, ln, lg *)
Definition i_log (f : rfun) (a : interval) : res interval :=
  if isEmptyI r a then Ok EmptyI
  else if n_le r (hi a) (NI 0) then Ok EmptyI
  else l <- (if n_le r (lo a) (NI 0) then Ok negInf else if n_isPosInf (lo a) then Ok posInf else v <- n_fun f (lo a) ;; Ok (n_below v)) ;;
       h <- (if n_isPosInf (hi a) then Ok posInf else v <- n_fun f (hi a) ;; Ok (n_above v)) ;;
       Ok (Itv l h false false).
Definition i_ln := i_log F_ln.
Definition i_lg := i_log F_lg.
Definition i_lb := i_log F_lb.
(** interval.cpp:561-596 *)
Definition i_logN (a : interval) (base : number) : res interval :=
  if isEmptyI r a then Ok EmptyI
  else if n_le r base (NI 0) then Throw DomainError
  else if n_eq r base (NI 1) then Throw DomainError
  else if n_le r (hi a) (NI 0) then Ok EmptyI
  else li <- i_ln a ;; lb <- n_fun F_ln base ;;
       if n_gt r lb (NI 0) then l <- n_div r (lo li) lb ;; h <- n_div r (hi li) lb ;; Ok (Itv l h (lc li) (rc li))
       else l <- n_div r (hi li) lb ;; h <- n_div r (lo li) lb ;; Ok (Itv l h (rc li) (lc li)).
(** interval.cpp:630-664 *)
Definition i_exp (a : interval) : res interval :=
  if isEmptyI r a then Ok EmptyI
  else l <- (if n_isNegInf (lo a) then Ok (NI 0) else if n_isPosInf (lo a) then Ok posInf else v <- n_fun F_exp (lo a) ;; Ok (n_below v)) ;;
       h <- (if n_isNegInf (hi a) then Ok (NI 0) else if n_isPosInf (hi a) then Ok posInf else v <- n_fun F_exp (hi a) ;; Ok (n_above v)) ;;
       Ok (Itv l h false false).
(** interval.cpp:666-704 (sqrt) and 706-745 (safeSqrt), which differ in the method of the bounds *)
Definition i_root (sq : number -> res number) (a : interval) : res interval :=
  if isEmptyI r a then Ok EmptyI
  else if n_le r (hi a) (NI 0) then Ok EmptyI
  else l <- (if n_le r (lo a) (NI 0) then Ok (NI 0, true) else if n_isPosInf (lo a) then Ok (posInf, false) else v <- sq (lo a) ;; Ok (n_below v, false)) ;;
       h <- (if n_le r (hi a) (NI 0) then Ok (NI 0, true) else if n_isPosInf (hi a) then Ok (posInf, false) else v <- sq (hi a) ;; Ok (n_above v, false)) ;;
       Ok (Itv (fst l) (fst h) (snd l) (snd h)).
Definition i_sqrt := i_root n_sqrt.
Definition i_safeSqrt := i_root n_safeSqrt.
(** interval.cpp:763-773 and 825-835: the remainder modulo 2 pi *)
Definition norm2pi (v : number) : res number :=
  let tp := n_mul r (NI 2) n_pi in
  q <- n_div r v tp ;;
  let n := n_sub r v (n_mul r (n_floor q) tp) in
  Ok (if n_lt r n (NI 0) then n_addA r n tp else n).
(** interval.cpp:747-810 (sin) and 812-872 (cos), which differ in the method of the bounds and in the points
    [pmax], [pmin] of the maximum and of the minimum *)
Definition i_wave (f : rfun) (pmax pmin : number) (a : interval) : res interval :=
  let tp := n_mul r (NI 2) n_pi in
  if isEmptyI r a then Ok EmptyI
  else if n_isInf (lo a) || n_isInf (hi a) then Ok fullI1
  else if n_ge r (n_sub r (hi a) (lo a)) tp then Ok fullI1
  else l <- norm2pi (lo a) ;; h0 <- norm2pi (hi a) ;;
       let h := if n_lt r h0 l then n_addA r h0 tp else h0 in
       fl <- n_fun f l ;; fh <- n_fun f h ;;
       let mn := n_min r fl fh in let mx := n_max r fl fh in
       let c := if n_lt r fl fh then lc a else rc a in
       let d := if n_lt r fl fh then rc a else lc a in
       let has p := (n_le r l p && n_ge r h p) || (n_le r l (n_add r p tp) && n_ge r h (n_add r p tp)) in
       let '(mx1, c1) := if has pmax then (NI 1, true) else (mx, c) in
       let '(mn1, d1) := if has pmin then (NI (-1), true) else (mn, d) in
       let '(mn2, c2) := if n_gt r mn1 (NI (-1)) then (n_below mn1, false) else (mn1, c1) in
       let '(mx2, d2) := if n_lt r mx1 (NI 1) then (n_above mx1, false) else (mx1, d1) in
       Ok (Itv mn2 mx2 c2 d2).
(** interval.cpp:791-792 *)
Definition i_sin (a : interval) : res interval :=
  ph <- n_div r n_pi (NI 2) ;; th <- n_div r (n_mul r (NI 3) n_pi) (NI 2) ;; i_wave F_sin ph th a.
(** interval.cpp:852-853 *)
Definition i_cos (a : interval) : res interval := i_wave F_cos (NI 0) n_pi a.
(** interval.cpp:888-896: the remainder modulo pi *)
Definition normpi (ph v : number) : res number :=
  q <- n_div r v n_pi ;;
  let n := n_sub r v (n_mul r (n_floor q) n_pi) in
  let n1 := if n_lt r n (n_neg ph) then n_addA r n n_pi else n in
  Ok (if n_ge r n1 ph then n_subA r n1 n_pi else n1).
(** interval.cpp:874-925 *)
Definition i_tan (a : interval) : res interval :=
  if isEmptyI r a then Ok EmptyI
  else ph <- n_div r n_pi (NI 2) ;;
  if n_isInf (lo a) || n_isInf (hi a) then Ok FullI
  else l <- normpi ph (lo a) ;; h <- normpi ph (hi a) ;;
       if (n_le r l (n_neg ph) && n_ge r h (n_neg ph)) || (n_le r l ph && n_ge r h ph) then Ok wholeI
       else tl <- n_fun F_tan (lo a) ;; th <- n_fun F_tan (hi a) ;;
            let '(x, y) := if n_gt r tl th then (th, tl) else (tl, th) in
            Ok (Itv (n_below x) (n_above y) false false).
(** interval.cpp:927-979: cot, sec, csc are the reciprocals of tan, cos, sin *)
Definition recip (dbg : bool) (g : interval -> res interval) (a : interval) : res interval :=
  if isEmptyI r a then Ok EmptyI
  else t <- g a ;; if containsI r t (NI 0) then Ok wholeI else i_div r dbg oneI t.
Definition i_cot (dbg : bool) := recip dbg i_tan.
Definition i_sec (dbg : bool) := recip dbg i_cos.
Definition i_csc (dbg : bool) := recip dbg i_sin.
(** interval.cpp:1022-1038 (atan), 1119-1135 (sinh), 1189-1205 (tanh), 1285-1301 (asinh): the bounds are mapped
    and moved outwards *)
Definition i_mono (f : rfun) (a : interval) : res interval :=
  if isEmptyI r a then Ok EmptyI
  else l <- n_fun f (lo a) ;; h <- n_fun f (hi a) ;; Ok (Itv (n_below l) (n_above h) false false).
Definition i_atan := i_mono F_atan.
Definition i_sinh := i_mono F_sinh.
Definition i_tanh := i_mono F_tanh.
Definition i_asinh := i_mono F_asinh.
(** interval.cpp:981-1002 *)
Definition i_asin (a : interval) : res interval :=
  if isEmptyI r a then Ok EmptyI
  else if n_lt r (lo a) (NI (-1)) || n_gt r (hi a) (NI 1) then Throw DomainError else i_mono F_asin a.
(** interval.cpp:1303-1324 *)
Definition i_acosh (a : interval) : res interval :=
  if isEmptyI r a then Ok EmptyI
  else if n_lt r (lo a) (NI 1) then Throw DomainError else i_mono F_acosh a.
(** interval.cpp:1326-1347 *)
Definition i_atanh (a : interval) : res interval :=
  if isEmptyI r a then Ok EmptyI
  else if n_le r (lo a) (NI (-1)) || n_ge r (hi a) (NI 1) then Throw DomainError else i_mono F_atanh a.
(** interval.cpp:1004-1020 *)
Definition i_acos (a : interval) : res interval :=
  if isEmptyI r a then Ok EmptyI
  else if n_lt r (lo a) (NI (-1)) || n_gt r (hi a) (NI 1) then Throw DomainError
  else l <- n_fun F_acos (hi a) ;; h <- n_fun F_acos (lo a) ;; Ok (Itv l h (rc a) (lc a)).
(** interval.cpp:1040-1053 *)
Definition i_acot (a : interval) : res interval :=
  if isEmptyI r a then Ok EmptyI
  else ph <- n_div r n_pi (NI 2) ;; u <- n_fun F_atan (hi a) ;; v <- n_fun F_atan (lo a) ;;
       Ok (Itv (n_sub r ph u) (n_sub r ph v) false false).
(** interval.cpp:1055-1095 *)
Definition i_asec (dbg : bool) (a : interval) : res interval :=
  if isEmptyI r a then Ok EmptyI
  else if n_gt r (lo a) (NI (-1)) && n_lt r (hi a) (NI 1) then Throw DomainError
  else if n_le r (lo a) (NI (-1)) && n_ge r (hi a) (NI 1) then Ok (Itv (NI 0) n_pi true true)
  else q <- i_div r dbg oneI a ;; i_acos q.
(** interval.cpp:1097-1117 *)
Definition i_acsc (dbg : bool) (a : interval) : res interval :=
  if isEmptyI r a then Ok EmptyI
  else if n_gt r (lo a) (NI (-1)) && n_lt r (hi a) (NI 1) then Throw DomainError
  else if n_le r (lo a) (NI (-1)) && n_ge r (hi a) (NI 1) then
    l <- n_div r (n_neg n_pi) (NI 2) ;; h <- n_div r n_pi (NI 2) ;; Ok (Itv l h true true)
  else q <- i_div r dbg oneI a ;; i_asin q.
(** interval.cpp:1137-1187 *)
Definition cosh_between (low high : number) : res interval :=
  l <- n_fun F_cosh low ;; h <- n_fun F_cosh high ;;
  let l1 := n_below l in
  Ok (if n_lt r l1 (NI 1) then Itv (NI 1) (n_above h) true false else Itv l1 (n_above h) false false).
Definition i_cosh (a : interval) : res interval :=
  if isEmptyI r a then Ok EmptyI
  else if n_ge r (lo a) (NI 0) then cosh_between (lo a) (hi a)
  else if n_le r (hi a) (NI 0) then cosh_between (hi a) (lo a)
  else l <- n_fun F_cosh (lo a) ;; h <- n_fun F_cosh (hi a) ;; Ok (Itv (NI 1) (n_above (n_max r l h)) true false).
(** interval.cpp:1207-1223 *)
Definition i_coth (a : interval) : res interval :=
  if isEmptyI r a then Ok EmptyI
  else if n_le r (lo a) (NI 0) && n_ge r (hi a) (NI 0) then Ok wholeI
  else u <- n_fun F_tanh (hi a) ;; v <- n_fun F_tanh (lo a) ;;
       l <- n_div r (NI 1) u ;; h <- n_div r (NI 1) v ;; Ok (Itv l h false false).
(** interval.cpp:1225-1252 *)
Definition i_sech (dbg : bool) (a : interval) : res interval :=
  if isEmptyI r a then Ok EmptyI
  else c <- i_cosh a ;; q <- i_div r dbg oneI c ;;
       let '(h, d) := if n_ge r (hi q) (NI 1) then (NI 1, true) else (hi q, false) in
       Ok (Itv (if n_le r (lo q) (NI 0) then NI 0 else lo q) h false d).
(** interval.cpp:1254-1283 *)
Definition i_csch (dbg : bool) (a : interval) : res interval :=
  if isEmptyI r a then Ok EmptyI
  else if n_le r (lo a) (NI 0) && n_ge r (hi a) (NI 0) then Ok wholeI
  else c <- i_sinh a ;; q <- i_div r dbg oneI c ;; Ok (Itv (lo q) (hi q) false false).
(** interval.cpp:1349-1362 *)
Definition i_acoth (dbg : bool) (a : interval) : res interval :=
  if isEmptyI r a then Ok EmptyI
  else if n_ge r (lo a) (NI (-1)) && n_le r (hi a) (NI 1) then Throw DomainError
  else q <- i_div r dbg oneI a ;; i_atanh q.
(** interval.cpp:1364-1378 *)
Definition i_asech (dbg : bool) (a : interval) : res interval :=
  if isEmptyI r a then Ok EmptyI
  else if n_le r (lo a) (NI 0) || n_gt r (hi a) (NI 1) then Throw DomainError
  else q <- i_div r dbg oneI a ;; i_acosh q.
(** interval.cpp:1380-1394 *)
Definition i_acsch (dbg : bool) (a : interval) : res interval :=
  if isEmptyI r a then Ok EmptyI
  else if n_le r (lo a) (NI 0) && n_ge r (hi a) (NI 0) then Throw DomainError
  else q <- i_div r dbg oneI a ;; i_asinh q.
(** interval.cpp:1788-1837 *)
Definition i_pow2 (dbg : bool) (a : interval) : res interval :=
  if isEmptyI r a then Ok EmptyI
  else
  let '(l, c) := if n_isPosInf (lo a) then (posInf, false) else if n_isNegInf (lo a) then (NI 0, false)
                 else if n_isInteger (lo a) then (n_pow (NI 2) (NI (toInteger (lo a))), lc a)
                 else (n_below (n_pow (NI 2) (lo a)), false) in
  let '(h, d) := if n_isPosInf (hi a) then (posInf, false) else if n_isNegInf (hi a) then (NI 0, false)
                 else if n_isInteger (hi a) then (n_pow (NI 2) (NI (toInteger (hi a))), rc a)
                 else (n_above (n_pow (NI 2) (hi a)), false) in
  condAssert dbg (n_ge r l (NI 0)) ;;; Ok (Itv l h c d).
(** number.cpp:985-990 *)
Definition toInt (z : Z) : res Z := if (2147483647 <? z) || (z <? -2147483648) then Throw OverflowError else Ok z.
(** interval.cpp:1875-1932: an integer power *)
Definition i_powZ (a : interval) (n : Z) : res interval :=
  let p x := n_pow x (NI n) in
  if n =? 0 then Ok oneI
  else if 0 <? n then
    if Z.even n then
      if n_ge r (lo a) (NI 0) then Ok (Itv (p (lo a)) (p (hi a)) (lc a) (rc a))
      else if n_le r (hi a) (NI 0) then Ok (Itv (p (hi a)) (p (lo a)) (rc a) (lc a))
      else Ok (Itv (NI 0) (n_max r (p (n_abs (lo a))) (p (n_abs (hi a)))) true
                   (if n_gt r (n_abs (lo a)) (n_abs (hi a)) then lc a else rc a))
    else Ok (Itv (p (lo a)) (p (hi a)) (lc a) (rc a))
  else if n_le r (lo a) (NI 0) && n_ge r (hi a) (NI 0) then Throw DomainError
  else if Z.even n then
    if n_gt r (lo a) (NI 0) then Ok (Itv (p (hi a)) (p (lo a)) (rc a) (lc a))
    else Ok (Itv (p (n_abs (lo a))) (p (n_abs (hi a))) (lc a) (rc a))
  else Ok (Itv (p (hi a)) (p (lo a)) (rc a) (lc a)).
(** interval.cpp:1934-1957: a power that is not an integer *)
Definition i_powQ (a : interval) (e : number) : res interval :=
  if n_gt r (lo a) (NI 0) then
    if n_isInf (lo a) || n_isInf (hi a) then
      Ok (if n_gt r e (NI 0) then Itv posInf posInf false false else Itv (NI 0) (n_above (NI 0)) false false)
    else Ok (Itv (n_below (n_pow (lo a) e)) (n_above (n_pow (hi a) e)) (lc a) (rc a))
  else if n_le r (lo a) (NI 0) && n_ge r e (NI 0) then
    if n_le r (hi a) (NI 0) then Throw DomainError else Ok (Itv (NI 0) (n_above (n_pow (hi a) e)) true false)
  else Throw DomainError.
(** interval.cpp:1839-1957 for a finite exponent (1844-1872, the infinite exponents, are not modelled) *)
Definition i_powN (a : interval) (e : number) : res interval :=
  if isEmptyI r a then Ok EmptyI
  else if n_isInteger e then n <- toInt (toInteger e) ;; i_powZ a n
  else i_powQ a e.
End M.
