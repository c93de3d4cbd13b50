(** Model of atan2 of numbers and intervals (number.cpp:448-453, 1580-1582, interval.cpp:2095-2238).
    Simplified as in FunModel.v: one precision, an unbounded exponent range, an unsigned zero (a real zero that is
    negative gives angles of the other sign in the code; an INT zero is converted to a positive one). *)
From Coq Require Import QArith Qround Qabs ZArith List Bool.
From Verif Require Import Base NumModel RoundModel FunModel.
Open Scope Z_scope.

(** mpfr_atan2 on finite arguments ([m2_at y x]), and its results at two infinite arguments: a quarter and three
    quarters of a half turn, rounded *)
Record mpfr2 := Mpfr2 { m2_at : Q -> Q -> Q; m2_q1 : Q; m2_q3 : Q }.

Section M.
Context (M : mpfr) (A : mpfr2).
Notation r := rn128.
Definition sgn (s : bool) (q : Q) : Q := if s then (- q)%Q else q.
(** number.cpp:448-453 with mpfr_atan2's table of special cases *)
Definition h_atan2 (y x : xr) : xr :=
  match y, x with
  | Nan, _ | _, Nan => Nan
  | Fin b, Fin a => Fin (m2_at A b a)
  | Fin b, Inf false => Fin 0
  | Fin b, Inf true => Fin (sgn (qlt b 0) (m_pi M))
  | Inf s, Fin _ => Fin (sgn s (m_atanInf M))
  | Inf s, Inf false => Fin (sgn s (m2_q1 A))
  | Inf s, Inf true => Fin (sgn s (m2_q3 A))
  end.
(** number.cpp:1580-1582 *)
Definition n_atan2 (y x : number) : number := NR (h_atan2 (toReal r y) (toReal r x)).
Definition npi : number := n_neg (n_pi M).
(** interval.cpp:2117-2137, 2218-2236: the two bounds are moved outwards and cut at the half turns *)
Definition widen (l h : number) : interval :=
  let '(l', c) := if n_lt r l npi then (npi, true) else (n_below M l, false) in
  let '(h', d) := if n_gt r h (n_pi M) then (n_pi M, true) else (n_above M h, false) in
  Itv l' h' c d.
(** interval.cpp:2095-2139; the flags that are swapped with the bounds are overwritten in [widen] *)
Definition i_atan2N (a : interval) (x : number) : res interval :=
  if isEmptyI r a || n_isNaN x then Ok EmptyI
  else
    let l := n_atan2 (lo a) x in let h := n_atan2 (hi a) x in
    if n_lt r (lo a) (NI 0) && n_gt r (hi a) (NI 0) && n_lt r x (NI 0) then Ok (Itv npi (n_pi M) true true)
    else Ok (if n_gt r l h then widen h l else widen l h).
(** std::min and std::max of an initializer list: the first least, the first greatest *)
Definition least (v : number) (l : list number) : number := fold_left (fun m v => if n_lt r v m then v else m) l v.
Definition greatest (v : number) (l : list number) : number := fold_left (fun m v => if n_lt r m v then v else m) l v.
(** interval.cpp:2141-2238; the closedness computed at 2199-2215 is overwritten in [widen] *)
Definition i_atan2 (a x : interval) : res interval :=
  if isEmptyI r a || isEmptyI r x then Ok EmptyI
  else
    let full := Itv npi (n_pi M) true true in
    if n_le r (lo a) (NI 0) && n_ge r (hi a) (NI 0) && (n_le r (lo x) (NI 0) && n_ge r (hi x) (NI 0)) then Ok full
    else if n_lt r (lo a) (NI 0) && n_gt r (hi a) (NI 0) && n_lt r (hi x) (NI 0) then Ok full
    else if n_lt r (lo a) (NI 0) && n_gt r (hi a) (NI 0) && n_gt r (lo x) (NI 0) then
      l <- n_div r npi (NI 2) ;; h <- n_div r (n_pi M) (NI 2) ;; Ok (Itv l h true true)
    else if n_lt r (lo x) (NI 0) && n_gt r (hi x) (NI 0) && n_gt r (lo a) (NI 0) then Ok (Itv (NI 0) (n_pi M) true true)
    else if n_lt r (lo x) (NI 0) && n_gt r (hi x) (NI 0) && n_lt r (hi a) (NI 0) then Ok (Itv npi (NI 0) true true)
    else
      let v0 := n_atan2 (lo a) (lo x) in
      let vs := [n_atan2 (lo a) (hi x); n_atan2 (hi a) (lo x); n_atan2 (hi a) (hi x)] in
      let l := least v0 vs in let h := greatest v0 vs in
      if n_gt r (n_sub r h l) (n_pi M) then Ok full else Ok (widen l h).
End M.
