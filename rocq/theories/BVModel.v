(** Model of BitVectorUtils, src/util.cpp:346-1056. *)
From Verif Require Import Base.

Definition c0 : ascii := "0"%char.
Definition c1 : ascii := "1"%char.
Definition hashb : str := ["#"%char; "b"%char].

(** [bv[0] == '#' && bv[1] == 'b'] (the condition of every condAssert here). *)
Definition has_b (s : str) : bool := is_prefix hashb s.

(** Loop [for(i = 2; i < bv.size(); i++) res += ...], used by the bitwise ops. *)
Definition loop2 (s : str) (body : nat -> res ascii) : res str :=
  foldM (fun r i => c <- body i ;; Ok (r ++ [c])) hashb (seq 2 (length s - 2)).

Definition bit (b : bool) : ascii := if b then c1 else c0.

(** util.cpp:346-353 *)
Definition bvNot (dbg : bool) (bv : str) : res str :=
  condAssert dbg (has_b bv) ;;;
  loop2 bv (fun i => a <- at_ bv i ;; Ok (bit (aeq a c0))).

(** util.cpp:354-362; [&&] evaluates bv2[i] only when bv1[i] is '1'. *)
Definition bvAnd (dbg : bool) (bv1 bv2 : str) : res str :=
  condAssert dbg (has_b bv1) ;;; condAssert dbg (has_b bv2) ;;;
  loop2 bv1 (fun i => a <- at_ bv1 i ;;
    if aeq a c1 then b <- at_ bv2 i ;; Ok (bit (aeq b c1)) else Ok c0).

(** util.cpp:363-371 *)
Definition bvOr (dbg : bool) (bv1 bv2 : str) : res str :=
  condAssert dbg (has_b bv1) ;;; condAssert dbg (has_b bv2) ;;;
  loop2 bv1 (fun i => a <- at_ bv1 i ;;
    if aeq a c1 then Ok c1 else b <- at_ bv2 i ;; Ok (bit (aeq b c1))).

(** util.cpp:372-380 *)
Definition bvXor (dbg : bool) (bv1 bv2 : str) : res str :=
  condAssert dbg (has_b bv1) ;;; condAssert dbg (has_b bv2) ;;;
  loop2 bv1 (fun i => a <- at_ bv1 i ;; b <- at_ bv2 i ;; Ok (bit (negb (aeq a b)))).

(** util.cpp:381-389 *)
Definition bvNand (dbg : bool) (bv1 bv2 : str) : res str :=
  condAssert dbg (has_b bv1) ;;; condAssert dbg (has_b bv2) ;;;
  loop2 bv1 (fun i => a <- at_ bv1 i ;;
    if aeq a c1 then b <- at_ bv2 i ;; Ok (bit (negb (aeq b c1))) else Ok c1).

(** util.cpp:390-398 *)
Definition bvNor (dbg : bool) (bv1 bv2 : str) : res str :=
  condAssert dbg (has_b bv1) ;;; condAssert dbg (has_b bv2) ;;;
  loop2 bv1 (fun i => a <- at_ bv1 i ;;
    if aeq a c0 then b <- at_ bv2 i ;; Ok (bit (aeq b c0)) else Ok c0).

(** util.cpp:399-407 *)
Definition bvXnor (dbg : bool) (bv1 bv2 : str) : res str :=
  condAssert dbg (has_b bv1) ;;; condAssert dbg (has_b bv2) ;;;
  loop2 bv1 (fun i => a <- at_ bv1 i ;; b <- at_ bv2 i ;; Ok (bit (aeq a b))).

(** util.cpp:409-431.  The second loop runs from the last character down to
    index 2 while [carry]; it is written on the reversed tail. *)
Definition flip (a : ascii) : ascii := if aeq a c0 then c1 else c0.
Fixpoint neg_carry (r : str) : str :=
  match r with
  | [] => []
  | a :: r' => if aeq a c0 then c1 :: r' else c0 :: neg_carry r'
  end.
Definition bvNeg (dbg : bool) (bv : str) : res str :=
  condAssert dbg (has_b bv) ;;;
  let res := firstn 2 bv ++ map flip (skipn 2 bv) in
  Ok (firstn 2 res ++ rev (neg_carry (rev (skipn 2 res)))).

(** Left padding of the shorter operand (util.cpp:436-452, 476-491, 573-588);
    the "#b" prefixes put back there only offset the indices and are omitted. *)
Definition pad_to (n : nat) (s : str) : str := repeat c0 (n - length s) ++ s.
Definition digits_of (bv : str) : res str := substr bv 2 (u64 (zlen bv - 2)).

(** Loop of bvAdd (util.cpp:455-467), from the last digit down. *)
Fixpoint add_loop (r1 r2 : str) (carry : bool) : str :=
  match r1, r2 with
  | a :: r1', b :: r2' =>
      if aeq a c0 && aeq b c0 then bit carry :: add_loop r1' r2' false
      else if aeq a c1 && aeq b c1 then bit carry :: add_loop r1' r2' true
      else bit (negb carry) :: add_loop r1' r2' carry
  | _, _ => []
  end.
(** util.cpp:433-472 *)
Definition bvAdd (dbg : bool) (bv1 bv2 : str) : res str :=
  condAssert dbg (has_b bv1) ;;; condAssert dbg (has_b bv2) ;;;
  d1 <- digits_of bv1 ;; d2 <- digits_of bv2 ;;
  let n := Nat.max (length d1) (length d2) in
  Ok (hashb ++ rev (add_loop (rev (pad_to n d1)) (rev (pad_to n d2)) false)).

(** Loop of bvSub (util.cpp:494-506), from the last digit down. *)
Fixpoint sub_loop (r1 r2 : str) (borrow : bool) : str :=
  match r1, r2 with
  | a :: r1', b :: r2' =>
      if aeq a c0 && aeq b c0 then bit borrow :: sub_loop r1' r2' false
      else if aeq a c1 && aeq b c1 then bit (negb borrow) :: sub_loop r1' r2' true
      else bit borrow :: sub_loop r1' r2' borrow
  | _, _ => []
  end.
(** util.cpp:473-511 *)
Definition bvSub (dbg : bool) (bv1 bv2 : str) : res str :=
  condAssert dbg (has_b bv1) ;;; condAssert dbg (has_b bv2) ;;;
  d1 <- digits_of bv1 ;; d2 <- digits_of bv2 ;;
  let n := Nat.max (length d1) (length d2) in
  Ok (hashb ++ rev (sub_loop (rev (pad_to n d1)) (rev (pad_to n d2)) false)).

(** util.cpp:512-553.  [result] is a vector<int> (signed overflow of an entry,
    which needs about 2^31 digits, is not modelled). *)
Fixpoint upd_add (l : list Z) (k : nat) (d : Z) : list Z :=
  match l, k with
  | x :: l', O => (x + d) :: l'
  | x :: l', S k' => x :: upd_add l' k' d
  | [], _ => []
  end.
Fixpoint set_nth (l : list Z) (k : nat) (v : Z) : list Z :=
  match l, k with
  | x :: l', O => v :: l'
  | x :: l', S k' => x :: set_nth l' k' v
  | [], _ => []
  end.
(** inner loop over j = N .. 1 (util.cpp:529-533) *)
Fixpoint mul_inner (bin1 : str) (i : nat) (j : nat) (r : list Z) : list Z :=
  match j with
  | O => r
  | S j' => mul_inner bin1 i j'
              (if aeq (nth j' bin1 nul) c1 then upd_add r (i - 1 + (j - 1) + 1) 1 else r)
  end.
(** outer loop over i = N .. 1 (util.cpp:527-535) *)
Fixpoint mul_outer (bin1 bin2 : str) (n i : nat) (r : list Z) : list Z :=
  match i with
  | O => r
  | S i' => mul_outer bin1 bin2 n i'
              (if aeq (nth i' bin2 nul) c1 then mul_inner bin1 i n r else r)
  end.
(** carry loop over k = size-1 .. 1 (util.cpp:538-543) *)
Fixpoint mul_carry (k : nat) (r : list Z) : list Z :=
  match k with
  | O => r
  | S k' =>
      let v := nth k r 0 in
      mul_carry k' (if 2 <=? v then set_nth (upd_add r k' (Z.quot v 2)) k (Z.rem v 2) else r)
  end.
Definition bvMul (dbg : bool) (bv1 bv2 : str) : res str :=
  condAssert dbg (has_b bv1) ;;; condAssert dbg (has_b bv2) ;;;
  bin1 <- substr bv1 2 npos ;; bin2 <- substr bv2 2 npos ;;
  let N := Nat.max (length bin1) (length bin2) in
  let bin1 := pad_to N bin1 in
  let bin2 := pad_to N bin2 in
  let r := repeat 0 (N * 2) in
  let r := mul_outer bin1 bin2 N N r in
  (* result.size() - 1 wraps for N = 0: result[2^64-1] is out of bounds *)
  if Nat.eqb N 0 then UB else
  let r := mul_carry (N * 2 - 1) r in
  Ok (hashb ++ map (fun v => bit (negb (v =? 0))) (skipn (N * 2 - N) r)).

(** Is no character of bv (from index 2) '1'?  (util.cpp:562-568, 590-596, 664-670) *)
Definition no_one (bv : str) : bool := forallb (fun c => negb (aeq c c1)) (skipn 2 bv).

(** Lexicographic comparison loop (util.cpp:630-639) on equal-length strings:
    false at the first smaller character, true at the first larger one or the end. *)
Fixpoint lex_ge (r d : str) : bool :=
  match r, d with
  | a :: r', b :: d' =>
      if Nat.ltb (code a) (code b) then false
      else if Nat.ltb (code b) (code a) then true else lex_ge r' d'
  | _, _ => true
  end.

(** Long-division loop (util.cpp:610-654). *)
Fixpoint div_loop (dbg : bool) (bits divisor quo rem : str) : res str :=
  match bits with
  | [] => Ok quo
  | b :: bits' =>
      let rem := rem ++ [b] in
      if Nat.ltb (length rem) (length divisor)
      then div_loop dbg bits' divisor (quo ++ [c0]) rem
      else
        let geq := if negb (Nat.eqb (length rem) (length divisor))
                   then Nat.ltb (length divisor) (length rem)
                   else lex_ge rem divisor in
        if geq then
          diff <- bvSub dbg (hashb ++ rem) (hashb ++ divisor) ;;
          rem' <- substr diff 2 npos ;;
          div_loop dbg bits' divisor (quo ++ [c1]) rem'
        else div_loop dbg bits' divisor (quo ++ [c0]) rem
  end.

(** util.cpp:557-659.  The second zero test (589-600) is unreachable: padding
    does not change whether a '1' occurs; it is kept for fidelity. *)
Definition bvUdiv (dbg : bool) (bv1 bv2 : str) : res str :=
  condAssert dbg (has_b bv1) ;;; condAssert dbg (has_b bv2) ;;;
  if no_one bv2 then o <- mkstr (u64 (zlen bv1 - 2)) c1 ;; Ok (hashb ++ o)
  else
  d1 <- digits_of bv1 ;; d2 <- digits_of bv2 ;;
  let n := Nat.max (length d1) (length d2) in
  let d1 := pad_to n d1 in
  let d2 := pad_to n d2 in
  if no_one (hashb ++ d2) then o <- mkstr (u64 (zlen bv1 - 2)) c1 ;; Ok (hashb ++ o)
  else q <- div_loop dbg d1 d2 [] [] ;; Ok (hashb ++ q).

(** util.cpp:660-679 *)
Definition bvUrem (dbg : bool) (bv1 bv2 : str) : res str :=
  condAssert dbg (has_b bv1) ;;; condAssert dbg (has_b bv2) ;;;
  if no_one bv2 then Ok bv1
  else
  q <- bvUdiv dbg bv1 bv2 ;;
  m <- bvMul dbg q bv2 ;;
  bvSub dbg bv1 m.

(** util.cpp:680-685 *)
Definition bvUmod (dbg : bool) (bv1 bv2 : str) : res str :=
  condAssert dbg (has_b bv1) ;;; condAssert dbg (has_b bv2) ;;; bvUrem dbg bv1 bv2.

(** util.cpp:886-893 *)
Definition bvToNat (dbg : bool) (bv : str) : res Z :=
  condAssert dbg (has_b bv) ;;;
  foldM (fun r i => a <- at_ bv i ;; Ok (r * 2 + (if aeq a c1 then 1 else 0)))
        0 (seq 2 (length bv - 2)).

(** util.cpp:1013-1032.  [bv.substr(0,2) == "#b"] is the asserted condition;
    bv[2] is undefined behaviour on strings shorter than 2. *)
Definition bvToInt (dbg : bool) (bv : str) : res Z :=
  condAssert dbg (has_b bv) ;;;
  u <- foldM (fun r i => a <- at_ bv i ;; Ok (Ishl r 1 + (if aeq a c1 then 1 else 0)))
        0 (seq 2 (length bv - 2)) ;;
  m <- at_ bv 2 ;;
  if aeq m c1 then Ok (u - Ishl 1 (u64 (zlen bv - 2))) else Ok u.

(** util.cpp:894-904 *)
Definition natToBv (i n : Z) : res str :=
  let bin := Ibin i in
  nn <- toULong n ;;
  if zlen bin <? nn then z <- mkstr (u64 (nn - zlen bin)) c0 ;; Ok (hashb ++ z ++ bin)
  else t <- substr bin (u64 (zlen bin - nn)) nn ;; Ok (hashb ++ t).

(** util.cpp:1034-1056 *)
Definition intToBv (dbg : bool) (i n : Z) : res str :=
  bits <- toULong n ;;
  condAssert dbg (0 <? bits) ;;;
  let two_n := Ishl 1 bits in
  m <- Imod i two_n ;;
  let m := if m <? 0 then m + two_n else m in
  let bin := Ibin m in
  if zlen bin <? bits then z <- mkstr (bits - zlen bin) c0 ;; Ok (hashb ++ z ++ bin)
  else if bits <? zlen bin then t <- substr bin (zlen bin - bits) bits ;; Ok (hashb ++ t)
  else Ok (hashb ++ bin).

(** util.cpp:687-694 *)
Definition truncDiv (a b : Z) : res Z :=
  let neg := xorb (a <? 0) (b <? 0) in
  let aa := if a <? 0 then - a else a in
  let bb := if b <? 0 then - b else b in
  q <- Idiv aa bb ;; Ok (if neg then - q else q).

(** util.cpp:697-702 *)
Definition mathMod (a b : Z) : res Z :=
  m <- Imod a b ;;
  Ok (if m <? 0 then m + (if 0 <? b then b else - b) else m).

(** util.cpp:703-732 *)
Definition bvSdiv (dbg : bool) (bv1 bv2 : str) : res str :=
  let n := u64 (zlen bv1 - 2) in
  a <- bvToInt dbg bv1 ;; b <- bvToInt dbg bv2 ;;
  if b =? 0 then
    if n =? 1 then Ok (hashb ++ [c1])
    else if a <? 0 then intToBv dbg 1 n else intToBv dbg a n
  else
    let minVal := - Ishl 1 (u64 (n - 1)) in
    if (a =? minVal) && (b =? -1) then intToBv dbg minVal n
    else q <- truncDiv a b ;; intToBv dbg q n.

(** util.cpp:735-746 *)
Definition bvSrem (dbg : bool) (bv1 bv2 : str) : res str :=
  let n := u64 (zlen bv1 - 2) in
  a <- bvToInt dbg bv1 ;; b <- bvToInt dbg bv2 ;;
  if b =? 0 then Ok bv1
  else q <- truncDiv a b ;; intToBv dbg (a - q * b) n.

(** util.cpp:748-773 *)
Definition bvSmod (dbg : bool) (bv1 bv2 : str) : res str :=
  let n := u64 (zlen bv1 - 2) in
  a <- bvToInt dbg bv1 ;; b <- bvToInt dbg bv2 ;;
  if b =? 0 then Ok bv1
  else
    let absb := if 0 <? b then b else - b in
    m <- mathMod a absb ;;
    if m =? 0 then intToBv dbg 0 n
    else if ((0 <? a) && (0 <? b)) || ((a <? 0) && (b <? 0)) then intToBv dbg m n
    else
      let r := absb - m in
      intToBv dbg (if b <? 0 then - r else r) n.

(** Shift amount: the *decimal* reading of the amount's digits
    (util.cpp:780, 792, 804). *)
Definition shift_amount (n : str) : res Z :=
  d <- substr n 2 (u64 (zlen n - 2)) ;; i <- Integer_of_str d ;; toULong i.

(** util.cpp:776-787 *)
Definition bvShl (dbg : bool) (bv n : str) : res str :=
  condAssert dbg (has_b bv) ;;; condAssert dbg (has_b n) ;;;
  shift <- shift_amount n ;;
  if u64 (zlen bv - 2) <=? shift then
    z <- mkstr (u64 (shift - zlen bv + 2)) c0 ;; Ok (hashb ++ [c0] ++ z)
  else
    t <- substr bv 2 (u64 (zlen bv - 2 - shift)) ;;
    z <- mkstr shift c0 ;; Ok (hashb ++ t ++ z).

(** util.cpp:788-799 *)
Definition bvLshr (dbg : bool) (bv n : str) : res str :=
  condAssert dbg (has_b bv) ;;; condAssert dbg (has_b n) ;;;
  shift <- shift_amount n ;;
  if u64 (zlen bv - 2) <=? shift then
    z <- mkstr (u64 (shift - zlen bv + 2)) c0 ;; Ok (hashb ++ [c0] ++ z)
  else
    z <- mkstr shift c0 ;;
    t <- substr bv 2 (u64 (zlen bv - 2 - shift)) ;; Ok (hashb ++ z ++ t).

(** util.cpp:800-811 *)
Definition bvAshr (dbg : bool) (bv n : str) : res str :=
  condAssert dbg (has_b bv) ;;; condAssert dbg (has_b n) ;;;
  shift <- shift_amount n ;;
  m <- at_ bv 2 ;;
  if u64 (zlen bv - 2) <=? shift then
    z <- mkstr (u64 (zlen bv - 2)) m ;; Ok (hashb ++ z)
  else
    z <- mkstr shift m ;;
    t <- substr bv 2 (u64 (zlen bv - 2 - shift)) ;; Ok (hashb ++ z ++ t).

(** util.cpp:813-817 *)
Definition bvConcat (dbg : bool) (bv1 bv2 : str) : res str :=
  condAssert dbg (has_b bv1) ;;; condAssert dbg (has_b bv2) ;;;
  d1 <- digits_of bv1 ;; d2 <- digits_of bv2 ;; Ok (hashb ++ d1 ++ d2).

(** util.cpp:818-828 *)
Definition bvExtract (dbg : bool) (bv : str) (i j : Z) : res str :=
  condAssert dbg (has_b bv) ;;; condAssert dbg (j <=? i) ;;;
  let bit_width := u64 (zlen bv - 2) in
  iu <- toULong i ;;
  let start_pos := u64 (2 + (bit_width - 1 - iu)) in
  ju <- toULong j ;;
  let length := u64 (iu - ju + 1) in
  t <- substr bv start_pos length ;; Ok (hashb ++ t).

(** util.cpp:829-836.  The loop runs n times over the same digits. *)
Definition bvRepeat (dbg : bool) (bv : str) (n : Z) : res str :=
  condAssert dbg (has_b bv) ;;;
  nn <- toULong n ;;
  d <- (if nn =? 0 then Ok [] else digits_of bv) ;;
  Ok (hashb ++ concat (repeat d (Z.to_nat nn))).

(** util.cpp:837-840 *)
Definition bvZeroExtend (dbg : bool) (bv : str) (n : Z) : res str :=
  condAssert dbg (has_b bv) ;;;
  nn <- toULong n ;; z <- mkstr nn c0 ;; d <- digits_of bv ;; Ok (hashb ++ z ++ d).

(** util.cpp:841-844 *)
Definition bvSignExtend (dbg : bool) (bv : str) (n : Z) : res str :=
  condAssert dbg (has_b bv) ;;;
  nn <- toULong n ;; m <- at_ bv 2 ;; z <- mkstr nn m ;; d <- digits_of bv ;;
  Ok (hashb ++ z ++ d).

(** util.cpp:846-850.  [real_n] is computed (and can throw) but never used. *)
Definition bvRotateLeft (dbg : bool) (bv : str) (n : Z) : res str :=
  condAssert dbg (has_b bv) ;;;
  Imod n (u64 (zlen bv - 2)) ;;;
  nn <- toULong n ;;
  a <- substr bv (u64 (2 + nn)) (u64 (zlen bv - 2 - nn)) ;;
  b <- substr bv 2 nn ;; Ok (hashb ++ a ++ b).

(** util.cpp:851-855 *)
Definition bvRotateRight (dbg : bool) (bv : str) (n : Z) : res str :=
  condAssert dbg (has_b bv) ;;;
  Imod n (u64 (zlen bv - 2)) ;;;
  nn <- toULong n ;;
  a <- substr bv (u64 (2 + zlen bv - 2 - nn)) nn ;;
  b <- substr bv 2 (u64 (zlen bv - 2 - nn)) ;; Ok (hashb ++ a ++ b).

(** util.cpp:857-884; the kinds the switch distinguishes. *)
Inductive bvcmp := CEq | CDistinct | CUlt | CUle | CUgt | CUge | CSlt | CSle | CSgt | CSge | COther.
Definition bvComp (dbg : bool) (bv1 bv2 : str) (k : bvcmp) : res bool :=
  condAssert dbg (has_b bv1) ;;; condAssert dbg (has_b bv2) ;;;
  let nat2 (f : Z -> Z -> bool) :=
    a <- bvToNat dbg bv1 ;; b <- bvToNat dbg bv2 ;; Ok (f a b) in
  let int2 (f : Z -> Z -> bool) :=
    a <- bvToInt dbg bv1 ;; b <- bvToInt dbg bv2 ;; Ok (f a b) in
  match k with
  | CEq => Ok (seq_str bv1 bv2) | CDistinct => Ok (negb (seq_str bv1 bv2))
  | CUlt => nat2 Z.ltb | CUle => nat2 Z.leb | CUgt => nat2 Z.gtb | CUge => nat2 Z.geb
  | CSlt => int2 Z.ltb | CSle => int2 Z.leb | CSgt => int2 Z.gtb | CSge => int2 Z.geb
  | COther => Ok false
  end.

(** One digit of hexToBv (util.cpp:905-980); None is
    the [default:] branch, which appends nothing. *)
Definition hex_digit (c : ascii) : option (bool * bool * bool * bool) :=
  let t := true in let f := false in
  if aeq c "0" then Some (f,f,f,f) else if aeq c "1" then Some (f,f,f,t)
  else if aeq c "2" then Some (f,f,t,f) else if aeq c "3" then Some (f,f,t,t)
  else if aeq c "4" then Some (f,t,f,f) else if aeq c "5" then Some (f,t,f,t)
  else if aeq c "6" then Some (f,t,t,f) else if aeq c "7" then Some (f,t,t,t)
  else if aeq c "8" then Some (t,f,f,f) else if aeq c "9" then Some (t,f,f,t)
  else if aeq c "a" then Some (t,f,t,f) else if aeq c "A" then Some (t,f,t,f)
  else if aeq c "b" then Some (t,f,t,t) else if aeq c "B" then Some (t,f,t,t)
  else if aeq c "c" then Some (t,t,f,f) else if aeq c "C" then Some (t,t,f,f)
  else if aeq c "d" then Some (t,t,f,t) else if aeq c "D" then Some (t,t,f,t)
  else if aeq c "e" then Some (t,t,t,f) else if aeq c "E" then Some (t,t,t,f)
  else if aeq c "f" then Some (t,t,t,t) else if aeq c "F" then Some (t,t,t,t)
  else None.
Definition hexToBv (dbg : bool) (hex : str) : res str :=
  foldM (fun r c => match hex_digit c with
                    | Some (a, b, x, y) => Ok (r ++ [bit a; bit b; bit x; bit y])
                    | None => condAssert dbg false ;;; Ok r
                    end) hashb hex.
(** decToBv, util.cpp:981-986 *)
Definition decToBv (dec : str) : res str :=
  i <- Integer_of_str dec ;; Ok (hashb ++ Ibin i).

(** BitVectorUtils::natToBv(const std::string&, const Integer&), util.cpp:988-1012 *)
Definition natToBv_str (dbg : bool) (i : str) (n : Z) : res str :=
  let long := Nat.ltb 2 (length i) in
  if long && is_prefix (L "#b") i then
    bin <- substr i 2 (zlen i - 2) ;;
    nn <- toULong n ;;
    if zlen bin <? nn then z <- mkstr (nn - zlen bin) c0 ;; Ok (hashb ++ z ++ bin)
    else t <- substr bin (zlen bin - nn) nn ;; Ok (hashb ++ t)
  else if long && is_prefix (L "#x") i then
    d <- substr i 2 (zlen i - 2) ;; hexToBv dbg d
  else if long && is_prefix (L "#d") i then
    d <- substr i 2 (zlen i - 2) ;; decToBv d
  else v <- Integer_of_str i ;; natToBv v n.
