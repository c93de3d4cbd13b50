(** Model of TypeChecker, MathUtils, StringUtils and the escape functions of
    ConversionUtils, src/util.cpp.  [isdigit], [isspace], [tolower], [toupper] are
    the C-locale functions extended, as glibc does, to the whole char range
    (the C standard leaves negative arguments undefined). *)
From Verif Require Import Base.

(** ** TypeChecker *)
Definition is_sign (c : ascii) : bool := aeq c "-"%char || aeq c "+"%char.

(** util.cpp:41-49 *)
Definition isInt (s : str) : bool :=
  match s with
  | [] => false
  | c :: s' => (is_sign c || isdigit c) && forallb isdigit s'
  end.

(** loop of util.cpp:53-60 after the optional sign *)
Fixpoint real_loop (s : str) (has_dot : bool) : bool :=
  match s with
  | [] => true
  | c :: s' =>
      if aeq c "."%char && negb has_dot then real_loop s' true
      else if isdigit c then real_loop s' has_dot else false
  end.
(** util.cpp:50-62 *)
Definition isReal (s : str) : bool :=
  match s with
  | [] => false
  | c :: s' => if is_sign c then real_loop s' false else real_loop s false
  end.
(** util.cpp:37-39 *)
Definition isNumber (s : str) : bool := isInt s || isReal s.

(** str.find_first_of("Ee") *)
Fixpoint find_e (s : str) (pos : nat) : option nat :=
  match s with
  | [] => None
  | c :: s' => if aeq c "E"%char || aeq c "e"%char then Some pos else find_e s' (S pos)
  end.
(** exponent_no_spaces.find(')') *)
Fixpoint find_rpar (s : str) (pos : nat) : option nat :=
  match s with
  | [] => None
  | c :: s' => if aeq c ")"%char then Some pos else find_rpar s' (S pos)
  end.
(** util.cpp:64-130.  The substrings taken are always in range. *)
Definition isScientificNotation (s : str) : bool :=
  match find_e s 0 with
  | None => false
  | Some O => false
  | Some e =>
      if negb (isReal (firstn e s)) then false else
      let ex := skipn (S e) s in
      match ex with
      | [] => false
      | _ =>
        let ns := filter (fun c => negb (isspace c)) ex in
        match ns with
        | [] => false
        | c :: r =>
          let ns := if aeq c "("%char
                    then match find_rpar ns 0 with
                         | Some p => firstn (p - 1) r
                         | None => r
                         end
                    else ns in
          match ns with
          | [] => false
          | c :: r => if is_sign c then match r with [] => false | _ => forallb isdigit r end
                      else forallb isdigit ns
          end
        end
      end
  end.

(** util.cpp:198-243 *)
Definition is_hex_char (c : ascii) : bool :=
  existsb (aeq c) (L "0123456789aAbBcCdDeEfF").
Definition is_dec_char (c : ascii) : bool := existsb (aeq c) (L "0123456789").
Definition isBV (s : str) : bool :=
  match s with
  | h :: k :: (_ :: _) as s0 =>
      let body := skipn 2 s in
      aeq h "#"%char &&
      (if aeq k "b"%char || aeq k "B"%char then forallb (fun c => aeq c "0"%char || aeq c "1"%char) body
       else if aeq k "x"%char || aeq k "X"%char then forallb is_hex_char body
       else if aeq k "d"%char || aeq k "D"%char then forallb is_dec_char body
       else false)
  | _ => false
  end.

(** util.cpp:251-255 *)
Definition isString (s : str) : bool :=
  match s with
  | [] => false
  | c :: _ => aeq c """"%char && aeq (last s nul) """"%char
  end.

(** ** MathUtils *)
(** util.cpp:258-265; the loop multiplies exp - 1 times (never for exp <= 1). *)
Definition mpow (base exp : Z) : Z :=
  if exp =? 0 then 1
  else Nat.iter (Z.to_nat (exp - 1)) (fun r => r * base) base.

(** util.cpp:270-273 *)
Fixpoint mgcd (fuel : nat) (a b : Z) : res Z :=
  match fuel with
  | O => NoFuel
  | S f => if b =? 0 then Ok a else r <- Imod a b ;; mgcd f b r
  end.
(** util.cpp:275-277 *)
Definition mlcm (fuel : nat) (a b : Z) : res Z :=
  g <- mgcd fuel a b ;; Idiv (a * b) g.

(** util.cpp:319-327 *)
Fixpoint prime_loop (fuel : nat) (n i : Z) : res bool :=
  match fuel with
  | O => NoFuel
  | S f => if n <? i * i then Ok true
           else r <- Imod n i ;; if r =? 0 then Ok false else prime_loop f n (i + 2)
  end.
Definition isPrime (fuel : nat) (n : Z) : res bool :=
  if n <=? 1 then Ok false
  else if n =? 2 then Ok true
  else r <- Imod n 2 ;; if r =? 0 then Ok false else prime_loop fuel n 3.

(** util.cpp:329-335 *)
Definition isEven (n : Z) : res bool := r <- Imod n 2 ;; Ok (r =? 0).
Definition isOdd (n : Z) : res bool := r <- Imod n 2 ;; Ok (negb (r =? 0)).

(** util.cpp:338-344: for(i = 1; i <= n; i++) res *= i *)
Fixpoint fact_loop (k : nat) (i acc : Z) : Z :=
  match k with O => acc | S k' => fact_loop k' (i + 1) (acc * i) end.
Definition mfactorial (n : Z) : Z := fact_loop (Z.to_nat n) 1 1.

(** ** StringUtils *)
Definition dq : ascii := """"%char.
(** (s[0] == '"' && s[s.length()-1] == '"') ? s.substr(1, s.length()-2) : s
    (first line of every function; on the one-character string the length
    argument wraps and the result is empty). *)
Definition clean (s : str) : res str :=
  match s with
  | c :: _ => if aeq c dq && aeq (last s nul) dq
              then substr s 1 (u64 (zlen s - 2)) else Ok s
  | [] => Ok s
  end.
Definition quote (s : str) : str := dq :: s ++ [dq].

(** util.cpp:1109-1127 *)
Definition strSubstr (s : str) (i j : Z) : res str :=
  sc <- clean s ;;
  start <- toULong i ;; len <- toULong j ;;
  if zlen sc <=? start then Ok (quote [])
  else
    let len := if zlen sc <? u64 (start + len) then u64 (zlen sc - start) else len in
    r <- substr sc start len ;; Ok (quote r).
(** util.cpp:1128-1135 *)
Definition strPrefixof (s t : str) : res bool :=
  sc <- clean s ;; tc <- clean t ;;
  if zlen tc <? zlen sc then Ok false
  else p <- substr tc 0 (zlen sc) ;; Ok (seq_str p sc).
(** util.cpp:1136-1143 *)
Definition strSuffixof (s t : str) : res bool :=
  sc <- clean s ;; tc <- clean t ;;
  if zlen tc <? zlen sc then Ok false
  else p <- substr tc (zlen tc - zlen sc) (zlen sc) ;; Ok (seq_str p sc).
(** util.cpp:1144-1148 *)
Definition strContains (s t : str) : res bool :=
  sc <- clean s ;; tc <- clean t ;;
  Ok (match find_from tc sc 0 with Some _ => true | None => false end).
(** util.cpp:1149-1161 *)
Definition strIndexof (s t : str) (i : Z) : res Z :=
  sc <- clean s ;; tc <- clean t ;;
  iu <- toULong i ;;
  if zlen sc <? iu then Ok (-1)
  else Ok (match find_from tc sc (Z.to_nat iu) with Some p => Z.of_nat p | None => -1 end).
(** util.cpp:1162-1165 *)
Definition strCharAt (s : str) (i : Z) : res str :=
  sc <- clean s ;; iu <- toULong i ;; r <- substr sc iu 1 ;; Ok (quote r).
(** util.cpp:1166-1170.  The operands of + may be evaluated in any order; both
    substr calls throw the same exception, so the order is not observable. *)
Definition strUpdate (s : str) (i : Z) (t : str) : res str :=
  sc <- clean s ;; tc <- clean t ;;
  iu <- toULong i ;;
  a <- substr sc 0 iu ;;
  b <- substr sc (u64 (iu + zlen tc)) (u64 (zlen sc - iu - zlen tc)) ;;
  Ok (quote (a ++ tc ++ b)).
(** util.cpp:1171-1182 *)
Definition strReplace (s t u : str) : res str :=
  sc <- clean s ;; tc <- clean t ;; uc <- clean u ;;
  match find_from tc sc 0 with
  | None => Ok s
  | Some p =>
      a <- substr sc 0 (Z.of_nat p) ;;
      b <- substr sc (Z.of_nat p + zlen tc) npos ;;
      Ok (quote (a ++ uc ++ b))
  end.
(** loop of util.cpp:1191-1194 *)
Fixpoint repl_loop (fuel : nat) (tc uc res : str) (pos : option nat) : Base.res str :=
  match pos with
  | None => Ok res
  | Some p =>
      match fuel with
      | O => NoFuel
      | S f =>
          a <- substr res 0 (Z.of_nat p) ;;
          b <- substr res (Z.of_nat p + zlen tc) npos ;;
          let res := a ++ uc ++ b in
          repl_loop f tc uc res (find_from tc res (p + length uc))
      end
  end.
(** util.cpp:1183-1197 *)
Definition strReplaceAll (fuel : nat) (s t u : str) : res str :=
  sc <- clean s ;; tc <- clean t ;; uc <- clean u ;;
  r <- repl_loop fuel tc uc sc (find_from tc sc 0) ;; Ok (quote r).
(** util.cpp:1198-1204, 1205-1211, 1212-1215 *)
Definition strToLower (s : str) : res str := sc <- clean s ;; Ok (quote (map tolower sc)).
Definition strToUpper (s : str) : res str := sc <- clean s ;; Ok (quote (map toupper sc)).
Definition strRev (s : str) : res str := sc <- clean s ;; Ok (quote (rev sc)).

(** ** escaping *)
Definition bs : ascii := "\"%char.
Definition chr (n : nat) : ascii := ascii_of_nat n.
(** util.cpp:1247-1297.  [oss << setw(2) << setfill('0') << (unsigned char)c] writes
    the character itself padded to width two, not its hexadecimal code. *)
Definition escape_char (c : ascii) : str :=
  if aeq c (chr 10) then [bs; "n"%char] else if aeq c (chr 9) then [bs; "t"%char]
  else if aeq c (chr 13) then [bs; "r"%char] else if aeq c bs then [bs; bs]
  else if aeq c dq then [bs; dq] else if aeq c "'"%char then [bs; "'"%char]
  else if aeq c (chr 0) then [bs; "0"%char] else if aeq c (chr 7) then [bs; "a"%char]
  else if aeq c (chr 8) then [bs; "b"%char] else if aeq c (chr 12) then [bs; "f"%char]
  else if aeq c (chr 11) then [bs; "v"%char]
  else if Nat.ltb (code c) 32 || Nat.ltb 126 (code c) then [bs; "x"%char; "0"%char; c]
  else [c].
Definition escapeString (s : str) : str := concat (map escape_char s).

(** std::stoi(two characters, nullptr, 16), None for invalid_argument *)
Definition hexd (c : ascii) : option Z :=
  let n := Z.of_nat (code c) in
  if (48 <=? n) && (n <=? 57) then Some (n - 48)
  else if (65 <=? n) && (n <=? 70) then Some (n - 55)
  else if (97 <=? n) && (n <=? 102) then Some (n - 87)
  else None.
Definition stoi2 (a b : ascii) : option Z :=
  match hexd a with
  | Some x => match hexd b with Some y => Some (16 * x + y) | None => Some x end
  | None =>
      if isspace a || aeq a "+"%char then hexd b
      else if aeq a "-"%char then match hexd b with Some y => Some (- y) | None => None end
      else None
  end.
(** the single-character escapes of util.cpp:1305-1337 *)
Definition unesc1 (c : ascii) : option ascii :=
  if aeq c "n"%char then Some (chr 10) else if aeq c "t"%char then Some (chr 9)
  else if aeq c "r"%char then Some (chr 13) else if aeq c bs then Some bs
  else if aeq c dq then Some dq else if aeq c "'"%char then Some "'"%char
  else if aeq c "0"%char then Some (chr 0) else if aeq c "a"%char then Some (chr 7)
  else if aeq c "b"%char then Some (chr 8) else if aeq c "f"%char then Some (chr 12)
  else if aeq c "v"%char then Some (chr 11) else None.
(** util.cpp:1299-1369; the index i is replaced by the remaining suffix. *)
Fixpoint unescapeString (s : str) : str :=
  match s with
  | [] => []
  | c :: s1 =>
      if aeq c bs then
        match s1 with
        | [] => [c]
        | e :: s2 =>
            match unesc1 e with
            | Some r => r :: unescapeString s2
            | None =>
                if aeq e "x"%char then
                  match s2 with
                  | a :: b :: s4 =>
                      match stoi2 a b with
                      | Some v => chr (Z.to_nat (v mod 256)) :: unescapeString s4
                      | None => c :: unescapeString s1
                      end
                  | _ => c :: unescapeString s1
                  end
                else c :: e :: unescapeString s2
            end
        end
      else c :: unescapeString s1
  end.
