(** Model of the scanner of src/base_parser.cpp: getSymbol, scanToNextSymbol,
    parseLpar, parseRpar, skipToRpar, peekSymbol.

    The C++ code walks a pointer [bufptr] over a NUL-terminated buffer of
    [buflen + 1] bytes (parseStr 629-634, mkExpr 694-705, parseSmtlib2File
    580-600).  The model keeps the bytes from [bufptr] up to [buffer + buflen];
    the empty list therefore means that [bufptr] stands on the final NUL, and
    advancing from there leaves the allocation (undefined behaviour as soon as it is
    dereferenced).  An embedded NUL byte stops the loops exactly as the final
    one.  [line_number] is only used in messages and is left out. *)
From Verif Require Import Base UtilModel.

(** include/parser.h SCAN_MODE *)
Inductive mode := SM_SYMBOL | SM_COMP_SYM | SM_COMMENT | SM_COMMON | SM_STRING.

Record lx := Lx { txt : str; md : mode }.

(** [*bufptr] *)
Definition cur (s : lx) : ascii := match txt s with [] => nul | c :: _ => c end.

(** the newline test repeated in every function: '\n' '\r' '\v' '\f' *)
Definition isnl (c : ascii) : bool :=
  Nat.eqb (code c) 10 || Nat.eqb (code c) 13 || Nat.eqb (code c) 11 || Nat.eqb (code c) 12.
(** isblank in the C locale: space and tab *)
Definition isblank (c : ascii) : bool := Nat.eqb (code c) 32 || Nat.eqb (code c) 9.

Definition lpar : ascii := "("%char.
Definition rpar : ascii := ")"%char.
Definition semi : ascii := ";"%char.
Definition bar : ascii := "|"%char.

(** base_parser.cpp:481-521 scanToNextSymbol, the loop; [m] is COMMON or COMMENT *)
Fixpoint scan_loop (m : mode) (t : str) : lx :=
  match t with
  | [] => Lx [] m
  | c :: r =>
      if aeq c nul then Lx t m
      else if isnl c then scan_loop SM_COMMON r
      else match m with
           | SM_COMMON =>
               if isblank c then scan_loop m r
               else if aeq c semi then scan_loop SM_COMMENT r
               else if aeq c bar then Lx t SM_COMP_SYM
               else if aeq c dq then Lx t SM_STRING
               else Lx t SM_SYMBOL
           | _ => scan_loop m r
           end
  end.
Definition scan (t : str) : lx := scan_loop SM_COMMON t.

(** base_parser.cpp:524-543 parseLpar, parseRpar *)
Definition parseLpar (s : lx) : res lx :=
  match txt s with
  | c :: r => if aeq c lpar then Ok (scan r) else Exit
  | [] => Exit
  end.
Definition parseRpar (s : lx) : res lx :=
  match txt s with
  | c :: r => if aeq c rpar then Ok (scan r) else Exit
  | [] => Exit
  end.

(** base_parser.cpp:376-386: the text so far ends in its first 'E' or 'e', and what
    precedes it is a real numeral *)
Definition sci_start (acc : str) : bool :=
  match find_e acc 0 with
  | Some p => Nat.ltb 0 p && Nat.eqb (S p) (length acc) && isReal (firstn p acc)
  | None => false
  end.

(** base_parser.cpp:465-477: the loop met a NUL *)
Definition at_eof (file : bool) (acc rest : str) : res (str * lx) :=
  if file then Exit else Ok (acc, scan rest).

(** base_parser.cpp:371-433, scan mode SM_SYMBOL; [acc] is the text [beg..bufptr) *)
Fixpoint sym_loop (file sci open : bool) (level : Z) (acc rest : str) : res (str * lx) :=
  match rest with
  | [] => at_eof file acc rest
  | c :: r =>
      if aeq c nul then at_eof file acc rest
      else
        let sci := sci || sci_start acc in
        if sci then
          if aeq c lpar then sym_loop file sci true (level + 1) (acc ++ [c]) r
          else if aeq c rpar && open then
            (if level - 1 =? 0 then Ok (acc ++ [c], scan r)
             else sym_loop file sci open (level - 1) (acc ++ [c]) r)
          else if isblank c then sym_loop file sci open level (acc ++ [c]) r
          else if isnl c || aeq c semi || aeq c bar || aeq c dq then Ok (acc, Lx rest SM_SYMBOL)
          else sym_loop file sci open level (acc ++ [c]) r
        else if isblank c || isnl c then Ok (acc, scan r)
        else if aeq c semi || aeq c bar || aeq c dq || aeq c lpar || aeq c rpar
             then Ok (acc, Lx rest SM_SYMBOL)
        else sym_loop file sci open level (acc ++ [c]) r
  end.

(** base_parser.cpp:435-446, scan mode SM_COMP_SYM *)
Fixpoint comp_loop (file : bool) (acc rest : str) : res (str * lx) :=
  match rest with
  | [] => at_eof file acc rest
  | c :: r =>
      if aeq c nul then at_eof file acc rest
      else if aeq c bar then Ok (acc ++ [c], scan r)
      else comp_loop file (acc ++ [c]) r
  end.

(** base_parser.cpp:448-467, scan mode SM_STRING; a doubled quote is skipped *)
Fixpoint str_loop (file : bool) (acc rest : str) : res (str * lx) :=
  match rest with
  | [] => at_eof file acc rest
  | c :: r =>
      if aeq c nul then at_eof file acc rest
      else if aeq c dq then
        match r with
        | d :: r' => if aeq d dq then str_loop file (acc ++ [c; d]) r' else Ok (acc ++ [c], scan r)
        | [] => Ok (acc ++ [c], scan r)
        end
      else str_loop file (acc ++ [c]) r
  end.

(** base_parser.cpp:469-470: any other scan mode; the assertion is compiled out
    of a release build *)
Fixpoint other_loop (dbg file : bool) (acc rest : str) : res (str * lx) :=
  match rest with
  | [] => at_eof file acc rest
  | c :: r =>
      if aeq c nul then at_eof file acc rest
      else condAssert dbg false ;;; other_loop dbg file (acc ++ [c]) r
  end.

(** base_parser.cpp:360-478 getSymbol: the first byte is skipped unseen, so the call
    reads past the buffer when [bufptr] already stands on the final NUL *)
Definition getSymbol (dbg file : bool) (s : lx) : res (str * lx) :=
  match txt s with
  | [] => UB
  | c :: r =>
      match md s with
      | SM_SYMBOL => sym_loop file false false 0 [c] r
      | SM_COMP_SYM => comp_loop file [c] r
      | SM_STRING => str_loop file [c] r
      | _ => other_loop dbg file [c] r
      end
  end.

(** base_parser.cpp:545-583 skipToRpar *)
Fixpoint skip_loop (m : mode) (level : nat) (t : str) : lx :=
  match t with
  | [] => Lx [] m
  | c :: r =>
      if aeq c nul then Lx t m
      else if isnl c then skip_loop (match m with SM_COMMENT => SM_COMMON | _ => m end) level r
      else match m with
           | SM_COMMON =>
               if aeq c lpar then skip_loop m (S level) r
               else if aeq c rpar then
                 match level with O => Lx t m | S l => skip_loop m l r end
               else if aeq c semi then skip_loop SM_COMMENT level r
               else if aeq c bar then skip_loop SM_COMP_SYM level r
               else if aeq c dq then skip_loop SM_STRING level r
               else skip_loop m level r
           | SM_COMP_SYM => if aeq c bar then skip_loop SM_COMMON level r else skip_loop m level r
           | SM_STRING => if aeq c dq then skip_loop SM_COMMON level r else skip_loop m level r
           | _ => skip_loop m level r
           end
  end.
Definition skipToRpar (s : lx) : lx := skip_loop SM_COMMON 0 (txt s).

(** base_parser.cpp:1834-1856 peekSymbol: the position is restored afterwards *)
Definition peekSymbol (dbg file : bool) (s : lx) : res str :=
  let s' := if aeq (cur s) lpar then scan (tl (txt s)) else s in
  r <- getSymbol dbg file s' ;; Ok (fst r).

(** Taking a whole text apart the way the parser does: a parenthesis by parseLpar /
    parseRpar, anything else by getSymbol, until [*bufptr] is NUL.  [rescan]: parseExpr
    calls scanToNextSymbol once more in front of every operator argument
    (expr_parser.cpp:437, 528, 541), commands, sorts, binders and let do not.
    [fuel] bounds the number of tokens. *)
Fixpoint read_all (fuel : nat) (dbg file rescan : bool) (s0 : lx) : res (list str) :=
  match fuel with
  | O => NoFuel
  | S f =>
      let s := if rescan then scan (txt s0) else s0 in
      if aeq (cur s) nul then Ok []
      else if aeq (cur s) lpar then
        s' <- parseLpar s ;; l <- read_all f dbg file rescan s' ;; Ok ([lpar] :: l)
      else if aeq (cur s) rpar then
        s' <- parseRpar s ;; l <- read_all f dbg file rescan s' ;; Ok ([rpar] :: l)
      else
        r <- getSymbol dbg file s ;; l <- read_all f dbg file rescan (snd r) ;; Ok (fst r :: l)
  end.
(** the whole of a text, as parseStr (631-641) starts on it *)
Definition read_text (dbg file rescan : bool) (t : str) : res (list str) :=
  read_all (S (length t)) dbg file rescan (scan t).
