(** Model of Parser::parseModel (src/base_parser.cpp:2364-2631): reading a model as a solver prints it. *)
From Verif Require Import Base KindModel SortModel TermModel SimpModel OpModel LexModel ParseModel CommandModel TraverseModel.

(** the white space tests of 2444, 2466 (four characters) and of 2371, 2384 (six) *)
Definition ws4 (c : ascii) : bool := Nat.eqb (code c) 32 || Nat.eqb (code c) 9 || Nat.eqb (code c) 10 || Nat.eqb (code c) 13.
Definition ws6 (c : ascii) : bool := ws4 c || Nat.eqb (code c) 11 || Nat.eqb (code c) 12.
Fixpoint drop (f : ascii -> bool) (t : str) : str :=
  match t with [] => [] | c :: r => if f c then drop f r else t end.
Definition first (t : str) : ascii := match t with [] => nul | c :: _ => c end.
Definition parc (c : ascii) : bool := aeq c lpar || aeq c rpar.
(** 2381-2396: a name that starts with a parenthesis, up to white space before a parenthesis *)
Fixpoint raw_name (t : str) : str * str :=
  match t with
  | [] => ([], [])
  | c :: r => if aeq c nul then ([], t)
              else if ws6 c && parc (first (drop ws6 r)) then ([], t)
              else let q := raw_name r in (c :: fst q, snd q)
  end.
Definition quoted (n : str) : str := bar :: n ++ [bar].
(** 2366-2413 parseModelSymbolName *)
Definition mname (x : pcfg) (s : cs) : res (str * cs) :=
  if atc lpar s then
    if parc (first (drop ws6 (tl (txt (sl s))))) then Ok ([bar; bar], s)
    else let q := raw_name (txt (sl s)) in Ok (quoted (fst q), CS (sp s) (scan (snd q)))
  else
    n <- sym x s ;;
    let c := code (first (fst n)) in
    Ok (match fst n with
        | [] => []
        | _ => if ((48 <=? c) && (c <=? 57))%nat || aeq (first (fst n)) rpar || aeq (first (fst n)) semi
               then quoted (fst n) else fst n
        end, snd n).
(** 2438-2461: the opening parenthesis, with or without the word model *)
Definition is_model (t : str) : bool :=
  let u := drop ws4 t in
  is_prefix (L "model") u && (let c := first (skipn 5 u) in ws4 c || aeq c lpar).
Definition mheader (x : pcfg) (s : cs) : res cs :=
  if atc lpar s then
    s1 <- lparc s ;;
    if is_model (tl (txt (sl s))) then n <- sym x s1 ;; Ok (snd n) else Ok s1
  else Ok s.
(** 2465-2470, 2526-2531: white space at the head of both loops *)
Definition skip4 (s : cs) : cs := CS (sp s) (Lx (drop ws4 (txt (sl s))) (md (sl s))).
(** 2491-2497, 2555-2560: one parameter; its name is not used *)
Definition mparam (x : pcfg) (s : cs) : res (sort * cs) :=
  s1 <- lparc s ;; n <- sym x s1 ;; t <- psort' x (snd n) ;; s2 <- rparc (snd t) ;; Ok (fst t, s2).
Definition to_end (s : cs) : res cs := rparc (skipc s).
(** 2477-2519: one entry in the first pass; function_names is the list *)
Definition entry1 (x : pcfg) (s : cs) (fs : list str) : res (cs * list str) :=
  s1 <- lparc s ;; k <- sym x s1 ;;
  if negb (seqs (fst k) "define-fun") then s2 <- to_end (snd k) ;; Ok (s2, fs)
  else
    n <- mname x (snd k) ;; s2 <- lparc (snd n) ;; ps <- many' (mparam x) s2 ;; s3 <- rparc (snd ps) ;;
    t <- psort' x s3 ;;
    match fst ps with
    | [] => s4 <- to_end (snd t) ;; Ok (s4, fs)
    | _ => f <- mkFuncDec (fst n) (fst ps) (fst t) (snd t) ;;
           s4 <- to_end (snd f) ;; Ok (s4, if existsb (seq_str (fst n)) fs then fs else fs ++ [fst n])
    end.
(** 2538-2604: one entry in the second pass; parseSort never gives a null pointer *)
Definition entry2 (x : pcfg) (only : bool) (s : cs) (m : model) : res (cs * model) :=
  s1 <- lparc s ;; k <- sym x s1 ;;
  if negb (seqs (fst k) "define-fun") then s2 <- to_end (snd k) ;; Ok (s2, m)
  else
    n <- mname x (snd k) ;; s2 <- lparc (snd n) ;;
    let has := negb (atc rpar s2) in
    ps <- many' (mparam x) s2 ;; s3 <- rparc (snd ps) ;;
    if has then s4 <- to_end s3 ;; Ok (s4, m)
    else
      t <- psort' x s3 ;;
      if only && match mget (fst n) (p_var (sp (snd t))) with Some _ => false | None => true end
      then s4 <- to_end (snd t) ;; Ok (s4, m)
      else
        let v := mkVar (fst t) (fst n) (snd t) in
        e <- pexpr' x (snd v) ;;
        m' <- (if isErr (fst e) then Ok m else m_add (fst v) (fst e) m) ;;
        s4 <- rparc (snd e) ;; Ok (s4, m').
(** 2463-2521 and 2523-2604: the loops.  An exception leaves through the catch clause with what has been
    collected: the second component says whether the loop came to its end.  After an exception
    the tables are given as before the entry in which it was thrown. *)
Fixpoint eloop {A} (f : cs -> A -> res (cs * A)) (fuel : nat) (s : cs) (a : A) : res (cs * A * bool) :=
  match fuel with
  | O => NoFuel
  | S n =>
      let s := skip4 s in
      if negb (atc lpar s) then Ok (s, a, true)
      else match f s a with
           | Ok r => eloop f n (fst r) (snd r)
           | Throw _ => Ok (s, a, false)
           | Exit => Exit | Abort => Abort | UB => UB | NoFuel => NoFuel
           end
  end.
(** 2416-2611 parseModel; parsing_file is false meanwhile and restored; line numbers are left out *)
Definition parseModel (b : pcfg) (t : str) (only : bool) (q : parser) : res (model * parser) :=
  match t with
  | [] => Ok (newModel, q)
  | _ =>
      let g := q_g q in
      let x := xo b false (g_opt g) in
      match mheader x (CS (q_p q) (scan t)) with
      | Throw _ => Ok (newModel, q)
      | Ok s =>
          r1 <- eloop (entry1 x) (S (length t)) s (g_funs g) ;;
          let s1 := fst (fst r1) in
          let q1 := Parser (sp s1) (set_funs (snd (fst r1)) g) (q_res q) (q_file q) in
          if snd r1 then
            r2 <- eloop (entry2 x only) (S (length t)) (CS (sp s1) (Lx (txt (sl s)) (md (sl s1)))) newModel ;;
            Ok (snd (fst r2), Parser (sp (fst (fst r2))) (q_g q1) (q_res q) (q_file q))
          else Ok (newModel, q1)
      | Exit => Exit | Abort => Abort | UB => UB | NoFuel => NoFuel
      end
  end.
(** 260-266, 2613-2622 newEmptyModel; [vars] lists the declared variables in the order of the unordered map *)
Definition newEmptyModel (vars : list term) : model := fold_left (fun m v => m_addVar v m) vars newModel.
