(** Conversions of src/conv_parser.cpp: conjunctive normal form. *)
From Verif Require Import Base KindModel SortModel TermModel BVModel SimpModel OpModel ConvModel.
Open Scope Z_scope.

(** op_parser.cpp:700-709 mkTempVar(Bool): the counter never repeats, so the test for an
    existing name (702-705) never succeeds *)
Definition tmp (n : nat) : term := T NT_TEMP_VAR boolS (L "temp_" ++ Idec (Z.of_nat n)) [].

(** State of a Tseitin run: the counter, [visited], the clauses emitted. *)
Record ts := Ts { ts_n : nat; ts_v : memo; ts_c : list term }.
Definition emit (c : cfg) (S : ts) (ls : list term) : res ts :=
  o <- mkOr c ls ;; Ok (Ts (ts_n S) (ts_v S) (ts_c S ++ [o])).
Fixpoint emits (c : cfg) (S : ts) (lss : list (list term)) : res ts :=
  match lss with [] => Ok S | ls :: r => S' <- emit c S ls ;; emits c S' r end.
Definition fresh (S : ts) : term * ts := (tmp (ts_n S), Ts (Datatypes.S (ts_n S)) (ts_v S) (ts_c S)).
Definition visit (t u : term) (S : ts) : ts := Ts (ts_n S) ((t, u) :: ts_v S) (ts_c S).

(** conv_parser.cpp:299-331 toTseitinXor *)
Definition tsXor (c : cfg) (a b : term) (S : ts) : res (term * ts) :=
  let '(v, S1) := fresh S in
  nv <- mkNot c v ;; na <- mkNot c a ;; nb <- mkNot c b ;;
  S2 <- emits c S1 [[nv; na; nb]; [nv; a; b]; [v; na; b]; [v; a; nb]] ;; Ok (v, S2).
(** conv_parser.cpp:334-353 toTseitinEq *)
Definition tsEq (c : cfg) (a b : term) (S : ts) : res (term * ts) :=
  let '(v, S1) := fresh S in
  nv <- mkNot c v ;; na <- mkNot c a ;; nb <- mkNot c b ;;
  S2 <- emits c S1 [[nv; a; nb]; [nv; na; b]; [v; a; b]; [v; na; nb]] ;; Ok (v, S2).
(** conv_parser.cpp:356-375 toTseitinDistinct *)
Definition tsDistinct (c : cfg) (a b : term) (S : ts) : res (term * ts) :=
  let '(v, S1) := fresh S in
  nv <- mkNot c v ;; na <- mkNot c a ;; nb <- mkNot c b ;;
  S2 <- emits c S1 [[nv; a; b]; [nv; na; nb]; [v; na; b]; [v; a; nb]] ;; Ok (v, S2).
(** conv_parser.cpp:421-445 (conjunction) and 446-472 (disjunction), after the children *)
Definition tsAnd (c : cfg) (us : list term) (S : ts) : res (term * ts) :=
  let '(v, S1) := fresh S in
  nv <- mkNot c v ;; ns <- mapM (mkNot c) us ;;
  S2 <- emits c S1 (map (fun u => [nv; u]) us ++ [ns ++ [v]]) ;; Ok (v, S2).
Definition tsOr (c : cfg) (us : list term) (S : ts) : res (term * ts) :=
  let '(v, S1) := fresh S in
  nv <- mkNot c v ;; ns <- mapM (mkNot c) us ;;
  S2 <- emits c S1 (map (fun n => [n; v]) ns ++ [us ++ [nv]]) ;; Ok (v, S2).
(** conv_parser.cpp:473-506 (implication), after the children *)
Definition tsImplies (c : cfg) (us : list term) (S : ts) : res (term * ts) :=
  let '(v, S1) := fresh S in
  nv <- mkNot c v ;; ns <- mapM (mkNot c) us ;;
  S2 <- emits c S1 [nv :: removelast ns ++ [last us v]; ns ++ [v]] ;; Ok (v, S2).
(** conv_parser.cpp:614-634 (if-then-else), after the children *)
Definition tsIte (c : cfg) (a b d : term) (S : ts) : res (term * ts) :=
  let '(v, S1) := fresh S in
  nv <- mkNot c v ;; na <- mkNot c a ;; nb <- mkNot c b ;; nd <- mkNot c d ;;
  S2 <- emits c S1 [[nv; na; b]; [nv; a; d]; [v; na; nb]; [v; a; nd]] ;; Ok (v, S2).
Fixpoint tsXors (c : cfg) (a : term) (us : list term) (S : ts) : res (term * ts) :=
  match us with
  | [] => Ok (a, S)
  | b :: r => p <- tsXor c a b S ;; tsXors c (fst p) r (snd p)
  end.
(** conv_parser.cpp:549-560: the first child against each of the others *)
Fixpoint tsEqs (c : cfg) (a : term) (us : list term) (S : ts) : res (list term * ts) :=
  match us with
  | [] => Ok ([], S)
  | b :: r => p <- tsEq c a b S ;; q <- tsEqs c a r (snd p) ;; Ok (fst p :: fst q, snd q)
  end.

(** conv_parser.cpp:376-640 toTseitinCNF(expr, visited, clauses); [m] is cnf_map.  For
    equalities with several children (549-560) the code converts each child just before it
    is used, here all children are converted first: only the numbers of the temporaries
    differ.  An atom without an entry gives a null node: a failed assertion or undefined
    behaviour later. *)
Fixpoint tseitin (c : cfg) (m : memo) (t : term) (S : ts) {struct t} : res (term * ts) :=
  at_ <- isAtom t ;;
  if at_ then match mfind t m with Some u => Ok (u, S) | None => if c_dbg c then Abort else UB end
  else
    l <- isLiteral t ;;
    if l || isk NT_TEMP_VAR t then Ok (t, S)
    else
      match mfind t (ts_v S) with
      | Some u => Ok (u, S)
      | None =>
          match t with
          | T k s n ch =>
              let go := (fix go (l : list term) (S : ts) : res (list term * ts) :=
                           match l with
                           | [] => Ok ([], S)
                           | x :: l' => p <- tseitin c m x S ;; q <- go l' (snd p) ;; Ok (fst p :: fst q, snd q)
                           end) in
              let memo_ (r : res (term * ts)) := p <- r ;; Ok (fst p, visit t (fst p) (snd p)) in
              let one (f : list term -> ts -> res (term * ts)) :=
                p <- go ch S ;;
                match fst p with
                | [u] => lu <- isLiteral u ;; condAssert (c_dbg c) lu ;;; Ok (u, snd p)
                | us => memo_ (f us (snd p))
                end in
              let isB := forallb (sis SK_BOOL) ch in
              match k with
              | NT_NOT =>
                  match ch with
                  | a :: _ => memo_ (let '(v, S1) := fresh S in
                                     nv <- mkNot c v ;; na <- mkNot c a ;;
                                     S2 <- emits c S1 [[nv; na]; [a; v]] ;; Ok (v, S2))
                  | [] => UB
                  end
              | NT_AND => one (tsAnd c)
              | NT_OR => one (tsOr c)
              | NT_IMPLIES => one (tsImplies c)
              | NT_XOR =>
                  p <- go ch S ;;
                  match fst p with [] => UB | a :: us => memo_ (tsXors c a us (snd p)) end
              | _ =>
                  if isEq t then
                    if isB then
                      p <- go ch S ;;
                      match fst p with
                      | [] => UB
                      | [u] => memo_ (Ok (u, snd p))
                      | [a; b] => memo_ (tsEq c a b (snd p))
                      | a :: us => memo_ (q <- tsEqs c a us (snd p) ;; tsAnd c (fst q) (snd q))
                      end
                    else Exit
                  else
                    match isDistinct t, ch with
                    | true, a :: b :: tl =>
                        if sis SK_BOOL a && sis SK_BOOL b then
                          if isB then
                            match tl with
                            | [] => p <- go ch S ;;
                                    match fst p with
                                    | [a; b] => memo_ (tsDistinct c a b (snd p))
                                    | _ => UB
                                    end
                            | _ => Ok (FALSE, S)
                            end
                          else Ok (t, S)
                        else Exit
                    | true, _ => UB
                    | false, _ =>
                        if isk NT_ITE t then
                          match ch with
                          | a :: b :: d :: _ =>
                              if sis SK_BOOL b && sis SK_BOOL d then
                                pa <- tseitin c m a S ;; pb <- tseitin c m b (snd pa) ;; pd <- tseitin c m d (snd pb) ;;
                                memo_ (tsIte c (fst pa) (fst pb) (fst pd) (snd pd))
                              else Exit
                          | _ => UB
                          end
                        else Exit
                    end
              end
          end
      end.

(** conv_parser.cpp:642-686 isCNF *)
Fixpoint allM (f : term -> res bool) (l : list term) : res bool :=
  match l with [] => Ok true | x :: r => b <- f x ;; bs <- allM f r ;; Ok (b && bs) end.
Definition isClause (t : term) : res bool := if isk NT_OR t then allM isLiteral (t_ch t) else isLiteral t.
Definition isCNF (t : term) : res bool :=
  if isk NT_AND t then allM isClause (t_ch t) else isClause t.

(** conv_parser.cpp:45-60 collectAtoms.  The result is a set; [dedup] keeps one of each *)
Fixpoint atoms (t : term) : res (list term) :=
  b <- isAtom t ;;
  if b : bool then Ok [t]
  else match t with
       | T _ _ _ ch => (fix go (l : list term) : res (list term) :=
                          match l with [] => Ok [] | x :: r => a <- atoms x ;; b <- go r ;; Ok (a ++ b) end) ch
       end.

(** parser.h: temp_var_counter, cnf_map, cnf_atom_map (new variable to atom) *)
Record cnfst := CnfSt { cs_n : nat; cs_map : memo; cs_atoms : memo }.
(** conv_parser.cpp:831-851, 914-934: a variable for each atom.  Returns atom_map. *)
Fixpoint name_atoms (c : cfg) (as_ : list term) (am : memo) (S : cnfst) : res (memo * cnfst) :=
  match as_ with
  | [] => Ok (am, S)
  | a :: r =>
      if isVBool a then name_atoms c r am S
      else
        let v := tmp (cs_n S) in
        na <- mkNot c a ;; nv <- mkNot c v ;;
        name_atoms c r ((na, nv) :: (a, v) :: am)
          (CnfSt (Datatypes.S (cs_n S)) ((na, nv) :: (a, v) :: cs_map S) ((nv, na) :: (v, a) :: cs_atoms S))
  end.
(** conv_parser.cpp:895-975 toCNF(expr); [ord] is the unspecified iteration order of the
    set of atoms *)
Definition toCNF1 (c : cfg) (ord : list term -> list term) (t : term) (S : cnfst) : res (term * cnfst) :=
  match mfind t (cs_map S) with
  | Some u => Ok (u, S)
  | None =>
      r <- toNNF c t ;;
      done <- isCNF r ;;
      as_ <- atoms r ;;
      p <- name_atoms c (ord (dedup [] as_)) [] S ;;
      let '(am, S1) := p in
      r' <- (match am with [] => Ok r | _ => replaceAtoms c am r end) ;;
      q <- (if done : bool then Ok (r', S1)
            else
              x <- tseitin c (cs_map S1) r' (Ts (cs_n S1) [] []) ;;
              let '(l, S2) := x in
              u <- (match ts_c S2 with [] => Ok l | _ => mkAnd c (ts_c S2 ++ [l]) end) ;;
              Ok (u, CnfSt (ts_n S2) (cs_map S1) (cs_atoms S1))) ;;
      let '(u, S3) := q in
      Ok (u, CnfSt (cs_n S3) ((r, u) :: cs_map S3) (cs_atoms S3))
  end.

(** conv_parser.cpp:688-717 eliminateTopContinuousAnd, 719-767 eliminateContinuousOr: a
    stack, so the children of a node appear in reverse order *)
Fixpoint flat (k : kind) (t : term) : list term :=
  match t with
  | T k' _ _ ch =>
      if keq k' k then (fix go (l acc : list term) : list term :=
                          match l with [] => acc | x :: r => go r (flat k x ++ acc) end) ch []
      else [t]
  end.
Definition elimAnd (ts : list term) : list term * bool :=
  (flat_map (flat NT_AND) ts, existsb (isk NT_AND) ts).
(** [ch] becomes true at the first nested disjunction and stays true for the later terms *)
Fixpoint elimOr (c : cfg) (ts : list term) (ch : bool) : res (list term * bool) :=
  match ts with
  | [] => Ok ([], ch)
  | t :: r =>
      if isk NT_OR t then
        let ch' := ch || existsb (isk NT_OR) (t_ch t) in
        t' <- (if ch' then mkOr c (flat NT_OR t) else Ok t) ;;
        p <- elimOr c r ch' ;; Ok (t' :: fst p, snd p)
      else p <- elimOr c r ch ;; Ok (t :: fst p, snd p)
  end.
(** conv_parser.cpp:769-790 eliminateTopRedandancy *)
Fixpoint elimTop (fuel : nat) (c : cfg) (ts : list term) : res (list term) :=
  match fuel with
  | O => NoFuel
  | Datatypes.S f =>
      let '(ts1, b1) := elimAnd ts in
      p <- elimOr c ts1 false ;;
      let '(ts2, b2) := p in
      if b1 || b2 then elimTop f c ts2 else Ok ts2
  end.
Definition elim_fuel (ts : list term) : nat := Datatypes.S (fold_right (fun t a => tsize t + a)%nat O ts).
Fixpoint replAll (c : cfg) (am : memo) (ts : list term) : res (list term) :=
  match ts with
  | [] => Ok []
  | t :: r => t' <- (match am with [] => Ok t | _ => replaceAtoms c am t end) ;; r' <- replAll c am r ;; Ok (t' :: r')
  end.
Fixpoint atomsL (ts : list term) : res (list term) :=
  match ts with [] => Ok [] | x :: r => a <- atoms x ;; b <- atomsL r ;; Ok (a ++ b) end.
(** conv_parser.cpp:793-892 toCNF(exprs) *)
Definition toCNF (c : cfg) (ord : list term -> list term) (ts : list term) (S0 : cnfst) : res (term * cnfst) :=
  let S := CnfSt (cs_n S0) [] [] in
  rs <- mapM (toNNF c) ts ;;
  rs <- elimTop (elim_fuel rs) c rs ;;
  match rs with
  | [] => Ok (TRUE, S)
  | _ =>
      done <- allM isClause rs ;;
      as_ <- atomsL rs ;;
      p <- name_atoms c (ord (dedup [] as_)) [] S ;;
      let '(am, S1) := p in
      rs' <- replAll c am rs ;;
      r <- mkAnd c rs' ;;
      q <- (if done : bool then Ok (r, S1) else toCNF1 c ord r S1) ;;
      let '(u, S2) := q in
      Ok (u, CnfSt (cs_n S2) ((r, u) :: cs_map S2) (cs_atoms S2))
  end.
