(** Conversions of src/conv_parser.cpp: disjunctive normal form. *)
From Verif Require Import Base KindModel SortModel TermModel BVModel SimpModel OpModel ConvModel.
Open Scope Z_scope.

(** conv_parser.cpp:1408-1435 toDNFEliminateXOR on two or more children: the last one against
    the conversion of the others.  (With one child it calls toDNFEliminateAll on it; a xor of one
    argument is never built, such a node runs out of fuel here.) *)
Definition dnfXor2 (c : cfg) (a b : term) : res term :=
  nb <- mkNot c b ;; x <- mkAnd c [a; nb] ;; na <- mkNot c a ;; y <- mkAnd c [na; b] ;; mkOr c [x; y].
Fixpoint dnfXors (c : cfg) (a : term) (us : list term) : res term :=
  match us with [] => Ok a | b :: r => x <- dnfXor2 c a b ;; dnfXors c x r end.
Definition dnfXor (c : cfg) (us : list term) : res term :=
  match us with [] => Ok FALSE | [_] => NoFuel | a :: r => dnfXors c a r end.
(** conv_parser.cpp:1438-1462 toDNFEliminateEq *)
Definition dnfEq2 (c : cfg) (a b : term) : res term :=
  x <- mkAnd c [a; b] ;; na <- mkNot c a ;; nb <- mkNot c b ;; y <- mkAnd c [na; nb] ;; mkOr c [x; y].
Definition dnfEq (c : cfg) (us : list term) : res term :=
  match us with
  | [] | [_] => Ok TRUE
  | [a; b] => dnfEq2 c a b
  | _ => xs <- pairs_next (dnfEq2 c) us ;; mkAnd c xs
  end.
(** conv_parser.cpp:1465-1484 toDNFEliminateDistinct *)
Definition dnfDistinct (c : cfg) (us : list term) : res term :=
  match us with [] | [_] => Ok TRUE | [a; b] => dnfXor2 c a b | _ => Ok FALSE end.

(** conv_parser.cpp:1007-1174 toDNFEliminateAll(expr, visited, is_changed): [b] is the value of
    is_changed on entry; the result, is_changed on exit, [visited].  not, and, or, = and distinct
    pass a fresh flag to their children and collect it; =>, ite and xor pass their own.
    NT_LET is never built by the library (see ConvModel.nnf); such a node ends in the last
    branch here. *)
Definition el_fresh (f : term -> memo -> bool -> res (term * bool * memo)) :=
  fix go (l : list term) (V : memo) (b : bool) : res (list term * bool * memo) :=
    match l with
    | [] => Ok ([], b, V)
    | x :: l' =>
        p <- f x V false ;; let '(u, bu, V1) := p in
        q <- go l' V1 (b || bu) ;; let '(us, b', V2) := q in Ok (u :: us, b', V2)
    end.
Definition el_pass (f : term -> memo -> bool -> res (term * bool * memo)) :=
  fix go (l : list term) (V : memo) (b : bool) : res (list term * bool * memo) :=
    match l with
    | [] => Ok ([], b, V)
    | x :: l' =>
        p <- f x V b ;; let '(u, bu, V1) := p in
        q <- go l' V1 bu ;; let '(us, b', V2) := q in Ok (u :: us, b', V2)
    end.
Fixpoint elim (c : cfg) (t : term) (V : memo) (b : bool) {struct t} : res (term * bool * memo) :=
  l <- isLiteral t ;;
  a <- (if l : bool then Ok true else isAtom t) ;;
  if a || isk NT_TEMP_VAR t then Ok (t, b, V)
  else
    match mfind t V with
    | Some u => Ok (u, b, V)
    | None =>
        match t with
        | T k s n ch =>
            let fresh := el_fresh (elim c) in
            let pass := el_pass (elim c) in
            let store (u : term) (b : bool) (V : memo) : res (term * bool * memo) := Ok (u, b, (t, u) :: V) in
            match k with
            | NT_NOT =>
                match ch with
                | [] => UB
                | x :: _ => p <- elim c x V false ;; let '(u, bu, V1) := p in r <- mkNot c u ;; store r (b || bu) V1
                end
            | NT_AND => p <- fresh ch V b ;; let '(us, b', V1) := p in if b' : bool then r <- mkAnd c us ;; store r true V1 else store t false V1
            | NT_OR => p <- fresh ch V b ;; let '(us, b', V1) := p in if b' : bool then r <- mkOr c us ;; store r true V1 else store t false V1
            | NT_IMPLIES =>
                match ch with
                | x :: y :: _ =>
                    p <- elim c x V b ;; let '(u, b1, V1) := p in
                    q <- elim c y V1 b1 ;; let '(v, _, V2) := q in
                    nu <- mkNot c u ;; r <- mkOr c [nu; v] ;; store r true V2
                | _ => UB
                end
            | NT_ITE =>
                match ch with
                | x :: y :: z :: _ =>
                    p <- elim c x V b ;; let '(u, b1, V1) := p in
                    q <- elim c y V1 b1 ;; let '(v, b2, V2) := q in
                    o <- elim c z V2 b2 ;; let '(w, _, V3) := o in
                    nu <- mkNot c u ;; r1 <- mkOr c [nu; v] ;; r2 <- mkOr c [u; w] ;; r <- mkAnd c [r1; r2] ;; store r true V3
                | _ => UB
                end
            | NT_XOR => p <- pass ch V b ;; let '(us, _, V1) := p in r <- dnfXor c us ;; store r true V1
            | _ =>
                if isEq t then
                  if forallb (sis SK_BOOL) ch then
                    p <- fresh ch V b ;; let '(us, _, V1) := p in r <- dnfEq c us ;; store r true V1
                  else Exit
                else if isDistinct t then
                  if forallb (sis SK_BOOL) ch then
                    p <- fresh ch V b ;; let '(us, _, V1) := p in r <- dnfDistinct c us ;; store r true V1
                  else Exit
                else Exit
            end
        end
    end.
(** conv_parser.cpp:996-1005: until nothing changes; [visited] is kept *)
Fixpoint elimLoop (fuel : nat) (c : cfg) (t : term) (V : memo) : res term :=
  match fuel with
  | O => NoFuel
  | S f => p <- elim c t V false ;; let '(u, b, V1) := p in if b : bool then elimLoop f c u V1 else Ok u
  end.
Definition dnf_rounds : nat := 1000.
Definition toDNFEliminateAll (c : cfg) (t : term) : res term := elimLoop dnf_rounds c t [].

(** conv_parser.cpp:1184-1249 flattenDNF: a child of the same connective is replaced by its
    children, one level only; then doubles are removed *)
Definition fl_children (f : term -> res term) (k : kind) :=
  fix go (l : list term) : res (list term) :=
    match l with
    | [] => Ok []
    | x :: l' =>
        us <- (match x with
               | T k' _ _ ch =>
                   if keq k' k then
                     (fix go2 (m : list term) : res (list term) :=
                        match m with [] => Ok [] | y :: m' => u <- f y ;; us <- go2 m' ;; Ok (u :: us) end) ch
                   else u <- f x ;; Ok [u]
               end) ;;
        vs <- go l' ;; Ok (us ++ vs)
    end.
Fixpoint flattenDNF (c : cfg) (t : term) : res term :=
  match t with
  | T k s n ch =>
      if keq k NT_OR || keq k NT_AND then
        us <- fl_children (flattenDNF c) k ch ;;
        match dedup [] us with
        | [u] => Ok u
        | vs => mkJunction c k vs
        end
      else Ok t
  end.

(** conv_parser.cpp:1316-1351: the literals of a term: the children of a conjunction *)
Definition cube (t : term) : list term := if isk NT_AND t then t_ch t else [t].
(** conv_parser.cpp:1308-1345: every child of [d] with every child of [o] *)
Definition distribute (c : cfg) (d o : term) : res term :=
  ts <- mapM (fun p : term * term => mkAnd c (cube (fst p) ++ cube (snd p))) (flat_map (fun x => map (fun y => (x, y)) (t_ch o)) (t_ch d)) ;;
  mkOr c ts.
(** conv_parser.cpp:1348-1370: the other conjuncts are added to every child *)
Definition addTerms (c : cfg) (d : term) (xs : list term) : res term :=
  ts <- mapM (fun y => mkAnd c (cube y ++ xs)) (t_ch d) ;; mkOr c ts.
(** conv_parser.cpp:1289-1374 the conjunction of converted children *)
Definition dnfAnd (c : cfg) (us : list term) : res term :=
  let os := filter (isk NT_OR) us in
  let xs := filter (fun u => negb (isk NT_OR u)) us in
  match os with
  | [] => mkAnd c xs
  | d :: os' =>
      d' <- foldM (distribute c) d os' ;;
      match xs with [] => Ok d' | _ => addTerms c d' xs end
  end.
(** conv_parser.cpp:1264-1288 the disjunction of converted children *)
Definition dnfOr (c : cfg) (us : list term) : res term :=
  mkOr c (flat_map (fun u => if isk NT_OR u then t_ch u else [u]) us).
(** conv_parser.cpp:1252-1404 applyDNFDistributiveLawRec; the constructors are deterministic and
    the result of a node depends on the node alone, so [visited] is left out *)
Definition dist_list (f : term -> res term) :=
  fix go (l : list term) : res (list term) := match l with [] => Ok [] | x :: l' => u <- f x ;; us <- go l' ;; Ok (u :: us) end.
Fixpoint dist (c : cfg) (t : term) : res term :=
  l <- isLiteral t ;;
  a <- (if l : bool then Ok true else isAtom t) ;;
  if a || isk NT_TEMP_VAR t then Ok t
  else match t with
       | T k _ _ ch =>
           match k with
           | NT_NOT => Ok t
           | NT_OR => us <- dist_list (dist c) ch ;; dnfOr c us
           | NT_AND => us <- dist_list (dist c) ch ;; dnfAnd c us
           | _ => Exit
           end
       end.
(** conv_parser.cpp:1176-1181 applyDNFDistributiveLaw *)
Definition applyDNF (c : cfg) (t : term) : res term := u <- dist c t ;; flattenDNF c u.
(** conv_parser.cpp:984-993 toDNF(expr), 976-981 toDNF(exprs) *)
Definition toDNF (c : cfg) (t : term) : res term :=
  u <- toDNFEliminateAll c t ;; v <- toNNF c u ;; applyDNF c v.
Definition toDNFs (c : cfg) (ts : list term) : res term := t <- mkAnd c ts ;; toDNF c t.
