(** Model of the expression parser: parseExpr, parseConstFunc, parseOper (src/expr_parser.cpp),
    parseSort, parseLet, parsePreservingLet, parseQuant (src/base_parser.cpp) over the
    scanner of LexModel.v. *)
From Verif Require Import Base KindModel SortModel TermModel UtilModel LexModel SimpModel OpModel.
Open Scope Z_scope.

(** ** name tables (std::unordered_map keyed by std::string) *)
Definition smap (A : Type) := list (str * A).
Fixpoint mget {A} (k : str) (m : smap A) : option A :=
  match m with [] => None | (x, a) :: m' => if seq_str x k then Some a else mget k m' end.
(** erase *)
Definition mdel {A} (k : str) (m : smap A) : smap A := filter (fun p => negb (seq_str (fst p) k)) m.
(** insert: keeps an existing entry *)
Definition mins {A} (k : str) (a : A) (m : smap A) : smap A :=
  match mget k m with Some _ => m | None => (k, a) :: m end.
(** operator[] on the left of an assignment *)
Definition mset {A} (k : str) (a : A) (m : smap A) : smap A := (k, a) :: mdel k m.

(** include/parser.h:118-160: the members of Parser read or written while an expression is
    parsed.  [p_ld] is let_nesting_depth; current_let_mode differs from LM_NON_LET exactly when
    it is positive (expr_parser.cpp:357-379; before the first let the member is not initialised,
    and the map it guards is empty).  [p_qd] is quant_nesting_depth; in_quantifier_scope is true exactly
    when it is positive (205-216).  A null placeholder_var_sort stands for Real
    (op_parser.cpp:729). *)
Record pst := Pst {
  p_let : smap term;      (* let_key_map *)
  p_plet : smap term;     (* preserving_let_key_map *)
  p_ctr : Z;              (* preserving_let_counter *)
  p_ld : nat; p_quant : smap term; p_qd : nat;
  p_fun : smap term;      (* fun_key_map *)
  p_fv : smap term;       (* fun_var_map *)
  p_var : smap term;      (* var_names, with the node *)
  p_srt : smap sort;      (* sort_key_map *)
  p_named : smap term;    (* context_.named_assertions *)
  p_ph : smap term;       (* placeholder_var_names, with the node *)
  p_aph : bool; p_phs : sort }.  (* allow_placeholder_vars, placeholder_var_sort *)
Definition set_let m p := Pst m (p_plet p) (p_ctr p) (p_ld p) (p_quant p) (p_qd p) (p_fun p) (p_fv p) (p_var p) (p_srt p) (p_named p) (p_ph p) (p_aph p) (p_phs p).
Definition set_plet m p := Pst (p_let p) m (p_ctr p) (p_ld p) (p_quant p) (p_qd p) (p_fun p) (p_fv p) (p_var p) (p_srt p) (p_named p) (p_ph p) (p_aph p) (p_phs p).
Definition set_ld n p := Pst (p_let p) (p_plet p) (p_ctr p) n (p_quant p) (p_qd p) (p_fun p) (p_fv p) (p_var p) (p_srt p) (p_named p) (p_ph p) (p_aph p) (p_phs p).
Definition set_ctr n p := Pst (p_let p) (p_plet p) n (p_ld p) (p_quant p) (p_qd p) (p_fun p) (p_fv p) (p_var p) (p_srt p) (p_named p) (p_ph p) (p_aph p) (p_phs p).
Definition set_quant m p := Pst (p_let p) (p_plet p) (p_ctr p) (p_ld p) m (p_qd p) (p_fun p) (p_fv p) (p_var p) (p_srt p) (p_named p) (p_ph p) (p_aph p) (p_phs p).
Definition set_qd n p := Pst (p_let p) (p_plet p) (p_ctr p) (p_ld p) (p_quant p) n (p_fun p) (p_fv p) (p_var p) (p_srt p) (p_named p) (p_ph p) (p_aph p) (p_phs p).
Definition set_fun m p := Pst (p_let p) (p_plet p) (p_ctr p) (p_ld p) (p_quant p) (p_qd p) m (p_fv p) (p_var p) (p_srt p) (p_named p) (p_ph p) (p_aph p) (p_phs p).
Definition set_fv m p := Pst (p_let p) (p_plet p) (p_ctr p) (p_ld p) (p_quant p) (p_qd p) (p_fun p) m (p_var p) (p_srt p) (p_named p) (p_ph p) (p_aph p) (p_phs p).
Definition set_var m p := Pst (p_let p) (p_plet p) (p_ctr p) (p_ld p) (p_quant p) (p_qd p) (p_fun p) (p_fv p) m (p_srt p) (p_named p) (p_ph p) (p_aph p) (p_phs p).
Definition set_srt m p := Pst (p_let p) (p_plet p) (p_ctr p) (p_ld p) (p_quant p) (p_qd p) (p_fun p) (p_fv p) (p_var p) m (p_named p) (p_ph p) (p_aph p) (p_phs p).
Definition set_named m p := Pst (p_let p) (p_plet p) (p_ctr p) (p_ld p) (p_quant p) (p_qd p) (p_fun p) (p_fv p) (p_var p) (p_srt p) m (p_ph p) (p_aph p) (p_phs p).
Definition set_ph m p := Pst (p_let p) (p_plet p) (p_ctr p) (p_ld p) (p_quant p) (p_qd p) (p_fun p) (p_fv p) (p_var p) (p_srt p) (p_named p) m (p_aph p) (p_phs p).
Definition set_aph b s p := Pst (p_let p) (p_plet p) (p_ctr p) (p_ld p) (p_quant p) (p_qd p) (p_fun p) (p_fv p) (p_var p) (p_srt p) (p_named p) (p_ph p) b s.
(** base_parser.cpp:36-70 Parser::Parser() *)
Definition pst0 : pst := Pst [] [] 0 0 [] 0 [] [] [] [] [] [] false realS.

(** What the parser depends on besides its state:
    - [x_c]: see SimpModel.v; [x_file]: parsing_file; [x_keep]: options->parsing_preserve_let
      (true by default);
    - [x_apply f args]: applyFun (base_parser.cpp:1857-1911), modelled in ApplyModel.v;
    - [x_oper k fargs args]: the constructors parseOper reaches for the kinds not modelled in
      OpModel.v (arithmetic functions, bit-vector arithmetic, floating point, arrays,
      strings, regular expressions);
    - [x_sci]: ConversionUtils::parseScientificNotation; [x_str]: toString of a node, used in
      the names of root objects. *)
Record pcfg := PCfg {
  x_c : cfg; x_file : bool; x_keep : bool;
  x_apply : term -> list term -> res term;
  x_oper : kind -> list term -> list term -> res term;
  x_sci : str -> str; x_str : term -> str }.

(** parser state and position *)
Record cs := CS { sp : pst; sl : lx }.
Definition onp (f : pst -> pst) (s : cs) : cs := CS (f (sp s)) (sl s).

(** the scanner on the combined state *)
Definition sym (x : pcfg) (s : cs) : res (str * cs) :=
  r <- getSymbol (c_dbg (x_c x)) (x_file x) (sl s) ;; Ok (fst r, CS (sp s) (snd r)).
Definition lparc (s : cs) : res cs := l <- parseLpar (sl s) ;; Ok (CS (sp s) l).
Definition rparc (s : cs) : res cs := l <- parseRpar (sl s) ;; Ok (CS (sp s) l).
Definition scanc (s : cs) : cs := CS (sp s) (scan (txt (sl s))).
Definition atc (c : ascii) (s : cs) : bool := aeq (cur (sl s)) c.
Definition peek (x : pcfg) (s : cs) : res str := peekSymbol (c_dbg (x_c x)) (x_file x) (sl s).

(** std::stoi, std::stoul (base 10): blanks, sign, at least one digit, rest ignored *)
Fixpoint digits_prefix (s : str) (acc : Z) : Z :=
  match s with
  | c :: s' => if isdigit c then digits_prefix s' (acc * 10 + digit_val c) else acc
  | [] => acc
  end.
Definition strtol (s : str) : option Z :=
  let u (s : str) := match s with c :: _ => if isdigit c then Some (digits_prefix s 0) else None
                     | [] => None end in
  match skip_space s with
  | c :: s' => if aeq c "-"%char then option_map Z.opp (u s')
               else if aeq c "+"%char then u s' else u (c :: s')
  | [] => None
  end.
Definition stoi (s : str) : res Z :=
  match strtol s with
  | None => Throw InvalidArgument
  | Some z => if (-2147483648 <=? z) && (z <=? 2147483647) then Ok z else Throw OutOfRange
  end.
Definition stoul (s : str) : res Z :=
  match strtol s with
  | None => Throw InvalidArgument
  | Some z => if Z.abs z <? two64 then Ok (u64 z) else Throw OutOfRange
  end.

(** ** sorts *)
Definition seqs (s : str) (c : string) : bool := seq_str s (L c).
Definition float64S := fpS (L "Float64") 11 53.
Definition float32S := fpS (L "Float32") 8 24.
Definition float16S := fpS (L "Float16") 5 11.
Definition rmS := Srt SK_ROUNDING_MODE (L "RoundingMode") 0 [].
(** base_parser.cpp:1438-1450 BASIC_SORTS *)
Definition basic_sorts : smap sort :=
  [(L "Bool", boolS); (L "Int", intS); (L "Real", realS); (L "RoundingMode", rmS); (L "String", strS);
   (L "Float16", float16S); (L "Float32", float32S); (L "Float64", float64S); (L "RegLan", regS);
   (L "Reg", regS); (L "RegEx", regS)].
(** sort_key_map lookup, else a new sort that is recorded (1481-1488, 1513-1520, 1530-1537) *)
Definition cached (key : str) (mk : res sort) (s : cs) : res (sort * cs) :=
  match mget key (p_srt (sp s)) with
  | Some t => Ok (t, s)
  | None => t <- mk ;; Ok (t, onp (fun p => set_srt (mins key t (p_srt p)) p) s)
  end.
(** createBVSort(size_t), createFPSort(size_t, size_t) of a std::stoi result; the sort
    manager returns an equal sort (C18) *)
Definition bv_of (n : str) : res sort := z <- stoi n ;; Ok (bvS (u64 z)).
Definition fp_of (e g : str) : res sort :=
  a <- stoi e ;; b <- stoi g ;; Ok (fpS (L "FP") (u64 a) (u64 b)).
Definition s_addch (t : sort) (u : sort) : sort :=
  match t with Srt k n a ch => Srt k n a (ch ++ [u]) end.

(** 1550-1556: for (i = 0; i < sort->arity; i++), [rd] is parseSort *)
Fixpoint psorts (rd : cs -> res (sort * cs)) (n : nat) (t : sort) (s : cs) : res (sort * cs) :=
  match n with
  | O => Ok (t, s)
  | S m =>
      a <- rd s ;;
      psorts rd m (if s_arity (fst a) =? zlen (s_ch (fst a)) then t else s_addch t (fst a)) (snd a)
  end.

(** base_parser.cpp:1432-1567 parseSort.  A user sort with parameters is the object stored
    in sort_key_map, to which the code appends children (1550-1556); the model returns and
    records the extended sort but does not update terms built with it earlier. *)
Fixpoint psort (fuel : nat) (x : pcfg) (s : cs) {struct fuel} : res (sort * cs) :=
  match fuel with
  | O => NoFuel
  | S f =>
      if atc rpar s then Ok (nullS, s)
      else if negb (atc lpar s) then
        r <- sym x s ;;
        match mget (fst r) basic_sorts with
        | Some t => Ok (t, snd r)
        | None => match mget (fst r) (p_srt (sp (snd r))) with Some t => Ok (t, snd r) | None => Exit end
        end
      else
        s1 <- lparc s ;;
        r <- sym x s1 ;;
        let id := fst r in let s2 := snd r in
        rs <- (if seqs id "Array" then
                 a <- psort f x s2 ;; b <- psort f x (snd a) ;;
                 na <- sort_str (fst a) ;; nb <- sort_str (fst b) ;;
                 cached (L "ARRAY_" ++ na ++ L "_" ++ nb) (Ok (arrayS (fst a) (fst b))) (snd b)
               else if seqs id "Datatype" || seqs id "Set" || seqs id "Relation" || seqs id "Bag"
                       || seqs id "Sequence" || seqs id "UF" then Ok (nullS, s2)
               else if seqs id "RegEx" then
                 a <- psort f x s2 ;; if s_is SK_STR (fst a) then Ok (regS, snd a) else Exit
               else if seqs id "_" then
                 r2 <- sym x s2 ;;
                 if seqs (fst r2) "BitVec" then
                   n <- sym x (snd r2) ;; cached (L "BV_" ++ fst n) (bv_of (fst n)) (snd n)
                 else if seqs (fst r2) "FloatingPoint" then
                   e <- sym x (snd r2) ;; g <- sym x (snd e) ;;
                   cached (L "FP_" ++ fst e ++ L "_" ++ fst g) (fp_of (fst e) (fst g)) (snd g)
                 else Exit
               else
                 match mget id basic_sorts with
                 | Some t => Ok (t, s2)
                 | None =>
                     match mget id (p_srt (sp s2)) with
                     | None => Exit
                     | Some t =>
                         r3 <- psorts (psort f x) (Z.to_nat (s_arity t)) t s2 ;;
                         Ok (fst r3, onp (fun p => set_srt (mset id (fst r3) (p_srt p)) p) (snd r3))
                     end
                 end) ;;
        s3 <- rparc (snd rs) ;; Ok (fst rs, s3)
  end.

(** ** constants and names *)
(** dag.h:1078-1102: static nodes *)
Definition PI_NODE := T NT_CONST_PI realS (L "pi") [].
Definition E_NODE := T NT_CONST_E realS (L "e") [].
Definition NAN_NODE := T NT_NAN extS (L "NaN") [].
Definition EPS_NODE := T NT_ERROR nullS (L "EPSILON") [].
Definition PEPS_NODE := T NT_POS_EPSILON extS (L "+EPSILON") [].
Definition NEPS_NODE := T NT_NEG_EPSILON extS (L "-EPSILON") [].
Definition inf_node (k : kind) (s : sort) : term :=
  T k s (match k with NT_INFINITY => L "INF" | NT_POS_INFINITY => L "+INF" | _ => L "-INF" end) [].
Definition int_real (x : pcfg) : sort := if c_int (x_c x) then intS else realS.

(** op_parser.cpp:663-675 mkConstBv *)
Definition pConstBv (x : pcfg) (v : str) (w : Z) (s : cs) : res (term * cs) :=
  r <- cached (L "BV_" ++ Idec w) (Ok (bvS w)) s ;;
  b <- BVModel.natToBv_str (c_dbg (x_c x)) v w ;;
  Ok (T NT_CONST (fst r) b [], snd r).
(** op_parser.cpp:630-635 mkConstReal(const std::string&) *)
Definition pConstReal (x : pcfg) (v : str) : res term :=
  condAssert (c_dbg (x_c x)) (isReal v || seqs v "e" || seqs v "pi") ;;;
  Ok (if seqs v "e" then E_NODE else if seqs v "pi" then PI_NODE else mkConstReal v).
(** op_parser.cpp:722-735 mkPlaceholderVar *)
Definition mkPlaceholder (nm : str) (s : cs) : term * cs :=
  match mget nm (p_ph (sp s)) with
  | Some t => (t, s)
  | None => let t := T NT_PLACEHOLDER_VAR (p_phs (sp s)) nm [] in
            (t, onp (fun p => set_ph (mins nm t (p_ph p)) p) s)
  end.
(** util.cpp:244-250 isFP *)
Definition isFP (s : str) : bool :=
  Nat.leb 4 (length s) && is_prefix (L "(fp") s && aeq (last s nul) rpar.
(** include/kind.h: PRESERVING_LET_BIND_VAR_SUFFIX *)
Definition SUFFIX : str := L "_SMTParser_Preserving_Let_Bind_Var_Suffix_".
Definition plet_name (p : pst) (s : str) : str := s ++ SUFFIX ++ Idec (p_ctr p).
Definition barred (s : str) : bool :=
  Nat.ltb 2 (length s) && aeq (hd nul s) bar && aeq (last s nul) bar.
Definition unbar (s : str) : str := removelast (tl s).

(** expr_parser.cpp:603-667: what a name is bound to *)
Definition lookup (x : pcfg) (p : pst) (s : str) : option term :=
  let inlet := Nat.ltb 0 (p_ld p) in
  match (if x_keep x then (if inlet then mget (plet_name p s) (p_plet p) else None)
         else if inlet then mget s (p_let p) else None) with
  | Some t => Some t
  | None =>
  match mget s (p_fun p) with
  | Some t => Some t
  | None =>
  match mget s (p_fv p) with
  | Some t => Some t
  | None =>
  match (if Nat.ltb 0 (p_qd p) then mget s (p_quant p) else None) with
  | Some t => Some t
  | None =>
  match mget s (p_var p) with
  | Some t => Some t
  | None =>
  match (if barred s then mget (unbar s) (p_var p) else None) with
  | Some t => Some t
  | None => if isNumber s then None else mget (bar :: s ++ [bar]) (p_var p)
  end end end end end end.

(** expr_parser.cpp:668-760: constants.  None: the symbol is none of these.
    mkConstFP (708) is called on texts starting with "(fp" only, which getSymbol never
    yields for parseExpr; its null sort is modelled as UB. *)
Definition pconst (x : pcfg) (v : str) (s : cs) : option (res (term * cs)) :=
  let ok t := Some (Ok (t, s)) in
  if seqs v "pi" then ok PI_NODE
  else if seqs v "e" then ok E_NODE
  else if seqs v "inf" then ok (inf_node NT_INFINITY (int_real x))
  else if seqs v "+inf" then ok (inf_node NT_POS_INFINITY (int_real x))
  else if seqs v "-inf" then ok (inf_node NT_NEG_INFINITY (int_real x))
  else if seqs v "epsion" then ok EPS_NODE
  else if seqs v "+epsilon" then ok PEPS_NODE
  else if seqs v "-epsilon" then ok NEPS_NODE
  else if seqs v "NaN" || seqs v "+NaN" || seqs v "-NaN" then ok NAN_NODE
  else if isInt v then Some (z <- Integer_of_str v ;; Ok (mkConstInt z, s))
  else if isReal v then Some (t <- pConstReal x v ;; Ok (t, s))
  else if isScientificNotation v then Some (t <- pConstReal x (x_sci x v) ;; Ok (t, s))
  else if isBV v then
    let k := nth 1 v nul in
    Some (w <- (if aeq k "b"%char || aeq k "B"%char then Ok (zlen v - 2)
                else if aeq k "x"%char || aeq k "X"%char then Ok ((zlen v - 2) * 4)
                else if aeq k "d"%char || aeq k "D"%char
                     then z <- Integer_of_str (skipn 2 v) ;; Ok (zlen (Ibin z))
                else Ok (zlen v - 2)) ;;
          pConstBv x v w s)
  else if isFP v then Some UB
  else if isString v then Some (t <- mkConstStr v ;; Ok (t, s))
  else if seqs v "re.none" || seqs v "re.all" || seqs v "re.allchar" then ok (T NT_CONST regS v [])
  else if seqs v "RNE" || seqs v "roundNearestTiesToEven" then ok (T NT_CONST rmS (L "RNE") [])
  else if seqs v "RNA" || seqs v "roundNearestTiesToAway" then ok (T NT_CONST rmS (L "RNA") [])
  else if seqs v "RTP" || seqs v "roundTowardPositive" then ok (T NT_CONST rmS (L "RTP") [])
  else if seqs v "RTN" || seqs v "roundTowardNegative" then ok (T NT_CONST rmS (L "RTN") [])
  else if seqs v "RTZ" || seqs v "roundTowardZero" then ok (T NT_CONST rmS (L "RTZ") [])
  else None.

(** expr_parser.cpp:603-770 parseConstFunc *)
Definition pname (x : pcfg) (v : str) (s : cs) : res (term * cs) :=
  if seqs v "true" then Ok (TRUE, s)
  else if seqs v "false" then Ok (FALSE, s)
  else
  match (if p_aph (sp s) then mget v (p_ph (sp s)) else None) with
  | Some t => Ok (t, s)
  | None =>
  match lookup x (sp s) v with
  | Some t => Ok (t, s)
  | None =>
  match pconst x v s with
  | Some r => r
  | None => if p_aph (sp s) && negb (isNumber v) then Ok (mkPlaceholder v s) else Exit
  end end end.

(** ** operators *)
Definition arg (ps : list term) (i : nat) : res term :=
  match nth_error ps i with Some t => Ok t | None => UB end.
(** one, two or three arguments taken from the vector after a condAssert on its size *)
Definition ap1 (x : pcfg) (f : term -> res term) (ps : list term) : res term :=
  condAssert (c_dbg (x_c x)) (Nat.eqb (length ps) 1) ;;; a <- arg ps 0 ;; f a.
Definition ap2 (x : pcfg) (f : term -> term -> res term) (ps : list term) : res term :=
  condAssert (c_dbg (x_c x)) (Nat.eqb (length ps) 2) ;;; a <- arg ps 0 ;; b <- arg ps 1 ;; f a b.
Definition mkIteV (x : pcfg) (ps : list term) : res term :=
  match ps with [b; l; r] => mkIte (x_c x) b l r | _ => Exit end.
Definition mkRootObj (x : pcfg) (t : term) (i : Z) : term :=
  if isErr t then t
  else T NT_ROOT_OBJ realS (L "root-obj(" ++ x_str x t ++ L "," ++ Idec i ++ L ")") [t; mkConstInt i].
(** expr_parser.cpp:798-1428, the kinds whose constructors are modelled; kinds that are not
    operators of parseOper end the program *)
Definition oper_kind (x : pcfg) (k : kind) (fa ps : list term) : res term :=
  let c := x_c x in
  match k with
  | NT_AND => mkAnd c ps | NT_OR => mkOr c ps | NT_NOT => ap1 x (mkNot c) ps
  | NT_IMPLIES => mkImplies c ps | NT_XOR => mkXor c ps | NT_EQ => mkEqV c ps
  | NT_DISTINCT => mkDistinctV c ps | NT_ITE => mkIteV x ps
  | NT_ADD => mkAdd c ps | NT_NEG => ap1 x (mkNeg c) ps | NT_SUB => mkSub c ps | NT_MUL => mkMul c ps
  | NT_LE | NT_LT | NT_GE | NT_GT => ap2 x (mkCmp c k) ps
  | NT_BV_ULT | NT_BV_ULE | NT_BV_UGT | NT_BV_UGE | NT_BV_SLT | NT_BV_SLE | NT_BV_SGT | NT_BV_SGE =>
      ap2 x (mkBvCmp c k) ps
  | NT_STR_LT | NT_STR_LE | NT_STR_GT | NT_STR_GE => ap2 x (mkStrCmp c k) ps
  | NT_UNKNOWN | NT_ERROR | NT_NULL | NT_CONST | NT_VAR | NT_CONST_ARRAY | NT_CONST_TRUE
  | NT_CONST_FALSE | NT_TEMP_VAR | NT_MAX | NT_MIN | NT_LET | NT_LET_CHAIN | NT_LET_BIND_VAR
  | NT_LET_BIND_VAR_LIST | NT_FORALL | NT_EXISTS | NT_QUANT_VAR | NT_FUNC_PARAM => Exit
  | _ => x_oper x k fa ps
  end.
(** expr_parser.cpp:780-1429 parseOper *)
Definition parseOper (x : pcfg) (p : pst) (nm : str) (fa ps : list term) : res term :=
  match mget nm (p_fun p) with
  | Some f => x_apply x f ps
  | None =>
      if seqs nm "root-obj" then
        condAssert (c_dbg (x_c x)) (Nat.eqb (length ps) 2) ;;;
        e <- arg ps 0 ;; i <- arg ps 1 ;;
        condAssert (c_dbg (x_c x)) (isConst i && sis SK_INT i) ;;;
        z <- stoi (t_name i) ;; Ok (mkRootObj x e z)
      else oper_kind x (getOperKind nm) fa ps
  end.
(** expr_parser.cpp:445-518: the operators taken before parseOper, hence before any
    user function of that name *)
Definition fast_kind (nm : str) : option kind :=
  if seqs nm "=" then Some NT_EQ else if seqs nm "and" then Some NT_AND
  else if seqs nm "=>" then Some NT_IMPLIES else if seqs nm "or" then Some NT_OR
  else if seqs nm "not" then Some NT_NOT else if seqs nm "ite" then Some NT_ITE
  else if seqs nm "distinct" then Some NT_DISTINCT else if seqs nm "+" then Some NT_ADD
  else if seqs nm "-" then Some NT_SUB else if seqs nm "*" then Some NT_MUL
  else if seqs nm "<=" then Some NT_LE else if seqs nm "<" then Some NT_LT
  else if seqs nm ">=" then Some NT_GE else if seqs nm ">" then Some NT_GT
  else if seqs nm "bvult" then Some NT_BV_ULT else if seqs nm "bvugt" then Some NT_BV_UGT
  else if seqs nm "bvule" then Some NT_BV_ULE else if seqs nm "bvuge" then Some NT_BV_UGE
  else if seqs nm "bvsgt" then Some NT_BV_SGT else if seqs nm "bvsle" then Some NT_BV_SLE
  else if seqs nm "bvslt" then Some NT_BV_SLT else if seqs nm "bvsge" then Some NT_BV_SGE
  else None.
Definition apply_op (x : pcfg) (p : pst) (nm : str) (ps : list term) : res term :=
  match fast_kind nm with
  | Some NT_ITE =>
      condAssert (c_dbg (x_c x)) (Nat.eqb (length ps) 3) ;;; mkIteV x ps
  | Some k => oper_kind x k [] ps
  | None => parseOper x p nm [] ps
  end.
(** an error node ends the program (err_all) *)
Definition noerr (t : term) : res term := if isErr t then Exit else Ok t.

(** ** let and quantifier nodes *)
(** op_parser.cpp:579-592 mkLetBindVar: a name already bound in this outermost let gives the
    old variable *)
Definition mkLetVar (nm : str) (t : term) (s : cs) : term * cs :=
  match mget nm (p_plet (sp s)) with
  | Some v => (v, s)
  | None => let v := T NT_LET_BIND_VAR (t_sort t) nm [t] in
            (v, onp (fun p => set_plet (mins nm v (p_plet p)) p) s)
  end.
(** op_parser.cpp:594-600 mkLetBindVarList *)
Definition mkLetList (vs : list term) : res term :=
  match vs with [] => UB | v :: _ => Ok (T NT_LET_BIND_VAR_LIST (t_sort v) [] vs) end.
(** op_parser.cpp:602-615 mkLetChain of a body *)
Definition mkLetChain (ls : list term) (b : term) : term :=
  T NT_LET_CHAIN (t_sort b) [] (ls ++ [b]).
(** base_parser.cpp:2003-2012 mkQuantVar: a name bound by an enclosing quantifier gives
    the old variable *)
Definition mkQuantVar (nm : str) (t : sort) (s : cs) : term * cs :=
  match mget nm (p_quant (sp s)) with
  | Some v => (v, s)
  | None => let v := T NT_QUANT_VAR t nm [] in
            (v, onp (fun p => set_quant (mins nm v (p_quant p)) p) s)
  end.
Definition dels {A} (ks : list str) (m : smap A) : smap A := fold_left (fun m k => mdel k m) ks m.

(** op_parser.cpp:804-815 mkConstArray *)
Definition mkConstArray (t : sort) (v : term) : res term :=
  if s_is SK_ARRAY t then Ok (T NT_CONST_ARRAY t (L "const_array") [v]) else Exit.
(** op_parser.cpp:3490-3510 mkFpConst *)
Definition mkFpConst (a e m : term) : res term :=
  if isErr a then Ok a else if isErr e then Ok e else if isErr m then Ok m
  else if negb (sis SK_BV a) || negb (sis SK_BV e) || negb (sis SK_BV m) then Exit
  else
    wa <- width a ;; we <- width e ;; wm <- width m ;;
    if negb (wa =? 1) then Exit
    else Ok (T NT_CONST (fpS (L "FP") we (u64 (wm + 1))) (L "(fp_bit_representation)") [a; e; m]).
(** op_parser.cpp:4765-4792 *)
Fixpoint commas (l : list str) : str :=
  match l with [] => [] | [a] => a | a :: l' => a ++ L "," ++ commas l' end.
Definition mkRootOf (x : pcfg) (cs : list term) (lb ub : term) : term :=
  if isErr lb then lb else if isErr ub then ub
  else match find isErr cs with
       | Some t => t
       | None => T NT_ROOT_OF_WITH_INTERVAL realS
                   (L "root-of-with-interval(coeffs:" ++ commas (map (x_str x) cs) ++ L ",lb:"
                    ++ x_str x lb ++ L ",ub:" ++ x_str x ub ++ L ")") (cs ++ [lb; ub])
       end.
(** op_parser.cpp:4794-4812 *)
Definition mkRAN (x : pcfg) (a lb ub : term) : term :=
  if isErr a then a else if isErr lb then lb else if isErr ub then ub
  else T NT_REAL_ALGEBRAIC_NUMBER realS
         (L "real-algebraic-number(poly:" ++ x_str x a ++ L ",lb:" ++ x_str x lb ++ L ",ub:"
          ++ x_str x ub ++ L ")") [a; lb; ub].
(** op_parser.cpp:2037-2101 mkPosInfinity, mkNegInfinity, mkNaN of a floating-point sort, and the
    zeros of expr_parser.cpp:252-254 *)
Definition fp_special (nm eb sb : str) (e g : Z) : term :=
  let s := fpS (L "FP") e g in
  let ws := L " " ++ Idec e ++ L " " ++ Idec g ++ L ")" in
  if seqs nm "NaN" || seqs nm "+NaN" || seqs nm "-NaN" then T NT_NAN s (L "(_ NaN" ++ ws) []
  else if seqs nm "+oo" then T NT_POS_INFINITY s (L "(_ +oo" ++ ws) []
  else if seqs nm "-oo" then T NT_NEG_INFINITY s (L "(_ -oo" ++ ws) []
  else T NT_CONST s (L "(_ " ++ nm ++ L " " ++ eb ++ L " " ++ sb ++ L ")") [].
Definition fp_special_name (nm : str) : bool :=
  seqs nm "+zero" || seqs nm "-zero" || seqs nm "+oo" || seqs nm "-oo" || seqs nm "NaN"
  || seqs nm "+NaN" || seqs nm "-NaN".
Definition ph_name (nm : str) : bool :=
  seqs nm "root-obj" || seqs nm "root-of-with-interval" || seqs nm "real_algebraic_number".
(** base_parser.cpp:719-746 parseKeyword *)
Inductive kw := KW_NULL | KW_ID | KW_WEIGHT | KW_COMP | KW_EPSILON | KW_M | KW_NAMED.
Definition parseKeyword (x : pcfg) (s : cs) : res (kw * cs) :=
  r <- sym x s ;;
  let k := fst r in
  if seqs k ":id" then Ok (KW_ID, snd r) else if seqs k ":weight" then Ok (KW_WEIGHT, snd r)
  else if seqs k ":comp" then Ok (KW_COMP, snd r) else if seqs k ":epsilon" then Ok (KW_EPSILON, snd r)
  else if seqs k ":M" then Ok (KW_M, snd r) else if seqs k ":named" then Ok (KW_NAMED, snd r)
  else Exit.
(** opt_parser.cpp:32-40 attemptParseKeywords *)
Definition tryKeyword (x : pcfg) (s : cs) : res (kw * cs) :=
  if atc ":"%char s then parseKeyword x s else Ok (KW_NULL, s).
Definition skip1 (c : ascii) (s : cs) : cs :=
  if atc c s then CS (sp s) (scan (tl (txt (sl s)))) else s.

(** base_parser.cpp:2017-2030: the sorted variables of a quantifier *)
Fixpoint pvars (fuel : nat) (x : pcfg) (s : cs) {struct fuel} : res (list (str * term) * cs) :=
  match fuel with
  | O => NoFuel
  | S f =>
      if atc rpar s then Ok ([], s)
      else
        s1 <- lparc s ;; n <- sym x s1 ;;
        a <- psort (length (txt (sl (snd n))) * 2 + 2) x (snd n) ;;
        let q := mkQuantVar (fst n) (fst a) (snd a) in
        s2 <- rparc (snd q) ;;
        l <- pvars f x s2 ;; Ok ((fst n, fst q) :: fst l, snd l)
  end.

(** ** parseExpr (expr_parser.cpp:77-590).  The explicit stack of frames is replaced by
    recursion: a frame in state ProcessingParams, ProcessingParamFuncArgs or
    ProcessingParamFuncParams is a call of [pargs]. *)
Fixpoint pexpr (fuel : nat) (x : pcfg) (s : cs) {struct fuel} : res (term * cs) :=
  match fuel with
  | O => NoFuel
  | S f =>
    if negb (atc lpar s) then
      r <- sym x s ;; q <- pname x (fst r) (snd r) ;; t <- noerr (fst q) ;; Ok (t, snd q)
    else
    s1 <- lparc s ;;
    if atc lpar s1 then
      s2 <- lparc s1 ;; r <- sym x s2 ;;
      let h := fst r in let s3 := snd r in
      if seqs h "_" then
        r2 <- sym x s3 ;;
        fa <- pargs f x (snd r2) ;;
        ps <- pargs f x (snd fa) ;;
        t <- parseOper x (sp (snd ps)) (fst r2) (fst fa) (fst ps) ;;
        t <- noerr t ;; Ok (t, snd ps)
      else if seqs h "as" then
        r2 <- sym x s3 ;;
        if seqs (fst r2) "const" then
          a <- psort (length (txt (sl (snd r2))) * 2 + 2) x (snd r2) ;;
          s4 <- rparc (snd a) ;;
          v <- pexpr f x s4 ;;
          t <- mkConstArray (fst a) (fst v) ;;
          s5 <- rparc (snd v) ;; Ok (t, s5)
        else Exit
      else if seqs h "root-obj" then
        e <- pexpr f x (onp (set_aph true realS) s3) ;;
        i <- sym x (snd e) ;;
        s4 <- rparc (snd i) ;;
        let s5 := onp (set_aph (p_aph (sp s3)) (p_phs (sp s3))) s4 in
        z <- stoi (fst i) ;;
        Ok (mkRootObj x (fst e) z, s5)
      else if seqs h "root-of-with-interval" then
        s4 <- lparc s3 ;; tg <- sym x s4 ;;
        co <- pargs f x (snd tg) ;;
        lb <- pexpr f x (snd co) ;; ub <- pexpr f x (snd lb) ;;
        s5 <- rparc (snd ub) ;; Ok (mkRootOf x (fst co) (fst lb) (fst ub), s5)
      else Exit
    else
    r <- sym x s1 ;;
    let h := fst r in let s2 := snd r in
    if seqs h "exists" || seqs h "forall" then
      q <- pquant f x (seqs h "forall") (onp (fun p => set_qd (S (p_qd p)) p) s2) ;;
      s3 <- rparc (snd q) ;;
      Ok (fst q, onp (fun p => set_qd (Nat.pred (p_qd p)) p) s3)
    else if seqs h "_" then
      r2 <- sym x s2 ;;
      let nm := fst r2 in let s3 := snd r2 in
      if is_prefix (L "bv") nm then
        w <- sym x s3 ;; n <- stoul (fst w) ;;
        b <- pConstBv x (skipn 2 nm) n (snd w) ;;
        s4 <- rparc (snd b) ;; Ok (fst b, s4)
      else if fp_special_name nm then
        eb <- sym x s3 ;; sb <- sym x (snd eb) ;;
        e <- stoul (fst eb) ;; g <- stoul (fst sb) ;;
        s4 <- rparc (snd sb) ;; Ok (fp_special nm (fst eb) (fst sb) e g, s4)
      else if seqs nm "as-array" then
        fn <- sym x s3 ;;
        let q := mkPlaceholder (fst fn) (snd fn) in
        s4 <- rparc (snd q) ;; Ok (fst q, s4)
      else if seqs nm "real_algebraic_number" then
        let s4 := scanc (onp (set_aph true realS) s3) in
        q <- (if atc "<"%char s4 then
                a <- pexpr f x (skip1 "<"%char s4) ;;
                let s5 := skip1 ","%char (scanc (snd a)) in
                q <- (if atc lpar s5 then
                        s6 <- lparc s5 ;;
                        lb <- pexpr f x s6 ;;
                        ub <- pexpr f x (skip1 ","%char (scanc (snd lb))) ;;
                        s7 <- rparc (snd ub) ;; Ok (fst lb, fst ub, s7)
                      else
                        lb <- pexpr f x s5 ;; ub <- pexpr f x (snd lb) ;; Ok (fst lb, fst ub, snd ub)) ;;
                (* bufptr++ without a scan (316-319) *)
                let s8 := scanc (snd q) in
                Ok (mkRAN x (fst a) (fst (fst q)) (snd (fst q)),
                    if atc ">"%char s8 then CS (sp s8) (Lx (tl (txt (sl s8))) (md (sl s8))) else s8)
              else
                a <- pexpr f x s4 ;; lb <- pexpr f x (snd a) ;; ub <- pexpr f x (snd lb) ;;
                Ok (mkRAN x (fst a) (fst lb) (fst ub), snd ub)) ;;
        s9 <- rparc (onp (set_aph (p_aph (sp s3)) (p_phs (sp s3))) (snd q)) ;; Ok (fst q, s9)
      else papp f x nm s3
    else if seqs h "fp" then
      a <- pexpr f x s2 ;; e <- pexpr f x (snd a) ;; m <- pexpr f x (snd e) ;;
      t <- mkFpConst (fst a) (fst e) (fst m) ;;
      s3 <- rparc (snd m) ;; Ok (t, s3)
    else if seqs h "let" then
      let p2 := sp s2 in
      let s3 := onp (fun p => set_ld (S (p_ld p)) (if Nat.eqb (p_ld p) 0 then set_ctr (p_ctr p + 1) p else p)) s2 in
      s4 <- lparc s3 ;;
      q <- plet f x s4 ;;
      (* parseLet reads the result after pop_back has destroyed it (1818-1822): it is
         modelled as the value it had; an absent body is a null pointer *)
      t <- (match snd (fst q) with
            | Some b => Ok (if x_keep x then mkLetChain (fst (fst q)) b else b)
            | None => if x_keep x then Exit else UB
            end) ;;
      t <- noerr t ;;
      s5 <- rparc (onp (fun p => set_ld (Nat.pred (p_ld p)) p) (snd q)) ;;
      Ok (t, s5)
    else if seqs h "!" then
      e <- pexpr f x s2 ;;
      k <- tryKeyword x (snd e) ;;
      s3 <- (match fst k with
             | KW_NAMED => n <- sym x (snd k) ;;
                           Ok (onp (fun p => set_named (mset (fst n) (fst e) (p_named p)) p) (snd n))
             | _ => Ok (snd k)
             end) ;;
      s4 <- rparc s3 ;; Ok (fst e, s4)
    else if seqs h "root-of-with-interval" then
      s3 <- lparc s2 ;; tg <- sym x s3 ;;
      co <- pargs f x (snd tg) ;;
      lb <- pexpr f x (snd co) ;; ub <- pexpr f x (snd lb) ;;
      s4 <- rparc (snd ub) ;; Ok (mkRootOf x (fst co) (fst lb) (fst ub), s4)
    else papp f x h s2
  end
(** expr_parser.cpp:427-537 ProcessingParams of operator [nm].  For the three names that
    allow placeholder variables the settings saved are those of the last entry of the state
    (430-435, 529-532), so they are restored only when there is no argument. *)
with papp (fuel : nat) (x : pcfg) (nm : str) (s : cs) {struct fuel} : res (term * cs) :=
  match fuel with
  | O => NoFuel
  | S f =>
      ps <- pargs f x (if ph_name nm then onp (set_aph true realS) s else s) ;;
      t <- apply_op x (sp (snd ps)) nm (fst ps) ;;
      t <- noerr t ;;
      Ok (t, if ph_name nm
             then onp (match fst ps with
                       | [] => set_aph (p_aph (sp s)) (p_phs (sp s))
                       | _ => set_aph true realS
                       end) (snd ps)
             else snd ps)
  end
(** arguments up to the closing parenthesis, which is consumed *)
with pargs (fuel : nat) (x : pcfg) (s : cs) {struct fuel} : res (list term * cs) :=
  match fuel with
  | O => NoFuel
  | S f =>
      let s := scanc s in
      if atc rpar s then s' <- rparc s ;; Ok ([], s')
      else e <- pexpr f x s ;; l <- pargs f x (snd e) ;; Ok (fst e :: fst l, snd l)
  end
(** One level of parsePreservingLet (base_parser.cpp:1607-1731) or parseLet (1733-1832), from
    behind the parenthesis that opens the bindings.  Result: the lists of bindings of this and
    the levels nested in its body, and the body's value (None: nullptr).  The loop over
    stateStack is a recursion. *)
with plet (fuel : nat) (x : pcfg) (s : cs) {struct fuel} : res (list term * option term * cs) :=
  match fuel with
  | O => NoFuel
  | S f =>
      b <- pbinds f x s ;;
      s1 <- rparc (snd b) ;;
      l <- (if x_keep x then l <- mkLetList (map snd (fst b)) ;; Ok [l] else Ok []) ;;
      q <- pbody f x None s1 ;;
      Ok (l ++ fst (fst q), snd (fst q),
          if x_keep x then snd q
          else onp (fun p => set_let (dels (map fst (fst b)) (p_let p)) p) (snd q))
  end
(** the bindings of one level, up to the closing parenthesis *)
with pbinds (fuel : nat) (x : pcfg) (s : cs) {struct fuel} : res (list (str * term) * cs) :=
  match fuel with
  | O => NoFuel
  | S f =>
      if atc rpar s then Ok ([], s)
      else
        s1 <- lparc s ;; n <- sym x s1 ;;
        let nm := if x_keep x then plet_name (sp (snd n)) (fst n) else fst n in
        match (if x_keep x then mget nm (p_plet (sp (snd n))) else mget nm (p_let (sp (snd n)))) with
        | Some _ => Exit
        | None =>
            e <- pexpr f x (snd n) ;;
            let q := if x_keep x then mkLetVar nm (fst e) (snd e)
                     else (fst e, onp (fun p => set_let (mins nm (fst e) (p_let p)) p) (snd e)) in
            s2 <- rparc (snd q) ;;
            l <- pbinds f x s2 ;; Ok ((nm, fst q) :: fst l, snd l)
        end
  end
(** the body: another let is a nested level, after which the body is examined again
    (is_complete, 1776-1800); [r] is the value of the levels read so far *)
with pbody (fuel : nat) (x : pcfg) (r : option term) (s : cs) {struct fuel}
  : res (list term * option term * cs) :=
  match fuel with
  | O => NoFuel
  | S f =>
      isl <- (if atc lpar s then k <- peek x s ;; Ok (seqs k "let") else Ok false) ;;
      if isl : bool then
        s1 <- lparc s ;; k <- sym x s1 ;; s2 <- lparc (snd k) ;;
        q <- plet f x s2 ;;
        s3 <- rparc (snd q) ;;
        q2 <- pbody f x (snd (fst q)) s3 ;;
        Ok (fst (fst q) ++ fst (fst q2), snd (fst q2), snd q2)
      else if atc rpar s then Ok ([], r, s)
      else e <- pexpr f x s ;; Ok ([], Some (fst e), snd e)
  end
(** base_parser.cpp:2013-2053 parseQuant *)
with pquant (fuel : nat) (x : pcfg) (fa : bool) (s : cs) {struct fuel} : res (term * cs) :=
  match fuel with
  | O => NoFuel
  | S f =>
      s1 <- lparc s ;;
      v <- pvars f x s1 ;;
      s2 <- rparc (snd v) ;;
      b <- pexpr f x s2 ;;
      t <- mkOper (x_c x) boolS (if fa then NT_FORALL else NT_EXISTS) (fst b :: map snd (fst v)) ;;
      Ok (t, onp (fun p => set_quant (dels (map fst (fst v)) (p_quant p)) p) (snd b))
  end.

(** base_parser.cpp:694-716 mkExpr *)
Definition ERR_EOF : term := T NT_ERROR nullS (L "error") [].
Definition pexpr_fuel (s : cs) : nat := 4 * length (txt (sl s)) + 4.
Definition mkExpr (x : pcfg) (p : pst) (t : str) : res (term * pst) :=
  match t with
  | [] => Ok (ERR_EOF, p)
  | _ =>
      let s := CS p (scan t) in
      r <- pexpr (pexpr_fuel s) x s ;; Ok (fst r, sp (snd r))
  end.
