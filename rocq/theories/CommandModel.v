(** Model of the command loop and of the context it fills: parseStr, parseSmtlib2File,
    assert, checkSat, parseCommand (src/base_parser.cpp:121-150, 612-690, 748-1430),
    src/opt_parser.cpp, GlobalOptions (include/options.h), the comparison operators of
    src/objective.cpp, mkFuncDec/mkFuncDef/mkFuncRec/mkVar (src/op_parser.cpp:237-336,
    710-720). *)
From Verif Require Import Base KindModel SortModel TermModel UtilModel LexModel SimpModel OpModel ParseModel ApplyModel.
Open Scope Z_scope.

(** ** options (include/options.h:34-78); get_assertions, get_assignment, get_proof,
    get_unsat_assumptions, get_unsat_core, info, get_info, get_options and values are never
    written by a script and are left out *)
Record opts := Opts {
  o_logic : str; o_map : smap str;
  o_float : bool; o_prec : Z; o_keepdiv : bool; o_keeplet : bool; o_xfun : bool; o_xrec : bool;
  o_checksat : bool; o_getmodel : bool; o_getobj : bool }.
Definition UNKNOWN_LOGIC : str := L "UNKNOWN_LOGIC".
Definition opts0 : opts := Opts UNKNOWN_LOGIC [] true 128 true true true false false false false.
Definition set_logic v o := Opts v (o_map o) (o_float o) (o_prec o) (o_keepdiv o) (o_keeplet o) (o_xfun o) (o_xrec o) (o_checksat o) (o_getmodel o) (o_getobj o).
Definition set_map v o := Opts (o_logic o) v (o_float o) (o_prec o) (o_keepdiv o) (o_keeplet o) (o_xfun o) (o_xrec o) (o_checksat o) (o_getmodel o) (o_getobj o).
Definition set_float v o := Opts (o_logic o) (o_map o) v (o_prec o) (o_keepdiv o) (o_keeplet o) (o_xfun o) (o_xrec o) (o_checksat o) (o_getmodel o) (o_getobj o).
Definition set_prec v o := Opts (o_logic o) (o_map o) (o_float o) v (o_keepdiv o) (o_keeplet o) (o_xfun o) (o_xrec o) (o_checksat o) (o_getmodel o) (o_getobj o).
Definition set_keepdiv v o := Opts (o_logic o) (o_map o) (o_float o) (o_prec o) v (o_keeplet o) (o_xfun o) (o_xrec o) (o_checksat o) (o_getmodel o) (o_getobj o).
Definition set_keeplet v o := Opts (o_logic o) (o_map o) (o_float o) (o_prec o) (o_keepdiv o) v (o_xfun o) (o_xrec o) (o_checksat o) (o_getmodel o) (o_getobj o).
Definition set_xfun v o := Opts (o_logic o) (o_map o) (o_float o) (o_prec o) (o_keepdiv o) (o_keeplet o) v (o_xrec o) (o_checksat o) (o_getmodel o) (o_getobj o).
Definition set_xrec v o := Opts (o_logic o) (o_map o) (o_float o) (o_prec o) (o_keepdiv o) (o_keeplet o) (o_xfun o) v (o_checksat o) (o_getmodel o) (o_getobj o).
Definition set_checksat o := Opts (o_logic o) (o_map o) (o_float o) (o_prec o) (o_keepdiv o) (o_keeplet o) (o_xfun o) (o_xrec o) true (o_getmodel o) (o_getobj o).
Definition set_getmodel o := Opts (o_logic o) (o_map o) (o_float o) (o_prec o) (o_keepdiv o) (o_keeplet o) (o_xfun o) (o_xrec o) (o_checksat o) true (o_getobj o).
Definition set_getobj o := Opts (o_logic o) (o_map o) (o_float o) (o_prec o) (o_keepdiv o) (o_keeplet o) (o_xfun o) (o_xrec o) (o_checksat o) (o_getmodel o) true.

(** options.h:82-138 *)
Definition logics : list string :=
  ["QF_ABV"; "QF_ABVFP"; "QF_ABVFPLRA"; "QF_ALIA"; "QF_ANIA"; "QF_AUFBV"; "QF_AUFBVFP"; "QF_AUFLIA";
   "QF_AUFNIA"; "QF_AX"; "QF_BV"; "QF_BVFP"; "QF_DT"; "QF_BVFPLRA"; "QF_FP"; "QF_FPLRA"; "QF_IDL";
   "QF_LIA"; "QF_LIRA"; "QF_LRA"; "QF_NIA"; "QF_NIRA"; "QF_NRA"; "QF_RDL"; "QF_S"; "QF_SLIA"; "QF_SNIA";
   "QF_UF"; "QF_UFBV"; "QF_UFBVDT"; "QF_UFDT"; "QF_UFDTLIA"; "QF_UFDTLIRA"; "QF_UFDTNIA"; "QF_UFFP";
   "QF_UFFPDTNIRA"; "QF_UFIDL"; "QF_UFLIA"; "QF_UFLRA"; "QF_UFNIA"; "QF_UFNRA"; "AUFLIA"; "AUFLIRA";
   "AUFNIRA"; "LIA"; "LRA"; "UFLRA"; "UFNIA"; "ALL"]%string.
Definition in_names (v : str) (l : list string) : bool := existsb (seqs v) l.
Definition setLogic (v : str) (o : opts) : bool * opts :=
  if in_names v logics then (true, set_logic v o) else (false, set_logic UNKNOWN_LOGIC o).
(** options.h:140-162: the option is stored before std::stoi may throw *)
Definition setOption (k v : str) (o : opts) : opts * res unit :=
  let o1 := set_map (mset k v (o_map o)) o in
  let b := seqs v "true" in
  if seqs k "keep_let" then (set_keeplet b o1, Ok tt)
  else if seqs k "keep_division" then (set_keepdiv b o1, Ok tt)
  else if seqs k "precision" then
    match stoi v with
    | Ok z => (set_prec z o1, Ok tt)   (* size_t, then mpfr_prec_t (long): the value again *)
    | Throw e => (o1, Throw e)
    | _ => (o1, UB)
    end
  else if seqs k "float_evaluate" then (set_float b o1, Ok tt)
  else if seqs k "expand_functions" then (set_xfun b o1, Ok tt)
  else if seqs k "expand_recursive_functions" then (set_xrec b o1, Ok tt)
  else (o1, Ok tt).
(** Parser::setOption (base_parser.cpp:235-246, parser.h:403-406): which overload a C++
    call reaches.  A string literal is a const char array: its conversion to bool is a standard
    conversion and is preferred to the one to std::string. *)
Inductive optval := OString (v : str) | OBool (b : bool) | OInt (z : Z) | OLiteral (v : str).
Definition optval_str (v : optval) : str :=
  match v with
  | OString v => v
  | OBool b => if b then L "true" else L "false"
  | OInt z => Idec z
  | OLiteral _ => L "true"
  end.
Definition parserSetOption (k : str) (v : optval) (o : opts) : opts * res unit := setOption k (optval_str v) o.
(** options.h:185-193 *)
Definition has_char (c : ascii) (s : str) : bool := existsb (aeq c) s.
Definition isIntTheory (o : opts) : bool := has_char "I"%char (o_logic o) && negb (has_char "R"%char (o_logic o)).
Definition isRealTheory (o : opts) : bool := has_char "R"%char (o_logic o).

(** the parameters of expression parsing under the options *)
Definition xo (b : pcfg) (file : bool) (o : opts) : pcfg :=
  let c := x_c b in
  let c' := Cfg (c_dbg c) (o_float o) (o_keepdiv o) (isIntTheory o) (isRealTheory o) (c_rv c) (c_r2i c)
                (c_rs c) (c_hash c) (c_sort c) in
  PCfg c' file (o_keeplet o) (applyFun c' (Expand (o_xfun o) (o_xrec o))) (x_oper b) (x_sci b) (x_str b).

(** ** objectives (include/objective.h, src/objective.cpp) *)
Inductive okind := O_MIN | O_MAX | O_MAXSAT | O_MINSAT | O_LEX | O_PARETO | O_BOX | O_MINMAX | O_MAXMIN.
Inductive comp := C_LT | C_LE | C_GT | C_GE | C_BVULT | C_BVULE | C_BVUGT | C_BVUGE
  | C_BVSLT | C_BVSLE | C_BVSGT | C_BVSGE | C_FPLT | C_FPLE | C_FPGT | C_FPGE.
(** objective.cpp:32-45 *)
Definition defaultComp (dbg : bool) (logic : str) (k : okind) : res comp :=
  let mi := match k with O_MIN => true | _ => false end in
  condAssert dbg (match k with O_MIN | O_MAX => true | _ => false end) ;;;
  if in_names logic ["QF_LIA"; "QF_LRA"; "QF_NIA"; "QF_NRA"; "QF_IDL"; "QF_RDL"; "QF_LIRA"; "QF_NIRA"]%string
  then Ok (if mi then C_LT else C_GT)
  else if in_names logic ["QF_BV"; "QF_ABV"; "QF_AUFBV"; "QF_AUFBVFP"; "QF_ABVFP"; "QF_BVFP"; "QF_BVFPLRA"]%string
  then Ok (if mi then C_BVULT else C_BVUGT)
  else if in_names logic ["QF_FP"; "QF_FPLRA"; "QF_ABVFPLRA"]%string then Ok (if mi then C_FPLT else C_FPGT)
  else Ok (if mi then C_LT else C_GT).
(** objective.cpp:47-97 *)
Definition getComp (s : str) : comp :=
  if seqs s "<" then C_LT else if seqs s "<=" then C_LE else if seqs s ">" then C_GT
  else if seqs s ">=" then C_GE else if seqs s "bvult" then C_BVULT else if seqs s "bvule" then C_BVULE
  else if seqs s "bvugt" then C_BVUGT else if seqs s "bvuge" then C_BVUGE
  else if seqs s "bvslt" then C_BVSLT else if seqs s "bvsle" then C_BVSLE
  else if seqs s "bvsgt" then C_BVSGT else if seqs s "bvsge" then C_BVSGE
  else if seqs s "fp.lt" then C_FPLT else if seqs s "fp.leq" then C_FPLE
  else if seqs s "fp.gt" then C_FPGT else if seqs s "fp.geq" then C_FPGE else C_LT.
(** objective.cpp:100-140 getNegatedOperator *)
Definition negComp (c : comp) : comp :=
  match c with
  | C_LT => C_GE | C_LE => C_GT | C_GT => C_LE | C_GE => C_LT
  | C_BVULT => C_BVUGE | C_BVULE => C_BVUGT | C_BVUGT => C_BVULE | C_BVUGE => C_BVULT
  | C_BVSLT => C_BVSGE | C_BVSLE => C_BVSGT | C_BVSGT => C_BVSLE | C_BVSGE => C_BVSLT
  | C_FPLT => C_FPGE | C_FPLE => C_FPGT | C_FPGT => C_FPLE | C_FPGE => C_FPLT
  end.
(** 142-182 getFlipOperator *)
Definition flipOp (c : comp) : comp :=
  match c with
  | C_LT => C_GT | C_LE => C_GE | C_GT => C_LT | C_GE => C_LE
  | C_BVULT => C_BVUGT | C_BVULE => C_BVUGE | C_BVUGT => C_BVULT | C_BVUGE => C_BVULE
  | C_BVSLT => C_BVSGT | C_BVSLE => C_BVSGE | C_BVSGT => C_BVSLT | C_BVSGE => C_BVSLE
  | C_FPLT => C_FPGT | C_FPLE => C_FPGE | C_FPGT => C_FPLT | C_FPGE => C_FPLE
  end.
(** 184-224 getStrictOperator *)
Definition strictOp (c : comp) : comp :=
  match c with
  | C_LT | C_LE => C_LT | C_GT | C_GE => C_GT
  | C_BVULT | C_BVULE => C_BVULT | C_BVUGT | C_BVUGE => C_BVUGT
  | C_BVSLT | C_BVSLE => C_BVSLT | C_BVSGT | C_BVSGE => C_BVSGT
  | C_FPLT | C_FPLE => C_FPLT | C_FPGT | C_FPGE => C_FPGT
  end.
(** 226-266 getCompareNodeKind *)
Definition compKind (c : comp) : kind :=
  match c with
  | C_LT => NT_LT | C_LE => NT_LE | C_GT => NT_GT | C_GE => NT_GE
  | C_BVULT => NT_BV_ULT | C_BVULE => NT_BV_ULE | C_BVUGT => NT_BV_UGT | C_BVUGE => NT_BV_UGE
  | C_BVSLT => NT_BV_SLT | C_BVSLE => NT_BV_SLE | C_BVSGT => NT_BV_SGT | C_BVSGE => NT_BV_SGE
  | C_FPLT => NT_FP_LT | C_FPLE => NT_FP_LE | C_FPGT => NT_FP_GT | C_FPGE => NT_FP_GE
  end.

(** objective.h: SingleObjective and Objective; a missing component is a null pointer *)
Inductive objective :=
| Single (k : okind) (t : term) (c : comp) (eps m : term) (id : str)
| Group (k : okind) (id : str) (l : list (option objective)).

(** ** context (include/context.h) with objective_map and function_names of Parser *)
Record ctx := Ctx {
  g_as : list term; g_groups : smap (list nat); g_assum : list (list term);
  g_soft : list term; g_wt : list term; g_sgroups : smap (list nat);
  g_obj : list objective; g_omap : smap (option objective); g_funs : list str; g_opt : opts }.
Definition ctx0 : ctx := Ctx [] [] [] [] [] [] [] [] [] opts0.
Definition set_as v g := Ctx v (g_groups g) (g_assum g) (g_soft g) (g_wt g) (g_sgroups g) (g_obj g) (g_omap g) (g_funs g) (g_opt g).
Definition set_groups v g := Ctx (g_as g) v (g_assum g) (g_soft g) (g_wt g) (g_sgroups g) (g_obj g) (g_omap g) (g_funs g) (g_opt g).
Definition set_assum v g := Ctx (g_as g) (g_groups g) v (g_soft g) (g_wt g) (g_sgroups g) (g_obj g) (g_omap g) (g_funs g) (g_opt g).
Definition set_soft v w g := Ctx (g_as g) (g_groups g) (g_assum g) v w (g_sgroups g) (g_obj g) (g_omap g) (g_funs g) (g_opt g).
Definition set_sgroups v g := Ctx (g_as g) (g_groups g) (g_assum g) (g_soft g) (g_wt g) v (g_obj g) (g_omap g) (g_funs g) (g_opt g).
Definition set_obj v g := Ctx (g_as g) (g_groups g) (g_assum g) (g_soft g) (g_wt g) (g_sgroups g) v (g_omap g) (g_funs g) (g_opt g).
Definition set_omap v g := Ctx (g_as g) (g_groups g) (g_assum g) (g_soft g) (g_wt g) (g_sgroups g) (g_obj g) v (g_funs g) (g_opt g).
Definition set_funs v g := Ctx (g_as g) (g_groups g) (g_assum g) (g_soft g) (g_wt g) (g_sgroups g) (g_obj g) (g_omap g) v (g_opt g).
Definition set_opt v g := Ctx (g_as g) (g_groups g) (g_assum g) (g_soft g) (g_wt g) (g_sgroups g) (g_obj g) (g_omap g) (g_funs g) v.
(** assertion_groups, soft_assertion_groups: an unordered_set of indices, kept as a list in
    order of insertion; every index is inserted once *)
Definition group_add (id : str) (i : nat) (m : smap (list nat)) : smap (list nat) :=
  match id with
  | [] => m
  | _ => match mget id m with Some l => mset id (l ++ [i]) m | None => mins id [i] m end
  end.

(** ** commands *)
Definition skipc (s : cs) : cs := CS (sp s) (skipToRpar (sl s)).
Definition psort' (x : pcfg) (s : cs) : res (sort * cs) := psort (length (txt (sl s)) * 2 + 2) x s.
Definition pexpr' (x : pcfg) (s : cs) : res (term * cs) := pexpr (pexpr_fuel s) x s.
(** while( *bufptr != ')' ) l.push_back(rd()) ; the length of the text bounds the number of rounds *)
Fixpoint many {A} (fuel : nat) (rd : cs -> res (A * cs)) (s : cs) : res (list A * cs) :=
  match fuel with
  | O => NoFuel
  | S f => if atc rpar s then Ok ([], s)
           else a <- rd s ;; l <- many f rd (snd a) ;; Ok (fst a :: fst l, snd l)
  end.
Definition many' {A} (rd : cs -> res (A * cs)) (s : cs) := many (S (length (txt (sl s)))) rd s.

(** op_parser.cpp:710-720 mkVar: a declared name gives the variable it already has *)
Definition mkVar (t : sort) (nm : str) (s : cs) : term * cs :=
  match mget nm (p_var (sp s)) with
  | Some v => (v, s)
  | None => let v := T NT_VAR t nm [] in (v, onp (fun p => set_var (mins nm v (p_var p)) p) s)
  end.
(** 237-260 mkFuncDec: parameters are named by their sort *)
Definition dec_param (t : sort) : res term := n <- sort_str t ;; Ok (T NT_FUNC_PARAM t n []).
Definition mkFuncDec (nm : str) (ps : list sort) (out : sort) (s : cs) : res (term * cs) :=
  match mget nm (p_fun (sp s)) with
  | Some _ => Exit
  | None =>
      qs <- mapM dec_param ps ;;
      let f := T NT_FUNC_DEC out nm (NULLT :: qs) in
      Ok (f, onp (fun p => set_fun (mins nm f (p_fun p)) p) s)
  end.
(** 262-328 mkFuncDef, mkFuncRec; updateFuncDef (dag.cpp) replaces kind, sort and children of
    the declared node in place.  Nothing else refers to that node, except when the body of a recursive
    definition names the function without applying it: the code then has a cyclic node, the model
    keeps the declaration inside *)
Definition mkFunc (k : kind) (dbg : bool) (nm : str) (ps : list term) (out : sort) (body : term) (s : cs) : res (term * cs) :=
  let f := T k out nm (body :: ps) in
  match mget nm (p_fun (sp s)) with
  | Some d => condAssert dbg (isk NT_FUNC_DEC d) ;;;
              if isk NT_FUNC_DEC d then Ok (f, onp (fun p => set_fun (mset nm f (p_fun p)) p) s) else Exit
  | None => Ok (f, onp (fun p => set_fun (mins nm f (p_fun p)) p) s)
  end.

(** base_parser.cpp:958-984: one sorted parameter of define-fun, entered into fun_var_map *)
Definition pparam (x : pcfg) (s : cs) : res (term * cs) :=
  s1 <- lparc s ;; n <- sym x s1 ;; t <- psort' x (snd n) ;;
  let v := T NT_FUNC_PARAM (fst t) (fst n) [] in
  match mget (fst n) (p_fv (sp (snd t))) with
  | Some _ => Exit
  | None => s2 <- rparc (onp (fun p => set_fv (mins (fst n) v (p_fv p)) p) (snd t)) ;; Ok (v, s2)
  end.
(** 1082-1091: the same without the table *)
Definition pparam0 (x : pcfg) (s : cs) : res (term * cs) :=
  s1 <- lparc s ;; n <- sym x s1 ;; t <- psort' x (snd n) ;;
  s2 <- rparc (snd t) ;; Ok (T NT_FUNC_PARAM (fst t) (fst n) [], s2).
Definition del_params (ps : list term) (s : cs) : cs :=
  onp (fun p => set_fv (dels (map t_name ps) (p_fv p)) p) s.
(** 916-923, 940-948, 1001-1009: a name in fun_key_map: a definition ends the program, a
    declaration makes the command return at once *)
Definition known_fun (nm : str) (s : cs) : option (res unit) :=
  match mget nm (p_fun (sp s)) with
  | Some f => Some (if isk NT_FUNC_DEF f then Exit else Ok tt)
  | None => None
  end.

(** opt_parser.cpp:51-66, 71-86 *)
Fixpoint soft_kws (n : nat) (x : pcfg) (id wt : str) (s : cs) : res (str * str * cs) :=
  match n with
  | O => Ok (id, wt, s)
  | S m =>
      k <- tryKeyword x s ;;
      match fst k with
      | KW_NULL => Ok (id, wt, snd k)
      | KW_ID => v <- sym x (snd k) ;; soft_kws m x (fst v) wt (snd v)
      | KW_WEIGHT => v <- sym x (snd k) ;; soft_kws m x id (fst v) (snd v)
      | _ => Exit
      end
  end.
(** 88-100 *)
Definition soft_weight (x : pcfg) (w : str) : res term :=
  match w with
  | [] => Ok (mkConstInt 1)
  | _ => if isInt w then z <- Integer_of_str w ;; Ok (mkConstInt z)
         else if isReal w then pConstReal x w else Exit
  end.
(** 42-108 parseAssertSoft *)
Definition pAssertSoft (x : pcfg) (s : cs) (g : ctx) : res (cs * ctx) :=
  k <- soft_kws 2 x [] [] s ;;
  e <- pexpr' x (snd k) ;;
  k2 <- soft_kws 2 x (fst (fst k)) (snd (fst k)) (snd e) ;;
  w <- soft_weight x (snd (fst k2)) ;;
  Ok (snd k2, set_sgroups (group_add (fst (fst k2)) (length (g_soft g)) (g_sgroups g))
                (set_soft (g_soft g ++ [fst e]) (g_wt g ++ [w]) g)).

(** opt_parser.cpp:132-158, 160-185 *)
Record attrs := Attrs { a_comp : str; a_eps : str; a_m : str; a_id : str }.
Fixpoint obj_kws (n : nat) (x : pcfg) (a : attrs) (s : cs) : res (attrs * cs) :=
  match n with
  | O => Ok (a, s)
  | S m =>
      k <- tryKeyword x s ;;
      match fst k with
      | KW_NULL => Ok (a, snd k)
      | KW_COMP => v <- sym x (snd k) ;; obj_kws m x (Attrs (fst v) (a_eps a) (a_m a) (a_id a)) (snd v)
      | KW_EPSILON => v <- sym x (snd k) ;; obj_kws m x (Attrs (a_comp a) (fst v) (a_m a) (a_id a)) (snd v)
      | KW_M => v <- sym x (snd k) ;; obj_kws m x (Attrs (a_comp a) (a_eps a) (fst v) (a_id a)) (snd v)
      | KW_ID => v <- sym x (snd k) ;; obj_kws m x (Attrs (a_comp a) (a_eps a) (a_m a) (fst v)) (snd v)
      | _ => Exit
      end
  end.
Definition is_nil (s : str) : bool := match s with [] => true | _ => false end.
(** 124-199 parseSingleObj: the values of :epsilon and :M are not kept *)
Definition single_obj (x : pcfg) (logic : str) (k : okind) (t : term) (a : attrs) : res objective :=
  match k with
  | O_MAXSAT | O_MINSAT => Ok (Single k NULLT C_LT NULLT NULLT (a_id a))
  | _ => c <- (if is_nil (a_comp a) then defaultComp (c_dbg (x_c x)) logic k else Ok (getComp (a_comp a))) ;;
         Ok (Single k t c (if is_nil (a_eps a) then NULLT else EPS_NODE)
                          (if is_nil (a_m a) then NULLT else inf_node NT_INFINITY intS) (a_id a))
  end.
Definition pSingle (x : pcfg) (k : okind) (s : cs) (g : ctx) : res (objective * cs * ctx) :=
  a <- obj_kws 4 x (Attrs [] [] [] []) s ;;
  e <- pexpr' x (snd a) ;;
  a2 <- obj_kws 4 x (fst a) (snd e) ;;
  o <- single_obj x (o_logic (g_opt g)) k (fst e) (fst a2) ;;
  let ob := Group k (a_id (fst a2)) [Some o] in
  Ok (ob, snd a2, set_obj (g_obj g ++ [ob]) g).
(** one optional :id *)
Definition opt_id (x : pcfg) (s : cs) : res (str * cs) :=
  k <- tryKeyword x s ;;
  match fst k with KW_ID => sym x (snd k) | _ => Ok ([], snd k) end.
(** 202-227 parseDefObj: the :id of the command itself is not kept *)
Definition pDefObj (x : pcfg) (s : cs) (g : ctx) : res (cs * ctx) :=
  n <- sym x s ;; i <- opt_id x (snd n) ;; s1 <- lparc (snd i) ;; t <- sym x s1 ;;
  o <- (if seqs (fst t) "maximize" then pSingle x O_MAX (snd t) g
        else if seqs (fst t) "minimize" then pSingle x O_MIN (snd t) g else Exit) ;;
  s2 <- rparc (snd (fst o)) ;;
  Ok (s2, set_omap (mins (fst n) (Some (fst (fst o))) (g_omap (snd o))) (snd o)).
(** objective_map[name]: enters a null pointer for an unknown name *)
Definition omap_get (m : smap (option objective)) (n : str) : option objective * smap (option objective) :=
  match mget n m with Some o => (o, m) | None => (None, mins n None m) end.
Fixpoint omap_gets (m : smap (option objective)) (ns : list str) : list (option objective) * smap (option objective) :=
  match ns with
  | [] => ([], m)
  | n :: ns' => let a := omap_get m n in let b := omap_gets (snd a) ns' in (fst a :: fst b, snd b)
  end.
(** 229-258 parseMultiObj: the variable of the second :id shadows grp_id *)
Definition pMulti (x : pcfg) (k : okind) (s : cs) (g : ctx) : res (cs * ctx) :=
  i <- opt_id x s ;; s1 <- lparc (snd i) ;; ns <- many' (sym x) s1 ;; s2 <- rparc (snd ns) ;;
  j <- opt_id x s2 ;;
  let r := omap_gets (g_omap g) (fst ns) in
  Ok (snd j, set_obj (g_obj g ++ [Group k (fst i) (fst r)]) (set_omap (snd r) g)).
(** 281-339 parseOptimize: the objective is dropped; :opt_kind is no keyword of
    parseKeyword *)
Fixpoint opt_kws (n : nat) (x : pcfg) (s : cs) : res cs :=
  match n with
  | O => Ok s
  | S m => k <- tryKeyword x s ;;
           match fst k with
           | KW_NULL => Ok (snd k)
           | KW_ID => v <- sym x (snd k) ;; opt_kws m x (snd v)
           | _ => Exit
           end
  end.
Definition pOptimize (x : pcfg) (s : cs) (g : ctx) : res (cs * ctx) :=
  s0 <- opt_kws 4 x s ;; s1 <- lparc s0 ;; ns <- many' (sym x) s1 ;; s2 <- rparc (snd ns) ;;
  s3 <- opt_kws 4 x s2 ;;
  Ok (s3, set_omap (snd (omap_gets (g_omap g) (fst ns))) g).

(** base_parser.cpp:753-806 (assert) *)
Definition pAssert (x : pcfg) (s : cs) (g : ctx) : res (cs * ctx) :=
  k <- tryKeyword x s ;;
  i <- (match fst k with KW_ID => sym x (snd k) | _ => Ok ([], snd k) end) ;;
  e <- pexpr' x (snd i) ;;
  i2 <- (match fst i with
         | [] => opt_id x (snd e)
         | _ => Ok (fst i, snd e)
         end) ;;
  k2 <- tryKeyword x (snd i2) ;;
  n <- (match fst k2 with KW_NAMED => sym x (snd k2) | _ => Ok ([], snd k2) end) ;;
  let g1 := set_groups (group_add (fst i2) (length (g_as g)) (g_groups g)) (set_as (g_as g ++ [fst e]) g) in
  Ok (match fst n with
      | [] => snd n
      | _ => onp (fun p => set_named (mset (fst n) (fst e) (p_named p)) p) (snd n)
      end, g1).

(** 1058-1135 define-funs-rec *)
Record fdecl := Fdecl { fd_name : str; fd_ps : list term; fd_out : sort }.
Fixpoint pdecls (fuel : nat) (x : pcfg) (s : cs) (fs : list str) : res (list fdecl * list str * cs) :=
  match fuel with
  | O => NoFuel
  | S f =>
      if atc rpar s then Ok ([], fs, s)
      else
        s1 <- lparc s ;; n <- sym x s1 ;;
        match known_fun (fst n) (snd n) with
        | Some r => r ;;; pdecls f x (skipc (snd n)) fs
        | None =>
            s2 <- lparc (snd n) ;; ps <- many' (pparam0 x) s2 ;; s3 <- rparc (snd ps) ;;
            t <- psort' x s3 ;; s4 <- rparc (snd t) ;;
            l <- pdecls f x s4 (fs ++ [fst n]) ;;
            Ok (Fdecl (fst n) (fst ps) (fst t) :: fst (fst l), snd (fst l), snd l)
        end
  end.
Fixpoint decl_all (ds : list fdecl) (s : cs) : res cs :=
  match ds with
  | [] => Ok s
  | d :: ds' => r <- mkFuncDec (fd_name d) (map t_sort (fd_ps d)) (fd_out d) s ;; decl_all ds' (snd r)
  end.
Fixpoint pbodies (x : pcfg) (ds : list fdecl) (s : cs) : res cs :=
  match ds with
  | [] => Ok s
  | d :: ds' =>
      let s1 := onp (fun p => set_fv (fold_left (fun m v => mins (t_name v) v m) (fd_ps d) (p_fv p)) p) s in
      e <- pexpr' x s1 ;;
      r <- mkFunc NT_FUNC_REC (c_dbg (x_c x)) (fd_name d) (fd_ps d) (fd_out d) (fst e) (snd e) ;;
      pbodies x ds' (del_params (fd_ps d) (snd r))
  end.

(** commands that only warn or do nothing (1185-1300, 1324-1329) *)
Definition ignored : list string :=
  ["echo"; "get-assertions"; "get-assignment"; "get-info"; "get-option"; "get-proof";
   "get-unsat-assumptions"; "get-unsat-core"; "get-value"; "pop"; "push"; "reset"; "reset-assertions";
   "set-info"; "set-option"]%string.

(** base_parser.cpp:748-1430 parseCommand, from behind the opening parenthesis; the result
    says whether the command was exit *)
Definition pcommand (b : pcfg) (file : bool) (s0 : cs) (g : ctx) : res (bool * cs * ctx) :=
  let x := xo b file (g_opt g) in
  r <- sym x s0 ;;
  let c := fst r in let s := snd r in
  let done (s : cs) (g : ctx) : res (bool * cs * ctx) := Ok (false, skipc s, g) in
  if seqs c "assert" then q <- pAssert x s g ;; done (fst q) (snd q)
  else if seqs c "assert-soft" then q <- pAssertSoft x s g ;; done (fst q) (snd q)
  else if seqs c "check-sat" then done s (set_opt (set_checksat (g_opt g)) g)
  else if seqs c "check-sat-assuming" then
    s1 <- lparc s ;; l <- many' (pexpr' x) s1 ;;
    done (snd l) (set_assum (g_assum g ++ [fst l]) g)
  else if seqs c "declare-const" then
    n <- sym x s ;; t <- psort' x (snd n) ;;
    let v := mkVar (fst t) (fst n) (snd t) in
    if isErr (fst v) then Exit else done (snd v) g
  else if seqs c "declare-fun" then
    n <- sym x s ;; s1 <- lparc (snd n) ;;
    if atc rpar s1 then
      s2 <- rparc s1 ;; t <- psort' x s2 ;;
      let v := mkVar (fst t) (fst n) (snd t) in
      if isErr (fst v) then Exit else done (snd v) g
    else
      ps <- many' (psort' x) s1 ;; s2 <- rparc (snd ps) ;; t <- psort' x s2 ;;
      f <- mkFuncDec (fst n) (fst ps) (fst t) (snd t) ;;
      done (snd f) (set_funs (g_funs g ++ [fst n]) g)
  else if seqs c "declare-sort" then
    n <- sym x s ;; a <- sym x (snd n) ;; z <- stoi (fst a) ;;
    done (onp (fun p => set_srt (mins (fst n) (Srt SK_DEC (fst n) (u64 z) []) (p_srt p)) p) (snd a)) g
  else if seqs c "define-const" then
    n <- sym x s ;;
    match known_fun (fst n) (snd n) with
    | Some r => r ;;; Ok (false, snd n, g)
    | None =>
        t <- psort' x (snd n) ;; e <- pexpr' x (snd t) ;;
        f <- mkFunc NT_FUNC_DEF (c_dbg (x_c x)) (fst n) [] (fst t) (fst e) (snd e) ;;
        done (snd f) (set_funs (g_funs g ++ [fst n]) g)
    end
  else if seqs c "define-fun" then
    n <- sym x s ;;
    match known_fun (fst n) (snd n) with
    | Some r => r ;;; Ok (false, snd n, g)
    | None =>
        s1 <- lparc (snd n) ;; ps <- many' (pparam x) s1 ;; s2 <- rparc (snd ps) ;;
        t <- psort' x s2 ;; e <- pexpr' x (snd t) ;;
        f <- mkFunc NT_FUNC_DEF (c_dbg (x_c x)) (fst n) (fst ps) (fst t) (fst e) (snd e) ;;
        done (del_params (fst ps) (snd f)) (set_funs (g_funs g ++ [fst n]) g)
    end
  else if seqs c "define-fun-rec" then
    n <- sym x s ;;
    match known_fun (fst n) (snd n) with
    | Some r => r ;;; Ok (false, snd n, g)
    | None =>
        s1 <- lparc (snd n) ;; ps <- many' (pparam x) s1 ;; s2 <- rparc (snd ps) ;;
        t <- psort' x s2 ;;
        d <- mkFuncDec (fst n) (map t_sort (fst ps)) (fst t) (snd t) ;;
        e <- pexpr' x (snd d) ;;
        f <- mkFunc NT_FUNC_REC (c_dbg (x_c x)) (fst n) (fst ps) (fst t) (fst e) (snd e) ;;
        done (del_params (fst ps) (snd f)) (set_funs (g_funs g ++ [fst n]) g)
    end
  else if seqs c "define-funs-rec" then
    s1 <- lparc s ;; d <- pdecls (S (length (txt (sl s1)))) x s1 (g_funs g) ;; s2 <- rparc (snd d) ;;
    s3 <- decl_all (fst (fst d)) s2 ;; s4 <- lparc s3 ;;
    s5 <- pbodies x (fst (fst d)) s4 ;; s6 <- rparc s5 ;;
    done s6 (set_funs (snd (fst d)) g)
  else if seqs c "define-sort" then
    n <- sym x s ;; s1 <- lparc (snd n) ;; ps <- many' (sym x) s1 ;; s2 <- rparc (snd ps) ;;
    t <- psort' x s2 ;;
    let d := match fst ps with
             | [] => fst t
             | _ => Srt SK_DEF (fst n) (zlen (fst ps))
                      (map (fun v => Srt SK_UNKNOWN v 0 []) (fst ps) ++ [fst t])
             end in
    done (onp (fun p => set_srt (mins (fst n) d (p_srt p)) p) (snd t)) g
  else if seqs c "exit" then Ok (true, skipc s, g)
  else if in_names c ignored then done s g
  else if seqs c "get-model" then done s (set_opt (set_getmodel (g_opt g)) g)
  else if seqs c "set-logic" then
    n <- sym x s ;;
    let o := setLogic (fst n) (g_opt g) in
    if fst o then Ok (false, snd n, set_opt (snd o) g) else Exit
  else if seqs c "exists" || seqs c "forall" then
    let s1 := onp (fun p => set_qd (S (p_qd p)) p) s in
    q <- pquant (pexpr_fuel s1) x (seqs c "forall") s1 ;;
    done (onp (fun p => set_qd (Nat.pred (p_qd p)) p) (snd q)) g
  else if seqs c "get-objectives" then done s (set_opt (set_getobj (g_opt g)) g)
  else if seqs c "maximize" then q <- pSingle x O_MAX s g ;; done (snd (fst q)) (snd q)
  else if seqs c "minimize" then q <- pSingle x O_MIN s g ;; done (snd (fst q)) (snd q)
  else if seqs c "define-objective" then q <- pDefObj x s g ;; done (fst q) (snd q)
  else if seqs c "lex-optimize" then q <- pMulti x O_LEX s g ;; done (fst q) (snd q)
  else if seqs c "pareto-optimize" then q <- pMulti x O_PARETO s g ;; done (fst q) (snd q)
  else if seqs c "box-optimize" then q <- pMulti x O_BOX s g ;; done (fst q) (snd q)
  else if seqs c "minmax" then q <- pMulti x O_MINMAX s g ;; done (fst q) (snd q)
  else if seqs c "maxmin" then q <- pMulti x O_MAXMIN s g ;; done (fst q) (snd q)
  else if seqs c "maxsat" then q <- pSingle x O_MAXSAT s g ;; done (snd (fst q)) (snd q)
  else if seqs c "minsat" then q <- pSingle x O_MINSAT s g ;; done (snd (fst q)) (snd q)
  else if seqs c "optimize" then q <- pOptimize x s g ;; done (fst q) (snd q)
  else Exit.

(** 634-641, 672-678: the loop of parseSmtlib2File and parseStr *)
Fixpoint pscript (fuel : nat) (b : pcfg) (file : bool) (s : cs) (g : ctx) : res (pst * ctx) :=
  match fuel with
  | O => NoFuel
  | S f =>
      if aeq (cur (sl s)) nul then Ok (sp s, g)
      else
        s1 <- lparc s ;; r <- pcommand b file s1 g ;;
        if fst (fst r) then Ok (sp (snd (fst r)), snd r)
        else s2 <- rparc (snd (fst r)) ;; pscript f b file s2 (snd r)
  end.

(** ** the parser object *)
Inductive rt := RT_SAT | RT_UNSAT | RT_DELTA_SAT | RT_UNKNOWN | RT_ERROR.
(** [q_res]: result_type; the constructors do not initialise it (base_parser.cpp:36-111) *)
Record parser := Parser { q_p : pst; q_g : ctx; q_res : rt; q_file : bool }.
(** a new parser, with whatever result_type its memory holds *)
Definition parser0 (r : rt) : parser := Parser pst0 ctx0 r false.
(** base_parser.cpp:666-681 parseStr: safe_strdup of "" is a null pointer *)
Definition parseStr (b : pcfg) (t : str) (q : parser) : res parser :=
  match t with
  | [] => UB
  | _ => r <- pscript (S (length t)) b (q_file q) (CS (q_p q) (scan t)) (q_g q) ;;
         Ok (Parser (fst r) (snd r) (q_res q) (q_file q))
  end.
(** 612-650 parseSmtlib2File; [t] is the content of the file *)
Definition parseFile (b : pcfg) (t : str) (q : parser) : res parser :=
  r <- pscript (S (length t)) b true (CS (q_p q) (scan t)) (q_g q) ;;
  Ok (Parser (fst r) (snd r) (q_res q) true).
(** 683-692 assert of a text, of a node *)
Definition assertStr (b : pcfg) (t : str) (q : parser) : res parser :=
  r <- mkExpr (xo b false (g_opt (q_g q))) (q_p q) t ;;
  Ok (Parser (snd r) (set_as (g_as (q_g q) ++ [fst r]) (q_g q)) (q_res q) false).
Definition assertNode (t : term) (q : parser) : parser :=
  Parser (q_p q) (set_as (g_as (q_g q) ++ [t]) (q_g q)) (q_res q) (q_file q).
(** 121-150 checkSat: the first assertion that is not the constant true decides *)
Fixpoint check_loop (l : list term) (r : rt) : rt * rt :=
  match l with
  | [] => (RT_SAT, RT_SAT)
  | t :: l' => if isErr t then (RT_ERROR, RT_ERROR)
               else if isFalse t then (RT_UNSAT, r)
               else if isTrue t then check_loop l' r
               else (RT_UNKNOWN, RT_UNKNOWN)
  end.
Definition checkSat (q : parser) : rt * parser :=
  match q_res q with
  | RT_UNKNOWN => let r := check_loop (g_as (q_g q)) (q_res q) in
                  (fst r, Parser (q_p q) (q_g q) (snd r) (q_file q))
  | r => (r, q)
  end.
