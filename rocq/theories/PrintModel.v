(** Printing of expressions: dumpConst, dumpSMTLIB2_streaming, dumpSMTLIB2 (src/dag.cpp:58-860)
    and the function printers (863-900); Parser::toString (src/base_parser.cpp:2814-2816). *)
From Verif Require Import Base KindModel SortModel TermModel SimpModel OpModel ParseModel.
Open Scope Z_scope.

(** dag.cpp:58-93 dumpConst; name[0] of an empty std::string is NUL.  The branches differ
    only for numeric sorts. *)
Definition dumpConst (nm : str) (s : sort) : str :=
  if s_is SK_REAL s || s_is SK_INT s || s_is SK_INTOREAL s then
    match nm with
    | c :: r => if aeq c "-"%char then L "(- " ++ r ++ L ")" else nm
    | [] => nm
    end
  else nm.
(** dag.h:681-686 getPureName; std::string::find of the suffix *)
Fixpoint before (p s : str) : str :=
  if is_prefix p s then [] else match s with [] => [] | c :: s' => c :: before p s' end.
Definition pureName (t : term) : str :=
  if isk NT_LET_BIND_VAR t then before SUFFIX (t_name t) else t_name t.

(** dag.cpp:135-145 WorkItem: a node to process, or text to write (actions 1-4) *)
Inductive item := INode (t : term) | IText (s : str).
Definition txti (s : string) : item := IText (L s).
Definition sp1 : item := txti " ".

(** node->getChild(i).get() for i < [n]; a missing child is undefined *)
Fixpoint firsts (n : nat) (ch : list term) : res (list term) :=
  match n, ch with
  | O, _ => Ok []
  | S m, c :: ch' => r <- firsts m ch' ;; Ok (c :: r)
  | S _, [] => UB
  end.
(** " c1 c2 ... cn)" *)
Definition spaced (ch : list term) : list item := flat_map (fun c => [sp1; INode c]) ch.
Definition close : item := txti ")".
(** "(op c1 ... cn)" *)
Definition napp (op : str) (ch : list term) : list item := IText (L "(" ++ op) :: spaced ch ++ [close].
(** "((_ op ix...) args...)" *)
Definition iapp (op : str) (ix args : list term) : list item :=
  IText (L "((_ " ++ op) :: spaced ix ++ close :: spaced args ++ [close].
(** names written without parentheses when there is no argument (442-457, 540-571) *)
Definition fapp (nm : str) (args : list term) : list item :=
  match args with [] => [IText nm] | _ => napp nm args end.

(** the sorted variables of a quantifier (397-411) *)
Fixpoint qvars (first : bool) (vs : list term) : res str :=
  match vs with
  | [] => Ok []
  | v :: vs' => s <- sort_str (t_sort v) ;; r <- qvars false vs' ;;
                Ok ((if first then [] else L " ") ++ L "(" ++ t_name v ++ L " " ++ s ++ L ")" ++ r)
  end.
(** "((v1 e1) (v2 e2) ...": bindings of let (459-481, 499-510) *)
Fixpoint lbinds (first : bool) (vs : list term) : res (list item) :=
  match vs with
  | [] => Ok []
  | v :: vs' =>
      e <- child0 v ;; r <- lbinds false vs' ;;
      Ok ((if first then [] else [sp1]) ++ [txti "("; IText (pureName v); sp1; INode e; close] ++ r)
  end.
(** one nested let per list of bindings (483-513) *)
Fixpoint lchain (dbg : bool) (ls : list term) : res (list item) :=
  match ls with
  | [] => Ok []
  | l :: ls' =>
      condAssert dbg (isk NT_LET_BIND_VAR_LIST l) ;;;
      b <- lbinds true (t_ch l) ;; r <- lchain dbg ls' ;;
      Ok (txti "(let (" :: b ++ txti ") " :: r)
  end.
Definition named_const (nm : str) (dflt : string) : str :=
  match nm with c :: _ => if aeq c "("%char then nm else L dflt | [] => L dflt end.
(** dag.cpp:124-128, 93-121: names from the cache; all others come from kindToString.  The cache
    agrees with kindToString on every kind it is read for (print_cache below). *)
Definition cache_name (k : kind) : str :=
  match k with
  | NT_NOT => L "not" | NT_AND => L "and" | NT_OR => L "or" | NT_ADD => L "+" | NT_MUL => L "*"
  | NT_SUB => L "-" | NT_EQ => L "=" | NT_LE => L "<=" | NT_LT => L "<" | NT_GE => L ">="
  | NT_GT => L ">" | NT_ITE => L "ite" | NT_IMPLIES => L "=>" | NT_XOR => L "xor"
  | NT_DIV_REAL => L "/" | NT_NEG => L "-" | NT_DISTINCT => L "distinct"
  | _ => kindToString k
  end.

(** dag.cpp:175-850: what processing one node writes and pushes, in the order of the output
    (the code writes the first text at once and pushes the rest in reverse).  " c" and
    adjacent closing texts are separate items exactly when the code's are, except that an opening
    "(op " written before the first child is "(op" and a space here. *)
Definition visit (dbg : bool) (t : term) : res (list item) :=
  match t with T k s nm ch =>
  match k with
  | NT_CONST_TRUE => Ok [txti "true"] | NT_CONST_FALSE => Ok [txti "false"]
  | NT_CONST =>
      if seqs nm "(fp_bit_representation)" && Nat.eqb (length ch) 3 then Ok (napp (L "fp") ch)
      else Ok [IText (dumpConst nm s)]
  | NT_VAR | NT_TEMP_VAR | NT_PLACEHOLDER_VAR | NT_QUANT_VAR
  | NT_FUNC_DEC | NT_FUNC_DEF | NT_FUNC_REC | NT_FUNC_PARAM => Ok [IText nm]
  | NT_CONST_ARRAY =>
      a <- sort_str s ;; c <- firsts 1 ch ;;
      Ok (IText (L "((as const " ++ a ++ L ")") :: spaced c ++ [close])
  | NT_EQ | NT_LE | NT_LT | NT_GE | NT_GT | NT_ADD | NT_MUL | NT_SUB | NT_DIV_REAL
  | NT_AND | NT_OR | NT_DISTINCT => Ok (napp (cache_name k) ch)
  | NT_REG_LOOP => c <- firsts 3 ch ;; Ok (iapp (L "re.loop") (tl c) (firstn 1 c))
  | NT_NOT | NT_NEG => c <- firsts 1 ch ;; Ok (napp (cache_name k) c)
  | NT_ITE => c <- firsts 3 ch ;; Ok (napp (L "ite") c)
  | NT_BV_EXTRACT => c <- firsts 3 ch ;; Ok (iapp (L "extract") (tl c) (firstn 1 c))
  | NT_BV_REPEAT | NT_BV_ZERO_EXT | NT_BV_SIGN_EXT | NT_BV_ROTATE_LEFT | NT_BV_ROTATE_RIGHT =>
      c <- firsts 2 ch ;; Ok (iapp (kindToString k) (tl c) (firstn 1 c))
  | NT_CONST_PI => Ok [txti "pi"] | NT_CONST_E => Ok [txti "e"]
  | NT_INFINITY => Ok [IText (named_const nm "inf")]
  | NT_POS_INFINITY => Ok [IText (named_const nm "+inf")]
  | NT_NEG_INFINITY => Ok [IText (named_const nm "-inf")]
  | NT_NAN => Ok [IText (named_const nm "NaN")]
  | NT_EPSILON => Ok [txti "epsilon"] | NT_POS_EPSILON => Ok [txti "+epsilon"]
  | NT_NEG_EPSILON => Ok [txti "-epsilon"]
  | NT_REG_NONE => Ok [txti "re.none"] | NT_REG_ALL => Ok [txti "re.all"]
  | NT_REG_ALLCHAR => Ok [txti "re.allchar"]
  | NT_FORALL | NT_EXISTS =>
      q <- qvars true (tl ch) ;; b <- firsts 1 ch ;;
      Ok (IText (L "(" ++ kindToString k ++ L " (" ++ q ++ L ")") :: spaced b ++ [close])
  | NT_FUNC_APPLY | NT_FUNC_REC_APPLY => Ok (fapp nm (tl ch))
  | NT_UF_APPLY => Ok (fapp nm ch)
  | NT_LET =>
      condAssert dbg (Nat.ltb 0 (length ch)) ;;;
      b <- firsts 1 ch ;; l <- lbinds true (tl ch) ;;
      Ok (txti "(let (" :: l ++ txti ")" :: spaced b ++ [close])
  | NT_LET_CHAIN =>
      (* getChildrenSize() - 1 wraps around for no children *)
      match ch with
      | [] => UB
      | _ => l <- lchain dbg (removelast ch) ;;
             Ok (l ++ INode (last ch NULLT) :: map (fun _ => close) (removelast ch))
      end
  | NT_LET_BIND_VAR => Ok [IText (pureName t)]
  | NT_LET_BIND_VAR_LIST =>
      (* the loop starts at 1 (527) *)
      l <- lbinds true (tl ch) ;; Ok (txti "( " :: l ++ [close])
  | NT_FP_ADD | NT_FP_SUB | NT_FP_MUL | NT_FP_DIV | NT_FP_FMA | NT_FP_MIN | NT_FP_MAX
  | NT_FP_SQRT | NT_FP_ROUND_TO_INTEGRAL => Ok (napp (kindToString k) ch)
  | NT_FP_ABS | NT_FP_NEG | NT_FP_IS_NORMAL | NT_FP_IS_SUBNORMAL | NT_FP_IS_ZERO | NT_FP_IS_INF
  | NT_FP_IS_NAN | NT_FP_IS_NEG | NT_FP_IS_POS | NT_FP_TO_REAL =>
      c <- firsts 1 ch ;; Ok (napp (kindToString k) c)
  | NT_FP_REM => c <- firsts 2 ch ;; Ok (napp (L "fp.rem") c)
  | NT_FP_LE | NT_FP_LT | NT_FP_GE | NT_FP_GT | NT_FP_EQ =>
      c <- firsts 2 ch ;; Ok (napp (kindToString k) c)
  | NT_FP_TO_UBV | NT_FP_TO_SBV =>
      c <- firsts 3 ch ;; Ok (iapp (kindToString k) (skipn 2 c) (firstn 2 c))
  | NT_FP_TO_FP =>
      c <- firsts 2 ch ;;
      if Nat.eqb (length ch) 4 || Nat.eqb (length ch) 3
      then Ok (iapp (L "to_fp") c (skipn 2 ch))
      else Ok [txti "INVALID_FP_TO_FP_NODE"]
  | NT_FP_TO_FP_UNSIGNED =>
      c <- firsts 4 ch ;; Ok (iapp (L "to_fp_unsigned") (firstn 2 c) (skipn 2 c))
  | NT_ROOT_OBJ => c <- firsts 2 ch ;; Ok (napp (L "root-obj") c)
  | NT_ROOT_OF_WITH_INTERVAL =>
      match rev ch with
      | u :: l :: co => Ok (txti "(root-of-with-interval (coeffs " :: spaced (rev co) ++ close :: spaced [l; u] ++ [close])
      | _ => UB
      end
  | NT_REAL_ALGEBRAIC_NUMBER =>
      c <- firsts 3 ch ;;
      match c with
      | [p; l; u] => Ok [txti "(_ real_algebraic_number <"; INode p; txti ","; sp1; txti "("; sp1; INode l;
                         txti ","; sp1; INode u; close; txti ">"]
      | _ => UB
      end
  | NT_SELECT => c <- firsts 2 ch ;; Ok (napp (L "select") c)
  | NT_STORE => c <- firsts 3 ch ;; Ok (napp (L "store") c)
  | _ => match ch with [] => Ok [IText (kindToString k)] | _ => Ok (napp (kindToString k) ch) end
  end end.

(** dag.cpp:146-170: the loop over work_stack *)
Fixpoint dumpLoop (fuel : nat) (dbg : bool) (work : list item) (out : str) : res str :=
  match fuel with
  | O => NoFuel
  | S f =>
      match work with
      | [] => Ok out
      | IText s :: w => dumpLoop f dbg w (out ++ s)
      | INode t :: w => its <- visit dbg t ;; dumpLoop f dbg (its ++ w) out
      end
  end.
(** enough for every node (PrintProofs.v) *)
Definition dump_fuel (t : term) : nat := 12 * tsize t + 2.
(** dag.cpp:852-858 dumpSMTLIB2; base_parser.cpp:2814-2816 toString *)
Definition dumpSMTLIB2 (dbg : bool) (t : term) : res str := dumpLoop (dump_fuel t) dbg [INode t] [].

(** dag.cpp:861-900 dumpFuncDef, dumpFuncRec, dumpFuncDec *)
Fixpoint sorts_text (first : bool) (vs : list term) : res str :=
  match vs with
  | [] => Ok []
  | v :: vs' => s <- sort_str (t_sort v) ;; r <- sorts_text false vs' ;;
                Ok ((if first then [] else L " ") ++ s ++ r)
  end.
Definition dumpFuncDef (dbg rec : bool) (t : term) : res str :=
  v <- qvars true (tl (t_ch t)) ;; s <- sort_str (t_sort t) ;;
  b <- child0 t ;; e <- dumpSMTLIB2 dbg b ;;
  Ok (L (if rec then "(define-fun-rec " else "(define-fun ") ++ t_name t ++ L " (" ++ v ++ L ") " ++ s
      ++ L " " ++ e ++ L ")").
Definition dumpFuncDec (t : term) : res str :=
  v <- sorts_text true (tl (t_ch t)) ;; s <- sort_str (t_sort t) ;;
  Ok (L "(declare-fun " ++ t_name t ++ L " (" ++ v ++ L ") " ++ s ++ L ")").
