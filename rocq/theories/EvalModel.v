(** Evaluation of a term under a model: src/eval_parser.cpp.

    A call evaluate(expr, model, result) returns whether the term changed and writes
    [result]; here the written value is an option, [None] when the reference argument is
    left as the caller initialised it (NULL_NODE nearly everywhere).
    NT_LET is never built by the library; evaluateLet (1912-2002) is not modelled and such a
    node runs out of fuel. *)
From Coq Require Import QArith.
From Verif Require Import Base KindModel SortModel TermModel SimpModel OpModel ArrayModel ArrSimpModel TraverseModel.
Open Scope Z_scope.

Definition outcome := (bool * option term)%type.
Definition evalf := term -> res outcome.
(** the value of a variable initialised with NodeManager::NULL_NODE *)
Definition val (o : option term) : term := match o with Some v => v | None => NULLT end.
Definition same (t : term) : res outcome := Ok (false, Some t).
Definition changed (r : res term) : res outcome := v <- r ;; Ok (true, Some v).

(** eval_parser.cpp:576-636 *)
Definition ev1_kinds : list kind :=
  [NT_NOT; NT_NEG; NT_ABS; NT_SQRT; NT_SAFESQRT; NT_CEIL; NT_FLOOR; NT_ROUND; NT_EXP; NT_POW2; NT_LN; NT_LG; NT_LB;
   NT_SIN; NT_COS; NT_TAN; NT_COT; NT_CSC; NT_SEC; NT_ASIN; NT_ACOS; NT_ATAN; NT_ASEC; NT_ACSC; NT_ACOT; NT_SINH;
   NT_COSH; NT_TANH; NT_SECH; NT_CSCH; NT_COTH; NT_ASINH; NT_ACOSH; NT_ATANH; NT_ACOTH; NT_ASECH; NT_ACSCH; NT_TO_REAL;
   NT_TO_INT; NT_IS_INT; NT_IS_DIVISIBLE; NT_IS_PRIME; NT_IS_EVEN; NT_IS_ODD; NT_FACT; NT_BV_NOT; NT_BV_NEG;
   NT_BV_TO_NAT; NT_BV_TO_INT; NT_STR_LEN; NT_STR_TO_LOWER; NT_STR_TO_UPPER; NT_STR_REV; NT_STR_IS_DIGIT;
   NT_STR_FROM_INT; NT_STR_TO_INT; NT_STR_TO_REG; NT_STR_TO_CODE; NT_STR_FROM_CODE].
(** eval_parser.cpp:649-689 *)
Definition ev2_kinds : list kind :=
  [NT_IMPLIES; NT_MOD; NT_LOG; NT_POW; NT_ATAN2; NT_LE; NT_LT; NT_GE; NT_GT; NT_GCD; NT_LCM; NT_BV_COMP; NT_BV_UREM;
   NT_BV_SREM; NT_BV_UMOD; NT_BV_SMOD; NT_BV_SHL; NT_BV_LSHR; NT_BV_ASHR; NT_BV_ULT; NT_BV_ULE; NT_BV_UGT; NT_BV_UGE;
   NT_BV_SLT; NT_BV_SGT; NT_BV_SLE; NT_BV_SGE; NT_NAT_TO_BV; NT_INT_TO_BV; NT_STR_PREFIXOF; NT_STR_SUFFIXOF;
   NT_STR_CONTAINS; NT_STR_CHARAT; NT_STR_LT; NT_STR_LE; NT_STR_GT; NT_STR_GE; NT_STR_IN_REG].
(** eval_parser.cpp:703-708 *)
Definition ev3_kinds : list kind :=
  [NT_STR_SUBSTR; NT_STR_INDEXOF; NT_STR_UPDATE; NT_STR_REPLACE; NT_STR_REPLACE_ALL].
(** eval_parser.cpp:726-738 *)
Definition evN_kinds : list kind :=
  [NT_IAND; NT_ADD; NT_MUL; NT_BV_AND; NT_BV_OR; NT_BV_XOR; NT_BV_NAND; NT_BV_NOR; NT_BV_XNOR; NT_BV_ADD; NT_BV_MUL;
   NT_MAX; NT_MIN].
(** eval_parser.cpp:787-792 *)
Definition evS_kinds : list kind :=
  [NT_SUB; NT_DIV_REAL; NT_BV_SUB; NT_BV_UDIV; NT_BV_SDIV; NT_FP_SUB].

(** the loop evaluating every child: 741-745, 796-800, 1211-1215 *)
Definition ev_all (f : evalf) : list term -> res (bool * list term) :=
  fix go (l : list term) : res (bool * list term) :=
    match l with
    | [] => Ok (false, [])
    | x :: l' => o <- f x ;; q <- go l' ;; Ok (fst o || fst q, val (snd o) :: snd q)
    end.
Definition consts (l : list term) : list term := filter isConst l.
Definition others (l : list term) : list term := filter (fun x => negb (isConst x)) l.
(** left fold with the binary operation: 773-776 *)
Definition fold_consts (c : cfg) (s : sort) (k : kind) (l : list term) : res term :=
  match l with [] => Ok NULLT | x :: l' => foldM (fun a y => mkOper c s k [a; y]) x l' end.
(** "if(non_const_children.size() == 1) ... else mkOper" *)
Definition rebuild1 (c : cfg) (s : sort) (k : kind) (l : list term) : res term :=
  match l with [x] => Ok x | _ => mkOper c s k l end.

(** eval_parser.cpp:739-786 *)
Definition evN (c : cfg) (s : sort) (k : kind) (l : list term) : res term :=
  match consts l with
  | [] => rebuild1 c s k (others l)
  | cs => r <- fold_consts c s k cs ;; rebuild1 c s k (others l ++ [r])
  end.
(** eval_parser.cpp:793-852; children[0] of an empty vector is undefined *)
Definition evS (c : cfg) (s : sort) (k : kind) (l : list term) : res term :=
  match l with
  | [] => UB
  | x :: _ =>
      match consts l with
      | [] => rebuild1 c s k (others l)
      | cs => if isConst x then r <- fold_consts c s k cs ;; rebuild1 c s k (r :: others l)
              else r <- fold_consts c s (getFlipKind k) cs ;; rebuild1 c s k (others l ++ [r])
      end
  end.

(** eval_parser.cpp:853-910, concatenations.  [cur] is the constant accumulated by the inner
    loop (which starts at the child that the outer loop has just evaluated, so that this child
    is evaluated and concatenated a second time) together with the last value of [child_];
    the child that ends the inner loop is skipped by the i++ of the outer one. *)
Definition ev_concat (c : cfg) (s : sort) (k : kind) (f : evalf) : list term -> option (term * option term) -> res (bool * list term) :=
  fix go (l : list term) (cur : option (term * option term)) : res (bool * list term) :=
    match l, cur with
    | [], None => Ok (false, [])
    | [], Some (a, _) => Ok (false, [a])
    | x :: l', None =>
        o <- f x ;;
        if isConst (val (snd o)) then
          o' <- f x ;;
          a <- mkOper c s k [val (snd o); val (snd o')] ;;
          q <- go l' (Some (a, snd o')) ;; Ok (fst o || fst q, snd q)
        else q <- go l' None ;; Ok (fst o || fst q, val (snd o) :: snd q)
    | x :: l', Some (a, prev) =>
        o <- f x ;;
        let cur' := match snd o with Some v => Some v | None => prev end in
        if isConst (val cur') then
          a' <- mkOper c s k [a; val cur'] ;;
          q <- go l' (Some (a', cur')) ;; Ok (fst o || fst q, snd q)
        else condAssert (c_dbg c) (negb (isConst a)) ;;;
             q <- go l' None ;; Ok (fst o || fst q, a :: snd q)
    end.

(** eval_parser.cpp:919-982 *)
Definition ev_junction (f : evalf) (zero : term -> bool) : list term -> res (term + bool * list term) :=
  fix go (l : list term) : res (term + bool * list term) :=
    match l with
    | [] => Ok (inr (false, []))
    | x :: l' =>
        o <- f x ;;
        let v := val (snd o) in
        if isConst v && zero v then Ok (inl v)
        else q <- go l' ;;
             Ok (match q with
                 | inl t => inl t
                 | inr (b, vs) => inr (fst o || b, if isConst v then vs else v :: vs)
                 end)
    end.
Definition evAndOr (c : cfg) (f : evalf) (conj : bool) (t : term) : res outcome :=
  o <- ev_junction f (if conj then isFalse else isTrue) (t_ch t) ;;
  match o with
  | inl v => Ok (true, Some v)
  | inr (false, _) => same t
  | inr (true, vs) =>
      changed (match vs with
               | [] => Ok (if conj then TRUE else FALSE)
               | [v] => Ok v
               | _ => if conj then mkAnd c vs else mkOr c vs
               end)
  end.

(** eval_parser.cpp:989-1040 *)
Definition evXor (c : cfg) (f : evalf) (t : term) : res outcome :=
  q <- ev_all f (t_ch t) ;;
  if fst q then
    let odd := Nat.odd (length (filter (fun v => isConst v && isTrue v) (snd q))) in
    changed (match others (snd q) with
             | [] => Ok (if odd then TRUE else FALSE)
             | [v] => if odd then mkNot c v else Ok v
             | vs => x <- mkXor c vs ;; if odd then mkNot c x else Ok x
             end)
  else same t.

(** eval_parser.cpp:1067-1115: comparison of two constants; [None]: not comparable *)
Definition const_eq (c : cfg) (a b : term) : res bool :=
  if isCInt a && isCInt b then x <- toInt c a ;; y <- toInt c b ;; Ok (x =? y)
  else if isCReal a && isCReal b then Ok (Qeq_bool (c_rv c a) (c_rv c b))
  else if isCBool a && isCBool b then Ok (Bool.eqb (isTrue a) (isTrue b))
  else if isCStr a && isCStr b then Ok (seq_str (t_name a) (t_name b))
  else if isCBV a && isCBV b then Ok (seq_str (t_name a) (t_name b))
  else if isCFP a && isCFP b then Ok (seq_str (t_name a) (t_name b))
  else if isArray a && isArray b then areArraysEqual arr_fuel (c_hash c) a b
  else condAssert (c_dbg c) false ;;; Ok true.
Fixpoint all_eq (c : cfg) (a : term) (l : list term) : res bool :=
  match l with
  | [] => Ok true
  | b :: l' => e <- const_eq c a b ;; if e then all_eq c a l' else Ok false
  end.
(** eval_parser.cpp:1041-1132 *)
Definition evEq (c : cfg) (f : evalf) (t : term) : res outcome :=
  q <- ev_all f (t_ch t) ;;
  if fst q then
    changed (match consts (snd q) with
             | [] => mkEqV c (others (snd q))
             | a :: l =>
                 e <- all_eq c a l ;;
                 if e then match others (snd q) with
                           | [] => Ok TRUE
                           | vs => mkEqV c (vs ++ [a])
                           end
                 else Ok FALSE
             end)
  else same t.

(** eval_parser.cpp:1133-1174.  The constants are kept in a set of pointers, whose iteration
    order is the argument [ptr]. *)
Definition ev_distinct (f : evalf) : list term -> list term -> res (option (bool * list term)) :=
  fix go (l cs : list term) : res (option (bool * list term)) :=
    match l with
    | [] => Ok (Some (false, []))
    | x :: l' =>
        o <- f x ;;
        let v := val (snd o) in
        if isConst v then
          if existsb (teq v) cs then Ok None
          else q <- go l' (v :: cs) ;; Ok (option_map (fun p => (fst o || fst p, v :: snd p)) q)
        else q <- go l' cs ;; Ok (option_map (fun p => (fst o || fst p, v :: snd p)) q)
    end.
Definition evDistinct (c : cfg) (ptr : list term -> list term) (f : evalf) (t : term) : res outcome :=
  q <- ev_distinct f (t_ch t) [] ;;
  match q with
  | None => Ok (true, Some FALSE)
  | Some (false, _) => same t
  | Some (true, vs) =>
      changed (match consts vs with
               | [] => mkDistinctV c (others vs)
               | cs => match others vs with
                       | [] => Ok TRUE
                       | os => mkDistinctV c (os ++ ptr cs)
                       end
               end)
  end.

(** eval_parser.cpp:1175-1195 *)
Definition evIte (c : cfg) (f : evalf) (t : term) : res outcome :=
  match t_ch t with
  | b :: x :: y :: _ =>
      ob <- f b ;; ox <- f x ;; oy <- f y ;;
      if fst ob || fst ox || fst oy then
        let v := val (snd ob) in
        changed (if isConst v then Ok (if isTrue v then val (snd ox) else val (snd oy))
                 else mkIte c v (val (snd ox)) (val (snd oy)))
      else same t
  | _ => UB
  end.

(** op_parser.cpp:1392-1417 mkDivInt *)
Definition mkDivInt (c : cfg) (ps : list term) : res term :=
  match ps with
  | [] | [_] => Exit
  | [l; r] =>
      if (sis SK_INT l || sis SK_INTOREAL l) && (sis SK_INT r || sis SK_INTOREAL r) || canExempt (t_sort l) (t_sort r)
      then mkOper c intS NT_DIV_INT [l; r] else Exit
  | _ => mkOper c intS NT_DIV_INT ps
  end.
(** eval_parser.cpp:1208-1264: when the first child is constant and its quotient is not
    certainly zero, the quotient is computed and never stored *)
Definition evDivInt (c : cfg) (f : evalf) (t : term) : res outcome :=
  q <- ev_all f (t_ch t) ;;
  if fst q then
    match snd q with
    | [] => UB
    | x :: _ =>
        let prod l := foldM (fun a y => mkMul c [a; y]) (mkConstInt 1) l in
        match consts (snd q) with
        | [] => changed (mkDivInt c (others (snd q)))
        | a :: l =>
            if isConst x then
              r <- prod l ;;
              zr <- toInt c r ;; za <- toInt c a ;;
              if za <? zr then Ok (true, Some (mkConstInt 0))
              else mkDivInt c [a; r] ;;; Ok (true, None)
            else r <- prod (a :: l) ;; changed (mkDivInt c (others (snd q) ++ [r]))
        end
    end
  else same t.

(** a null shared_ptr is dereferenced when the child was not written *)
Definition deref (o : option term) : res term := match o with Some v => Ok v | None => UB end.
(** eval_parser.cpp:1701-1729 *)
Definition evSelect (c : cfg) (ptr : list term -> list term) (f : evalf) (t : term) : res outcome :=
  match t_ch t with
  | a :: i :: _ =>
      oa <- f a ;; oi <- f i ;;
      if fst oa || fst oi then
        va <- deref (snd oa) ;; vi <- deref (snd oi) ;;
        s <- elemS (t_sort va) ;;
        u <- mkOper c s NT_SELECT [va; vi] ;;
        changed (simplifyArray c ptr u)
      else
        u <- simplifyArray c ptr t ;;
        if teq u t then same t else Ok (true, Some u)
  | _ => UB
  end.
(** eval_parser.cpp:1730-1761 *)
Definition evStore (c : cfg) (ptr : list term -> list term) (f : evalf) (t : term) : res outcome :=
  match t_ch t with
  | a :: i :: v :: _ =>
      oa <- f a ;; oi <- f i ;; ov <- f v ;;
      if fst oa || fst oi || fst ov then
        va <- deref (snd oa) ;; vi <- deref (snd oi) ;; vv <- deref (snd ov) ;;
        u <- mkOper c (t_sort va) NT_STORE [va; vi; vv] ;;
        changed (simplifyArray c ptr u)
      else
        u <- simplifyArray c ptr t ;;
        if teq u t then same t else Ok (true, Some u)
  | _ => UB
  end.

(** eval_parser.cpp:573-918 evaluateSimpleOp *)
Definition evSimple (c : cfg) (f : evalf) (t : term) (k : kind) : res outcome :=
  let s := t_sort t in
  if kin k ev1_kinds then
    match t_ch t with
    | x :: _ => o <- f x ;; if fst o then changed (mkOper c s k [val (snd o)]) else same t
    | [] => UB
    end
  else if kin k ev2_kinds then
    match t_ch t with
    | x :: y :: _ =>
        o <- f x ;; p <- f y ;;
        if fst o || fst p then changed (mkOper c s k [val (snd o); val (snd p)]) else same t
    | _ => UB
    end
  else if kin k ev3_kinds then
    match t_ch t with
    | x :: y :: z :: _ =>
        o <- f x ;; p <- f y ;; q <- f z ;;
        if fst o || fst p || fst q then changed (mkOper c s k [val (snd o); val (snd p); val (snd q)]) else same t
    | _ => UB
    end
  else if kin k evN_kinds then
    q <- ev_all f (t_ch t) ;; if fst q then changed (evN c s k (snd q)) else same t
  else if kin k evS_kinds then
    q <- ev_all f (t_ch t) ;; if fst q then changed (evS c s k (snd q)) else same t
  else if kin k [NT_BV_CONCAT; NT_STR_CONCAT] then
    q <- ev_concat c s k f (t_ch t) None ;;
    if fst q then
      match snd q with
      | [v] => Ok (false, Some v)
      | vs => changed (mkOper c s k vs)
      end
    else same t
  else condAssert (c_dbg c) false ;;; same t.

(** the kinds whose evaluator calls evaluateSimpleOp with that kind
    (eval_parser.cpp:74-567 and the wrappers 983-1690, 1762-1845, 2009-2017) *)
Definition simple_kinds : list kind :=
  [NT_NOT; NT_IMPLIES; NT_ADD; NT_NEG; NT_SUB; NT_MUL; NT_DIV_REAL; NT_MOD; NT_POW; NT_POW2; NT_IAND; NT_ABS; NT_SQRT;
   NT_SAFESQRT; NT_CEIL; NT_FLOOR; NT_ROUND; NT_EXP; NT_LN; NT_LG; NT_LOG; NT_LB; NT_SIN; NT_COS; NT_TAN; NT_ASIN;
   NT_ACOS; NT_ATAN; NT_SINH; NT_COSH; NT_TANH; NT_ASINH; NT_ACOSH; NT_ATANH; NT_ASECH; NT_ACSCH; NT_ACOTH; NT_ATAN2;
   NT_LE; NT_LT; NT_GE; NT_GT; NT_TO_REAL; NT_TO_INT; NT_IS_INT; NT_IS_DIVISIBLE; NT_IS_PRIME; NT_IS_EVEN; NT_IS_ODD;
   NT_GCD; NT_LCM; NT_FACT; NT_BV_NOT; NT_BV_NEG; NT_BV_AND; NT_BV_OR; NT_BV_XOR; NT_BV_NAND; NT_BV_NOR; NT_BV_XNOR;
   NT_BV_COMP; NT_BV_ADD; NT_BV_SUB; NT_BV_MUL; NT_BV_UDIV; NT_BV_UREM; NT_BV_SDIV; NT_BV_SREM; NT_BV_SMOD; NT_BV_SHL;
   NT_BV_LSHR; NT_BV_ASHR; NT_BV_ULT; NT_BV_ULE; NT_BV_UGT; NT_BV_UGE; NT_BV_SLT; NT_BV_SLE; NT_BV_SGT; NT_BV_SGE;
   NT_BV_CONCAT; NT_BV_TO_NAT; NT_NAT_TO_BV; NT_STR_LEN; NT_STR_CONCAT; NT_STR_SUBSTR; NT_STR_PREFIXOF;
   NT_STR_SUFFIXOF; NT_STR_INDEXOF; NT_STR_CHARAT; NT_STR_UPDATE; NT_STR_REPLACE; NT_STR_REPLACE_ALL; NT_STR_TO_LOWER;
   NT_STR_TO_UPPER; NT_STR_REV; NT_STR_LT; NT_STR_LE; NT_STR_GT; NT_STR_GE; NT_STR_IN_REG; NT_STR_CONTAINS;
   NT_STR_IS_DIGIT; NT_STR_FROM_INT; NT_STR_TO_INT; NT_STR_TO_REG; NT_STR_TO_CODE; NT_STR_FROM_CODE;
   NT_STR_SPLIT_REST; NT_STR_SPLIT_AT_RE; NT_STR_SPLIT_REST_RE; NT_STR_NUM_SPLITS_RE].

(** eval_parser.cpp:49-572 evaluate.  Kinds without an evaluator, and the evaluators that only
    warn (floating point 1533-1700, regular expressions 1846-1905, str.split 1801-1806,
    function application 1906-1911) leave the term unchanged. *)
Fixpoint evaluate (c : cfg) (ptr : list term -> list term) (m : model) (t : term) {struct t} : res outcome :=
  let f := evaluate c ptr m in
  match t with
  | T k s n ch =>
      if m_isEmpty m then same t
      else if isUnknown t then Ok (false, None)
      else if isErr t then Ok (false, None)
      else if isConst t then same t
      else if isVar t then
        v <- m_get t m ;; if isUnknown v then same t else Ok (true, Some v)
      else if keq k NT_AND then evAndOr c f true (T k s n ch)
      else if keq k NT_OR then evAndOr c f false (T k s n ch)
      else if keq k NT_XOR then evXor c f (T k s n ch)
      else if kin k eq_kinds then evEq c f (T k s n ch)
      else if kin k distinct_kinds then evDistinct c ptr f (T k s n ch)
      else if keq k NT_ITE then evIte c f (T k s n ch)
      else if keq k NT_DIV_INT then evDivInt c f (T k s n ch)
      else if keq k NT_SELECT then evSelect c ptr f (T k s n ch)
      else if keq k NT_STORE then evStore c ptr f (T k s n ch)
      else if keq k NT_INT_TO_BV then evSimple c f (T k s n ch) NT_BV_TO_INT
      else if keq k NT_BV_TO_INT then evSimple c f (T k s n ch) NT_NAT_TO_BV
      else if keq k NT_LET then NoFuel
      else if kin k simple_kinds then evSimple c f (T k s n ch) k
      else same t
  end.
(** eval_parser.cpp:37-48: Parser::evaluate(expr, model) *)
Definition evaluateT (c : cfg) (ptr : list term -> list term) (m : model) (t : term) : res term :=
  o <- evaluate c ptr m t ;; Ok (val (snd o)).
