(** The accessors of objectives (include/objective.h) and the two helpers of src/objective.cpp that
    CommandModel.v leaves out.  Objectives are those of CommandModel.v. *)
From Verif Require Import Base KindModel SortModel TermModel ParseModel CommandModel.
Open Scope Z_scope.

(** objective.h:68-73 *)
Definition ob_id (o : objective) : str := match o with Single _ _ _ _ _ i => i | Group _ i _ => i end.
Definition ob_kind (o : objective) : okind := match o with Single k _ _ _ _ _ => k | Group k _ _ => k end.
(** objective.h:75-77 *)
Definition isSingleObjective (k : okind) : bool := match k with O_MIN | O_MAX | O_MAXSAT | O_MINSAT => true | _ => false end.
(** objective.h:78-80 *)
Definition isMultiObjective (k : okind) : bool := match k with O_LEX | O_PARETO | O_BOX | O_MINMAX | O_MAXMIN => true | _ => false end.
(** objective.h:81-107 isMaximize, isMinimize, isMaxSAT, isMinSAT, isLexOptimize, isParetoOptimize, isBoxOptimize, isMinmax, isMaxmin *)
Definition isMaximize (k : okind) : bool := match k with O_MAX => true | _ => false end.
Definition isMinimize (k : okind) : bool := match k with O_MIN => true | _ => false end.
Definition isMaxSAT (k : okind) : bool := match k with O_MAXSAT => true | _ => false end.
Definition isMinSAT (k : okind) : bool := match k with O_MINSAT => true | _ => false end.
Definition isLexOptimize (k : okind) : bool := match k with O_LEX => true | _ => false end.
Definition isParetoOptimize (k : okind) : bool := match k with O_PARETO => true | _ => false end.
Definition isBoxOptimize (k : okind) : bool := match k with O_BOX => true | _ => false end.
Definition isMinmax (k : okind) : bool := match k with O_MINMAX => true | _ => false end.
Definition isMaxmin (k : okind) : bool := match k with O_MAXMIN => true | _ => false end.

(** objective.h:151-153, 200-205 getObjectiveTerm *)
Fixpoint getObjectiveTerm (o : objective) : res term :=
  match o with
  | Single _ t _ _ _ _ => Ok t
  | Group k _ l => if isSingleObjective k then match l with Some o' :: _ => getObjectiveTerm o' | _ => UB end else Ok NULLT
  end.
(** objective.h:155-157, 207-212 getCompareOperator; None is COMP_NULL *)
Fixpoint getCompareOperator (o : objective) : res (option comp) :=
  match o with
  | Single _ _ c _ _ _ => Ok (Some c)
  | Group k _ l => if isSingleObjective k then match l with Some o' :: _ => getCompareOperator o' | _ => UB end else Ok None
  end.
(** objective.h:159-161, 214-219 getEpsilon *)
Fixpoint getEpsilon (o : objective) : res term :=
  match o with
  | Single _ _ _ e _ _ => Ok e
  | Group k _ l => if isSingleObjective k then match l with Some o' :: _ => getEpsilon o' | _ => UB end else Ok NULLT
  end.
(** objective.h:163-165, 221-226 getM *)
Fixpoint getM (o : objective) : res term :=
  match o with
  | Single _ _ _ _ m _ => Ok m
  | Group k _ l => if isSingleObjective k then match l with Some o' :: _ => getM o' | _ => UB end else Ok NULLT
  end.
(** objective.h:180-182, 234-236 getObjectiveSize *)
Definition getObjectiveSize (o : objective) : Z := match o with Single _ _ _ _ _ _ => 0 | Group _ _ l => zlen l end.
(** objective.h:230-232 getObjective of an Objective: no range check *)
Definition getObjective (o : objective) (i : nat) : res (option objective) :=
  match o with
  | Group _ _ l => match nth_error l i with Some m => Ok m | None => UB end
  | Single _ _ _ _ _ _ => UB  (* not used: [single_self] *)
  end.
(** objective.h:169-178 getObjective of a SingleObjective: the function-local static is set by the
    first call of the process, whatever the object; [st] is its value.  (The static also becomes a
    second owner of the object, which is then deleted twice; that is not modelled.) *)
Definition single_self (st : option objective) (o : objective) (i : nat) : option objective * option objective :=
  match i with
  | O => let s := match st with Some s => s | None => o end in (Some s, Some s)
  | S _ => (None, st)
  end.

(** objective.cpp:277-306 getOptKind; None is OPT_NULL *)
Definition getOptKind (s : str) : option okind :=
  if seqs s "maximize" then Some O_MAX else if seqs s "minimize" then Some O_MIN
  else if seqs s "maxsat" then Some O_MAXSAT else if seqs s "minsat" then Some O_MINSAT
  else if seqs s "lex" then Some O_LEX else if seqs s "pareto" then Some O_PARETO
  else if seqs s "box" then Some O_BOX else if seqs s "minmax" then Some O_MINMAX
  else if seqs s "maxmin" then Some O_MAXMIN else None.
(** objective.cpp:309-324 getCompareOperatorForObjectiveTerm; the term is there and has a sort *)
Definition compForTerm (dbg : bool) (t : term) (k : okind) : res comp :=
  let mi := isMinimize k in
  condAssert dbg (isMinimize k || isMaximize k) ;;;
  if sis SK_FP t then Ok (if mi then C_FPLT else C_FPGT)
  else if sis SK_BV t then Ok (if mi then C_BVULT else C_BVUGT)
  else Ok (if mi then C_LT else C_GT).
(** objective.cpp:260-274 getEqNodeKind *)
Definition eqKind (c : comp) : kind := match c with C_FPLT | C_FPLE | C_FPGT | C_FPGE => NT_FP_EQ | _ => NT_EQ end.
