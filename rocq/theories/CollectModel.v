(** Model of the collecting traversals: collectVars, collectAssignableVars, collectAtoms and
    collectGroundAtoms (src/conv_parser.cpp:33-92, 163-215), isUnit, isUnitAtom and getUnitVar
    (src/base_parser.cpp:2913-3008), getNodeCount (src/base_parser.cpp:158-203). *)
From Verif Require Import Base KindModel SortModel TermModel SimpModel OpModel TraverseModel ConvModel CommandModel.

(** ** conv_parser.cpp: the four recursive collectors have one shape.  A visited node is skipped;
    a node for which [hit] holds is inserted and not entered; any other node is entered when
    [into] holds.  Sets are lists, the newest element first; the pair is (collected, visited). *)
Definition add (t : term) (l : list term) : list term := if seen t l then l else t :: l.
Definition sets := (list term * list term)%type.
Definition col_list (f : term -> sets -> res sets) : list term -> sets -> res sets :=
  fix go (l : list term) (A : sets) : res sets :=
    match l with [] => Ok A | x :: l' => B <- f x A ;; go l' B end.
Fixpoint collect (hit : term -> res bool) (into : term -> bool) (t : term) (A : sets) {struct t} : res sets :=
  if seen t (snd A) then Ok A
  else
    b <- hit t ;;
    if b then Ok (add t (fst A), t :: snd A)
    else if into t then match t with T _ _ _ ch => col_list (collect hit into) ch (fst A, t :: snd A) end
         else Ok (fst A, t :: snd A).
Definition always (t : term) : bool := true.
(** the public entry points: one call per expression with a common visited set, which is not returned *)
Definition collects (hit : term -> res bool) (into : term -> bool) (ts vars : list term) : res (list term) :=
  A <- col_list (collect hit into) ts (vars, []) ;; Ok (fst A).

(** 163-191 collectVars *)
Definition collectVars (ts vars : list term) : res (list term) := collects (fun t => Ok (isVar t)) always ts vars.
(** dag.h:337 isAssignableVar; 193-215 collectAssignableVars *)
Definition isAssignableVar (t : term) : bool := isVar t || isUF t.
Definition collectAssignableVars (ts vars : list term) : res (list term) := collects (fun t => Ok (isAssignableVar t)) always ts vars.
(** 33-61 collectAtoms *)
Definition collectAtoms (ts atoms : list term) : res (list term) := collects isAtom always ts atoms.
(** 62-92 collectGroundAtoms: every expression is converted first; only conjunctions are entered.
    The test of the visited set before the call is the one the callee makes. *)
Definition collectGroundAtoms (c : cfg) (ts atoms : list term) : res (list term) :=
  ns <- mapM (toNNF c) ts ;; collects isAtom (isk NT_AND) ns atoms.

(** ** base_parser.cpp:2913-2954 isUnit: a depth-first search with an explicit stack (top first);
    the children are pushed in order, so the last one is on top; a visited child is not pushed.
    [None]: a second variable was met; otherwise the variables met. *)
Definition push_new (V ch stack : list term) : list term := rev (filter (fun x => negb (seen x V)) ch) ++ stack.
Fixpoint unit_loop (fuel : nat) (stack V vars : list term) : res (option (list term)) :=
  match fuel with
  | O => NoFuel
  | S f =>
      match stack with
      | [] => Ok (Some vars)
      | n :: rest =>
          if seen n V then unit_loop f rest V vars
          else if isVar n then
                 if (1 <? length (add n vars))%nat then Ok None
                 else unit_loop f (push_new (n :: V) (t_ch n) rest) (n :: V) (add n vars)
               else unit_loop f (push_new (n :: V) (t_ch n) rest) (n :: V) vars
      end
  end.
(** a null pointer is [None] *)
Definition unit_search (t : term) : res (option (list term)) := unit_loop (S (tsize t)) [t] [] [].
Definition isUnit (t : option term) : res bool :=
  match t with
  | None => Ok true
  | Some t => r <- unit_search t ;;
              Ok (match r with None => false | Some vars => (length vars <=? 1)%nat end)
  end.
(** 2956-2958 isUnitAtom *)
Definition isUnitAtom (t : option term) : res bool :=
  match t with
  | None => Ok false
  | Some u => b <- isUnit t ;; if b then isAtom u else Ok false
  end.
(** 2960-3008 getUnitVar *)
Definition getUnitVar (t : option term) : res term :=
  match t with
  | None => Ok NULLT
  | Some t => r <- unit_search t ;;
              Ok (match r with Some [v] => v | _ => NULLT end)
  end.

(** ** objective.h:152-154, 200-205 getObjectiveTerm (with isSingleObjective, 75-77) *)
Definition single_kind (k : okind) : bool :=
  match k with O_MIN | O_MAX | O_MAXSAT | O_MINSAT => true | _ => false end.
Fixpoint objTerm (o : objective) : res term :=
  match o with
  | Single _ t _ _ _ _ => Ok t
  | Group k _ l => if single_kind k then match l with Some o' :: _ => objTerm o' | _ => UB end else Ok NULLT
  end.
(** ** base_parser.cpp:158-203 getNodeCount: breadth-first search; the roots are queued as often as
    they occur *)
Definition roots (g : ctx) : res (list term) :=
  os <- mapM objTerm (g_obj g) ;;
  Ok (g_as g ++ concat (g_assum g) ++ g_soft g ++ g_wt g ++ os).
Definition visit_ch (q V : list term) (x : term) : list term * list term :=
  if seen x V then (q, V) else (q ++ [x], x :: V).
Fixpoint count_loop (fuel : nat) (q V : list term) : res (list term) :=
  match fuel with
  | O => NoFuel
  | S f =>
      match q with
      | [] => Ok V
      | n :: q' => let r := fold_left (fun a x => visit_ch (fst a) (snd a) x) (t_ch n) (q', V) in
                   count_loop f (fst r) (snd r)
      end
  end.
Definition node_count (rs : list term) : res nat :=
  V <- count_loop (S (fold_right (fun x a => tsize x + a) 0 rs)%nat) rs (fold_left (fun V x => add x V) rs []) ;; Ok (length V).
Definition getNodeCount (g : ctx) : res nat := rs <- roots g ;; node_count rs.
