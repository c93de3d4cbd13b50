(** Vocabulary for C69: a text is parsed, then evaluated under a model. *)
From Coq Require Import QArith Qcanon.
From Verif Require Import Base LexSpec KindModel SortModel TermModel BVSpec Sem SimpModel OpModel LexModel ParseModel ParseSpec CommandModel CommandSpec
  TraverseModel EvalModel MeanSpec.
Open Scope Z_scope.

(** Expressions that evaluation computes: atoms, literals and operators of MeanSpec other than
    concat (which evaluation does not treat, see PropsEval.v), without applications of declared or
    defined functions (a model of the library gives values to constants only), where distinct is
    not applied to Booleans (the library keeps (distinct true true), see C69_distinct_refuted);
    let, when the library does not keep it as a node ([keep] is that option). *)
Inductive evaluable (keep : bool) (G : signature) : list (str * ty) -> sx -> Prop :=
| Ev_atom r k : evaluable keep G r (SAtom k)
| Ev_bv r n w : evaluable keep G r (SBv n w)
| Ev_app r h args : raw h <> L "concat" -> no_fun G (raw h) -> (raw h = L "distinct" -> Forall (fun a => ~ ty_of G r a TyBool) args) ->
    Forall (evaluable keep G r) args -> evaluable keep G r (SApp h args)
| Ev_let r bs b : keep = false -> Forall (evaluable keep G r) (map snd bs) -> (forall ts, tys_of G r (map snd bs) ts -> evaluable keep G (combine (names bs) ts ++ r) b) ->
    evaluable keep G r (SLet bs b).
(** the literal a user writes for a value: true, false, an integer, a bit-vector *)
Definition literal (v : value) (t : term) : Prop :=
  match v with
  | VBool b => t = if b then TRUE else FALSE
  | VNum q => exists z, q = ZQ z /\ t = mkConstInt z
  | VBV w z => t = T NT_CONST (bvS (Z.of_nat w)) (lit w z) []
  | _ => False
  end.
(** the model gives every declared constant the literal of its value in [M] *)
Definition holds_values (G : signature) (M : structure) (m : model) : Prop :=
  forall v t, look v (s_con G) = Some t -> exists u, m_get (T NT_VAR (sort_of t) v []) m = Ok u /\ literal (con_val M v t) u.
(** the widths of declared constants are widths the library can represent *)
Definition widths_ok (G : signature) : Prop := forall v w, look v (s_con G) = Some (TyBV w) -> (0 < w)%nat /\ fits w.
