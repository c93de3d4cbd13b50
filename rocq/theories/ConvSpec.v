(** Vocabulary for the conversions: formulas, negation normal form. *)
From Verif Require Import Base KindModel SortModel TermModel Sem SimpModel OpModel OpSpec.
Open Scope Z_scope.

(** connectives *)
Definition conn (k : kind) : bool := kin k [NT_NOT; NT_AND; NT_OR; NT_IMPLIES; NT_ITE].
(** arithmetic or string terms *)
Definition theory_arg (l : term) : bool := isArithTerm l || isV SK_STR l || isCStr l || isStrOp l.
(** An atom: a well-formed Boolean term that is no connective; if it is an equality of
    arithmetic or string terms, these do not have sort Bool. *)
Record atom_ok (c : cfg) (t : term) : Prop := {
  a_conn : conn (t_kind t) = false;
  a_tree : tree_ok c t;
  a_bool : isBoolParam t = true;
  a_typed : isEq t || isDistinct t = true -> forall l r, t_ch t = [l; r] -> theory_arg l = true -> isBoolParam l = false }.
(** Formulas: built from atoms with not, and, or, implication and ite. *)
Inductive fml (c : cfg) : term -> Prop :=
| F_atom t : atom_ok c t -> fml c t
| F_not n a : fml c a -> fml c (T NT_NOT boolS n [a])
| F_and n ps : ps <> [] -> (forall p, In p ps -> fml c p) -> fml c (T NT_AND boolS n ps)
| F_or n ps : ps <> [] -> (forall p, In p ps -> fml c p) -> fml c (T NT_OR boolS n ps)
| F_imp n a b : fml c a -> fml c b -> fml c (T NT_IMPLIES boolS n [a; b])
| F_ite n a b d : fml c a -> fml c b -> fml c d -> fml c (T NT_ITE boolS n [a; b; d]).

(** Negation normal form: and/or over atoms and negated atoms. *)
Inductive in_nnf : term -> Prop :=
| N_atom t : conn (t_kind t) = false -> in_nnf t
| N_neg s n a : conn (t_kind a) = false -> in_nnf (T NT_NOT s n [a])
| N_and s n ps : (forall p, In p ps -> in_nnf p) -> in_nnf (T NT_AND s n ps)
| N_or s n ps : (forall p, In p ps -> in_nnf p) -> in_nnf (T NT_OR s n ps).

(** ** Replacement.  [m] gives the replacements; the topmost keys of a term: *)
Fixpoint keys_in (m : term -> option term) (t : term) : list term :=
  match m t with
  | Some _ => [t]
  | None => match t with T _ _ _ ch => flat_map (keys_in m) ch end
  end.
(** Every topmost key is replaced; a node with a key below is rebuilt by the generic
    constructor, any other node is left as it is. *)
Fixpoint replace_all (c : cfg) (m : term -> option term) (t : term) : res term :=
  match m t with
  | Some u => Ok u
  | None =>
      match t with
      | T k s n ch =>
          match flat_map (keys_in m) ch with
          | [] => Ok t
          | _ => us <- (fix go (l : list term) : res (list term) :=
                          match l with
                          | [] => Ok []
                          | x :: l' => u <- replace_all c m x ;; us <- go l' ;; Ok (u :: us)
                          end) ch ;; mkOper c s k us
          end
      end
  end.
(** Some keys are replaced, nothing else happens. *)
Inductive replaced (c : cfg) (m : term -> option term) : term -> term -> Prop :=
| R_same t : replaced c m t t
| R_key t u : m t = Some u -> replaced c m t u
| R_node k s n ch us u : Forall2 (replaced c m) ch us -> mkOper c s k us = Ok u ->
    replaced c m (T k s n ch) u.

(** ** Splitting and binarising *)
(** a connective with an arity that the generic constructor handles (not the ternary
    implication, see C21_implies3_refuted) *)
Definition conn_arity (k : kind) (n : nat) : bool :=
  match k with
  | NT_NOT => Nat.eqb n 1
  | NT_AND | NT_OR | NT_XOR => Nat.leb 2 n
  | NT_IMPLIES => Nat.leb 2 n && negb (Nat.eqb n 3)
  | NT_ITE => Nat.eqb n 3
  | _ => false
  end.
(** Boolean formulas: connectives over terms without the operators [ops] and over
    applications of [ops] that satisfy [A]. *)
Inductive formula_over (c : cfg) (ops : list kind) (A : term -> Prop) : term -> Prop :=
| FO_plain t : isBoolParam t = true -> isErr t = false -> lits_ok [t] ->
    (forall p, subterm p t -> kin (t_kind p) ops = false) -> formula_over c ops A t
| FO_atom t : kin (t_kind t) ops = true -> A t -> formula_over c ops A t
| FO_conn k n ch : kin k ops = false -> conn_arity k (length ch) = true ->
    (forall x, In x ch -> formula_over c ops A x) -> formula_over c ops A (T k boolS n ch).
(** a comparison of two numeric terms *)
Definition num_cmp (c : cfg) (t : term) : Prop :=
  kin (t_kind t) (eq_kinds ++ distinct_kinds ++ arith_comp_kinds) = true /\ isBoolParam t = true /\ tree_ok c t /\
  exists l r, t_ch t = [l; r] /\ numS l = true /\ numS r = true /\ numeric l /\ numeric r.
(** an equality, distinct or comparison of any number of terms *)
Definition nary_cmp (c : cfg) (t : term) : Prop :=
  isBoolParam t = true /\ (2 <= length (t_ch t))%nat /\ (forall x, In x (t_ch t) -> tree_ok c x) /\
  ((isEq t = true /\ neighbours c (t_ch t) /\ forall x, In x (t_ch t) -> isArray x = false) \/
   (isDistinct t = true /\ forall x y, In x (t_ch t) -> In y (t_ch t) -> comparable c x y) \/
   (kin (t_kind t) arith_comp_kinds = true /\ neighbours c (t_ch t) /\ forall x, In x (t_ch t) -> numS x = true)).
(** true in every interpretation and environment *)
Definition valid (t : term) : Prop := forall I e, holds I e t = true.
