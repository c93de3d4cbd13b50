(** Vocabulary for the collecting traversals. *)
From Verif Require Import Base KindModel SortModel TermModel Sem OpSpec CommandModel CollectModel.

(** [u] occurs in [t] outside every node for which [stop] holds, [u] itself excepted *)
Inductive outer (stop : term -> bool) (u : term) : term -> Prop :=
| Out_here : outer stop u u
| Out_below t x : stop t = false -> In x (t_ch t) -> outer stop u x -> outer stop u t.
(** [u] is a conjunct of [t], through any nesting of conjunctions *)
Inductive conjunct (u : term) : term -> Prop :=
| Cj_here : conjunct u u
| Cj_and s n ps p : In p ps -> conjunct u p -> conjunct u (T NT_AND s n ps).
(** every variable node is a leaf: there are no let-bound variables, which carry the bound
    expression; no formal parameter *)
Definition plain_vars (t : term) : Prop :=
  forall p, subterm p t -> (isVar p = true -> t_ch p = []) /\ t_kind p <> NT_FUNC_PARAM.
Definition atomb (t : term) : bool := match isAtom t with Ok b => b | _ => false end.
(** the atom test reads the first child of an equality *)
Definition atom_tests (t : term) : Prop := forall p, subterm p t -> exists b, isAtom p = Ok b.
Definition no_quant (t : term) : Prop := forall p, subterm p t -> t_kind p <> NT_FORALL /\ t_kind p <> NT_EXISTS.
(** [D] lists the subterms of the terms in [rs], each once *)
Definition subterms_of (rs D : list term) : Prop :=
  NoDup D /\ forall x, In x D <-> exists r, In r rs /\ subterm x r.
(** the term of an objective: of a single objective, or of the only member of a group made by
    minimize/maximize/maxsat/minsat *)
Inductive obj_term : objective -> term -> Prop :=
| Ob_single k t c e m id : obj_term (Single k t c e m id) t
| Ob_group k id o l t : In k [O_MIN; O_MAX; O_MAXSAT; O_MINSAT] -> obj_term o t -> obj_term (Group k id (Some o :: l)) t.
