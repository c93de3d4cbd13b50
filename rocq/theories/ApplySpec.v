(** Substitution and function application: specification. *)
From Verif Require Import Base KindModel SortModel TermModel Sem SimpModel OpSpec TypedSpec ParseModel.

(** the variables a user can name *)
Definition user_var (x : term) : bool := kin (t_kind x) [NT_VAR; NT_TEMP_VAR; NT_QUANT_VAR; NT_PLACEHOLDER_VAR].
(** the assignment after the (simultaneous) update of every variable named in [m] *)
Definition updated (m : smap term) (I : interp) (e : env) : env :=
  fun x => if user_var x then match mget (t_name x) m with Some u => eval I e u | None => e x end else e x.
(** the replacement of a variable of the term has the sort class of the variable *)
Definition sorted_map (m : smap term) (t : term) : Prop :=
  forall x u, subterm x t -> user_var x = true -> mget (t_name x) m = Some u -> exists r, vsort r (t_sort x) /\ wt r u.
Definition without (k : kind) (t : term) : Prop := forall x, subterm x t -> t_kind x <> k.

(** formal parameters and arguments of the same sort class, parameters with distinct names *)
Definition args_ok (fs ps : list term) : Prop :=
  NoDup (map t_name fs) /\
  Forall2 (fun f a => exists r s n, f = T NT_FUNC_PARAM s n [] /\ vsort r s /\ wt r a) fs ps.
(** the only variables of a body are the parameters *)
Definition closed_over (fs : list term) (body : term) : Prop :=
  forall x, subterm x body -> is_leaf_var (t_kind x) = true -> In x fs.
