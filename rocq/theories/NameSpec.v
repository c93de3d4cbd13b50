(** What the tables of variable names should say after a history of calls. *)
From Verif Require Import Base KindModel DagModel NameModel.
Open Scope Z_scope.

(** the node behind a pointer *)
Definition node_at (h : heap) (i : nat) : option node := option_map e_node (nth_error h i).
(** the sort a name was first declared with *)
Fixpoint first_sort (n : str) (l : list ncall) : option nat :=
  match l with
  | [] => None
  | NVar s m :: l' => if seq_str m n then Some s else first_sort n l'
  | _ :: l' => first_sort n l'
  end.
(** the sorts of the temporary variables, in the order they were made *)
Fixpoint temps (l : list ncall) : list nat :=
  match l with [] => [] | NTemp s :: l' => s :: temps l' | _ :: l' => temps l' end.
(** the node the [k]-th call of the history should give *)
Definition wanted (l : list ncall) (k : nat) : option node :=
  match nth_error l k with
  | Some (NVar _ n) => option_map (fun s => Node s NT_VAR n []) (first_sort n l)
  | Some (NTemp s) => Some (Node s NT_TEMP_VAR (temp_name (Z.of_nat (length (temps (firstn k l))))) [])
  | Some (NNode n) => Some n
  | None => None
  end.
(** the other constructors never make variables of these two kinds, and their children exist *)
Fixpoint valid_calls (hstr : str -> Z) (sstr : nat -> str) (l : list ncall) (t : tabs) : Prop :=
  match l with
  | [] => True
  | o :: l' =>
      match o with
      | NNode n => nd_kind n <> NT_VAR /\ nd_kind n <> NT_TEMP_VAR /\ Forall (fun c => c < length (tb_h t))%nat (nd_ch n)
      | _ => True
      end /\ match do_call hstr sstr o t with Ok (_, t') => valid_calls hstr sstr l' t' | _ => True end
  end.
