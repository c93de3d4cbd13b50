(** Vocabulary for traversal, rewriting and models. *)
From Verif Require Import Base KindModel SortModel TermModel Sem SemProofs OpSpec ParseModel TraverseModel.

(** ** traversal *)
(** parents before children, children from left to right; a shared node once per occurrence *)
Fixpoint preorder (t : term) : list term := match t with T _ _ _ ch => t :: flat_map preorder ch end.
(** the first occurrences in [l], without those in [V] *)
Fixpoint firsts (V l : list term) : list term :=
  match l with
  | [] => []
  | x :: l' => if in_dec teq_dec x V then firsts V l' else x :: firsts (x :: V) l'
  end.
(** with a node, everything below it *)
Definition down_closed (V : list term) : Prop := forall v u, In v V -> subterm u v -> In u V.

(** ** rewriting *)
Definition boolv (t : term) : Prop := forall I e, exists b, eval I e t = VBool b.
Definition numv (t : term) : Prop := forall I e, exists q, eval I e t = VNum q.
(** the arguments of not, and, + have Boolean resp. numeric values; a constant spelt as zero is a
    numeric literal; the bound variables of a quantifier are variables *)
Definition sane_node (p : term) : Prop :=
  (t_kind p = NT_NOT -> (exists a, t_ch p = [a]) /\ Forall boolv (t_ch p)) /\
  (t_kind p = NT_AND -> Forall boolv (t_ch p)) /\ (t_kind p = NT_ADD -> Forall numv (t_ch p)) /\
  (isConst p = true -> t_name p = L "0" \/ t_name p = L "0.0" -> t_kind p = NT_CONST /\ t_ch p = [] /\ In (s_kind (t_sort p)) [SK_INT; SK_REAL; SK_INTOREAL] /\
     (t_name p = L "0.0" -> s_kind (t_sort p) <> SK_INT)) /\
  (isTrue p = true \/ isFalse p = true -> t_ch p = []) /\
  (t_kind p = NT_FORALL \/ t_kind p = NT_EXISTS -> Forall (fun v => t_ch v = [] /\ is_leaf_var (t_kind v) = true) (tl (t_ch p))).
Definition sane (t : term) : Prop := forall p, subterm p t -> sane_node p.
(** no default rule applies anywhere *)
Definition redex (p : term) : Prop :=
  (exists s n a l, p = T NT_NOT s n (a :: l) /\ ((exists s' n' b l', a = T NT_NOT s' n' (b :: l')) \/ isTrue a = true \/ isFalse a = true)) \/
  (exists s n a b, p = T NT_AND s n [a; b] /\ (isFalse a = true \/ isFalse b = true \/ isTrue a = true \/ isTrue b = true \/ a = b)) \/
  (exists s n a b, p = T NT_ADD s n [a; b] /\ (rw_isZero a = true \/ rw_isZero b = true)).
Definition normal (t : term) : Prop := forall p, subterm p t -> ~ redex p.

(** ** models: the updates, and the value of each name after a history *)
Inductive update := UAdd (x v : term) | UAddName (n : str) (v : term) | UAddVar (x : term) | UClear | UClearValues.
(** a name: unknown, declared without value, or with its value *)
Inductive mval := MNone | MUnset | MVal (v : term).
Definition upd1 (u : update) (n : str) (a : mval) : mval :=
  match u with
  | UAdd x v => if seq_str (t_name x) n then MVal v else a
  | UAddName m v => if seq_str m n then MVal v else a
  | UAddVar x => if seq_str (t_name x) n then (match a with MNone => MUnset | _ => a end) else a
  | UClear => MNone
  | UClearValues => match a with MNone => MNone | _ => MUnset end
  end.
Definition after (l : list update) (n : str) : mval := fold_left (fun a u => upd1 u n a) l MNone.
(** by-name updates only of names the model has *)
Fixpoint names_known (l : list update) (done : list update) : Prop :=
  match l with
  | [] => True
  | u :: l' => match u with UAddName n _ => after done n <> MNone | _ => True end /\ names_known l' (done ++ [u])
  end.
Definition m_apply (dbg : bool) (u : update) (m : model) : res model :=
  match u with
  | UAdd x v => m_add x v m
  | UAddName n v => m_addName dbg n v m
  | UAddVar x => Ok (m_addVar x m)
  | UClear => Ok (m_clear m)
  | UClearValues => Ok (m_clearValues m)
  end.
Definition m_run (dbg : bool) (l : list update) (m : model) : res model := foldM (fun m u => m_apply dbg u m) m l.
(** what get returns *)
Definition m_result (a : mval) : term := match a with MVal v => v | _ => UNKNOWN end.
(** the names of the model in the order of their first appearance since the last clear *)
Definition order1 (l : list str) (u : update) : list str :=
  match u with
  | UAdd x _ | UAddVar x => if existsb (seq_str (t_name x)) l then l else l ++ [t_name x]
  | UClear => []
  | _ => l
  end.
Definition order (l : list update) : list str := fold_left order1 l [].

(** ** rules of the user *)
Definition binders_node (p : term) : Prop :=
  t_kind p = NT_FORALL \/ t_kind p = NT_EXISTS -> Forall (fun v => t_ch v = [] /\ is_leaf_var (t_kind v) = true) (tl (t_ch p)).
(** quantifiers bind variables *)
Definition binders (t : term) : Prop := forall p, subterm p t -> binders_node p.
(** every handler keeps the value in every interpretation, and leaves variables alone *)
Definition keeps_value (dbg : bool) (r : rules) : Prop :=
  forall t u, binders t -> dispatch dbg r t = Ok (Some u) ->
    binders u /\ (forall I e, eval I e u = eval I e t) /\ (t_ch t = [] -> is_leaf_var (t_kind t) = true -> u = t).
