(** Vocabulary for conjunctive normal form. *)
From Coq Require Import Permutation.
From Verif Require Import Base KindModel SortModel TermModel Sem SimpModel OpModel OpSpec ConvSpec CnfModel.
Open Scope Z_scope.

Inductive bool_var : term -> Prop :=
| Bool_var k n : kin k var_kinds = true -> bool_var (T k boolS n []).
(** literals: true, false, a Boolean variable, an atom, and the negations of the latter two *)
Definition base (t : term) : Prop := bool_var t \/ isAtom t = Ok true.
Inductive lit : term -> Prop :=
| Lit_true : lit TRUE
| Lit_false : lit FALSE
| Lit_pos t : base t -> lit t
| Lit_neg s n t : base t -> lit (T NT_NOT s n [t]).
(** clauses and conjunctions of clauses *)
Inductive clause : term -> Prop :=
| Cl_lit t : lit t -> clause t
| Cl_or s n ls : (forall l, In l ls -> lit l) -> clause (T NT_OR s n ls).
Inductive in_cnf : term -> Prop :=
| Cnf_clause t : clause t -> in_cnf t
| Cnf_and s n cs : (forall x, In x cs -> clause x) -> in_cnf (T NT_AND s n cs).

(** no temporary numbered [n] or above occurs in the term *)
Definition below (n : nat) (t : term) : Prop := forall p, subterm p t -> forall i, (n <= i)%nat -> p <> tmp i.
(** the environments differ at most on temporaries numbered [n] or above *)
Definition agree (n : nat) (e e' : env) : Prop := forall v, (forall i, (n <= i)%nat -> v <> tmp i) -> e v = e' v.
(** a temporary numbered from [n] up to [m], or its negation *)
Inductive new_lit (n m : nat) : term -> Prop :=
| NL_pos i : (n <= i < m)%nat -> new_lit n m (tmp i)
| NL_neg i : (n <= i < m)%nat -> new_lit n m (T NT_NOT boolS (kindToString NT_NOT) [tmp i]).
(** the new variables and the literals they stand for *)
Definition defs (n n' : nat) (D : list (term * term)) : Prop := forall v a, In (v, a) D -> new_lit n n' v /\ lit a.
(** every new variable has the truth value of the atom it stands for *)
Definition respects (D : list (term * term)) (I : interp) (e : env) : Prop :=
  forall v a, In (v, a) D -> holds I e v = holds I e a.
(** [u] with the new variables [D] is a conservative extension of the formula [f]: every
    model of [f] extends to one of [u], on temporaries numbered [n] or above, in which the
    new variables have the values of their atoms; every model of [u] in which they do is a
    model of [f]. *)
Definition equisat (n : nat) (D : list (term * term)) (f : interp -> env -> bool) (u : term) : Prop :=
  (forall I e, f I e = true -> exists e', agree n e e' /\ respects D I e' /\ holds I e' u = true) /\
  (forall I e, respects D I e -> holds I e u = true -> f I e = true).

(** an iteration order of a set *)
Definition perm_ord (ord : list term -> list term) : Prop := forall l, Permutation (ord l) l.

(** ** Inputs *)
(** Theory atoms: a comparison, equality or disequality of two arithmetic terms; or any
    other atom (isAtom) of sort Bool that is no comparison of numbers or strings: a
    comparison or equality of bit-vectors or floating-point numbers, a predicate such as
    is_int, a Boolean application of an uninterpreted function. *)
Inductive tatom (c : cfg) : term -> Prop :=
| TA_num t : num_cmp c t -> (forall x, In x (t_ch t) -> isArithTerm x = true) -> tatom c t
| TA_other t : isAtom t = Ok true -> isArithComp t = Ok false -> isStrComp t = false -> t_sort t = boolS -> boolean t ->
    tatom c t.
Definition node_arity (k : kind) (n : nat) : bool :=
  match k with
  | NT_AND | NT_OR | NT_XOR => Nat.leb 2 n
  | NT_EQ | NT_DISTINCT => Nat.eqb n 2
  | NT_ITE => Nat.eqb n 3
  | _ => false
  end.
(** and, or, xor, equality, distinctness and ite over literals: negation is applied to
    variables and atoms only *)
Inductive pfm (c : cfg) : term -> Prop :=
| PF_true : pfm c TRUE
| PF_false : pfm c FALSE
| PF_var t : bool_var t -> pfm c t
| PF_nvar n t : bool_var t -> pfm c (T NT_NOT boolS n [t])
| PF_atom t : tatom c t -> pfm c t
| PF_natom n t : tatom c t -> pfm c (T NT_NOT boolS n [t])
| PF_node k n ch : node_arity k (length ch) = true -> (forall x, In x ch -> pfm c x) -> pfm c (T k boolS n ch).
(** Formulas by polarity ([true]: below an odd number of negations): not, and, or,
    implication and ite of any polarity over variables, atoms and constants; xor, Boolean
    equality and distinctness of positive polarity only, over formulas as above. *)
Inductive cfm (c : cfg) : bool -> term -> Prop :=
| CF_true b : cfm c b TRUE
| CF_false b : cfm c b FALSE
| CF_var b t : bool_var t -> cfm c b t
| CF_atom b t : tatom c t -> cfm c b t
| CF_pos k n ch : kin k [NT_XOR; NT_EQ; NT_DISTINCT] = true -> node_arity k (length ch) = true ->
    (forall x, In x ch -> pfm c x) -> cfm c false (T k boolS n ch)
| CF_not b n a : cfm c (negb b) a -> cfm c b (T NT_NOT boolS n [a])
| CF_and b n ps : ps <> [] -> (forall p, In p ps -> cfm c b p) -> cfm c b (T NT_AND boolS n ps)
| CF_or b n ps : ps <> [] -> (forall p, In p ps -> cfm c b p) -> cfm c b (T NT_OR boolS n ps)
| CF_imp b n p q : cfm c (negb b) p -> cfm c b q -> cfm c b (T NT_IMPLIES boolS n [p; q])
| CF_ite b n p q r : cfm c true p -> cfm c false p -> cfm c b q -> cfm c b r -> cfm c b (T NT_ITE boolS n [p; q; r]).
