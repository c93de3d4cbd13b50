(** Vocabulary for disjunctive normal form. *)
From Verif Require Import Base KindModel SortModel TermModel Sem SimpModel OpModel OpSpec CnfSpec.
Open Scope Z_scope.

(** Boolean formulas: constants, variables, not, and, or, =>, ite, xor, = and distinct.  When
    [narrow] is true every conjunction and disjunction has at most two arguments and every
    equality at most three. *)
Inductive dfm (narrow : bool) : term -> Prop :=
| DF_true : dfm narrow TRUE
| DF_false : dfm narrow FALSE
| DF_var t : bool_var t -> dfm narrow t
| DF_not n a : dfm narrow a -> dfm narrow (T NT_NOT boolS n [a])
| DF_and n ps : ps <> [] -> (narrow = true -> (length ps <= 2)%nat) -> (forall p, In p ps -> dfm narrow p) -> dfm narrow (T NT_AND boolS n ps)
| DF_or n ps : ps <> [] -> (narrow = true -> (length ps <= 2)%nat) -> (forall p, In p ps -> dfm narrow p) -> dfm narrow (T NT_OR boolS n ps)
| DF_imp n p q : dfm narrow p -> dfm narrow q -> dfm narrow (T NT_IMPLIES boolS n [p; q])
| DF_ite n p q r : dfm narrow p -> dfm narrow q -> dfm narrow r -> dfm narrow (T NT_ITE boolS n [p; q; r])
| DF_xor n ps : (2 <= length ps)%nat -> (forall p, In p ps -> dfm narrow p) -> dfm narrow (T NT_XOR boolS n ps)
| DF_eq n ps : (2 <= length ps)%nat -> (narrow = true -> (length ps <= 3)%nat) -> (forall p, In p ps -> dfm narrow p) -> dfm narrow (T NT_EQ boolS n ps)
| DF_dis n ps : (2 <= length ps)%nat -> (forall p, In p ps -> dfm narrow p) -> dfm narrow (T NT_DISTINCT boolS n ps).

(** the occurrences in a formula of the connectives that are rewritten *)
Definition rewritten (t : term) : bool := kin (t_kind t) [NT_IMPLIES; NT_ITE; NT_XOR; NT_EQ; NT_DISTINCT].
Fixpoint chs (t : term) : list term :=
  match t with T k s n ch => (if rewritten t then [t] else []) ++ flat_map chs ch end.
(** no such subformula occurs twice *)
Definition unshared (t : term) : Prop := NoDup (chs t).

(** what is left when they are rewritten *)
Inductive af (narrow : bool) : term -> Prop :=
| AF_true : af narrow TRUE
| AF_false : af narrow FALSE
| AF_var t : bool_var t -> af narrow t
| AF_not n a : af narrow a -> af narrow (T NT_NOT boolS n [a])
| AF_and n ps : ps <> [] -> (narrow = true -> (length ps <= 2)%nat) -> (forall p, In p ps -> af narrow p) -> af narrow (T NT_AND boolS n ps)
| AF_or n ps : ps <> [] -> (narrow = true -> (length ps <= 2)%nat) -> (forall p, In p ps -> af narrow p) -> af narrow (T NT_OR boolS n ps).

(** Disjunctive normal form: a disjunction of conjunctions of literals. *)
Inductive dterm : term -> Prop :=
| Dt_lit t : lit t -> dterm t
| Dt_and s n ls : (forall l, In l ls -> lit l) -> dterm (T NT_AND s n ls).
Inductive in_dnf : term -> Prop :=
| Dnf_term t : dterm t -> in_dnf t
| Dnf_or s n ts : (forall x, In x ts -> dterm x) -> in_dnf (T NT_OR s n ts).
(** The same up to nesting of conjunctions: no disjunction below a conjunction, and no
    disjunction below another. *)
Inductive conj_tree : term -> Prop :=
| Ct_lit t : lit t -> conj_tree t
| Ct_and s n ls : (forall l, In l ls -> conj_tree l) -> conj_tree (T NT_AND s n ls).
Inductive weak_dnf : term -> Prop :=
| Wd_term t : conj_tree t -> weak_dnf t
| Wd_or s n ts : (forall x, In x ts -> conj_tree x) -> weak_dnf (T NT_OR s n ts).
