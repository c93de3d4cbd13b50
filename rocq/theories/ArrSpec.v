(** What an array is: McCarthy's axioms with extensionality, for an interpretation whose
    array values are some of the values of Sem.v. *)
From Verif Require Import Base KindModel SortModel TermModel Sem.
Open Scope Z_scope.

Record array_theory (I : interp) := {
  sel : value -> value -> value;
  sto : value -> value -> value -> value;
  kst : value -> value;
  isarr : value -> Prop;
  sel_is : forall s n a i, i_op I NT_SELECT s n [a; i] = sel a i;
  sto_is : forall s n a i v, i_op I NT_STORE s n [a; i; v] = sto a i v;
  kst_is : forall s n v, i_op I NT_CONST_ARRAY s n [v] = kst v;
  sto_arr : forall a i v, isarr a -> isarr (sto a i v);
  kst_arr : forall v, isarr (kst v);
  sel_same : forall a i v, isarr a -> sel (sto a i v) i = v;
  sel_other : forall a i j v, isarr a -> i <> j -> sel (sto a i v) j = sel a j;
  sel_kst : forall v i, sel (kst v) i = v;
  sel_ext : forall a b, isarr a -> isarr b -> (forall i, sel a i = sel b i) -> a = b }.
Arguments sel {I}. Arguments sto {I}. Arguments kst {I}. Arguments isarr {I}.

(** [t] is an array term of sort [S]: writes on top of a constant array or of a base whose
    value is an array; all array nodes have the sort [S], stored values are in the element
    sort. *)
Inductive arr_ok (I : interp) (A : array_theory I) (e : env) (is es : sort) : term -> Prop :=
| AO_store n a i v : arr_ok I A e is es a -> coerce es (eval I e v) = eval I e v ->
    arr_ok I A e is es (T NT_STORE (arrayS is es) n [a; i; v])
| AO_const n v : coerce es (eval I e v) = eval I e v ->
    arr_ok I A e is es (T NT_CONST_ARRAY (arrayS is es) n [v])
| AO_base t : t_kind t <> NT_STORE -> t_kind t <> NT_CONST_ARRAY -> t_sort t = arrayS is es ->
    isarr A (eval I e t) -> arr_ok I A e is es t.

(** the indices written by a term *)
Fixpoint indices (t : term) : list term :=
  match t with
  | T NT_STORE _ _ (a :: i :: v :: _) => i :: indices a
  | _ => []
  end.
(** different index terms have different values *)
Definition apart (I : interp) (e : env) (xs : list term) : Prop :=
  forall x y, In x xs -> In y xs -> x <> y -> eval I e x <> eval I e y.
