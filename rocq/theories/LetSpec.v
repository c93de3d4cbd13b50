(** Vocabulary for let expansion. *)
From Verif Require Import Base KindModel SortModel TermModel OpSpec ApplySpec.

(** no let variable below an application of an uninterpreted function *)
Definition uf_without_let (t : term) : Prop :=
  forall p, subterm p t -> t_kind p = NT_UF_APPLY -> without NT_LET_BIND_VAR p.
