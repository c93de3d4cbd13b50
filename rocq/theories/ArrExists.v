(** An interpretation with arrays: total maps with finitely many exceptions, coded as
    values.  (std++ supplies finite maps and codings.)  It shows that the hypotheses of the
    theorems on arrays can be met. *)
From stdpp Require Import prelude countable infinite gmap fin_map_dom numbers strings.
From Coq Require Import QArith Qcanon Ascii.
From Verif Require Import KindModel SortModel TermModel Sem SemProofs ArrSpec.
Local Open Scope Z_scope.

Global Instance value_eq_dec : EqDecision value.
Proof. intros x y. destruct (veqb x y) eqn:E; [left; now apply veqb_spec|right]. intros ->. now rewrite veqb_refl in E. Defined.

Notation code_t := (bool + Qc + (nat * Z) + list nat + (unit + bool + bool * Qc) + Z)%type (only parsing).
Definition to_code (v : value) : code_t :=
  match v with
  | VBool b => inl (inl (inl (inl (inl b))))
  | VNum q => inl (inl (inl (inl (inr q))))
  | VBV w z => inl (inl (inl (inr (w, z))))
  | VStr s => inl (inl (inr (map nat_of_ascii s)))
  | VFP FNaN => inl (inr (inl (inl tt)))
  | VFP (FInf b) => inl (inr (inl (inr b)))
  | VFP (FFin b q) => inl (inr (inr (b, q)))
  | VOther n => inr n
  end.
Definition of_code (c : code_t) : value :=
  match c with
  | inl (inl (inl (inl (inl b)))) => VBool b
  | inl (inl (inl (inl (inr q)))) => VNum q
  | inl (inl (inl (inr (w, z)))) => VBV w z
  | inl (inl (inr s)) => VStr (map ascii_of_nat s)
  | inl (inr (inl (inl tt))) => VFP FNaN
  | inl (inr (inl (inr b))) => VFP (FInf b)
  | inl (inr (inr (b, q))) => VFP (FFin b q)
  | inr n => VOther n
  end.
Lemma of_to v : of_code (to_code v) = v.
Proof.
  destruct v as [b|q|w z|s|f|n]; try reflexivity; cbn.
  - f_equal. rewrite map_map. induction s as [|x s IH]; [reflexivity|]. cbn. now rewrite IH, ascii_nat_embedding.
  - destruct f; reflexivity.
Qed.
Global Instance value_countable : Countable value := inj_countable' to_code of_code of_to.
Global Instance other_inj : Inj (=) (=) VOther. Proof. intros x y H. congruence. Qed.
Global Instance value_infinite : Infinite value := inj_infinite VOther (fun v => match v with VOther n => Some n | _ => None end) (fun x => eq_refl).

Notation arr_t := (value * gmap value value)%type.
Definition put (x : arr_t) : value := VOther (Zpos (encode x)).
Definition get (v : value) : option arr_t := match v with VOther (Zpos p) => decode p | _ => None end.
Lemma get_put x : get (put x) = Some x. Proof. cbn. apply decode_encode. Qed.

Definition sel0 (a i : value) : value := match get a with Some (d, m) => default d (m !! i) | None => VOther 0 end.
Definition sto0 (a i v : value) : value :=
  match get a with Some (d, m) => put (d, if decide (v = d) then delete i m else <[i := v]> m) | None => a end.
Definition kst0 (v : value) : value := put (v, ∅).
Definition isarr0 (a : value) : Prop := exists d m, a = put (d, m) /\ forall i, m !! i <> Some d.

Definition op0 (k : kind) (s : sort) (n : Base.str) (vs : list value) : value :=
  match k, vs with
  | NT_SELECT, [a; i] => sel0 a i
  | NT_STORE, [a; i; v] => sto0 a i v
  | NT_CONST_ARRAY, [v] => kst0 v
  | _, _ => VOther 0
  end.
Definition IA : interp.
Proof. refine {| i_op := op0; i_dom := i_dom I0; i_all := i_all I0 |}. apply i_all_ok. Defined.

Lemma sto0_arr a i v : isarr0 a -> isarr0 (sto0 a i v).
Proof.
  intros (d & m & -> & H). unfold sto0. rewrite get_put. eexists d, _. split; [reflexivity|].
  intros j. destruct (decide (v = d)) as [->|N].
  - destruct (decide (i = j)) as [->|]; [now rewrite lookup_delete|now rewrite lookup_delete_ne].
  - destruct (decide (i = j)) as [->|]; [rewrite lookup_insert; congruence|now rewrite lookup_insert_ne].
Qed.
Lemma sel0_same a i v : isarr0 a -> sel0 (sto0 a i v) i = v.
Proof.
  intros (d & m & -> & H). unfold sto0, sel0. rewrite get_put, get_put.
  destruct (decide (v = d)) as [->|N]; [now rewrite lookup_delete|now rewrite lookup_insert].
Qed.
Lemma sel0_other a i j v : isarr0 a -> i <> j -> sel0 (sto0 a i v) j = sel0 a j.
Proof.
  intros (d & m & -> & H) N. unfold sto0, sel0. rewrite get_put, get_put.
  destruct (decide (v = d)) as [->|N']; [now rewrite lookup_delete_ne|now rewrite lookup_insert_ne].
Qed.
Lemma sel0_ext a b : isarr0 a -> isarr0 b -> (forall i, sel0 a i = sel0 b i) -> a = b.
Proof.
  intros (d & m & -> & H) (d' & m' & -> & H') E. unfold sel0 in E. rewrite !get_put in E.
  assert (d = d') as <-.
  { set (x := fresh (dom m ∪ dom m') : value). assert (x ∉ dom m ∪ dom m') as F by apply is_fresh.
    clearbody x. specialize (E x). apply not_elem_of_union in F. destruct F as [F F'].
    rewrite (not_elem_of_dom_1 _ _ F), (not_elem_of_dom_1 _ _ F') in E. exact E. }
  do 2 f_equal. apply map_eq. intros i. specialize (E i). specialize (H i). specialize (H' i).
  destruct (m !! i) as [x|] eqn:F1, (m' !! i) as [y|] eqn:F2; cbn in E; congruence.
Qed.
Definition AT : array_theory IA.
Proof.
  refine {| sel := sel0; sto := sto0; kst := kst0; isarr := isarr0 |}; try reflexivity.
  - intros a i v. apply sto0_arr.
  - intros v. exists v, ∅. split; [reflexivity|]. intros i. rewrite lookup_empty. discriminate.
  - intros a i v. apply sel0_same.
  - intros a i j v. apply sel0_other.
  - intros v i. unfold sel0, kst0. rewrite get_put. now rewrite lookup_empty.
  - apply sel0_ext.
Defined.
