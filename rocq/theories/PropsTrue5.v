(** C84, C85: complete statements about parts of C26 and C18. *)
From Coq Require Import QArith Qcanon Permutation.
From Verif Require Import Base KindModel SortModel TermModel DagModel DagProofs SortProofs Sem SemProofs SimpModel OpModel OpSpec
  OpExamples DagSpec ArrSimpModel ArrSpec ArrProofs ArrProofs2 ArrExists PropsArr PropsDag.
Open Scope Z_scope.

(** C84: reading and writing arrays at numerals, in every interpretation with arrays (McCarthy's axioms, ArrSpec.v) *)
Theorem C84_arrays : forall I (A : array_theory I) e es c ptr l z v, (forall xs, Permutation (ptr xs) xs) ->
  arr_ok I A e intS es l -> (forall x, In x (indices l) -> numeral x) -> let i := T NT_CONST intS (Idec z) [] in
  (exists t, mkSelect c ptr l i = Ok t /\ eval I e t = coerce es (sel A (eval I e l) (eval I e i))) /\
  (sort_eq (t_sort v) es = Ok true -> isErr l = false -> isErr v = false -> coerce es (eval I e v) = eval I e v ->
   exists t, mkStore c ptr l i v = Ok t /\ arr_ok I A e intS es t /\
     eval I e t = sto A (eval I e l) (eval I e i) (eval I e v) /\ (forall x, In x (indices t) -> numeral x)) /\
  (forall n a, mkSelect c ptr (T NT_STORE (arrayS intS es) n [a; i; v]) i = Ok v).
Proof.
  intros I A e es c ptr l z v HP HO HN i. split; [now apply C26_select_numerals|]. split.
  - intros H1 H2 H3 H4. now apply C26_store_numerals.
  - intros n a. now apply C26_select_of_store.
Qed.
Print Assumptions C84_arrays.
Example C84_ex : exists e, arr_ok IA AT e intS intS (st (st ai (num0 1) (num0 5)) (num0 2) (num0 6)) /\
  (forall x, In x (indices (st (st ai (num0 1) (num0 5)) (num0 2) (num0 6))) -> numeral x) /\
  mkSelect c0 (fun l => l) (st (st ai (num0 1) (num0 5)) (num0 2) (num0 6)) (num0 1) = Ok (num0 5).
Proof. exact C26_numerals_inhabited. Qed.

(** C85: one sort object for each sort asked for: after any sequence of creations, asking again gives the same object and creates
    none, a sort object never changes, and a bit-vector sort has the width asked for, a floating-point sort both its widths *)
Theorem C85_sorts : forall hs os m, valid_ops hs smgr0 os -> srun hs smgr0 os = Ok m ->
  (forall o i m1 os' m2, valid_op m o -> sstep hs m o = Ok (i, m1) -> valid_ops hs m1 os' -> srun hs m1 os' = Ok m2 -> sstep hs m2 o = Ok (i, m2)) /\
  (forall os' m2 i s, valid_ops hs m os' -> srun hs m os' = Ok m2 -> nth_error m i = Some s -> nth_error m2 i = Some s) /\
  (forall w i m', in64 w -> sstep hs m (CreateBV w) = Ok (i, m') -> nth_error m' i = Some (bvS w)) /\
  (forall e g i m', sstep hs m (CreateFP e g) = Ok (i, m') -> exists nm, nth_error m' i = Some (fpS nm e g)).
Proof.
  intros hs os m H1 H2. split; [intros o i m1 os' m2; now apply C18_stable with (1 := H1)|]. split; [intros os' m2 i s; now apply C18_objects_fixed with (1 := H1)|].
  split; [intros w i m'; now apply C18_bv_width with (1 := H1)|intros e g i m'; now apply C18_fp_width with (1 := H1)].
Qed.
Print Assumptions C85_sorts.
Example C85_ex : valid_ops (fun _ => 7) smgr0 [CreateBV 8; CreateBV 16; CreateArray 17 18; CreateBV 8].
Proof. apply C18_ex. Qed.
