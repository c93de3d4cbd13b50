(** C26: simplification of array terms. *)
From Coq Require Import QArith Qcanon Permutation.
From Verif Require Import Base KindModel SortModel TermModel DagProofs SortProofs BVProofs2 Sem SemProofs ArrayModel SimpModel OpModel OpSpec OpProofs OpExamples
  ArrSimpModel ArrSpec ArrProofs ArrProofs2 ArrExists.
From Verif Require ApplyProofs.
Open Scope Z_scope.

(** ** what holds *)

(** Reading: if every written index that is not the same term as the index read has a
    different value, the simplified read has the value of the read. *)
Theorem C26_select_separated_partial : forall I (A : array_theory I) e is es c ptr l i,
  arr_ok I A e is es l -> sort_eq (t_sort i) is = Ok true ->
  (forall x, In x (indices l) -> x <> i -> eval I e x <> eval I e i) ->
  exists t, mkSelect c ptr l i = Ok t /\ eval I e t = coerce es (sel A (eval I e l) (eval I e i)).
Proof.
  intros I A e is es c ptr l i HO HS HI. unfold mkSelect. rewrite (ok_array I A e is es l HO). cbn [negb].
  rewrite (ok_sort _ _ _ _ _ _ HO). cbn [indexS elemS arrayS s_ch bind]. rewrite HS. cbn [negb bind].
  rewrite mkOper_select. cbn [bind]. unfold simplifyArray.
  change (isSelect (T NT_SELECT es (kindToString NT_SELECT) [l; i])) with true. cbn iota.
  now apply (rewriteSelect_ok I A e is es).
Qed.
Print Assumptions C26_select_separated_partial.

(** Reading back the index just written gives the value written, for every array, index,
    value and state of the aliasing of other indices. *)
Theorem C26_select_of_store : forall c ptr is es n a i v,
  sort_eq (t_sort i) is = Ok true ->
  mkSelect c ptr (T NT_STORE (arrayS is es) n [a; i; v]) i = Ok v.
Proof.
  intros c ptr is es n a i v HS. unfold mkSelect.
  change (isArray (T NT_STORE (arrayS is es) n [a; i; v])) with true.
  cbn [negb t_sort indexS elemS arrayS s_ch bind]. rewrite HS. cbn [negb bind]. rewrite mkOper_select. cbn [bind].
  unfold simplifyArray, rewriteSelect.
  change (isSelect (T NT_SELECT es (kindToString NT_SELECT) [T NT_STORE (Srt SK_ARRAY (L "Array") 0 [is; es]) n [a; i; v]; i])) with true.
  cbn [negb t_ch]. change (isStore (T NT_STORE (Srt SK_ARRAY (L "Array") 0 [is; es]) n [a; i; v])) with true. cbn [negb scan].
  change (keq NT_STORE NT_STORE) with true. cbn iota. rewrite teq_refl. reflexivity.
Qed.
Print Assumptions C26_select_of_store.

(** Reading an array that is not a write builds the plain read. *)
Theorem C26_select_of_base : forall c ptr is es l i, t_sort l = arrayS is es -> t_kind l <> NT_STORE ->
  sort_eq (t_sort i) is = Ok true ->
  mkSelect c ptr l i = Ok (T NT_SELECT es (kindToString NT_SELECT) [l; i]).
Proof.
  intros c ptr is es l i HS HK HI. unfold mkSelect, isArray, sis. rewrite HS.
  change (s_is SK_ARRAY (arrayS is es)) with true. cbn [negb indexS elemS arrayS s_ch bind]. rewrite HI. cbn [negb bind].
  rewrite mkOper_select. cbn [bind]. unfold simplifyArray, rewriteSelect.
  change (isSelect (T NT_SELECT es (kindToString NT_SELECT) [l; i])) with true. cbn [negb t_ch].
  destruct (isStore l) eqn:E; [|reflexivity]. apply keq_spec in E. congruence.
Qed.
Print Assumptions C26_select_of_base.

(** Writing: if different index terms have different values, the normalised chain of
    writes is the array written, whatever order the addresses of the nodes impose; the
    result is again an array term, with every index written at most once. *)
Theorem C26_store_separated_partial : forall I (A : array_theory I) e is es c ptr l i v,
  (forall xs, Permutation (ptr xs) xs) ->
  arr_ok I A e is es l -> sort_eq (t_sort i) is = Ok true -> sort_eq (t_sort v) es = Ok true ->
  isErr l = false -> isErr i = false -> isErr v = false -> coerce es (eval I e v) = eval I e v ->
  apart I e (i :: indices l) ->
  exists t, mkStore c ptr l i v = Ok t /\ arr_ok I A e is es t /\
    eval I e t = sto A (eval I e l) (eval I e i) (eval I e v) /\
    NoDup (indices t) /\ (forall x, In x (indices t) <-> x = i \/ In x (indices l)).
Proof.
  intros I A e is es c ptr l i v HP HO HSi HSv E1 E2 E3 HV HA. unfold mkStore. rewrite E1, E2, E3. cbn [orb].
  rewrite (ok_array I A e is es l HO). cbn [negb].
  pose proof (ok_sort _ _ _ _ _ _ HO) as HS. rewrite HS. cbn [indexS elemS arrayS s_ch bind]. rewrite HSi, HSv. cbn [negb bind].
  rewrite mkOper_store. cbn [bind]. unfold simplifyArray.
  set (t0 := T NT_STORE (Srt SK_ARRAY (L "Array") 0 [is; es]) (kindToString NT_STORE) [l; i; v]).
  change (isSelect t0) with false. change (isStore t0) with true. cbn iota.
  assert (arr_ok I A e is es t0) as HO' by (constructor; assumption).
  destruct (normalize_ok I A e is es c ptr t0 HP HO') as [t [F1 [F2 [F3 [F4 F5]]]]]; [exact HA|].
  exists t. split; [exact F1|]. split; [exact F2|]. split; [rewrite F3; apply ev_store|].
  split; [now apply F5|]. intros x. rewrite F4. cbn. intuition.
Qed.
Print Assumptions C26_store_separated_partial.

(** Array equality is folded to true only for equal arrays, if different index terms
    have different values. *)
Theorem C26_equality_separated_partial : forall I (A : array_theory I) e is es hash fuel a b,
  arr_ok I A e is es a -> arr_ok I A e is es b -> apart I e (indices a ++ indices b) ->
  areArraysEqual fuel hash a b = Ok true -> eval I e a = eval I e b.
Proof. intros I A e is es hash fuel a b. apply areArraysEqual_ok. Qed.
Print Assumptions C26_equality_separated_partial.

(** Numerals as indices are always separated, so for them reading and writing are right in
    every interpretation of arrays and under every assignment. *)
Definition numeral (t : term) : Prop := exists z, t = T NT_CONST intS (Idec z) [].
Lemma numeral_val I e z : eval I e (T NT_CONST intS (Idec z) []) = VNum (ZQ z).
Proof. cbn. unfold leaf_sem. cbn. now rewrite int_val_Idec. Qed.
Lemma ZQ_inj x y : ZQ x = ZQ y -> x = y.
Proof. intros H. rewrite <- (ApplyProofs.ZQ_floor x), H. apply ApplyProofs.ZQ_floor. Qed.
Lemma VNum_inj p q : VNum p = VNum q -> p = q. Proof. congruence. Qed.
Theorem C26_numeral_indices_apart : forall I e xs, (forall x, In x xs -> numeral x) -> apart I e xs.
Proof.
  intros I e xs H x y Hx Hy N E. destruct (H x Hx) as [a ->]. destruct (H y Hy) as [b ->]. rewrite !numeral_val in E.
  apply N. apply VNum_inj, ZQ_inj in E. now subst.
Qed.
Print Assumptions C26_numeral_indices_apart.
Theorem C26_select_numerals : forall I (A : array_theory I) e es c ptr l z,
  arr_ok I A e intS es l -> (forall x, In x (indices l) -> numeral x) ->
  let i := T NT_CONST intS (Idec z) [] in
  exists t, mkSelect c ptr l i = Ok t /\ eval I e t = coerce es (sel A (eval I e l) (eval I e i)).
Proof.
  intros I A e es c ptr l z HO HN i. apply (C26_select_separated_partial I A e intS es); [exact HO|reflexivity|].
  intros x Hx N. apply (C26_numeral_indices_apart I e (i :: indices l)).
  - intros y [ <- | Hy ]; [now exists z|now apply HN].
  - now right.
  - now left.
  - exact N.
Qed.
Print Assumptions C26_select_numerals.
Theorem C26_store_numerals : forall I (A : array_theory I) e es c ptr l z v,
  (forall xs, Permutation (ptr xs) xs) ->
  arr_ok I A e intS es l -> (forall x, In x (indices l) -> numeral x) ->
  sort_eq (t_sort v) es = Ok true -> isErr l = false -> isErr v = false -> coerce es (eval I e v) = eval I e v ->
  let i := T NT_CONST intS (Idec z) [] in
  exists t, mkStore c ptr l i v = Ok t /\ arr_ok I A e intS es t /\
    eval I e t = sto A (eval I e l) (eval I e i) (eval I e v) /\ (forall x, In x (indices t) -> numeral x).
Proof.
  intros I A e es c ptr l z v HP HO HN HSv E1 E3 HV i.
  assert (forall x, In x (i :: indices l) -> numeral x) as HN' by (intros y [ <- | Hy ]; [now exists z|now apply HN]).
  destruct (C26_store_separated_partial I A e intS es c ptr l i v HP HO) as [t [F1 [F2 [F3 [F4 F5]]]]]; auto.
  - now apply C26_numeral_indices_apart.
  - exists t. repeat split; auto. intros x Hx. apply F5 in Hx. destruct Hx as [ -> | Hx ]; [now exists z|auto].
Qed.
Print Assumptions C26_store_numerals.

(** non-vacuity: an interpretation with arrays, an array term, and its values *)
Definition ai : term := T NT_VAR (arrayS intS intS) (L "a") [].
Definition eA : env := fun t => if teq t ai then kst AT (VNum (ZQ 7)) else VNum (ZQ 0).
Lemma ok_ai e : isarr AT (e ai) -> arr_ok IA AT e intS intS ai.
Proof. intros H. apply AO_base; try discriminate; [reflexivity|]. exact H. Qed.
Definition st (a i v : term) : term := T NT_STORE (arrayS intS intS) (L "store") [a; i; v].
Lemma ok_st e a i v : arr_ok IA AT e intS intS a -> coerce intS (eval IA e v) = eval IA e v -> arr_ok IA AT e intS intS (st a i v).
Proof. intros. now constructor. Qed.
Lemma coerce_num e z : coerce intS (eval IA e (num0 z)) = eval IA e (num0 z).
Proof. unfold num0. rewrite numeral_val. cbn. now rewrite ApplyProofs.ZQ_floor. Qed.
Example C26_numerals_inhabited :
  exists e, arr_ok IA AT e intS intS (st (st ai (num0 1) (num0 5)) (num0 2) (num0 6)) /\
  (forall x, In x (indices (st (st ai (num0 1) (num0 5)) (num0 2) (num0 6))) -> numeral x) /\
  mkSelect c0 (fun l => l) (st (st ai (num0 1) (num0 5)) (num0 2) (num0 6)) (num0 1) = Ok (num0 5).
Proof.
  exists eA. split; [|split; [|reflexivity]].
  - apply ok_st; [apply ok_st; [apply ok_ai; apply (kst_arr IA AT)|]|]; apply coerce_num.
  - intros x [ <- | [ <- | [] ]]; eexists; reflexivity.
Qed.

(** ** what does not hold *)
Definition eZ : env := fun t => if teq t ai then kst AT (VNum (ZQ 7)) else VNum (ZQ 0).
Lemma ok_ai0 : arr_ok IA AT eZ intS intS ai. Proof. apply ok_ai. apply (kst_arr IA AT). Qed.
Lemma ev_ai : eval IA eZ ai = kst AT (VNum (ZQ 7)). Proof. reflexivity. Qed.
Lemma ev_x : eval IA eZ xi = VNum (ZQ 0). Proof. cbn. now rewrite ApplyProofs.ZQ_floor. Qed.
Lemma ev_y : eval IA eZ yi = VNum (ZQ 0). Proof. cbn. now rewrite ApplyProofs.ZQ_floor. Qed.
Lemma num_ne x y : x <> y -> VNum (ZQ x) <> VNum (ZQ y). Proof. intros N E. apply N. now apply VNum_inj, ZQ_inj in E. Qed.

(** (select (store a x 5) y) is rewritten to (select a y) although x and y may be equal *)
Theorem C26_select_refuted : exists I (A : array_theory I) e l i t,
  arr_ok I A e intS intS l /\ mkSelect c0 (fun l => l) l i = Ok t /\
  eval I e t <> coerce intS (sel A (eval I e l) (eval I e i)).
Proof.
  exists IA, AT, eZ, (st ai xi (num0 5)), yi, (T NT_SELECT intS (L "select") [ai; yi]).
  split; [apply ok_st; [apply ok_ai0|apply coerce_num]|]. split; [reflexivity|].
  rewrite (ev_select IA AT). unfold st. rewrite (ev_store IA AT). rewrite ev_ai, ev_x, ev_y.
  rewrite (sel_same IA AT) by apply (kst_arr IA AT). rewrite (sel_kst IA AT). unfold num0. rewrite numeral_val.
  cbn [coerce intS s_kind num]. rewrite !ApplyProofs.ZQ_floor. now apply num_ne.
Qed.
Print Assumptions C26_select_refuted.

(** (store (store a x 5) y 6) is rewritten to (store (store a y 6) x 5) when the node of y
    lies at a lower address than the node of x *)
Theorem C26_store_refuted : exists I (A : array_theory I) e ptr l i v t,
  (forall xs, Permutation (ptr xs) xs) /\ arr_ok I A e intS intS l /\
  mkStore c0 ptr l i v = Ok t /\ eval I e t <> sto A (eval I e l) (eval I e i) (eval I e v).
Proof.
  exists IA, AT, eZ, (@rev term), (st ai xi (num0 5)), yi, (num0 6), (st (st ai yi (num0 6)) xi (num0 5)).
  split; [intros xs; symmetry; apply Permutation_rev|]. split; [apply ok_st; [apply ok_ai0|apply coerce_num]|]. split; [reflexivity|].
  intros E. apply (f_equal (fun a => sel AT a (VNum (ZQ 0)))) in E. revert E.
  unfold st. rewrite !(ev_store IA AT). rewrite ev_ai, ev_x, ev_y.
  rewrite !(sel_same IA AT) by (repeat apply (sto_arr IA AT); apply (kst_arr IA AT)). unfold num0. rewrite !numeral_val. now apply num_ne.
Qed.
Print Assumptions C26_store_refuted.

(** (= (store (store a x 5) y 6) (store (store a y 6) x 5)) is folded to true *)
Theorem C26_equality_refuted : exists I (A : array_theory I) e a b,
  arr_ok I A e intS intS a /\ arr_ok I A e intS intS b /\
  mkOper c0 boolS NT_EQ [a; b] = Ok TRUE /\ eval I e a <> eval I e b.
Proof.
  exists IA, AT, eZ, (st (st ai xi (num0 5)) yi (num0 6)), (st (st ai yi (num0 6)) xi (num0 5)).
  split; [apply ok_st; [apply ok_st; [apply ok_ai0|]|]; apply coerce_num|].
  split; [apply ok_st; [apply ok_st; [apply ok_ai0|]|]; apply coerce_num|]. split; [reflexivity|].
  intros E. apply (f_equal (fun a => sel AT a (VNum (ZQ 0)))) in E. revert E.
  unfold st. rewrite !(ev_store IA AT). rewrite ev_ai, ev_x, ev_y.
  rewrite !(sel_same IA AT) by (repeat apply (sto_arr IA AT); apply (kst_arr IA AT)). unfold num0. rewrite !numeral_val. now apply num_ne.
Qed.
Print Assumptions C26_equality_refuted.

(** (= (store (const 0) (+ x 1) 5) (store (const 0) (+ y 1) 5)) is folded to false although
    the two arrays are equal when x and y are *)
Definition k0 : term := T NT_CONST_ARRAY (arrayS intS intS) (L "const_array") [num0 0].
Definition plus1 (x : term) : term := T NT_ADD intS (L "+") [x; num0 1].
Theorem C26_inequality_refuted : exists I (A : array_theory I) e a b,
  arr_ok I A e intS intS a /\ arr_ok I A e intS intS b /\
  mkOper c0 boolS NT_EQ [a; b] = Ok FALSE /\ eval I e a = eval I e b.
Proof.
  exists IA, AT, eZ, (st k0 (plus1 xi) (num0 5)), (st k0 (plus1 yi) (num0 5)).
  split; [apply ok_st; [apply AO_const|]; apply coerce_num|].
  split; [apply ok_st; [apply AO_const|]; apply coerce_num|]. split; [reflexivity|].
  unfold st. rewrite !(ev_store IA AT). f_equal. 
Qed.
Print Assumptions C26_inequality_refuted.

(** for two arrays with different constant values the fold is right *)
Example C26_equality_inhabited : arr_ok IA AT eZ intS intS (st k0 (num0 1) (num0 5)) /\
  areArraysEqual arr_fuel (fun _ => 0) (st (st k0 (num0 1) (num0 5)) (num0 2) (num0 6)) (st (st k0 (num0 2) (num0 6)) (num0 1) (num0 5)) = Ok true.
Proof. split; [apply ok_st; [apply AO_const|]; apply coerce_num|reflexivity]. Qed.

(** Two different base arrays whose hashes are equal are compared for ever: the recursion
    of areArraysEqual on two bases is on the bases themselves. *)
Definition bi : term := T NT_VAR (arrayS intS intS) (L "b") [].
Theorem C26_equality_terminates_refuted : forall fuel, areArraysEqual fuel (fun _ => 0) ai bi = NoFuel.
Proof.
  intros fuel. induction fuel as [|f IH]; [reflexivity|]. cbn [areArraysEqual].
  change (teq ai bi) with false. change (canonicalizeArray (fun _ => 0) ai) with (Ok (ACF ai [] false)).
  change (canonicalizeArray (fun _ => 0) bi) with (Ok (ACF bi [] false)). cbn [bind cf_const cf_base].
  change (cf_hash (fun _ => 0) (ACF ai [] false) =? cf_hash (fun _ => 0) (ACF bi [] false)) with true. cbn [negb Bool.eqb].
  change (isArray ai) with true. change (isArray bi) with true. cbn [andb]. rewrite IH. reflexivity.
Qed.
Print Assumptions C26_equality_terminates_refuted.
