(** Conjunctive normal form, part 1: environments, literals, shapes of negations. *)
From Coq Require Import QArith Qcanon Permutation ZifyBool ZifyNat.
From Verif Require Import Base KindModel SortModel TermModel BVModel BVSpec UtilModel UtilSpec DagProofs SortProofs
  Sem SemProofs ArrayModel SimpModel OpModel OpSpec OpProofs OpProofs2 OpProofs3 OpProofs4 OpProofs5 OpProofs6 OpProofs7
  ShapeProofs ConvModel ConvSpec ConvProofs WalkProofs GoodProofs SplitProofs CnfModel CnfSpec.
Open Scope Z_scope.

(** ** temporaries and environments *)
Lemma tmp_inj i j : tmp i = tmp j -> i = j.
Proof.
  intros H. assert (E : L "temp_" ++ Idec (Z.of_nat i) = L "temp_" ++ Idec (Z.of_nat j)) by (change (t_name (tmp i) = t_name (tmp j)); now rewrite H).
  apply app_inv_head in E. apply Idec_inj in E. lia.
Qed.
Lemma below_mono n m t : (n <= m)%nat -> below n t -> below m t.
Proof. intros L H p Hp i Hi. apply H; [exact Hp|lia]. Qed.
Lemma below_ch n t x : below n t -> In x (t_ch t) -> below n x.
Proof. intros H Hx p Hp. apply H. now apply (Sub_ch p x). Qed.
Lemma below_sub n t x : below n t -> subterm x t -> below n x.
Proof. intros H Hx p Hp. apply H. now apply (subterm_trans p x). Qed.
Lemma below_node n k s m ch : (forall i, (n <= i)%nat -> T k s m ch <> tmp i) -> (forall x, In x ch -> below n x) -> below n (T k s m ch).
Proof. intros H HC p Hp i Hi. apply subterm_inv in Hp. destruct Hp as [ -> | (x & Hx & Hp) ]; [now apply H|]. now apply (HC x Hx p Hp). Qed.
Lemma below_kind n k s m ch : k <> NT_TEMP_VAR -> (forall x, In x ch -> below n x) -> below n (T k s m ch).
Proof. intros H. apply below_node. intros i _ E. apply H. unfold tmp in E. congruence. Qed.
Lemma below_TRUE n : below n TRUE. Proof. apply below_kind; [discriminate|intros x []]. Qed.
Lemma below_FALSE n : below n FALSE. Proof. apply below_kind; [discriminate|intros x []]. Qed.
Lemma below_tmp n m : (n < m)%nat -> below m (tmp n).
Proof. intros L. apply below_node; [|intros x []]. intros i Hi E. apply (tmp_inj n i) in E. lia. Qed.
Lemma agree_refl n e : agree n e e. Proof. intros v _. reflexivity. Qed.
Lemma agree_trans n e1 e2 e3 : agree n e1 e2 -> agree n e2 e3 -> agree n e1 e3.
Proof. intros A B v Hv. now rewrite (A v Hv), (B v Hv). Qed.
Lemma agree_mono n m e e' : (n <= m)%nat -> agree m e e' -> agree n e e'.
Proof. intros L H v Hv. apply H. intros i Hi. apply Hv. lia. Qed.
Lemma agree_upd n e e' xs vs : agree n e e' -> agree n (upd e xs vs) (upd e' xs vs).
Proof.
  revert vs. induction xs as [|x xs IH]; intros vs H; cbn [upd]; [exact H|]. destruct vs as [|v vs]; [exact H|].
  intros y Hy. destruct (teq y x); [reflexivity|]. now apply IH.
Qed.
Lemma eval_agree I n t : forall e e', below n t -> agree n e e' -> eval I e t = eval I e' t.
Proof.
  induction t as [k s m ch IH] using term_ind'. intros e e' B A. rewrite Forall_forall in IH.
  destruct ch as [|b xs].
  - cbn. unfold leaf_sem. destruct (is_leaf_var k); [|reflexivity]. rewrite (A (T k s m [])); [reflexivity|]. apply B. apply Sub_refl.
  - assert (Hm : map (eval I e) (b :: xs) = map (eval I e') (b :: xs)).
    { apply map_ext_in. intros x Hx. apply IH; [exact Hx| |exact A]. now apply (below_ch n (T k s m (b :: xs))). }
    destruct (quantk k) eqn:Q.
    + assert (HB : forall vs, eval I (upd e xs vs) b = eval I (upd e' xs vs) b).
      { intros vs. apply IH; [now left| |now apply agree_upd]. apply (below_ch n (T k s m (b :: xs))); [exact B|now left]. }
      destruct k; try discriminate Q; cbn [eval]; f_equal; [|f_equal]; apply i_all_ext; intros vs; now rewrite HB.
    + rewrite !eval_app by (try exact Q; discriminate). now rewrite Hm.
Qed.
Lemma holds_agree I n t e e' : below n t -> agree n e e' -> holds I e t = holds I e' t.
Proof. intros B A. unfold holds. now rewrite (eval_agree I n t e e'). Qed.
(** set one temporary *)
Definition set_tmp (e : env) (n : nat) (b : bool) : env := fun v => if teq v (tmp n) then VBool b else e v.
Lemma set_agree e n b : agree n e (set_tmp e n b).
Proof.
  intros v Hv. unfold set_tmp. destruct (teq v (tmp n)) eqn:E; [|reflexivity]. apply teq_spec in E. exfalso. apply (Hv n); [lia|exact E].
Qed.
Lemma set_holds I e n b : holds I (set_tmp e n b) (tmp n) = b.
Proof.
  unfold holds. cbn [tmp eval]. unfold leaf_sem. change (is_leaf_var NT_TEMP_VAR) with true. cbv iota.
  unfold set_tmp. change (T NT_TEMP_VAR boolS (L "temp_" ++ Idec (Z.of_nat n)) []) with (tmp n). rewrite teq_refl. reflexivity.
Qed.

(** ** literals over Boolean variables *)
Inductive slit : term -> Prop :=
| SL_true : slit TRUE
| SL_false : slit FALSE
| SL_var t : bool_var t -> slit t
| SL_neg n t : bool_var t -> slit (T NT_NOT boolS n [t]).
Lemma var_kinds5 k : kin k var_kinds = true -> k = NT_VAR \/ k = NT_TEMP_VAR \/ k = NT_QUANT_VAR \/ k = NT_LET_BIND_VAR \/ k = NT_PLACEHOLDER_VAR.
Proof. destruct k; intros H; try discriminate H; auto. Qed.
Lemma slit_lit t : slit t -> lit t.
Proof. intros [ | |t' H|n t' H]; [constructor|constructor|apply Lit_pos; now left|apply Lit_neg; now left]. Qed.
Lemma slit_good t : slit t -> goodB t.
Proof.
  intros [ | |t' [k n H]|n t' H]; [apply goodB_TRUE|apply goodB_FALSE| |apply goodB_node; try reflexivity; discriminate].
  apply goodB_node; [|reflexivity|]; destruct (var_kinds5 k H) as [ -> | [ -> | [ -> | [ -> | -> ]]]]; try reflexivity; discriminate.
Qed.
Lemma bool_var_vbool t : bool_var t -> isVBool t = true.
Proof. intros [k n H]. unfold isVBool, isV, isVar. cbn [t_kind]. now rewrite H. Qed.
Lemma bool_var_lit t : bool_var t -> isLiteral t = Ok true.
Proof. intros H. unfold isLiteral. now rewrite (bool_var_vbool t H). Qed.
Lemma slit_isLiteral t : slit t -> isLiteral t = Ok true.
Proof.
  intros [ | |t' H|n t' H]; [reflexivity|reflexivity|now apply bool_var_lit|].
  unfold isLiteral. cbn [isVBool isV isVar t_kind kin existsb]. change (isVBool (T NT_NOT boolS n [t'])) with false. cbv iota.
  change (isk NT_NOT (T NT_NOT boolS n [t'])) with true. cbv iota. unfold child0. cbn [t_ch bind]. now rewrite (bool_var_vbool t' H).
Qed.
Lemma slit_boolean t : slit t -> boolean t.
Proof.
  intros [ | |t' [k n H]|n t' H]; intros I e; [exists true; reflexivity|exists false; reflexivity| |].
  - cbn [eval]. unfold leaf_sem.
    assert (C : forall v, exists b, coerce boolS v = VBool b) by (intros v; eexists; reflexivity).
    destruct (is_leaf_var k); [apply C|]. destruct (var_kinds5 k H) as [ -> | [ -> | [ -> | [ -> | -> ]]]]; apply C.
  - eexists. apply eval_op; [discriminate|reflexivity|reflexivity].
Qed.
Lemma slit_not_atom t : slit t -> isAtom t = Ok false.
Proof.
  intros [ | |t' [k n H]|n t' H]; try reflexivity.
  destruct (var_kinds5 k H) as [ -> | [ -> | [ -> | [ -> | -> ]]]]; reflexivity.
Qed.
Lemma mkNot_var c t : bool_var t -> mkNot c t = Ok (T NT_NOT boolS (kindToString NT_NOT) [t]).
Proof. intros [k n H]. destruct (var_kinds5 k H) as [ -> | [ -> | [ -> | [ -> | -> ]]]]; reflexivity. Qed.
Lemma mkNot_slit c t : slit t -> exists u, mkNot c t = Ok u /\ slit u /\ (forall n, below n t -> below n u) /\ forall I e, holds I e u = negb (holds I e t).
Proof.
  intros [ | |t' H|n t' H].
  - exists FALSE. split; [reflexivity|]. split; [constructor|]. split; [intros; apply below_FALSE|reflexivity].
  - exists TRUE. split; [reflexivity|]. split; [constructor|]. split; [intros; apply below_TRUE|reflexivity].
  - exists (T NT_NOT boolS (kindToString NT_NOT) [t']). split; [now apply mkNot_var|]. split; [now apply SL_neg|].
    split; [intros n B; apply below_kind; [discriminate|intros x [ <- | [] ]; exact B]|]. intros I e. now apply holds_not.
  - exists t'. split.
    + unfold mkNot, not_fuel. replace (3 * tsize (T NT_NOT boolS n [t']) + 3)%nat with (S (3 * tsize (T NT_NOT boolS n [t']) + 2)) by lia.
      cbn [mkNotF]. change (isBoolParam (T NT_NOT boolS n [t'])) with true. change (isNot (T NT_NOT boolS n [t'])) with true. cbn [negb t_ch length Nat.eqb].
      unfold condAssert. destruct (c_dbg c); reflexivity.
    + split; [now apply SL_var|]. split; [intros m B; apply (below_ch m _ t' B); now left|].
      intros I e. rewrite (holds_not (T NT_NOT boolS n [t']) t' I e); [|reflexivity|reflexivity]. now rewrite negb_involutive.
Qed.
Lemma tmp_var n : bool_var (tmp n). Proof. now constructor. Qed.
Lemma mapM_not c us : (forall u, In u us -> slit u) -> exists ns, mapM (mkNot c) us = Ok ns /\ (forall u, In u ns -> slit u) /\
  (forall n, (forall u, In u us -> below n u) -> forall u, In u ns -> below n u) /\
  forall I e, map (holds I e) ns = map (fun u => negb (holds I e u)) us.
Proof.
  induction us as [|x us IH]; intros H.
  - exists []. split; [reflexivity|]. split; [intros ? []|]. split; [intros n _ u []|reflexivity].
  - destruct (mkNot_slit c x (H x (or_introl eq_refl))) as (y & E & S & B & V). destruct IH as (ns & E' & S' & B' & V'); [intros u Hu; apply H; now right|].
    exists (y :: ns). split; [cbn [mapM]; rewrite E; cbn [bind]; rewrite E'; reflexivity|]. split; [intros u [ <- | Hu ]; auto|].
    split; [|intros I e; cbn [map]; now rewrite V, V'].
    intros n Hb u [ <- | Hu ]; [apply B, Hb; now left|]. apply (B' n); [|exact Hu]. intros w Hw. apply Hb. now right.
Qed.

(** ** emitting clauses *)
Definition sat (cl : list term) (I : interp) (e : env) : Prop := forall x, In x cl -> holds I e x = true.
Lemma emit_ok c S ls : cfg_ok c -> (forall l, In l ls -> goodB l /\ lit l) ->
  exists o, emit c S ls = Ok (Ts (ts_n S) (ts_v S) (ts_c S ++ [o])) /\ clause o /\ goodB o /\ (forall n, (forall l, In l ls -> below n l) -> below n o) /\
    forall I e, holds I e o = existsb (holds I e) ls.
Proof.
  intros Hc HL. assert (HG : forall l, In l ls -> goodB l) by (intros l Hl; now apply HL).
  destruct (mkOr_sound c ls Hc (goodB_args ls HG)) as (o & E & V). exists o. split; [unfold emit; now rewrite E|].
  assert (X : clause o /\ forall n, (forall l, In l ls -> below n l) -> below n o).
  { unfold mkOr in E. change NT_OR with (jk false) in E. apply mkJunction_shape in E; [|exact Hc|now apply goodB_args].
    destruct E as [ -> | [ -> | [H|(qs & -> & _ & Hi & _)] ]].
    - split; [apply Cl_lit, Lit_true|intros; apply below_TRUE].
    - split; [apply Cl_lit, Lit_false|intros; apply below_FALSE].
    - split; [apply Cl_lit; now apply HL|auto].
    - split; [apply Cl_or; intros q Hq; apply HL, Hi, Hq|]. intros n Hb. apply below_kind; [discriminate|]. intros q Hq. apply Hb, Hi, Hq. }
  destruct X as [X1 X2]. split; [exact X1|]. split; [|split; [exact X2|exact V]]. now apply (mkJunction_good c false ls).
Qed.
Lemma emits_ok c lss : forall S, cfg_ok c -> (forall ls, In ls lss -> forall l, In l ls -> goodB l /\ lit l) ->
  exists os, emits c S lss = Ok (Ts (ts_n S) (ts_v S) (ts_c S ++ os)) /\ (forall o, In o os -> clause o /\ goodB o) /\
    (forall n, (forall ls, In ls lss -> forall l, In l ls -> below n l) -> forall o, In o os -> below n o) /\
    forall I e, map (holds I e) os = map (existsb (holds I e)) lss.
Proof.
  induction lss as [|ls lss IH]; intros S Hc HL.
  - exists []. split; [cbn; rewrite app_nil_r; now destruct S|]. split; [intros ? []|]. split; [intros n _ o []|reflexivity].
  - destruct (emit_ok c S ls Hc (HL ls (or_introl eq_refl))) as (o & E & C & G & B & V).
    destruct (IH (Ts (ts_n S) (ts_v S) (ts_c S ++ [o])) Hc (fun l Hl => HL l (or_intror Hl))) as (os & E' & CG & B' & V').
    exists (o :: os). split; [cbn [emits]; rewrite E; cbn [bind]; rewrite E'; cbn [ts_n ts_v ts_c]; now rewrite <- app_assoc|].
    split; [intros x [ <- | Hx ]; auto|]. split; [|intros I e; cbn [map]; now rewrite V, V'].
    intros n Hb x [ <- | Hx ]; [apply B, Hb; now left|]. apply (B' n); [|exact Hx]. intros l Hl. apply Hb. now right.
Qed.
