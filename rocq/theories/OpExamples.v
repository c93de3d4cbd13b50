(** A concrete configuration and concrete terms, used to show that the hypotheses of the
    theorems in PropsOp.v can be met and to refute what does not hold. *)
From Coq Require Import QArith Qcanon Qround Permutation ZifyBool ZifyNat.
From Verif Require Import Base KindModel SortModel TermModel BVModel BVSpec UtilModel UtilSpec UtilProofs UtilProofs2
  DagProofs SortProofs Sem SemProofs ArrayModel SimpModel OpModel OpSpec
  OpProofs OpProofs2 OpProofs3 OpProofs4 OpProofs5 OpProofs6 OpProofs7.
Open Scope Z_scope.

(** exact arithmetic on numerals, arguments kept in order, logic with Int and Real *)
Definition rv0 (t : term) : QArith_base.Q := match real_val (t_name t) with Some q => this q | None => 0%Q end.
Definition c0 : cfg := Cfg false false false true false rv0 (fun t => Qfloor (rv0 t)) (fun _ _ => L "0.5") (fun _ => 0) (fun ps => ps).
(** the same in a logic with neither Int nor Real in its name *)
Definition cB : cfg := Cfg false false false false false rv0 (fun t => Qfloor (rv0 t)) (fun _ _ => L "0.5") (fun _ => 0) (fun ps => ps).
Lemma rv0_ic z s : (rv0 (T NT_CONST s (Idec z) []) == inject_Z z)%Q.
Proof. unfold rv0. cbn [t_name]. rewrite real_val_Idec. apply ZQ_this. Qed.
Lemma cfg_ok_gen c : c_rv c = rv0 -> c_sort c = (fun ps => ps) -> cfg_ok c.
Proof.
  intros E F. constructor.
  - intros ps. rewrite F. apply Permutation_refl.
  - intros z s. rewrite E, rv0_ic. change 0%Q with (inject_Z 0). rewrite inject_Z_injective. reflexivity.
  - intros z s. rewrite E, rv0_ic. change 1%Q with (inject_Z 1). rewrite inject_Z_injective. reflexivity.
Qed.
Lemma c0_ok : cfg_ok c0. Proof. now apply cfg_ok_gen. Qed.
Lemma cB_ok : cfg_ok cB. Proof. now apply cfg_ok_gen. Qed.

Definition bvar (n : str) : term := T NT_VAR boolS n [].
Definition ivar (n : str) : term := T NT_VAR intS n [].
Definition pa := bvar (L "a"). Definition pb := bvar (L "b").
Definition xi := ivar (L "x"). Definition yi := ivar (L "y"). Definition zi := ivar (L "z").
Definition num0 (z : Z) : term := T NT_CONST intS (Idec z) [].
Definition str0 (s : str) : term := T NT_CONST strS (UtilSpec.Q s) [].
(** environments by name *)
Definition env_of (f : str -> value) : env := fun t => f (t_name t).
Definition e_all (v : value) : env := fun _ => v.

Ltac notconst := intros p Hp C; repeat (destruct Hp as [ <- | Hp ]; [discriminate C|]); contradiction.
Lemma lits_nil : lits_ok []. Proof. intros p []. Qed.
Lemma lits_bvars : lits_ok [pa; TRUE; pb].
Proof. intros p [ <- | [ <- | [ <- | [] ]]] C; try discriminate C. constructor. Qed.
Lemma boolean_bvar n : boolean (bvar n). Proof. intros I e. cbn. eauto. Qed.
Lemma numeric_ivar n : numeric (ivar n). Proof. intros I e. cbn. eauto. Qed.

(** (< x 3) and its negation *)
Definition lt3 : term := T NT_LT boolS (L "<") [xi; num0 3].
Lemma sub_leaf p k s n : subterm p (T k s n []) -> p = T k s n [].
Proof. intros H. inversion H as [|u x t Hx H']; subst; [reflexivity|destruct Hx]. Qed.
Lemma sub_two p k s n l r : subterm p (T k s n [l; r]) -> p = T k s n [l; r] \/ subterm p l \/ subterm p r.
Proof. intros H. inversion H as [|u x t Hx H']; subst; [now left|]. cbn in Hx. destruct Hx as [ <- | [ <- | [] ]]; auto. Qed.
Lemma sub_one p k s n l : subterm p (T k s n [l]) -> p = T k s n [l] \/ subterm p l.
Proof. intros H. inversion H as [|u x t Hx H']; subst; [now left|]. cbn in Hx. destruct Hx as [ <- | [] ]; auto. Qed.
Lemma leaf_node c t : t_ch t = [] -> kin (t_kind t) [NT_VAR; NT_CONST] = true -> lo t -> isErr t = false ->
  (isBoolParam t = true -> t_sort t = boolS /\ boolean t) -> s_kind (t_sort t) <> SK_FP -> node_ok c t.
Proof.
  destruct t as [k s n ch]. cbn [t_ch t_kind t_sort]. intros -> Hk HL HE HB HF.
  constructor; cbn [t_kind t_sort t_ch]; try assumption.
  - intros F. congruence.
  - apply lits_ok_cons. split; [exact HL|apply lits_nil].
  - destruct k; try discriminate Hk; intros N; discriminate N.
  - destruct k; try discriminate Hk; intros N; discriminate N.
  - destruct k; try discriminate Hk; intros [N|N]; discriminate N.
  - destruct k; try discriminate Hk; intros N; discriminate N.
  - destruct k; try discriminate Hk; intros N; discriminate N.
  - destruct k; try discriminate Hk; intros N; discriminate N.
Qed.
Lemma lo_num0 z : lo (num0 z). Proof. intros _. constructor. auto. Qed.
Lemma node_ivar c n : node_ok c (ivar n).
Proof. apply leaf_node; try reflexivity; [intros C; discriminate C|intros C; discriminate C|discriminate]. Qed.
Lemma node_num0 c z : node_ok c (num0 z).
Proof. apply leaf_node; try reflexivity; [apply lo_num0|intros C; discriminate C|discriminate]. Qed.
Lemma node_bvar c n : node_ok c (bvar n).
Proof. apply leaf_node; try reflexivity; [intros C; discriminate C|intros _; split; [reflexivity|apply boolean_bvar]|discriminate]. Qed.
Lemma tree_leaf c t : t_ch t = [] -> node_ok c t -> tree_ok c t.
Proof. destruct t as [k s n ch]. cbn. intros -> H p Hp. now rewrite (sub_leaf p k s n Hp). Qed.
Lemma comparable_int c l r : t_sort l = intS -> t_sort r = intS -> comparable c l r.
Proof.
  intros E F. split; [rewrite E, F; reflexivity|]. left. intros p [ <- | [ <- | [] ]] _; unfold sis; rewrite ?E, ?F; reflexivity.
Qed.
Lemma lt_node c l r : t_sort l = intS -> t_sort r = intS -> node_ok c (T NT_LT boolS (L "<") [l; r]).
Proof.
  intros El Er. constructor; cbn [t_kind t_sort t_ch]; try reflexivity; try (intros N; discriminate N).
  - intros p [ <- | [] ] C. discriminate C.
  - intros _. split; [reflexivity|]. intros I e. rewrite (eval2 I e NT_LT boolS (L "<") l r (VBool (vlt (eval I e l) (eval I e r)))); [eauto|reflexivity|apply cmpop2].
  - intros [N|N]; discriminate N.
  - intros _. exists l, r. split; [reflexivity|now apply comparable_int].
Qed.
Lemma tree_lt3 : tree_ok c0 lt3.
Proof.
  intros p Hp. apply sub_two in Hp. destruct Hp as [ -> | [Hp|Hp] ].
  - now apply lt_node.
  - apply sub_leaf in Hp. subst p. apply node_ivar.
  - apply sub_leaf in Hp. subst p. apply node_num0.
Qed.
Lemma num_args_xy : num_args [xi; num0 3; yi].
Proof.
  split; [|split].
  - intros p [ <- | [ <- | [ <- | [] ]]] C; try discriminate C. constructor. auto.
  - intros p [ <- | [ <- | [ <- | [] ]]] _; reflexivity.
  - intros p [ <- | [ <- | [ <- | [] ]]]; split; reflexivity.
Qed.
Lemma eval_num0 I e z : eval I e (num0 z) = VNum (ZQ z). Proof. apply (eval_ic I e intS). auto. Qed.
Lemma ZQ_neq a b : a <> b -> VNum (ZQ a) <> VNum (ZQ b). Proof. intros H E. apply H. assert (K : ZQ a = ZQ b) by (change (num (VNum (ZQ a)) = num (VNum (ZQ b))); now rewrite E). now apply ZQ_inj. Qed.
(** different nodes with names of different length have different hashes *)
Definition c1 : cfg := Cfg false false false true false rv0 (fun t => Qfloor (rv0 t)) (fun _ _ => L "0.5") (fun t => zlen (t_name t)) (fun ps => ps).
Lemma c1_ok : cfg_ok c1. Proof. now apply cfg_ok_gen. Qed.
Definition arrII : sort := arrayS intS intS.
Definition fvar (n : str) : term := T NT_VAR (fpS (L "FP") 8 24) n [].
