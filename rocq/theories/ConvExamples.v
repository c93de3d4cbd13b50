(** Concrete formulas for PropsConv.v. *)
From Coq Require Import QArith Qcanon Permutation.
From Verif Require Import Base KindModel SortModel TermModel BVModel BVSpec UtilModel UtilSpec Sem SemProofs ArrayModel
  SimpModel OpModel OpSpec OpProofs OpProofs2 OpProofs3 OpProofs4 OpProofs5 OpProofs6 OpProofs7 OpExamples
  ShapeProofs ConvModel ConvSpec ConvProofs WalkProofs GoodProofs SplitProofs.
Open Scope Z_scope.

Lemma bvar_tree c n : tree_ok c (bvar n). Proof. apply tree_leaf; [reflexivity|apply node_bvar]. Qed.
Lemma ivar_tree c n : tree_ok c (ivar n). Proof. apply tree_leaf; [reflexivity|apply node_ivar]. Qed.
Lemma bvar_atom c n : atom_ok c (bvar n).
Proof. constructor; [reflexivity|apply bvar_tree|reflexivity|intros C; discriminate C]. Qed.
Lemma lt3_atom : atom_ok c0 lt3.
Proof. constructor; [reflexivity|apply tree_lt3|reflexivity|intros C; discriminate C]. Qed.
Definition nt (t : term) : term := T NT_NOT boolS (L "not") [t].
(** not (a => (ite (< x 3) b (not a))) *)
Definition nnf_ex : term := nt (T NT_IMPLIES boolS (L "=>") [pa; T NT_ITE boolS (L "ite") [lt3; pb; nt pa]]).
Lemma fml_nnf_ex : fml c0 nnf_ex.
Proof.
  apply F_not, F_imp; [apply F_atom, bvar_atom|]. apply F_ite; [apply F_atom, lt3_atom|apply F_atom, bvar_atom|].
  apply F_not, F_atom, bvar_atom.
Qed.
Definition nnf_ex_res : term :=
  T NT_AND boolS (L "and") [pa; T NT_OR boolS (L "or")
    [T NT_AND boolS (L "and") [lt3; nt pb]; T NT_AND boolS (L "and") [T NT_GE boolS (L ">=") [xi; num0 3]; pa]]].
Lemma nnf_ex_in : in_nnf nnf_ex_res.
Proof.
  apply N_and. intros p [ <- | [ <- | [] ]]; [now apply N_atom|]. apply N_or. intros p [ <- | [ <- | [] ]]; apply N_and;
    intros p [ <- | [ <- | [] ]]; try (now apply N_atom). now apply N_neg.
Qed.
(** the conjunction built by mkAnd is a formula *)
Lemma toNNFs_ok c ts : cfg_ok c -> ts <> [] -> (forall t, In t ts -> fml c t) ->
  exists r, toNNFs c ts = Ok r /\ in_nnf r /\ forall I e, holds I e r = forallb (holds I e) ts.
Proof.
  intros Hc NE HF.
  assert (HG : forall t, In t ts -> goodB t).
  { intros t Ht. destruct (HF t Ht) as [t A|n a Fa|n ps _ _|n ps _ _|n a b _ _|n a b d _ _ _];
      [exact (proj1 (atom_goodB c t A))|..]; apply goodB_node; try reflexivity; discriminate. }
  destruct (mkAnd_sound c ts Hc (goodB_args ts HG)) as (t & E & V).
  assert (F : fml c t).
  { pose proof E as E'. unfold mkAnd in E'. change NT_AND with (jk true) in E'. apply mkJunction_shape in E'; [|exact Hc|now apply goodB_args].
    assert (TF : forall b : bool, fml c (if b then TRUE else FALSE)).
    { intros b. apply F_atom. constructor; [destruct b; reflexivity|apply TF_tree|destruct b; reflexivity|destruct b; intros C; discriminate C]. }
    destruct E' as [ -> | [ -> | [H|(qs & -> & Hn & Hi & _ & _)] ]]; [exact (TF true)|exact (TF false)|auto|].
    apply F_and; [intros ->; cbn in Hn; lia|]. intros p Hp. apply HF, Hi, Hp. }
  unfold toNNFs. rewrite E. cbn [bind]. destruct (toNNF_ok c t Hc F) as (r & Er & Nr & Vr). exists r. split; [exact Er|]. split; [exact Nr|].
  intros I e. now rewrite Vr, V.
Qed.

(** (or (<= x 3) a) *)
Definition le3 : term := T NT_LE boolS (L "<=") [xi; num0 3].
Definition split_ex : term := T NT_OR boolS (L "or") [le3; nt pa].
Definition split_ex_res : term := T NT_OR boolS (L "or") [T NT_OR boolS (L "or") [lt3; T NT_EQ boolS (L "=") [xi; num0 3]]; nt pa].
Lemma num0_tree c z : tree_ok c (num0 z). Proof. apply tree_leaf; [reflexivity|apply node_num0]. Qed.
Lemma numeric_num0 z : numeric (num0 z). Proof. intros I e. rewrite eval_num0. eauto. Qed.
Lemma plain_bvar c ops A n : kin NT_VAR ops = false -> formula_over c ops A (bvar n).
Proof.
  intros K. apply FO_plain; [reflexivity|reflexivity|intros p [ <- | [] ] C; discriminate C|].
  intros p Hp. apply sub_leaf in Hp. now subst p.
Qed.
Lemma split_ex_ok : formula_over c0 [NT_LE] (num_cmp c0) split_ex.
Proof.
  apply FO_conn; [reflexivity|reflexivity|]. intros x [ <- | [ <- | [] ]].
  - apply FO_atom; [reflexivity|]. split; [reflexivity|]. split; [reflexivity|]. split.
    + apply cmp_node_tree; [right; cbn; tauto|apply ivar_tree|apply num0_tree|now apply comparable_int|reflexivity|reflexivity].
    + exists xi, (num0 3). split; [reflexivity|]. split; [reflexivity|]. split; [reflexivity|]. split; [apply numeric_ivar|apply numeric_num0].
  - apply FO_conn; [reflexivity|reflexivity|]. intros x [ <- | [] ]. now apply plain_bvar.
Qed.
(** (and (< x y z) (not (distinct x y z)) a) *)
Definition bin_ex : term := T NT_AND boolS (L "and")
  [T NT_LT boolS (L "<") [xi; yi; zi]; nt (T NT_DISTINCT boolS (L "distinct") [xi; yi; zi]); pa].
Definition ds (a b : term) : term := T NT_DISTINCT boolS (L "distinct") [a; b].
Definition bin_ex_res : term := T NT_AND boolS (L "and")
  [T NT_AND boolS (L "and") [T NT_LT boolS (L "<") [xi; yi]; T NT_LT boolS (L "<") [yi; zi]];
   nt (T NT_AND boolS (L "and") [ds xi yi; ds xi zi; ds yi zi]); pa].
Lemma bin_ex_ok : formula_over c0 bin_ops (nary_cmp c0) bin_ex.
Proof.
  apply FO_conn; [reflexivity|reflexivity|]. intros x [ <- | [ <- | [ <- | [] ]]].
  - apply FO_atom; [reflexivity|]. split; [reflexivity|]. split; [cbn; lia|]. split.
    + intros x [ <- | [ <- | [ <- | [] ]]]; apply ivar_tree.
    + right. right. split; [reflexivity|]. split; [repeat split; try (left; intros p [ <- | [ <- | [] ]] C; discriminate C)|].
      intros x [ <- | [ <- | [ <- | [] ]]]; reflexivity.
  - apply FO_conn; [reflexivity|reflexivity|]. intros x [ <- | [] ]. apply FO_atom; [reflexivity|].
    split; [reflexivity|]. split; [cbn; lia|]. split; [intros x [ <- | [ <- | [ <- | [] ]]]; apply ivar_tree|].
    right. left. split; [reflexivity|]. intros x y [ <- | [ <- | [ <- | [] ]]] [ <- | [ <- | [ <- | [] ]]]; now apply comparable_int.
  - now apply plain_bvar.
Qed.
