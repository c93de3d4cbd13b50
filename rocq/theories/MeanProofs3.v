(** Proofs for MeanSpec.v: operators by name, then expressions. *)
From Coq Require Import QArith Qcanon Permutation.
From Verif Require Import Base LexSpec KindModel SortModel TermModel BVModel BVSpec UtilModel UtilSpec Sem SemProofs DagProofs SortProofs
  SimpModel OpModel OpSpec OpProofs OpProofs2 OpProofs3 OpProofs4 OpProofs5 OpProofs6 OpProofs7 ShapeProofs TypedSpec TypedProofs
  LexModel ParseModel ParseSpec ParseProofs ParseProofs2 ParseLits ApplyModel CommandModel CommandSpec CtorModel MeanSpec MeanProofs MeanProofs2 MeanBv.
Open Scope Z_scope.
Ltac arg1 F := let G := fresh "G" in let F' := fresh "F" in inversion F as [|? ? ? ? G F']; subst; clear F; rename F' into F.
Section F.
Context {fl : Flag}.

Definition clof (t : ty) : cl := match t with TyBool => CB | TyInt => CI | TyReal => CR | TyBV w => CV w end.
Lemma clof_ne t : clof t <> CL. Proof. destruct t; discriminate. Qed.
Lemma clof_num t : is_num t -> clof t = CI \/ clof t = CR.
Proof. intros [ -> | -> ]; cbn; auto. Qed.
Lemma gd_cr c t u : is_num t -> gd c (clof t) u -> gd c CR u.
Proof. intros [ -> | -> ] G; cbn in G; [now apply gd_sub|exact G]. Qed.
Definition gdt (c : cfg) (t : ty) (u : term) : Prop := gd c (clof t) u.
Lemma F2_rep c t n us : Forall2 (gdt c) (repeat t n) us -> length us = n /\ Forall (gd c (clof t)) us.
Proof. intros F. apply (proj1 (TypedProofs.Forall2_repeat (gdt c) t n us) F). Qed.
Lemma CA_true c : condAssert (c_dbg c) true = Ok tt.
Proof. unfold condAssert. destruct (c_dbg c); reflexivity. Qed.
Lemma oper_gives GG x o ts t us : l_clausal fl = s_clausal GG -> mean_cfg GG x -> allowed GG o ts -> op_ty o ts t -> Forall2 (gdt (x_c x)) ts us ->
  gives (x_c x) (clof t) (oper_kind x (getOperKind (L o)) [] us) (fun I e => op_val (L o) (map (eval I e) us)).
Proof.
  intros Hfl (Hc & Hi0 & Hn & HL & _) (Ha & Hcl) H F. rewrite <- Hfl in Hcl. set (c := x_c x) in *.
  destruct H as [|h n Hh Hl| |t|h t Hh|h t Hh Ht|t Ht|h t n Hh Ht Hl|h w Hh|h w n Hh Hl|h w Hh|h w Hh|w w' Hf|w].
  - arg1 F. inversion F; subst.
    assert (AP : oper_kind x (getOperKind (L "not")) [] [y] = mkNot c y).
    { change (getOperKind (L "not")) with NT_NOT. cbn [oper_kind]. unfold ap1. cbn [length Nat.eqb]. rewrite CA_true. reflexivity. }
    rewrite AP. exact (not_gives c y Hc G).
  - apply F2_rep in F. destruct F as [ <- F]. destruct Hh as [ <- | [ <- | [ <- | [] ]]].
    + exact (junction_gives c true us Hc F).
    + exact (junction_gives c false us Hc F).
    + apply (xor_gives c us); [|exact Hc|exact F]. apply not_true_is_false. intros E. destruct (Hcl E) as [X _]. apply X. cbn; tauto.
  - arg1 F. arg1 F. inversion F; subst. exact (implies_gives c y y0 Hc G G0).
  - arg1 F. arg1 F. arg1 F. inversion F; subst. exact (ite_gives c (clof t) y y0 y1 Hc G G0 G1).
  - arg1 F. arg1 F. inversion F; subst.
    assert (Hnb : nb (clof t)).
    { intros E. destruct (Hcl E) as [_ X]. intros Y. apply (X ltac:(destruct Hh as [ <- | [ <- | [] ]]; cbn; tauto)). destruct t; try discriminate Y. now left. }
    destruct Hh as [ <- | [ <- | [] ]].
    + exact (eq_gives c (clof t) y y0 Hnb Hc G G0).
    + exact (distinct_gives c (clof t) y y0 Hnb Hc G G0).
  - arg1 F. arg1 F. inversion F; subst. apply (gd_cr c t) in G; [|exact Ht]. apply (gd_cr c t) in G0; [|exact Ht].
    assert (AP : forall f, ap2 x f [y; y0] = f y y0).
    { intros f. unfold ap2. cbn [length Nat.eqb]. rewrite CA_true. reflexivity. }
    destruct Hh as [ <- | [ <- | [ <- | [ <- | [] ]]]]; cbv beta;
      match goal with |- gives _ _ (oper_kind x ?k _ _) _ => let k' := eval vm_compute in k in change k with k' end; cbn [oper_kind]; rewrite AP; fold c.
    + exact (cmp_gives c NT_LT y y0 Hc ltac:(cbn; tauto) G G0).
    + exact (cmp_gives c NT_LE y y0 Hc ltac:(cbn; tauto) G G0).
    + exact (cmp_gives c NT_GT y y0 Hc ltac:(cbn; tauto) G G0).
    + exact (cmp_gives c NT_GE y y0 Hc ltac:(cbn; tauto) G G0).
  - arg1 F. inversion F; subst. pose proof (clof_num t Ht) as Hr.
    pose proof (Hi0 (Ha ltac:(cbn; tauto))) as Hi. exact (sub_gives c (clof t) y [] Hc Hi Hn Hr ltac:(constructor; [exact G|constructor])).
  - apply F2_rep in F. destruct F as [ <- F]. pose proof (clof_num t Ht) as Hr. destruct Hh as [ <- | [ <- | [ <- | [] ]]].
    + pose proof (Hi0 (Ha ltac:(cbn; tauto))) as Hi. exact (add_gives c (clof t) us Hc Hi Hn Hr Hl F).
    + destruct us as [|p [|q us]]; cbn [length] in Hl; try lia. pose proof (Hi0 (Ha ltac:(cbn; tauto))) as Hi. exact (sub_gives c (clof t) p (q :: us) Hc Hi Hn Hr F).
    + pose proof (Hi0 (Ha ltac:(cbn; tauto))) as Hi. exact (mul_gives c (clof t) us Hc Hi Hn Hr Hl F).
  - arg1 F. inversion F; subst. destruct Hh as [ <- | [ <- | [] ]].
    + change (oper_kind x (getOperKind (L "bvnot")) [] [y]) with (x_oper x NT_BV_NOT [] [y]). rewrite HL by (cbn; tauto).
      exact (bv1_gives c NT_BV_NOT w y (fun _ => eq_refl) Hc ltac:(cbn; tauto) G).
    + change (oper_kind x (getOperKind (L "bvneg")) [] [y]) with (x_oper x NT_BV_NEG [] [y]). rewrite HL by (cbn; tauto).
      exact (bv1_gives c NT_BV_NEG w y ltac:(intros E; destruct (Hcl E) as [X _]; exfalso; apply X; cbn; tauto) Hc ltac:(cbn; tauto) G).
  - apply F2_rep in F. destruct F as [ <- F].
    assert (N : forall k, In k bvn_kinds -> getOperKind (L (bv_name k)) = k -> (forall ps, oper_kind x k [] ps = x_oper x k [] ps) ->
      (forall ps, theory_oper c (fun l => l) k [] ps = bv_nary c k (bv_empty k) ps) ->
      In k [NT_BV_NOT; NT_BV_NEG; NT_BV_AND; NT_BV_OR; NT_BV_XOR; NT_BV_NAND; NT_BV_NOR; NT_BV_XNOR; NT_BV_ADD; NT_BV_MUL; NT_BV_CONCAT; NT_BV_TO_NAT] ->
      gives c (CV w) (oper_kind x (getOperKind (L (bv_name k))) [] us) (fun I e => op_val (L (bv_name k)) (map (eval I e) us))).
    { intros k Hk E1 E2 E3 HI. rewrite E1, E2, HL by exact HI. fold c. rewrite E3. now apply bv_nary_gives. }
    repeat (destruct Hh as [ <- | Hh ]); [..|contradiction].
    + apply (N NT_BV_AND); (reflexivity || (cbn; tauto)).
    + apply (N NT_BV_OR); (reflexivity || (cbn; tauto)).
    + apply (N NT_BV_XOR); (reflexivity || (cbn; tauto)).
    + apply (N NT_BV_ADD); (reflexivity || (cbn; tauto)).
    + apply (N NT_BV_MUL); (reflexivity || (cbn; tauto)).
  - arg1 F. arg1 F. inversion F; subst. set (us := [y; y0]).
    assert (FF : Forall (gd c (CV w)) us) by (constructor; [exact G|constructor; [exact G0|constructor]]).
    assert (N : forall k, In k bvn_kinds -> getOperKind (L (bv_name k)) = k -> (forall ps, oper_kind x k [] ps = x_oper x k [] ps) ->
      (forall ps, theory_oper c (fun l => l) k [] ps = bv_nary c k (bv_empty k) ps) ->
      In k [NT_BV_NOT; NT_BV_NEG; NT_BV_AND; NT_BV_OR; NT_BV_XOR; NT_BV_NAND; NT_BV_NOR; NT_BV_XNOR; NT_BV_ADD; NT_BV_MUL; NT_BV_CONCAT; NT_BV_TO_NAT] ->
      gives c (CV w) (oper_kind x (getOperKind (L (bv_name k))) [] us) (fun I e => op_val (L (bv_name k)) (map (eval I e) us))).
    { intros k Hk E1 E2 E3 HI. rewrite E1, E2, HL by exact HI. fold c. rewrite E3. apply bv_nary_gives; [exact Hc|exact Hk|cbn; lia|exact FF]. }
    repeat (destruct Hh as [ <- | Hh ]); [..|contradiction].
    + apply (N NT_BV_NAND); (reflexivity || (cbn; tauto)).
    + apply (N NT_BV_NOR); (reflexivity || (cbn; tauto)).
    + apply (N NT_BV_XNOR); (reflexivity || (cbn; tauto)).
  - arg1 F. arg1 F. inversion F; subst.
    assert (AP : forall f, ap2 x f [y; y0] = f y y0).
    { intros f. unfold ap2. cbn [length Nat.eqb]. rewrite CA_true. reflexivity. }
    assert (N : forall k, In k bv_comp_kinds -> getOperKind (L (bv_name k)) = k -> (forall ps, oper_kind x k [] ps = ap2 x (mkBvCmp c k) ps) ->
      gives c CB (oper_kind x (getOperKind (L (bv_name k))) [] [y; y0]) (fun I e => op_val (L (bv_name k)) (map (eval I e) [y; y0]))).
    { intros k Hk E1 E2. rewrite E1, E2, AP. exact (bvcmp_gives c k w y y0 Hc Hk G G0). }
    repeat (destruct Hh as [ <- | Hh ]); [..|contradiction].
    + apply (N NT_BV_ULT); (reflexivity || (cbn; tauto)).
    + apply (N NT_BV_ULE); (reflexivity || (cbn; tauto)).
    + apply (N NT_BV_UGT); (reflexivity || (cbn; tauto)).
    + apply (N NT_BV_UGE); (reflexivity || (cbn; tauto)).
    + apply (N NT_BV_SLT); (reflexivity || (cbn; tauto)).
    + apply (N NT_BV_SLE); (reflexivity || (cbn; tauto)).
    + apply (N NT_BV_SGT); (reflexivity || (cbn; tauto)).
    + apply (N NT_BV_SGE); (reflexivity || (cbn; tauto)).
  - arg1 F. arg1 F. inversion F; subst.
    change (oper_kind x (getOperKind (L "concat")) [] [y; y0]) with (x_oper x NT_BV_CONCAT [] [y; y0]). rewrite HL by (cbn; tauto).
    exact (concat_gives c w w' y y0 Hc Hf G G0).
  - arg1 F. inversion F; subst.
    change (oper_kind x (getOperKind (L "bv2nat")) [] [y]) with (x_oper x NT_BV_TO_NAT [] [y]). rewrite HL by (cbn; tauto).
    exact (bv2nat_gives c w y ltac:(intros E; destruct (Hcl E) as [X _]; apply X; cbn; tauto) Hc G).
Qed.
End F.
