(** Proofs for MeanSpec.v: the constructors keep well-sorted terms well-formed. *)
From Coq Require Import QArith Qcanon Permutation.
From Verif Require Import Base LexSpec KindModel SortModel TermModel BVModel BVSpec UtilModel UtilSpec Sem SemProofs DagProofs SortProofs
  SimpModel OpModel OpSpec OpProofs OpProofs2 OpProofs3 OpProofs4 OpProofs5 OpProofs6 OpProofs7 ShapeProofs TypedSpec TypedProofs
  LexModel ParseModel ParseSpec CommandModel CommandSpec MeanSpec.
Open Scope Z_scope.

Ltac f2 := repeat (apply Forall2_cons; [assumption|]); apply Forall2_nil.
(** the terms to be built: of the clausal language or not ([s_clausal]); with no parameters, or
    the body of a function with these parameters and no other variable *)
Record language := Language { l_clausal : bool; l_params : option (list term) }.
Class Flag := flag : language.
(** what the clausal language leaves out: bvneg and bv2nat, which the library does not take for
    bit-vector and arithmetic terms, xor, let and equality of Booleans *)
Definition not_clausal : list kind := [NT_XOR; NT_LET_BIND_VAR; NT_LET_BIND_VAR_LIST; NT_LET_CHAIN; NT_BV_NEG; NT_BV_TO_NAT].
Definition clausal_node (t : term) : Prop :=
  kin (t_kind t) not_clausal = false /\
  (isEq t || isDistinct t = true -> forall x, In x (t_ch t) -> isBoolParam x = false).
Definition basic_sort (s : sort) : Prop := s = boolS \/ s = intS \/ s = realS \/ s = intorealS \/ (exists w, s = bvS w).
(** no temporary variables or parameters (only the parameters, in a body), implications are binary *)
Definition var_node (f : language) (t : term) : Prop :=
  match l_params f with None => kin (t_kind t) [NT_TEMP_VAR; NT_FUNC_PARAM] = false | Some fs => In t fs end.
Definition plain_node (f : language) (t : term) : Prop :=
  (is_leaf_var (t_kind t) = true -> var_node f t) /\ (t_kind t = NT_IMPLIES -> length (t_ch t) = 2%nat) /\
  (t_kind t = NT_LET_BIND_VAR_LIST -> basic_sort (t_sort t)) /\ (l_clausal f = true -> clausal_node t).
Definition plain (f : language) (t : term) : Prop := forall p, subterm p t -> plain_node f p.
Section F.
Context {fl : Flag}.
Definition tok (c : cfg) (t : term) : Prop := tree_ok c t /\ plain fl t.
(** well-sorted and well-formed *)
Definition gd (c : cfg) (r : cl) (t : term) : Prop := r <> CL /\ wt r t /\ tok c t.
Lemma gd_sub c t : gd c CI t -> gd c CR t.
Proof. intros (A & B & C). split; [discriminate|]. split; [now apply W_sub|exact C]. Qed.
Lemma gd_node c r t : gd c r t -> node_ok c t.
Proof. intros (_ & _ & C & _). now apply tree_node. Qed.
Lemma gd_bool c t : gd c CB t -> isBoolParam t = true.
Proof. intros (_ & W & _). pose proof (wt_sort CB t W ltac:(discriminate)) as S. cbn in S. unfold isBoolParam, sis. now rewrite S. Qed.
Lemma gd_err c r t : gd c r t -> isErr t = false /\ isUnknown t = false.
Proof. intros (_ & W & _). destruct (wt_not_unk r t W). now split. Qed.

(** ** one node *)
Lemma num_sort r s : r = CI \/ r = CR -> rsort r s -> s = intS \/ s = realS \/ s = intorealS.
Proof. intros [ -> | -> ] H; exact H. Qed.
Lemma compat_cl r a b : r <> CL -> rsort r a -> rsort r b -> compat a b = Ok true.
Proof.
  intros N A B. destruct r; cbn [rsort] in A, B; try congruence.
  - now subst.
  - destruct A as [ -> | [ -> | -> ]], B as [ -> | [ -> | -> ]]; reflexivity.
  - destruct A as [ -> | [ -> | -> ]], B as [ -> | [ -> | -> ]]; reflexivity.
  - subst. reflexivity.
Qed.
Lemma wt_comparable c r a b : r <> CL -> wt r a -> wt r b -> comparable c a b.
Proof.
  intros N A B. split; [apply (compat_cl r); [exact N|now apply wt_sort|now apply wt_sort]|].
  left. apply (proj2 (wt_lits r [a; b] ltac:(repeat constructor; assumption))).
Qed.
Lemma wt_class r t : wt r t -> r <> CL -> isBoolParam t = true -> r = CB.
Proof.
  intros W N B. pose proof (wt_sort r t W N) as S. unfold isBoolParam, sis in B.
  destruct r; cbn [rsort] in S; [reflexivity| | |congruence|rewrite S in B; discriminate B]; destruct S as [S|[S|S]]; rewrite S in B; discriminate B.
Qed.
Lemma eqk_app k s n r rs ch : sig k r rs -> isEq (T k s n ch) = true \/ isDistinct (T k s n ch) = true ->
  exists q m, rs = repeat q m /\ q <> CL.
Proof.
  intros H E. destruct H as [|k m Hk Hm|m Hm Hm'|r Hr|k r m Hk Hr Hm|k Hk|k r m Hk Hr Hm|r Hr|r Hr|rs Hr Hr'|m r Hm Hr|k w Hk|k w nn Hk Hnn|k w Hk|w w' Hf|w];
    try (destruct E as [E|E]; discriminate E); try (repeat (destruct Hk as [ <- | Hk ]); try contradiction; destruct E as [E|E]; discriminate E).
  now exists r, m.
Qed.
Lemma F2_two {A B} (R : A -> B -> Prop) q m us : Forall2 R (repeat q m) us -> length us = 2%nat -> exists a b, us = [a; b] /\ R q a /\ R q b.
Proof.
  intros F L. apply Forall2_repeat in F. destruct F as [_ F]. destruct us as [|a [|b [|d us]]]; try discriminate L.
  inversion F as [|? ? Ra F']; subst. inversion F' as [|? ? Rb _]; subst. exists a, b. auto.
Qed.
Lemma node_wt c r t : wt r t -> r <> CL ->
  (isEq t = true \/ isDistinct t = true -> length (t_ch t) = 2%nat) -> node_ok c t.
Proof.
  intros W N HE.
  assert (S : s_kind (t_sort t) <> SK_FP).
  { pose proof (wt_sort r t W N) as S. destruct r; cbn [rsort] in S; try congruence; try (rewrite S; discriminate); destruct S as [S|[S|S]]; rewrite S; discriminate. }
  assert (VB : forall u, wt CB u -> boolean u). { intros u Wu I e. exact (wt_val I e CB u Wu). }
  assert (K : (isNot t = true -> exists q, t_ch t = [q] /\ wt CB q) /\
              (isEq t = true \/ isDistinct t = true -> exists q a b, q <> CL /\ t_ch t = [a; b] /\ wt q a /\ wt q b) /\
              (kin (t_kind t) arith_comp_kinds = true -> exists a b, t_ch t = [a; b] /\ wt CR a /\ wt CR b) /\
              t_kind t <> NT_BV_COMP /\ kin (t_kind t) str_comp_kinds = false /\
              (kin (t_kind t) bv_comp_kinds = true -> exists w a b, t_ch t = [a; b] /\ wt (CV w) a /\ wt (CV w) b)).
  { clear S N VB. induction W as [k s n r A B| | |s z A|k s n r rs ch A B F _|s n r rs ch A B D F _|t W IH|w v A B] using wt_ind'.
    - destruct k; try discriminate A; (repeat split; try discriminate; intros [X|X]; discriminate X).
    - repeat split; try discriminate; intros [X|X]; discriminate X.
    - repeat split; try discriminate; intros [X|X]; discriminate X.
    - repeat split; try discriminate; intros [X|X]; discriminate X.
    - split; [|split; [|split; [|split; [|split]]]].
      + intros X. destruct A as [|k m Hk Hm|m Hm Hm'|r Hr|k r m Hk Hr Hm|k Hk|k r m Hk Hr Hm|r Hr|r Hr|rs Hr Hr'|m r Hm Hr|k w Hk|k w nn Hk Hnn|k w Hk|w w' Hf|w]; try discriminate X;
          try (repeat (destruct Hk as [ <- | Hk ]); try contradiction; discriminate X).
        inversion F as [|? q ? l Wq F']; subst. inversion F'; subst. now exists q.
      + intros X. destruct (eqk_app k s n r rs ch A X) as (q & m & -> & Hq). destruct (F2_two _ q m ch F (HE X)) as (a & b & -> & Wa & Wb).
        now exists q, a, b.
      + intros X. cbn [t_kind] in X. destruct A as [|k m Hk Hm|m Hm Hm'|r Hr|k r m Hk Hr Hm|k Hk|k r m Hk Hr Hm|r Hr|r Hr|rs Hr Hr'|m r Hm Hr|k w Hk|k w nn Hk Hnn|k w Hk|w w' Hf|w]; try discriminate X;
          try (repeat (destruct Hk as [ <- | Hk ]); try contradiction; discriminate X).
        inversion F as [|? q ? l Wq F1]; subst. inversion F1 as [|? q' ? l' Wq' F2]; subst. inversion F2; subst. now exists q, q'.
      + intros X. cbn [t_kind] in X. destruct A as [|k m Hk Hm|m Hm Hm'|r Hr|k r m Hk Hr Hm|k Hk|k r m Hk Hr Hm|r Hr|r Hr|rs Hr Hr'|m r Hm Hr|k w Hk|k w nn Hk Hnn|k w Hk|w w' Hf|w]; try discriminate X;
          try (repeat (destruct Hk as [ <- | Hk ]); try contradiction; discriminate X).
      + destruct A as [|k m Hk Hm|m Hm Hm'|r Hr|k r m Hk Hr Hm|k Hk|k r m Hk Hr Hm|r Hr|r Hr|rs Hr Hr'|m r Hm Hr|k w Hk|k w nn Hk Hnn|k w Hk|w w' Hf|w]; try reflexivity;
          try (repeat (destruct Hk as [ <- | Hk ]); try contradiction; reflexivity).
      + intros X. cbn [t_kind] in X. destruct A as [|k m Hk Hm|m Hm Hm'|r Hr|k r m Hk Hr Hm|k Hk|k r m Hk Hr Hm|r Hr|r Hr|rs Hr Hr'|m r Hm Hr|k w Hk|k w nn Hk Hnn|k w Hk|w w' Hf|w]; try discriminate X;
          try (repeat (destruct Hk as [ <- | Hk ]); try contradiction; discriminate X).
        inversion F as [|? q ? l Wq F1]; subst. inversion F1 as [|? q' ? l' Wq' F2]; subst. inversion F2; subst. now exists w, q, q'.
    - repeat split; try discriminate; intros [X|X]; discriminate X.
    - now apply IH.
    - repeat split; try discriminate; intros [X|X]; discriminate X. }
  destruct K as (K1 & K2 & K3 & K4 & K5 & K6). constructor.
  - intros X. contradiction.
  - apply (wt_not_unk r t W).
  - apply (wt_lits r). repeat constructor. exact W.
  - intros X. pose proof (wt_class r t W N X) as ->. split; [|now apply VB]. exact (wt_sort CB t W N).
  - intros X. destruct (K1 X) as (q & Eq & Wq).
    exists q. split; [exact Eq|]. pose proof (wt_sort CB q Wq ltac:(discriminate)) as Sq. cbn in Sq. unfold isBoolParam, sis. now rewrite Sq.
  - intros X. congruence.
  - intros X. destruct (K2 X) as (q & a & b & Nq & Ech & Wa & Wb). exists a, b. split; [exact Ech|]. split; [now apply (wt_comparable c q)|].
    split; now apply (wt_not_array q).
  - intros X. destruct (K3 X) as (a & b & Ech & Wa & Wb). exists a, b. split; [exact Ech|]. apply (wt_comparable c CR); [discriminate|exact Wa|exact Wb].
  - intros X. congruence.
  - intros X. destruct (K6 X) as (w & a & b & Ech & Wa & Wb). exists a, b, w. split; [exact Ech|].
    assert (SB : forall u, wt (CV w) u -> sis SK_BV u = true) by (intros u Wu; pose proof (wt_sort _ u Wu ltac:(discriminate)) as Su; cbn in Su; unfold sis; now rewrite Su).
    split; [now apply SB|]. split; [now apply SB|]. split; now apply wt_bvv.
Qed.
Lemma tree_new c k s n ch : node_ok c (T k s n ch) -> (forall x, In x ch -> tree_ok c x) -> tree_ok c (T k s n ch).
Proof. intros A B p H. inversion H as [|? x ? Hx Hs]; subst; [exact A|]. now apply (B x). Qed.

Lemma plain_new f k s n ch : plain_node f (T k s n ch) -> (forall x, In x ch -> plain f x) -> plain f (T k s n ch).
Proof. intros A B p H. inversion H as [|? x ? Hx Hs]; subst; [exact A|]. now apply (B x). Qed.
Lemma tok_new c k s n ch : node_ok c (T k s n ch) -> plain_node fl (T k s n ch) -> (forall x, In x ch -> tok c x) -> tok c (T k s n ch).
Proof. intros A B C. split; [apply tree_new|apply plain_new]; auto; intros x Hx; now apply C. Qed.
Lemma tok_ch c t x : tok c t -> In x (t_ch t) -> tok c x.
Proof.
  intros [A B] H. split; [now apply (tree_ch c t)|]. intros p Hp. apply B. destruct t as [k s n ch]. now apply (Sub_ch p x).
Qed.
(** the kinds other than negation and equality, implication and those left out of the clausal language *)
Definition plaink (k : kind) : bool := negb (kin k (eq_kinds ++ distinct_kinds)).
Definition newk (k : kind) : bool := plaink k && negb (is_leaf_var k || kin k [NT_IMPLIES; NT_LET_BIND_VAR_LIST]) && (negb (l_clausal fl) || negb (kin k not_clausal)).
Lemma newk_plain k : plaink k = true -> is_leaf_var k = false -> kin k (NT_IMPLIES :: not_clausal) = false -> newk k = true.
Proof.
  intros A A' B. unfold newk. rewrite A, A'. unfold kin in *. cbn [existsb not_clausal] in *. rewrite !orb_false_iff in B. destruct B as (B2 & B3 & B4 & B5 & B6 & B7 & B8 & _).
  rewrite B2, B3, B4, B5, B6, B7, B8. cbn. apply orb_true_r.
Qed.
Lemma plaink_eq k s n ch : plaink k = true -> isEq (T k s n ch) = false /\ isDistinct (T k s n ch) = false.
Proof.
  intros HK. unfold plaink in HK. apply negb_true_iff in HK. unfold kin in HK. rewrite !existsb_app in HK. apply orb_false_iff in HK. exact HK.
Qed.
Lemma gd_new0 c r k s n ch : plaink k = true -> r <> CL -> wt r (T k s n ch) -> plain_node fl (T k s n ch) -> (forall x, In x ch -> tok c x) -> gd c r (T k s n ch).
Proof.
  intros HK N W P H. split; [exact N|]. split; [exact W|]. apply tok_new; [|exact P|exact H]. apply (node_wt c r); [exact W|exact N|].
  intros X. exfalso. destruct (plaink_eq k s n ch HK). destruct X; congruence.
Qed.
Lemma plain_mk k s n ch : plaink k = true -> is_leaf_var k = false -> k <> NT_IMPLIES -> k <> NT_LET_BIND_VAR_LIST -> (l_clausal fl = true -> kin k not_clausal = false) -> plain_node fl (T k s n ch).
Proof.
  intros HK HV HI HB HC. unfold plain_node. cbn [t_kind t_ch t_sort]. split; [congruence|]. split; [congruence|]. split; [congruence|]. intros E. split; [now apply HC|].
  intros X. destruct (plaink_eq k s n ch HK) as [A B]. rewrite A, B in X. discriminate X.
Qed.
Lemma gd_new c r k s n ch : newk k = true -> r <> CL -> wt r (T k s n ch) -> (forall x, In x ch -> tok c x) -> gd c r (T k s n ch).
Proof.
  intros HK N W H. unfold newk in HK. rewrite !andb_true_iff, orb_true_iff, !negb_true_iff, orb_false_iff in HK. destruct HK as ((HK & HT & HI) & HC).
  apply gd_new0; [exact HK|exact N|exact W| |exact H]. apply plain_mk; [exact HK|exact HT|intros ->; discriminate HI|intros ->; discriminate HI|].
  intros E. destruct HC as [HC|HC]; [congruence|exact HC].
Qed.
Lemma gd_TRUE c : gd c CB TRUE.
Proof. apply gd_new; [now apply newk_plain|discriminate|exact W_true|contradiction]. Qed.
Lemma gd_FALSE c : gd c CB FALSE.
Proof. apply gd_new; [now apply newk_plain|discriminate|exact W_false|contradiction]. Qed.
Lemma gd_int c r z : r = CI \/ r = CR -> gd c r (mkConstInt z).
Proof.
  intros Hr. assert (G : gd c CI (mkConstInt z)).
  { apply gd_new; [now apply newk_plain|discriminate|apply W_int; auto|contradiction]. }
  destruct Hr as [ -> | -> ]; [exact G|now apply gd_sub].
Qed.
Lemma gd_neg c r s n a : r = CI \/ r = CR -> rsort r s -> gd c r a -> gd c r (T NT_NEG s n [a]).
Proof.
  intros Hr Hs (N & W & H). apply gd_new; [now apply newk_plain|exact N| |intros x [ <- | [] ]; exact H].
  apply (W_app NT_NEG s n r [r]); [now constructor|exact Hs|f2].
Qed.
(** no equality of Booleans in the clausal language *)
Definition nb (r : cl) : Prop := l_clausal fl = true -> r <> CB.
Lemma gd_eq c r k n a b : In k [NT_EQ; NT_DISTINCT] -> nb r -> gd c r a -> gd c r b -> gd c CB (T k boolS n [a; b]).
Proof.
  intros Hk Hr (N & Wa & Ta) (_ & Wb & Tb). split; [discriminate|].
  assert (W : wt CB (T k boolS n [a; b])).
  { apply (W_app k boolS n CB (repeat r 2)); [now constructor|reflexivity|cbn [repeat]; f2]. }
  split; [exact W|]. apply tok_new; [| |intros x [ <- | [ <- | [] ]]; assumption].
  - apply (node_wt c CB); [exact W|discriminate|intros _; reflexivity].
  - split; [destruct Hk as [ <- | [ <- | [] ]]; discriminate|]. split; [destruct Hk as [ <- | [ <- | [] ]]; discriminate|]. split; [destruct Hk as [ <- | [ <- | [] ]]; discriminate|]. intros E.
    split; [destruct Hk as [ <- | [ <- | [] ]]; reflexivity|]. intros _ x Hx.
    assert (Wx : wt r x) by (destruct Hx as [ <- | [ <- | [] ]]; assumption).
    destruct (isBoolParam x) eqn:B; [|reflexivity]. exfalso. now apply (Hr E), (wt_class r x).
Qed.
Lemma gd_not c n a : gd c CB a -> gd c CB (T NT_NOT boolS n [a]).
Proof.
  intros (N & Wa & Ta). apply gd_new; [now apply newk_plain|discriminate| |intros x [ <- | [] ]; exact Ta].
  apply (W_app NT_NOT boolS n CB [CB]); [constructor|reflexivity|cbn [repeat]; f2].
Qed.
Lemma gd_ch c r t x : tok c t -> In x (t_ch t) -> r <> CL -> wt r x -> gd c r x.
Proof. intros T H N W. split; [exact N|]. split; [exact W|]. now apply (tok_ch c t). Qed.

(** children of a negation, an equality, a comparison *)
Lemma wt_inv_CB k s n ch : wt CB (T k s n ch) -> kin k ([NT_NOT] ++ eq_kinds ++ distinct_kinds ++ arith_comp_kinds ++ bv_comp_kinds) = true ->
  exists rs, sig k CB rs /\ Forall2 wt rs ch.
Proof.
  intros W HK. inversion W; subst; try discriminate HK; [destruct k; discriminate|]. eauto.
Qed.
Lemma not_child c p q : gd c CB p -> isNot p = true -> t_ch p = [q] -> gd c CB q.
Proof.
  intros (_ & W & T) N E. destruct p as [k s n ch]. cbn [t_ch] in E. subst ch. apply keq_spec in N. cbn in N. subst k.
  destruct (wt_inv_CB _ _ _ _ W eq_refl) as (rs & A & F). apply (gd_ch c CB (TermModel.T NT_NOT s n [q])); [exact T|now left|discriminate|].
  inversion A; subst; try (match goal with H : In NT_NOT _ |- _ => cbn in H; repeat (destruct H as [H|H]; [discriminate H|]); contradiction end).
  now inversion F.
Qed.
Lemma eq_children c p a b : gd c CB p -> isEq p = true \/ isDistinct p = true -> t_ch p = [a; b] -> exists r, gd c r a /\ gd c r b /\ nb r.
Proof.
  intros (_ & W & T) N E. destruct p as [k s n ch]. cbn [t_ch] in E. subst ch.
  destruct (wt_inv_CB _ _ _ _ W) as (rs & A & F).
  { unfold isEq, isDistinct in N. cbn [t_kind] in N. unfold kin in *. rewrite !existsb_app. destruct N as [ -> | -> ]; rewrite ?orb_true_r; reflexivity. }
  destruct (eqk_app _ _ _ _ _ _ A N) as (q & m & -> & Hq). destruct (F2_two _ q m _ F eq_refl) as (a' & b' & E & Wa & Wb). injection E as <- <-.
  exists q. split; [|split]; [eapply gd_ch; [exact T|cbn; tauto|exact Hq|assumption]|eapply gd_ch; [exact T|cbn; tauto|exact Hq|assumption]|].
  intros E. destruct T as [_ P]. destruct (P _ (Sub_refl _)) as (_ & _ & _ & PC). destruct (PC E) as [_ PE]. intros ->.
  assert (X : isBoolParam a = false) by (apply PE; [apply orb_true_iff; exact N|now left]). pose proof (wt_sort CB a Wa ltac:(discriminate)) as S. cbn in S. unfold isBoolParam, sis in X. now rewrite S in X.
Qed.
Lemma cmp_children c p a b : gd c CB p -> kin (t_kind p) arith_comp_kinds = true -> t_ch p = [a; b] -> gd c CR a /\ gd c CR b.
Proof.
  intros (_ & W & T) N E. destruct p as [k s n ch]. cbn [t_ch] in E. subst ch. cbn [t_kind] in N.
  destruct (wt_inv_CB _ _ _ _ W) as (rs & A & F).
  { unfold kin in *. rewrite !existsb_app, N, !orb_true_r. reflexivity. }
  assert (Z : rs = [CR; CR]).
  { inversion A; subst; try reflexivity; try discriminate N;
      (match goal with H : In k _ |- _ => cbn in H; repeat (destruct H as [ <- | H ]; [discriminate N|]); contradiction end). }
  subst rs. inversion F as [|? ? ? ? Wa F1]; subst. inversion F1 as [|? ? ? ? Wb F2]; subst.
  split; (eapply gd_ch; [exact T|cbn; tauto|discriminate|assumption]).
Qed.
Lemma bv_children c p a b : gd c CB p -> kin (t_kind p) bv_comp_kinds = true -> t_ch p = [a; b] -> exists w, gd c (CV w) a /\ gd c (CV w) b.
Proof.
  intros (_ & W & T) N E. destruct p as [k s n ch]. cbn [t_ch] in E. subst ch. cbn [t_kind] in N.
  destruct (wt_inv_CB _ _ _ _ W) as (rs & A & F).
  { unfold kin in *. rewrite !existsb_app, N, !orb_true_r. reflexivity. }
  assert (Z : exists w, rs = [CV w; CV w]).
  { inversion A; subst; try (eexists; reflexivity); try discriminate N;
      (match goal with H : In k _ |- _ => cbn in H; repeat (destruct H as [ <- | H ]; [discriminate N|]); contradiction end). }
  destruct Z as [w ->]. exists w. inversion F as [|? ? ? ? Wa F1]; subst. inversion F1 as [|? ? ? ? Wb F2]; subst.
  split; (eapply gd_ch; [exact T|cbn; tauto|discriminate|assumption]).
Qed.

(** ** constructors: the result is well-sorted and well-formed *)
Lemma mkOper2_gd c k r a b t : In k ([NT_EQ; NT_DISTINCT] ++ arith_comp_kinds) ->
  (kin k arith_comp_kinds = true -> r = CR) -> nb r -> cfg_ok c -> gd c r a -> gd c r b -> mkOper c boolS k [a; b] = Ok t -> gd c CB t.
Proof.
  intros Hk Hr Hnb Hc Ga Gb E.
  assert (B1 : In k boolk) by (cbn [In app arith_comp_kinds] in Hk; cbn; tauto).
  destruct (mkOper_shape c boolS k [a; b] t (le_n 2) B1 (or_introl eq_refl) E) as [ -> | [ -> | -> ]]; [apply gd_TRUE|apply gd_FALSE|].
  unfold mkInternal. apply in_app_or in Hk. destruct Hk as [Hk|Hk].
  - assert (X : isCommutative k = true) by (repeat (destruct Hk as [ <- | Hk ]); try contradiction; reflexivity). rewrite X.
    pose proof (ok_sort c Hc [a; b]) as P. apply Permutation_sym, Permutation_length_2_inv in P.
    destruct P as [ -> | -> ]; now apply (gd_eq c r).
  - assert (X : isCommutative k = false) by (repeat (destruct Hk as [ <- | Hk ]); try contradiction; reflexivity). rewrite X.
    assert (KK : kin k arith_comp_kinds = true) by (repeat (destruct Hk as [ <- | Hk ]); try contradiction; reflexivity).
    rewrite (Hr KK) in *. destruct Ga as (_ & Wa & Ta), Gb as (_ & Wb & Tb). apply gd_new.
    + repeat (destruct Hk as [ <- | Hk ]); try contradiction; now apply newk_plain.
    + discriminate.
    + apply (W_app k boolS _ CB [CR; CR]); [now apply S_cmp|reflexivity|cbn [repeat]; f2].
    + intros x [ <- | [ <- | [] ]]; assumption.
Qed.
Lemma mkCmp_gd c k a b t : In k arith_comp_kinds -> cfg_ok c -> gd c CR a -> gd c CR b -> mkCmp c k a b = Ok t -> gd c CB t.
Proof.
  intros Hk Hc Ga Gb E. unfold mkCmp in E.
  assert (M : mkOper c boolS k [a; b] = Ok t -> gd c CB t).
  { intros Y. apply (mkOper2_gd c k CR a b t); auto; [apply in_or_app; now right|discriminate]. }
  destruct (sort_eq (t_sort a) (t_sort b)) as [[|]| | | | |]; cbn [bind] in E; try discriminate E.
  - destruct (teq a b); [|now apply M]. injection E as <-. destruct (refl_val k); [apply gd_TRUE|apply gd_FALSE].
  - destruct (canExempt _ _); [now apply M|discriminate E].
Qed.
Lemma mkBvCmp_gd c k w a b t : In k bv_comp_kinds -> cfg_ok c -> gd c (CV w) a -> gd c (CV w) b -> mkBvCmp c k a b = Ok t -> gd c CB t.
Proof.
  intros Hk Hc Ga Gb E. unfold mkBvCmp in E.
  assert (M : mkOper c boolS k [a; b] = Ok t -> gd c CB t).
  { intros Y. assert (B1 : In k boolk) by (repeat (destruct Hk as [ <- | Hk ]); try contradiction; cbn; tauto).
    destruct (mkOper_shape c boolS k [a; b] t (le_n 2) B1 (or_introl eq_refl) Y) as [ -> | [ -> | -> ]]; [apply gd_TRUE|apply gd_FALSE|].
    assert (X : isCommutative k = false) by (repeat (destruct Hk as [ <- | Hk ]); try contradiction; reflexivity). unfold mkInternal. rewrite X.
    destruct Ga as (_ & Wa & Ta), Gb as (_ & Wb & Tb). apply gd_new.
    - repeat (destruct Hk as [ <- | Hk ]); try contradiction; now apply newk_plain.
    - discriminate.
    - apply (W_app k boolS _ CB [CV w; CV w]); [now apply S_bvcmp|reflexivity|cbn [repeat]; f2].
    - intros x [ <- | [ <- | [] ]]; assumption. }
  destruct (negb (sis SK_BV a) || negb (sis SK_BV b)); [discriminate E|].
  destruct (negb (keq k NT_BV_ULT) && isCBV a && isCBV b).
  - destruct (bvComp _ _ _ _) as [x| | | | |]; cbn [bind] in E; try discriminate E. injection E as <-. destruct x; [apply gd_TRUE|apply gd_FALSE].
  - destruct (teq a b); [|now apply M]. injection E as <-. destruct (refl_val k); [apply gd_TRUE|apply gd_FALSE].
Qed.
Lemma mkDistinctV_gd c r a b t : cfg_ok c -> nb r -> gd c r a -> gd c r b -> mkDistinctV c [a; b] = Ok t -> gd c CB t.
Proof.
  intros Hc Hnb Ga Gb H. unfold mkDistinctV in H. cbn [length Nat.ltb Nat.leb] in H.
  pose proof Ga as (Nr & Wa & Ta & _). pose proof Gb as (_ & Wb & Tb & _). destruct (wt_comparable c r a b Nr Wa Wb) as [Cm _].
  destruct (check2 c a b (tree_node c a Ta) (tree_node c b Tb) Cm) as (s & Es & C1 & C2).
  rewrite Es in H. cbn [bind first_err] in H. rewrite (n_err c a (tree_node c a Ta)), C1 in H. cbn [bind] in H.
  rewrite (n_err c b (tree_node c b Tb)), C2 in H. cbn [bind eq_params] in H. rewrite C1 in H. cbn [bind eq_params] in H.
  rewrite C2 in H. cbn [bind] in H.
  assert (BF : forall u, gd c r u -> isFalse u = true -> r = CB).
  { intros u (_ & W & _) F. apply (wt_class r u W Nr). unfold isFalse in F. apply andb_true_iff in F. apply F. }
  destruct (isFalse a) eqn:Fa, (isFalse b) eqn:Fb.
  - injection H as <-. apply gd_FALSE.
  - injection H as <-. pose proof (BF a Ga Fa). now subst r.
  - injection H as <-. pose proof (BF b Gb Fb). now subst r.
  - cbn [length Nat.ltb Nat.leb] in H. apply (mkOper2_gd c NT_DISTINCT r a b t); auto; [cbn; tauto|discriminate].
Qed.
Theorem not_eq_gd c : cfg_ok c -> forall f,
  (forall p t, gd c CB p -> mkNotF f c p = Ok t -> gd c CB t) /\
  (forall p t, gd c CB p -> cmpk p -> negF f c p = Ok t -> gd c CB t) /\
  (forall r a b t, nb r -> gd c r a -> gd c r b -> mkEqF f c a b = Ok t -> gd c CB t).
Proof.
  intros Hc. induction f as [|f (IN & IG & IE)]; [repeat split; intros; discriminate|]. split; [|split].
  - intros p t G H. pose proof (gd_node c CB p G) as HN. cbn [mkNotF] in H. rewrite (gd_bool c p G) in H. cbn [negb] in H.
    destruct (isNot p) eqn:N.
    { destruct (n_not c p HN N) as (q & Ech & Bq). unfold child0 in H. rewrite Ech in H. cbn [length Nat.eqb] in H.
      assert (t = q) as ->. { unfold condAssert in H. destruct (c_dbg c); cbn in H; congruence. }
      now apply (not_child c p). }
    destruct (isTrue p); [injection H as <-; apply gd_FALSE|]. destruct (isFalse p); [injection H as <-; apply gd_TRUE|].
    destruct (isArithComp_ok c p HN) as (b & Eb & Hb). rewrite Eb in H. cbn [bind] in H.
    destruct (isBVComp p) eqn:BC. { apply isk_kind in BC. pose proof (n_bvcomp c p HN BC). pose proof (gd_bool c p G). congruence. }
    rewrite orb_false_r in H. destruct (b || isStrComp p) eqn:CC.
    + apply (IG p t G); [|exact H]. apply orb_true_iff in CC. destruct CC as [ -> | CC ]; [|now apply isStrComp_cmpk].
      destruct (Hb eq_refl) as [X|[X|X]]; [now left|now right; left|right; right]. unfold kin in *. rewrite !existsb_app, X. reflexivity.
    + apply mkOper_not_shape in H. destruct H as [ -> | [ -> | -> ]]; [apply gd_TRUE|apply gd_FALSE|]. now apply gd_not.
  - intros p t G HK H. pose proof (gd_node c CB p G) as HN. cbn [negF] in H. rewrite (n_err c p HN) in H.
    destruct (isEq p) eqn:Eq.
    { destruct (n_eq c p HN (or_introl Eq)) as (l & r & Ech & _). rewrite Ech in H.
      destruct (eq_children c p l r G (or_introl Eq) Ech) as (q & Gl & Gr & Hnb). now apply (mkDistinctV_gd c q l r t). }
    destruct (isDistinct p) eqn:D.
    { destruct (n_eq c p HN (or_intror D)) as (l & r & Ech & Cm & _ & _). rewrite Ech in H.
      destruct (eq_children c p l r G (or_intror D) Ech) as (q & Gl & Gr & Hnb).
      unfold mkEqV_ in H. cbn [length Nat.ltb Nat.leb] in H.
      destruct (check2 c l r (gd_node c q l Gl) (gd_node c q r Gr) (proj1 Cm)) as (s & Es & _). rewrite Es in H. cbn [bind] in H.
      now apply (IE q l r t). }
    destruct HK as [HK|[HK|HK]]; [congruence|congruence|].
    destruct (kin (t_kind p) arith_comp_kinds) eqn:AC.
    + destruct (n_cmp c p HN AC) as (l & r & Ech & _). destruct (cmp_children c p l r G AC Ech) as [Gl Gr].
      cbv zeta in H. unfold child01 in H. rewrite Ech in H.
      destruct (t_kind p); try discriminate AC; cbn [bind fst snd] in H; (apply mkCmp_gd in H; auto; cbn; tauto).
    + unfold kin in HK. rewrite !existsb_app in HK. unfold kin in AC. rewrite AC in HK. cbn [orb] in HK. apply orb_true_iff in HK. destruct HK as [HK|HK].
      * destruct (n_bv c p HN HK) as (l & r & w0 & Ech & _). destruct (bv_children c p l r G HK Ech) as (w & Gl & Gr).
        cbv zeta in H. unfold child01 in H. rewrite Ech in H.
        destruct (t_kind p); try discriminate HK; cbn [bind fst snd] in H; (apply (mkBvCmp_gd c _ w) in H; auto; cbn; tauto).
      * exfalso. destruct G as (_ & W & _). clear -W HK. inversion W; subst; cbn [t_kind] in HK; try discriminate HK.
        -- destruct k; discriminate.
        -- match goal with H : sig _ _ _ |- _ => inversion H; subst end; try discriminate HK;
             (match goal with H : In k _ |- _ => cbn in H; repeat (destruct H as [ <- | H ]; [discriminate HK|]); contradiction end).
  - intros q l r t Hnb Gl Gr H. pose proof Gl as (Nq & Wl & Tl). pose proof Gr as (_ & Wr & Tr).
    destruct (wt_comparable c q l r Nq Wl Wr) as [Hs _].
    assert (BT : forall u, gd c q u -> isTrue u = true \/ isFalse u = true -> q = CB).
    { intros u (_ & W & _) F. apply (wt_class q u W Nq). unfold isTrue, isFalse in F. destruct F as [F|F]; apply andb_true_iff in F; apply F. }
    cbn [mkEqF] in H. rewrite Hs in H. cbn [bind negb] in H.
    destruct (isTrue l && isTrue r); [injection H as <-; apply gd_TRUE|].
    destruct (isFalse l && isFalse r); [injection H as <-; apply gd_TRUE|].
    destruct (isTrue l && isFalse r); [injection H as <-; apply gd_FALSE|].
    destruct (isFalse l && isTrue r); [injection H as <-; apply gd_FALSE|].
    destruct (isTrue l) eqn:B1; [injection H as <-; pose proof (BT l Gl (or_introl B1)); now subst q|].
    destruct (isFalse l) eqn:B2; [pose proof (BT l Gl (or_intror B2)); subst q; now apply (IN r t)|].
    destruct (isTrue r) eqn:B3; [injection H as <-; pose proof (BT r Gr (or_introl B3)); now subst q|].
    destruct (isFalse r) eqn:B4; [pose proof (BT r Gr (or_intror B4)); subst q; now apply (IN l t)|].
    destruct (isNot l && isNot r) eqn:NN.
    + apply andb_true_iff in NN. destruct NN as [N1 N2].
      destruct (n_not c l (gd_node c q l Gl) N1) as (a & Ea & Ba). destruct (n_not c r (gd_node c q r Gr) N2) as (b & Eb & Bb).
      assert (q = CB) as ->.
      { apply (wt_class q l Wl Nq). destruct l as [k s n ch]. cbn [t_ch] in Ea. subst ch. apply keq_spec in N1. cbn in N1. subst k.
        pose proof (wt_sort q _ Wl Nq) as S. clear -Wl Nq. remember (T NT_NOT s n [a]) as u eqn:Eu. revert Nq Eu.
        induction Wl as [k s' n' r A B| | |s' z A|k s' n' r rs ch A B F _|s' n' r rs ch A B D F _|t W IH|w v A B] using wt_ind'; intros Nq Eu; try discriminate Eu.
        - injection Eu as -> -> -> ->. assert (r = CB) as ->; [|cbn in B; subst; reflexivity].
          inversion A; subst; try reflexivity; try (match goal with H : In NT_NOT _ |- _ => cbn in H; repeat (destruct H as [H|H]; [discriminate H|]); contradiction end).
        - apply IH; [discriminate|exact Eu]. }
      unfold child0 in H. rewrite Ea, Eb in H. cbn [length Nat.eqb] in H.
      assert (CA : condAssert (c_dbg c) true = Ok tt) by (unfold condAssert; destruct (c_dbg c); reflexivity).
      rewrite ?CA in H. cbn [bind] in H. apply (IE CB a b t); [exact Hnb|now apply (not_child c l)|now apply (not_child c r)|exact H].
    + apply (mkOper2_gd c NT_EQ q l r t); auto; [cbn; tauto|discriminate].
Qed.
End F.
