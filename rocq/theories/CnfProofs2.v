(** Conjunctive normal form, part 2: the Tseitin encoding. *)
From Coq Require Import QArith Qcanon Permutation ZifyBool ZifyNat.
From Verif Require Import Base KindModel SortModel TermModel BVModel BVSpec UtilModel UtilSpec DagProofs SortProofs
  Sem SemProofs ArrayModel SimpModel OpModel OpSpec OpProofs OpProofs2 OpProofs3 OpProofs4 OpProofs5 OpProofs6 OpProofs7
  ShapeProofs ConvModel ConvSpec ConvProofs WalkProofs GoodProofs SplitProofs CnfModel CnfSpec CnfProofs CnfAtoms.
Open Scope Z_scope.

(** ** propositional formulas *)
Lemma node_kinds k n : node_arity k n = true -> k = NT_AND \/ k = NT_OR \/ k = NT_XOR \/ k = NT_EQ \/ k = NT_DISTINCT \/ k = NT_ITE.
Proof. destruct k; intros H; try discriminate H; tauto. Qed.
(** What the encoding is applied to: literals, negated literals and nodes.  [K]: the atoms
    that have a variable.  [true]: the form of NNF, ite does not occur above xor. *)
Definition bl (c : cfg) (K : term -> Prop) (t : term) : Prop := slit t \/ (tatom c t /\ K t).
Inductive pfi (c : cfg) (K : term -> Prop) : bool -> term -> Prop :=
| PI_slit b t : slit t -> pfi c K b t
| PI_atom b t : tatom c t -> K t -> pfi c K b t
| PI_not b n t : bl c K t -> pfi c K b (T NT_NOT boolS n [t])
| PI_node b k n ch : node_arity k (length ch) = true -> (b = true -> k <> NT_ITE) ->
    (forall x, In x ch -> pfi c K (b && kin k [NT_AND; NT_OR]) x) -> pfi c K b (T k boolS n ch).
Lemma pfi_weak c K b t : pfi c K b t -> pfi c K false t.
Proof.
  revert b. induction t as [k s n ch IH] using term_ind'. rewrite Forall_forall in IH. intros b H.
  inversion H as [b' t' S|b' t' A B|b' n' t' D|b' k' n' ch' A N C]; subst; [now apply PI_slit|now apply PI_atom|now apply PI_not|].
  apply PI_node; [exact A|discriminate|]. intros x Hx. cbn [andb]. exact (IH x Hx _ (C x Hx)).
Qed.
Lemma bl_good c K t : bl c K t -> goodB t.
Proof. intros [H|[H _]]; [now apply slit_good|now apply (tatom_good c)]. Qed.
Lemma bl_boolean c K t : bl c K t -> boolean t.
Proof. intros [H|[H _]]; [now apply slit_boolean|now apply (tatom_boolean c)]. Qed.
Lemma pfi_good c K b t : pfi c K b t -> goodB t.
Proof.
  intros [b' t' S|b' t' A B|b' n' t' D|b' k' n' ch' A N C]; [now apply slit_good|now apply (tatom_good c)|apply goodB_node; try reflexivity; discriminate|].
  apply node_kinds in A. destruct A as [ -> | [ -> | [ -> | [ -> | [ -> | -> ]]]]]; apply goodB_node; try reflexivity; discriminate.
Qed.
Lemma pfi_sort c K b t : pfi c K b t -> t_sort t = boolS.
Proof. intros [b' t' [ | |t'' [k n H]|n t'' H]|b' t' A B|b' n' t' D|b' k' n' ch' A N C]; try reflexivity. now apply (tatom_sort c). Qed.
Lemma pfi_boolean c K t : forall b, pfi c K b t -> boolean t.
Proof.
  induction t as [k s n ch IH] using term_ind'. rewrite Forall_forall in IH. intros b0 H I e.
  inversion H as [b' t' S|b' t' A B|b' n' t' D|b' k' n' ch' A N C]; subst.
  - now apply slit_boolean.
  - now apply (tatom_boolean c).
  - apply boolean_not. now apply (bl_boolean c K).
  - pose proof (node_kinds _ _ A) as KK. destruct KK as [ -> | [ -> | [ -> | [ -> | [ -> | -> ]]]]]; cbn [node_arity] in A.
    + destruct ch as [|a l]; try discriminate A. eexists. apply eval_op; [discriminate|reflexivity|reflexivity].
    + destruct ch as [|a l]; try discriminate A. eexists. apply eval_op; [discriminate|reflexivity|reflexivity].
    + destruct ch as [|a [|b l]]; try discriminate A. eexists. apply eval_op; [discriminate|reflexivity|reflexivity].
    + destruct ch as [|a [|b [|d l]]]; try discriminate A.
      exists (veqb (eval I e a) (eval I e b)). apply eval2; [reflexivity|]. apply (cmpop2 veqb).
    + destruct ch as [|a [|b [|d l]]]; try discriminate A.
      exists (negb (veqb (eval I e a) (eval I e b))). apply eval2; [reflexivity|]. cbn. now rewrite !andb_true_r.
    + destruct ch as [|a [|b [|d [|? ?]]]]; try discriminate A.
      destruct (IH b) with (b := b0 && kin NT_ITE [NT_AND; NT_OR]) (I := I) (e := e) as (vb & Eb); [cbn; tauto|apply C; cbn; tauto|].
      destruct (IH d) with (b := b0 && kin NT_ITE [NT_AND; NT_OR]) (I := I) (e := e) as (vd & Ed); [cbn; tauto|apply C; cbn; tauto|].
      exists (if truth (eval I e a) then vb else vd). apply eval_op; [discriminate|reflexivity|]. cbn [map op_sem]. rewrite Eb, Ed.
      now destruct (truth (eval I e a)).
Qed.
Lemma holds_veqb I e a b : boolean a -> boolean b -> veqb (eval I e a) (eval I e b) = Bool.eqb (holds I e a) (holds I e b).
Proof. intros A B. unfold holds. destruct (A I e) as (x & ->), (B I e) as (y & ->). cbn. now destruct x, y. Qed.
(** the truth of a node in terms of its children *)
Definition psem (k : kind) (bs : list bool) : bool :=
  match k, bs with
  | NT_AND, _ => forallb (fun b => b) bs
  | NT_OR, _ => existsb (fun b => b) bs
  | NT_XOR, _ => xors bs
  | NT_EQ, [a; b] => Bool.eqb a b
  | NT_DISTINCT, [a; b] => negb (Bool.eqb a b)
  | NT_ITE, [a; b; d] => if a then b else d
  | _, _ => false
  end.
Lemma psem_holds k n ch I e : node_arity k (length ch) = true -> (forall x, In x ch -> boolean x) ->
  holds I e (T k boolS n ch) = psem k (map (holds I e) ch).
Proof.
  intros A C. pose proof (node_kinds _ _ A) as K. destruct K as [ -> | [ -> | [ -> | [ -> | [ -> | -> ]]]]]; cbn [node_arity] in A.
  - now rewrite (skel_holds NT_AND boolS n ch I e A).
  - now rewrite (skel_holds NT_OR boolS n ch I e A).
  - now rewrite (skel_holds NT_XOR boolS n ch I e A).
  - destruct ch as [|a [|b [|d l]]]; try discriminate A. rewrite (holds_eq _ a b); [|reflexivity|reflexivity].
    cbn [map psem]. apply holds_veqb; apply C; cbn; tauto.
  - destruct ch as [|a [|b [|d l]]]; try discriminate A. rewrite (holds_dis _ a b); [|reflexivity|reflexivity].
    cbn [map psem]. f_equal. apply holds_veqb; apply C; cbn; tauto.
  - rewrite (skel_holds NT_ITE boolS n ch I e A). destruct ch as [|a [|b [|d [|? ?]]]]; try discriminate A. reflexivity.
Qed.
Lemma slit_not_term t : slit t -> isArithTerm t = false /\ isBVTerm t = false /\ isFPTerm t = false /\ isV SK_STR t = false /\ isCStr t = false /\ isStrOp t = false.
Proof.
  intros [ | |t' [k n H]|n t' H]; try (repeat split; reflexivity).
  destruct (var_kinds5 k H) as [ -> | [ -> | [ -> | [ -> | -> ]]]]; repeat split; reflexivity.
Qed.
Lemma pfi_not_term c K b t : pfi c K b t -> isArithTerm t = false /\ isBVTerm t = false /\ isFPTerm t = false /\ isV SK_STR t = false /\ isCStr t = false /\ isStrOp t = false.
Proof.
  intros [b' t' S|b' t' A B|b' n' t' D|b' k' n' ch' A N C]; [now apply slit_not_term|now apply (tatom_not_term c)|repeat split; reflexivity|].
  apply node_kinds in A. destruct A as [ -> | [ -> | [ -> | [ -> | [ -> | -> ]]]]]; repeat split; reflexivity.
Qed.
Lemma node_not_atom c K b k n ch : node_arity k (length ch) = true -> (forall x, In x ch -> pfi c K b x) -> isAtom (T k boolS n ch) = Ok false.
Proof.
  intros A C.
  pose proof (node_kinds _ _ A) as KK. destruct KK as [ -> | [ -> | [ -> | [ -> | [ -> | -> ]]]]]; try reflexivity;
    (destruct ch as [|a [|b' [|d l]]]; try discriminate A; pose proof (pfi_not_term c K b a (C a (or_introl eq_refl))) as X;
     destruct X as (X1 & X2 & X3 & X4 & X5 & X6);
     unfold isAtom, isArithAtom, isArithComp, isBVCompOp, isFPComp, isStrComp, isStrEq;
     cbn -[isArithTerm isBVTerm isFPTerm isV isCStr isStrOp]; rewrite ?X1, ?X2, ?X3, ?X4, ?X5, ?X6; reflexivity).
Qed.
Section Run.
(** what is known of the environment: the variables of the atoms have the atoms' values *)
Variable R : interp -> env -> Prop.
(** ** the invariant of a run *)
Record Inv (S : ts) : Prop := {
  i_memo : forall t u, In (t, u) (ts_v S) -> slit u /\ below (ts_n S) u /\ forall I e, sat (ts_c S) I e -> R I e -> holds I e u = holds I e t;
  i_cl : forall x, In x (ts_c S) -> clause x /\ goodB x /\ below (ts_n S) x }.
Record ext (S S' : ts) : Prop := {
  e_n : (ts_n S <= ts_n S')%nat;
  e_c : exists os, ts_c S' = ts_c S ++ os;
  e_m : forall I e, sat (ts_c S) I e -> exists e', agree (ts_n S) e e' /\ sat (ts_c S') I e' }.
Lemma ext_refl S : ext S S.
Proof. constructor; [lia|exists []; now rewrite app_nil_r|]. intros I e H. exists e. split; [apply agree_refl|exact H]. Qed.
Lemma ext_trans S1 S2 S3 : ext S1 S2 -> ext S2 S3 -> ext S1 S3.
Proof.
  intros A B. constructor.
  - pose proof (e_n _ _ A). pose proof (e_n _ _ B). lia.
  - destruct (e_c _ _ A) as (x & Ex), (e_c _ _ B) as (y & Ey). exists (x ++ y). now rewrite Ey, Ex, app_assoc.
  - intros I e H. destruct (e_m _ _ A I e H) as (e1 & A1 & H1). destruct (e_m _ _ B I e1 H1) as (e2 & A2 & H2).
    exists e2. split; [|exact H2]. apply (agree_trans _ e e1 e2 A1). apply (agree_mono (ts_n S1) (ts_n S2)); [apply A|exact A2].
Qed.
Lemma ext_sat S S' I e : ext S S' -> sat (ts_c S') I e -> sat (ts_c S) I e.
Proof. intros A H x Hx. apply H. destruct (e_c _ _ A) as (os & ->). apply in_or_app. now left. Qed.
Lemma sat_agree n cl I e e' : (forall x, In x cl -> below n x) -> agree n e e' -> sat cl I e -> sat cl I e'.
Proof. intros B A H x Hx. rewrite <- (holds_agree I n x e e' (B x Hx) A). now apply H. Qed.
Lemma sat_app cl os I e : sat (cl ++ os) I e <-> sat cl I e /\ sat os I e.
Proof.
  unfold sat. split.
  - intros H. split; intros x Hx; apply H, in_or_app; auto.
  - intros [A B] x Hx. apply in_app_or in Hx. destruct Hx; auto.
Qed.
Lemma sat_forallb os I e : sat os I e <-> forallb (fun b => b) (map (holds I e) os) = true.
Proof. rewrite <- forallb_mapid. symmetry. apply forallb_forall. Qed.

(** one gate: a fresh variable and clauses that say it equals [F] *)
Lemma gate_ok c S lss (F : interp -> env -> bool) : cfg_ok c -> Inv S ->
  (forall ls, In ls lss -> forall l, In l ls -> (goodB l /\ lit l) /\ below (Datatypes.S (ts_n S)) l) ->
  (forall I e e', agree (ts_n S) e e' -> F I e = F I e') ->
  (forall I e, forallb (existsb (holds I e)) lss = Bool.eqb (holds I e (tmp (ts_n S))) (F I e)) ->
  exists S', emits c (snd (fresh S)) lss = Ok S' /\ ext S S' /\ Inv S' /\ ts_n S' = Datatypes.S (ts_n S) /\
    forall I e, sat (ts_c S') I e -> holds I e (tmp (ts_n S)) = F I e.
Proof.
  intros Hc HI HL HF HG. destruct (emits_ok c lss (snd (fresh S)) Hc) as (os & E & CG & B & V).
  { intros ls Hls l Hl. now apply (HL ls Hls l Hl). }
  cbn [fresh snd ts_n ts_v ts_c] in E. eexists. split; [exact E|]. cbn [ts_n ts_v ts_c].
  assert (HS : forall I e, sat os I e <-> holds I e (tmp (ts_n S)) = F I e).
  { intros I e. rewrite sat_forallb, V.
    replace (forallb (fun b : bool => b) (map (existsb (holds I e)) lss)) with (forallb (existsb (holds I e)) lss) by (clear; induction lss as [|a l IH]; cbn; [reflexivity|now rewrite IH]).
    rewrite HG. split; [apply eqb_prop|intros ->; apply eqb_reflx]. }
  assert (BO : forall o, In o os -> below (Datatypes.S (ts_n S)) o) by (apply B; intros ls Hls l Hl; now apply (HL ls Hls)).
  assert (X : ext S (Ts (Datatypes.S (ts_n S)) (ts_v S) (ts_c S ++ os))).
  { constructor; cbn [ts_n ts_c]; [lia|now exists os|]. intros I e H. exists (set_tmp e (ts_n S) (F I e)).
    pose proof (set_agree e (ts_n S) (F I e)) as A. split; [exact A|]. apply sat_app. split.
    - apply (sat_agree (ts_n S) _ I e); [intros x Hx; now apply (i_cl S HI)|exact A|exact H].
    - apply HS. rewrite set_holds. now apply HF. }
  split; [exact X|]. split; [|split; [reflexivity|]].
  - constructor; cbn [ts_n ts_v ts_c].
    + intros t u H. destruct (i_memo S HI t u H) as (A & A' & A''). split; [exact A|]. split; [apply (below_mono (ts_n S)); [lia|exact A']|].
      intros I e HS' HR'. apply A''; [|exact HR']. apply sat_app in HS'. apply HS'.
    + intros x Hx. apply in_app_or in Hx. destruct Hx as [Hx|Hx].
      * destruct (i_cl S HI x Hx) as (A & A' & A''). split; [exact A|]. split; [exact A'|]. apply (below_mono (ts_n S)); [lia|exact A''].
      * split; [now apply CG|]. split; [now apply CG|now apply BO].
  - intros I e H. apply sat_app in H. now apply HS.
Qed.
(** ** the gates *)
Definition lit_in (S : ts) (u : term) : Prop := slit u /\ below (ts_n S) u.
Definition out (S : ts) (r : res (term * ts)) (F : interp -> env -> bool) : Prop :=
  exists u S', r = Ok (u, S') /\ ext S S' /\ Inv S' /\ lit_in S' u /\ forall I e, sat (ts_c S') I e -> R I e -> holds I e u = F I e.
Lemma lit_mono S S' u : ext S S' -> lit_in S u -> lit_in S' u.
Proof. intros E [A B]. split; [exact A|]. apply (below_mono (ts_n S)); [apply E|exact B]. Qed.
Lemma lit_agree S u I e e' : lit_in S u -> agree (ts_n S) e e' -> holds I e u = holds I e' u.
Proof. intros [_ B] A. now apply (holds_agree I (ts_n S)). Qed.
Lemma tmp_fresh S : slit (tmp (ts_n S)) /\ below (Datatypes.S (ts_n S)) (tmp (ts_n S)).
Proof. split; [apply SL_var, tmp_var|apply below_tmp; lia]. Qed.
Lemma lit_S S u : lit_in S u -> slit u /\ below (Datatypes.S (ts_n S)) u.
Proof. intros [A B]. split; [exact A|]. apply (below_mono (ts_n S)); [lia|exact B]. Qed.
Lemma lit_not c S u : slit u /\ below (Datatypes.S (ts_n S)) u ->
  exists w, mkNot c u = Ok w /\ (slit w /\ below (Datatypes.S (ts_n S)) w) /\ forall I e, holds I e w = negb (holds I e u).
Proof. intros [A B]. destruct (mkNot_slit c u A) as (w & E & H & Hb & V). exists w. auto. Qed.
Lemma gate_out' c S lss F : cfg_ok c -> Inv S ->
  (forall ls, In ls lss -> forall l, In l ls -> (goodB l /\ lit l) /\ below (Datatypes.S (ts_n S)) l) ->
  (forall I e e', agree (ts_n S) e e' -> F I e = F I e') ->
  (forall I e, forallb (existsb (holds I e)) lss = Bool.eqb (holds I e (tmp (ts_n S))) (F I e)) ->
  out S (S2 <- emits c (snd (fresh S)) lss ;; Ok (tmp (ts_n S), S2)) F.
Proof.
  intros Hc HI HL HF HG. destruct (gate_ok c S lss F Hc HI HL HF HG) as (S' & E & X & I' & N & V).
  exists (tmp (ts_n S)), S'. rewrite E. cbn [bind]. split; [reflexivity|]. split; [exact X|]. split; [exact I'|]. split; [|intros I e Hs _; now apply V].
  split; [apply SL_var, tmp_var|]. rewrite N. apply below_tmp. lia.
Qed.
Lemma gate_out c S lss F : cfg_ok c -> Inv S ->
  (forall ls, In ls lss -> forall l, In l ls -> slit l /\ below (Datatypes.S (ts_n S)) l) ->
  (forall I e e', agree (ts_n S) e e' -> F I e = F I e') ->
  (forall I e, forallb (existsb (holds I e)) lss = Bool.eqb (holds I e (tmp (ts_n S))) (F I e)) ->
  out S (S2 <- emits c (snd (fresh S)) lss ;; Ok (tmp (ts_n S), S2)) F.
Proof.
  intros Hc HI HL. apply gate_out'; [exact Hc|exact HI|]. intros ls Hls l Hl. destruct (HL ls Hls l Hl) as [A B]. split; [|exact B].
  split; [now apply slit_good|now apply slit_lit].
Qed.
Ltac inlists := let ls := fresh in let l := fresh in
  intros ls Hls l Hl; cbn [In] in Hls;
  repeat (destruct Hls as [Hls|Hls]; [subst ls; cbn [In] in Hl; repeat (destruct Hl as [ <- | Hl ]; [assumption|]); contradiction|]); contradiction.
Ltac bools I e := cbn [forallb existsb]; intros;
  repeat match goal with V : forall I e, holds I e _ = _ |- _ => rewrite V; clear V end.
Lemma tsXor_ok c S a b : cfg_ok c -> Inv S -> lit_in S a -> lit_in S b -> out S (tsXor c a b S) (fun I e => xorb (holds I e a) (holds I e b)).
Proof.
  intros Hc HI Ha Hb. unfold tsXor. change (fresh S) with (tmp (ts_n S), snd (fresh S)). cbv iota beta.
  pose proof (lit_S S a Ha) as Sa. pose proof (lit_S S b Hb) as Sb. pose proof (tmp_fresh S) as Sv.
  destruct (lit_not c S _ Sv) as (nv & -> & Snv & Vv). destruct (lit_not c S a Sa) as (na & -> & Sna & Va). destruct (lit_not c S b Sb) as (nb & -> & Snb & Vb). cbn [bind].
  apply gate_out; [exact Hc|exact HI|inlists| |].
  - intros I e e' A. now rewrite (lit_agree S a I e e' Ha A), (lit_agree S b I e e' Hb A).
  - intros I e. cbn [forallb existsb]. rewrite Vv, Va, Vb. now destruct (holds I e (tmp (ts_n S))), (holds I e a), (holds I e b).
Qed.
Lemma tsEq_ok c S a b : cfg_ok c -> Inv S -> lit_in S a -> lit_in S b -> out S (tsEq c a b S) (fun I e => Bool.eqb (holds I e a) (holds I e b)).
Proof.
  intros Hc HI Ha Hb. unfold tsEq. change (fresh S) with (tmp (ts_n S), snd (fresh S)). cbv iota beta.
  pose proof (lit_S S a Ha) as Sa. pose proof (lit_S S b Hb) as Sb. pose proof (tmp_fresh S) as Sv.
  destruct (lit_not c S _ Sv) as (nv & -> & Snv & Vv). destruct (lit_not c S a Sa) as (na & -> & Sna & Va). destruct (lit_not c S b Sb) as (nb & -> & Snb & Vb). cbn [bind].
  apply gate_out; [exact Hc|exact HI|inlists| |].
  - intros I e e' A. now rewrite (lit_agree S a I e e' Ha A), (lit_agree S b I e e' Hb A).
  - intros I e. cbn [forallb existsb]. rewrite Vv, Va, Vb. now destruct (holds I e (tmp (ts_n S))), (holds I e a), (holds I e b).
Qed.
Lemma tsDistinct_ok c S a b : cfg_ok c -> Inv S -> lit_in S a -> lit_in S b -> out S (tsDistinct c a b S) (fun I e => negb (Bool.eqb (holds I e a) (holds I e b))).
Proof.
  intros Hc HI Ha Hb. unfold tsDistinct. change (fresh S) with (tmp (ts_n S), snd (fresh S)). cbv iota beta.
  pose proof (lit_S S a Ha) as Sa. pose proof (lit_S S b Hb) as Sb. pose proof (tmp_fresh S) as Sv.
  destruct (lit_not c S _ Sv) as (nv & -> & Snv & Vv). destruct (lit_not c S a Sa) as (na & -> & Sna & Va). destruct (lit_not c S b Sb) as (nb & -> & Snb & Vb). cbn [bind].
  apply gate_out; [exact Hc|exact HI|inlists| |].
  - intros I e e' A. now rewrite (lit_agree S a I e e' Ha A), (lit_agree S b I e e' Hb A).
  - intros I e. cbn [forallb existsb]. rewrite Vv, Va, Vb. now destruct (holds I e (tmp (ts_n S))), (holds I e a), (holds I e b).
Qed.
Lemma tsIte_ok c S a b d : cfg_ok c -> Inv S -> lit_in S a -> lit_in S b -> lit_in S d ->
  out S (tsIte c a b d S) (fun I e => if holds I e a then holds I e b else holds I e d).
Proof.
  intros Hc HI Ha Hb Hd. unfold tsIte. change (fresh S) with (tmp (ts_n S), snd (fresh S)). cbv iota beta.
  pose proof (lit_S S a Ha) as Sa. pose proof (lit_S S b Hb) as Sb. pose proof (lit_S S d Hd) as Sd. pose proof (tmp_fresh S) as Sv.
  destruct (lit_not c S _ Sv) as (nv & -> & Snv & Vv). destruct (lit_not c S a Sa) as (na & -> & Sna & Va).
  destruct (lit_not c S b Sb) as (nb & -> & Snb & Vb). destruct (lit_not c S d Sd) as (nd & -> & Snd & Vd). cbn [bind].
  apply gate_out; [exact Hc|exact HI|inlists| |].
  - intros I e e' A. now rewrite (lit_agree S a I e e' Ha A), (lit_agree S b I e e' Hb A), (lit_agree S d I e e' Hd A).
  - intros I e. cbn [forallb existsb]. rewrite Vv, Va, Vb, Vd. now destruct (holds I e (tmp (ts_n S))), (holds I e a), (holds I e b), (holds I e d).
Qed.
Lemma holds_list S us I e e' : (forall u, In u us -> lit_in S u) -> agree (ts_n S) e e' -> map (holds I e) us = map (holds I e') us.
Proof. intros H A. apply map_ext_in. intros u Hu. apply (lit_agree S); [now apply H|exact A]. Qed.
Lemma tsAnd_ok c S us : cfg_ok c -> Inv S -> (forall u, In u us -> lit_in S u) -> out S (tsAnd c us S) (fun I e => forallb (fun b => b) (map (holds I e) us)).
Proof.
  intros Hc HI Hu. unfold tsAnd. change (fresh S) with (tmp (ts_n S), snd (fresh S)). cbv iota beta.
  pose proof (tmp_fresh S) as Sv. destruct (lit_not c S _ Sv) as (nv & -> & Snv & Vv).
  destruct (mapM_not c us) as (ns & -> & Sns & Bns & Vns); [intros u H; now apply Hu|]. cbn [bind].
  apply gate_out; [exact Hc|exact HI| | |].
  - intros ls Hls l Hl. apply in_app_or in Hls. destruct Hls as [Hls|[ <- |[]]].
    + apply in_map_iff in Hls. destruct Hls as (u & <- & Hin). destruct Hl as [ <- | [ <- | []]]; [exact Snv|now apply lit_S, Hu].
    + apply in_app_or in Hl. destruct Hl as [Hl|[ <- |[]]]; [|exact Sv]. split; [now apply Sns|]. apply (Bns _); [|exact Hl]. intros u H. now apply (lit_S S), Hu.
  - intros I e e' A. now rewrite (holds_list S us I e e' Hu A).
  - intros I e. rewrite forallb_app. cbn [forallb]. rewrite andb_true_r, existsb_app. cbn [existsb]. rewrite orb_false_r.
    rewrite (existsb_mapid (holds I e) ns), Vns. specialize (Vv I e). clear - Vv.
    replace (forallb (existsb (holds I e)) (map (fun u => [nv; u]) us)) with (negb (holds I e (tmp (ts_n S))) || forallb (fun b => b) (map (holds I e) us)).
    + replace (existsb (fun b => b) (map (fun u => negb (holds I e u)) us)) with (negb (forallb (fun b => b) (map (holds I e) us))).
      * now destruct (holds I e (tmp (ts_n S))), (forallb (fun b => b) (map (holds I e) us)).
      * clear Vv. induction us as [|u us IH]; [reflexivity|]. cbn. rewrite <- IH. now destruct (holds I e u).
    + rewrite <- Vv. clear Vv. induction us as [|u us IH]; cbn; [now destruct (holds I e nv)|]. rewrite <- IH. now destruct (holds I e nv), (holds I e u), (forallb (fun b => b) (map (holds I e) us)).
Qed.
Lemma tsOr_ok c S us : cfg_ok c -> Inv S -> (forall u, In u us -> lit_in S u) -> out S (tsOr c us S) (fun I e => existsb (fun b => b) (map (holds I e) us)).
Proof.
  intros Hc HI Hu. unfold tsOr. change (fresh S) with (tmp (ts_n S), snd (fresh S)). cbv iota beta.
  pose proof (tmp_fresh S) as Sv. destruct (lit_not c S _ Sv) as (nv & -> & Snv & Vv).
  destruct (mapM_not c us) as (ns & -> & Sns & Bns & Vns); [intros u H; now apply Hu|]. cbn [bind].
  assert (Sn : forall u, In u ns -> slit u /\ below (Datatypes.S (ts_n S)) u).
  { intros u H. split; [now apply Sns|]. apply (Bns _); [|exact H]. intros w Hw. now apply (lit_S S), Hu. }
  apply gate_out; [exact Hc|exact HI| | |].
  - intros ls Hls l Hl. apply in_app_or in Hls. destruct Hls as [Hls|[ <- |[]]].
    + apply in_map_iff in Hls. destruct Hls as (u & <- & Hin). destruct Hl as [ <- | [ <- | []]]; [now apply Sn|exact Sv].
    + apply in_app_or in Hl. destruct Hl as [Hl|[ <- |[]]]; [|exact Snv]. now apply lit_S, Hu.
  - intros I e e' A. now rewrite (holds_list S us I e e' Hu A).
  - intros I e. rewrite forallb_app. cbn [forallb]. rewrite andb_true_r, existsb_app. cbn [existsb]. rewrite orb_false_r.
    rewrite (existsb_mapid (holds I e) us). specialize (Vv I e). specialize (Vns I e). rewrite Vv. clear - Vns.
    replace (forallb (existsb (holds I e)) (map (fun n => [n; tmp (ts_n S)]) ns)) with (forallb (fun b => b || holds I e (tmp (ts_n S))) (map (holds I e) ns))
      by (clear; induction ns as [|u l IH]; [reflexivity|]; cbn [map forallb existsb]; now rewrite IH, orb_false_r).
    rewrite Vns. clear Vns. set (v := holds I e (tmp (ts_n S))). clearbody v.
    replace (forallb (fun b => b || v) (map (fun u => negb (holds I e u)) us)) with (negb (existsb (fun b => b) (map (holds I e) us)) || v)
      by (induction us as [|u us IH]; [reflexivity|]; cbn [map forallb existsb]; rewrite <- IH; now destruct (holds I e u), v, (existsb (fun b => b) (map (holds I e) us))).
    now destruct v, (existsb (fun b => b) (map (holds I e) us)).
Qed.
Lemma out_ext S r F G : (forall I e, F I e = G I e) -> out S r F -> out S r G.
Proof. intros H (u & S' & E & X & I' & L & V). exists u, S'. split; [exact E|]. split; [exact X|]. split; [exact I'|]. split; [exact L|]. intros I e Hs HR. now rewrite (V I e Hs HR), H. Qed.
Lemma tsXors_ok c us : forall S a, cfg_ok c -> Inv S -> lit_in S a -> (forall u, In u us -> lit_in S u) ->
  out S (tsXors c a us S) (fun I e => xors (map (holds I e) (a :: us))).
Proof.
  induction us as [|b us IH]; intros S a Hc HI Ha Hu.
  - exists a, S. split; [reflexivity|]. split; [apply ext_refl|]. split; [exact HI|]. split; [exact Ha|]. intros I e _ _. cbn. now rewrite xorb_false_r.
  - cbn [tsXors]. destruct (tsXor_ok c S a b Hc HI Ha (Hu b (or_introl eq_refl))) as (v & S1 & -> & X & I1 & L & V). cbn [bind fst snd].
    destruct (IH S1 v Hc I1 L) as (w & S2 & -> & X2 & I2 & L2 & V2); [intros u H; apply (lit_mono S); [exact X|apply Hu; now right]|].
    exists w, S2. split; [reflexivity|]. split; [now apply (ext_trans S S1)|]. split; [exact I2|]. split; [exact L2|].
    intros I e H HR. rewrite (V2 I e H HR). pose proof (V I e (ext_sat S1 S2 I e X2 H) HR) as W. cbn [map]. rewrite W. cbn [xors fold_right]. now rewrite xorb_assoc.
Qed.

(** ** the run *)
Definition tsgo (c : cfg) (m : memo) := fix go (l : list term) (S : ts) : res (list term * ts) :=
  match l with
  | [] => Ok ([], S)
  | x :: l' => p <- tseitin c m x S ;; q <- go l' (snd p) ;; Ok (fst p :: fst q, snd q)
  end.
Definition tsmemo (t : term) (r : res (term * ts)) : res (term * ts) := p <- r ;; Ok (fst p, visit t (fst p) (snd p)).
Definition outs (S : ts) (len : nat) (r : res (list term * ts)) (F : interp -> env -> list bool) : Prop :=
  exists us S', r = Ok (us, S') /\ ext S S' /\ Inv S' /\ (forall u, In u us -> lit_in S' u) /\ length us = len /\
    forall I e, sat (ts_c S') I e -> R I e -> map (holds I e) us = F I e.
Lemma tseitin_node c K fl m k n ch S : node_arity k (length ch) = true -> (forall x, In x ch -> pfi c K fl x) ->
  tseitin c m (T k boolS n ch) S =
  match mfind (T k boolS n ch) (ts_v S) with
  | Some u => Ok (u, S)
  | None =>
      let t := T k boolS n ch in
      p <- tsgo c m ch S ;;
      match k, fst p with
      | NT_AND, [u] => lu <- isLiteral u ;; condAssert (c_dbg c) lu ;;; Ok (u, snd p)
      | NT_OR, [u] => lu <- isLiteral u ;; condAssert (c_dbg c) lu ;;; Ok (u, snd p)
      | NT_AND, us => tsmemo t (tsAnd c us (snd p))
      | NT_OR, us => tsmemo t (tsOr c us (snd p))
      | NT_XOR, a :: us => tsmemo t (tsXors c a us (snd p))
      | NT_EQ, [a; b] => tsmemo t (tsEq c a b (snd p))
      | NT_DISTINCT, [a; b] => tsmemo t (tsDistinct c a b (snd p))
      | NT_ITE, [a; b; d] => tsmemo t (tsIte c a b d (snd p))
      | _, _ => UB
      end
  end.
Proof.
  intros A C. cbn [tseitin]. rewrite (node_not_atom c K fl k n ch A C). cbn [bind].
  assert (SB : forall x, In x ch -> sis SK_BOOL x = true).
  { intros x Hx. unfold sis. now rewrite (pfi_sort c K fl x (C x Hx)). }
  assert (FB : forallb (sis SK_BOOL) ch = true) by (apply forallb_forall; exact SB).
  pose proof (node_kinds _ _ A) as KK. destruct KK as [ -> | [ -> | [ -> | [ -> | [ -> | -> ]]]]].
  all: match goal with |- context [isLiteral ?t] => change (isLiteral t) with (Ok false) end.
  all: match goal with |- context [isk NT_TEMP_VAR ?t] => change (isk NT_TEMP_VAR t) with false end.
  all: cbn [orb bind]; destruct (mfind _ (ts_v S)) as [u|]; [reflexivity|].
  all: fold (tsgo c m).
  - cbn zeta. destruct (tsgo c m ch S) as [[us S1]| | | | |]; cbn [bind fst snd]; try reflexivity; destruct us as [|a [|b us]]; reflexivity.
  - cbn zeta. destruct (tsgo c m ch S) as [[us S1]| | | | |]; cbn [bind fst snd]; try reflexivity; destruct us as [|a [|b us]]; reflexivity.
  - cbn zeta. destruct (tsgo c m ch S) as [[us S1]| | | | |]; cbn [bind fst snd]; try reflexivity.
  - change (isEq (T NT_EQ boolS n ch)) with true. cbv iota. rewrite FB. cbn zeta.
    destruct ch as [|a [|b [|d l]]]; try discriminate A. cbn [tsgo]. destruct (tseitin c m a S) as [[ua S1]| | | | |]; cbn [bind fst snd]; try reflexivity.
    destruct (tseitin c m b S1) as [[ub S2]| | | | |]; cbn [bind fst snd]; reflexivity.
  - change (isEq (T NT_DISTINCT boolS n ch)) with false. change (isDistinct (T NT_DISTINCT boolS n ch)) with true. cbv iota.
    destruct ch as [|a [|b [|d l]]]; try discriminate A. rewrite FB, (SB a), (SB b) by (cbn; tauto). cbn [andb tsgo]. cbn zeta.
    destruct (tseitin c m a S) as [[ua S1]| | | | |]; cbn [bind fst snd]; try reflexivity;
    destruct (tseitin c m b S1) as [[ub S2]| | | | |]; cbn [bind fst snd]; reflexivity.
  - change (isEq (T NT_ITE boolS n ch)) with false. change (isDistinct (T NT_ITE boolS n ch)) with false.
    change (isk NT_ITE (T NT_ITE boolS n ch)) with true. cbv iota.
    destruct ch as [|a [|b [|d [|? l]]]]; try discriminate A. rewrite (SB b), (SB d) by (cbn; tauto). cbn [andb tsgo]. cbn zeta.
    destruct (tseitin c m a S) as [[ua S1]| | | | |]; cbn [bind fst snd]; try reflexivity.
    destruct (tseitin c m b S1) as [[ub S2]| | | | |]; cbn [bind fst snd]; try reflexivity.
    destruct (tseitin c m d S2) as [[ud S3]| | | | |]; cbn [bind fst snd]; reflexivity.
Qed.
Lemma tseitin_slit c m t S : slit t -> tseitin c m t S = Ok (t, S).
Proof.
  intros H. destruct t as [k s n ch]. cbn [tseitin]. rewrite (slit_not_atom _ H). cbn [bind]. rewrite (slit_isLiteral _ H). reflexivity.
Qed.
(** a negation that is no literal *)
Lemma tsNot_ok c K n t S : cfg_ok c -> Inv S -> bl c K t -> below (ts_n S) t ->
  out S (let '(v, S1) := fresh S in nv <- mkNot c v ;; na <- mkNot c t ;; S2 <- emits c S1 [[nv; na]; [t; v]] ;; Ok (v, S2)) (fun I e => holds I e (T NT_NOT boolS n [t])).
Proof.
  intros Hc HI HB Bt. change (fresh S) with (tmp (ts_n S), snd (fresh S)). cbv iota beta.
  pose proof (tmp_fresh S) as Sv. destruct (lit_not c S _ Sv) as (nv & -> & Snv & Vv). cbn [bind].
  assert (AL : alit c t) by (destruct HB as [H|[H _]]; [now apply AL_slit|now apply AL_atom]).
  destruct (alit_not c t Hc AL) as (na & -> & ALn & Bn & Vn). cbn [bind].
  assert (Bt' : below (Datatypes.S (ts_n S)) t) by (apply (below_mono (ts_n S)); [lia|exact Bt]).
  apply gate_out'; [exact Hc|exact HI| | |].
  - assert (L1 : (goodB nv /\ lit nv) /\ below (Datatypes.S (ts_n S)) nv) by (destruct Snv; split; [split; [now apply slit_good|now apply slit_lit]|assumption]).
    assert (L2 : (goodB (tmp (ts_n S)) /\ lit (tmp (ts_n S))) /\ below (Datatypes.S (ts_n S)) (tmp (ts_n S))) by (destruct Sv; split; [split; [now apply slit_good|now apply slit_lit]|assumption]).
    assert (L3 : (goodB t /\ lit t) /\ below (Datatypes.S (ts_n S)) t) by (split; [split; [now apply (alit_good c)|now apply (alit_lit c)]|assumption]).
    assert (L4 : (goodB na /\ lit na) /\ below (Datatypes.S (ts_n S)) na) by (split; [split; [now apply (alit_good c)|now apply (alit_lit c)]|now apply Bn]).
    intros ls [ <- | [ <- | [] ]] l Hl; destruct Hl as [ <- | [ <- | [] ]]; assumption.
  - intros I e e' A. apply (holds_agree I (ts_n S)); [|exact A]. apply below_kind; [discriminate|intros x [ <- | [] ]; exact Bt].
  - intros I e. cbn [forallb existsb]. rewrite Vv, Vn, (holds_not (T NT_NOT boolS n [t]) t I e) by reflexivity.
    now destruct (holds I e (tmp (ts_n S))), (holds I e t).
Qed.
Lemma tseitin_not c m n t S : isVBool t = false ->
  tseitin c m (T NT_NOT boolS n [t]) S =
  match mfind (T NT_NOT boolS n [t]) (ts_v S) with
  | Some u => Ok (u, S)
  | None => tsmemo (T NT_NOT boolS n [t]) (let '(v, S1) := fresh S in nv <- mkNot c v ;; na <- mkNot c t ;; S2 <- emits c S1 [[nv; na]; [t; v]] ;; Ok (v, S2))
  end.
Proof.
  intros H. cbn [tseitin]. change (isAtom (T NT_NOT boolS n [t])) with (@Ok bool false). cbn [bind].
  assert (E : isLiteral (T NT_NOT boolS n [t]) = Ok false).
  { unfold isLiteral. change (isVBool (T NT_NOT boolS n [t])) with false. change (isk NT_NOT (T NT_NOT boolS n [t])) with true. cbv iota. cbn [child0 t_ch bind].
    rewrite H. reflexivity. }
  rewrite E. cbn [bind orb]. reflexivity.
Qed.
Lemma tseitin_ok c (K : term -> Prop) m t : cfg_ok c -> (forall a, tatom c a -> K a -> exists u, mfind a m = Some u /\ slit u /\ forall I e, R I e -> holds I e u = holds I e a) ->
  forall b S, pfi c K b t -> Inv S -> (forall a u, tatom c a -> K a -> mfind a m = Some u -> below (ts_n S) u) -> below (ts_n S) t -> out S (tseitin c m t S) (fun I e => holds I e t).
Proof.
  intros Hc HM. induction t as [k s n ch IH] using term_ind'. rewrite Forall_forall in IH. intros b S P HI HMB HB.
  assert (HIT : forall u, mfind (T k s n ch) (ts_v S) = Some u -> out S (Ok (u, S)) (fun I e => holds I e (T k s n ch))).
  { intros u M. apply mfind_in in M. destruct (i_memo S HI _ _ M) as (H1 & H2 & H3). exists u, S. split; [reflexivity|]. split; [apply ext_refl|]. split; [exact HI|].
    split; [now split|]. exact H3. }
  assert (MEMO : forall r, out S r (fun I e => holds I e (T k s n ch)) -> out S (tsmemo (T k s n ch) r) (fun I e => holds I e (T k s n ch))).
  { intros r (u & S2 & -> & X & I2 & L2 & VV).
    exists u, (visit (T k s n ch) u S2). split; [reflexivity|]. split; [constructor; apply X|]. split; [|split; [exact L2|exact VV]].
    constructor; [|apply I2]. intros t' u' [E|E]; [|now apply I2]. injection E as <- <-. split; [apply L2|]. split; [apply L2|exact VV]. }
  assert (SL : slit (T k s n ch) -> out S (tseitin c m (T k s n ch) S) (fun I e => holds I e (T k s n ch))).
  { intros H. rewrite tseitin_slit by exact H. exists (T k s n ch), S. split; [reflexivity|]. split; [apply ext_refl|]. split; [exact HI|].
    split; [split; [exact H|exact HB]|reflexivity]. }
  inversion P as [b' t' S'|b' t' At Kt|b' n' t' D|b' k' n' ch' A NI C]; subst.
  - now apply SL.
  - destruct (HM _ At Kt) as (u & Eu & Su & Vu). pose proof (HMB _ _ At Kt Eu) as Bu.
    cbn [tseitin]. rewrite (tatom_atom c _ At). cbn [bind]. rewrite Eu. exists u, S. split; [reflexivity|]. split; [apply ext_refl|]. split; [exact HI|].
    split; [now split|]. intros I e _ HR. now apply Vu.
  - destruct (isVBool t') eqn:VB.
    + apply SL. destruct D as [D|[D _]]; [|destruct (tatom_cb c t' D) as (_ & X & _); congruence].
      destruct D as [ | |t'' H|n'' t'' H]; try discriminate VB. now constructor.
    + rewrite tseitin_not by exact VB. destruct (mfind (T NT_NOT boolS n [t']) (ts_v S)) as [u|] eqn:M; [now apply HIT|].
      apply MEMO. apply (tsNot_ok c K); auto. apply (below_ch _ _ t' HB). now left.
  - clear SL. rewrite (tseitin_node c K _ m k n ch S A C). destruct (mfind (T k boolS n ch) (ts_v S)) as [u|] eqn:M; [now apply HIT|].
    assert (GO : forall l S0, (forall x, In x l -> In x ch) -> Inv S0 -> (ts_n S <= ts_n S0)%nat -> outs S0 (length l) (tsgo c m l S0) (fun I e => map (holds I e) l)).
    { induction l as [|x l IHl]; intros S0 Hin I0' L0.
      - exists [], S0. split; [reflexivity|]. split; [apply ext_refl|]. split; [exact I0'|]. split; [intros u []|split; reflexivity].
      - destruct (IH x (Hin x (or_introl eq_refl)) _ S0 (C x (Hin x (or_introl eq_refl))) I0') as (u & S1 & E1 & X1 & I1 & L1 & V1).
        { intros a u Ha Hk E. apply (below_mono (ts_n S)); [exact L0|]. now apply (HMB a u). }
        { apply (below_mono (ts_n S)); [exact L0|]. apply (below_ch _ _ x HB). apply Hin. now left. }
        destruct (IHl S1) as (us & S2 & E2 & X2 & I2 & L2 & N2 & V2); [intros y Hy; apply Hin; now right|exact I1|pose proof (e_n _ _ X1); lia|].
        exists (u :: us), S2. split; [cbn [tsgo]; fold (tsgo c m); rewrite E1; cbn [bind snd fst]; rewrite E2; reflexivity|]. split; [now apply (ext_trans S0 S1)|]. split; [exact I2|].
        split; [intros w [ <- | Hw ]; [now apply (lit_mono S1)|now apply L2]|].
        split; [cbn [length]; now rewrite N2|]. intros I e H HR. cbn [map]. rewrite (V2 I e H HR), (V1 I e (ext_sat S1 S2 I e X2 H) HR). reflexivity. }
    destruct (GO ch S (fun x H => H) HI (le_n _)) as (us & S1 & -> & X1 & I1 & L1 & N1 & V1). clear GO. cbn [bind fst snd]. cbn zeta.
    assert (FIN : forall r G, out S1 r G -> (forall I e, sat (ts_c S1) I e -> G I e = psem k (map (holds I e) us)) -> out S (tsmemo (T k boolS n ch) r) (fun I e => holds I e (T k boolS n ch))).
    { intros r G (u & S2 & Er & X2 & I2 & L2 & V2) HG. apply MEMO. exists u, S2. split; [exact Er|]. split; [now apply (ext_trans S S1)|]. split; [exact I2|]. split; [exact L2|].
      intros I e Hs HR. rewrite (psem_holds k n ch I e A) by (intros x Hx; exact (pfi_boolean c K x _ (C x Hx))). rewrite (V2 I e Hs HR). rewrite HG by (now apply (ext_sat S1 S2 I e X2)).
      now rewrite (V1 I e (ext_sat S1 S2 I e X2 Hs) HR). }
    pose proof A as A'. rewrite <- N1 in A'. clear MEMO HIT P.
    pose proof (node_kinds _ _ A) as KK. destruct KK as [ -> | [ -> | [ -> | [ -> | [ -> | -> ]]]]]; cbn [node_arity] in A'.
    + destruct us as [|a [|b2 us]]; try discriminate A'. eapply FIN; [apply tsAnd_ok; assumption|reflexivity].
    + destruct us as [|a [|b2 us]]; try discriminate A'. eapply FIN; [apply tsOr_ok; assumption|reflexivity].
    + destruct us as [|a us]; try discriminate A'. eapply FIN; [apply tsXors_ok; try assumption; [apply L1; now left|intros; apply L1; now right]|reflexivity].
    + destruct us as [|a [|b2 [|d us]]]; try discriminate A'. eapply FIN; [apply tsEq_ok; try assumption; apply L1; cbn; tauto|reflexivity].
    + destruct us as [|a [|b2 [|d us]]]; try discriminate A'. eapply FIN; [apply tsDistinct_ok; try assumption; apply L1; cbn; tauto|reflexivity].
    + destruct us as [|a [|b2 [|d [|? us]]]]; try discriminate A'. eapply FIN; [apply tsIte_ok; try assumption; apply L1; cbn; tauto|reflexivity].
Qed.
End Run.
