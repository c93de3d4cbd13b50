(** Splitting and binarising preserve meaning. *)
From Coq Require Import QArith Qcanon Permutation ZifyBool ZifyNat.
From Verif Require Import Base KindModel SortModel TermModel BVModel BVSpec UtilModel UtilSpec DagProofs SortProofs
  Sem SemProofs ArrayModel SimpModel OpModel OpSpec OpProofs OpProofs2 OpProofs3 OpProofs4 OpProofs5 OpProofs6 OpProofs7
  ShapeProofs ConvModel ConvSpec ConvProofs WalkProofs GoodProofs.
Open Scope Z_scope.

Definition quiet (sel : term -> option (res act)) (t : term) : Prop := forall p, subterm p t -> sel p = None.
Definition same (t u : term) : Prop := forall I e, holds I e u = holds I e t.
Inductive skel (sel : term -> option (res act)) : term -> Prop :=
| K_leaf t : goodB t -> quiet sel t -> skel sel t
| K_sel t a : sel t = Some (Ok a) -> goodB (a_res a) -> same t (a_res a) -> Forall valid (a_lem a) -> skel sel t
| K_node k n ch : sel (T k boolS n ch) = None -> conn_arity k (length ch) = true -> (forall x, In x ch -> skel sel x) -> skel sel (T k boolS n ch).
Definition memo_sem (sel : term -> option (res act)) (V : memo) : Prop :=
  forall v u, In (v, u) V -> (quiet sel v -> u = v) /\ (skel sel v -> goodB u /\ same v u).
Lemma conn_good k n ch : conn_arity k (length ch) = true -> goodB (T k boolS n ch).
Proof. intros H. apply goodB_node; [|reflexivity|]; destruct k; try discriminate H; try reflexivity; discriminate. Qed.
Lemma skel_quiet sel t : skel sel t -> quiet sel t -> goodB t.
Proof.
  intros K Q. destruct K as [t G _|t a S _ _ _|k n ch _ A _]; [exact G| |now apply conn_good].
  rewrite (Q t (Sub_refl t)) in S. discriminate S.
Qed.
Lemma quiet_ch sel k s n ch x : quiet sel (T k s n ch) -> In x ch -> quiet sel x.
Proof. intros Q Hx p Hp. apply Q. now apply (Sub_ch p x). Qed.
Lemma same_refl t : same t t. Proof. intros I e. reflexivity. Qed.
Lemma memo_self sel t V : memo_sem sel V -> (skel sel t -> goodB t) -> memo_sem sel ((t, t) :: V).
Proof. intros HV G v u [E|E]; [injection E as <- <-; split; [auto|intros K; split; [auto|apply same_refl]]|now apply HV]. Qed.
Lemma walks_quiet_aux c sel l : (forall x, In x l -> quiet sel x) ->
  Forall (fun t => quiet sel t -> forall V, memo_sem sel V -> exists V', walk c sel t V = Ok (t, false, V', []) /\ memo_sem sel V') l ->
  forall V, memo_sem sel V -> exists V', walks c sel l V = Ok (l, false, V', []) /\ memo_sem sel V'.
Proof.
  induction l as [|x l IHl]; intros HQ HF V HV; [exists V; auto|]. inversion HF as [|? ? Hx Hl]; subst. rewrite walks_cons.
  destruct (Hx (HQ x (or_introl eq_refl)) V HV) as (V1 & -> & HV1). cbn [bind].
  destruct (IHl (fun y Hy => HQ y (or_intror Hy)) Hl V1 HV1) as (V2 & -> & HV2). cbn [bind]. exists V2. auto.
Qed.
Lemma walk_quiet c sel t : quiet sel t -> forall V, memo_sem sel V ->
  exists V', walk c sel t V = Ok (t, false, V', []) /\ memo_sem sel V'.
Proof.
  induction t as [k s n ch IH] using term_ind'. intros Q V HV. rewrite walk_eq.
  destruct (mfind (T k s n ch) V) as [w|] eqn:F.
  { apply mfind_in in F. destruct (HV _ _ F) as [E _]. rewrite (E Q). exists V. auto. }
  rewrite (Q _ (Sub_refl _)).
  destruct (walks_quiet_aux c sel ch (fun x => quiet_ch sel k s n ch x Q) IH V HV) as (V1 & -> & HV1). cbn [bind].
  exists ((T k s n ch, T k s n ch) :: V1). split; [reflexivity|]. apply memo_self; [exact HV1|]. intros K. now apply (skel_quiet sel).
Qed.
Lemma walks_quiet c sel l V : (forall x, In x l -> quiet sel x) -> memo_sem sel V ->
  exists V', walks c sel l V = Ok (l, false, V', []) /\ memo_sem sel V'.
Proof. intros Q HV. apply walks_quiet_aux; [exact Q| |exact HV]. apply Forall_forall. intros x _. now apply walk_quiet. Qed.
Lemma walk_sound c sel : cfg_ok c -> forall t, skel sel t -> forall V, memo_sem sel V ->
  exists u b V' ls, walk c sel t V = Ok (u, b, V', ls) /\ goodB u /\ same t u /\ Forall valid ls /\ memo_sem sel V'.
Proof.
  intros Hc. induction t as [k s n ch IH] using term_ind'. intros K V HV.
  destruct (mfind (T k s n ch) V) as [w|] eqn:F.
  { rewrite walk_eq, F. apply mfind_in in F. destruct (HV _ _ F) as [_ E]. destruct (E K) as [G S].
    exists w, false, V, []. split; [reflexivity|]. split; [exact G|]. split; [exact S|]. split; [constructor|exact HV]. }
  pose proof K as K0. inversion K as [t G Q|t a S G E L|k' n' ch' S A HC]; subst.
  - destruct (walk_quiet c sel _ Q V HV) as (V' & -> & HV'). exists (T k s n ch), false, V', [].
    split; [reflexivity|]. split; [exact G|]. split; [apply same_refl|]. split; [constructor|exact HV'].
  - rewrite walk_eq, F, S. cbn [bind]. eexists _, _, _, _. split; [reflexivity|]. split; [exact G|]. split; [exact E|]. split; [exact L|].
    destruct (a_memo a); [|exact HV]. intros v u [X|X]; [|now apply HV]. injection X as <- <-. split; [|auto].
    intros Q. rewrite (Q _ (Sub_refl _)) in S. discriminate S.
  - rewrite walk_eq, F, S.
    assert (W : forall l, (forall x, In x l -> skel sel x) ->
      Forall (fun t => skel sel t -> forall V, memo_sem sel V -> exists u b V' ls, walk c sel t V = Ok (u, b, V', ls) /\ goodB u /\ same t u /\ Forall valid ls /\ memo_sem sel V') l ->
      forall V, memo_sem sel V -> exists us b V' ls, walks c sel l V = Ok (us, b, V', ls) /\ (forall u, In u us -> goodB u) /\
        (forall I e, map (holds I e) us = map (holds I e) l) /\ Forall valid ls /\ memo_sem sel V').
    { clear. induction l as [|x l IHl]; intros HQ HF V HV.
      - exists [], false, V, []. split; [reflexivity|]. split; [intros u []|]. auto.
      - inversion HF as [|? ? Hx Hl]; subst. rewrite walks_cons.
        destruct (Hx (HQ x (or_introl eq_refl)) V HV) as (u & b & V1 & l1 & -> & G & S & L & HV1). cbn [bind].
        destruct (IHl (fun y Hy => HQ y (or_intror Hy)) Hl V1 HV1) as (us & b' & V2 & l2 & -> & G' & S' & L' & HV2). cbn [bind].
        eexists _, _, _, _. split; [reflexivity|]. split; [intros y [ <- | Hy ]; auto|].
        split; [intros I e; cbn [map]; now rewrite (S I e), S'|]. split; [now apply Forall_app|exact HV2]. }
    destruct (W ch HC IH V HV) as (us & b & V1 & l1 & EW & G & E & L & HV1). rewrite EW. cbn [bind]. destruct b.
    + destruct (rebuild c k n ch us Hc A G E) as (u & -> & Gu & Su). cbn [bind]. eexists _, _, _, _. split; [reflexivity|].
      split; [exact Gu|]. split; [exact Su|]. split; [exact L|].
      intros v w [X|X]; [|now apply HV1]. injection X as <- <-. split; [|auto]. intros Q. exfalso.
      destruct (walks_quiet c sel ch V (fun x => quiet_ch sel _ _ n ch x Q) HV) as (V'' & E' & _). congruence.
    + eexists _, _, _, _. split; [reflexivity|]. split; [now apply conn_good|]. split; [apply same_refl|]. split; [exact L|].
      apply memo_self; [exact HV1|]. intros _. now apply conn_good.
Qed.

(** ** Comparisons as nodes *)
Lemma comparable_sym c l r : node_ok c l -> node_ok c r -> comparable c l r -> comparable c r l.
Proof.
  intros Nl Nr [H X]. split.
  - rewrite compat_sym; [exact H|exact (n_sort c r Nr)|exact (n_sort c l Nl)].
  - destruct X as [X|X]; [left|right]; intros p Hp; apply X; cbn in Hp |- *; tauto.
Qed.
Definition numk (k : kind) : Prop := k = NT_EQ \/ In k arith_comp_kinds.
Lemma numk_bool k : numk k -> In k boolk.
Proof. intros [ -> | H ]; [|cbn in H]; cbn; tauto. Qed.
Lemma subterm_inv p t : subterm p t -> p = t \/ exists x, In x (t_ch t) /\ subterm p x.
Proof. intros H. destruct H as [t|p x t Hx Hp]; [left; reflexivity|right; exists x; auto]. Qed.
Lemma cmp_node_tree c k n l r : numk k -> tree_ok c l -> tree_ok c r -> comparable c l r -> isArray l = false -> isArray r = false ->
  tree_ok c (T k boolS n [l; r]).
Proof.
  intros Hk Tl Tr Cm Al Ar p Hp. apply subterm_inv in Hp. destruct Hp as [ -> | (x & Hx & Hp) ].
  - assert (Ek : k = NT_EQ \/ k = NT_LE \/ k = NT_LT \/ k = NT_GE \/ k = NT_GT) by (destruct Hk as [ -> | Hk ]; [auto|cbn in Hk; intuition auto]).
    constructor.
    + cbn. discriminate.
    + destruct Ek as [ -> | [ -> | [ -> | [ -> | -> ]]]]; reflexivity.
    + intros q [ <- | [] ] C. exfalso. destruct Ek as [ -> | [ -> | [ -> | [ -> | -> ]]]]; discriminate C.
    + intros _. split; [reflexivity|]. intros I e.
      destruct Ek as [ -> | Ek ].
      * eexists. apply eval2; [reflexivity|apply cmpop2].
      * destruct Ek as [ -> | [ -> | [ -> | -> ]]]; (eexists; apply eval2; [reflexivity|apply cmpop2]).
    + intros C. exfalso. destruct Ek as [ -> | [ -> | [ -> | [ -> | -> ]]]]; discriminate C.
    + intros C. exfalso. cbn in C. subst k. destruct Ek as [C|[C|[C|[C|C]]]]; discriminate C.
    + intros _. exists l, r. auto.
    + intros _. exists l, r. auto.
    + intros C. exfalso. destruct Ek as [ -> | [ -> | [ -> | [ -> | -> ]]]]; discriminate C.
    + intros C. exfalso. destruct Ek as [ -> | [ -> | [ -> | [ -> | -> ]]]]; discriminate C.
  - destruct Hx as [ <- | [ <- | [] ]]; auto.
Qed.
Lemma TF_tree c b : tree_ok c (if b : bool then TRUE else FALSE).
Proof.
  intros p Hp. apply subterm_inv in Hp. destruct Hp as [ -> | (x & Hx & _) ]; [|destruct b; destruct Hx].
  constructor; try (destruct b; cbn; discriminate).
  - destruct b; reflexivity.
  - intros q [ <- | [] ] _. destruct b; constructor.
  - intros _. split; [destruct b; reflexivity|]. intros I e. exists b. destruct b; reflexivity.
  - intros C. exfalso. destruct b, C as [C|C]; discriminate C.
Qed.
Lemma cmp_build c k l r t : cfg_ok c -> numk k -> tree_ok c l -> tree_ok c r -> comparable c l r -> isArray l = false -> isArray r = false ->
  mkOper c boolS k [l; r] = Ok t -> tree_ok c t /\ isBoolParam t = true.
Proof.
  intros Hc Hk Tl Tr Cm Al Ar H. apply mkOper_shape in H; [|cbn; lia|now apply numk_bool|now left].
  destruct H as [ -> | [ -> | -> ]]; [split; [exact (TF_tree c true)|reflexivity]|split; [exact (TF_tree c false)|reflexivity]|].
  split; [|reflexivity]. unfold mkInternal. destruct (isCommutative k); [|now apply cmp_node_tree].
  pose proof (ok_sort c Hc [l; r]) as P. apply Permutation_sym, Permutation_length_2_inv in P.
  destruct P as [ -> | -> ]; apply cmp_node_tree; auto. apply comparable_sym; auto; now apply tree_node.
Qed.
Record two_nums (c : cfg) (l r : term) : Prop := {
  tn_l : tree_ok c l; tn_r : tree_ok c r; tn_cm : comparable c l r;
  tn_nl : numS l = true; tn_nr : numS r = true; tn_vl : numeric l; tn_vr : numeric r }.
Lemma num_not l : numS l = true -> isTrue l = false /\ isFalse l = false /\ isArray l = false.
Proof.
  unfold numS, isTrue, isFalse, isCBool, isArray, sis, s_is. intros H.
  destruct (s_kind (t_sort l)); try discriminate H; cbn; rewrite ?andb_false_r; auto.
Qed.
Lemma numeric_not c l : tree_ok c l -> numeric l -> isNot l = false.
Proof.
  intros HT H. destruct (isNot l) eqn:N; [|reflexivity]. exfalso.
  destruct (n_not c l (tree_node c l HT) N) as (q & Eq & _). destruct l as [k s n ch]. unfold isNot, isk in N. cbn [t_kind t_ch] in N, Eq.
  apply keq_spec in N. subst k ch. destruct (H I0 (fun _ => VBool true)) as (v & E). discriminate E.
Qed.
Lemma mkEq_nums c l r : two_nums c l r -> mkEq c l r = mkOper c boolS NT_EQ [l; r].
Proof.
  intros [Tl Tr [Hs _] Nl Nr Vl Vr]. unfold mkEq.
  destruct (num_not l Nl) as (A1 & A2 & _). destruct (num_not r Nr) as (B1 & B2 & _).
  replace (3 * (tsize l + tsize r) + 4)%nat with (S (3 * (tsize l + tsize r) + 3)) by lia. cbn [mkEqF].
  rewrite Hs, A1, A2, B1, B2, (numeric_not c l Tl Vl). reflexivity.
Qed.
Definition split_mk (c : cfg) (l r : term) (k : kind) : res term := if keq k NT_EQ then mkEq c l r else mkCmp c k l r.
Definition cmpv (k : kind) (v w : value) : bool := if keq k NT_EQ then veqb v w else cmpr k v w.
Lemma split_mk_ok c l r k : cfg_ok c -> two_nums c l r -> numk k ->
  exists x, split_mk c l r k = Ok x /\ tree_ok c x /\ isBoolParam x = true /\ forall I e, holds I e x = cmpv k (eval I e l) (eval I e r).
Proof.
  intros Hc H Hk. pose proof H as [Tl Tr Cm Nl Nr Vl Vr].
  destruct (num_not l Nl) as (_ & _ & Al). destruct (num_not r Nr) as (_ & _ & Ar).
  unfold split_mk, cmpv. destruct (keq k NT_EQ) eqn:EK.
  - destruct (mkEq_sound c l r Hc Tl Tr Cm Al Ar) as (x & Ex & Vx). exists x. split; [exact Ex|]. rewrite (mkEq_nums c l r H) in Ex.
    destruct (cmp_build c NT_EQ l r x Hc (or_introl eq_refl) Tl Tr Cm Al Ar Ex) as (T1 & B1). auto.
  - destruct Hk as [ -> | Hk ]; [discriminate EK|].
    destruct (mkCmp_sound c k l r Hc Hk (lo_node c l (tree_node c l Tl)) (lo_node c r (tree_node c r Tr)) Cm) as (x & Ex & Vx).
    exists x. split; [exact Ex|].
    assert (T1 : tree_ok c x /\ isBoolParam x = true).
    { unfold mkCmp in Ex. destruct (sort_eq (t_sort l) (t_sort r)) as [[|]| | | | |]; cbn [bind] in Ex; try discriminate Ex.
      - destruct (teq l r); [unfold mkB in Ex; injection Ex as <-; destruct (refl_val k); split; try reflexivity; apply (TF_tree c true) || apply (TF_tree c false)|].
        now apply (cmp_build c k l r x Hc (or_intror Hk)).
      - destruct (canExempt _ _); [|discriminate Ex]. now apply (cmp_build c k l r x Hc (or_intror Hk)). }
    destruct T1. auto.
Qed.
Lemma num_cmp_tri (a b : Qc) :
  vge (VNum a) (VNum b) = vgt (VNum a) (VNum b) || veqb (VNum a) (VNum b) /\
  vle (VNum a) (VNum b) = vlt (VNum a) (VNum b) || veqb (VNum a) (VNum b) /\
  negb (veqb (VNum a) (VNum b)) = vlt (VNum a) (VNum b) || vgt (VNum a) (VNum b) /\
  negb (vgt (VNum a) (VNum b)) || negb (veqb (VNum a) (VNum b)) = true /\
  negb (vlt (VNum a) (VNum b)) || negb (veqb (VNum a) (VNum b)) = true /\
  negb (vlt (VNum a) (VNum b)) || negb (vgt (VNum a) (VNum b)) = true.
Proof.
  unfold vge, vgt, vle, vlt, veqb, Qcleb, Qcltb. cbn [num].
  destruct (Qc_dec a b) as [[H|H]|H].
  - destruct (Qclt_le_dec a b) as [_|C]; [|exfalso; exact (Qclt_not_le _ _ H C)].
    destruct (Qclt_le_dec b a) as [C|_]; [exfalso; exact (Qclt_not_le _ _ C (Qclt_le_weak _ _ H))|].
    destruct (Qc_eq_dec a b) as [C|_]; [subst; exfalso; exact (Qclt_not_le _ _ H (Qcle_refl _))|]. repeat split.
  - destruct (Qclt_le_dec b a) as [_|C]; [|exfalso; exact (Qclt_not_le _ _ H C)].
    destruct (Qclt_le_dec a b) as [C|_]; [exfalso; exact (Qclt_not_le _ _ C (Qclt_le_weak _ _ H))|].
    destruct (Qc_eq_dec a b) as [C|_]; [subst; exfalso; exact (Qclt_not_le _ _ H (Qcle_refl _))|]. repeat split.
  - subst b. destruct (Qclt_le_dec a a) as [C|_]; [exfalso; exact (Qclt_not_le _ _ C (Qcle_refl _))|].
    destruct (Qc_eq_dec a a) as [_|C]; [|contradiction]. repeat split.
Qed.
Lemma mk2_ok c conj ps : cfg_ok c -> (1 <= length ps)%nat -> (forall p, In p ps -> goodB p) ->
  exists u, mkJunction c (jk conj) ps = Ok u /\ goodB u /\
    forall I e, holds I e u = if conj : bool then forallb (holds I e) ps else existsb (holds I e) ps.
Proof.
  intros Hc Hn HG. pose proof (goodB_args ps HG) as HB.
  assert (X : exists u, mkJunction c (jk conj) ps = Ok u /\
    forall I e, holds I e u = if conj : bool then forallb (holds I e) ps else existsb (holds I e) ps).
  { destruct conj; [destruct (mkAnd_sound c ps Hc HB) as (u & E & V)|destruct (mkOr_sound c ps Hc HB) as (u & E & V)]; exists u; split; [exact E|exact V|exact E|exact V]. }
  destruct X as (u & E & V). exists u. split; [exact E|]. split; [|exact V]. now apply (mkJunction_good c conj ps).
Qed.
Lemma split2_ok c t l r ka kb : cfg_ok c -> t_ch t = [l; r] -> two_nums c l r -> numk ka -> numk kb ->
  (forall a b : Qc, negb (cmpv ka (VNum a) (VNum b)) || negb (cmpv kb (VNum a) (VNum b)) = true) ->
  (forall I e, holds I e t = cmpv ka (eval I e l) (eval I e r) || cmpv kb (eval I e l) (eval I e r)) ->
  exists a, split2 c t ka kb = Ok a /\ goodB (a_res a) /\ same t (a_res a) /\ Forall valid (a_lem a).
Proof.
  intros Hc Ech H2 Ka Kb Ex Hs. unfold split2. rewrite (child01_2 t l r Ech). cbn [bind].
  destruct (split_mk_ok c l r ka Hc H2 Ka) as (x & Exx & Tx & Bx & Vx). destruct (split_mk_ok c l r kb Hc H2 Kb) as (y & Ey & Ty & By & Vy).
  unfold split_mk in Exx, Ey. rewrite Exx, Ey. cbn [bind].
  destruct (mkNot_sound c x Hc Tx Bx) as (nx & Enx & Vnx). destruct (mkNot_sound c y Hc Ty By) as (ny & Eny & Vny).
  pose proof (mkNot_good c x nx Hc Tx Bx Enx) as Gnx. pose proof (mkNot_good c y ny Hc Ty By Eny) as Gny.
  rewrite Enx, Eny. cbn [bind].
  destruct (mk2_ok c false [nx; ny] Hc) as (lem & El & Gl & Vl); [cbn; lia|intros p [ <- | [ <- | [] ]]; auto|].
  destruct (mk2_ok c false [x; y] Hc) as (u & Eu & Gu & Vu); [cbn; lia|intros p [ <- | [ <- | [] ]]; now apply (tree_goodB c)|].
  unfold mkOr. unfold jk in El, Eu. rewrite El, Eu. cbn [bind]. eexists. split; [reflexivity|]. cbn [a_res a_lem]. split; [exact Gu|].
  split.
  - intros I e. rewrite Vu, Hs. cbn [existsb]. now rewrite Vx, Vy, orb_false_r.
  - constructor; [|constructor]. intros I e. rewrite Vl. cbn [existsb]. rewrite Vnx, Vny, Vx, Vy, orb_false_r.
    destruct (tn_vl c l r H2 I e) as (a & ->). destruct (tn_vr c l r H2 I e) as (b & ->). apply Ex.
Qed.
Lemma kin_app k a b : kin k (a ++ b) = kin k a || kin k b.
Proof. apply existsb_app. Qed.
Lemma num_cmp_two c t : num_cmp c t -> exists l r, t_ch t = [l; r] /\ two_nums c l r.
Proof.
  intros (Hk & HB & HT & l & r & Ech & Nl & Nr & Vl & Vr). exists l, r. split; [exact Ech|].
  assert (Cm : comparable c l r).
  { pose proof (tree_node c t HT) as HN. rewrite kin_app in Hk.
    assert (E : forall l' r', t_ch t = [l'; r'] -> l' = l /\ r' = r) by (intros l' r' E; rewrite Ech in E; injection E; auto).
    apply orb_true_iff in Hk. destruct Hk as [Hk|Hk].
    - destruct (n_eq c t HN (or_introl Hk)) as (l' & r' & E' & Cm & _). destruct (E l' r' E') as [ -> -> ]. exact Cm.
    - rewrite kin_app in Hk. apply orb_true_iff in Hk. destruct Hk as [Hk|Hk].
      + destruct (n_eq c t HN (or_intror Hk)) as (l' & r' & E' & Cm & _). destruct (E l' r' E') as [ -> -> ]. exact Cm.
      + destruct (n_cmp c t HN Hk) as (l' & r' & E' & Cm). destruct (E l' r' E') as [ -> -> ]. exact Cm. }
  constructor; auto; apply (tree_ch c t); auto; rewrite Ech; cbn; tauto.
Qed.
Lemma num_cmp_sel c ops t : cfg_ok c -> kin (t_kind t) ops = true -> num_cmp c t -> exists a, sel_split c ops t = Some (Ok a) /\
  goodB (a_res a) /\ same t (a_res a) /\ Forall valid (a_lem a).
Proof.
  intros Hc Ho H. destruct (num_cmp_two c t H) as (l & r & Ech & H2). destruct H as (Hk & HB & HT & _).
  assert (ST : exists a, Some (Ok (Act t false false [])) = Some (Ok a) /\ goodB (a_res a) /\ same t (a_res a) /\ Forall valid (a_lem a)).
  { eexists. split; [reflexivity|]. cbn. split; [now apply (tree_goodB c)|]. split; [apply same_refl|constructor]. }
  assert (SP : forall ka kb, numk ka -> numk kb ->
    (forall a b : Qc, negb (cmpv ka (VNum a) (VNum b)) || negb (cmpv kb (VNum a) (VNum b)) = true) ->
    (forall I e, holds I e t = cmpv ka (eval I e l) (eval I e r) || cmpv kb (eval I e l) (eval I e r)) ->
    exists a, Some (split2 c t ka kb) = Some (Ok a) /\ goodB (a_res a) /\ same t (a_res a) /\ Forall valid (a_lem a)).
  { intros ka kb Ka Kb E1 E2. destruct (split2_ok c t l r ka kb Hc Ech H2 Ka Kb E1 E2) as (a & -> & R). exists a. auto. }
  unfold sel_split. rewrite Ho.
  assert (V : forall I e, exists a b, eval I e l = VNum a /\ eval I e r = VNum b).
  { intros I e. destruct (tn_vl c l r H2 I e) as (a & Ea). destruct (tn_vr c l r H2 I e) as (b & Eb). exists a, b. auto. }
  destruct (isk NT_LT t || isk NT_GT t || isEq t); [exact ST|].
  assert (NC : forall k, isk k t = true -> In k arith_comp_kinds -> forall I e, holds I e t = cmpr k (eval I e l) (eval I e r)).
  { intros k K1 K2 I e. apply isk_kind in K1. destruct t as [k' s n ch]. cbn [t_kind t_ch] in K1, Ech. subst k' ch. now apply cmp_node. }
  destruct (isk NT_GE t) eqn:EGE; [apply SP|destruct (isk NT_LE t) eqn:ELE; [apply SP|destruct (isDistinct t) eqn:ED; [apply SP|exact ST]]].
  all: unfold numk; cbn [arith_comp_kinds In]; auto 6.
  all: try (intros a b; destruct (num_cmp_tri a b) as (_ & _ & _ & A1 & A2 & A3); first [exact A1|exact A2|exact A3]).
  - intros I e. rewrite (NC NT_GE) by (auto; cbn; tauto). destruct (V I e) as (a & b & -> & ->). exact (proj1 (num_cmp_tri a b)).
  - intros I e. rewrite (NC NT_LE) by (auto; cbn; tauto). destruct (V I e) as (a & b & -> & ->). exact (proj1 (proj2 (num_cmp_tri a b))).
  - intros I e. rewrite (holds_dis t l r I e ED Ech). destruct (V I e) as (a & b & -> & ->). exact (proj1 (proj2 (proj2 (num_cmp_tri a b)))).
Qed.
Lemma formula_skel c ops (A : term -> Prop) sel t : (forall p, kin (t_kind p) ops = false -> sel p = None) ->
  (forall p, kin (t_kind p) ops = true -> A p -> exists a, sel p = Some (Ok a) /\ goodB (a_res a) /\ same p (a_res a) /\ Forall valid (a_lem a)) ->
  formula_over c ops A t -> skel sel t.
Proof.
  intros S1 S2 F. induction F as [t HB HE HL HQ|t K HA|k n ch K HA HC IH].
  - apply K_leaf; [|intros p Hp; now apply S1, HQ]. split; [intros C; now apply (HL t (or_introl eq_refl))|auto].
  - destruct (S2 t K HA) as (a & E & G & S & L). now apply (K_sel sel t a).
  - apply K_node; auto.
Qed.
Lemma memo_nil sel : memo_sem sel []. Proof. intros v u []. Qed.
Lemma splitOp_ok c ops t : cfg_ok c -> formula_over c ops (num_cmp c) t ->
  exists u ls, splitOp c ops t = Ok (u, ls) /\ (forall I e, holds I e u = holds I e t) /\ Forall valid ls.
Proof.
  intros Hc F.
  assert (K : skel (sel_split c ops) t).
  { apply (formula_skel c ops (num_cmp c)); [|intros p Hp Ha; now apply num_cmp_sel|exact F]. intros p Hp. unfold sel_split. now rewrite Hp. }
  destruct (walk_sound c _ Hc t K [] (memo_nil _)) as (u & b & V' & ls & E & _ & S & L & _).
  exists u, ls. unfold splitOp. rewrite E. cbn [bind]. split; [reflexivity|]. split; [exact S|exact L].
Qed.

(** ** binarising *)
Definition pair_ok (f : term -> term -> res term) (g : value -> value -> bool) (a b : term) : Prop :=
  exists x, f a b = Ok x /\ goodB x /\ forall I e, holds I e x = g (eval I e a) (eval I e b).
Lemma pairs_next_ok f g (R : term -> term -> Prop) l : (forall a b, In a l -> In b l -> R a b -> pair_ok f g a b) ->
  (fix go ps := match ps with a :: ((b :: _) as tl) => R a b /\ go tl | _ => True end) l ->
  exists xs, pairs_next f l = Ok xs /\ (forall x, In x xs -> goodB x) /\
    forall I e, forallb (holds I e) xs = chain g (map (eval I e) l).
Proof.
  induction l as [|a l IH]; intros HP HR; [exists []; split; [reflexivity|split; [intros ? []|reflexivity]]|].
  destruct l as [|b l]; [exists []; split; [reflexivity|split; [intros ? []|reflexivity]]|]. destruct HR as [R1 R2].
  destruct (HP a b (or_introl eq_refl) (or_intror (or_introl eq_refl)) R1) as (x & Ex & Gx & Vx).
  destruct IH as (xs & Es & Gs & Vs); [intros a' b' Ha Hb; apply HP; now right|exact R2|].
  exists (x :: xs). split; [cbn [pairs_next] in Es |- *; rewrite Ex; cbn [bind]; rewrite Es; reflexivity|].
  split; [intros y [ <- | Hy ]; auto|]. intros I e. cbn [forallb]. rewrite Vx, Vs. reflexivity.
Qed.
Lemma mapM_pairs f g a l : (forall b, In b l -> pair_ok f g a b) ->
  exists xs, mapM (f a) l = Ok xs /\ (forall x, In x xs -> goodB x) /\ forall I e, forallb (holds I e) xs = forallb (g (eval I e a)) (map (eval I e) l).
Proof.
  induction l as [|b l IH]; intros HP; [exists []; split; [reflexivity|split; [intros ? []|reflexivity]]|].
  destruct (HP b (or_introl eq_refl)) as (x & Ex & Gx & Vx). destruct IH as (xs & Es & Gs & Vs); [intros b' Hb; apply HP; now right|].
  exists (x :: xs). split; [cbn [mapM]; rewrite Ex; cbn [bind]; rewrite Es; reflexivity|]. split; [intros y [ <- | Hy ]; auto|].
  intros I e. cbn [forallb map]. now rewrite Vx, Vs.
Qed.
Lemma pairs_all_ok f g l : (forall a b, In a l -> In b l -> pair_ok f g a b) ->
  exists xs, pairs_all f l = Ok xs /\ (forall x, In x xs -> goodB x) /\ forall I e, forallb (holds I e) xs = pairwise g (map (eval I e) l).
Proof.
  induction l as [|a l IH]; intros HP; [exists []; split; [reflexivity|split; [intros ? []|reflexivity]]|].
  destruct (mapM_pairs f g a l) as (xs & Ex & Gx & Vx); [intros b Hb; apply HP; [now left|now right]|].
  destruct IH as (ys & Es & Gs & Vs); [intros a' b' Ha Hb; apply HP; now right|].
  exists (xs ++ ys). split; [cbn [pairs_all]; rewrite Ex; cbn [bind]; rewrite Es; reflexivity|].
  split; [intros y Hy; apply in_app_or in Hy; destruct Hy; auto|]. intros I e. rewrite forallb_app, Vx, Vs. reflexivity.
Qed.
Lemma pairs_next_len f a b l xs : pairs_next f (a :: b :: l) = Ok xs -> (1 <= length xs)%nat.
Proof.
  cbn [pairs_next]. destruct (f a b); cbn [bind]; try discriminate.
  match goal with |- bind ?r _ = _ -> _ => destruct r; cbn [bind]; try discriminate end.
  intros E. injection E as <-. cbn. lia.
Qed.
Lemma mkEqV2 c l r : node_ok c l -> node_ok c r -> comparable c l r -> mkEqV c [l; r] = mkEq c l r.
Proof.
  intros Nl Nr [Hs _]. unfold mkEqV, mkEqV_. cbn [length Nat.ltb Nat.leb]. destruct (check2 c l r Nl Nr Hs) as (s & -> & _). reflexivity.
Qed.
Lemma mkCmpV2 c k l r : node_ok c l -> node_ok c r -> comparable c l r -> mkCmpV c k [l; r] = mkCmp c k l r.
Proof.
  intros Nl Nr [Hs _]. unfold mkCmpV. cbn [length Nat.ltb Nat.leb]. destruct (check2 c l r Nl Nr Hs) as (s & -> & _). reflexivity.
Qed.
Lemma big_sel c t r : cfg_ok c -> goodB t -> (2 <= length (t_ch t))%nat ->
  (exists xs, r = Ok xs /\ (forall x, In x xs -> goodB x) /\ forall I e, forallb (holds I e) xs = holds I e t) ->
  exists a, (if Nat.ltb 2 (length (t_ch t)) then xs <- r ;; u <- mkAnd c xs ;; Ok (Act u true true []) else Ok (Act t false true [])) = Ok a /\
    goodB (a_res a) /\ same t (a_res a) /\ Forall valid (a_lem a).
Proof.
  intros Hc G Hn (xs & -> & Gx & Vx). destruct (Nat.ltb 2 (length (t_ch t))).
  - cbn [bind]. destruct (mkAnd_sound c xs Hc (goodB_args xs Gx)) as (u & Eu & Vu). rewrite Eu. cbn [bind].
    eexists. split; [reflexivity|]. cbn [a_res a_lem]. split; [now apply (mkJunction_good c true xs)|].
    split; [intros I e; now rewrite Vu, Vx|constructor].
  - eexists. split; [reflexivity|]. cbn [a_res a_lem]. split; [exact G|]. split; [apply same_refl|constructor].
Qed.
Lemma nary_sel c ops t : cfg_ok c -> kin (t_kind t) ops = true -> nary_cmp c t -> exists a, sel_bin c ops t = Some (Ok a) /\
  goodB (a_res a) /\ same t (a_res a) /\ Forall valid (a_lem a).
Proof.
  intros Hc Ho (HB & Hn & HT & HD). unfold sel_bin. rewrite Ho. cbv zeta.
  assert (W : forall r, goodB t -> (exists xs, r = Ok xs /\ (forall x, In x xs -> goodB x) /\ forall I e, forallb (holds I e) xs = holds I e t) ->
    exists a, Some (if Nat.ltb 2 (length (t_ch t)) then xs <- r ;; u <- mkAnd c xs ;; Ok (Act u true true []) else Ok (Act t false true [])) = Some (Ok a) /\
    goodB (a_res a) /\ same t (a_res a) /\ Forall valid (a_lem a)).
  { intros r G X. destruct (big_sel c t r Hc G Hn X) as (a & -> & Y). exists a. auto. }
  destruct t as [k s n ch]. cbn [t_kind t_ch] in *. unfold isBoolParam, sis in HB. cbn [t_sort] in HB.
  assert (N : forall x, In x ch -> node_ok c x) by (intros x Hx; apply tree_node; auto).
  assert (Ne : ch <> []) by (intros ->; cbn in Hn; lia).
  assert (C2 : forall (r : value -> value -> bool) I e, cmpop r (map (eval I e) ch) = Some (VBool (chain r (map (eval I e) ch)))).
  { intros r I e. destruct ch as [|a [|b ch]]; cbn in Hn; try lia. reflexivity. }
  destruct HD as [(E & Nb & Ar)|[(D & Cm)|(K & Nb & NS)]].
  - rewrite E. apply W.
    + unfold isEq in E. cbn [t_kind] in E. split; [intros C; destruct k; discriminate E || discriminate C|]. split; [exact HB|]. destruct k; discriminate E || reflexivity.
    + destruct (pairs_next_ok (fun a b => mkEqV c [a; b]) veqb (comparable c) ch) as (xs & Ex & Gx & Vx).
      { intros a b Ha Hb R. unfold pair_ok. rewrite mkEqV2 by auto.
        destruct (mkEq_sound c a b Hc (HT a Ha) (HT b Hb) R (Ar a Ha) (Ar b Hb)) as (x & Ex & Vx). exists x. split; [exact Ex|].
        split; [|exact Vx]. apply (mkEq_good c a b); auto. }
      { exact Nb. }
      exists xs. split; [exact Ex|]. split; [exact Gx|]. intros I e. rewrite Vx. symmetry.
      rewrite (holds_op I e k s n ch (VBool (chain veqb (map (eval I e) ch)))); [reflexivity|exact Ne| |];
        unfold isEq in E; cbn [t_kind] in E; destruct k; discriminate E || reflexivity || apply C2.
  - assert (NE : isEq (T k s n ch) = false) by (unfold isEq, isDistinct in *; cbn [t_kind] in *; destruct k; discriminate D || reflexivity).
    rewrite NE, D. apply W.
    + unfold isDistinct in D. cbn [t_kind] in D. split; [intros C; destruct k; discriminate D || discriminate C|]. split; [exact HB|]. destruct k; discriminate D || reflexivity.
    + destruct (pairs_all_ok (fun a b => mkDistinctV c [a; b]) (fun a b => negb (veqb a b)) ch) as (xs & Ex & Gx & Vx).
      { intros a b Ha Hb. destruct (mkDistinctV2 c a b Hc (N a Ha) (N b Hb) (Cm a b Ha Hb)) as (x & Ex & Vx). exists x. split; [exact Ex|].
        split; [|exact Vx]. apply (mkDistinctV_good c a b); auto. }
      exists xs. split; [exact Ex|]. split; [exact Gx|]. intros I e. rewrite Vx. symmetry.
      rewrite (holds_op I e k s n ch (VBool (pairwise (fun a b => negb (veqb a b)) (map (eval I e) ch)))); [reflexivity|exact Ne| |];
        unfold isDistinct in D; cbn [t_kind] in D; [destruct k; discriminate D || reflexivity|].
      destruct ch as [|a [|b ch]]; cbn in Hn; try lia. destruct k; discriminate D || reflexivity.
  - assert (NE : isEq (T k s n ch) = false /\ isDistinct (T k s n ch) = false) by (unfold isEq, isDistinct in *; cbn [t_kind] in *; destruct k; discriminate K || auto).
    destruct NE as [-> ->]. rewrite K. assert (KI : In k arith_comp_kinds) by (destruct k; discriminate K || (cbn; tauto)). apply W.
    + split; [intros C; destruct k; discriminate K || discriminate C|]. split; [exact HB|]. destruct k; discriminate K || reflexivity.
    + destruct (pairs_next_ok (fun a b => mkCmpV c k [a; b]) (cmpr k) (comparable c) ch) as (xs & Ex & Gx & Vx).
      { intros a b Ha Hb R. unfold pair_ok. rewrite mkCmpV2 by auto.
        destruct (mkCmp_sound c k a b Hc KI (lo_node c a (N a Ha)) (lo_node c b (N b Hb)) R) as (x & Ex & Vx). exists x. split; [exact Ex|].
        split; [|exact Vx]. apply (mkCmp_good c k a b); auto. }
      { exact Nb. }
      exists xs. split; [exact Ex|]. split; [exact Gx|]. intros I e. rewrite Vx. symmetry.
      rewrite (holds_op I e k s n ch (VBool (chain (cmpr k) (map (eval I e) ch)))); [reflexivity|exact Ne| |];
        destruct k; discriminate K || reflexivity || apply C2.
Qed.
Lemma binarizeOp_ok c ops t : cfg_ok c -> formula_over c ops (nary_cmp c) t ->
  exists u, binarizeOp c ops t = Ok u /\ forall I e, holds I e u = holds I e t.
Proof.
  intros Hc F.
  assert (K : skel (sel_bin c ops) t).
  { apply (formula_skel c ops (nary_cmp c)); [|intros p Hp Ha; now apply nary_sel|exact F]. intros p Hp. unfold sel_bin. now rewrite Hp. }
  destruct (walk_sound c _ Hc t K [] (memo_nil _)) as (u & b & V' & ls & E & _ & S & _ & _).
  exists u. unfold binarizeOp. rewrite E. cbn [bind]. split; [reflexivity|exact S].
Qed.
