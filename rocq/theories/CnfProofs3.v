(** Conjunctive normal form, part 3: NNF, flattening and the two entry points. *)
From Coq Require Import QArith Qcanon Permutation ZifyBool ZifyNat.
From Verif Require Import Base KindModel SortModel TermModel BVModel BVSpec UtilModel UtilSpec DagProofs SortProofs
  Sem SemProofs ArrayModel SimpModel OpModel OpSpec OpProofs OpProofs2 OpProofs3 OpProofs4 OpProofs5 OpProofs6 OpProofs7
  ShapeProofs ConvModel ConvSpec ConvProofs WalkProofs GoodProofs SplitProofs CnfModel CnfSpec CnfProofs CnfAtoms CnfProofs2.
Open Scope Z_scope.

(** what NNF produces *)
Definition KT (_ : term) : Prop := True.
Definition nfm (c : cfg) (t : term) : Prop := pfi c KT true t.
Lemma nfm_lit c t : slit t -> nfm c t.
Proof. apply PI_slit. Qed.
Lemma alit_nfm c t : alit c t -> nfm c t.
Proof. intros [t' H|t' H|n t' H]; [now apply PI_slit|now apply PI_atom|apply PI_not; right; now split]. Qed.
Lemma pfm_pfi c t : pfm c t -> pfi c KT false t.
Proof.
  induction t as [k s n ch IH] using term_ind'. rewrite Forall_forall in IH. intros H.
  inversion H as [ | |t' V|n' t' V|t' V|n' t' V|k' n' ch' A C]; subst.
  - apply PI_slit, SL_true.
  - apply PI_slit, SL_false.
  - apply PI_slit. now apply SL_var.
  - apply PI_slit. now apply SL_neg.
  - now apply PI_atom.
  - apply PI_not. right. now split.
  - apply PI_node; [exact A|discriminate|]. cbn [andb]. intros x Hx. apply IH; auto.
Qed.
Lemma nfm_good c t : nfm c t -> goodB t.
Proof. apply pfi_good. Qed.
(** and/or of such formulas *)
Lemma junction_nfm c (conj : bool) ps : cfg_ok c -> (forall p, In p ps -> nfm c p) ->
  exists r, mkJunction c (jk conj) ps = Ok r /\ nfm c r /\ (forall n, (forall p, In p ps -> below n p) -> below n r) /\
    forall I e, holds I e r = if conj then forallb (holds I e) ps else existsb (holds I e) ps.
Proof.
  intros Hc H. assert (HB : bool_args ps) by (apply goodB_args; intros p Hp; now apply (nfm_good c), H).
  destruct (mkJunction_sound c conj ps Hc HB) as (r & E & V). exists r. split; [destruct conj; exact E|].
  assert (E' : mkJunction c (jk conj) ps = Ok r) by (destruct conj; exact E).
  apply mkJunction_shape in E'; [|exact Hc|exact HB]. destruct E' as [ -> | [ -> | [Hin|(qs & -> & L & Hi & _)] ]].
  - split; [apply nfm_lit; constructor|]. split; [intros; apply below_TRUE|]. intros I e. rewrite V. now destruct conj.
  - split; [apply nfm_lit; constructor|]. split; [intros; apply below_FALSE|]. intros I e. rewrite V. now destruct conj.
  - split; [now apply H|]. split; [auto|]. intros I e. rewrite V. now destruct conj.
  - split; [apply PI_node; [destruct conj; cbn [node_arity jk]; now apply Nat.leb_le|destruct conj; discriminate|]; intros x Hx;
            replace (true && kin (jk conj) [NT_AND; NT_OR]) with true by (now destruct conj); apply H, Hi, Hx|].
    split; [intros n Hb; apply below_kind; [destruct conj; discriminate|intros x Hx; apply Hb, Hi, Hx]|]. intros I e. rewrite V. now destruct conj.
Qed.
Definition nnf_good (c : cfg) (b : bool) (t : term) : Prop :=
  exists r, nnf c t b = Ok r /\ nfm c r /\ (forall n, below n t -> below n r) /\ forall I e, holds I e r = xorb b (holds I e t).
Lemma nnf_alit c b t : cfg_ok c -> alit c t -> isNot t = false -> nnf_good c b t.
Proof.
  intros Hc S N. unfold nnf_good.
  assert (E : nnf c t b = if b then mkNot c t else Ok t).
  { destruct S as [t' [ | |t'' [k n H]|n t'' H]|t' H|n t' H]; [reflexivity|reflexivity| |discriminate N| |discriminate N].
    - destruct (var_kinds5 k H) as [ -> | [ -> | [ -> | [ -> | -> ]]]]; reflexivity.
    - destruct (tatom_cb c t' H) as (CB & VB & _).
      assert (K : forall k, In k [NT_NOT; NT_AND; NT_OR; NT_XOR; NT_IMPLIES; NT_ITE] -> isk k t' = false) by (intros k Hk; apply (tatom_isk c t' k H); cbn in Hk |- *; tauto).
      destruct t' as [k s n ch]. cbn [nnf]. rewrite CB, VB. cbn [orb]. unfold isk in K. cbn [t_kind] in K.
      destruct k; try reflexivity; exfalso.
      + specialize (K NT_AND). cbn in K. discriminate K. tauto.
      + specialize (K NT_OR). cbn in K. discriminate K. tauto.
      + specialize (K NT_NOT). cbn in K. discriminate K. tauto.
      + specialize (K NT_IMPLIES). cbn in K. discriminate K. tauto.
      + specialize (K NT_ITE). cbn in K. discriminate K. tauto. }
  rewrite E. destruct b.
  - destruct (alit_not c t Hc S) as (u & -> & Su & B & V). exists u. split; [reflexivity|]. split; [now apply alit_nfm|]. split; [exact B|].
    intros I e. rewrite V. now destruct (holds I e t).
  - exists t. split; [reflexivity|]. split; [now apply alit_nfm|]. split; [auto|]. intros I e. now rewrite xorb_false_l.
Qed.
Lemma nnf_not c b n t : nnf_good c (negb b) t -> nnf_good c b (T NT_NOT boolS n [t]).
Proof.
  intros (r & E & N & B & V). exists r. split; [exact E|]. split; [exact N|].
  split; [intros m Hm; apply B; apply (below_ch m _ t Hm); now left|]. intros I e. rewrite V, (holds_not (T NT_NOT boolS n [t]) t I e) by reflexivity.
  now destruct b, (holds I e t).
Qed.
Definition nnfs (c : cfg) (neg : bool) := fix go (l : list term) : res (list term) :=
  match l with [] => Ok [] | x :: l' => b <- nnf c x neg ;; bs <- go l' ;; Ok (b :: bs) end.
Lemma nnfs_ok c b l : (forall x, In x l -> nnf_good c b x) ->
  exists rs, nnfs c b l = Ok rs /\ (forall r, In r rs -> nfm c r) /\ (forall n, (forall x, In x l -> below n x) -> forall r, In r rs -> below n r) /\
    forall I e, map (holds I e) rs = map (fun x => xorb b (holds I e x)) l.
Proof.
  induction l as [|x l IH]; intros H.
  - exists []. split; [reflexivity|]. split; [intros r []|]. split; [intros n _ r []|reflexivity].
  - destruct (H x (or_introl eq_refl)) as (r & E & N & B & V). destruct IH as (rs & E' & N' & B' & V'); [intros y Hy; apply H; now right|].
    exists (r :: rs). split; [cbn [nnfs]; fold (nnfs c b); rewrite E; cbn [bind]; rewrite E'; reflexivity|].
    split; [intros y [ <- | Hy ]; auto|]. split; [|intros I e; cbn [map]; now rewrite V, V'].
    intros n Hb y [ <- | Hy ]; [apply B, Hb; now left|]. apply (B' n); [intros z Hz; apply Hb; now right|exact Hy].
Qed.
Lemma forallb_negb (f : term -> bool) l : forallb (fun x => negb (f x)) l = negb (existsb f l).
Proof. induction l as [|x l IH]; [reflexivity|]. cbn. rewrite IH. now destruct (f x). Qed.
Lemma existsb_negb (f : term -> bool) l : existsb (fun x => negb (f x)) l = negb (forallb f l).
Proof. induction l as [|x l IH]; [reflexivity|]. cbn. rewrite IH. now destruct (f x). Qed.
Lemma forallb_maps (f : bool -> bool) (l : list term) (g : term -> bool) : forallb (fun b => b) (map (fun x => f (g x)) l) = forallb (fun x => f (g x)) l.
Proof. induction l as [|x l IH]; [reflexivity|]. cbn. now rewrite IH. Qed.
Lemma existsb_maps (f : bool -> bool) (l : list term) (g : term -> bool) : existsb (fun b => b) (map (fun x => f (g x)) l) = existsb (fun x => f (g x)) l.
Proof. induction l as [|x l IH]; [reflexivity|]. cbn. now rewrite IH. Qed.
Lemma forallb_ext' (f g : term -> bool) l : (forall x, f x = g x) -> forallb f l = forallb g l.
Proof. intros H. induction l as [|x l IH]; [reflexivity|]. cbn. now rewrite IH, H. Qed.
Lemma existsb_ext' (f g : term -> bool) l : (forall x, f x = g x) -> existsb f l = existsb g l.
Proof. intros H. induction l as [|x l IH]; [reflexivity|]. cbn. now rewrite IH, H. Qed.
(** the junction of the converted children; [conj] is the connective before negation *)
Lemma nnf_junction c (conj b : bool) n ch : cfg_ok c -> ch <> [] -> (forall x, In x ch -> nnf_good c b x) ->
  nnf_good c b (T (jk conj) boolS n ch).
Proof.
  intros Hc NE H. destruct (nnfs_ok c b ch H) as (rs & E & N & B & V).
  destruct (junction_nfm c (xorb b conj) rs Hc N) as (r & Er & Nr & Br & Vr).
  assert (X : nnf c (T (jk conj) boolS n ch) b = (bs <- nnfs c b ch ;; mkJunction c (jk (xorb b conj)) bs)) by (destruct conj, b; reflexivity).
  unfold nnf_good. rewrite X, E. cbn [bind]. exists r. split; [exact Er|]. split; [exact Nr|].
  split; [intros m Hm; apply Br; apply (B m); intros x Hx; now apply (below_ch m _ x Hm)|].
  intros I e. rewrite Vr. specialize (V I e).
  destruct conj, b; cbn [jk xorb]; rewrite ?holds_and, ?holds_or by exact NE; cbn [xorb];
    rewrite ?(forallb_mapid (holds I e) rs), ?(existsb_mapid (holds I e) rs), V, ?(forallb_maps (xorb true)), ?(forallb_maps (xorb false)), ?(existsb_maps (xorb true)), ?(existsb_maps (xorb false)).
  - rewrite (existsb_ext' _ (fun x => negb (holds I e x))) by reflexivity. apply existsb_negb.
  - rewrite (forallb_ext' _ (holds I e)) by (intros x; apply xorb_false_l). now destruct (forallb (holds I e) ch).
  - rewrite (forallb_ext' _ (fun x => negb (holds I e x))) by reflexivity. apply forallb_negb.
  - rewrite (existsb_ext' _ (holds I e)) by (intros x; apply xorb_false_l). now destruct (existsb (holds I e) ch).
Qed.
Lemma jun2 c (conj : bool) x y : cfg_ok c -> nfm c x -> nfm c y ->
  exists r, mkJunction c (jk conj) [x; y] = Ok r /\ nfm c r /\ (forall n, below n x -> below n y -> below n r) /\
    forall I e, holds I e r = if conj then holds I e x && holds I e y else holds I e x || holds I e y.
Proof.
  intros Hc Hx Hy. destruct (junction_nfm c conj [x; y] Hc) as (r & E & N & B & V); [intros p [ <- | [ <- | [] ]]; assumption|].
  exists r. split; [exact E|]. split; [exact N|]. split; [intros n A1 A2; apply B; intros p [ <- | [ <- | [] ]]; assumption|].
  intros I e. rewrite V. destruct conj; cbn [forallb existsb]; [now rewrite andb_true_r|now rewrite orb_false_r].
Qed.
Lemma cfm_sort c b t : cfm c b t -> t_sort t = boolS.
Proof. intros [ | |b' t' [k m H]|b' t' H|k m ch K A C|b' m a Fa|b' m ps NE Fp|b' m ps NE Fp|b' m p q Fp Fq|b' m p q r Fp Fp' Fq Fr]; try reflexivity. now apply (tatom_sort c). Qed.
Lemma bool_var_alit c t : bool_var t -> alit c t.
Proof. intros H. apply AL_slit. now apply SL_var. Qed.
Lemma bool_var_not t : bool_var t -> isNot t = false.
Proof. intros [k' n' H']. destruct (var_kinds5 k' H') as [ -> | [ -> | [ -> | [ -> | -> ]]]]; reflexivity. Qed.
Lemma nnf_cfm c t : cfg_ok c -> forall b, cfm c b t -> nnf_good c b t.
Proof.
  intros Hc. induction t as [k s n ch IH] using term_ind'. rewrite Forall_forall in IH. intros b F.
  inversion F as [b'|b'|b' t' H'|b' t' H'|k' n' ch' K A C|b' n' a Fa|b' n' ps NE Fp|b' n' ps NE Fp|b' n' p q Fp Fq|b' n' p q r Fp Fp' Fq Fr]; subst.
  - apply nnf_alit; [exact Hc|apply AL_slit; constructor|reflexivity].
  - apply nnf_alit; [exact Hc|apply AL_slit; constructor|reflexivity].
  - apply nnf_alit; [exact Hc|now apply bool_var_alit|now apply bool_var_not].
  - apply nnf_alit; [exact Hc|now apply AL_atom|apply (tatom_isk c _ NT_NOT H'); cbn; tauto].
  - exists (T k boolS n ch). split; [destruct k; try discriminate K; reflexivity|]. split; [|split; [auto|intros I e; now rewrite xorb_false_l]].
    apply PI_node; [exact A|intros _ ->; discriminate K|]. intros x Hx. replace (true && kin k [NT_AND; NT_OR]) with false by (destruct k; try discriminate K; reflexivity).
    apply pfm_pfi. now apply C.
  - apply nnf_not. apply (IH a (or_introl eq_refl) (negb b) Fa).
  - apply (nnf_junction c true b n ch Hc NE). intros x Hx. apply IH; auto.
  - apply (nnf_junction c false b n ch Hc NE). intros x Hx. apply IH; auto.
  - destruct (IH p (or_introl eq_refl) (negb b) Fp) as (x & Ex & Nx & Bx & Vx).
    destruct (IH q (or_intror (or_introl eq_refl)) b Fq) as (y & Ey & Ny & By & Vy).
    destruct (jun2 c b x y Hc Nx Ny) as (r & Er & Nr & Br & Vr). exists r.
    split; [|split; [exact Nr|split]].
    + destruct b; cbn [nnf isCBool]; cbn [negb] in Ex; change (isCBool (T NT_IMPLIES boolS n [p; q]) || isVBool (T NT_IMPLIES boolS n [p; q])) with false; cbv iota; rewrite Ex; cbn [bind]; rewrite Ey; exact Er.
    + intros m Hm. apply Br; [apply Bx|apply By]; apply (below_ch m _ _ Hm); cbn; tauto.
    + intros I e. rewrite Vr, Vx, Vy. rewrite (skel_holds NT_IMPLIES boolS n [p; q] I e eq_refl). cbn [map skel_sem imps].
      now destruct b, (holds I e p), (holds I e q).
  - destruct (IH p (or_introl eq_refl) true Fp) as (x' & Ex' & Nx' & Bx' & Vx').
    destruct (IH p (or_introl eq_refl) false Fp') as (x & Ex & Nx & Bx & Vx).
    destruct (IH q (or_intror (or_introl eq_refl)) b Fq) as (y & Ey & Ny & By & Vy).
    destruct (IH r (or_intror (or_intror (or_introl eq_refl))) b Fr) as (z & Ez & Nz & Bz & Vz).
    destruct (jun2 c true x y Hc Nx Ny) as (u & Eu & Nu & Bu & Vu). destruct (jun2 c true x' z Hc Nx' Nz) as (v & Ev & Nv & Bv & Vv).
    destruct (jun2 c false u v Hc Nu Nv) as (w & Ew & Nw & Bw & Vw). exists w. split; [|split; [exact Nw|split]].
    + cbn [nnf]. change (isCBool (T NT_ITE boolS n [p; q; r]) || isVBool (T NT_ITE boolS n [p; q; r])) with false. cbv iota.
      assert (SQ : sis SK_BOOL q = true) by (unfold sis; now rewrite (cfm_sort c b q Fq)).
      rewrite SQ, Ex. cbn [bind]. rewrite Ey. cbn [bind]. unfold mkAnd, mkOr. change NT_AND with (jk true) at 1. rewrite Eu. cbn [bind]. rewrite Ex'. cbn [bind].
      rewrite Ez. cbn [bind]. change NT_AND with (jk true). rewrite Ev. cbn [bind]. exact Ew.
    + intros m Hm. assert (HB : forall d, In d [p; q; r] -> below m d) by (intros d Hd; now apply (below_ch m _ d Hm)).
      apply Bw; [apply Bu|apply Bv]; [apply Bx|apply By|apply Bx'|apply Bz]; apply HB; cbn; tauto.
    + intros I e. rewrite Vw, Vu, Vv, Vx, Vx', Vy, Vz, (skel_holds NT_ITE boolS n [p; q; r] I e eq_refl). cbn [map skel_sem].
      now destruct b, (holds I e p), (holds I e q), (holds I e r).
Qed.

(** ** flattening *)
Definition flatgo (k : kind) := fix go (l acc : list term) : list term :=
  match l with [] => acc | x :: r => go r (flat k x ++ acc) end.
Lemma flatgo_perm k l : forall acc, Permutation (flatgo k l acc) (flat_map (flat k) l ++ acc).
Proof.
  induction l as [|x l IH]; intros acc; [reflexivity|]. cbn [flatgo flat_map]. fold (flatgo k). rewrite IH, <- app_assoc.
  apply Permutation_app_swap_app.
Qed.
Lemma flat_node k s n ch : Permutation (flat k (T k s n ch)) (flat_map (flat k) ch).
Proof.
  cbn [flat]. replace (keq k k) with true by (symmetry; now apply keq_spec). fold (flatgo k). rewrite flatgo_perm. now rewrite app_nil_r.
Qed.
Lemma flat_other k t : isk k t = false -> flat k t = [t].
Proof. destruct t as [k' s n ch]. unfold isk. cbn [t_kind flat]. now intros ->. Qed.
Lemma keq_refl k : keq k k = true. Proof. now apply keq_spec. Qed.
Lemma nfm_inv c (conj : bool) t : nfm c t -> isk (jk conj) t = true -> exists n ch, t = T (jk conj) boolS n ch /\ ch <> [] /\ forall x, In x ch -> nfm c x.
Proof.
  unfold nfm. intros H K. inversion H as [b t' S|b t' A B|b n t' D|b k n ch A N C]; subst.
  - exfalso. destruct S as [ | |t' [k n V]|n t' V]; destruct conj; try discriminate K; destruct (var_kinds5 k V) as [ -> | [ -> | [ -> | [ -> | -> ]]]]; discriminate K.
  - rewrite (tatom_isk c t (jk conj) A) in K; [discriminate K|]. destruct conj; cbn; tauto.
  - destruct conj; discriminate K.
  - apply isk_kind in K. cbn [t_kind] in K. subst k. exists n, ch. split; [reflexivity|]. split; [intros ->; destruct conj; discriminate A|].
    replace (true && kin (jk conj) [NT_AND; NT_OR]) with true in C by (now destruct conj). exact C.
Qed.
Definition jsem (conj : bool) (f : term -> bool) (l : list term) : bool := if conj then forallb f l else existsb f l.
Lemma jsem_perm conj f l l' : Permutation l l' -> jsem conj f l = jsem conj f l'.
Proof. intros P. induction P; destruct conj; cbn [jsem forallb existsb] in *; try congruence; [now rewrite !andb_assoc, (andb_comm (f y))|now rewrite !orb_assoc, (orb_comm (f y))]. Qed.
Lemma jsem_app conj f l l' : jsem conj f (l ++ l') = if conj then jsem conj f l && jsem conj f l' else jsem conj f l || jsem conj f l'.
Proof. destruct conj; [apply forallb_app|apply existsb_app]. Qed.
Lemma holds_j conj I e n ch : ch <> [] -> holds I e (T (jk conj) boolS n ch) = jsem conj (holds I e) ch.
Proof. destruct conj; [apply holds_and|apply holds_or]. Qed.
Definition total (l : list term) : nat := fold_right (fun t a => tsize t + a)%nat O l.
Lemma total_app l l' : total (l ++ l') = (total l + total l')%nat.
Proof. induction l as [|x l IH]; [reflexivity|]. cbn [app total fold_right]. fold (total l). fold (total (l ++ l')). lia. Qed.
Lemma total_perm l l' : Permutation l l' -> total l = total l'.
Proof. intros P. induction P; cbn [total fold_right] in *; fold total in *; try congruence; unfold total in *; lia. Qed.
Lemma tsize_pos t : (1 <= tsize t)%nat.
Proof. destruct t. cbn [tsize]. lia. Qed.
(** the flattened list: same meaning, no such node at the top, and smaller *)
Record flat_ok (c : cfg) (conj : bool) (t : term) (l : list term) : Prop := {
  f_nfm : forall x, In x l -> nfm c x /\ isk (jk conj) x = false;
  f_sem : forall I e, jsem conj (holds I e) l = holds I e t;
  f_below : forall n, below n t -> forall x, In x l -> below n x;
  f_size : (total l <= tsize t)%nat;
  f_less : isk (jk conj) t = true -> (total l < tsize t)%nat }.
Lemma flat_good c conj t : nfm c t -> flat_ok c conj t (flat (jk conj) t).
Proof.
  induction t as [k s n ch IH] using term_ind'. rewrite Forall_forall in IH. intros H.
  destruct (isk (jk conj) (T k s n ch)) eqn:K.
  - destruct (nfm_inv c conj _ H K) as (n' & ch' & E & NE & C). injection E as -> -> -> ->.
    pose proof (flat_node (jk conj) boolS n' ch') as P.
    assert (X : flat_ok c conj (T (jk conj) boolS n' ch') (flat_map (flat (jk conj)) ch') /\ (total (flat_map (flat (jk conj)) ch') <= total ch')%nat).
    { assert (Y : forall l, (forall x, In x l -> In x ch') ->
        (forall x, In x (flat_map (flat (jk conj)) l) -> nfm c x /\ isk (jk conj) x = false) /\
        (forall I e, jsem conj (holds I e) (flat_map (flat (jk conj)) l) = jsem conj (holds I e) l) /\
        (forall m, (forall x, In x l -> below m x) -> forall x, In x (flat_map (flat (jk conj)) l) -> below m x) /\
        (total (flat_map (flat (jk conj)) l) <= total l)%nat).
      { induction l as [|x l IHl]; intros Hin.
        - split; [intros x []|]. split; [now destruct conj|]. split; [intros m _ x []|cbn; lia].
        - destruct (IHl (fun y Hy => Hin y (or_intror Hy))) as (A & B & D & Z). destruct (IH x (Hin x (or_introl eq_refl)) (C x (Hin x (or_introl eq_refl)))) as [A1 B1 D1 Z1 _].
          cbn [flat_map]. split; [intros y Hy; apply in_app_or in Hy; destruct Hy; auto|]. split; [|split].
          + intros I e. rewrite jsem_app, B1, B. now destruct conj.
          + intros m Hm y Hy. apply in_app_or in Hy. destruct Hy as [Hy|Hy]; [apply (D1 m); [apply Hm; now left|exact Hy]|apply (D m); [intros z Hz; apply Hm; now right|exact Hy]].
          + rewrite total_app. cbn [total fold_right]. fold (total l). lia. }
      destruct (Y ch' (fun x Hx => Hx)) as (A & B & D & Z). split; [|exact Z]. constructor; [exact A| | | |].
      - intros I e. now rewrite B, holds_j.
      - intros m Hm. apply D. intros x Hx. now apply (below_ch m _ x Hm).
      - cbn [tsize]. fold (total ch'). lia.
      - intros _. cbn [tsize]. fold (total ch'). lia. }
    destruct X as [X Z]. constructor.
    + intros x Hx. apply (f_nfm _ _ _ _ X). now apply (Permutation_in x P).
    + intros I e. rewrite (jsem_perm conj (holds I e) _ _ P). apply X.
    + intros m Hm x Hx. apply (f_below _ _ _ _ X m Hm). now apply (Permutation_in x P).
    + rewrite (total_perm _ _ P). apply X.
    + intros _. rewrite (total_perm _ _ P). now apply X.
  - rewrite flat_other by exact K. constructor.
    + intros x [ <- | [] ]. now split.
    + intros I e. destruct conj; cbn [jsem forallb existsb]; [apply andb_true_r|apply orb_false_r].
    + intros m Hm x [ <- | [] ]. exact Hm.
    + cbn [total fold_right]. lia.
    + congruence.
Qed.
Lemma elimAnd_ok c ts : (forall t, In t ts -> nfm c t) ->
  (forall x, In x (fst (elimAnd ts)) -> nfm c x /\ isk NT_AND x = false) /\
  (forall I e, forallb (holds I e) (fst (elimAnd ts)) = forallb (holds I e) ts) /\
  (forall n, (forall t, In t ts -> below n t) -> forall x, In x (fst (elimAnd ts)) -> below n x) /\
  (total (fst (elimAnd ts)) <= total ts)%nat /\ (snd (elimAnd ts) = true -> (total (fst (elimAnd ts)) < total ts)%nat).
Proof.
  unfold elimAnd. cbn [fst snd]. induction ts as [|t ts IH]; intros H.
  - cbn. split; [intros x []|]. split; [reflexivity|]. split; [intros n _ x []|]. split; [lia|discriminate].
  - destruct IH as (A & B & D & Z & W); [intros x Hx; apply H; now right|].
    destruct (flat_good c true t (H t (or_introl eq_refl))) as [A1 B1 D1 Z1 W1]. cbn [jk] in *. cbn [flat_map existsb].
    split; [intros x Hx; apply in_app_or in Hx; destruct Hx; auto|]. split; [|split; [|split]].
    + intros I e. rewrite forallb_app, B. specialize (B1 I e). cbn [jsem] in B1. rewrite B1. reflexivity.
    + intros n Hn x Hx. apply in_app_or in Hx. destruct Hx as [Hx|Hx]; [apply (D1 n); [apply Hn; now left|exact Hx]|apply (D n); [intros y Hy; apply Hn; now right|exact Hx]].
    + rewrite total_app. cbn [total fold_right]. fold (total ts). lia.
    + intros E. rewrite total_app. cbn [total fold_right]. fold (total ts). apply orb_true_iff in E. destruct E as [E|E]; [specialize (W1 E)|specialize (W E)]; lia.
Qed.
Lemma total_incl (qs : list term) : forall ps, NoDup qs -> incl qs ps -> (total qs <= total ps)%nat.
Proof.
  induction qs as [|q qs IH]; intros ps N Hi; [cbn; lia|]. inversion N as [|? ? Nq N']; subst.
  destruct (in_split q ps (Hi q (or_introl eq_refl))) as (l1 & l2 & ->).
  assert (L : (total qs <= total (l1 ++ l2))%nat).
  { apply IH; [exact N'|]. intros x Hx. assert (In x (l1 ++ q :: l2)) as X by (apply Hi; now right).
    apply in_app_or in X. apply in_or_app. destruct X as [X|[ -> |X]]; auto; contradiction. }
  rewrite total_app in *. cbn [total fold_right] in *. fold (total qs) in *. fold (total l2) in *. lia.
Qed.
Lemma mkOr_size c ps r : cfg_ok c -> (forall p, In p ps -> nfm c p) -> mkOr c ps = Ok r -> (tsize r <= Datatypes.S (total ps))%nat.
Proof.
  intros Hc H E. unfold mkOr in E. change NT_OR with (jk false) in E. apply mkJunction_shape in E; [|exact Hc|apply goodB_args; intros p Hp; now apply (nfm_good c), H].
  destruct E as [ -> | [ -> | [Hin|(qs & -> & _ & Hi & N & _)] ]]; [cbn; lia|cbn; lia| |].
  - apply in_split in Hin. destruct Hin as (l1 & l2 & ->). rewrite total_app. cbn [total fold_right]. lia.
  - pose proof (total_incl qs ps N Hi). cbn [tsize]. fold (total qs). lia.
Qed.
Lemma or_flat_size c n ch : (forall x, In x ch -> nfm c x) -> existsb (isk NT_OR) ch = true -> (total (flat NT_OR (T NT_OR boolS n ch)) < total ch)%nat.
Proof.
  intros H E. rewrite (total_perm _ _ (flat_node NT_OR boolS n ch)). clear n. induction ch as [|x ch IH]; [discriminate E|].
  cbn [flat_map existsb] in *. rewrite total_app. cbn [total fold_right]. fold (total ch).
  destruct (flat_good c false x (H x (or_introl eq_refl))) as [_ _ _ Z1 W1]. cbn [jk] in *.
  assert (Z : (total (flat_map (flat NT_OR) ch) <= total ch)%nat).
  { clear IH E Z1 W1. assert (forall y, In y ch -> nfm c y) as H' by (intros y Hy; apply H; now right). clear H. induction ch as [|y ch IH]; [cbn; lia|].
    cbn [flat_map]. rewrite total_app. cbn [total fold_right]. fold (total ch). pose proof (f_size _ _ _ _ (flat_good c false y (H' y (or_introl eq_refl)))). cbn [jk] in *.
    specialize (IH (fun z Hz => H' z (or_intror Hz))). lia. }
  apply orb_true_iff in E. destruct E as [E|E]; [specialize (W1 E); lia|]. specialize (IH (fun y Hy => H y (or_intror Hy)) E). lia.
Qed.
Lemma or_flat_size' c n ch : (forall x, In x ch -> nfm c x) -> (total (flat NT_OR (T NT_OR boolS n ch)) <= total ch)%nat.
Proof.
  intros H. rewrite (total_perm _ _ (flat_node NT_OR boolS n ch)). clear n. induction ch as [|y ch IH]; [cbn; lia|].
  cbn [flat_map]. rewrite total_app. cbn [total fold_right]. fold (total ch). pose proof (f_size _ _ _ _ (flat_good c false y (H y (or_introl eq_refl)))). cbn [jk] in *.
  specialize (IH (fun z Hz => H z (or_intror Hz))). lia.
Qed.
Lemma elimOr_ok c ts : forall b, cfg_ok c -> (forall t, In t ts -> nfm c t) ->
  exists rs b', elimOr c ts b = Ok (rs, b') /\ (forall r, In r rs -> nfm c r) /\
    (forall I e, forallb (holds I e) rs = forallb (holds I e) ts) /\
    (forall n, (forall t, In t ts -> below n t) -> forall r, In r rs -> below n r) /\
    (total rs <= total ts)%nat /\ (b = false -> b' = true -> (total rs < total ts)%nat).
Proof.
  induction ts as [|t ts IH]; intros b Hc H.
  - exists [], b. split; [reflexivity|]. split; [intros r []|]. split; [reflexivity|]. split; [intros n _ r []|]. split; [cbn; lia|congruence].
  - cbn [elimOr]. assert (Ht : nfm c t) by (apply H; now left). assert (Hts : forall x, In x ts -> nfm c x) by (intros x Hx; apply H; now right).
    destruct (isk NT_OR t) eqn:K.
    + destruct (nfm_inv c false t Ht K) as (n & ch & -> & NE & C). cbn [t_ch jk] in *.
      set (b1 := b || existsb (isk NT_OR) ch).
      assert (X : exists t', (if b1 then mkOr c (flat NT_OR (T NT_OR boolS n ch)) else Ok (T NT_OR boolS n ch)) = Ok t' /\ nfm c t' /\
        (forall I e, holds I e t' = holds I e (T NT_OR boolS n ch)) /\ (forall m, below m (T NT_OR boolS n ch) -> below m t') /\
        (tsize t' <= tsize (T NT_OR boolS n ch))%nat /\ (existsb (isk NT_OR) ch = true -> (tsize t' < tsize (T NT_OR boolS n ch))%nat)).
      { destruct b1 eqn:B1.
        - destruct (flat_good c false _ Ht) as [A1 B1' D1 Z1 W1]. cbn [jk] in *.
          destruct (junction_nfm c false (flat NT_OR (T NT_OR boolS n ch)) Hc) as (t' & E & N & B & V); [intros p Hp; now apply A1|].
          exists t'. split; [exact E|]. split; [exact N|]. split; [intros I e; rewrite V; apply (B1' I e)|].
          split; [intros m Hm; apply B; now apply D1|].
          pose proof (mkOr_size c _ t' Hc (fun p Hp => proj1 (A1 p Hp)) E) as SZ.
          split; [pose proof (or_flat_size' c n ch C); cbn [tsize]; fold (total ch); lia|].
          intros EX. pose proof (or_flat_size c n ch C EX). cbn [tsize]; fold (total ch); lia.
        - exists (T NT_OR boolS n ch). split; [reflexivity|]. split; [exact Ht|]. split; [reflexivity|]. split; [auto|]. split; [lia|].
          intros EX. unfold b1 in B1. rewrite EX, orb_true_r in B1. discriminate B1. }
      destruct X as (t' & -> & N' & V' & B' & S1 & S2). cbn [bind].
      destruct (IH b1 Hc Hts) as (rs & b2 & -> & N & V & B & Z & W). cbn [bind fst snd].
      exists (t' :: rs), b2. split; [reflexivity|]. split; [intros r [ <- | Hr ]; auto|]. split; [intros I e; cbn [forallb]; now rewrite V, V'|].
      split; [intros m Hm r [ <- | Hr ]; [apply B', Hm; now left|apply (B m); [intros y Hy; apply Hm; now right|exact Hr]]|].
      split; [cbn [total fold_right]; fold (total rs) (total ts); lia|].
      intros -> ->. cbn [total fold_right]; fold (total rs) (total ts). unfold b1 in W. cbn [orb] in W.
      destruct (existsb (isk NT_OR) ch) eqn:EX; [specialize (S2 eq_refl); lia|specialize (W eq_refl eq_refl); lia].
    + destruct (IH b Hc Hts) as (rs & b2 & -> & N & V & B & Z & W). cbn [bind fst snd].
      exists (t :: rs), b2. split; [reflexivity|]. split; [intros r [ <- | Hr ]; auto|]. split; [intros I e; cbn [forallb]; now rewrite V|].
      split; [intros m Hm r [ <- | Hr ]; [apply Hm; now left|apply (B m); [intros y Hy; apply Hm; now right|exact Hr]]|].
      split; [cbn [total fold_right]; fold (total rs) (total ts); lia|].
      intros E1 E2. specialize (W E1 E2). cbn [total fold_right]; fold (total rs) (total ts). lia.
Qed.
Lemma elimTop_ok c f : forall ts, cfg_ok c -> (forall t, In t ts -> nfm c t) -> (total ts < f)%nat ->
  exists rs, elimTop f c ts = Ok rs /\ (forall r, In r rs -> nfm c r) /\ (forall I e, forallb (holds I e) rs = forallb (holds I e) ts) /\
    (forall n, (forall t, In t ts -> below n t) -> forall r, In r rs -> below n r).
Proof.
  induction f as [|f IH]; intros ts Hc H L; [lia|]. cbn [elimTop].
  destruct (elimAnd_ok c ts H) as (A & V & B & Z & W). destruct (elimAnd ts) as [ts1 b1]. cbn [fst snd] in *.
  destruct (elimOr_ok c ts1 false Hc (fun x Hx => proj1 (A x Hx))) as (ts2 & b2 & -> & N2 & V2 & B2 & Z2 & W2). cbn [bind].
  destruct (b1 || b2) eqn:E.
  - destruct (IH ts2 Hc N2) as (rs & -> & N & V3 & B3).
    { apply orb_true_iff in E. destruct E as [E|E]; [specialize (W E)|specialize (W2 eq_refl E)]; lia. }
    exists rs. split; [reflexivity|]. split; [exact N|]. split; [intros I e; now rewrite V3, V2, V|]. intros n Hn. apply B3, B2, B, Hn.
  - exists ts2. split; [reflexivity|]. split; [exact N2|]. split; [intros I e; now rewrite V2, V|]. intros n Hn. apply B2, B, Hn.
Qed.

