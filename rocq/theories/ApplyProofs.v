(** Substitution and function application: proofs. *)
From Coq Require Import QArith Qcanon Permutation.
From Verif Require Import Base KindModel SortModel TermModel Sem SemProofs DagProofs SimpModel OpModel OpSpec ConvModel WalkProofs
  TypedSpec TypedProofs PostModel PostProofs ParseModel ParseProofs ApplyModel ApplySpec.
Open Scope Z_scope.

Lemma ZQ_floor z : qfloor (ZQ z) = z.
Proof. unfold qfloor, ZQ. cbn [this Q2Qc]. rewrite Qred_correct. apply Qround.Qfloor_Z. Qed.
Lemma coerce_id r s v : vsort r s -> vcl r v -> coerce s v = v.
Proof.
  destruct r as [| | | |w]; cbn [vsort vcl]; intros H V; try contradiction; subst s.
  - destruct V as [b ->]. reflexivity.
  - destruct V as [b ->]. cbn. now rewrite ZQ_floor.
  - destruct V as [b ->]. reflexivity.
  - destruct V as (z & Hz & ->). unfold coerce, bvS. cbn -[Z.to_nat Z.of_nat BVSpec.uv]. rewrite Nat2Z.id. unfold BVSpec.uv. now rewrite Z.mod_small.
Qed.
Lemma sub_ch u t x : subterm u t -> In x (t_ch u) -> subterm x t.
Proof. intros H. induction H as [t|u y t Hy H IH]; intros Hx; [apply (Sub_ch x x t Hx); constructor|]. apply (Sub_ch x y t Hy). now apply IH. Qed.

(** ** rebuilding a term of the fragment bottom up *)
Section Rebuild.
Context (c : cfg) (leaf : term -> option (res term)) (drop : term -> bool) (build : term -> list term -> res term).
Context (E : interp -> env -> env).
Definition leaf_ok (x : term) : Prop :=
  (forall r, is_leaf_var (t_kind x) = true -> t_ch x = [] -> vsort r (t_sort x) ->
     exists u, leaf x = Some (Ok u) /\ wt r u /\ forall I e, eval I e u = eval I (E I e) x) /\
  (isConst x = true -> leaf x = Some (Ok x)) /\
  (forall r rs, sig (t_kind x) r rs -> isArray x = false -> leaf x = None /\ drop x = false /\ forall us, build x us = mkOper c (t_sort x) (t_kind x) us) /\
  (t_kind x = NT_UF_APPLY -> leaf x = None /\ drop x = false /\ forall us, build x us = Ok (T NT_UF_APPLY (t_sort x) (t_name x) us)).
Definition agreet (r : cl) (u t : term) : Prop := forall I e, agree r (eval I e u) (eval I (E I e) t).
Definition rebuilt (r : cl) (t : term) : Prop := exists u, post leaf drop build t = Ok u /\ wt r u /\ agreet r u t.

Lemma rebuilt_list rs ch : Forall2 rebuilt rs ch -> exists us, mapR (post leaf drop build) ch = Ok us /\ Forall2 wt rs us /\
  Forall2 (fun r p => agreet r (fst p) (snd p)) rs (combine us ch).
Proof.
  induction 1 as [|r t rs ch (u & P & W & A) H (us & Q & F & G)].
  - exists []. repeat split; constructor.
  - exists (u :: us). cbn [mapR]. rewrite P. cbn [bind]. fold (mapR (post leaf drop build) ch). rewrite Q. cbn [bind]. split; [reflexivity|]. split; [now constructor|].
    cbn [combine]. now constructor.
Qed.
Lemma agreet_vals rs us ch I e : ~ In CL rs -> Forall2 wt rs us -> Forall2 wt rs ch -> Forall2 (fun r p => agreet r (fst p) (snd p)) rs (combine us ch) ->
  map (eval I e) us = map (eval I (E I e)) ch.
Proof.
  intros N F. revert ch. induction F as [|r u rs us W F IH]; intros ch G A; inversion G; subst; [reflexivity|]. cbn [combine] in A. inversion A as [|? ? ? ? A1 A2]; subst.
  cbn [map]. f_equal.
  - destruct (A1 I e) as [X|X]; [exfalso; apply N; now left|exact X].
  - apply IH; [intros Z; apply N; now right|assumption|assumption].
Qed.
Lemma rsort_not_array r t : rsort r (t_sort t) -> isArray t = false.
Proof. intros H. unfold isArray, sis. destruct r; cbn [rsort] in H; [rewrite H; reflexivity|destruct H as [ -> | [ -> | -> ]]; reflexivity|destruct H as [ -> | [ -> | -> ]]; reflexivity|exact H|rewrite H; reflexivity]. Qed.

Theorem rebuild_wt r t : cfg_ok c -> wt r t -> (forall x, subterm x t -> leaf_ok x) -> rebuilt r t.
Proof.
  intros Hc W. induction W as [k s n r A B| | |s z A|k s n r rs ch A B F IH|s n r rs ch A B D F IH|t W IH|w v A B] using wt_ind'; intros HL.
  - destruct (HL _ (Sub_refl _)) as (H & _). destruct (H r A eq_refl B) as (u & L & Wu & V).
    exists u. rewrite post_eq, L. split; [reflexivity|]. split; [exact Wu|]. intros I e. right. apply V.
  - exists TRUE. destruct (HL _ (Sub_refl _)) as (_ & H & _). rewrite post_eq, H by reflexivity. split; [reflexivity|]. split; [constructor 2|]. intros I e. now right.
  - exists FALSE. destruct (HL _ (Sub_refl _)) as (_ & H & _). rewrite post_eq, H by reflexivity. split; [reflexivity|]. split; [constructor 3|]. intros I e. now right.
  - eexists. destruct (HL _ (Sub_refl _)) as (_ & H & _). rewrite post_eq, H by reflexivity. split; [reflexivity|]. split; [now constructor 4|]. intros I e. now right.
  - assert (IH' : Forall2 rebuilt rs ch).
    { clear -IH HL. assert (HC : forall y, In y ch -> forall x, subterm x y -> leaf_ok x) by (intros y Hy x Hx; apply HL; now apply (Sub_ch x y)).
      clear HL. induction IH as [|q y rs ch P IH IH2]; constructor; [apply P; intros x; apply HC; now left|]. apply IH2. intros z Hz. apply HC. now right. }
    destruct (rebuilt_list rs ch IH') as (us & Q & Fu & G). destruct (HL _ (Sub_refl _)) as (_ & _ & H & _).
    destruct (H r rs A (rsort_not_array r (T k s n ch) B)) as (L & Dr & Bu). cbn [t_kind t_sort] in Bu.
    destruct (mkOper_wt c s k r rs us Hc A B Fu) as (u & M & Wu & V). exists u.
    rewrite post_eq, L. unfold kids. rewrite Dr. cbn [t_ch]. rewrite Q. cbn [bind]. rewrite Bu, M. split; [reflexivity|]. split; [exact Wu|].
    intros I e. destruct r as [| | | |w'] eqn:R; [| | |left; reflexivity|]. all: right; rewrite V; apply (eval_agree I e (E I e) k s _ s n _ rs us ch A); try discriminate; try assumption;
      clear -G; remember (combine us ch) as l eqn:El; clear El; induction G; constructor; [now apply H|assumption].
  - assert (IH' : Forall2 rebuilt rs ch).
    { clear -IH HL. assert (HC : forall y, In y ch -> forall x, subterm x y -> leaf_ok x) by (intros y Hy x Hx; apply HL; now apply (Sub_ch x y)).
      clear HL. induction IH as [|q y rs ch P IH IH2]; constructor; [apply P; intros x; apply HC; now left|]. apply IH2. intros z Hz. apply HC. now right. }
    destruct (rebuilt_list rs ch IH') as (us & Q & Fu & G). destruct (HL _ (Sub_refl _)) as (_ & _ & _ & H).
    destruct (H eq_refl) as (L & Dr & Bu). cbn [t_name t_sort] in Bu. exists (T NT_UF_APPLY s n us).
    rewrite post_eq, L. unfold kids. rewrite Dr. cbn [t_ch]. rewrite Q. cbn [bind]. rewrite Bu. split; [reflexivity|].
    assert (NE : us <> []). { apply (F2_ne _ _ _ Fu). intros ->. inversion F; subst. congruence. }
    split; [now apply (W_uf s n r rs)|]. intros I e. right. rewrite !eval_app by (auto; reflexivity). unfold app_sem. cbn [op_sem]. f_equal. f_equal.
    now apply (agreet_vals rs us ch I e).
  - destruct (IH HL) as (u & P & Wu & V). exists u. split; [exact P|]. split; [now apply W_sub|]. intros I e. destruct (V I e) as [X|X]; [discriminate|now right].
  - eexists. destruct (HL _ (Sub_refl _)) as (_ & H & _). rewrite post_eq, H by reflexivity. split; [reflexivity|]. split; [now apply W_bv|]. intros I e. now right.
Qed.
End Rebuild.

(** ** substitution *)
Lemma vsort_inj q r s : vsort q s -> vsort r s -> q = r.
Proof.
  destruct q, r; cbn [vsort]; intros H K; try reflexivity; try contradiction; subst s; try discriminate K.
  unfold bvS, widthS in K. injection K as K. f_equal. now apply Nat2Z.inj in K.
Qed.
Lemma sig_kinds k r rs : sig k r rs -> kin k [NT_FUNC_APPLY; NT_FUNC_REC_APPLY; NT_UF_APPLY; NT_FUNC_PARAM; NT_VAR; NT_TEMP_VAR; NT_QUANT_VAR; NT_PLACEHOLDER_VAR] = false.
Proof.
  intros H. destruct H as [|k n Hk Hn|n Hn Hn'|r Hr|k r n Hk Hr Hn|k Hk|k r n Hk Hr Hn|r Hr|r Hr|rs Hr Hr'|n r Hn Hr|k w Hk|k w nn Hk Hnn|k w Hk|w w' Hf|w]; try reflexivity;
    repeat (destruct Hk as [ <- | Hk ]); try contradiction; reflexivity.
Qed.
Theorem substitute_ok c m r t : cfg_ok c -> wt r t -> r <> CL -> without NT_LET_BIND_VAR t -> sorted_map m t ->
  exists u, substitute c m t = Ok u /\ wt r u /\ forall I e, eval I e u = eval I (updated m I e) t.
Proof.
  intros Hc W N WO SM. unfold substitute. rewrite post_run_eq.
  destruct (rebuild_wt c (subst_leaf m) (fun _ => false) (subst_build c) (updated m) r t Hc W) as (u & P & Wu & V).
  { intros x Hx. split; [|split; [|split]].
    - intros q K Hch Vs. destruct x as [k s n ch]. cbn [t_kind t_ch t_sort] in *. subst ch. unfold subst_leaf, isVar. cbn [t_kind t_name].
      destruct (kin k var_kinds) eqn:KV.
      + assert (UV : user_var (T k s n []) = true).
        { unfold user_var. cbn [t_kind]. pose proof (WO _ Hx) as NL. cbn [t_kind] in NL. destruct k; try discriminate KV; try reflexivity. congruence. }
        destruct (mget n m) as [u|] eqn:M.
        * exists u. split; [reflexivity|]. destruct (SM _ u Hx UV M) as (q' & Vs' & Wu). cbn [t_sort] in Vs'.
          assert (q' = q) by (now apply (vsort_inj q' q s)).
          subst q'. split; [exact Wu|]. intros I e. cbn [eval]. unfold leaf_sem. rewrite K. unfold updated. rewrite UV. cbn [t_name]. rewrite M.
          symmetry. apply (coerce_id q); [exact Vs|now apply wt_val].
        * exists (T k s n []). split; [reflexivity|]. split; [now apply W_var|]. intros I e. cbn [eval]. unfold leaf_sem. rewrite K. unfold updated. rewrite UV. cbn [t_name]. now rewrite M.
      + exists (T k s n []). assert (k = NT_FUNC_PARAM) as -> by (destruct k; try discriminate K; try discriminate KV; reflexivity).
        split; [reflexivity|]. split; [now apply W_var|]. intros I e. reflexivity.
    - intros C. unfold subst_leaf. assert (isVar x = false) as -> by (unfold isVar, isConst in *; destruct (t_kind x); try discriminate C; reflexivity). now rewrite C.
    - intros q qs Sg NA. pose proof (sig_kinds _ _ _ Sg) as K. pose proof (WO _ Hx) as NL. destruct (sig_not_const _ _ _ Sg) as (C & _).
      unfold subst_leaf, subst_build, keeps_name, isVar, isConst, isFuncParam, isk. rewrite C, NA.
      split; [|split; [reflexivity|]]; destruct (t_kind x); try discriminate K; try congruence; reflexivity.
    - intros K. unfold subst_leaf, subst_build, keeps_name, isVar, isConst, isFuncParam, isk. rewrite K. repeat split; reflexivity. }
  exists u. split; [exact P|]. split; [exact Wu|]. intros I e. destruct (V I e) as [X|X]; [congruence|exact X].
Qed.

(** ** function application *)
Lemma mins_other {A} k k' (a : A) m : k <> k' -> mget k (mins k' a m) = mget k m.
Proof. intros N. unfold mins. destruct (mget k' m); [reflexivity|]. rewrite mget_cons. rewrite (proj2 (seq_neq k' k)); [reflexivity|congruence]. Qed.
Lemma mins_same {A} k (a : A) m : mget k m = None -> mget k (mins k a m) = Some a.
Proof. intros H. unfold mins. rewrite H. rewrite mget_cons. now rewrite seq_refl. Qed.
Lemma bind_params_ok fs ps : forall m, NoDup (map t_name fs) -> (forall f, In f fs -> mget (t_name f) m = None) -> length fs = length ps -> (forall p, In p ps -> isErr p = false) ->
  exists m', bind_params fs ps m = inl m' /\ (forall n, (forall f, In f fs -> t_name f <> n) -> mget n m' = mget n m) /\
  forall f p, In (f, p) (combine fs ps) -> mget (t_name f) m' = Some p.
Proof.
  revert ps. induction fs as [|f fs IH]; intros [|p ps] m ND HM HL HE; try discriminate HL; cbn [bind_params combine].
  - exists m. split; [reflexivity|]. split; [reflexivity|]. intros f p [].
  - rewrite (HE p (or_introl eq_refl)). cbn [map] in ND. inversion ND as [|? ? NI ND']; subst.
    destruct (IH ps (mins (t_name f) p m) ND') as (m' & B & O & G).
    + intros g Hg. rewrite mins_other; [apply HM; now right|]. intros Q. apply NI. rewrite <- Q. now apply in_map.
    + now injection HL.
    + intros q Hq. apply HE. now right.
    + exists m'. split; [exact B|]. split.
      * intros n Hn. rewrite O by (intros g Hg; apply Hn; now right). apply mins_other. intros ->. exact (Hn f (or_introl eq_refl) eq_refl).
      * intros g q [Q|Q]; [|now apply G]. injection Q as <- <-. rewrite O; [apply mins_same, HM; now left|].
        intros g Hg Q. apply NI. rewrite <- Q. now apply in_map.
Qed.
Lemma upd_param e fs vs f v : NoDup (map t_name fs) -> In (f, v) (combine fs vs) -> upd e fs vs f = v.
Proof.
  revert vs. induction fs as [|g fs IH]; intros [|w vs] ND H; cbn [combine] in H; try contradiction. cbn [upd map] in *. inversion ND as [|? ? NI ND']; subst.
  destruct H as [H|H]; [injection H as <- <-; now rewrite teq_refl|].
  destruct (teq f g) eqn:Q; [|now apply IH]. apply teq_spec in Q. subst g. exfalso. apply NI. apply in_map. now apply (in_combine_l _ _ _ _ H).
Qed.
Lemma combine_map {A B C} (h : B -> C) (l : list A) (m : list B) x y : In (x, y) (combine l m) -> In (x, h y) (combine l (map h m)).
Proof. revert m. induction l as [|a l IH]; intros [|b m] H; cbn in *; try contradiction. destruct H as [H|H]; [injection H as <- <-; now left|right; now apply IH]. Qed.
Lemma F2_combine {A B} (R : A -> B -> Prop) l m x : Forall2 R l m -> In x l -> exists y, In (x, y) (combine l m) /\ R x y.
Proof. induction 1 as [|a b l m P F IH]; intros H; [contradiction|]. destruct H as [ <- | H ]; [exists b; split; [now left|exact P]|]. destruct (IH H) as (y & A1 & A2). exists y. split; [now right|exact A2]. Qed.

(** an expansion rebuilds the body *)
Lemma applyFun_run c o r s n body fs ps : cfg_ok c -> x_fun o = true -> wt r body -> args_ok fs ps -> closed_over fs body ->
  exists lf dr bu, applyFun c o (T NT_FUNC_DEF s n (body :: fs)) ps = post lf dr bu body /\
    (forall x, subterm x body -> leaf_ok c lf dr bu (fun I e => upd e fs (map (eval I e) ps)) x) /\
    (forall x, subterm x body -> is_leaf_var (t_kind x) = true -> exists a, In a ps /\ lf x = Some (Ok a)).
Proof.
  intros Hc Hx W [ND F] CL0. unfold applyFun. cbn [applyFunF t_ch].
  assert (HL : length fs = length ps) by (now apply F2_len in F). rewrite HL, Nat.eqb_refl. cbn [negb].
  destruct (wt_not_unk r body W) as [_ NE].
  assert (NN : isk NT_NULL body = false).
  { unfold isk. clear -W. induction W as [k s n r A B| | |s z A|k s n r rs ch A B F IH|s n r rs ch A B D F IH|t W IH|w v A B] using wt_ind'; try reflexivity; cbn [t_kind]; [destruct k; try discriminate A; reflexivity| |exact IH].
    destruct A as [|k n0 Hk Hn|n0 Hn Hn'|r Hr|k r n0 Hk Hr Hn|k Hk|k r n0 Hk Hr Hn|r Hr|r Hr|rs Hr Hr'|n0 r Hn Hr|k w Hk|k w nn Hk Hnn|k w Hk|w w' Hf|w]; try reflexivity; repeat (destruct Hk as [ <- | Hk ]); try contradiction; reflexivity. }
  rewrite NN. cbn [isk t_kind keq andb]. rewrite Hx, NE. cbn [andb negb isk t_kind keq].
  assert (HE : forall p, In p ps -> isErr p = false).
  { intros p Hp. clear -F Hp. induction F as [|f a fs ps (r & s & n & _ & _ & Wa) F IH]; [contradiction|]. destruct Hp as [ <- | Hp ]; [now destruct (wt_not_unk r a Wa)|now apply IH]. }
  destruct (bind_params_ok fs ps [] ND (fun _ _ => eq_refl) HL HE) as (m & B & _ & G). rewrite B, post_run_eq.
  match goal with |- context [post (apply_leaf m) ?D ?BB body] => set (dr := D); set (bu := BB) end.
  exists (apply_leaf m), dr, bu. split; [reflexivity|]. split.
  { intros x Hsub. split; [|split; [|split]].
    - intros q K Hch Vs. pose proof (CL0 x Hsub K) as Hin. destruct (F2_combine _ _ _ x F Hin) as (a & Ha & q' & s' & n' & -> & Vs' & Wa).
      cbn [t_sort] in Vs. assert (q' = q) by (now apply (vsort_inj q' q s')). subst q'.
      exists a. unfold apply_leaf. cbn [isFuncParam isk t_kind keq t_name]. change n' with (t_name (T NT_FUNC_PARAM s' n' [])). rewrite (G _ a Ha). split; [reflexivity|]. split; [exact Wa|].
      intros I e. cbn [eval t_name]. unfold leaf_sem. cbn [is_leaf_var kin existsb keq orb].
      rewrite (upd_param e fs (map (eval I e) ps) _ (eval I e a) ND (combine_map (eval I e) fs ps _ a Ha)). symmetry. apply (coerce_id q); [exact Vs|now apply wt_val].
    - intros C. unfold apply_leaf. rewrite C. assert (isFuncParam x = false) as -> by (unfold isFuncParam, isk, isConst in *; destruct (t_kind x); try discriminate C; reflexivity). reflexivity.
    - intros q qs Sg NA. pose proof (sig_kinds _ _ _ Sg) as K. destruct (sig_not_const _ _ _ Sg) as (C & _).
      unfold apply_leaf, dr, bu, to_expand, isFuncParam, isUF, isConst, isk. rewrite C. destruct (t_kind x); try discriminate K; repeat split; reflexivity.
    - intros K. unfold apply_leaf, dr, bu, to_expand, isFuncParam, isUF, isConst, isk. rewrite K. repeat split; reflexivity. }
  intros x Hsub K. pose proof (CL0 x Hsub K) as Hin. destruct (F2_combine _ _ _ x F Hin) as (a & Ha & q' & s' & n' & -> & Vs' & Wa).
  exists a. split; [now apply (in_combine_r _ _ _ _ Ha)|]. unfold apply_leaf. cbn [isFuncParam isk t_kind keq t_name]. change n' with (t_name (T NT_FUNC_PARAM s' n' [])). now rewrite (G _ a Ha).
Qed.
Theorem applyFun_ok c o r s n body fs ps : cfg_ok c -> x_fun o = true -> wt r body -> r <> CL -> args_ok fs ps -> closed_over fs body ->
  exists t, applyFun c o (T NT_FUNC_DEF s n (body :: fs)) ps = Ok t /\ wt r t /\
    forall I e, eval I e t = eval I (upd e fs (map (eval I e) ps)) body.
Proof.
  intros Hc Hx W N HA CL0. destruct (applyFun_run c o r s n body fs ps Hc Hx W HA CL0) as (lf & dr & bu & E & HLf & _).
  destruct (rebuild_wt c lf dr bu (fun I e => upd e fs (map (eval I e) ps)) r body Hc W HLf) as (u & P & Wu & V).
  exists u. split; [now rewrite E|]. split; [exact Wu|]. intros I e. destruct (V I e) as [X|X]; [congruence|exact X].
Qed.

(** ** the bound on nested expansions is enough *)
Lemma post_ext leaf drop b1 b2 t : (forall x us, subterm x t -> b1 x us = b2 x us) -> post leaf drop b1 t = post leaf drop b2 t.
Proof.
  induction t as [k s n ch IH] using term_ind'. intros H. rewrite !post_eq. destruct (leaf (T k s n ch)); [reflexivity|].
  assert (M : mapR (post leaf drop b1) (kids drop (T k s n ch)) = mapR (post leaf drop b2) (kids drop (T k s n ch))).
  { assert (S : forall l, incl l ch -> mapR (post leaf drop b1) l = mapR (post leaf drop b2) l).
    { induction l as [|x l IHl]; intros Hi; [reflexivity|]. cbn [mapR]. fold (mapR (post leaf drop b1) l). fold (mapR (post leaf drop b2) l).
      rewrite (proj1 (Forall_forall _ _) IH x (Hi x (or_introl eq_refl))), IHl; [reflexivity|intros y Hy; apply Hi; now right|].
      intros y us Hy. apply H. apply (Sub_ch y x); [apply Hi; now left|exact Hy]. }
    apply S. unfold kids. cbn [t_ch]. destruct (drop (T k s n ch)); intros y Hy; [destruct ch; [contradiction|now right]|exact Hy]. }
  rewrite M. destruct (mapR (post leaf drop b2) (kids drop (T k s n ch))); try reflexivity. cbn [bind]. apply H. constructor.
Qed.
Lemma sub_size u t : subterm u t -> (tsize u <= tsize t)%nat.
Proof.
  induction 1 as [t|u x t Hx H IH]; [lia|]. destruct t as [k s n ch]. cbn [t_ch tsize] in *.
  assert (tsize x <= fold_right (fun x a => tsize x + a) 0 ch)%nat; [|lia]. clear -Hx. induction ch as [|y ch IH]; [contradiction|]. cbn [fold_right]. destruct Hx as [ <- | Hx ]; [lia|]. specialize (IH Hx). lia.
Qed.
Lemma ch_size x t : In x (t_ch t) -> (tsize x < tsize t)%nat.
Proof.
  intros Hx. destruct t as [k s n ch]. cbn [t_ch tsize] in *.
  assert (tsize x <= fold_right (fun x a => tsize x + a) 0 ch)%nat; [|lia]. clear -Hx. induction ch as [|y ch IH]; [contradiction|]. cbn [fold_right]. destruct Hx as [ <- | Hx ]; [lia|]. specialize (IH Hx). lia.
Qed.
Lemma apply_fuel c o f ps : forall n m, (tsize f < n)%nat -> (tsize f < m)%nat -> applyFunF n c o f ps = applyFunF m c o f ps.
Proof.
  revert ps. remember (tsize f) as z eqn:Hz. revert f Hz. induction z as [z IH] using (well_founded_induction Wf_nat.lt_wf). intros f Hz ps [|n] [|m] Hn Hm; try lia.
  cbn [applyFunF]. destruct (t_ch f) as [|body fs] eqn:CH; [reflexivity|]. repeat match goal with |- (if ?b then _ else _) = _ => destruct b; [reflexivity|] end.
  destruct (bind_params fs ps []); [|reflexivity]. rewrite !post_run_eq. apply post_ext. intros x us Hx.
  destruct (isUF x); [reflexivity|]. destruct (isk NT_FUNC_REC_APPLY x && negb (x_rec o)); [reflexivity|]. destruct (to_expand o x); [|reflexivity].
  unfold child0. destruct (t_ch x) as [|g l] eqn:CX; [reflexivity|]. cbn [bind].
  assert (tsize g < z)%nat.
  { pose proof (ch_size g x) as A. rewrite CX in A. specialize (A (or_introl eq_refl)). pose proof (sub_size x body Hx) as B.
    pose proof (ch_size body f) as D. rewrite CH in D. specialize (D (or_introl eq_refl)). lia. }
  apply (IH (tsize g)); [assumption|reflexivity|lia|lia].
Qed.
