(** Evaluation under a partial assignment: connectives, equality, the theorem. *)
From Coq Require Import QArith Qcanon Permutation.
From Verif Require Import Base KindModel SortModel TermModel BVSpec UtilSpec DagProofs SortProofs Sem SemProofs ArrayModel SimpModel OpModel OpSpec
  OpProofs OpProofs2 OpProofs3 OpProofs4 OpProofs5 OpProofs7 TypedSpec TypedProofs TraverseModel EvalModel EvalSpec EvalProofs EvalProofs3 EvalProofs4.
Open Scope Z_scope.

Lemma wt_holds I e t : wt CB t -> eval I e t = VBool (holds I e t).
Proof. intros W. destruct (wt_val I e CB t W) as (b & E). unfold holds. now rewrite E. Qed.
Lemma wt_bool_args ps : Forall (wt CB) ps -> bool_args ps.
Proof.
  intros F. split; [now apply (wt_lits CB)|]. intros p Hp. rewrite Forall_forall in F. specialize (F p Hp).
  split; [|now apply (wt_not_unk CB)]. unfold isBoolParam, sis. pose proof (wt_sort CB p F ltac:(discriminate)) as S. cbn [rsort] in S. rewrite S. reflexivity.
Qed.
Lemma bool_loop_sub unit zero zr ps o : bool_loop unit zero zr ps = Ok o -> Forall (wt CB) ps ->
  match o with inl t => t = zr \/ In t ps | inr qs => Forall (wt CB) qs end.
Proof.
  revert o. induction ps as [|p ps IH]; intros o H F; cbn [bool_loop] in H. { injection H as <-. constructor. }
  inversion F; subst. destruct (negb (isBoolParam p)); [discriminate H|]. destruct (isErr p). { injection H as <-. right. now left. }
  destruct (unit p). { specialize (IH o H H3). destruct o; [|exact IH]. destruct IH; [now left|right; now right]. }
  destruct (zero p). { injection H as <-. now left. } apply bind_ok in H. destruct H as (o' & E & H). specialize (IH o' E H3).
  injection H as <-. destruct o'; [|now constructor]. destruct IH; [now left|right; now right].
Qed.
Lemma dedup_wt ps : forall seen, Forall (wt CB) ps -> Forall (wt CB) (dedup seen ps).
Proof. induction ps as [|p ps IH]; intros seen F; cbn [dedup]; [constructor|]. inversion F; subst. destruct (existsb _ _); [now apply IH|constructor; [assumption|now apply IH]]. Qed.
Lemma mkJunction_wt c k ps t : cfg_ok c -> In k [NT_AND; NT_OR] -> Forall (wt CB) ps -> mkJunction c k ps = Ok t -> wt CB t.
Proof.
  intros Hc Hk F H. unfold mkJunction in H.
  assert (Z : forall b : bool, wt CB (if b then TRUE else FALSE)) by (intros []; [apply W_true|apply W_false]).
  assert (Z' : forall b : bool, wt CB (if b then FALSE else TRUE)) by (intros []; [apply W_false|apply W_true]).
  destruct ps as [|p [|p' ps]]. { injection H as <-. apply Z. } { injection H as <-. now inversion F. }
  apply bind_ok in H. destruct H as (o & E & H). pose proof (bool_loop_sub _ _ _ _ _ E F) as B. destruct o as [u|qs].
  - injection H as <-. destruct B as [ -> | B ]; [apply Z'|]. rewrite Forall_forall in F. now apply F.
  - pose proof (dedup_wt qs [] B) as D. destruct (dedup [] qs) as [|q [|q' qs']]. { injection H as <-. apply Z. } { injection H as <-. now inversion D. }
    destruct (mkOper_exact c boolS k CB (repeat CB (length (q :: q' :: qs'))) (q :: q' :: qs') Hc) as (v & E' & W & _).
    { constructor; [cbn in *; tauto|cbn; lia]. } { discriminate. } { reflexivity. } { now apply F2_back. } congruence.
Qed.

Section Ev.
Variable c : cfg.
Variable ptr : list term -> list term.
Variable m : model.
Hypothesis Hc : cfg_ok c.
Let f := evaluate c ptr m.

Definition good (r : cl) (x : term) : Prop := forall b o, f x = Ok (b, o) ->
  exists v, o = Some v /\ wt r v /\ (b = false -> v = x) /\ forall I e, agrees I e m x -> eval I e x = eval I e v.
Definition okall I e (ch : list term) : Prop := forall x, In x ch -> agrees I e m x.

Lemma ev_all_good rs ch : Forall2 good rs ch -> forall b vs, ev_all f ch = Ok (b, vs) ->
  Forall2 wt rs vs /\ (b = false -> vs = ch) /\ forall I e, okall I e ch -> map (eval I e) ch = map (eval I e) vs.
Proof.
  induction 1 as [|r x rs ch G F IH]; intros b vs H; cbn [ev_all] in H.
  - injection H as <- <-. split; [constructor|]. now split.
  - apply bind_ok in H. destruct H as ([b1 o] & E & H). apply bind_ok in H. destruct H as ([b2 vs'] & E' & H). cbn [fst snd] in H. injection H as <- <-.
    destruct (G b1 o E) as (v & -> & W & S & V). destruct (IH b2 vs' E') as (W' & S' & V'). cbn [val]. split; [now constructor|]. split.
    + intros B. apply orb_false_iff in B. destruct B as [ -> -> ]. f_equal; auto.
    + intros I e A. cbn [map]. f_equal; [apply V; apply A; now left|]. apply V'. intros y Y. apply A. now right.
Qed.
(** the junction loop *)
Lemma junction_good (conj : bool) ch : Forall (good CB) ch -> forall o,
  ev_junction f (if conj then isFalse else isTrue) ch = Ok o ->
  match o with
  | inl v => v = (if conj then FALSE else TRUE) /\
      forall I e, okall I e ch -> (if conj then forallb (holds I e) ch else existsb (holds I e) ch) = negb conj
  | inr (b, vs) => Forall (wt CB) vs /\ forall I e, okall I e ch ->
      (if conj then forallb (holds I e) ch else existsb (holds I e) ch) = (if conj then forallb (holds I e) vs else existsb (holds I e) vs)
  end.
Proof.
  induction 1 as [|x ch G F IH]; intros o H; cbn [ev_junction] in H. { injection H as <-. split; [constructor|]. reflexivity. }
  apply bind_ok in H. destruct H as ([b1 o1] & E & H). cbn [fst snd] in H. destruct (G b1 o1 E) as (v & -> & W & S & V). cbn [val] in H.
  assert (V' : forall I e, okall I e (x :: ch) -> holds I e x = holds I e v).
  { intros I e A. unfold holds. rewrite (V I e); [reflexivity|apply A; now left]. }
  assert (Cv : isConst v = true -> (if conj then isFalse else isTrue) v = true /\ v = (if conj then FALSE else TRUE) \/
      (if conj then isFalse else isTrue) v = false /\ v = (if conj then TRUE else FALSE)).
  { intros Cv. destruct (wt_const CB v W Cv) as [ -> | -> ]; destruct conj; (left; now split) || (right; now split). }
  destruct (isConst v && (if conj then isFalse else isTrue) v) eqn:Z.
  - injection H as <-. apply andb_prop in Z. destruct Z as [Z1 Z2]. destruct (Cv Z1) as [[_ ->]|[Q _]]; [|congruence]. split; [reflexivity|].
    intros I e A. cbn [forallb existsb]. rewrite (V' I e A). destruct conj; reflexivity.
  - apply bind_ok in H. destruct H as (q & E' & H). specialize (IH q E'). injection H as <-. destruct q as [u|[b2 vs]].
    + destruct IH as [-> IH]. split; [reflexivity|]. intros I e A. cbn [forallb existsb]. specialize (IH I e (fun y Y => A y (or_intror Y))).
      destruct conj; rewrite IH; cbn [negb]; [apply andb_false_r|apply orb_true_r].
    + destruct IH as [Wv IH]. split. { destruct (isConst v); [exact Wv|now constructor]. }
      intros I e A. specialize (IH I e (fun y Y => A y (or_intror Y))). cbn [forallb existsb]. rewrite (V' I e A).
      destruct (isConst v) eqn:K.
      * destruct (Cv eq_refl) as [[Q _]|[_ ->]]; [cbn [andb] in Z; congruence|]. destruct conj; rewrite IH; reflexivity.
      * destruct conj; cbn [forallb existsb]; rewrite IH; reflexivity.
Qed.
(** equality of numeric terms *)
Lemma num_const_eq r a b I e : r = CI \/ r = CR -> wt r a -> wt r b -> isConst a = true -> isConst b = true -> exists x, const_eq c a b = Ok x /\ x = veqb (eval I e a) (eval I e b).
Proof.
  intros Hr Wa Wb Ca Cb.
  assert (A : exists s z, (s = intS \/ s = intorealS) /\ a = ic s z) by (destruct Hr as [ -> | -> ]; exact (wt_const _ a Wa Ca)).
  assert (B : exists s z, (s = intS \/ s = intorealS) /\ b = ic s z) by (destruct Hr as [ -> | -> ]; exact (wt_const _ b Wb Cb)).
  destruct A as (s & x & Hs & ->). destruct B as (s' & y & Hs' & ->). unfold const_eq. rewrite !isCInt_ic by auto. cbn [andb].
  rewrite !toInt_ic by auto. cbn [bind]. eexists. split; [reflexivity|]. rewrite !eval_ic by auto. now rewrite veqb_ZQ.
Qed.
Lemma num_all_eq r a l I e : r = CI \/ r = CR -> Forall (fun x => wt r x /\ isConst x = true) (a :: l) ->
  exists x, all_eq c a l = Ok x /\ x = forallb (fun b => veqb (eval I e a) (eval I e b)) l.
Proof.
  intros Hr F. inversion F as [|? ? [Wa Ca] F']; subst. clear F. induction F' as [|b l [Wb Cb] F' IH]; cbn [all_eq forallb].
  - now exists true.
  - destruct (num_const_eq r a b I e Hr Wa Wb Ca Cb) as (x & -> & Ex). cbn [bind]. rewrite <- Ex. destruct x; [exact IH|]. now exists false.
Qed.

Lemma num_kind r t : wt r t -> r = CI \/ r = CR -> isTrue t = false /\ isFalse t = false /\ isNot t = false.
Proof.
  intros W Hr. assert (N : isNot t = false).
  { induction W as [k s n r A B| | |s z A|k s n r rs ch A B F IH|s n r rs ch A B D F IH|t W IH|w v A B] using wt_ind'; try reflexivity.
    - unfold isNot, isk. cbn [t_kind]. destruct k; try reflexivity; discriminate A.
    - destruct A as [|k n' Hk Hn|n' Hn Hn'|r Hr'|k r n' Hk Hr' Hn|k Hk|k r n' Hk Hr' Hn|r Hr'|r Hr'|rs Hr' Hr''|n' r Hn Hr'|k w Hk|k w nn Hk Hnn|k w Hk|w w' Hf|w];
        try (destruct Hr; discriminate); try reflexivity. repeat (destruct Hk as [ <- | Hk ]); try contradiction; reflexivity.
    - apply IH. now left. }
  pose proof (wt_sort r t W ltac:(destruct Hr as [ -> | -> ]; discriminate)) as S. unfold isTrue, isFalse, sis.
  destruct Hr as [ -> | -> ]; cbn [rsort] in S; destruct S as [ -> | [ -> | -> ]]; cbn; rewrite !andb_false_r; auto.
Qed.
Lemma eq_params_num r s ps qs : r = CI \/ r = CR -> Forall (wt r) ps -> eq_params s isTrue ps = Ok qs -> qs = ps.
Proof.
  intros Hr F. revert qs. induction F as [|p ps W F IH]; intros qs H; cbn [eq_params] in H. { now injection H as <-. }
  apply bind_ok in H. destruct H as (ok & _ & H). destruct ok; [|discriminate H]. apply bind_ok in H. destruct H as (l & E & H).
  destruct (num_kind r p W Hr) as (Z & _). rewrite Z in H. injection H as <-. f_equal. now apply IH.
Qed.
Lemma mkEqV_num r ps t : r = CI \/ r = CR -> (2 <= length ps)%nat -> Forall (wt r) ps -> mkEqV c ps = Ok t ->
  wt CB t /\ forall I e, eval I e t = VBool (chain veqb (map (eval I e) ps)).
Proof.
  intros Hr Hn F H.
  assert (SG : sig NT_EQ CB (repeat r (length ps))) by (constructor; [cbn; auto|destruct Hr as [ -> | -> ]; discriminate|assumption]).
  assert (VV : forall I e, opv NT_EQ (map (eval I e) ps) = VBool (chain veqb (map (eval I e) ps))).
  { intros I e. destruct ps as [|a [|b ps]]; [cbn in Hn; lia|cbn in Hn; lia|reflexivity]. }
  assert (M : mkOper c boolS NT_EQ ps = Ok t -> wt CB t /\ forall I e, eval I e t = VBool (chain veqb (map (eval I e) ps))).
  { intros E. destruct (mkOper_exact c boolS NT_EQ CB _ ps Hc SG) as (v & E' & W & V); [discriminate|reflexivity|now apply F2_back|].
    assert (v = t) by congruence. subst v. split; [exact W|]. intros I e. now rewrite V, VV. }
  unfold mkEqV, mkEqV_ in H. destruct (Nat.ltb (length ps) 2); [discriminate H|]. apply bind_ok in H. destruct H as (s & _ & H).
  assert (Q : (qs <- eq_params s isTrue ps ;; match qs with [] => Ok TRUE | [q] => Ok q | _ => if Nat.ltb 100 (length qs) then Ok (T NT_EQ boolS (L "eq") qs) else mkOper c boolS NT_EQ qs end) = Ok t ->
    wt CB t /\ forall I e, eval I e t = VBool (chain veqb (map (eval I e) ps))).
  { intros X. apply bind_ok in X. destruct X as (qs & E & X). apply (eq_params_num r) in E; try assumption. subst qs.
    destruct ps as [|a [|b ps]]; [cbn in Hn; lia|cbn in Hn; lia|]. destruct (Nat.ltb 100 _); [|now apply M]. injection X as <-.
    split. { apply (W_app NT_EQ boolS _ CB _ _ SG); [reflexivity|now apply F2_back]. }
    intros I e. rewrite <- VV. apply (eval_opv I e NT_EQ CB _ boolS _ _ SG); [discriminate|now apply F2_back]. }
  destruct ps as [|a [|b [|d ps]]]; [cbn in Hn; lia|cbn in Hn; lia| |now apply Q].
  unfold mkEq in H. rewrite (Nat.add_comm _ 4) in H. cbn [Nat.add mkEqF] in H. apply bind_ok in H. destruct H as (ok & _ & H). destruct ok; [|discriminate H].
  inversion F as [|? ? Wa F1]; subst. inversion F1 as [|? ? Wb F2]; subst.
  destruct (num_kind r a Wa Hr) as (A1 & A2 & A3). destruct (num_kind r b Wb Hr) as (B1 & B2 & B3). rewrite A1, A2, A3, B1, B2 in H.
  cbn [negb andb] in H. now apply M.
Qed.
Lemma forallb_map_eq {A B} (p : B -> bool) (g : A -> B) l : forallb p (map g l) = forallb (fun x => p (g x)) l.
Proof. induction l; cbn; congruence. Qed.
Lemma chain_filter I e r ps : r = CI \/ r = CR -> ps <> [] -> forall a cs os, Permutation ps (os ++ a :: cs) ->
  chain veqb (map (eval I e) ps) = forallb (fun b => veqb (eval I e a) (eval I e b)) cs && forallb (fun b => veqb (eval I e a) (eval I e b)) os.
Proof.
  intros Hr Np a cs os P. rewrite (chain_all (eval I e a)).
  2:{ apply in_map. eapply Permutation_in; [apply Permutation_sym; exact P|]. apply in_or_app. right. now left. }
  assert (G : forall l m, Permutation l m -> forallb (veqb (eval I e a)) (map (eval I e) l) = forallb (fun b => veqb (eval I e a) (eval I e b)) m).
  { clear. intros l m P. rewrite forallb_map_eq. apply eq_true_iff_eq. rewrite !forallb_forall. split; intros H x Hx; apply H.
    - eapply Permutation_in; [apply Permutation_sym; exact P|exact Hx].
    - eapply Permutation_in; [exact P|exact Hx]. }
  rewrite (G _ _ P). rewrite forallb_app. cbn [forallb]. rewrite veqb_refl. cbn [andb]. apply andb_comm.
Qed.
Lemma evEq_num r ch vs t : r = CI \/ r = CR -> (2 <= length vs)%nat -> Forall (wt r) vs ->
  match consts vs with
  | [] => mkEqV c (others vs)
  | a :: l => e <- all_eq c a l ;;
      if e then match others vs with [] => Ok TRUE | os => mkEqV c (os ++ [a]) end else Ok FALSE
  end = Ok t -> ch = vs ->
  wt CB t /\ forall I e, eval I e t = VBool (chain veqb (map (eval I e) vs)).
Proof.
  intros Hr Hn F H _. pose proof (consts_others vs) as P.
  pose proof (filter_wt r isConst vs F) as Fc. pose proof (filter_wt r (fun x => negb (isConst x)) vs F) as Fo. fold (consts vs) in Fc. fold (others vs) in Fo.
  assert (Cc : forall x, In x (consts vs) -> isConst x = true) by (intros x Hx; now apply filter_In in Hx).
  assert (Nv : vs <> []) by (intros ->; cbn in Hn; lia).
  destruct (consts vs) as [|a cs].
  - rewrite app_nil_r in P. destruct (mkEqV_num r (others vs) t Hr) as [W V]; try assumption. { now rewrite <- (Permutation_length P). }
    split; [exact W|]. intros I e. rewrite V. f_equal. pose proof (op_perm_eq _ _ (Permutation_map (eval I e) P)) as X.
    pose proof (Permutation_length P) as PL. destruct vs as [|v1 [|v2 vs]]; [cbn in Hn; lia|cbn in Hn; lia|].
    destruct (others (v1 :: v2 :: vs)) as [|w1 [|w2 ws]]; [discriminate PL|discriminate PL|]. cbn [map op_sem cmpop] in X. cbn [map]. congruence.
  - apply bind_ok in H. destruct H as (x & E & H).
    assert (FF : Forall (fun y => wt r y /\ isConst y = true) (a :: cs)).
    { apply Forall_forall. intros y Hy. split; [|now apply Cc]. rewrite Forall_forall in Fc. now apply Fc. }
    assert (X : forall I e, x = forallb (fun b => veqb (eval I e a) (eval I e b)) cs).
    { intros I e. destruct (num_all_eq r a cs I e Hr FF) as (y & E' & ->). congruence. }
    assert (CH := fun I e => chain_filter I e r vs Hr Nv a cs (others vs) P).
    destruct x.
    + destruct (others vs) as [|o os] eqn:Os.
      * injection H as <-. split; [apply W_true|]. intros I e. rewrite CH, <- X. reflexivity.
      * destruct (mkEqV_num r ((o :: os) ++ [a]) t Hr) as [W V]; try assumption.
        { rewrite app_length. cbn. lia. } { apply Forall_app. split; [exact Fo|]. constructor; [|constructor]. now inversion Fc. }
        split; [exact W|]. intros I e. rewrite V, CH, <- X. cbn [andb]. f_equal.
        rewrite (chain_filter I e r ((o :: os) ++ [a]) Hr ltac:(discriminate) a [] (o :: os) (Permutation_refl _)). reflexivity.
    + injection H as <-. split; [apply W_false|]. intros I e. rewrite CH, <- X. reflexivity.
Qed.

Definition sound (r : cl) (t : term) (x : res outcome) : Prop := forall b o, x = Ok (b, o) ->
  exists v, o = Some v /\ wt r v /\ (b = false -> v = t) /\ forall I e, okall I e (t_ch t) -> eval I e t = eval I e v.
Lemma sound_same r t : wt r t -> sound r t (same t).
Proof. intros W b o H. injection H as <- <-. exists t. repeat split; auto. Qed.
Lemma sound_changed r t x g : wt r t -> exact r x g -> (forall I e, okall I e (t_ch t) -> eval I e t = g I e) -> sound r t (changed x).
Proof.
  intros W (v & -> & Wv & V) G b o H. cbn [changed bind] in H. injection H as <- <-. exists v. split; [reflexivity|]. split; [exact Wv|].
  split; [discriminate|]. intros I e A. rewrite V. now apply G.
Qed.
(** a node whose children are all evaluated and which is then rebuilt *)
Lemma sound_all r rs k s n ch (g : list term -> res term) : sig k r rs -> r <> CL -> Forall2 wt rs ch -> wt r (T k s n ch) -> Forall2 good rs ch ->
  (forall vs, Forall2 wt rs vs -> exact r (g vs) (fun I e => opv k (map (eval I e) vs))) ->
  sound r (T k s n ch) (q <- ev_all f ch ;; if fst q then changed (g (snd q)) else same (T k s n ch)).
Proof.
  intros Sg N Wc W G H b o E. apply bind_ok in E. destruct E as ([b1 vs] & E & E'). cbn [fst snd] in E'.
  destruct (ev_all_good rs ch G b1 vs E) as (Wv & Sm & V). destruct b1; [|now apply (sound_same r)].
  apply (sound_changed r (T k s n ch) (g vs) _ W (H vs Wv)); [|exact E'].
  intros I e A. cbn [t_ch] in A. rewrite <- (V I e A). now apply (eval_opv I e k r rs).
Qed.
Lemma step_sound k s n r rs ch : psig k r rs -> rsort r s -> Forall2 pt rs ch -> Forall2 good rs ch ->
  sound r (T k s n ch) (step c ptr f (T k s n ch)).
Proof.
  intros PS Hs Fp G. destruct (psig_sig k r rs PS) as [Sg N].
  assert (Wc : Forall2 wt rs ch) by (clear -Fp; induction Fp; constructor; [now apply pt_wt|assumption]).
  assert (W : wt r (T k s n ch)) by now apply (W_app k s n r rs).
  assert (X := sound_all r rs k s n ch).
  destruct PS as [|k m0 Hk Hm| |r0 Hr|r0 m0 Hr Hm|k Hk|k r0 m0 Hk Hr Hm|r0 Hr].
  - (* not *)
    inversion G as [|? x ? l Gx G']; subst. inversion G'; subst.
    change (sound CB (T NT_NOT s n [x]) (o <- f x ;; if fst o then changed (mkOper c s NT_NOT [val (snd o)]) else same (T NT_NOT s n [x]))).
    intros b o E. apply bind_ok in E. destruct E as ([b1 o1] & E & E'). cbn [fst snd] in E'.
    specialize (X (fun vs => mkOper c s NT_NOT vs) Sg N Wc W G (fun vs Hv => mkOper_exact c s NT_NOT CB _ vs Hc Sg N Hs Hv)).
    apply (X b o). cbn [ev_all]. rewrite E. cbn [bind fst snd]. rewrite orb_false_r. exact E'.
  - (* and, or *)
    apply Forall2_repeat in G. destruct G as [_ G].
    assert (Q : sound CB (T k s n ch) (evAndOr c f (keq k NT_AND) (T k s n ch))).
    { intros b o E. unfold evAndOr in E. cbn [t_ch] in E. apply bind_ok in E. destruct E as (j & E & E').
      pose proof (junction_good (keq k NT_AND) ch G j E) as J.
      assert (EV : forall I e, okall I e ch -> eval I e (T k s n ch) = VBool (if keq k NT_AND then forallb (holds I e) ch else existsb (holds I e) ch)).
      { intros I e _. rewrite (proj1 (eval_opv I e k CB (repeat CB m0) s n ch Sg N Wc)). unfold opv.
        destruct Hk as [ <- | [ <- | [] ]]; cbn [op_sem]; f_equal; clear; induction ch; cbn in *; f_equal; auto. }
      destruct j as [v|[b1 vs]].
      - injection E' as <- <-. destruct J as [-> J]. eexists. split; [reflexivity|]. split; [destruct (keq k NT_AND); [apply W_false|apply W_true]|].
        split; [discriminate|]. intros I e A. cbn [t_ch] in A. rewrite (EV I e A), (J I e A). destruct (keq k NT_AND); reflexivity.
      - destruct b1; [|now apply (sound_same CB)]. destruct J as [Wv J].
        refine (sound_changed CB (T k s n ch) _ (fun I e => VBool (if keq k NT_AND then forallb (holds I e) vs else existsb (holds I e) vs)) W _ _ b o E').
        + destruct vs as [|v1 [|v2 vs]].
          * eexists. split; [reflexivity|]. split; [destruct (keq k NT_AND); [apply W_true|apply W_false]|]. intros I e. destruct (keq k NT_AND); reflexivity.
          * exists v1. split; [reflexivity|]. inversion Wv; subst. split; [assumption|]. intros I e. cbn [forallb existsb]. rewrite andb_true_r, orb_false_r.
            rewrite (wt_holds I e v1) by assumption. now destruct (keq k NT_AND).
          * assert (BA := wt_bool_args _ Wv). destruct (keq k NT_AND).
            -- destruct (mkAnd_sound c _ Hc BA) as (t & Et & Vt). exists t. split; [exact Et|].
               assert (Wt : wt CB t) by (apply (mkJunction_wt c NT_AND (v1 :: v2 :: vs)); [assumption|cbn; auto|assumption|exact Et]).
               split; [exact Wt|]. intros I e. rewrite (wt_holds I e t Wt). now rewrite Vt.
            -- destruct (mkOr_sound c _ Hc BA) as (t & Et & Vt). exists t. split; [exact Et|].
               assert (Wt : wt CB t) by (apply (mkJunction_wt c NT_OR (v1 :: v2 :: vs)); [assumption|cbn; auto|assumption|exact Et]).
               split; [exact Wt|]. intros I e. rewrite (wt_holds I e t Wt). now rewrite Vt.
        + intros I e A. cbn [t_ch] in A. rewrite (EV I e A). now rewrite (J I e A). }
    destruct Hk as [ <- | [ <- | [] ]]; exact Q.
  - (* implies *)
    inversion G as [|? x ? l Gx G1]; subst. inversion G1 as [|? y ? l' Gy G2]; subst. inversion G2; subst.
    change (sound CB (T NT_IMPLIES s n [x; y]) (o <- f x ;; p <- f y ;; if fst o || fst p then changed (mkOper c s NT_IMPLIES [val (snd o); val (snd p)]) else same (T NT_IMPLIES s n [x; y]))).
    intros b o E. apply bind_ok in E. destruct E as ([b1 o1] & E & E'). apply bind_ok in E'. destruct E' as ([b2 o2] & E2 & E'). cbn [fst snd] in E'.
    specialize (X (fun vs => mkOper c s NT_IMPLIES vs) Sg N Wc W G (fun vs Hv => mkOper_exact c s NT_IMPLIES CB _ vs Hc Sg N Hs Hv)).
    apply (X b o). cbn [ev_all]. rewrite E, E2. cbn [bind fst snd]. rewrite orb_false_r. exact E'.
  - (* ite *)
    inversion G as [|? x ? l Gx G1]; subst. inversion G1 as [|? y ? l' Gy G2]; subst. inversion G2 as [|? z ? l'' Gz G3]; subst. inversion G3; subst.
    specialize (X (fun vs => match vs with [v; a; d] => if isConst v then Ok (if isTrue v then a else d) else mkIte c v a d | _ => UB end) Sg N Wc W G).
    change (sound r0 (T NT_ITE s n [x; y; z]) (evIte c f (T NT_ITE s n [x; y; z]))).
    assert (X' := X). clear X. lapply X'; [intros X|].
    + intros b o E. unfold evIte in E. cbn [t_ch] in E. apply bind_ok in E. destruct E as ([b1 o1] & E1 & E). apply bind_ok in E. destruct E as ([b2 o2] & E2 & E).
      apply bind_ok in E. destruct E as ([b3 o3] & E3 & E). cbn [fst snd] in E. apply (X b o). cbn [ev_all]. rewrite E1, E2, E3. cbn [bind fst snd].
      rewrite orb_false_r, orb_assoc. exact E.
    + intros vs Hv. inversion Hv as [|? v ? ? Wv H1]; subst. inversion H1 as [|? a ? ? Wa H2]; subst. inversion H2 as [|? d ? ? Wd H3]; subst. inversion H3; subst.
      destruct (isConst v) eqn:Cv.
      * destruct (wt_const CB v Wv Cv) as [ -> | -> ].
        -- exists a. split; [reflexivity|]. split; [exact Wa|]. reflexivity.
        -- exists d. split; [reflexivity|]. split; [exact Wd|]. reflexivity.
      * unfold mkIte. rewrite (proj2 (wt_not_unk _ _ Wv)), (proj2 (wt_not_unk _ _ Wa)), (proj2 (wt_not_unk _ _ Wd)).
        apply (mkOper_exact c (t_sort a) NT_ITE r0 [CB; r0; r0]); try assumption. now apply wt_sort.
  - (* equality *)
    change (sound CB (T NT_EQ s n ch) (evEq c f (T NT_EQ s n ch))). intros b o E. unfold evEq in E. cbn [t_ch] in E.
    apply bind_ok in E. destruct E as ([b1 vs] & E & E'). cbn [fst snd] in E'.
    destruct (ev_all_good _ ch G b1 vs E) as (Wv & Sm & V). destruct b1; [|now apply (sound_same CB)].
    apply bind_ok in E'. destruct E' as (t & Et & E'). injection E' as <- <-. apply Forall2_repeat in Wv. destruct Wv as [Lv Wv].
    destruct (evEq_num r0 vs vs t Hr ltac:(lia) Wv Et eq_refl) as [Wt Vt]. exists t. split; [reflexivity|]. split; [exact Wt|]. split; [discriminate|].
    intros I e A. cbn [t_ch] in A. rewrite (proj1 (eval_opv I e NT_EQ CB _ s n ch Sg N Wc)), (V I e A), Vt.
    destruct vs as [|a [|d vs]]; [cbn in Lv; lia|cbn in Lv; lia|reflexivity].
  - (* comparisons *)
    inversion G as [|? x ? l Gx G1]; subst. inversion G1 as [|? y ? l' Gy G2]; subst. inversion G2; subst.
    assert (Q : sound CB (T k s n [x; y]) (o <- f x ;; p <- f y ;; if fst o || fst p then changed (mkOper c s k [val (snd o); val (snd p)]) else same (T k s n [x; y]))).
    { intros b o E. apply bind_ok in E. destruct E as ([b1 o1] & E & E'). apply bind_ok in E'. destruct E' as ([b2 o2] & E2 & E'). cbn [fst snd] in E'.
      specialize (X (fun vs => mkOper c s k vs) Sg N Wc W G (fun vs Hv => mkOper_exact c s k CB _ vs Hc Sg N Hs Hv)).
      apply (X b o). cbn [ev_all]. rewrite E, E2. cbn [bind fst snd]. rewrite orb_false_r. exact E'. }
    repeat (destruct Hk as [ <- | Hk ]; [exact Q|]). contradiction.
  - (* arithmetic *)
    destruct Hk as [ <- | [ <- | [ <- | [] ]]].
    + apply (X (evN c s NT_ADD)); try assumption. intros vs Hv. apply Forall2_repeat in Hv. destruct Hv as [Lv Wv].
      assert (Nv : vs <> []) by (intros ->; cbn in Lv; lia).
      eapply exact_ext; [apply evN_exact; try eassumption; cbn; auto|]. intros I e. cbv beta. rewrite opq_op; [reflexivity|cbn; auto|now destruct vs].
    + apply (X (evN c s NT_MUL)); try assumption. intros vs Hv. apply Forall2_repeat in Hv. destruct Hv as [Lv Wv].
      assert (Nv : vs <> []) by (intros ->; cbn in Lv; lia).
      eapply exact_ext; [apply evN_exact; try eassumption; cbn; auto|]. intros I e. cbv beta. rewrite opq_op; [reflexivity|cbn; auto|now destruct vs].
    + apply (X (evS c s NT_SUB)); try assumption. intros vs Hv. apply Forall2_repeat in Hv. destruct Hv as [Lv Wv].
      destruct vs as [|v [|w vs]]; [cbn in Lv; lia|cbn in Lv; lia|]. eapply exact_ext; [apply evS_exact; eassumption|].
      intros I e. cbv beta. unfold opv. cbn [map op_sem tl]. now rewrite subq_sum.
  - (* negation *)
    inversion G as [|? x ? l Gx G']; subst. inversion G'; subst.
    change (sound r0 (T NT_NEG s n [x]) (o <- f x ;; if fst o then changed (mkOper c s NT_NEG [val (snd o)]) else same (T NT_NEG s n [x]))).
    intros b o E. apply bind_ok in E. destruct E as ([b1 o1] & E & E'). cbn [fst snd] in E'.
    specialize (X (fun vs => mkOper c s NT_NEG vs) Sg N Wc W G (fun vs Hv => mkOper_exact c s NT_NEG r0 _ vs Hc Sg N Hs Hv)).
    apply (X b o). cbn [ev_all]. rewrite E. cbn [bind fst snd]. rewrite orb_false_r. exact E'.
Qed.

Lemma leaf_k k : is_leaf_var k = true -> keq k NT_UNKNOWN = false /\ keq k NT_ERROR = false /\ kin k const_kinds = false /\ (kin k var_kinds = true \/ k = NT_FUNC_PARAM).
Proof. destruct k; try discriminate; intros _; repeat split; auto. Qed.
Lemma psig_kind k r rs : psig k r rs -> keq k NT_UNKNOWN = false /\ keq k NT_ERROR = false /\ kin k const_kinds = false /\ kin k var_kinds = false.
Proof.
  intros []; try (repeat split; reflexivity);
    match goal with H : In _ _ |- _ => repeat (destruct H as [ <- | H ]; [repeat split; reflexivity|]); contradiction end.
Qed.
Theorem evaluate_sound r t : pt r t -> sorted_model m t -> good r t.
Proof.
  intros W. assert (Wt := pt_wt r t W). induction W as [k s n r A B| | |s z A|k s n r rs ch A B F IH|s n r rs ch A B D F|t W IH] using pt_ind'; intros SM b o H.
  - unfold f in H. cbn [evaluate] in H. destruct (m_isEmpty m). { injection H as <- <-. eexists; repeat split; eauto. }
    destruct (leaf_k k A) as (K1 & K2 & K3 & K4). unfold isUnknown at 1, isErr, isk, isConst, isVar in H. cbn [t_kind] in H. rewrite K1, K2, K3 in H.
    destruct K4 as [K4| ->].
    + rewrite K4 in H. apply bind_ok in H. destruct H as (v & E & H). destruct (isUnknown v) eqn:U. { injection H as <- <-. eexists; repeat split; eauto. }
      injection H as <- <-. exists v. split; [reflexivity|]. split; [apply (SM (T k s n []) r v); [constructor|exact K4|exact Wt|exact E|exact U]|]. split; [discriminate|].
      intros I e Ag. apply Ag; [constructor|exact K4|exact E|exact U].
    + injection H as <- <-. eexists; repeat split; eauto.
  - unfold f in H. rewrite evaluate_const in H by reflexivity. injection H as <- <-. eexists; repeat split; eauto.
  - unfold f in H. rewrite evaluate_const in H by reflexivity. injection H as <- <-. eexists; repeat split; eauto.
  - unfold f in H. rewrite evaluate_const in H by reflexivity. injection H as <- <-. eexists; repeat split; eauto.
  - assert (G : Forall2 good rs ch).
    { assert (SM' : forall x, In x ch -> sorted_model m x) by (intros x Hx y q v Sy; apply SM; now apply (Sub_ch y x)).
      clear -IH F SM'. revert F. induction IH as [|q x rs ch Hx IH IHl]; intros F; [constructor|]. inversion F; subst. constructor.
      - apply Hx; [now apply pt_wt|apply SM'; now left].
      - apply IHl; [|assumption]. intros y Y. apply SM'. now right. }
    destruct (psig_kind k r rs A) as (K1 & K2 & K3 & K4). destruct (m_isEmpty m) eqn:Em.
    { unfold f in H. cbn [evaluate] in H. rewrite Em in H. injection H as <- <-. eexists; repeat split; eauto. }
    unfold f in H. rewrite evaluate_app in H by assumption. destruct (step_sound k s n r rs ch A B F G b o H) as (v & -> & Wv & Sm & V).
    exists v. split; [reflexivity|]. split; [exact Wv|]. split; [exact Sm|]. intros I e Ag. apply V. cbn [t_ch]. intros x Hx y w Sy. apply Ag. now apply (Sub_ch y x).
  - unfold f in H. destruct (m_isEmpty m) eqn:Em.
    { cbn [evaluate] in H. rewrite Em in H. injection H as <- <-. eexists; repeat split; eauto. }
    rewrite evaluate_app in H by (assumption || reflexivity). injection H as <- <-. eexists; repeat split; eauto.
  - assert (SM' := SM). destruct (IH (pt_wt CI t W) SM' b o H) as (v & -> & Wv & Sm & V). exists v. split; [reflexivity|]. split; [now apply W_sub|]. now split.
Qed.
End Ev.
