(** Evaluation under a partial assignment keeps the value. *)
From Coq Require Import QArith Qcanon Permutation.
From Verif Require Import Base KindModel SortModel TermModel BVSpec UtilSpec DagProofs SortProofs Sem SemProofs ArrayModel SimpModel OpModel OpSpec
  OpProofs OpProofs2 OpProofs3 OpProofs4 OpProofs5 OpProofs7 TypedSpec TypedProofs TraverseModel EvalModel EvalSpec EvalProofs EvalProofs3.
Open Scope Z_scope.

Lemma bind_ok {A B} (x : res A) (k : A -> res B) b : bind x k = Ok b -> exists a, x = Ok a /\ k a = Ok b.
Proof. destruct x; cbn [bind]; try discriminate. intros H. eauto. Qed.
Lemma psig_sig k r rs : psig k r rs -> sig k r rs /\ r <> CL.
Proof.
  intros []; (split; [|try discriminate; try assumption]).
  - constructor.
  - constructor; [cbn in *; tauto|assumption].
  - apply (S_imp 2); lia.
  - now constructor.
  - constructor; [cbn; auto|destruct H as [ -> | -> ]; discriminate|assumption].
  - now constructor.
  - now constructor.
  - destruct H0 as [ -> | -> ]; discriminate.
  - now constructor.
  - destruct H as [ -> | -> ]; discriminate.
Qed.
Lemma pt_ind' (P : cl -> term -> Prop) :
  (forall k s n r, is_leaf_var k = true -> vsort r s -> P r (T k s n [])) ->
  P CB TRUE -> P CB FALSE ->
  (forall s z, s = intS \/ s = intorealS -> P CI (T NT_CONST s (Idec z) [])) ->
  (forall k s n r rs ch, psig k r rs -> rsort r s -> Forall2 pt rs ch -> Forall2 P rs ch -> P r (T k s n ch)) ->
  (forall s n r rs ch, ch <> [] -> ~ In CL rs -> vsort r s -> Forall2 wt rs ch -> P r (T NT_UF_APPLY s n ch)) ->
  (forall t, pt CI t -> P CI t -> P CR t) ->
  forall r t, pt r t -> P r t.
Proof.
  intros H1 H2 H3 H4 H5 H6 H7. fix IH 3. intros r t W. destruct W as [k s n r A B| | |s z A|k s n r rs ch A B F|s n r rs ch A B D F|t W].
  - now apply H1.
  - exact H2.
  - exact H3.
  - now apply H4.
  - apply (H5 k s n r rs ch A B F). clear A B. induction F as [|x y l m W F IHF]; constructor; [now apply IH|exact IHF].
  - now apply (H6 s n r rs ch A B D F).
  - apply H7; [exact W|now apply IH].
Qed.
Lemma pt_wt r t : pt r t -> wt r t.
Proof.
  intros W. induction W as [k s n r A B| | |s z A|k s n r rs ch A B F IH|s n r rs ch A B D F|t W IH] using pt_ind'.
  - now apply W_var.
  - apply W_true.
  - apply W_false.
  - now apply W_int.
  - apply (W_app k s n r rs); [now apply psig_sig|assumption|assumption].
  - now apply (W_uf s n r rs).
  - now apply W_sub.
Qed.

(** constants of the fragment *)
Lemma wt_const r t : wt r t -> isConst t = true ->
  match r with CB => t = TRUE \/ t = FALSE | CL => False | CV w => exists v, (0 < w)%nat /\ fits w /\ t = bc w v | _ => exists s z, (s = intS \/ s = intorealS) /\ t = ic s z end.
Proof.
  intros W C. induction W as [k s n r A B| | |s z A|k s n r rs ch A B F IH|s n r rs ch A B D F IH|t W IH|w v A B] using wt_ind'.
  - unfold isConst in C. cbn [t_kind] in C. rewrite leaf_not_const in C by exact A. discriminate C.
  - now left.
  - now right.
  - exists s, z. now split.
  - unfold isConst in C. cbn [t_kind] in C. destruct (sig_not_const k r rs A) as (X & _). rewrite X in C. discriminate C.
  - discriminate C.
  - exact (IH C).
  - now exists v.
Qed.
Lemma consts_others l : Permutation l (others l ++ consts l).
Proof.
  unfold others, consts. induction l as [|x l IH]; [constructor|]. cbn [filter]. destruct (isConst x); cbn [negb].
  - apply Permutation_cons_app. exact IH.
  - cbn [app]. now constructor.
Qed.
Lemma filter_wt r f l : Forall (wt r) l -> Forall (wt r) (filter f l).
Proof. intros H. apply Forall_forall. intros x Hx. apply filter_In in Hx. rewrite Forall_forall in H. now apply H. Qed.
Lemma F2_back r n l : length l = n -> Forall (wt r) l -> Forall2 wt (repeat r n) l.
Proof. intros. now apply Forall2_repeat. Qed.

Definition exact (r : cl) (t : res term) (g : interp -> env -> value) : Prop :=
  exists v, t = Ok v /\ wt r v /\ forall I e, eval I e v = g I e.
Definition opv (k : kind) (vs : list value) : value := match op_sem k vs with Some v => v | None => VBool false end.
Lemma eval_opv I e k r rs s n us : sig k r rs -> r <> CL -> Forall2 wt rs us -> eval I e (T k s n us) = opv k (map (eval I e) us) /\ op_sem k (map (eval I e) us) = Some (opv k (map (eval I e) us)).
Proof.
  intros H N F. destruct (sig_ne k r rs H) as [Hn Hq].
  assert (VF : Forall2 vcl rs (map (eval I e) us)) by (clear -F; induction F; cbn; constructor; [now apply wt_val|assumption]).
  destruct (sig_val k r rs _ H N VF) as (v & Ev & _). unfold opv. rewrite Ev. split; [|reflexivity].
  apply (eval_op I e k s n us v); [now apply (F2_ne _ _ _ F)|exact Hq|exact Ev].
Qed.
Lemma mkOper_exact c s k r rs us : cfg_ok c -> sig k r rs -> r <> CL -> rsort r s -> Forall2 wt rs us ->
  exact r (mkOper c s k us) (fun I e => opv k (map (eval I e) us)).
Proof.
  intros Hc H N Hs F. destruct (mkOper_wt c s k r rs us Hc H Hs F) as (t & E & W & V). exists t. split; [exact E|]. split; [exact W|].
  intros I e. rewrite V. now apply (eval_opv I e k r rs).
Qed.
Lemma exact_ext r t g h : exact r t g -> (forall I e, g I e = h I e) -> exact r t h.
Proof. intros (v & E & W & V) H. exists v. split; [exact E|]. split; [exact W|]. intros I e. now rewrite V. Qed.

(** ** sums, products, differences *)
Definition opq (k : kind) (vs : list value) : Qc := match k with NT_ADD => sumq vs | _ => prodq vs end.
Lemma opq_op k vs : In k [NT_ADD; NT_MUL] -> vs <> [] -> opv k vs = VNum (opq k vs).
Proof. intros [ <- | [ <- | [] ]] N; destruct vs; try contradiction; reflexivity. Qed.
Lemma opq_app k vs ws : In k [NT_ADD; NT_MUL] -> opq k (vs ++ ws) = match k with NT_ADD => opq k vs + opq k ws | _ => opq k vs * opq k ws end%Qc.
Proof.
  intros Hk. assert (A : forall vs, sumq (vs ++ ws) = (sumq vs + sumq ws)%Qc).
  { clear. intros vs. unfold sumq. induction vs as [|v vs IH]; cbn [app fold_right]; [ring|]. rewrite IH. ring. }
  assert (M : forall vs, prodq (vs ++ ws) = (prodq vs * prodq ws)%Qc).
  { clear. intros vs. unfold prodq. induction vs as [|v vs IH]; cbn [app fold_right]; [ring|]. rewrite IH. ring. }
  destruct Hk as [ <- | [ <- | [] ]]; cbn [opq]; auto.
Qed.
Lemma opq_one k q : In k [NT_ADD; NT_MUL] -> opq k [VNum q] = q.
Proof. intros [ <- | [ <- | [] ]]; unfold opq, sumq, prodq; cbn [fold_right num]; ring. Qed.
Lemma opq_perm k vs ws : In k [NT_ADD; NT_MUL] -> Permutation vs ws -> opq k vs = opq k ws.
Proof.
  intros Hk P. assert (X : op_sem k vs = op_sem k ws) by (apply op_perm_num; [cbn in *; tauto|exact P]).
  destruct vs as [|v vs]. { apply Permutation_nil in P. now subst. } destruct ws as [|w ws]. { apply Permutation_sym, Permutation_nil in P. discriminate P. }
  destruct Hk as [ <- | [ <- | [] ]]; cbn [op_sem opq] in *; congruence.
Qed.
Lemma wt_num r t I e : r = CI \/ r = CR -> wt r t -> exists q, eval I e t = VNum q.
Proof. intros H W. pose proof (wt_val I e r t W) as V. destruct H as [ -> | -> ]; destruct V as (q & ->); eauto. Qed.
Lemma arith_rsort r : r = CI \/ r = CR -> rsort r intS. Proof. intros [ -> | -> ]; cbn; auto. Qed.

Lemma fold_exact c s k r x l : cfg_ok c -> In k [NT_ADD; NT_MUL] -> r = CI \/ r = CR -> rsort r s -> Forall (wt r) (x :: l) ->
  exact r (fold_consts c s k (x :: l)) (fun I e => VNum (opq k (map (eval I e) (x :: l)))).
Proof.
  intros Hc Hk Hr Hs. cbn [fold_consts]. revert x. induction l as [|y l IH]; intros x F.
  - exists x. split; [reflexivity|]. inversion F; subst. split; [assumption|]. intros I e. destruct (wt_num r x I e Hr) as (q & E); [assumption|].
    cbn [map]. rewrite E. now rewrite opq_one.
  - inversion F as [|? ? Wx F1]; subst. inversion F1 as [|? ? Wy F2]; subst.
    destruct (mkOper_exact c s k r [r; r] [x; y] Hc) as (v & E & W & V).
    { apply (S_arith k r 2); [cbn in *; tauto|assumption|lia]. } { destruct Hr as [ -> | -> ]; discriminate. } { assumption. } { repeat constructor; assumption. }
    cbn [foldM]. rewrite E. cbn [bind]. destruct (IH v) as (u & E' & W' & V'); [now constructor|]. exists u. split; [exact E'|]. split; [exact W'|].
    intros I e. rewrite V'. f_equal. change (map (eval I e) (v :: l)) with ([eval I e v] ++ map (eval I e) l).
    change (map (eval I e) (x :: y :: l)) with ([eval I e x; eval I e y] ++ map (eval I e) l). rewrite !opq_app by assumption.
    rewrite V. cbn [map]. rewrite opq_op by (assumption || discriminate). now rewrite opq_one.
Qed.
Lemma rebuild1_exact c s k r l : cfg_ok c -> In k [NT_ADD; NT_MUL] -> r = CI \/ r = CR -> rsort r s -> l <> [] -> Forall (wt r) l ->
  exact r (rebuild1 c s k l) (fun I e => VNum (opq k (map (eval I e) l))).
Proof.
  intros Hc Hk Hr Hs Nl F. destruct l as [|x [|y l]]; [contradiction| |].
  - exists x. split; [reflexivity|]. inversion F; subst. split; [assumption|]. intros I e. destruct (wt_num r x I e Hr) as (q & E); [assumption|].
    cbn [map]. rewrite E. now rewrite opq_one.
  - unfold rebuild1. eapply exact_ext.
    + apply (mkOper_exact c s k r (repeat r (length (x :: y :: l)))); [assumption| | |assumption|now apply F2_back].
      * apply S_arith; [cbn in *; tauto|assumption|cbn; lia].
      * destruct Hr as [ -> | -> ]; discriminate.
    + intros I e. cbv beta. apply opq_op; [assumption|discriminate].
Qed.
Lemma evN_exact c s k r l : cfg_ok c -> In k [NT_ADD; NT_MUL] -> r = CI \/ r = CR -> rsort r s -> l <> [] -> Forall (wt r) l ->
  exact r (evN c s k l) (fun I e => VNum (opq k (map (eval I e) l))).
Proof.
  intros Hc Hk Hr Hs Nl F. pose proof (consts_others l) as P. unfold evN.
  pose proof (filter_wt r isConst l F) as Fc. pose proof (filter_wt r (fun x => negb (isConst x)) l F) as Fo. fold (consts l) in Fc. fold (others l) in Fo.
  destruct (consts l) as [|a cs].
  - rewrite app_nil_r in P. eapply exact_ext.
    + apply rebuild1_exact; try eassumption. intros X. rewrite X in P. apply Permutation_sym, Permutation_nil in P. contradiction.
    + intros I e. cbv beta. f_equal. apply opq_perm; [assumption|]. apply Permutation_map. now apply Permutation_sym.
  - destruct (fold_exact c s k r a cs Hc Hk Hr Hs Fc) as (v & -> & W & V). cbn [bind]. eapply exact_ext.
    + apply rebuild1_exact; try eassumption. { now destruct (others l). } apply Forall_app. split; [exact Fo|now constructor].
    + intros I e. cbv beta. f_equal. rewrite (opq_perm k (map (eval I e) l) (map (eval I e) (others l ++ a :: cs)) Hk) by now apply Permutation_map.
      rewrite !map_app, !opq_app by assumption. cbn [map]. rewrite V. now rewrite opq_one.
Qed.
Lemma subq_sum x vs : subq x vs = (num x - sumq vs)%Qc.
Proof.
  unfold subq, sumq. generalize (num x) as q. induction vs as [|v vs IH]; intros q; cbn [fold_left fold_right]; [ring|]. rewrite IH. ring.
Qed.
Lemma mkSub_exact c s r x l : cfg_ok c -> r = CI \/ r = CR -> rsort r s -> Forall (wt r) (x :: l) ->
  exact r (rebuild1 c s NT_SUB (x :: l)) (fun I e => VNum (num (eval I e x) - sumq (map (eval I e) l))%Qc).
Proof.
  intros Hc Hr Hs F. destruct l as [|y l].
  - exists x. split; [reflexivity|]. inversion F; subst. split; [assumption|]. intros I e. destruct (wt_num r x I e Hr) as (q & E); [assumption|].
    cbn [map]. rewrite E. cbn [num sumq fold_right]. f_equal. ring.
  - unfold rebuild1. eapply exact_ext.
    + apply (mkOper_exact c s NT_SUB r (repeat r (length (x :: y :: l)))); [assumption| | |assumption|now apply F2_back].
      * apply S_arith; [cbn; tauto|assumption|cbn; lia].
      * destruct Hr as [ -> | -> ]; discriminate.
    + intros I e. unfold opv. cbn [map op_sem tl]. f_equal. apply subq_sum.
Qed.
Lemma foldsub_exact c s r x l : cfg_ok c -> r = CI \/ r = CR -> rsort r s -> Forall (wt r) (x :: l) ->
  exact r (fold_consts c s NT_SUB (x :: l)) (fun I e => VNum (num (eval I e x) - sumq (map (eval I e) l))%Qc).
Proof.
  intros Hc Hr Hs. cbn [fold_consts]. revert x. induction l as [|y l IH]; intros x F.
  - exists x. split; [reflexivity|]. inversion F; subst. split; [assumption|]. intros I e. destruct (wt_num r x I e Hr) as (q & E); [assumption|].
    cbn [map]. rewrite E. cbn [num sumq fold_right]. f_equal. ring.
  - inversion F as [|? ? Wx F1]; subst. inversion F1 as [|? ? Wy F2]; subst.
    destruct (mkSub_exact c s r x [y] Hc Hr Hs) as (v & E & W & V); [repeat constructor; assumption|]. cbn [rebuild1] in E.
    cbn [foldM]. rewrite E. cbn [bind]. destruct (IH v) as (u & E' & W' & V'); [now constructor|]. exists u. split; [exact E'|]. split; [exact W'|].
    intros I e. rewrite V', V. f_equal. cbn [num map sumq fold_right]. unfold sumq. ring.
Qed.
Lemma sumq_perm vs ws : Permutation vs ws -> sumq vs = sumq ws.
Proof. intros P. exact (opq_perm NT_ADD vs ws (or_introl eq_refl) P). Qed.
Lemma sumq_app vs ws : sumq (vs ++ ws) = (sumq vs + sumq ws)%Qc.
Proof. exact (opq_app NT_ADD vs ws (or_introl eq_refl)). Qed.
Lemma sumq_cons v ws : sumq (v :: ws) = (num v + sumq ws)%Qc. Proof. reflexivity. Qed.
Lemma evS_exact c s r x l : cfg_ok c -> r = CI \/ r = CR -> rsort r s -> Forall (wt r) (x :: l) ->
  exact r (evS c s NT_SUB (x :: l)) (fun I e => VNum (num (eval I e x) - sumq (map (eval I e) l))%Qc).
Proof.
  intros Hc Hr Hs F. pose proof (consts_others l) as P. unfold evS.
  pose proof (filter_wt r isConst _ F) as Fc. pose proof (filter_wt r (fun x => negb (isConst x)) _ F) as Fo. fold (consts (x :: l)) in Fc. fold (others (x :: l)) in Fo.
  assert (X : forall I e, sumq (map (eval I e) l) = (sumq (map (eval I e) (others l)) + sumq (map (eval I e) (consts l)))%Qc).
  { intros I e. rewrite (sumq_perm _ _ (Permutation_map (eval I e) P)). now rewrite map_app, sumq_app. }
  assert (C : consts (x :: l) = if isConst x then x :: consts l else consts l) by reflexivity.
  assert (O : others (x :: l) = if isConst x then others l else x :: others l) by (unfold others; cbn [filter]; now destruct (isConst x)).
  destruct (isConst x) eqn:Cx.
  - rewrite C in *. rewrite O in *. cbv iota in *. destruct (foldsub_exact c s r x (consts l) Hc Hr Hs Fc) as (v & E & W & V). rewrite E. cbn [bind].
    eapply exact_ext; [apply mkSub_exact; try eassumption; now constructor|]. intros I e. cbv beta. rewrite V. f_equal. cbn [num]. rewrite X. ring.
  - rewrite C in *. rewrite O in *. destruct (consts l) as [|a cs].
    + eapply exact_ext; [apply mkSub_exact; eassumption|]. intros I e. cbv beta. f_equal. rewrite X. cbn [map]. unfold sumq at 3. cbn [fold_right]. ring.
    + change (getFlipKind NT_SUB) with NT_ADD. destruct (fold_exact c s NT_ADD r a cs Hc (or_introl eq_refl) Hr Hs Fc) as (v & E & W & V). rewrite E. cbn [bind].
      change ((x :: others l) ++ [v]) with (x :: (others l ++ [v])). inversion Fo as [|? ? Wx Fo']; subst.
      eapply exact_ext; [apply mkSub_exact; try eassumption; constructor; [assumption|]; apply Forall_app; split; [assumption|now constructor]|].
      intros I e. cbv beta. f_equal. rewrite X. rewrite map_app, sumq_app. cbn [map]. rewrite V. cbn [opq].
      rewrite (sumq_cons (VNum _)). cbn [num]. unfold sumq at 3. cbn [fold_right map]. unfold sumq. cbn [fold_right]. ring.
Qed.
