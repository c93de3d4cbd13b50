(** Consequences of the theorem about scripts: parser calls, the order of what is
    recorded, exit; checkSat; options; attributes. *)
From Verif Require Import Base BVProofs2 LexSpec LexProofs KindModel SortModel TermModel UtilModel SimpModel OpModel LexModel
  ParseModel ParseSpec ParseProofs ParseProofs2 ParseTerm ParseLits ApplyModel CommandModel CommandSpec CommandProofs CommandProofs2 CommandTerm.
From Coq Require Import Permutation.
Open Scope Z_scope.

(** ** scripts with something behind them *)
Section Cmds.
Context (b : pcfg) (file : bool).
Lemma script_pre l : forall p g p' g' s ks fuel, steps b file p g l p' g' -> holds_decls p (sp s) ->
  at_toks (sl s) (render_script l ++ ks) ->
  exists s', pscript (length l + fuel) b file s g = pscript fuel b file s' g' /\ holds_decls p' (sp s') /\ at_toks (sl s') ks.
Proof.
  induction l as [|c l IH]; intros p g p' g' s ks fuel Hs Hp Ha; inversion Hs; subst; cbn [length Nat.add].
  - exists s. auto.
  - cbn [render_script flat_map] in Ha. fold (render_script l) in Ha. cbn [app] in Ha. rewrite <- !app_assoc in Ha. cbn [app] in Ha.
    cbn [pscript].
    assert (aeq (cur (sl s)) nul = false) as ->.
    { rewrite (cur_tok _ _ _ Ha). reflexivity. }
    destruct (lpar_tok _ _ Ha) as (l0 & -> & Hl0). cbn [bind].
    match goal with H : step _ _ p g c _ _ |- _ => pose proof (step_fv _ _ _ _ _ _ _ H (proj2 (proj1 (hold_decls _ _) Hp))) as Hfv;
      destruct (step_does _ _ _ _ _ _ _ (CS (sp s) l0) _ H Hp Hl0) as (s1 & s2 & -> & E & Ha2 & Hp2) end.
    cbn [bind fst snd]. rewrite E. cbn [bind].
    eapply IH; eauto. apply hold_decls. auto.
Qed.
Lemma script_exit l p g p' g' s ks fuel : steps b file p g l p' g' -> holds_decls p (sp s) ->
  at_toks (sl s) (render_script l ++ TL :: word "exit" :: TR :: ks) -> (length l < fuel)%nat ->
  exists q, pscript fuel b file s g = Ok (q, g') /\ holds_decls p' q.
Proof.
  intros Hs Hp Ha Hu. replace fuel with (length l + S (fuel - length l - 1))%nat by lia.
  destruct (script_pre l _ _ _ _ _ _ (S (fuel - length l - 1)) Hs Hp Ha) as (s' & -> & Hp' & Ha').
  cbn [pscript]. rewrite (cur_tok _ _ _ Ha'). cbn [raw]. change (aeq "("%char nul) with false. cbn iota.
  destruct (lpar_tok _ _ Ha') as (l0 & -> & Hl0). cbn [bind].
  pose proof (sym_tok (xo b file (g_opt g')) (CS (sp s') l0) (word "exit") (TR :: ks)) as E.
  destruct E as (l1 & E & _); [exact Hl0|split; discriminate|intros; discriminate|].
  unfold pcommand. cbv zeta. rewrite E. cbn [bind fst snd]. change (raw (word "exit")) with (L "exit"). seqr. cbn [bind fst snd sp].
  exists (sp s'). split; [reflexivity|exact Hp'].
Qed.
End Cmds.

(** ** parser calls *)
Lemma script_toks l ks : (length l <= length (render_script l ++ ks))%nat.
Proof. induction l as [|c l IH]; [cbn; lia|]. cbn [render_script flat_map length app]. fold (render_script l).
  rewrite !app_length in *. cbn [length]. lia. Qed.
Lemma text_len t ks : lexes plain_word t ks -> (length ks <= length t)%nat.
Proof. intros H. now apply lexes_len in H. Qed.
Lemma parseStr_ok b l p g p' g' t q : t <> [] -> holds_decls p (q_p q) -> q_g q = g ->
  lexes plain_word t (render_script l) -> steps b (q_file q) p g l p' g' ->
  exists q', parseStr b t q = Ok q' /\ q_g q' = g' /\ holds_decls p' (q_p q') /\ q_file q' = q_file q /\ q_res q' = q_res q.
Proof.
  intros Hn Hp <- Hl Hs. unfold parseStr. destruct t as [|c t]; [congruence|].
  destruct (script_ok b (q_file q) l _ _ _ _ (CS (q_p q) (scan (c :: t))) (S (length (c :: t))) Hs Hp) as (q1 & E & H1).
  - now apply at_scan.
  - pose proof (script_toks l []) as H. rewrite app_nil_r in H. apply text_len in Hl. lia.
  - rewrite E. cbn [bind fst snd]. eexists. split; [reflexivity|]. cbn. auto.
Qed.
Lemma parseStr_exit b l p g p' g' t q ks : t <> [] -> holds_decls p (q_p q) -> q_g q = g ->
  lexes plain_word t (render_script l ++ TL :: word "exit" :: TR :: ks) -> steps b (q_file q) p g l p' g' ->
  exists q', parseStr b t q = Ok q' /\ q_g q' = g' /\ holds_decls p' (q_p q').
Proof.
  intros Hn Hp <- Hl Hs. unfold parseStr. destruct t as [|c t]; [congruence|].
  destruct (script_exit b (q_file q) l _ _ _ _ (CS (q_p q) (scan (c :: t))) ks (S (length (c :: t))) Hs Hp) as (q1 & E & H1).
  - now apply at_scan.
  - pose proof (script_toks l (TL :: word "exit" :: TR :: ks)) as H. apply text_len in Hl. lia.
  - rewrite E. cbn [bind fst snd]. eexists. split; [reflexivity|]. cbn. auto.
Qed.
Lemma parseFile_ok b l p g p' g' t q : holds_decls p (q_p q) -> q_g q = g ->
  lexes plain_word t (render_script l) -> steps b true p g l p' g' ->
  exists q', parseFile b t q = Ok q' /\ q_g q' = g' /\ holds_decls p' (q_p q') /\ q_res q' = q_res q.
Proof.
  intros Hp <- Hl Hs. unfold parseFile.
  destruct (script_ok b true l _ _ _ _ (CS (q_p q) (scan t)) (S (length t)) Hs Hp) as (q1 & E & H1).
  - now apply at_scan.
  - pose proof (script_toks l []) as H. rewrite app_nil_r in H. apply text_len in Hl. lia.
  - rewrite E. cbn [bind fst snd]. eexists. split; [reflexivity|]. cbn. auto.
Qed.
Lemma new_holds r : holds_decls pst0 (q_p (parser0 r)).
Proof.
  unfold holds_decls. split; [|split; [|split]]; try reflexivity.
  - unfold same_decls. repeat split; auto.
  - intros x. constructor; try reflexivity; try discriminate; cbn; lia.
Qed.
Lemma steps_app b file l1 l2 p g p2 g2 : steps b file p g (l1 ++ l2) p2 g2 <->
  exists p1 g1, steps b file p g l1 p1 g1 /\ steps b file p1 g1 l2 p2 g2.
Proof.
  revert p g. induction l1 as [|c l1 IH]; intros p g; cbn [app].
  - split; [intros H; exists p, g; split; [constructor|exact H]|intros (p1 & g1 & H1 & H2); now inversion H1; subst].
  - split.
    + intros H. inversion H; subst. match goal with H : steps _ _ _ _ (l1 ++ l2) _ _ |- _ => apply IH in H; destruct H as (p4 & g4 & H1 & H2) end.
      exists p4, g4. split; [econstructor; eassumption|assumption].
    + intros (p1 & g1 & H1 & H2). inversion H1; subst. econstructor; [eassumption|]. apply IH. eauto.
Qed.
Lemma decls_trans_str b l1 l2 t1 t2 p g p1 g1 p2 g2 q : t1 <> [] -> t2 <> [] -> holds_decls p (q_p q) -> q_g q = g ->
  lexes plain_word t1 (render_script l1) -> lexes plain_word t2 (render_script l2) ->
  steps b (q_file q) p g l1 p1 g1 -> steps b (q_file q) p1 g1 l2 p2 g2 ->
  exists q1 q2, parseStr b t1 q = Ok q1 /\ parseStr b t2 q1 = Ok q2 /\ q_g q2 = g2 /\ holds_decls p2 (q_p q2).
Proof.
  intros N1 N2 Hp Hg X1 X2 S1 S2. destruct (parseStr_ok b l1 p g p1 g1 t1 q N1 Hp Hg X1 S1) as (q1 & E1 & G1 & P1 & F1 & _).
  rewrite <- F1 in S2. destruct (parseStr_ok b l2 p1 g1 p2 g2 t2 q1 N2 P1 G1 X2 S2) as (q2 & E2 & G2 & P2 & _ & _). eauto 10.
Qed.

(** ** what is recorded *)
Lemma seqS a b : seq_str a b = true -> a = b. Proof. apply seq_str_spec. Qed.
Lemma members_add id id' i m : id <> [] -> members id' (group_add id i m) = if seq_str id id' then members id' m ++ [i] else members id' m.
Proof.
  intros Hn. unfold group_add, members. destruct id as [|c id]; [congruence|]. set (k := c :: id) in *. clearbody k.
  destruct (mget k m) eqn:E.
  - unfold mset. rewrite mget_cons, mget_mdel. destruct (seq_str k id') eqn:F; [|reflexivity]. apply seqS in F. subst. now rewrite E.
  - rewrite mget_mins. destruct (seq_str k id') eqn:F; [|reflexivity]. apply seqS in F. subst. now rewrite E.
Qed.
Lemma members_in_group id id' i m : members id' (in_group id i m) =
  match id with [] => members id' m | _ => if seq_str id id' then members id' m ++ [i] else members id' m end.
Proof. unfold in_group. destruct id; [reflexivity|]. now apply members_add. Qed.
Lemma groups_in_S m n : groups_in m n -> groups_in m (S n).
Proof. intros H id i Hi. apply H in Hi. lia. Qed.
Lemma groups_in_add m n id : groups_in m n -> groups_in (in_group id n m) (S n).
Proof.
  intros H id' i. rewrite members_in_group. destruct id; [intros Hi; apply H in Hi; lia|].
  destruct (seq_str _ _); [|intros Hi; apply H in Hi; lia]. rewrite in_app_iff. cbn. intros [Hi|[<-|[]]]; [apply H in Hi; lia|lia].
Qed.
Section Rec.
Context (b : pcfg) (file : bool).
(** one command appends what it says and changes nothing else of the lists *)
Lemma step_as p g c p' g' : step b file p g c p' g' ->
  exists ts, g_as g' = g_as g ++ ts /\ Forall2 (fun e t => exists n, means (xo b file (g_opt g)) p e t n) (asserted c) ts.
Proof.
  intros H. destruct H; cbn [asserted]; try (exists []; split; [symmetry; apply app_nil_r|constructor]);
    (exists [t]; split; [reflexivity|]; constructor; [eauto|constructor]).
Qed.
Lemma step_soft p g c p' g' : step b file p g c p' g' ->
  exists ts ws, g_soft g' = g_soft g ++ ts /\ g_wt g' = g_wt g ++ ws /\ length ws = length ts /\ length ts = length (softened c).
Proof.
  intros H. destruct H; cbn [softened];
    try (exists [], []; split; [symmetry; apply app_nil_r|split; [symmetry; apply app_nil_r|split; reflexivity]]).
  exists [t], [w]. repeat split.
Qed.
Lemma step_obj p g c p' g' : step b file p g c p' g' -> exists os, g_obj g' = g_obj g ++ os /\ length os = n_obj c.
Proof.
  intros H. destruct H; cbn [n_obj]; try (exists []; split; [symmetry; apply app_nil_r|reflexivity]);
    (eexists; split; [reflexivity|reflexivity]).
Qed.
Lemma steps_as p g l p' g' : steps b file p g l p' g' ->
  exists ts, g_as g' = g_as g ++ ts /\ length ts = length (flat_map asserted l).
Proof.
  intros H. induction H.
  - exists []. split; [symmetry; apply app_nil_r|reflexivity].
  - destruct (step_as _ _ _ _ _ H) as (t1 & E1 & F1). destruct IHsteps as (t2 & E2 & L2). exists (t1 ++ t2).
    rewrite E2, E1, app_assoc. split; [reflexivity|]. cbn [flat_map]. rewrite !app_length, L2. f_equal.
    clear -F1. induction F1; cbn; congruence.
Qed.
Lemma steps_soft p g l p' g' : steps b file p g l p' g' ->
  exists ts ws, g_soft g' = g_soft g ++ ts /\ g_wt g' = g_wt g ++ ws /\ length ws = length ts /\ length ts = length (flat_map softened l).
Proof.
  intros H. induction H.
  - exists [], []. split; [symmetry; apply app_nil_r|split; [symmetry; apply app_nil_r|split; reflexivity]].
  - destruct (step_soft _ _ _ _ _ H) as (t1 & w1 & E1 & F1 & L1 & M1). destruct IHsteps as (t2 & w2 & E2 & F2 & L2 & M2).
    exists (t1 ++ t2), (w1 ++ w2). rewrite E2, E1, F2, F1, !app_assoc. cbn [flat_map]. rewrite !app_length. repeat split; lia.
Qed.
Lemma steps_obj p g l p' g' : steps b file p g l p' g' -> exists os, g_obj g' = g_obj g ++ os /\ length os = count_obj l.
Proof.
  intros H. induction H.
  - exists []. split; [symmetry; apply app_nil_r|reflexivity].
  - destruct (step_obj _ _ _ _ _ H) as (t1 & E1 & L1). destruct IHsteps as (t2 & E2 & L2).
    exists (t1 ++ t2). rewrite E2, E1, !app_assoc. cbn [count_obj fold_right]. fold (count_obj l). rewrite !app_length. split; [reflexivity|lia].
Qed.
Lemma nth_mid {A} (a c : list A) t n : n = length a -> nth_error ((a ++ [t]) ++ c) n = Some t.
Proof. intros ->. rewrite <- app_assoc, nth_error_app2, Nat.sub_diag by lia. reflexivity. Qed.
Lemma split_steps l1 c l2 p g p' g' : steps b file p g (l1 ++ c :: l2) p' g' ->
  exists p1 g1 p2 g2, steps b file p g l1 p1 g1 /\ step b file p1 g1 c p2 g2 /\ steps b file p2 g2 l2 p' g'.
Proof.
  intros H. apply steps_app in H. destruct H as (p1 & g1 & H1 & H2). inversion H2; subst. eauto 10.
Qed.
Lemma order_as l1 c l2 e p g p' g' : steps b file p g (l1 ++ c :: l2) p' g' -> asserted c = [e] ->
  exists p1 g1 t n, steps b file p g l1 p1 g1 /\ means (xo b file (g_opt g1)) p1 e t n /\
    nth_error (g_as g') (length (g_as g) + length (flat_map asserted l1)) = Some t.
Proof.
  intros H Hc. apply split_steps in H. destruct H as (p1 & g1 & p2 & g2 & H1 & H2 & H3).
  destruct (steps_as _ _ _ _ _ H1) as (t1 & E1 & L1). destruct (step_as _ _ _ _ _ H2) as (t2 & E2 & F2).
  destruct (steps_as _ _ _ _ _ H3) as (t3 & E3 & _). rewrite Hc in F2. inversion F2 as [|? t ? ? [n Hn] F3]; subst. inversion F3; subst.
  exists p1, g1, t, n. split; [exact H1|]. split; [exact Hn|]. rewrite E3, E2, E1. apply nth_mid. rewrite app_length. lia.
Qed.
Lemma step_sgroups p g c p' g' : step b file p g c p' g' -> groups_in (g_sgroups g) (length (g_soft g)) ->
  groups_in (g_sgroups g') (length (g_soft g')).
Proof.
  intros H Hg. destruct H; cbn [g_sgroups g_soft set_as set_groups set_soft set_sgroups set_obj set_omap set_funs set_opt]; try exact Hg.
  rewrite app_length, Nat.add_1_r. now apply groups_in_add.
Qed.
Lemma steps_sgroups p g l p' g' : steps b file p g l p' g' -> groups_in (g_sgroups g) (length (g_soft g)) ->
  groups_in (g_sgroups g') (length (g_soft g')).
Proof. intros H. induction H; [auto|]. intros Hg. apply IHsteps. eapply step_sgroups; eassumption. Qed.
(** later commands do not move an earlier entry into or out of a group *)
Lemma step_old p g c p' g' i id : step b file p g c p' g' -> (i < length (g_soft g))%nat ->
  (In i (members id (g_sgroups g')) <-> In i (members id (g_sgroups g))).
Proof.
  intros H Hi. destruct H; cbn [g_sgroups g_soft set_as set_groups set_soft set_sgroups set_obj set_omap set_funs set_opt]; try reflexivity.
  rewrite members_in_group. destruct (attr_val AId _); [reflexivity|]. destruct (seq_str _ _); [|reflexivity].
  rewrite in_app_iff. cbn. split; [intros [K|[K|[]]]; [exact K|lia]|auto].
Qed.
Lemma step_len p g c p' g' : step b file p g c p' g' -> (length (g_soft g) <= length (g_soft g'))%nat.
Proof. intros H. apply step_soft in H. destruct H as (t & w & -> & _). rewrite app_length. lia. Qed.
Lemma steps_old p g l p' g' i id : steps b file p g l p' g' -> (i < length (g_soft g))%nat ->
  (In i (members id (g_sgroups g')) <-> In i (members id (g_sgroups g))).
Proof.
  intros H. induction H; [reflexivity|]. intros Hi. rewrite IHsteps by (apply step_len in H; lia).
  eapply step_old; eassumption.
Qed.
Lemma order_soft l1 pre e post l2 p g p' g' : groups_in (g_sgroups g) (length (g_soft g)) -> length (g_wt g) = length (g_soft g) ->
  steps b file p g (l1 ++ CAssertSoft pre e post :: l2) p' g' ->
  exists p1 g1 t n w, let i := (length (g_soft g) + length (flat_map softened l1))%nat in
    steps b file p g l1 p1 g1 /\ means (xo b file (g_opt g1)) p1 e t n /\
    weight_of (attr_val AWeight (pre ++ post)) w /\
    nth_error (g_soft g') i = Some t /\ nth_error (g_wt g') i = Some w /\
    forall id, id <> [] -> (In i (members id (g_sgroups g')) <-> id = attr_val AId (pre ++ post)).
Proof.
  intros Hg Hw H. apply split_steps in H. destruct H as (p1 & g1 & p2 & g2 & H1 & H2 & H3).
  destruct (steps_soft _ _ _ _ _ H1) as (t1 & w1 & E1 & F1 & L1 & M1).
  pose proof (steps_sgroups _ _ _ _ _ H1 Hg) as Hg1.
  destruct (steps_soft _ _ _ _ _ H3) as (t3 & w3 & E3 & F3 & L3 & M3). inversion H2; subst.
  exists p1, g1, t, c, w. cbv zeta. split; [exact H1|]. split; [assumption|]. split; [assumption|].
  cbn [g_soft g_wt set_sgroups set_soft] in E3, F3.
  assert (Ei : (length (g_soft g) + length (flat_map softened l1))%nat = length (g_soft g1)) by (rewrite E1, app_length; lia).
  rewrite Ei. split; [|split].
  - rewrite E3. now apply nth_mid.
  - rewrite F3. apply nth_mid. rewrite E1, F1, !app_length. lia.
  - intros id Hid. rewrite (steps_old _ _ _ _ _ _ _ H3) by (cbn [g_soft set_sgroups set_soft]; rewrite app_length; cbn; lia).
    cbn [g_sgroups set_sgroups set_soft]. rewrite members_in_group.
    assert (N : ~ In (length (g_soft g1)) (members id (g_sgroups g1))) by (intros K; apply Hg1 in K; lia).
    destruct (attr_val AId (pre ++ post)) as [|a v] eqn:Ev; [split; [tauto|congruence]|].
    destruct (seq_str (a :: v) id) eqn:F.
    + apply seqS in F. rewrite in_app_iff. cbn. split; [congruence|auto].
    + split; [tauto|]. intros ->. rewrite seq_refl in F. discriminate.
Qed.
Lemma order_obj l1 mx pre e post l2 p g p' g' : steps b file p g (l1 ++ COptimize mx pre e post :: l2) p' g' ->
  exists p1 g1 t n o, steps b file p g l1 p1 g1 /\ means (xo b file (g_opt g1)) p1 e t n /\
    objective_of (o_logic (g_opt g1)) mx t (pre ++ post) o /\
    nth_error (g_obj g') (length (g_obj g) + count_obj l1) = Some o.
Proof.
  intros H. apply split_steps in H. destruct H as (p1 & g1 & p2 & g2 & H1 & H2 & H3).
  destruct (steps_obj _ _ _ _ _ H1) as (t1 & E1 & L1). destruct (steps_obj _ _ _ _ _ H3) as (t3 & E3 & _).
  inversion H2; subst. exists p1, g1, t, c, o. split; [exact H1|]. split; [assumption|]. split; [assumption|].
  cbn [g_obj set_obj] in E3. rewrite E3. apply nth_mid. rewrite E1, app_length. lia.
Qed.
End Rec.

(** ** the order of attributes *)
Lemma filter_none {A} (f : A -> bool) l : (forall a, In a l -> f a = false) -> filter f l = [].
Proof. induction l as [|a l IH]; intros H; [reflexivity|]. cbn. rewrite (H a) by now left. apply IH. intros; apply H; now right. Qed.
Lemma ak_eqb_spec a b : ak_eqb a b = true <-> a = b.
Proof. destruct a, b; cbn; split; congruence. Qed.
Lemma attr_one k l : NoDup (map fst l) -> filter (fun a : attr => ak_eqb (fst a) k) l = [] \/
  exists v, In (k, v) l /\ filter (fun a : attr => ak_eqb (fst a) k) l = [(k, v)].
Proof.
  induction l as [|[a v] l IH]; cbn [map fst]; intros H; [now left|]. inversion H; subst. cbn [filter fst].
  destruct (ak_eqb a k) eqn:E.
  - apply ak_eqb_spec in E. subst. right. exists v. split; [now left|]. f_equal. apply filter_none.
    intros [a' v'] Hi. cbn. destruct (ak_eqb a' k) eqn:E; [|reflexivity]. apply ak_eqb_spec in E. subst. exfalso.
    match goal with H : ~ In _ _ |- _ => apply H end. apply (in_map fst) in Hi. exact Hi.
  - destruct (IH ltac:(assumption)) as [K1|(v' & K1 & K2)]; [now left|]. right. exists v'. split; [now right|exact K2].
Qed.
Lemma attr_perm k l l' : NoDup (map fst l) -> Permutation l l' -> attr_val k l = attr_val k l'.
Proof.
  intros Hn Hp. assert (Hn' : NoDup (map fst l')). { eapply Permutation_NoDup; [|exact Hn]. now apply Permutation_map. }
  unfold attr_val.
  change (filter (fun a => ak_eqb (fst a) k) l) with (filter (fun a : attr => ak_eqb (fst a) k) l).
  change (filter (fun a => ak_eqb (fst a) k) l') with (filter (fun a : attr => ak_eqb (fst a) k) l').
  destruct (attr_one k l Hn) as [E|(v & Hi & E)], (attr_one k l' Hn') as [E'|(v' & Hi' & E')]; rewrite E, E'.
  - reflexivity.
  - exfalso. assert (In (k, v') (filter (fun a : attr => ak_eqb (fst a) k) l)).
    { apply filter_In. split; [|cbn; now apply ak_eqb_spec]. eapply Permutation_in; [symmetry; exact Hp|exact Hi']. }
    rewrite E in H. destruct H.
  - exfalso. assert (In (k, v) (filter (fun a : attr => ak_eqb (fst a) k) l')).
    { apply filter_In. split; [|cbn; now apply ak_eqb_spec]. eapply Permutation_in; [exact Hp|exact Hi]. }
    rewrite E' in H. destruct H.
  - assert (In (k, v) (filter (fun a : attr => ak_eqb (fst a) k) l')).
    { apply filter_In. split; [|cbn; now apply ak_eqb_spec]. eapply Permutation_in; [exact Hp|exact Hi]. }
    rewrite E' in H. destruct H as [H|[]]. now inversion H; subst.
Qed.
Lemma soft_reorder b file p g p' g' pre e post pre' post' : NoDup (map fst (pre ++ post)) ->
  Permutation (pre ++ post) (pre' ++ post') -> (length pre' <= 2)%nat -> (length post' <= 2)%nat ->
  step b file p g (CAssertSoft pre e post) p' g' -> step b file p g (CAssertSoft pre' e post') p' g'.
Proof.
  intros Hn Hp L1 L2 H. inversion H; subst. rewrite !(attr_perm _ _ _ Hn Hp).
  assert (F : Forall (fun a : attr => In (fst a) [AId; AWeight] /\ is_tok (snd a)) (pre' ++ post')).
  { eapply Permutation_Forall; [exact Hp|]. apply Forall_app.
    split; [match goal with H : attrs_ok _ _ pre |- _ => apply H end|match goal with H : attrs_ok _ _ post |- _ => apply H end]. }
  apply Forall_app in F. destruct F.
  apply s_soft; [split; assumption|split; assumption|assumption|assumption|].
  rewrite <- (attr_perm AWeight _ _ Hn Hp). assumption.
Qed.
Lemma obj_reorder b file p g p' g' mx pre e post pre' post' : NoDup (map fst (pre ++ post)) ->
  Permutation (pre ++ post) (pre' ++ post') -> (length pre' <= 4)%nat -> (length post' <= 4)%nat ->
  step b file p g (COptimize mx pre e post) p' g' -> step b file p g (COptimize mx pre' e post') p' g'.
Proof.
  intros Hn Hp L1 L2 H. inversion H; subst.
  assert (F : Forall (fun a : attr => In (fst a) [AId; AComp; AEps; AM] /\ is_tok (snd a)) (pre' ++ post')).
  { eapply Permutation_Forall; [exact Hp|]. apply Forall_app.
    split; [match goal with H : attrs_ok _ _ pre |- _ => apply H end|match goal with H : attrs_ok _ _ post |- _ => apply H end]. }
  apply Forall_app in F. destruct F.
  apply s_opt with (t := t); [split; assumption|split; assumption|assumption|assumption|].
  match goal with H : objective_of _ _ _ _ _ |- _ => inversion H as [cc Hcc]; subst end.
  rewrite !(attr_perm _ _ _ Hn Hp). apply ob_single. rewrite <- (attr_perm AComp _ _ Hn Hp). exact Hcc.
Qed.

(** ** options *)
Ltac skey := repeat match goal with |- context [seqs (L ?a) ?b] =>
  let v := eval vm_compute in (seqs (L a) b) in change (seqs (L a) b) with v; cbn iota end.
Definition fdec (f g : flag) : {f = g} + {f <> g}. Proof. decide equality. Defined.
Lemma set_flag f v o : let r := setOption (flag_name f) v o in
  snd r = Ok tt /\ flag_get f (fst r) = seqs v "true" /\ (forall f', f' <> f -> flag_get f' (fst r) = flag_get f' o) /\
  o_prec (fst r) = o_prec o /\ o_logic (fst r) = o_logic o /\ o_checksat (fst r) = o_checksat o /\
  o_getmodel (fst r) = o_getmodel o /\ o_getobj (fst r) = o_getobj o.
Proof.
  unfold setOption. destruct f; cbn [flag_name]; skey; cbn; (split; [reflexivity|]; split; [reflexivity|]; split;
    [intros [] Hf; try congruence; reflexivity|auto]).
Qed.
Lemma set_other k v o : (forall f, k <> flag_name f) -> forall f, flag_get f (fst (setOption k v o)) = flag_get f o.
Proof.
  intros H f. unfold setOption.
  assert (Hf : forall f', seqs k (match f' with FKeepLet => "keep_let" | FKeepDiv => "keep_division" | FFloat => "float_evaluate"
     | FExpand => "expand_functions" | FExpandRec => "expand_recursive_functions" end) = false).
  { intros f'. destruct (seqs k _) eqn:E; [|reflexivity]. apply seqS in E. exfalso. apply (H f'). exact E. }
  rewrite (Hf FKeepLet), (Hf FKeepDiv), (Hf FFloat), (Hf FExpand), (Hf FExpandRec).
  destruct (seqs k "precision"); [destruct (stoi v)|]; destruct f; reflexivity.
Qed.
Lemma set_map_ok k v o : mget k (o_map (fst (setOption k v o))) = Some v /\
  forall k', k' <> k -> mget k' (o_map (fst (setOption k v o))) = mget k' (o_map o).
Proof.
  assert (E : o_map (fst (setOption k v o)) = mset k v (o_map o)).
  { unfold setOption. repeat match goal with |- context [if ?c then _ else _] => destruct c end; try destruct (stoi v); reflexivity. }
  rewrite E. unfold mset. split; [now rewrite mget_cons, seq_refl|].
  intros k' Hk. rewrite mget_cons, mget_mdel. assert (seq_str k k' = false) as ->; [|reflexivity]. apply seq_neq. congruence.
Qed.
Lemma flag_name_inj f g : flag_name f = flag_name g -> f = g.
Proof. destruct f, g; cbn; congruence. Qed.
Definition lv (k : str) (a : option str) (l : list (str * optval)) :=
  fold_left (fun a q => if seq_str (fst q) k then Some (optval_str (snd q)) else a) l a.
Lemma lv_cons k a k' v l : lv k a ((k', v) :: l) = lv k (if seq_str k' k then Some (optval_str v) else a) l.
Proof. reflexivity. Qed.
Lemma set_all_cons k v l o : set_all ((k, v) :: l) o = set_all l (fst (parserSetOption k v o)).
Proof. reflexivity. Qed.
Lemma lv_eq k l : forall a, lv k a l = match lv k None l with Some v => Some v | None => a end.
Proof.
  induction l as [|[k' v] l IH]; intros a; [reflexivity|]. rewrite !lv_cons.
  destruct (seq_str k' k); [|apply IH]. rewrite (IH (Some _)). now destruct (lv k None l).
Qed.
Lemma set_all_flag f l : forall o, flag_get f (set_all l o) =
  match last_value (flag_name f) l with Some v => seqs v "true" | None => flag_get f o end.
Proof.
  unfold last_value. fold (lv (flag_name f) None l).
  induction l as [|[k v] l IH]; intros o; [reflexivity|]. rewrite set_all_cons, lv_cons.
  rewrite IH. destruct (seq_str k (flag_name f)) eqn:E.
  - apply seqS in E. subst. rewrite (lv_eq _ _ (Some _)). destruct (lv _ None l); [reflexivity|].
    unfold parserSetOption. apply (set_flag f).
  - destruct (lv _ None l); [reflexivity|]. unfold parserSetOption.
    assert (D : (exists g, k = flag_name g) \/ forall g, k <> flag_name g).
    { clear. destruct (seq_str k (flag_name FKeepLet)) eqn:E1; [left; eexists; apply seqS; eassumption|].
      destruct (seq_str k (flag_name FKeepDiv)) eqn:E2; [left; eexists; apply seqS; eassumption|].
      destruct (seq_str k (flag_name FFloat)) eqn:E3; [left; eexists; apply seqS; eassumption|].
      destruct (seq_str k (flag_name FExpand)) eqn:E4; [left; eexists; apply seqS; eassumption|].
      destruct (seq_str k (flag_name FExpandRec)) eqn:E5; [left; eexists; apply seqS; eassumption|].
      right. intros g ->. destruct g; rewrite seq_refl in *; discriminate. }
    destruct D as [[g ->]|D]; [|now apply set_other].
    apply (set_flag g). intros ->. now rewrite seq_refl in E.
Qed.
Lemma set_all_map k l : forall o, mget k (o_map (set_all l o)) =
  match last_value k l with Some v => Some v | None => mget k (o_map o) end.
Proof.
  unfold last_value. fold (lv k None l).
  induction l as [|[k' v] l IH]; intros o; [reflexivity|]. rewrite set_all_cons, lv_cons.
  rewrite IH. unfold parserSetOption. destruct (set_map_ok k' (optval_str v) o) as [M1 M2]. destruct (seq_str k' k) eqn:E.
  - apply seqS in E. subst. rewrite (lv_eq _ _ (Some _)). now destruct (lv _ None l).
  - destruct (lv _ None l); [reflexivity|]. apply M2. intros ->. now rewrite seq_refl in E.
Qed.
Lemma set_prec_ok z o : 0 <= z <= 2147483647 -> parserSetOption (L "precision") (OInt z) o = (set_prec z (set_map (mset (L "precision") (Idec z) (o_map o)) o), Ok tt).
Proof.
  intros Hz. unfold parserSetOption, setOption. skey. cbn [optval_str]. unfold stoi. rewrite strtol_Idec by lia.
  assert ((-2147483648 <=? z) && (z <=? 2147483647) = true) as -> by (apply andb_true_intro; split; apply Z.leb_le; lia). reflexivity.
Qed.

(** ** checkSat *)
Lemma isTrue_spec t : isTrue t = true -> isErr t = false /\ isFalse t = false.
Proof. unfold isTrue, isErr, isFalse. destruct t as [k ? ? ?]. unfold isk. cbn. destruct k; cbn; try discriminate; auto. Qed.
Lemma isFalse_spec t : isFalse t = true -> isErr t = false /\ isTrue t = false.
Proof. unfold isTrue, isErr, isFalse. destruct t as [k ? ? ?]. unfold isk. cbn. destruct k; cbn; try discriminate; auto. Qed.
Lemma loop_sat l r : fst (check_loop l r) = RT_SAT <-> Forall (fun t => isTrue t = true) l.
Proof.
  induction l as [|t l IH]; cbn [check_loop]; [split; [constructor|reflexivity]|].
  destruct (isErr t) eqn:E1; [split; [discriminate|]; intros H; inversion H as [|? ? K]; subst; apply isTrue_spec in K; intuition congruence|].
  destruct (isFalse t) eqn:E2; [split; [discriminate|]; intros H; inversion H as [|? ? K]; subst; apply isTrue_spec in K; intuition congruence|].
  destruct (isTrue t) eqn:E3; [rewrite IH; split; [auto|now inversion 1]|].
  split; [discriminate|]; intros H; inversion H as [|? ? K]; subst; congruence.
Qed.
Lemma loop_unsat l r : r <> RT_UNSAT -> fst (check_loop l r) = RT_UNSAT <->
  exists a t c, l = a ++ t :: c /\ isFalse t = true /\ Forall (fun t => isTrue t = true) a.
Proof.
  intros Hr. induction l as [|t l IH]; cbn [check_loop].
  - split; [discriminate|]. intros (a & t & c & H & _). destruct a; discriminate.
  - assert (G : forall P : Prop, (exists a t' c, t :: l = a ++ t' :: c /\ isFalse t' = true /\ Forall (fun t => isTrue t = true) a) ->
      (isFalse t = true -> P) -> (isTrue t = true -> (exists a t c, l = a ++ t :: c /\ isFalse t = true /\ Forall (fun t => isTrue t = true) a) -> P) -> P).
    { intros P (a & t' & c & H & F & Fa) K1 K2. destruct a as [|u a]; cbn in H; inversion H; subst; [auto|]. inversion Fa; subst. apply K2; eauto 10. }
    destruct (isErr t) eqn:E1.
    + split; [discriminate|]. intros H. apply (G _ H); [intros K; apply isFalse_spec in K|intros K; apply isTrue_spec in K]; intuition congruence.
    + destruct (isFalse t) eqn:E2; [split; [intros _; exists [], t, l; auto|reflexivity]|].
      destruct (isTrue t) eqn:E3.
      * rewrite IH. split; [|intros H; apply (G _ H); congruence].
        intros (a & t' & c & -> & F & Fa). exists (t :: a), t', c. cbn. auto.
      * split; [discriminate|]. intros H. apply (G _ H); congruence.
Qed.
Lemma loop_keeps l r : r <> RT_UNSAT -> snd (check_loop l r) <> RT_UNSAT.
Proof. intros Hr. induction l as [|t l IH]; cbn [check_loop]; [discriminate|]. destruct (isErr t), (isFalse t), (isTrue t); cbn; auto; discriminate. Qed.
Lemma reach_res b r q : r <> RT_UNSAT -> reach b r q -> q_res q <> RT_UNSAT.
Proof.
  intros Hr H. induction H; cbn [parser0 q_res] in *; auto.
  - unfold parseStr in H0. destruct t; [discriminate|]. destruct (pscript _ _ _ _ _); cbn [bind] in H0; inversion H0; subst. exact IHreach.
  - unfold parseFile in H0. destruct (pscript _ _ _ _ _); cbn [bind] in H0; inversion H0; subst. exact IHreach.
  - unfold assertStr in H0. destruct (mkExpr _ _ _); cbn [bind] in H0; inversion H0; subst. exact IHreach.
  - unfold checkSat. destruct (q_res q) eqn:E; cbn [snd]; try (rewrite E; discriminate); [congruence|].
    cbn [q_res]. apply loop_keeps. discriminate.
Qed.
Lemma check_sat_iff q : q_res q = RT_UNKNOWN -> (fst (checkSat q) = RT_SAT <-> Forall (fun t => isTrue t = true) (g_as (q_g q))).
Proof. intros E. unfold checkSat. rewrite E. cbn [fst]. apply loop_sat. Qed.
Lemma check_unsat q : q_res q <> RT_UNSAT -> fst (checkSat q) = RT_UNSAT ->
  exists a t c, g_as (q_g q) = a ++ t :: c /\ isFalse t = true /\ Forall (fun t => isTrue t = true) a.
Proof.
  intros Hr. unfold checkSat. destruct (q_res q); try congruence; cbn [fst]; try discriminate.
  intros H. eapply loop_unsat; [|exact H]. discriminate.
Qed.
Lemma check_unsat_iff q : q_res q = RT_UNKNOWN -> (fst (checkSat q) = RT_UNSAT <->
  exists a t c, g_as (q_g q) = a ++ t :: c /\ isFalse t = true /\ Forall (fun t => isTrue t = true) a).
Proof. intros E. unfold checkSat. rewrite E. cbn [fst]. apply loop_unsat. discriminate. Qed.
Lemma check_context q : q_g (snd (checkSat q)) = q_g q /\ q_p (snd (checkSat q)) = q_p q.
Proof. unfold checkSat. destruct (q_res q); auto. Qed.
