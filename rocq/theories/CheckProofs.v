(** Proofs for C95. *)
From Coq Require Import QArith Qcanon.
From Verif Require Import Base LexSpec LexProofs KindModel SortModel TermModel BVModel BVSpec BVProofs2 UtilModel Sem SemProofs DagProofs SortProofs
  SimpModel OpModel OpSpec OpProofs OpProofs2 ShapeProofs TypedSpec TypedProofs
  LexModel ParseModel ParseSpec ParseProofs ParseProofs2 ParseLits ApplyModel ApplySpec ApplyProofs CommandModel CommandSpec CommandProofs CommandMore CtorModel MeanSpec MeanProofs MeanProofs2 MeanBv MeanDef MeanProofs3 MeanLits MeanProofs4 MeanProofs5
  TraverseModel EvalModel EvalSpec EvalProofs EvalProofs2 EvalProofs3 EvalProofs4 EvTextSpec EvTextProofs EvTextProofs2 MTextModel MTextSpec MTextProofs CheckSpec.
From Verif Require BVProofs PropsMText.
Open Scope Z_scope.

(** ** evaluation of a term built from an expression *)
Definition con_decls (G : signature) : Decls := fun u => exists v y, look v (s_con G) = Some y /\ u = T NT_VAR (sort_of y) v [].
Lemma eval_term f G c c' ptr m M u t vl : @gt (Language f None) (con_decls G) c' (clof t) u -> widths_ok G -> holds_values G M m ->
  eval (interp_of M) (env_of_structure M) u = vl -> exists w, evaluateT c ptr m u = Ok w /\ literal vl w.
Proof.
  intros Gu HW HM A. pose proof (@gt_et _ (con_decls G) _ _ _ Gu) as Et.
  assert (AS : assigns m u).
  { intros y r S V Ey. destruct (@tidy_vars (con_decls G) u y (proj2 Gu) S V) as (v & ty' & Hv & ->). destruct (HM v ty' Hv) as (w & Ew & Lw). exists w. split; [exact Ew|].
    assert (Er : etyof ty' = r).
    { inversion Ey as [k s n r' Hk Hs|r' w' Hw'|k s n r' rs ch Sg F X]; subst.
      - destruct ty', r; cbn [vty sort_of] in Hs; cbn [etyof ec clof]; try reflexivity; try (destruct Hs as [Hs|Hs]); try (apply (f_equal s_kind) in Hs; discriminate Hs).
        f_equal. unfold bvS in Hs. injection Hs as Hs. lia.
      - inversion Hw'.
      - inversion X. }
    rewrite <- Er. apply (literal_lit M v); [|exact Lw]. intros w' ->. now apply (HW v). }
  destruct (evaluate_total c ptr m u _ Et AS) as (w & Ew & Lw & Vw). exists w. split; [unfold evaluateT; now rewrite Ew|].
  assert (AG : EvalSpec.agrees (interp_of M) (env_of_structure M) m u).
  { intros y w' S V Gy U. destruct (@tidy_vars (con_decls G) u y (proj2 Gu) S V) as (v & ty' & Hv & ->). destruct (HM v ty' Hv) as (w0 & Ew0 & Lw0). rewrite Ew0 in Gy. injection Gy as <-.
    rewrite (literal_val _ _ M v ty' w0 Lw0). apply agrees_interp. }
  specialize (Vw _ _ AG). rewrite A in Vw. rewrite Vw. now apply (lit_literal (ec (clof t))).
Qed.

(** ** scripts *)
Definition keeps (g : ctx) : Prop := o_keeplet (g_opt g) = true.
Definition grown (G : signature) (l : list cmd) (G' : signature) : Prop :=
  (forall v t, look v (s_con G) = Some t -> look v (s_con G') = Some t) /\
  (forall v t, constant_of l v t -> look v (s_con G') = Some t) /\
  (forall v t, look v (s_con G') = Some t -> look v (s_con G) = Some t \/ constant_of l v t) /\
  (forall v, new_name G v -> ~ introduced l v -> new_name G' v).
Definition good_as (f : bool) (fe : signature * sx) (t : term) : Prop :=
  (exists c, @gt (Language f None) (con_decls (fst fe)) c CB t) /\ forall I v M, MeanSpec.agrees I v M -> eval I v t = value_of (fst fe) M [] (snd fe).
Lemma expr_ev x p G e t : mean_cfg G x -> ready G p -> ty_of G [] e t -> evaluable (x_keep x) G [] e ->
  exists u z, den x p false (p_ctr p) [] e u z /\ @gt (Language (s_clausal G) None) (con_decls G) (x_c x) (clof t) u /\
    forall I v M, MeanSpec.agrees I v M -> eval I v u = value_of G M [] e.
Proof.
  intros HC (KN & FV & BD) Ht He.
  assert (LG : @lang (Language (s_clausal G) None) G []) by (split; [reflexivity|split; [reflexivity|congruence]]).
  destruct (proj1 (@main' (Language (s_clausal G) None) (con_decls G) x p G LG HC KN FV ltac:(intros v y Hy; exists v, y; auto)) [] e t Ht He [] false (p_ctr p) ltac:(constructor)) as [(u & z & Dn & _ & Gu & A) _].
  exists u, z. split; [exact Dn|]. split; [exact Gu|]. exact A.
Qed.
Lemma const_cons c l v t : constant_of l v t -> constant_of (c :: l) v t.
Proof. intros (n & s & A & B & C). exists n, s. split; [exact A|]. split; [exact B|]. cbn [In]. tauto. Qed.
Lemma intro_cons c l v : introduced l v -> introduced (c :: l) v.
Proof. intros (n & A & [(s & B)|[(ss & s & B)|(ps & s & e & B)]]); exists n; (split; [exact A|]); cbn [In]; eauto 9. Qed.
Lemma so_ty_fun s t t' : so_ty s t -> so_ty s t' -> t = t'.
Proof.
  destruct t as [| | |w], t' as [| | |w']; cbn [so_ty]; intros H1 H2;
  repeat match goal with H : exists _, _ |- _ => destruct H as (? & ? & ? & ?) | H : _ /\ _ |- _ => destruct H end; subst; try reflexivity; try congruence;
  try (repeat match goal with H : SoName _ = SoName _ |- _ => injection H as -> | H : raw ?a = _, H' : raw ?a = _ |- _ => rewrite H in H'; clear H end; discriminate).
  match goal with H : SoBV _ = SoBV _ |- _ => injection H as E end. apply OpProofs.Idec_inj in E. f_equal. lia.
Qed.
(** a command that declares nothing *)
Definition plain_cmd (c : cmd) : Prop := match c with CDeclareConst _ _ | CDeclareFun _ _ _ | CDefineFun _ _ _ _ => False | _ => True end.
Lemma const_plain c l v t : plain_cmd c -> constant_of (c :: l) v t -> constant_of l v t.
Proof.
  intros P (n & s & A & B & C). exists n, s. split; [exact A|]. split; [exact B|].
  cbn [In] in C. destruct C as [[C|C]|[C|C]]; auto; subst c; contradiction.
Qed.
Lemma intro_plain c l v : plain_cmd c -> introduced (c :: l) v -> introduced l v.
Proof.
  intros P (n & A & [(s & [B|B])|[(ss & s & [B|B])|(ps & s & e & [B|B])]]); try (subst c; contradiction); exists n; (split; [exact A|]); eauto 9.
Qed.
Lemma grown_plain G c l G' : plain_cmd c -> grown G l G' -> grown G (c :: l) G'.
Proof.
  intros P (A & B & C & D). split; [exact A|]. split; [intros v t H; apply B; now apply (const_plain c)|].
  split; [intros v t H; destruct (C v t H); [now left|right; now apply const_cons]|]. intros v H N. apply D; [exact H|]. intros X. now apply N, intro_cons.
Qed.
Lemma grown_ints G i c l G' : plain_cmd c -> grown (set_ints i G) l G' -> grown G (c :: l) G'.
Proof. intros P H. apply grown_plain; [exact P|]. exact H. Qed.
Lemma grown_con G n s t c l G' : c = CDeclareConst n s \/ c = CDeclareFun n [] s -> so_ty s t -> new_name G (raw n) -> grown (add_con (raw n) t G) l G' -> grown G (c :: l) G'.
Proof.
  intros Hc Hs [N1 [N2 N3]] (A & B & C & D). cbn [add_con s_con] in *. split; [|split; [|split]].
  - intros v y H. apply A. cbn [look]. destruct (seq_str (raw n) v) eqn:E; [|exact H]. apply seq_str_spec in E. congruence.
  - intros v y (m & s' & E1 & E2 & E3). cbn [In] in E3.
    assert (X : (m = n /\ s' = s) \/ (In (CDeclareConst m s') l \/ In (CDeclareFun m [] s') l)).
    { destruct Hc as [ -> | -> ]; destruct E3 as [[E3|E3]|[E3|E3]]; try discriminate E3; auto; injection E3 as <- <-; auto. }
    destruct X as [[ -> -> ]|X].
    + rewrite (so_ty_fun _ _ _ E2 Hs). apply A. subst v. cbn [look]. now rewrite (proj2 (seq_str_spec _ _) eq_refl).
    + apply B. exists m, s'. auto.
  - intros v y H. destruct (C v y H) as [X|X]; [|right; now apply const_cons]. cbn [look] in X. destruct (seq_str (raw n) v) eqn:E; [|now left].
    injection X as <-. apply seq_str_spec in E. right. exists n, s. split; [exact E|]. split; [exact Hs|]. destruct Hc as [ -> | -> ]; cbn; auto.
  - intros v [M1 [M2 M3]] Ni. apply D; [|intros X; now apply Ni, intro_cons]. split; [|split; assumption]. cbn [add_con s_con look].
    destruct (seq_str (raw n) v) eqn:E; [|exact M1]. apply seq_str_spec in E. exfalso. apply Ni. exists n. split; [exact E|].
    destruct Hc as [ -> | -> ]; cbn; [left; eauto|right; left; eauto 9].
Qed.
Lemma grown_fun G n ss ts s t l G' : ss <> [] -> grown (add_fn (raw n) ts t G) l G' -> grown G (CDeclareFun n ss s :: l) G'.
Proof.
  intros Ns (A & B & C & D). cbn [add_fn s_con] in *. split; [exact A|]. split; [|split].
  - intros v y (m & s' & E1 & E2 & E3). apply B. exists m, s'. split; [exact E1|]. split; [exact E2|]. cbn [In] in E3. destruct E3 as [[E3|E3]|[E3|E3]]; auto; try discriminate E3. injection E3. congruence.
  - intros v y H. destruct (C v y H); [now left|right; now apply const_cons].
  - intros v [M1 [M2 M3]] Ni. apply D; [|intros X; now apply Ni, intro_cons]. split; [exact M1|]. split; [|exact M3]. cbn [add_fn s_fun look].
    destruct (seq_str (raw n) v) eqn:E; [|exact M2]. apply seq_str_spec in E. exfalso. apply Ni. exists n. split; [exact E|]. right. left. exists ss, s. now left.
Qed.
Lemma grown_def G n ps ts s t e d l G' : grown (add_def (raw n) ts t d G) l G' -> grown G (CDefineFun n ps s e :: l) G'.
Proof.
  intros (A & B & C & D). cbn [add_def s_con] in *. split; [exact A|]. split; [|split].
  - intros v y (m & s' & E1 & E2 & E3). apply B. exists m, s'. split; [exact E1|]. split; [exact E2|]. cbn [In] in E3. destruct E3 as [[E3|E3]|[E3|E3]]; auto; discriminate E3.
  - intros v y H. destruct (C v y H); [now left|right; now apply const_cons].
  - intros v [M1 [M2 M3]] Ni. apply D; [|intros X; now apply Ni, intro_cons]. split; [exact M1|]. split; [exact M2|]. cbn [add_def s_def look].
    destruct (seq_str (raw n) v) eqn:E; [|exact M3]. apply seq_str_spec in E. exfalso. apply Ni. exists n. split; [exact E|]. right. right. exists ps, s, e. now left.
Qed.
Lemma script_ev b file f G l fs : cfg_ok (x_c b) -> library_bv b -> script G l fs -> Forall (fun fe => evaluable true (fst fe) [] (snd fe)) fs -> f = s_clausal G ->
  forall p g, ready G p -> logic_fits G (g_opt g) -> keeps g ->
  exists p' g' ts G', CommandSpec.steps b file p g l p' g' /\ g_as g' = g_as g ++ ts /\ Forall2 (good_as f) fs ts /\
    ready G' p' /\ grown G l G' /\ Forall (fun fe => forall v t, look v (s_con (fst fe)) = Some t -> look v (s_con G') = Some t) fs.
Proof.
  intros HC HB H.
  assert (STEP : forall f G G1 p g c p1 g1 l (fs : list (signature * sx)), CommandSpec.step b file p g c p1 g1 -> g_as g1 = g_as g -> (forall G', grown G1 l G' -> grown G (c :: l) G') ->
    (exists p' g' ts G', CommandSpec.steps b file p1 g1 l p' g' /\ g_as g' = g_as g1 ++ ts /\ Forall2 (good_as f) fs ts /\ ready G' p' /\ grown G1 l G' /\
      Forall (fun fe => forall v t, look v (s_con (fst fe)) = Some t -> look v (s_con G') = Some t) fs) ->
    exists p' g' ts G', CommandSpec.steps b file p g (c :: l) p' g' /\ g_as g' = g_as g ++ ts /\ Forall2 (good_as f) fs ts /\ ready G' p' /\ grown G (c :: l) G' /\
      Forall (fun fe => forall v t, look v (s_con (fst fe)) = Some t -> look v (s_con G') = Some t) fs).
  { intros f0 G0 G1 p g c p1 g1 l0 fs0 S E K (p' & g' & ts & G' & SS & EA & W & R & GR & X). exists p', g', ts, G'. split; [now apply (st_cons b file p g c p1 g1)|]. split; [congruence|].
    split; [exact W|]. split; [exact R|]. split; [now apply K|exact X]. }
  assert (ASS : forall f p g G e c l (fs : list (signature * sx)), plain_cmd c -> ready G p -> logic_fits G (g_opt g) -> keeps g -> ty_of G [] e TyBool -> evaluable true G [] e -> f = s_clausal G ->
    (forall u z, den (xo b file (g_opt g)) p false (p_ctr p) [] e u z -> exists m, CommandSpec.step b file p g c (set_named m (set_ctr z p)) (set_as (g_as g ++ [u]) g)) ->
    (forall p g, ready G p -> logic_fits G (g_opt g) -> keeps g -> exists p' g' ts G', CommandSpec.steps b file p g l p' g' /\ g_as g' = g_as g ++ ts /\ Forall2 (good_as f) fs ts /\ ready G' p' /\ grown G l G' /\
      Forall (fun fe => forall v t, look v (s_con (fst fe)) = Some t -> look v (s_con G') = Some t) fs) ->
    exists p' g' ts G', CommandSpec.steps b file p g (c :: l) p' g' /\ g_as g' = g_as g ++ ts /\ Forall2 (good_as f) ((G, e) :: fs) ts /\ ready G' p' /\ grown G (c :: l) G' /\
      Forall (fun fe => forall v t, look v (s_con (fst fe)) = Some t -> look v (s_con G') = Some t) ((G, e) :: fs)).
  { intros f0 p g G0 e c l0 fs0 P D HI HK HT HE HF HS IH. destruct (expr_ev _ p G0 e TyBool (xo_mean G0 b file _ HC HB HI) D HT) as (u & z & De & Gu & A).
    { unfold xo. cbn [x_keep]. now rewrite HK. }
    destruct (HS u z De) as (m & St). destruct (IH (set_named m (set_ctr z p)) (set_as (g_as g ++ [u]) g) (decl_same G0 p z m D) HI HK) as (p' & g' & ts & G' & SS & EA & W & R & GR & X).
    exists p', g', (u :: ts), G'. split; [now apply (st_cons b file p g c _ _ _ _ _ St)|]. split; [rewrite EA; cbn [g_as set_as]; now rewrite <- app_assoc|].
    split; [constructor; [|exact W]; split; [exists (x_c (xo b file (g_opt g))); rewrite HF; exact Gu|exact A]|]. split; [exact R|]. split; [now apply grown_plain|].
    constructor; [|exact X]. cbn [fst]. apply GR. }
  induction H as [G|G e l fs HT HS HN H IH|G e n l fs HT HS Hn Nn H IH|G n s t l fs Hn Hs Nw H IH|G n s t l fs Hn Hs Nw H IH|G n ss ts s t l fs Hn Ns Hss Hs Nw H IH
                 |G n ps ts s t e l fs Hn Nd Hps Hs HT HS Nw H IH|G v l fs Hv Hin Hil H IH|G c l fs Hc H IH|G c ks l fs Hc Hk H IH]; intros HE Hf p g D HI HKp.
  - exists p, g, [], G. split; [constructor|]. split; [now rewrite app_nil_r|]. split; [constructor|]. split; [exact D|]. split; [|constructor].
    split; [auto|]. split; [intros v t (n & s & _ & _ & [X|X]); contradiction|]. split; [auto|auto].
  - inversion HE as [|? ? HE1 HE2]; subst. apply (ASS _ p g G e (CAssert e) l fs I D HI HKp HT HE1 eq_refl); [|exact (IH HE2 eq_refl)]. intros u z De. exists (p_named p).
    replace (set_named (p_named p) (set_ctr z p)) with (set_ctr z p) by (destruct p; reflexivity).
    apply s_assert; [exact HN|]. split; [exact De|]. now apply (scoped_any G [] e TyBool).
  - inversion HE as [|? ? HE1 HE2]; subst. apply (ASS _ p g G e (CAssertNamed e n) l fs I D HI HKp HT HE1 eq_refl); [|exact (IH HE2 eq_refl)]. intros u z De. eexists. apply s_named; [exact Hn|exact Nn|].
    split; [exact De|]. now apply (scoped_any G [] e TyBool).
  - eapply STEP; [apply (s_const b file p g n s (sort_of t) Hn (so_dsort p s t Hs))|reflexivity|intros G' GR; exact (grown_con G n s t _ l G' (or_introl eq_refl) Hs Nw GR)|].
    + destruct D as ((D1 & _) & _). rewrite D1. now rewrite (proj1 Nw).
    + apply IH; [exact HE|exact Hf|now apply decl_con|exact HI|exact HKp].
  - eapply STEP; [apply (s_fun0 b file p g n s (sort_of t) Hn (so_dsort p s t Hs))|reflexivity|intros G' GR; exact (grown_con G n s t _ l G' (or_intror eq_refl) Hs Nw GR)|].
    + destruct D as ((D1 & _) & _). rewrite D1. now rewrite (proj1 Nw).
    + apply IH; [exact HE|exact Hf|now apply decl_con|exact HI|exact HKp].
  - destruct (param_sorts ts) as (qs & Lq & Fq). eapply STEP; [apply (CommandSpec.s_fun b file p g n ss s (map sort_of ts) (sort_of t) qs Hn Ns)|reflexivity|intros G' GR; exact (grown_fun G n ss ts s t l G' Ns GR)|].
    + clear -Hss. induction Hss as [|a y ss ts A F IHF]; constructor; [now apply so_dsort|exact IHF].
    + now apply so_dsort.
    + unfold fresh_fun. destruct D as ((_ & D2 & _) & _). specialize (D2 (raw n)). destruct Nw as (_ & N1 & N2). now rewrite N2, N1 in D2.
    + exact Fq.
    + apply IH; [exact HE|exact Hf|now apply decl_fun|exact HI|exact HKp].
  - pose proof D as ((D1 & D2 & D3) & D4 & D5).
    assert (HL : length (names ps) = length ts) by (unfold names; rewrite map_length; now apply F2_len in Hps).
    assert (EP : map param (combine (names ps) (map sort_of ts)) = map par (combine (names ps) ts)).
    { clear. generalize (names ps). intros ns. revert ts. induction ns as [|m ns IHn]; intros [|y ts]; try reflexivity. cbn [map combine]. f_equal. apply IHn. }
    assert (EV : p_fv (with_params (combine (names ps) (map sort_of ts)) p) = rev (map (fun b => (fst b, par b)) (combine (names ps) ts))).
    { cbn [with_params p_fv set_fv]. f_equal. clear. generalize (names ps). intros ns. revert ts. induction ns as [|m ns IHn]; intros [|y ts]; try reflexivity. cbn [map combine]. f_equal. apply IHn. }
    destruct (body_good (xo b file (g_opt g)) (with_params (combine (names ps) (map sort_of ts)) p) G (names ps) ts e t (xo_mean G b file _ HC HB HI)) as (u & z & De & GD);
      [exact (conj D1 (conj D2 D3))|exact Nd|exact HL| |exact EV|exact HT|].
    { intros m Hm. apply in_map_iff in Hm. destruct Hm as (q & <- & Hq). clear -Hps Hq. induction Hps as [|a y ps ts A F IHF]; [contradiction|]. destruct Hq as [ -> | Hq ]; [apply A|now apply IHF]. }
    eapply STEP; [apply (s_deffun b file p g n ps (map sort_of ts) s (sort_of t) e u z Hn)|reflexivity|intros G' GR; exact (grown_def G n ps ts s t e (fun M vs => value_of (in_body G) M (combine (names ps) vs) e) l G' GR)|].
    + split; [exact Nd|]. clear -Hps. induction Hps as [|a y ps ts A F IHF]; constructor; [split; [apply A|now apply so_dsort]|exact IHF].
    + now apply so_dsort.
    + unfold fresh_fun. specialize (D2 (raw n)). destruct Nw as (_ & N1 & N2). now rewrite N2, N1 in D2.
    + split; [exact De|]. now apply (scoped_any (in_body G) (combine (names ps) ts) e t).
    + apply IH; [exact HE|exact Hf| |exact HI|exact HKp]. rewrite EP. apply decl_def; [exact D|exact Nw|exact GD].
  - eapply STEP; [apply s_logic; assumption|reflexivity|intros G' GR; exact (grown_ints G (has_char "I"%char (raw v)) (CSetLogic v) l G' I GR)|]. apply IH; [exact HE|exact Hf|exact D| |exact HKp]. split; [exact (fun H => H)|split; [exact Hil|apply HI]].
  - destruct Hc as [ -> | -> ]; (eapply STEP; [apply s_checksat || apply s_getmodel|reflexivity|intros G' GR; refine (grown_plain G _ l G' _ GR); exact I|]; apply IH; [exact HE|exact Hf|exact D|exact HI|exact HKp]).
  - eapply STEP; [apply s_ignored; [|exact Hk]|reflexivity|intros G' GR; refine (grown_plain G _ l G' _ GR); exact I|apply IH; [exact HE|exact Hf|exact D|exact HI|exact HKp]].
    destruct Hc as [ <- | [ <- | [] ]]; cbn; tauto.
Qed.

(** ** the model text *)
Lemma idec_ordinary z : 0 <= z -> ~ ordinary (Idec z).
Proof.
  intros Hz. destruct (idec_word z Hz) as (_ & _ & D). unfold ordinary. destruct (Idec z) as [|c d] eqn:E; [tauto|]. intros (H & _). cbn [digits_val] in D.
  unfold code in H. rewrite H in D. discriminate D.
Qed.
Lemma bits_ordinary k w v : bits_of k = Some (w, v) -> ~ ordinary k /\ ~ ordinary (bar :: k ++ [bar]).
Proof.
  intros H. unfold bits_of in H. destruct k as [|a [|b d]]; try discriminate H.
  assert (a = "#"%char). { destruct (aeq a "#"%char) eqn:E; [now apply aeq_true in E|discriminate H]. } subst a.
  split; intros O; cbn [ordinary app hd] in O; [tauto|]. destruct O as (_ & _ & O). now apply O.
Qed.
Definition free (G : signature) : Prop := forall v, ~ ordinary v -> new_name G v.
Lemma new_none G p v : ready G p -> new_name G v -> mget v (p_fun p) = None /\ mget v (p_fv p) = None /\ mget v (p_var p) = None.
Proof.
  intros ((D1 & D2 & D3) & FV & _) (N1 & N2 & N3). split; [|split].
  - specialize (D2 v). now rewrite N3, N2 in D2.
  - now rewrite FV.
  - rewrite D1. now rewrite N1.
Qed.
Lemma num_den x p G k z : ready G p -> free G -> is_tok k -> 0 <= z -> raw k = Idec z -> den x p false (p_ctr p) [] (SAtom k) (mkConstInt z) (p_ctr p).
Proof.
  intros R F Hk Hz Ek. destruct (new_none G p (raw k) R) as (E1 & E2 & E3); [apply F; rewrite Ek; now apply idec_ordinary|].
  apply d_lit; auto.
  - intros X. rewrite X in Ek. destruct (idec_word z Hz) as (_ & _ & D). rewrite <- Ek in D. discriminate D.
  - intros X. rewrite X in Ek. destruct (idec_word z Hz) as (_ & _ & D). rewrite <- Ek in D. discriminate D.
  - unfold declared. rewrite E1, E2, E3, Ek. destruct (idec_word z Hz) as ( -> & -> & _). reflexivity.
  - rewrite Ek. now apply lit_numeral.
Qed.
Lemma neg_int x z : oper_kind x (getOperKind (L "-")) [] [mkConstInt z] = Ok (mkConstInt (- z)).
Proof.
  change (oper_kind x (getOperKind (L "-")) [] [mkConstInt z]) with (mkNeg (x_c x) (mkConstInt z)). unfold mkNeg.
  assert (E : simp1 (x_c x) NT_NEG (mkConstInt z) = Ok (mkConstInt (- z))).
  { unfold simp1. change (kin NT_NEG float1_kinds) with false. change (kin NT_NEG nary1_kinds) with false. cbv iota. rewrite mkConstInt_ic, isCInt_ic, toInt_ic by auto. reflexivity. }
  rewrite E. reflexivity.
Qed.
Lemma spells_means x p G e vl : ready G p -> free G -> spells e vl -> exists u, means x p e u (p_ctr p) /\ literal vl u /\ balanced (render e).
Proof.
  intros R F H. unfold means. destruct H as [k Hk Ek|k Hk Ek|k z Hk Hz Ek|h k z Hh Eh Hk Hz Ek|k w v Hk Hw Hf Eb|v w Hw Hf Hv].
  - exists TRUE. split; [split; [now apply d_true|reflexivity]|]. split; [reflexivity|]. apply bal_tok; [apply Hk|apply Hk|constructor].
  - exists FALSE. split; [split; [now apply d_false|reflexivity]|]. split; [reflexivity|]. apply bal_tok; [apply Hk|apply Hk|constructor].
  - exists (mkConstInt z). split; [split; [now apply (num_den x p G)|reflexivity]|]. split; [now exists z|]. apply bal_tok; [apply Hk|apply Hk|constructor].
  - exists (mkConstInt (- z)). split; [split; [|reflexivity]|].
    + apply (d_op x p false (p_ctr p) [] h [SAtom k] [mkConstInt z] (p_ctr p)); [exact Hh|now rewrite Eh|left; now rewrite Eh| |rewrite Eh; apply neg_int|reflexivity].
      eapply ds_cons; [now apply (num_den x p G)|apply ds_nil].
    + split; [now exists (- z)|]. cbn [render flat_map]. apply (bal_par [h; k] []); [|constructor]. apply bal_tok; [apply Hh|apply Hh|]. apply bal_tok; [apply Hk|apply Hk|constructor].
  - destruct (bits_ordinary (raw k) w v Eb) as [O1 O2]. destruct (new_none G p (raw k) R (F _ O1)) as (E1 & E2 & E3). destruct (new_none G p _ R (F _ O2)) as (_ & _ & E4).
    destruct (bits_lit x (raw k) w v Hw Hf Eb) as (Hl & HB & HV'). exists (bc w v). split; [split; [|reflexivity]|].
    + apply d_lit; auto; try (intros X; rewrite X in Eb; discriminate Eb).
      unfold declared. rewrite E1, E2, E3, HB, E4. now destruct (UtilModel.isNumber (raw k)).
    + split; [reflexivity|]. apply bal_tok; [apply Hk|apply Hk|constructor].
  - exists (bc w v). split; [split; [|reflexivity]|].
    + apply d_bv; [apply stoul_Idec; unfold fits in Hf; unfold two64; lia|]. now apply bvnum_lit.
    + split; [reflexivity|]. cbn [render]. apply (bal_par [word "_"; TWord (L "bv" ++ Idec v); TWord (Idec (Z.of_nat w))] []); [|constructor].
      repeat (apply bal_tok; [discriminate|discriminate|]). constructor.
Qed.
Lemma ordinary_name n : ordinary (raw n) -> ename n = raw n.
Proof. unfold ordinary, ename. destruct (raw n) as [|c d]; [tauto|]. intros (H & _). now rewrite H. Qed.
(** what is read: every listed value *)
Definition vname (q : token * so * sx) : str := raw (fst (fst q)).
Definition entry_ok (G : signature) (M : structure) (q : token * so * sx) : Prop :=
  is_tok (fst (fst q)) /\ ordinary (vname q) /\ exists t, look (vname q) (s_con G) = Some t /\ so_ty (snd (fst q)) t /\ spells (snd q) (con_val M (vname q) t).
Lemma set_ctr_same p : set_ctr (p_ctr p) p = p. Proof. destruct p; reflexivity. Qed.
Lemma entries_given x only G p M vals : ready G p -> free G -> Forall (entry_ok G M) vals ->
  (forall fs, declares p fs (map value_entry vals) p fs) /\
  exists a, gives x only p (map value_entry vals) p a /\
    Forall2 (fun q wv => exists t, look (vname q) (s_con G) = Some t /\ fst wv = T NT_VAR (sort_of t) (vname q) [] /\ literal (con_val M (vname q) t) (snd wv)) vals a.
Proof.
  intros R F H. induction H as [|[[n s] e] vals (Hn & Ho & t & Lt & Hs & Sp) H (IH1 & a & IH2 & IH3)]; unfold vname, value_entry in *; cbn [map fst snd] in *.
  - split; [intros fs; apply de_nil|]. exists []. split; [apply gi_nil|constructor].
  - destruct (spells_means x p G e _ R F Sp) as (u & Mu & Lu & Bu). split.
    + intros fs. apply (de_val p fs n s e (sort_of t)); [exact Hn|now apply so_dsort|exact Bu|apply IH1].
    + exists ((T NT_VAR (sort_of t) (raw n) [], u) :: a). split; [|constructor; [exists t; now repeat split|exact IH3]].
      apply (gi_known x only p n s (sort_of t) e (T NT_VAR (sort_of t) (raw n) []) u (p_ctr p) _ p a); [exact Hn|now apply so_dsort| |exact Mu| |now rewrite set_ctr_same].
      * rewrite ordinary_name by exact Ho. destruct R as ((D1 & _) & _). rewrite D1, Lt. reflexivity.
      * destruct t; cbn [con_val literal] in Lu; [subst u; now destruct (m_bool M (raw n))|destruct Lu as (z & _ & ->); reflexivity|destruct Lu as (z & _ & ->); reflexivity|subst u; reflexivity].
Qed.
Lemma given_last G M vals a v t : Forall2 (fun q wv => exists t, look (vname q) (s_con G) = Some t /\ fst wv = T NT_VAR (sort_of t) (vname q) [] /\ literal (con_val M (vname q) t) (snd wv)) vals a ->
  look v (s_con G) = Some t ->
  (forall u, last_given v a = Some u -> literal (con_val M v t) u) /\ (In v (map vname vals) -> last_given v a <> None).
Proof.
  intros F Lt. induction F as [|q [w u] vals a (t' & L1 & Ew & Lu) F (IH1 & IH2)]; cbn [map last_given fst snd In] in *.
  - split; [discriminate|contradiction].
  - subst w. cbn [t_name]. destruct (last_given v a) as [u'|] eqn:E.
    + split; [exact IH1|discriminate].
    + destruct (seq_str (vname q) v) eqn:Q.
      * apply seq_str_spec in Q. split; [|discriminate]. intros u0 X. injection X as <-. rewrite Q in *. rewrite L1 in Lt. injection Lt as <-. exact Lu.
      * split; [discriminate|]. intros [X|X]; [|now apply IH2 in X]. rewrite X, (proj2 (seq_str_spec _ _) eq_refl) in Q. discriminate.
Qed.
