(** Proofs for DumpModel.v: the script round trip. *)
From Verif Require Import Base LexSpec LexProofs KindModel SortModel TermModel UtilModel UtilSpec UtilProofs BVProofs2 SimpModel OpModel OpSpec OpProofs LexModel
  ParseModel ParseSpec ParseProofs ParseProofs2 PrintModel PrintSpec PrintProofs PrintProofs2 CommandModel CommandSpec CommandProofs CommandProofs2 CommandMore DumpModel DumpSpec.
From Coq Require Import Permutation.
Open Scope Z_scope.

(** ** rt depends on the tables as maps only *)
Definition like (g g' : pst) : Prop :=
  (forall n, mget n (p_fun g') = mget n (p_fun g)) /\ (forall n, mget n (p_fv g') = mget n (p_fv g)) /\
  (forall n, mget n (p_var g') = mget n (p_var g)) /\
  forall n a, mget n (p_srt g) = Some (Srt SK_DEC n a []) -> mget n (p_srt g') = Some (Srt SK_DEC n a []).
Lemma like_sort g g' s so : like g g' -> sort_back g s so -> sort_back g' s so.
Proof. intros (_ & _ & _ & H). induction 1 as [n s' I|w I|e m I1 I2|n a k Hk B M|u v aa bb H1 I1 H2 I2 Ku Kv]; [now apply sb_basic|now apply sb_bv|now apply sb_fp|apply sb_dec; auto|now apply sb_arr]. Qed.
Lemma like_declared g g' n : like g g' -> declared g' n = declared g n.
Proof. intros (A & B & C & _). unfold declared. rewrite A, B, !C. reflexivity. Qed.
Lemma like_is_fun g g' n : like g g' -> is_fun g' n = is_fun g n.
Proof. intros (A & B & C & _). unfold is_fun. now rewrite A, B. Qed.
Lemma like_free g g' r n : like g g' -> free g r n -> free g' r n.
Proof. intros Hl (A & B & C & D). repeat split; auto. now rewrite (like_declared g g'). Qed.
Lemma rt_like x g g' : like g g' -> forall m t r, (tsize t < m)%nat -> PrintSpec.rt x g r t -> PrintSpec.rt x g' r t.
Proof.
  intros Hl. induction m as [|m IH]; intros t r Hm H; [lia|].
  assert (IHL : forall ch k s nm r l, T k s nm ch = t -> incl l ch -> Forall (PrintSpec.rt x g r) l -> Forall (PrintSpec.rt x g' r) l).
  { intros ch k s nm r0 l E Hi F. rewrite Forall_forall in *. intros u Hu. apply IH; [|auto]. pose proof (tsize_in u ch k s nm (Hi u Hu)) as Q. rewrite E in Q. lia. }
  destruct Hl as (Hf & Hp & Hv & Hs) eqn:El. clear El. pose proof (conj Hf (conj Hp (conj Hv Hs)) : like g g') as Hl'.
  inversion H as [r0|r0|r0 k s nm K Q A|r0 k s nm K Q N1 N2 A Dc|r0 s nm Q Fr M Lt
    |r0 t0 w C M Fr Lt|r0 s nm u Q Fr M Lt NE Sb
    |r0 k s nm ch NI NE HA Q Sp Co F O Er|r0 k s nm ch h ix args I M F O|r0 k s nm ch args f I NE Q Sp Co M F O
    |r0 k s nm b vs ns ss sos K Ev HL NE HT ND HN HS Hb O]; subst r0; subst.
  - apply rt_true.
  - apply rt_false.
  - now apply rt_bound.
  - apply rt_decl; auto. now rewrite (like_declared g g').
  - apply rt_lit; auto. eapply like_free; eassumption.
  - apply (rt_word x g' r t w); auto. eapply like_free; eassumption.
  - apply (rt_minus x g' r s nm u); auto. eapply like_free; eassumption.
  - apply rt_op; auto; [destruct Co as [Co|Co]; [now left|right; now rewrite Hf]|]. eapply IHL; [reflexivity|apply incl_refl|assumption].
  - apply (rt_idx x g' r k s nm ch h ix args); auto; [now rewrite Hf|]. eapply IHL; [reflexivity|apply incl_refl|assumption].
  - apply (rt_fun x g' r k s nm ch args f); auto; [now rewrite Hf|]. eapply IHL; [reflexivity| |assumption]. destruct (visit_fun true k s nm ch args I NE) as (_ & _ & Hi). exact Hi.
  - eapply (rt_quant x g' r k s nm b _ ns ss sos); auto.
    + intros n Hn. destruct (HN n Hn) as (A1 & A2 & A3 & A4). repeat split; auto. now rewrite (like_is_fun g g').
    + clear -HS Hl'. induction HS; constructor; auto. eapply like_sort; eassumption.
    + apply IH; [|exact Hb]. pose proof (tsize_in b (b :: map (fun q => quant_node (fst q) (snd q)) (combine ns ss)) k s nm (or_introl eq_refl)). lia.
Qed.
Lemma rt_like' x g g' r t : like g g' -> PrintSpec.rt x g r t -> PrintSpec.rt x g' r t.
Proof. intros H. apply (rt_like x g g' H (S (tsize t))). lia. Qed.

(** ** maps *)
Lemma seq_refl n : seq_str n n = true. Proof. now apply seq_str_spec. Qed.
Lemma mget_in {A} (m : smap A) n v : mget n m = Some v -> In (n, v) m.
Proof. induction m as [|[k a] m IH]; [discriminate|]. cbn [mget]. destruct (seq_str k n) eqn:E; [apply seq_str_spec in E; intros H; injection H as <-; subst; now left|right; auto]. Qed.
Lemma in_mget {A} (m : smap A) n v : NoDup (map fst m) -> In (n, v) m -> mget n m = Some v.
Proof.
  induction m as [|[k a] m IH]; [contradiction|]. cbn [map fst mget]. intros N [H|H].
  - injection H as -> ->. now rewrite seq_refl.
  - inversion N; subst. destruct (seq_str k n) eqn:E; [|auto]. apply seq_str_spec in E. subst. exfalso. apply H2. apply in_map_iff. now exists (n, v).
Qed.
Lemma mget_none {A} (m : smap A) n : mget n m = None <-> ~ In n (map fst m).
Proof.
  induction m as [|[k a] m IH]; [cbn; tauto|]. cbn [map fst mget In]. destruct (seq_str k n) eqn:E.
  - apply seq_str_spec in E. subst. split; [discriminate|]. intros H. exfalso. auto.
  - rewrite IH. split; [|tauto]. intros H [->|G]; [rewrite seq_refl in E; discriminate|auto].
Qed.
Lemma mget_perm {A} (m m' : smap A) n : Permutation m m' -> NoDup (map fst m') -> mget n m = mget n m'.
Proof.
  intros P N. assert (N' : NoDup (map fst m)) by (eapply Permutation_NoDup; [apply Permutation_sym, Permutation_map, P|exact N]).
  destruct (mget n m') as [v|] eqn:E.
  - apply in_mget; [exact N'|]. apply mget_in in E. eapply Permutation_in; [apply Permutation_sym; exact P|exact E].
  - apply mget_none in E. apply mget_none. intros H. apply E. eapply Permutation_in; [apply Permutation_map; exact P|exact H].
Qed.
Lemma mem_In n l : mem n l = true <-> In n l.
Proof. unfold mem. rewrite existsb_exists. split; [intros (k & H & E); apply seq_str_spec in E; now subst|intros H; exists n; split; [exact H|apply seq_refl]]. Qed.
Lemma mget_filter {A} (l : list str) (m : smap A) n : mget n (filter (fun e => mem (fst e) l) m) = if mem n l then mget n m else None.
Proof.
  induction m as [|[k a] m IH]; [now destruct (mem n l)|]. cbn [filter fst mget]. destruct (mem k l) eqn:E; cbn [mget]; destruct (seq_str k n) eqn:Q; auto; apply seq_str_spec in Q; subst; rewrite ?E; auto.
  rewrite IH, E. reflexivity.
Qed.

(** ** spelling of lines *)
Lemma puts_cat a c ks ls : puts a ks -> puts c ls -> follow c -> puts (a ++ c) (ks ++ ls).
Proof. intros A B F u vs Hu H. rewrite <- !app_assoc. apply A; [|now apply B]. destruct c; [exact Hu|exact F]. Qed.
Lemma puts_w n k c ks : spells n k -> puts c ks -> puts (n ++ L " " ++ c) (k :: ks).
Proof. intros S P. change (k :: ks) with ([k] ++ ks). apply puts_cat; [now apply puts_tok|now apply puts_sp|left; unfold wsC; cbn; tauto]. Qed.
Lemma puts_ww (w : string) c ks : spells (L w) (word w) -> puts c ks -> puts (L w ++ L " " ++ c) (word w :: ks).
Proof. apply puts_w. Qed.
Lemma puts_line a ks : puts a ks -> puts (L "(" ++ a ++ L ")" ++ nl) (TL :: ks ++ [TR]).
Proof.
  intros P. apply puts_l. apply puts_cat; [exact P| |cbn; tauto]. apply puts_r. intros u vs Hu H. cbn. apply lx_ws; [unfold wsC; cbn; tauto|exact H].
Qed.
Lemma follow_app a c : follow a -> follow c -> follow (a ++ c).
Proof. destruct a; auto. Qed.
Lemma puts_pp c ks : puts c ks -> puts (L "() " ++ c) (TL :: TR :: ks).
Proof. intros P. apply puts_l, puts_r, puts_sp, P. Qed.
Lemma logic_spells : forall l, In l logics -> spells (L l) (word l).
Proof.
  assert (F : forallb (fun l => match L l with [] => false | _ => true end && forallb (fun c => negb (existsb (aeq c) [")"%char; "("%char; ";"%char; "|"%char; quoteC; nul] || existsb (Nat.eqb (code c)) [9;10;11;12;13;32]%nat)) (L l)
     && negb (scib false (L l))) logics = true) by (vm_compute; reflexivity).
  rewrite forallb_forall in F. intros l H. specialize (F l H). rewrite !andb_true_iff, negb_true_iff in F. destruct F as [[A B] C].
  apply puts_word; [destruct (L l); [discriminate A|discriminate]|exact B|now apply scib_no].
Qed.

Section Main.
Context (b : pcfg) (f : bool).
Notation steps := (CommandSpec.steps b f).
Definition tables (p : pst) S V F : Prop := p_srt p = S /\ p_var p = V /\ p_fun p = F /\ p_fv p = [].
Lemma render_app l m : render_script (l ++ m) = render_script l ++ render_script m.
Proof. unfold render_script. apply flat_map_app. Qed.
Lemma steps_cat l m p g p1 g1 p2 g2 : steps p g l p1 g1 -> steps p1 g1 m p2 g2 -> steps p g (l ++ m) p2 g2.
Proof. intros H1 H2. apply steps_app. eauto. Qed.

(** ** the sorts *)
Definition decs (ss : list (str * sort)) := filter (fun e => s_is SK_DEC (snd e)) ss.
Lemma dec_phase ss : forall p g S V F, tables p S V F -> NoDup (map fst (rev ss ++ S)) ->
  (forall n s, In (n, s) ss -> s_is SK_DEC s = true -> token_text n /\ cache_key n = false /\ exists a, s = Srt SK_DEC n a [] /\ 0 <= a < 2 ^ 31) ->
  exists l p', puts (concat (map dump_sort ss)) (render_script l) /\ follow (concat (map dump_sort ss)) /\ steps p g l p' g /\
    tables p' (rev (decs ss) ++ S) V F.
Proof.
  induction ss as [|[n s] ss IH]; intros p g S V F (T1 & T2 & T3 & T4) N H.
  - exists [], p. split; [apply puts_nil|]. split; [exact Logic.I|]. split; [constructor|]. now repeat split.
  - cbn [map concat decs filter snd rev] in *. unfold dump_sort at 1 3. cbn [snd fst]. destruct (s_is SK_DEC s) eqn:D.
    + destruct (H n s (or_introl eq_refl) D) as ((k & K) & Hc & a & -> & Ha). destruct (spells_tok _ _ K) as [Rk Tk].
      destruct (IH (add_srt n (Srt SK_DEC n a []) p) g ((n, Srt SK_DEC n a []) :: S) V F) as (l & p' & P & Fo & St & Tb).
      * repeat split; cbn; congruence.
      * rewrite <- app_assoc in N. exact N.
      * intros m t Hm. apply H. now right.
      * exists (CDeclareSort k (Idec a) :: l), p'. split; [|split; [|split]].
        -- change (render_script (CDeclareSort k (Idec a) :: l)) with ((TL :: [word "declare-sort"; k; TWord (Idec a)] ++ [TR]) ++ render_script l).
           apply puts_cat; [|exact P|exact Fo]. change (L "(declare-sort " ++ ?z) with (L "(" ++ (L "declare-sort" ++ L " " ++ z)).
           replace (L "declare-sort" ++ L " " ++ n ++ L " " ++ Idec (s_arity (Srt SK_DEC n a [])) ++ L ")" ++ nl) with ((L "declare-sort" ++ L " " ++ n ++ L " " ++ Idec a) ++ L ")" ++ nl) by (cbn [s_arity]; rewrite <- !app_assoc; reflexivity).
           apply puts_line. apply puts_ww; [wordspell|]. apply puts_w; [exact K|]. apply puts_tok. destruct (Idec_nat a) as [X Y]; [lia|]. now apply digits_word.
        -- apply follow_app; [cbn; tauto|exact Fo].
        -- eapply st_cons; [|exact St]. rewrite <- Rk. apply s_sort; [exact Tk|apply stoi_Idec; lia|lia|]. split; [|now rewrite Rk].
           rewrite Rk, T1. apply mget_none. rewrite map_app in N. rewrite map_app in N. cbn [map fst] in N. rewrite <- app_assoc in N. cbn [app] in N.
           apply NoDup_remove in N. destruct N as [_ N]. intros G. apply N. apply in_or_app. now right.
        -- destruct Tb as (B1 & B2 & B3 & B4). repeat split; auto. rewrite B1. cbn [rev]. rewrite <- app_assoc. reflexivity.
    + cbn [app]. apply IH; [now repeat split| |].
      * rewrite <- app_assoc in N. rewrite map_app in *. cbn [app map] in N. now apply NoDup_remove_1 in N.
      * intros m t Hm. apply H. now right.
Qed.

(** ** the variables *)
Lemma sort_back_srt g g' s so : p_srt g' = p_srt g -> sort_back g s so -> sort_back g' s so.
Proof. intros E. induction 1 as [n s' I|w I|e m I1 I2|n a k Hk B M|u v aa bb H1 I1 H2 I2 Ku Kv]; [now apply sb_basic|now apply sb_bv|now apply sb_fp|apply sb_dec; rewrite ?E; auto|now apply sb_arr]. Qed.
Lemma var_phase vs : forall p g S V F, tables p S V F -> NoDup (map fst (rev vs ++ V)) ->
  (forall n v, In (n, v) vs -> token_text n /\ exists s so, v = T NT_VAR s n [] /\ sort_back p s so) ->
  exists l p' ts, mapM (fun e => dump_var (snd e)) vs = Ok ts /\ puts (concat ts) (render_script l) /\ follow (concat ts) /\ steps p g l p' g /\
    tables p' S (rev vs ++ V) F.
Proof.
  induction vs as [|[n v] vs IH]; intros p g S V F (T1 & T2 & T3 & T4) N H.
  - exists [], p, []. split; [reflexivity|]. split; [apply puts_nil|]. split; [exact Logic.I|]. split; [constructor|]. now repeat split.
  - destruct (H n v (or_introl eq_refl)) as ((k & K) & s & so & -> & Hs). destruct (spells_tok _ _ K) as [Rk Tk].
    destruct (sort_back_ok _ _ _ Hs) as (st & Es & Ds & Ps). cbn [rev] in N.
    destruct (IH (add_var n s p) g S ((n, T NT_VAR s n []) :: V) F) as (l & p' & ts & E & P & Fo & St & Tb).
    + repeat split; cbn; congruence.
    + rewrite <- app_assoc in N. exact N.
    + intros m t Hm. destruct (H m t (or_intror Hm)) as (X & s' & so' & -> & Y). split; [exact X|]. exists s', so'. split; [reflexivity|].
      now apply (sort_back_srt p).
    + exists (CDeclareFun k [] so :: l), p', ((L "(declare-fun " ++ n ++ L " () " ++ st ++ L ")" ++ nl) :: ts). split; [|split; [|split; [|split]]].
      * cbn [mapM snd]. unfold dump_var at 1. cbn [t_sort t_name]. rewrite Es. cbn [bind]. rewrite E. reflexivity.
      * cbn [concat]. change (render_script (CDeclareFun k [] so :: l)) with ((TL :: (word "declare-fun" :: k :: TL :: TR :: render_so so) ++ [TR]) ++ render_script l).
        apply puts_cat; [|exact P|exact Fo]. change (L "(declare-fun " ++ ?z) with (L "(" ++ (L "declare-fun" ++ L " " ++ z)).
        replace (L "declare-fun" ++ L " " ++ n ++ L " () " ++ st ++ L ")" ++ nl) with ((L "declare-fun" ++ L " " ++ n ++ L " " ++ L "() " ++ st) ++ L ")" ++ nl) by (rewrite <- !app_assoc; reflexivity).
        apply puts_line. apply puts_ww; [wordspell|]. apply puts_w; [exact K|]. now apply puts_pp.
      * apply follow_app; [cbn; tauto|exact Fo].
      * eapply st_cons; [|exact St]. rewrite <- Rk. apply s_fun0; [exact Tk|exact Ds|].
        rewrite Rk, T2. apply mget_none. rewrite !map_app in N. cbn [map fst] in N. rewrite <- app_assoc in N. cbn [app] in N.
        apply NoDup_remove in N. destruct N as [_ N]. intros G. apply N. apply in_or_app. now right.
      * destruct Tb as (B1 & B2 & B3 & B4). repeat split; auto. rewrite B2. cbn [rev]. rewrite <- app_assoc. reflexivity.
Qed.

(** ** the functions *)
Lemma qvars_param ps : forall fst_, qvars fst_ (map param ps) = qvars fst_ (map (fun q => quant_node (fst q) (snd q)) ps).
Proof. induction ps as [|[n s] ps IH]; intros fs; [reflexivity|]. cbn [map qvars]. rewrite IH. reflexivity. Qed.
Lemma comb_fs {A B} (l : list (A * B)) : combine (map fst l) (map snd l) = l.
Proof. induction l as [|[a c] l IH]; [reflexivity|]. cbn. now rewrite IH. Qed.
Lemma sorts_ok p ss qs : Forall (fun u => exists so, sort_back p u so) ss -> Forall2 sort_param ss qs -> forall fs, exists sos a,
  sorts_text fs qs = Ok a /\ puts a (flat_map render_so sos) /\ Forall2 (dsort p) sos ss /\ (fs = false -> follow a) /\ (ss <> [] -> sos <> []).
Proof.
  intros F1 F2. induction F2 as [|u q ss qs (m & Em & ->) F2 IH]; intros fs.
  - exists [], []. split; [reflexivity|]. split; [apply puts_nil|]. split; [constructor|]. split; [intros _; exact Logic.I|congruence].
  - inversion F1 as [|? ? (so & Hs) F1']; subst. destruct (IH F1' false) as (sos & a & E & P & D & Fo & _). destruct (sort_back_ok _ _ _ Hs) as (st & Es & Ds & Ps).
    exists (so :: sos). eexists. split; [cbn [sorts_text t_sort]; rewrite Es; cbn [bind]; rewrite E; reflexivity|].
    split; [|split; [constructor; auto|split; [intros ->; cbn; unfold wsC; cbn; tauto|discriminate]]].
    cbn [flat_map]. assert (G : puts (st ++ a) (render_so so ++ flat_map render_so sos)) by (apply puts_cat; auto).
    destruct fs; [exact G|]. cbn [L app]. now apply puts_sp.
Qed.
Lemma params_ok_back p ps : params_back p ps -> exists tps a, qvars true (map param ps) = Ok a /\ puts a (render_params tps) /\
  params_ok p tps (map snd ps) /\ combine (names tps) (map snd ps) = ps.
Proof.
  intros (N & F). assert (exists sos, Forall2 (sort_back p) (map snd ps) sos) as (sos & Hs).
  { clear N. induction F as [|[n s] ps (_ & so & H) F (sos & IH)]; [exists []; constructor|]. exists (so :: sos). now constructor. }
  destruct (qvars_ok p (map fst ps) (map snd ps) sos true) as (ks & a & E & Fk & P & _ & _); [now rewrite !map_length| |exact Hs|].
  { clear -F. induction F as [|e ps (H & _) F IH]; constructor; auto. }
  rewrite comb_fs in E. exists (combine ks sos), a. rewrite qvars_param.
  assert (HL : length (map fst ps) = length sos) by (pose proof (F2_length _ _ _ Hs) as Q; rewrite map_length in *; exact Q).
  assert (Nm : names (combine ks sos) = map fst ps) by (apply names_combine; assumption).
  split; [exact E|]. split; [exact P|]. split; [|now rewrite Nm, comb_fs]. split; [now rewrite Nm|].
  clear -Fk Hs HL. revert sos HL Hs Fk. generalize ks. induction ps as [|[n s] ps IH]; intros ks0 sos HL Hs Fk; inversion Hs as [|? so ? sos' H1 H2]; subst; inversion Fk as [|? k ? ks' K1 K2]; subst; cbn [combine map]; [constructor|].
  constructor; [|apply IH; auto]. split; [now apply spells_tok in K1|]. cbn [snd]. destruct (sort_back_ok _ _ _ H1) as (? & _ & X & _). exact X.
Qed.

Lemma like_params g g' ps : like g g' -> like (with_params ps g) (with_params ps g').
Proof. intros (A & B & C & D). repeat split; auto. Qed.
Lemma like_add g g' n t : like g g' -> like (add_fun n t g) (add_fun n t g').
Proof. intros (A & B & C & D). repeat split; auto. intros k. cbn [add_fun p_fun set_fun mget]. now rewrite A. Qed.
Lemma like_params_back g g' ps : like g g' -> params_back g ps -> params_back g' ps.
Proof. intros H (A & F). split; [exact A|]. induction F as [|e ps (X & so & Y) F IH]; constructor; auto. { split; [exact X|]. exists so. eapply like_sort; eassumption. } apply IH. now inversion A. Qed.
Lemma fun_like x g g' n t : like g g' -> fun_back x g n t -> fun_back x g' n t.
Proof.
  intros H [s ss qs so A B C D|s ps u so A B C|s ps qs u so A B C D].
  - apply (fb_dec x g' n s ss qs so); auto; [|eapply like_sort; eassumption]. clear -H B. induction B as [|z l (o & Z) B IH]; constructor; auto. exists o. eapply like_sort; eassumption.
  - apply (fb_def x g' n s ps u so); [eapply like_params_back; eassumption|eapply like_sort; eassumption|]. eapply rt_like'; [|exact C]. now apply like_params.
  - apply (fb_rec x g' n s ps qs u so); [eapply like_params_back; eassumption|eapply like_sort; eassumption|assumption|]. eapply rt_like'; [|exact D]. now apply like_add, like_params.
Qed.
(** a term that comes back, as text and as what the text stands for *)
Lemma rt_text x p t : PrintSpec.rt x p [] t -> exists e a, dumpSMTLIB2 (c_dbg (x_c x)) t = Ok a /\ puts a (render e) /\
  hd nul a = hd nul (raw (hd TL (render e))) /\ forall c, den x p false c [] e t c /\ scoped p false [] [] e = Some [].
Proof.
  intros H. destruct (rt_back x p (c_dbg (x_c x)) (S (tsize t)) t [] (Nat.lt_succ_diag_r _) H) as (e & a & W & (P & Hd) & Dn & Sc).
  exists e, a. split; [now apply writes_dump|]. repeat split; auto.
Qed.
Lemma one_fun x p n t g : x = xo b f (g_opt g) -> fun_back x p n t -> token_text n -> mget n (p_fun p) = None -> p_fv p = [] -> mget n (p_fun p) = None ->
  exists c a, (if isk NT_FUNC_DEC t then dumpFuncDec t else dumpFuncDef (c_dbg (x_c x)) (isk NT_FUNC_REC t) t) = Ok (L "(" ++ a ++ L ")") /\
    puts a (render_cmd c) /\ step b f p g c (add_fun n t (set_ctr (p_ctr p) p)) (set_funs (g_funs g ++ [n]) g).
Proof.
  intros Ex H (k & K) _ Hp Hn. destruct (spells_tok _ _ K) as [Rk Tk]. destruct H as [s ss qs so A B C D|s ps u so A B C|s ps qs u so A B C D].
  - destruct (sorts_ok p ss qs B C true) as (sos & a & E & P & Ds & _ & Ne). destruct (sort_back_ok _ _ _ D) as (st & Es & Dd & Ps).
    exists (CDeclareFun k sos so), (L "declare-fun " ++ n ++ L " (" ++ a ++ L ") " ++ st). split; [|split].
    + unfold isk. cbn [t_kind]. change (keq NT_FUNC_DEC NT_FUNC_DEC) with true. cbv iota. unfold dumpFuncDec. cbn [t_ch tl t_sort t_name]. rewrite E, Es. cbn [bind]. rewrite <- !app_assoc. reflexivity.
    + cbn [render_cmd]. change (L "declare-fun " ++ ?z) with (L "declare-fun" ++ L " " ++ z). apply puts_ww; [wordspell|].
      change (L " (" ++ ?z) with (L " " ++ L "(" ++ z). apply puts_w; [exact K|]. apply puts_l. apply puts_cat; [exact P| |cbn; tauto]. cbn [L app]. apply puts_r, puts_sp, Ps.
    + rewrite <- Rk. replace (set_ctr (p_ctr p) p) with p by (destruct p; reflexivity). apply (s_fun b f p g k sos so ss s qs); auto. unfold fresh_fun. now rewrite Rk.
  - destruct (params_ok_back _ _ A) as (tps & a & E & P & Po & Ec). destruct (sort_back_ok _ _ _ B) as (st & Es & Dd & Ps). destruct (rt_text _ _ _ C) as (e & o & Ed & Po' & _ & Dn).
    exists (CDefineFun k tps so e), (L "define-fun " ++ n ++ L " (" ++ a ++ L ") " ++ st ++ L " " ++ o). split; [|split].
    + unfold isk. cbn [t_kind]. change (keq NT_FUNC_DEF NT_FUNC_DEC) with false. change (keq NT_FUNC_DEF NT_FUNC_REC) with false. cbv iota. unfold dumpFuncDef, child0. cbn [t_ch tl t_sort t_name]. rewrite E, Es. cbn [bind]. rewrite Ed. cbn [bind]. rewrite <- !app_assoc. reflexivity.
    + cbn [render_cmd]. unfold render_def. change (L "define-fun " ++ ?z) with (L "define-fun" ++ L " " ++ z). apply puts_ww; [wordspell|].
      change (L " (" ++ ?z) with (L " " ++ L "(" ++ z). apply puts_w; [exact K|]. apply puts_l. apply puts_cat; [exact P| |cbn; tauto]. cbn [L app]. apply puts_r, puts_sp. apply puts_cat; [exact Ps| |left; unfold wsC; cbn; tauto]. now apply puts_sp.
    + subst x. rewrite <- Rk. rewrite <- Ec at 1. apply (s_deffun b f p g k tps (map snd ps) so s e u (p_ctr p)); auto; [unfold fresh_fun; now rewrite Rk|].
      rewrite Ec. split; [apply (Dn (p_ctr p))|apply (Dn 0)].
  - destruct (params_ok_back _ _ A) as (tps & a & E & P & Po & Ec). destruct (sort_back_ok _ _ _ B) as (st & Es & Dd & Ps). destruct (rt_text _ _ _ D) as (e & o & Ed & Po' & _ & Dn).
    exists (CDefineFunRec k tps so e), (L "define-fun-rec " ++ n ++ L " (" ++ a ++ L ") " ++ st ++ L " " ++ o). split; [|split].
    + unfold isk. cbn [t_kind]. change (keq NT_FUNC_REC NT_FUNC_DEC) with false. change (keq NT_FUNC_REC NT_FUNC_REC) with true. cbv iota. unfold dumpFuncDef, child0. cbn [t_ch tl t_sort t_name]. rewrite E, Es. cbn [bind]. rewrite Ed. cbn [bind]. rewrite <- !app_assoc. reflexivity.
    + cbn [render_cmd]. unfold render_def. change (L "define-fun-rec " ++ ?z) with (L "define-fun-rec" ++ L " " ++ z). apply puts_ww; [wordspell|].
      change (L " (" ++ ?z) with (L " " ++ L "(" ++ z). apply puts_w; [exact K|]. apply puts_l. apply puts_cat; [exact P| |cbn; tauto]. cbn [L app]. apply puts_r, puts_sp. apply puts_cat; [exact Ps| |left; unfold wsC; cbn; tauto]. now apply puts_sp.
    + subst x. rewrite <- Rk. rewrite <- Ec at 1. apply (s_defrec b f p g k tps (map snd ps) so s e u (p_ctr p) qs); auto; [unfold fresh_fun; now rewrite Rk|].
      rewrite Ec, Rk. split; [apply (Dn (p_ctr p))|apply (Dn 0)].
Qed.

Lemma fun_phase qp : forall l l1 p g S V, g_funs g = l1 -> tables p S V (p_fun p) -> like (only_funs l1 qp) p -> NoDup (l1 ++ l) ->
  (forall a n c, l = a ++ n :: c -> token_text n /\ exists t, mget n (p_fun qp) = Some t /\ fun_back (xo b f (g_opt g)) (only_funs (l1 ++ a) qp) n t) ->
  exists cs p' ts, mapM (dump_fun (c_dbg (x_c b)) qp) l = Ok ts /\ puts (concat ts) (render_script cs) /\ follow (concat ts) /\
    steps p g cs p' (set_funs (l1 ++ l) g) /\ tables p' S V (p_fun p') /\ like (only_funs (l1 ++ l) qp) p'.
Proof.
  induction l as [|n l IH]; intros l1 p g S V Hg (T1 & T2 & _ & T4) Hl N H.
  - exists [], p, []. rewrite app_nil_r. split; [reflexivity|]. split; [apply puts_nil|]. split; [exact Logic.I|]. split; [|split; [now repeat split|exact Hl]].
    replace (set_funs l1 g) with g by (subst; destruct g; reflexivity). constructor.
  - destruct (H [] n l eq_refl) as (Hn & t & Mt & Fb). rewrite app_nil_r in Fb.
    assert (Hm : mem n l1 = false). { destruct (mem n l1) eqn:E; [|reflexivity]. apply mem_In in E. apply NoDup_remove_2 in N. exfalso. apply N. apply in_or_app. now left. }
    assert (Nn : mget n (p_fun p) = None). { destruct Hl as (A & _). rewrite A. cbn [only_funs p_fun set_fun]. now rewrite mget_filter, Hm. }
    destruct (one_fun _ p n t g eq_refl (fun_like _ _ _ n t Hl Fb) Hn Nn T4 Nn) as (c & a & Et & P & Sp).
    destruct (IH (l1 ++ [n]) (add_fun n t (set_ctr (p_ctr p) p)) (set_funs (l1 ++ [n]) g) S V) as (cs & p' & ts & E & Ps & Fo & St & Tb & Lk).
    + reflexivity.
    + repeat split; auto.
    + destruct Hl as (A1 & A2 & A3 & A4). repeat split; auto. intros k. cbn [add_fun p_fun set_fun set_ctr mget only_funs]. rewrite A1. cbn [only_funs p_fun set_fun].
      rewrite !mget_filter. destruct (seq_str n k) eqn:Q.
      * apply seq_str_spec in Q. subst k. assert (mem n (l1 ++ [n]) = true) as -> by (apply mem_In, in_or_app; right; now left). now rewrite Mt.
      * assert (mem k (l1 ++ [n]) = mem k l1) as ->; [|reflexivity]. unfold mem. rewrite existsb_app. cbn [existsb]. rewrite orb_false_r.
        destruct (seq_str k n) eqn:Q'; [apply seq_str_spec in Q'; subst; rewrite seq_refl in Q; discriminate|now rewrite orb_false_r].
    + rewrite <- app_assoc. exact N.
    + intros a0 m c0 ->. destruct (H (n :: a0) m c0 eq_refl) as (X & t' & Y & Z). split; [exact X|]. exists t'. split; [exact Y|]. rewrite <- app_assoc. exact Z.
    + exists (c :: cs), p', ((L "(" ++ a ++ L ")" ++ nl) :: ts). split; [|split; [|split; [|split; [|split]]]].
      * cbn [mapM]. unfold dump_fun at 1. rewrite Mt. change (c_dbg (x_c b)) with (c_dbg (x_c (xo b f (g_opt g)))). rewrite Et. cbn [bind].
        change (c_dbg (x_c (xo b f (g_opt g)))) with (c_dbg (x_c b)). rewrite E. cbn [bind]. rewrite <- !app_assoc. reflexivity.
      * cbn [concat]. change (render_script (c :: cs)) with ((TL :: render_cmd c ++ [TR]) ++ render_script cs). apply puts_cat; [|exact Ps|exact Fo]. now apply puts_line.
      * apply follow_app; [cbn; tauto|exact Fo].
      * eapply st_cons; [exact Sp|]. rewrite Hg. rewrite <- app_assoc in St. exact St.
      * exact Tb.
      * rewrite <- app_assoc in Lk. exact Lk.
Qed.

(** ** the assertions *)
Lemma as_phase qp : forall l p g, like qp p -> p_fv p = [] ->
  Forall (fun t => PrintSpec.rt (xo b f (g_opt g)) qp [] t /\ no_keyword (c_dbg (x_c b)) t) l ->
  exists cs p' ts, mapM (dump_assert (c_dbg (x_c b))) l = Ok ts /\ puts (concat ts) (render_script cs) /\ follow (concat ts) /\
    steps p g cs p' (set_as (g_as g ++ l) g) /\ tables p' (p_srt p) (p_var p) (p_fun p).
Proof.
  induction l as [|t l IH]; intros p g Hl Hp H.
  - exists [], p, []. rewrite app_nil_r. split; [reflexivity|]. split; [apply puts_nil|]. split; [exact Logic.I|]. split; [|now repeat split].
    replace (set_as (g_as g) g) with g by (destruct g; reflexivity). constructor.
  - inversion H as [|? ? (R & Nk) H']; subst. destruct (rt_text _ _ _ (rt_like' _ _ _ _ _ Hl R)) as (e & a & Ed & P & Hd & Dn).
    destruct (IH (set_ctr (p_ctr p) p) (set_as (g_as g ++ [t]) g)) as (cs & p' & ts & E & Ps & Fo & St & Tb); [exact Hl|exact Hp|exact H'|].
    exists (CAssert e :: cs), p', ((L "(assert " ++ a ++ L ")" ++ nl) :: ts). split; [|split; [|split; [|split]]].
    + cbn [mapM]. unfold dump_assert at 1. change (c_dbg (x_c (xo b f (g_opt g)))) with (c_dbg (x_c b)) in Ed. rewrite Ed. cbn [bind]. rewrite E. reflexivity.
    + cbn [concat]. change (render_script (CAssert e :: cs)) with ((TL :: (word "assert" :: render e) ++ [TR]) ++ render_script cs).
      apply puts_cat; [|exact Ps|exact Fo]. change (L "(assert " ++ ?z) with (L "(" ++ (L "assert" ++ L " " ++ z)).
      replace (L "assert" ++ L " " ++ a ++ L ")" ++ nl) with ((L "assert" ++ L " " ++ a) ++ L ")" ++ nl) by (rewrite <- !app_assoc; reflexivity).
      apply puts_line. apply puts_ww; [wordspell|exact P].
    + apply follow_app; [cbn; tauto|exact Fo].
    + eapply st_cons; [apply (s_assert b f p g e t (p_ctr p))|].
      * unfold no_colon. specialize (Nk a Ed). destruct (render e) as [|k ks]; [exact Logic.I|]. cbn [hd] in Hd. now rewrite <- Hd.
      * split; [apply (Dn (p_ctr p))|apply (Dn 0)].
      * cbn [g_as set_as] in St. rewrite <- app_assoc in St. exact St.
    + exact Tb.
Qed.
End Main.

Lemma concat_follow l : Forall follow l -> follow (concat l).
Proof. induction 1; [exact Logic.I|]. cbn [concat]. now apply follow_app. Qed.
Lemma same_xo b f o o' l : same_flags o o' -> o_logic o' = l -> xo b f (set_logic l o) = xo b f o'.
Proof. intros (A & B & C & D & E) F. unfold xo, isIntTheory, isRealTheory. cbn [set_logic o_logic o_float o_keepdiv o_keeplet o_xfun o_xrec]. now rewrite A, B, C, D, E, F. Qed.

Theorem dump_round b r q ss vs o : Permutation ss (p_srt (q_p q)) -> Permutation vs (p_var (q_p q)) ->
  dumpable (xo b false (g_opt (q_g q))) q -> same_flags o (g_opt (q_g q)) ->
  exists t q', dumpSMT2 (c_dbg (x_c b)) ss vs q = Ok t /\ parseStr b t (fresh_parser o r) = Ok q' /\ same_script q q'.
Proof.
  intros Ps Pv [Hlog Hsn Hs Hvn Hv Hfn Hft Hf Hnp Ha] Ho. set (x := xo b false (g_opt (q_g q))) in *.
  set (lo := o_logic (g_opt (q_g q))) in *. apply in_map_iff in Hlog as (lw & El & Hlw). pose proof (logic_spells lw Hlw) as Sl.
  set (g1 := set_opt (set_logic lo o) ctx0).
  assert (Ex : xo b false (set_logic lo o) = x) by (apply same_xo; auto).
  assert (NDs : NoDup (map fst ss)) by (eapply Permutation_NoDup; [apply Permutation_sym, Permutation_map, Ps|exact Hsn]).
  assert (NDv : NoDup (map fst vs)) by (eapply Permutation_NoDup; [apply Permutation_sym, Permutation_map, Pv|exact Hvn]).
  destruct (dec_phase b false ss pst0 g1 [] [] []) as (l1 & p1 & P1 & F1 & S1 & T1).
  { now repeat split. }
  { rewrite app_nil_r, map_rev. now apply NoDup_rev. }
  { intros n s Hn. apply Hs. eapply Permutation_in; eassumption. }
  rewrite app_nil_r in T1. destruct T1 as (T1 & T2 & T3 & T4).
  assert (Dk : forall n a, mget n (rev (decs ss)) = Some (Srt SK_DEC n a []) <-> mget n (p_srt (q_p q)) = Some (Srt SK_DEC n a [])).
  { intros n a. assert (NDd : NoDup (map fst (rev (decs ss)))).
    { rewrite map_rev. apply NoDup_rev. clear -NDs. unfold decs. induction ss as [|[k s] ss IH]; [constructor|]. cbn [map fst] in NDs. inversion NDs; subst. cbn [filter snd]. destruct (s_is SK_DEC s); auto.
      cbn [map fst]. constructor; auto. intros G. apply H1. apply in_map_iff in G as ([k' s'] & <- & G). apply filter_In in G. apply in_map_iff. exists (k', s'). tauto. }
    split; intros M.
    - apply mget_in in M. rewrite <- in_rev in M. apply filter_In in M as [M _]. apply in_mget; [exact Hsn|]. eapply Permutation_in; eassumption.
    - apply in_mget; [exact NDd|]. rewrite <- in_rev. apply filter_In. split; [|reflexivity]. apply mget_in in M. eapply Permutation_in; [apply Permutation_sym; exact Ps|exact M]. }
  assert (Sb : forall p s so, p_srt p = rev (decs ss) -> sort_back (q_p q) s so -> sort_back p s so).
  { intros p s so Ep. induction 1 as [n s' I|w I|e m I1 I2|n a k Hk B M|u v aa bb H1 I1 H2 I2 Ku Kv]; [now apply sb_basic|now apply sb_bv|now apply sb_fp|apply sb_dec; auto|now apply sb_arr]. rewrite Ep. now apply Dk. }
  destruct (var_phase b false vs p1 g1 (rev (decs ss)) [] []) as (l2 & p2 & tv & E2 & P2 & F2 & S2 & T5).
  { now repeat split. }
  { rewrite app_nil_r, map_rev. now apply NoDup_rev. }
  { intros n v Hn. destruct (Hv n v) as (X & s & so & Y & Z); [eapply Permutation_in; eassumption|]. split; [exact X|]. exists s, so. split; [exact Y|]. now apply Sb. }
  rewrite app_nil_r in T5. destruct T5 as (T5 & T6 & T7 & T8).
  assert (Vk : forall n, mget n (rev vs) = mget n (p_var (q_p q))).
  { intros n. apply mget_perm; [|exact Hvn]. eapply Permutation_trans; [apply Permutation_sym, Permutation_rev|exact Pv]. }
  destruct (fun_phase b false (q_p q) (g_funs (q_g q)) [] p2 g1 (rev (decs ss)) (rev vs)) as (l3 & p3 & tf & E3 & P3 & F3 & S3 & (T9 & T10 & _ & T11) & L3).
  { reflexivity. }
  { now repeat split. }
  { repeat split.
    - intros n. rewrite T7. cbn [only_funs p_fun set_fun]. rewrite mget_filter. reflexivity.
    - intros n. rewrite T8. cbn [only_funs p_fv set_fun]. now rewrite Hnp.
    - intros n. rewrite T6. apply Vk.
    - intros n a. rewrite T5. cbn [only_funs p_srt set_fun]. apply Dk. }
  { exact Hfn. }
  { intros a n c E. change (g_opt g1) with (set_logic lo o). rewrite Ex. now apply (Hf a n c). }
  assert (L4 : like (q_p q) p3).
  { destruct L3 as (A1 & A2 & A3 & A4). repeat split; auto. intros n. rewrite A1. cbn [only_funs p_fun set_fun app]. rewrite mget_filter. destruct (mem n (g_funs (q_g q))) eqn:M; [reflexivity|].
    destruct (mget n (p_fun (q_p q))) eqn:Q; [|reflexivity]. assert (In n (g_funs (q_g q))) as G by (apply Hft; congruence). apply mem_In in G. congruence. }
  cbn [app] in S3. set (g2 := set_funs (g_funs (q_g q)) g1) in *.
  destruct (as_phase b false (q_p q) (g_as (q_g q)) p3 g2 L4 T11) as (l4 & p4 & ta & E4 & P4 & F4 & S4 & (T12 & T13 & T14 & T15)).
  { change (g_opt g2) with (set_logic lo o). rewrite Ex. exact Ha. }
  change (g_as g2) with (@nil term) in S4. cbn [app] in S4. set (g3 := set_as (g_as (q_g q)) g2) in *.
  exists (L "(set-logic " ++ lo ++ L ")" ++ nl ++ concat (map dump_sort ss) ++ concat tv ++ concat tf ++ concat ta ++ L "(check-sat)" ++ nl ++ L "(exit)" ++ nl).
  set (cs := CSetLogic (word lw) :: l1 ++ l2 ++ l3 ++ l4 ++ [CCheckSat]).
  assert (St : CommandSpec.steps b false pst0 (set_opt o ctx0) cs p4 (set_opt (set_checksat (g_opt g3)) g3)).
  { unfold cs. eapply st_cons.
    - apply s_logic; [split; discriminate|]. change (raw (word lw)) with (L lw). now apply in_map.
    - change (raw (word lw)) with (L lw). rewrite El. change (set_opt (set_logic lo (g_opt (set_opt o ctx0))) (set_opt o ctx0)) with g1.
      eapply steps_cat; [exact S1|]. eapply steps_cat; [exact S2|]. eapply steps_cat; [exact S3|]. eapply steps_cat; [exact S4|].
      eapply st_cons; [apply s_checksat|constructor]. }
  destruct (parseStr_exit b cs pst0 (set_opt o ctx0) p4 (set_opt (set_checksat (g_opt g3)) g3)
    (L "(set-logic " ++ lo ++ L ")" ++ nl ++ concat (map dump_sort ss) ++ concat tv ++ concat tf ++ concat ta ++ L "(check-sat)" ++ nl ++ L "(exit)" ++ nl)
    (fresh_parser o r) []) as (q' & Eq & Gq & Hq).
  - discriminate.
  - apply (new_holds r).
  - reflexivity.
  - assert (P : puts (L "(set-logic " ++ lo ++ L ")" ++ nl ++ concat (map dump_sort ss) ++ concat tv ++ concat tf ++ concat ta ++ L "(check-sat)" ++ nl ++ L "(exit)" ++ nl)
       (render_script cs ++ TL :: word "exit" :: [TR])).
    { unfold cs. change (render_script (CSetLogic (word lw) :: ?z)) with ((TL :: [word "set-logic"; word lw] ++ [TR]) ++ render_script z). rewrite !render_app. rewrite <- !app_assoc.
      match goal with |- puts (L "(set-logic " ++ lo ++ L ")" ++ nl ++ ?z) _ =>
        replace (L "(set-logic " ++ lo ++ L ")" ++ nl ++ z) with ((L "(" ++ (L "set-logic" ++ L " " ++ lo) ++ L ")" ++ nl) ++ z) by (rewrite <- !app_assoc; reflexivity) end.
      apply puts_cat; [apply puts_line; rewrite <- El; apply puts_ww; [wordspell|now apply puts_tok]| |].
      2:{ repeat apply follow_app; auto; cbn; unfold wsC; cbn; tauto. }
      apply puts_cat; [exact P1| |repeat apply follow_app; auto; cbn; unfold wsC; cbn; tauto].
      apply puts_cat; [exact P2| |repeat apply follow_app; auto; cbn; unfold wsC; cbn; tauto].
      apply puts_cat; [exact P3| |repeat apply follow_app; auto; cbn; unfold wsC; cbn; tauto].
      apply puts_cat; [exact P4| |cbn; tauto].
      change (L "(check-sat)" ++ nl ++ L "(exit)" ++ nl) with ((L "(" ++ L "check-sat" ++ L ")" ++ nl) ++ (L "(" ++ L "exit" ++ L ")" ++ nl)).
      change (render_script [CCheckSat] ++ [TL; word "exit"; TR]) with ((TL :: [word "check-sat"] ++ [TR]) ++ (TL :: [word "exit"] ++ [TR])).
      apply puts_cat; [apply puts_line, puts_tok; wordspell|apply puts_line, puts_tok; wordspell|cbn; tauto]. }
    specialize (P [] [] Logic.I (lx_nil _)). rewrite !app_nil_r in P. exact P.
  - exact St.
  - exists q'. split; [|split; [exact Eq|]].
    + unfold dumpSMT2. rewrite E2. cbn [bind]. rewrite E3. cbn [bind]. rewrite E4. reflexivity.
    + destruct Hq as ((Q1 & Q2 & Q3 & Q4 & Q5 & Q6) & _). unfold same_script. rewrite Gq, Q1, Q3. split; [reflexivity|]. split; [reflexivity|]. rewrite T13, T14, T10.
      split; [exact Vk|]. split; [apply L4|]. split; [reflexivity|]. intros n a Hc. rewrite Q6 by exact Hc. rewrite T12, T9. apply Dk.
Qed.
