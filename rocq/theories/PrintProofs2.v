(** Print and re-parse: every term of [rt] (PrintSpec.v) is read back. *)
From Verif Require Import Base LexSpec LexProofs KindModel SortModel TermModel UtilModel UtilSpec UtilProofs BVProofs2 SemProofs SimpModel OpModel LexModel
  ParseModel ParseSpec ParseProofs ParseProofs2 DagProofs OpProofs PrintModel PrintSpec PrintProofs.
Open Scope Z_scope.

(** ** words *)
Definition realb (c : ascii) : bool := Nat.leb 48 (code c) && Nat.leb (code c) 57 || existsb (aeq c) ["."%char; "-"%char; "+"%char].
Lemma realb_spec c : realb c = true <-> realC c.
Proof.
  unfold realb, realC. rewrite orb_true_iff, andb_true_iff, !Nat.leb_le, existsb_exists. split; intros [H|H]; [left; lia| |left; lia|].
  - right. destruct H as (y & Hy & E). apply aeq_true in E. now subst.
  - right. exists c. split; [exact H|]. now apply aeq_true.
Qed.
Fixpoint scib (started : bool) (w : str) : bool :=
  match w with
  | [] => false
  | c :: w' => if realb c then scib true w' else started && (aeq c "E"%char || aeq c "e"%char)
  end.
Lemma scib_no w t : scib false w = false -> no_sci w t.
Proof.
  intros H m e r -> He.
  assert (R : realb e = false). { destruct He as [ -> | -> ]; reflexivity. }
  assert (E : aeq e "E"%char || aeq e "e"%char = true). { destruct He as [ -> | -> ]; reflexivity. }
  assert (G : forall m b, scib b (m ++ e :: r) = false -> (b = false /\ m = []) \/ exists c, In c m /\ ~ realC c).
  { clear -R E. induction m as [|c m IH]; intros b H; cbn [app scib] in H.
    - rewrite R, E, andb_true_r in H. left. now split.
    - destruct (realb c) eqn:Q.
      + destruct (IH _ H) as [[X _]|(y & Hy & N)]; [discriminate|]. right. exists y. split; [now right|exact N].
      + right. exists c. split; [now left|]. rewrite <- realb_spec. congruence. }
  destruct (G m false H) as [[_ X]|X]; [now left|now right].
Qed.
Ltac wordspell := apply puts_word; [discriminate|reflexivity|apply scib_no; reflexivity].
Lemma digits_word ds : ds <> [] -> Forall digitC ds -> spells ds (TWord ds).
Proof.
  intros N F. apply sp_word; [exact N| |].
  - apply Forall_forall. intros c Hc D. rewrite Forall_forall in F. specialize (F c Hc). unfold digitC, delimC, wsC in *. cbn [In] in D.
    destruct D as [D|[D|D]]; [cbn in *; unfold code in *; lia| |subst c; cbn in F; lia].
    repeat (destruct D as [D|D]; [subst c; cbn in F; lia|]). contradiction.
  - apply scib_no. enough (forall b, scib b ds = false) by auto. clear N. induction F as [|c ds Hc F IH]; intros b; [reflexivity|]. cbn [scib].
    replace (realb c) with true; [apply IH|]. symmetry. apply realb_spec. left. exact Hc.
Qed.
Lemma Idec_nat z : 0 <= z -> Idec z <> [] /\ Forall digitC (Idec z).
Proof.
  intros H. unfold Idec. destruct z as [|p|p]; cbn [Z.to_int]; [|split; [apply udec_nonnil, to_uint_nonnil|apply udec_digits]|lia].
  split; [discriminate|]. repeat constructor; unfold digitC; cbn; lia.
Qed.
Lemma digits_prefix_num ds : forall acc, Forall digitC ds -> digits_prefix ds acc = fold_left (fun a c => a * 10 + digit_of c) ds acc.
Proof.
  induction ds as [|c ds IH]; intros acc F; [reflexivity|]. inversion F as [|? ? Hc Hd]; subst. cbn [digits_prefix fold_left].
  assert (isdigit c = true) as -> by (unfold isdigit, digitC, code in *; lia). rewrite IH by exact Hd. reflexivity.
Qed.
Lemma stoi_Idec z : 0 <= z < 2 ^ 31 -> stoi (Idec z) = Ok z.
Proof.
  intros H. destruct (Idec_nat z) as [N F]; [lia|]. pose proof (int_val_plain _ N F) as V. rewrite int_val_Idec in V. injection V as V.
  unfold stoi. assert (strtol (Idec z) = Some z) as ->.
  { destruct (Idec z) as [|c ds] eqn:E; [congruence|]. inversion F as [|? ? Hc Hd]; subst. unfold strtol.
    assert (isdigit c = true) as D by (unfold isdigit, digitC, code in *; lia).
    assert (skip_space (c :: ds) = c :: ds) as ->. { cbn [skip_space]. destruct (isspace c) eqn:S; [|reflexivity]. unfold isspace, isdigit in *. exfalso. unfold code in *. cbn in S. lia. }
    destruct (aeq c "-"%char) eqn:A1; [apply aeq_true in A1; subst c; discriminate D|]. destruct (aeq c "+"%char) eqn:A2; [apply aeq_true in A2; subst c; discriminate D|].
    rewrite D. rewrite digits_prefix_num by exact F. reflexivity. }
  replace ((-2147483648 <=? z) && (z <=? 2147483647)) with true by lia. reflexivity.
Qed.
Lemma u64_small z : 0 <= z < 2 ^ 31 -> u64 z = z.
Proof. intros H. unfold u64, two64. apply Z.mod_small. lia. Qed.
Lemma digits_no_bar ds : Forall digitC ds -> ~ In "_"%char ds.
Proof. intros F H. rewrite Forall_forall in F. specialize (F _ H). unfold digitC in F. cbn in F. lia. Qed.

(** ** sorts *)
Lemma sort_back_ok g s so : sort_back g s so -> exists a, sort_str s = Ok a /\ dsort g so s /\ puts a (render_so so).
Proof.
  induction 1 as [n s' H|w H|e m H1 H2|n a k Hk B M|u v a b H1 (x & Ex & Dx & Px) H2 (y & Ey & Dy & Py) Ku Kv].
  - cbn [In] in H. repeat destruct H as [H|H]; try contradiction; injection H as <- <-; eexists; (split; [reflexivity|]);
      (split; [apply ds_basic; [split; discriminate|reflexivity]|]); cbn [render_so]; apply puts_tok; wordspell.
  - eexists. split; [reflexivity|]. destruct (Idec_nat w) as [N F]; [lia|]. split.
    + apply ds_bv. unfold bv_of. rewrite stoi_Idec by lia. cbn [bind]. now rewrite u64_small.
    + cbn [render_so bvS s_arity]. apply puts_l. apply (puts_app (L "_") _ [word "_"]); [apply puts_tok; wordspell| |cbn; unfold wsC; cbn; tauto|discriminate].
      apply puts_sp. apply (puts_app (L "BitVec") _ [word "BitVec"]); [apply puts_tok; wordspell| |cbn; unfold wsC; cbn; tauto|discriminate].
      apply puts_sp. apply (puts_app (Idec w) (L ")") [TWord (Idec w)] [TR]); [apply puts_tok; now apply digits_word| |cbn; tauto|discriminate].
      apply puts_r, puts_nil.
  - eexists. split; [reflexivity|]. destruct (Idec_nat e) as [N F]; [lia|]. destruct (Idec_nat m) as [N' F']; [lia|]. split.
    + apply ds_fp; [now apply digits_no_bar|]. unfold fp_of. rewrite !stoi_Idec by lia. cbn [bind]. now rewrite !u64_small.
    + cbn [render_so fpS s_arity]. apply puts_l. apply (puts_app (L "_") _ [word "_"]); [apply puts_tok; wordspell| |cbn; unfold wsC; cbn; tauto|discriminate].
      apply puts_sp. apply (puts_app (L "FloatingPoint") _ [word "FloatingPoint"]); [apply puts_tok; wordspell| |cbn; unfold wsC; cbn; tauto|discriminate].
      apply puts_sp. apply (puts_app (Idec e) _ [TWord (Idec e)]); [apply puts_tok; now apply digits_word| |cbn; unfold wsC; cbn; tauto|discriminate].
      apply puts_sp. apply (puts_app (Idec m) (L ")") [TWord (Idec m)] [TR]); [apply puts_tok; now apply digits_word| |cbn; tauto|discriminate].
      apply puts_r, puts_nil.
  - exists n. split; [reflexivity|]. destruct (spells_tok _ _ Hk) as [<- Ht]. split; [now apply ds_decl|]. now apply puts_tok.
  - cbn [arrayS sort_str]. rewrite Ex, Ey. eexists. split; [reflexivity|]. split; [now apply ds_arr|].
    cbn [render_so]. apply puts_l. apply (puts_app (L "Array") _ [word "Array"]); [apply puts_tok; wordspell| |cbn; unfold wsC; cbn; tauto|discriminate].
    apply puts_sp. apply puts_app; [exact Px| |cbn; unfold wsC; cbn; tauto|discriminate].
    apply puts_sp. apply puts_app; [exact Py|apply puts_r, puts_nil|cbn; tauto|discriminate].
Qed.

(** ** terms *)
Section Main.
Context (x : pcfg) (g : pst) (d : bool).
Definition back (r : ParseSpec.env) (t : term) : Prop :=
  exists e a, writes d [INode t] a /\ (puts a (render e) /\ hd nul a = hd nul (raw (hd TL (render e)))) /\ (forall c, den x g false c r e t c) /\ forall D, scoped g false D (map fst r) e = Some D.
Definition backs (r : ParseSpec.env) (l : list term) : Prop :=
  exists es a, writes d (spaced l) a /\ puts a (flat_map render es) /\ starts (fun c => c = " "%char) a /\
    (forall c, dens x g false c r es l c) /\ (l <> [] -> a <> []) /\ Forall (fun e => forall D, scoped g false D (map fst r) e = Some D) es.
Lemma backs_of r l : Forall (back r) l -> backs r l.
Proof.
  induction 1 as [|t l (e & a & W & (P & _) & Dn & Sc) F IH].
  - exists [], []. split; [constructor|]. split; [apply puts_nil|]. split; [exact Logic.I|]. split; [intros; constructor|]. split; [congruence|constructor].
  - destruct IH as (es & b & Wb & Pb & Sb & Db & Nb & Fb). exists (e :: es), (" "%char :: a ++ b). split; [|split; [|split; [|split; [|split]]]].
    + change (spaced (t :: l)) with (IText (L " ") :: [INode t] ++ spaced l). change (" "%char :: a ++ b) with (L " " ++ (a ++ b)). apply w_text. now apply writes_app.
    + apply puts_sp. cbn [flat_map]. destruct l as [|t' l'].
      * inversion Wb; subst. rewrite app_nil_r. specialize (Db 0). inversion Db; subst. cbn. now rewrite app_nil_r.
      * apply puts_app; auto; [|apply Nb; discriminate]. destruct b as [|c b]; [exact Logic.I|]. cbn in *. subst c. left. unfold wsC. cbn. tauto.
    + reflexivity.
    + intros c. econstructor; eauto.
    + discriminate.
    + constructor; auto.
Qed.
Lemma starts_follow a b : starts (fun c => c = " "%char) a -> follow b -> follow (a ++ b).
Proof. destruct a as [|c a]; cbn; [auto|]. intros -> _. left. unfold wsC. cbn. tauto. Qed.
Lemma scoped_all D N es : Forall (fun e => forall D, scoped g false D N e = Some D) es -> forall h, scoped g false D N (SApp h es) = Some D.
Proof. intros F h. cbn [scoped]. induction F as [|e es H F IH]; [reflexivity|]. rewrite H. exact IH. Qed.
Lemma scoped_idx D N is es h : Forall (fun e => forall D, scoped g false D N e = Some D) is -> Forall (fun e => forall D, scoped g false D N e = Some D) es ->
  scoped g false D N (SIdx h is es) = Some D.
Proof.
  intros F1 F2. cbn [scoped].
  match goal with |- context [?f D is] => assert (G : forall l, Forall (fun e => forall D, scoped g false D N e = Some D) l -> f D l = Some D) end.
  { induction 1 as [|e l H F IH]; [reflexivity|]. rewrite H. exact IH. }
  rewrite (G _ F1). apply (G _ F2).
Qed.
(** "(h a1 ... an)" *)
Lemma napp_back r l h k : backs r l -> spells h k -> exists es a, writes d (napp h l) a /\ puts a (render (SApp k es)) /\ hd nul a = "("%char /\
  (forall c, dens x g false c r es l c) /\ Forall (fun e => forall D, scoped g false D (map fst r) e = Some D) es.
Proof.
  intros (es & a & W & P & S & Dn & N & F) K. exists es, ((L "(" ++ h) ++ a ++ L ")"). split; [|split; [|split; [reflexivity|split; assumption]]].
  - unfold napp. apply w_text. apply writes_app; [exact W|]. rewrite <- (app_nil_r (L ")")). apply w_text. constructor.
  - cbn [render]. rewrite <- app_assoc. cbn [L app]. apply puts_l. change (k :: flat_map render es ++ [TR]) with ([k] ++ flat_map render es ++ [TR]).
    apply puts_app; [now apply puts_tok| |apply starts_follow; [exact S|cbn; tauto]|destruct a; discriminate].
    apply puts_app; [exact P|apply puts_r, puts_nil|cbn; tauto|discriminate].
Qed.
Lemma iapp_back r is l h k : backs r is -> backs r l -> spells h k -> exists js es a, writes d (iapp h is l) a /\ puts a (render (SIdx k js es)) /\ hd nul a = "("%char /\
  (forall c, dens x g false c r js is c) /\ (forall c, dens x g false c r es l c) /\
  Forall (fun e => forall D, scoped g false D (map fst r) e = Some D) js /\ Forall (fun e => forall D, scoped g false D (map fst r) e = Some D) es.
Proof.
  intros (js & b & W1 & P1 & S1 & Dn1 & N1 & F1) (es & a & W & P & S & Dn & N & F) K.
  exists js, es, ((L "((_ " ++ h) ++ b ++ L ")" ++ a ++ L ")"). split; [|split; [|split; [reflexivity|repeat split; assumption]]].
  - unfold iapp. apply w_text. apply writes_app; [exact W1|]. apply w_text. apply writes_app; [exact W|]. rewrite <- (app_nil_r (L ")")). apply w_text. constructor.
  - cbn [render]. rewrite <- app_assoc. cbn [L app]. apply puts_l, puts_l.
    change (word "_" :: k :: flat_map render js ++ TR :: flat_map render es ++ [TR]) with ([word "_"] ++ [k] ++ flat_map render js ++ TR :: flat_map render es ++ [TR]).
    change ("_"%char :: " "%char :: ?z) with (L "_" ++ (" "%char :: z)).
    apply (puts_app (L "_") (" "%char :: h ++ b ++ ")"%char :: a ++ [")"%char])); [apply puts_tok; wordspell| |left; unfold wsC; cbn; tauto|discriminate].
    apply puts_sp. apply puts_app; [now apply puts_tok| |apply starts_follow; [exact S1|cbn; tauto]|destruct b; discriminate].
    apply puts_app; [exact P1| |cbn; tauto|discriminate]. apply puts_r.
    apply puts_app; [exact P|apply puts_r, puts_nil|cbn; tauto|discriminate].
Qed.
Lemma writes_text1 s : writes d [IText s] s.
Proof. rewrite <- (app_nil_r s) at 2. apply w_text. constructor. Qed.
Lemma leaf_back r t k a : visit d t = Ok [IText a] -> spells a k -> (forall c, den x g false c r (SAtom k) t c) -> back r t.
Proof.
  intros V K Dn. exists (SAtom k), a. split; [|split; [|split; [exact Dn|]]].
  - apply (writes_one d t [IText a]); [exact V|]. rewrite <- (app_nil_r a) at 2. apply w_text. constructor.
  - cbn [render]. split; [now apply puts_tok|]. cbn [hd]. now rewrite (proj1 (spells_tok _ _ K)).
  - reflexivity.
Qed.
Lemma firsts_all ch n : length ch = n -> firsts n ch = Ok ch.
Proof. intros <-. induction ch; [reflexivity|]. cbn [firsts length]. rewrite IHch. reflexivity. Qed.
Lemma kin_In k l : kin k l = true <-> In k l.
Proof. unfold kin. rewrite existsb_exists. split; [intros (y & H & E)|intros H; exists k; split; [exact H|]]; [apply keq_spec in E; now subst|now apply keq_spec]. Qed.
Lemma visit_op k s nm ch : ~ In k no_op_kinds -> ch <> [] -> (forall n, op_arity k = Some n -> length ch = n) -> visit d (T k s nm ch) = Ok (napp (kindToString k) ch).
Proof.
  intros NI NE HA. destruct (kin k no_op_kinds) eqn:KK; [apply kin_In in KK; contradiction|]. clear NI.
  destruct k; try discriminate KK; cbn [visit];
    first [ reflexivity
          | rewrite (firsts_all ch _ (HA _ eq_refl)); reflexivity
          | destruct ch; [congruence|reflexivity] ].
Qed.
Lemma visit_idx k s nm ch h ix args : indexed k ch = Some (h, ix, args) ->
  visit d (T k s nm ch) = Ok (iapp (L h) ix args) /\ spells (L h) (word h) /\ L h <> L "root-obj" /\ keq k NT_ERROR = false /\ incl ix ch /\ incl args ch.
Proof.
  intros E. destruct k; try discriminate E; cbn [indexed] in E; repeat (destruct ch as [|? ch]; try discriminate E);
    injection E as <- <- <-; (split; [reflexivity|]); (split; [wordspell|]); (split; [discriminate|]); (split; [reflexivity|]);
    (split; intros z Hz; cbn in Hz |- *; tauto).
Qed.
Lemma visit_fun k s nm ch args : fun_args k ch = Some args -> args <> [] -> visit d (T k s nm ch) = Ok (napp nm args) /\ keq k NT_ERROR = false /\ incl args ch.
Proof.
  intros E N. destruct k; try discriminate E; cbn [fun_args] in E; try (destruct ch as [|c ch]; [discriminate E|]); injection E as ->;
    (split; [|split; [reflexivity|intros z Hz; cbn; auto]]); cbn [visit tl]; unfold fapp; destruct args; congruence.
Qed.
Lemma assoc_mem n (r : ParseSpec.env) : assoc n r = None -> mem n (map fst r) = false.
Proof.
  induction r as [|[v t] r IH]; [reflexivity|]. cbn [assoc map fst]. unfold mem. cbn [existsb]. fold (mem n (map fst r)). destruct (seq_str v n) eqn:E; [discriminate|]. intros H.
  rewrite (IH H), orb_false_r. destruct (seq_str n v) eqn:E'; [|reflexivity]. apply seq_str_spec in E'. subst. assert (seq_str v v = true) by now apply seq_str_spec. congruence.
Qed.
Lemma nodupb_of l : NoDup l -> nodupb l = true.
Proof.
  induction 1 as [|v l N H IH]; [reflexivity|]. cbn [nodupb]. rewrite IH, andb_true_r. apply negb_true_iff. unfold mem. destruct (existsb (seq_str v) l) eqn:E; [|reflexivity].
  apply existsb_exists in E as (u & Hu & E). apply seq_str_spec in E. now subst.
Qed.
(** the variables of a quantifier *)
Lemma qvars_ok ns : forall ss sos b, length ns = length ss -> Forall token_text ns -> Forall2 (sort_back g) ss sos ->
  exists ks a, qvars b (map (fun q => quant_node (fst q) (snd q)) (combine ns ss)) = Ok a /\ Forall2 (fun n k => spells n k) ns ks /\
    puts a (flat_map (fun q => TL :: fst q :: render_so (snd q) ++ [TR]) (combine ks sos)) /\ follow a /\ (ns <> [] -> a <> []).
Proof.
  induction ns as [|n ns IH]; intros ss sos b HL HT HS.
  - exists [], []. split; [reflexivity|]. split; [constructor|]. split; [apply puts_nil|]. split; [exact Logic.I|congruence].
  - destruct ss as [|s ss]; [discriminate|]. inversion HS as [|? so ? sos' S1 S2]; subst. inversion HT as [|? ? (k & K) HT']; subst.
    destruct (IH ss sos' false) as (ks & a & E & F & P & Fo & N); [now injection HL|assumption|assumption|].
    destruct (sort_back_ok g s so S1) as (st & Es & Ds & Ps). exists (k :: ks).
    eexists. split; [|split; [constructor; [exact K|exact F]|split; [|split]]].
    + cbn [combine map qvars fst snd quant_node t_sort t_name]. rewrite Es. cbn [bind]. rewrite E. cbn [bind]. reflexivity.
    + cbn [combine flat_map fst snd].
      assert (G : puts (L "(" ++ n ++ L " " ++ st ++ L ")" ++ a) ((TL :: k :: render_so so ++ [TR]) ++ flat_map (fun q => TL :: fst q :: render_so (snd q) ++ [TR]) (combine ks sos'))).
      { cbn [L app]. apply puts_l. change (k :: (render_so so ++ [TR]) ++ ?z) with ([k] ++ ((render_so so ++ [TR]) ++ z)).
        apply (puts_app n (" "%char :: st ++ ")"%char :: a) [k]); [now apply puts_tok| |left; unfold wsC; cbn; tauto|discriminate].
        apply puts_sp. rewrite <- app_assoc. apply puts_app; [exact Ps| |cbn; tauto|discriminate]. cbn [app]. now apply puts_r. }
      destruct b; [exact G|]. cbn [L app]. now apply puts_sp.
    + destruct b; cbn; unfold wsC; cbn; tauto.
    + intros _. destruct b; discriminate.
Qed.
Lemma names_combine ns ks (sos : list so) : Forall2 (fun n k => spells n k) ns ks -> length ns = length sos -> names (combine ks sos) = ns.
Proof.
  intros F. revert sos. induction F as [|n k ns ks K F IH]; intros [|so sos] H; try discriminate; [reflexivity|]. cbn [combine]. unfold names in *. cbn [map fst].
  rewrite IH by (now injection H). f_equal. now apply spells_tok in K.
Qed.
Lemma qnodes_combine ns ks (sos : list so) : Forall2 (fun n k => spells n k) ns ks -> length ns = length sos -> forall ss, length ns = length ss ->
  quant_nodes (combine ks sos) ss = map (fun q => quant_node (fst q) (snd q)) (combine ns ss).
Proof.
  intros F. revert sos. induction F as [|n k ns ks K F IH]; intros [|so sos] H ss Hs; try discriminate; [reflexivity|]. destruct ss as [|s ss]; [discriminate|].
  unfold quant_nodes in *. cbn [combine map fst snd]. rewrite IH by (try now injection H; now injection Hs). apply spells_tok in K. destruct K as [<- _]. reflexivity.
Qed.
Lemma F2_length {A B} (R : A -> B -> Prop) l m : Forall2 R l m -> length l = length m.
Proof. induction 1; cbn; congruence. Qed.
Lemma tsize_in t ch k s n : In t ch -> (tsize t < tsize (T k s n ch))%nat.
Proof. intros H. cbn [tsize]. fold (tsL ch). enough (tsize t <= tsL ch)%nat by lia. induction ch as [|a ch IH]; [contradiction|]. rewrite tsL_cons. destruct H as [ -> | H ]; [lia|]. specialize (IH H). lia. Qed.

Theorem rt_back : forall n t r, (tsize t < n)%nat -> rt x g r t -> back r t.
Proof.
  induction n as [|n IHn]; intros t r Hn H; [lia|].
  assert (IHL : forall ch k s nm r, T k s nm ch = t -> forall l, incl l ch -> Forall (rt x g r) l -> backs r l).
  { intros ch k s nm r0 E l Hi F. apply backs_of. apply Forall_forall. intros u Hu. apply IHn; [|rewrite Forall_forall in F; now apply F].
    pose proof (tsize_in u ch k s nm (Hi u Hu)). rewrite E in H0. lia. }
  inversion H as [r0|r0|r0 k s nm K (q & Q) A|r0 k s nm K (q & Q) N1 N2 A Dc|r0 s nm (q & Q) (N1 & N2 & A & Dc) M Lt
    |r0 t0 w C M (N1 & N2 & A & Dc) Lt|r0 s nm u (q & Q) (N1 & N2 & A & Dc) M Lt NE Sb
    |r0 k s nm ch NI NE HA (q & Q) Sp Co F O Er|r0 k s nm ch h ix args I M F O|r0 k s nm ch args f I NE (q & Q) Sp Co M F O
    |r0 k s nm b vs ns ss sos K Ev HL NE HT ND HN HS Hb O]; subst r0; subst.
  - apply (leaf_back r TRUE (word "true") (L "true")); [reflexivity|wordspell|]. intros c. apply d_true; [reflexivity|split; discriminate].
  - apply (leaf_back r FALSE (word "false") (L "false")); [reflexivity|wordspell|]. intros c. apply d_false; [reflexivity|split; discriminate].
  - destruct (spells_tok _ _ Q) as [R Ht]. apply (leaf_back r _ q nm); [|exact Q|].
    + cbn [In name_kinds] in K. repeat destruct K as [ <- | K ]; try reflexivity. contradiction.
    + intros c. apply d_bound; [exact Ht|now rewrite R|]. cbn [In name_kinds] in K. repeat destruct K as [ <- | K ]; try reflexivity. contradiction.
  - destruct (spells_tok _ _ Q) as [R Ht]. apply (leaf_back r _ q nm); [|exact Q|].
    + cbn [In name_kinds] in K. repeat destruct K as [ <- | K ]; try reflexivity. contradiction.
    + intros c. apply d_decl; rewrite ?R; auto. cbn [In name_kinds] in K. repeat destruct K as [ <- | K ]; try reflexivity. contradiction.
  - destruct (spells_tok _ _ Q) as [R Ht]. apply (leaf_back r _ q nm); [|exact Q|].
    + cbn [visit length Nat.eqb]. rewrite andb_false_r. unfold dumpConst. fold (numericS s). destruct (numericS s); [|reflexivity].
      destruct nm as [|c nm]; [reflexivity|]. destruct (aeq c "-"%char) eqn:E; [|reflexivity]. apply aeq_true in E. subst c. now specialize (M eq_refl).
    + intros c. apply d_lit; rewrite ?R; auto.
  - assert (V : visit d t = Ok [IText (L w)] /\ spells (L w) (word w) /\ isErr t = false).
    { destruct t as [k s nm ch]. cbn [t_kind t_name] in *.
      assert (NC : forall z, named_const nm z = L z) by (intros z; unfold named_const; destruct nm as [|c nm]; [reflexivity|]; cbn in M; destruct (aeq c "("%char) eqn:E; [apply aeq_true in E; now subst|reflexivity]).
      destruct k; try discriminate C; injection C as <-; cbn [visit]; rewrite ?NC; (split; [reflexivity|split; [wordspell|reflexivity]]). }
    destruct V as (V & K & E). destruct (spells_tok _ _ K) as [R Ht]. apply (leaf_back r t (word w) (L w)); auto. intros c. apply d_lit; auto.
  - destruct (spells_tok _ _ Q) as [R Ht]. exists (SApp (word "-") [SAtom q]), (L "(- " ++ nm ++ L ")"). split; [|split; [|split]].
    + eapply writes_one; [cbn [visit length Nat.eqb]; rewrite andb_false_r; reflexivity|]. unfold dumpConst. fold (numericS s). rewrite M. cbn [aeq].
      change (aeq "-" "-") with true. cbv iota. apply writes_text1.
    + split; [|reflexivity]. cbn [render flat_map L app]. apply puts_l. change (word "-" :: ?z) with ([word "-"] ++ z). apply (puts_app (L "-") (" "%char :: nm ++ [")"%char])); [apply puts_tok; wordspell| |left; unfold wsC; cbn; tauto|discriminate].
      apply puts_sp. apply (puts_app nm [")"%char] [q] [TR]); [now apply puts_tok|apply puts_r, puts_nil|cbn; tauto|discriminate].
    + intros c. apply (d_op x g false c r (word "-") [SAtom q] [u] c); [split; discriminate|reflexivity|left; reflexivity| |exact Sb|reflexivity].
      econstructor; [|constructor]. apply d_lit; rewrite ?R; auto.
    + reflexivity.
  - destruct (spells_tok _ _ Q) as [R Ht]. destruct (napp_back r ch (kindToString k) q) as (es & a & W & P & Hh & Dn & Sc); [|exact Q|].
    { apply (IHL ch k s nm r eq_refl ch); [apply incl_refl|exact F]. }
    exists (SApp q es), a. split; [|split; [split; [exact P|exact Hh]|split]].
    + eapply writes_one; [|exact W]. now apply visit_op.
    + intros c. apply (d_op x g false c r q es ch c); rewrite ?R; auto.
    + intros D. now apply scoped_all.
  - destruct (visit_idx k s nm ch h ix args I) as (V & K & NR & Er & I1 & I2). rewrite Forall_forall in F.
    destruct (iapp_back r ix args (L h) (word h)) as (js & es & a & W & P & Hh & D1 & D2 & S1 & S2); [| |exact K|].
    { apply (IHL ch k s nm r eq_refl ix I1). apply Forall_forall. intros z Hz. apply F. auto. }
    { apply (IHL ch k s nm r eq_refl args I2). apply Forall_forall. intros z Hz. apply F. auto. }
    exists (SIdx (word h) js es), a. split; [|split; [split; [exact P|exact Hh]|split]].
    + eapply writes_one; [exact V|exact W].
    + intros c. apply (d_idx x g false c r (word h) js es ix args c c); auto. split; discriminate.
    + intros D. now apply scoped_idx.
  - destruct (visit_fun k s nm ch args I NE) as (V & Er & I1). destruct (spells_tok _ _ Q) as [R Ht].
    destruct (napp_back r args nm q) as (es & a & W & P & Hh & Dn & Sc); [|exact Q|].
    { apply (IHL ch k s nm r eq_refl args I1). exact F. }
    exists (SApp q es), a. split; [|split; [split; [exact P|exact Hh]|split]].
    + eapply writes_one; [exact V|exact W].
    + intros c. apply (d_fun x g false c r q es args c f); rewrite ?R; auto.
    + intros D. now apply scoped_all.
  - set (vs := map (fun q => quant_node (fst q) (snd q)) (combine ns ss)) in *.
    destruct (IHn b (combine ns vs ++ r)) as (e & a & W & (P & _) & Dn & Sc); [pose proof (tsize_in b (b :: vs) k s nm (or_introl eq_refl)); lia|exact Hb|].
    destruct (qvars_ok ns ss sos true HL HT HS) as (ks & qa & Eq & Fk & Pq & _ & Nq).
    pose proof (F2_length _ _ _ HS) as HL2. pose proof (F2_length _ _ _ Fk) as HL3.
    set (vv := combine ks sos). assert (Nv : names vv = ns) by (apply (names_combine ns); [exact Fk|congruence]).
    assert (Qv : quant_nodes vv ss = vs) by (apply (qnodes_combine ns); [exact Fk|congruence|exact HL]).
    set (fa := keq k NT_FORALL). assert (Kf : (if fa then NT_FORALL else NT_EXISTS) = k) by (unfold fa; destruct K as [ -> | -> ]; reflexivity).
    assert (Hk : kindToString k = L (if fa then "forall" else "exists")) by (unfold fa; destruct K as [ -> | -> ]; reflexivity).
    exists (SQuant fa vv e), ((L "(" ++ kindToString k ++ L " (" ++ qa ++ L ")") ++ (L " " ++ a) ++ L ")"). split; [|split; [|split]].
    + eapply writes_one.
      * destruct K as [ -> | -> ]; cbn [visit tl]; fold vs in Eq; rewrite Eq; cbn [bind firsts]; reflexivity.
      * rewrite Kf || idtac. destruct K as [ -> | -> ]; apply w_text; apply writes_app; try (rewrite <- (app_nil_r (L ")")); apply w_text; constructor);
          change (spaced [b]) with (IText (L " ") :: [INode b]); apply w_text; exact W.
    + split; [|reflexivity]. cbn [render]. rewrite Hk. repeat rewrite <- app_assoc. cbn [app]. apply puts_l.
      change (word (if fa then "forall" else "exists") :: ?z) with ([word (if fa then "forall" else "exists")] ++ z).
      apply (puts_app (L (if fa then "forall" else "exists"))); [apply puts_tok; destruct fa; wordspell| |left; unfold wsC; cbn; tauto|discriminate].
      cbn [L app]. apply puts_sp, puts_l. apply puts_app; [exact Pq| |cbn; tauto|discriminate].
      apply puts_r, puts_sp. apply puts_app; [exact P|apply puts_r, puts_nil|cbn; tauto|discriminate].
    + intros c. apply (d_quant x g false c r fa vv ss e b c).
      * unfold vv. clear -HS Fk HL. revert ss sos HL HS. induction Fk as [|n0 k0 ns ks K F IH]; intros [|s ss] sos HL HS; try discriminate; inversion HS; subst; cbn [combine]; [constructor|].
        constructor; [|apply IH; [now injection HL|assumption]]. cbn [fst snd]. split; [now apply spells_tok in K|]. destruct (sort_back_ok g _ _ H1) as (? & _ & X & _). exact X.
      * rewrite Nv, Qv. apply Dn.
      * rewrite Qv, Kf. exact O.
    + intros D. cbn [scoped]. rewrite Nv. rewrite nodupb_of by exact ND. cbn [andb].
      replace (forallb _ ns) with true.
      * rewrite map_app in Sc. assert (map fst (combine ns vs) = ns) as E1.
        { assert (length ns = length vs) as HLv by (unfold vs; rewrite map_length, combine_length, <- HL; lia). clear -HLv. revert HLv. generalize vs. induction ns as [|v l IH]; intros [|u m] H; try discriminate; [reflexivity|]. cbn. f_equal. apply IH. now injection H. }
        rewrite E1 in Sc. apply Sc.
      * symmetry. apply forallb_forall. intros v Hv. destruct (HN v Hv) as (T1 & T2 & A & Fn). rewrite (assoc_mem _ _ A), Fn. unfold unboundable. rewrite (seqs_no _ _ T1), (seqs_no _ _ T2). reflexivity.
Qed.
End Main.

Theorem round_trip x g t : top_state x g -> x_file x = false -> rt x g [] t ->
  exists s g', dumpSMTLIB2 (c_dbg (x_c x)) t = Ok s /\ mkExpr x g s = Ok (t, g') /\ top_state x g' /\ same_decls g g' /\ p_ctr g' = p_ctr g.
Proof.
  intros Ht Hf H. destruct (rt_back x g (c_dbg (x_c x)) (S (tsize t)) t [] (Nat.lt_succ_diag_r _) H) as (e & a & W & (P & _) & Dn & Sc).
  specialize (P [] [] Logic.I (lx_nil _)). rewrite !app_nil_r in P.
  destruct (mk_expr_ok x g e t (p_ctr g) a Ht (Dn _) (Sc []) P Hf) as (g' & E & T' & C & S). exists a, g'. split; [now apply writes_dump|]. repeat split; try assumption; apply T' || apply S.
Qed.
