(** The parser on a literal in scientific notation. *)
From Coq Require Import QArith Qcanon Lia.
From Verif Require Import Base UtilModel UtilSpec UtilProofs UtilProofs2 BVProofs BVProofs2 SciModel Sem OpProofs SciSpec SciProofs SciProofs2
  SortModel TermModel SimpModel OpModel LexModel LexSpec LexProofs ParseModel ParseSpec ParseProofs ParseProofs2 ParseLits.
Open Scope Z_scope.

Lemma means_digit s m n v : sci_means s m n v -> exists c, In c s /\ digitC c.
Proof. intros (a & e & ex & -> & _ & _ & (c & Hc & D) & _). exists c. split; [apply in_or_app; now left|exact D]. Qed.
Lemma digit_word s w : (exists c, In c s /\ digitC c) -> forallb (fun c => negb (isdigit c)) (L w) = true -> seqs s w = false.
Proof.
  intros (c & Hc & D) F. destruct (seqs s w) eqn:E; [|reflexivity]. exfalso. apply seq_str_spec in E. rewrite E in Hc.
  rewrite forallb_forall in F. specialize (F c Hc). apply isdigit_spec in D. rewrite D in F. discriminate.
Qed.
Lemma means_kinds s m n v : sci_means s m n v -> isInt s = false /\ isReal s = false /\ isScientificNotation s = true.
Proof.
  intros (a & e & ex & -> & He & Hm & Hd & Hx & _). pose proof (real_val_isReal a m Hm) as R.
  assert (Re : isReal (a ++ e :: ex) = false).
  { destruct (isReal (a ++ e :: ex)) eqn:E; [|reflexivity]. exfalso. pose proof (real_not_e _ E e ltac:(apply in_elt)) as H. destruct He as [ -> | -> ]; discriminate. }
  split; [|split; [exact Re|now apply (sci_is_sci a e ex n m)]].
  destruct (isInt (a ++ e :: ex)) eqn:E; [|reflexivity]. exfalso. destruct a as [|c a]; [discriminate|].
  cbn [app isInt] in E. apply andb_true_iff in E. destruct E as [_ E]. rewrite forallb_forall in E.
  specialize (E e ltac:(apply in_elt)). destruct He as [ -> | -> ]; discriminate.
Qed.
Lemma lit_sci x s m n v : x_sci x = sci -> sci_means s m n v -> isReal (sci s) = true -> lit_of x s (mkConstReal (sci s)).
Proof.
  intros Hs M R. destruct (means_kinds s m n v M) as (K1 & K2 & K3). pose proof (means_digit s m n v M) as D.
  assert (W : forall w, forallb (fun c => negb (isdigit c)) (L w) = true -> seqs s w = false) by (intros w; now apply digit_word).
  eexists. unfold pconst. rewrite !W by reflexivity. rewrite K1, K2, K3, Hs. cbn [orb]. unfold pConstReal.
  rewrite R. cbn [orb]. rewrite !(not_word isReal _ _ R) by reflexivity. rewrite condAssert_true. cbn [bind]. reflexivity.
Qed.

(** ** reading the text *)
Lemma digit_ndelim c : digitC c -> ~ delimC c.
Proof.
  unfold digitC, delimC. intros D [H|[H|H]].
  - unfold wsC, code in H. cbn [In] in H. lia.
  - cbn [In] in H. unfold quoteC in H. repeat (destruct H as [H|H]; [rewrite <- H in D; cbn in D; lia|]). contradiction.
  - rewrite H in D. cbn in D. lia.
Qed.
Lemma ndelim_lit c : (c = "-" \/ c = "+" \/ c = "." \/ c = "E" \/ c = "e")%char -> ~ delimC c.
Proof. intros [ -> |[ -> |[ -> |[ -> | -> ]]]]; unfold delimC, wsC, nul, quoteC; cbn; intuition discriminate. Qed.
Lemma real_chars a m : real_val a = Some m -> Forall (fun c => ~ delimC c) a.
Proof.
  assert (B : forall s q, udecimal s q -> Forall (fun c => ~ delimC c) s).
  { intros s q [ds N F|ds es F G].
    - eapply Forall_impl; [|exact F]. intros. now apply digit_ndelim.
    - apply Forall_app. split; [eapply Forall_impl; [|exact F]; intros; now apply digit_ndelim|].
      constructor; [apply ndelim_lit; tauto|]. eapply Forall_impl; [|exact G]; intros; now apply digit_ndelim. }
  intros H. apply real_val_inv in H. destruct H as [(q & U & _)|(r & q & -> & U & _)]; [now apply (B a q)|].
  constructor; [apply ndelim_lit; tauto|now apply (B r q)].
Qed.
Lemma signed_nd ex n : signed_int ex n -> Forall (fun c => ~ delimC c) ex.
Proof.
  intros H. destruct (signed_chars ex n H) as [_ F]. eapply Forall_impl; [|exact F].
  intros c [D|[ -> | -> ]]; [now apply digit_ndelim|apply ndelim_lit; tauto|apply ndelim_lit; tauto].
Qed.
(** characters that delimit nothing are taken in every state *)
Lemma sym_plain file w rest : Forall (fun c => ~ delimC c) w -> forall sci open lv acc, exists sci',
  sym_loop file sci open lv acc (w ++ rest) = sym_loop file sci' open lv (acc ++ w) rest /\ (sci = true -> sci' = true).
Proof.
  induction 1 as [|c w Hc _ IH]; intros sci open lv acc; cbn [app].
  - exists sci. rewrite app_nil_r. split; [reflexivity|auto].
  - destruct (ndelim c Hc) as (H1 & H2 & H3 & H4 & H5 & H6 & H7 & H8).
    cbn [sym_loop]. rewrite H1, H2. rewrite !(proj2 (aeq_false _ _)) by assumption. cbn [orb andb].
    destruct (sci || sci_start acc) eqn:Es.
    + destruct (IH true open lv (acc ++ [c])) as (b & -> & Hb). exists b. rewrite <- app_assoc. split; [reflexivity|auto].
    + destruct (IH false open lv (acc ++ [c])) as (b & -> & Hb). exists b. rewrite <- app_assoc. split; [reflexivity|].
      intros ->. discriminate.
Qed.
Lemma start_sci a e m : real_val a = Some m -> (e = "E"%char \/ e = "e"%char) -> sci_start (a ++ [e]) = true.
Proof.
  intros Hm He. pose proof (real_val_isReal a m Hm) as R. unfold sci_start.
  rewrite (find_e_pre a e [] (real_not_e a R) He 0). cbn [Nat.add].
  rewrite firstn_app, firstn_all, Nat.sub_diag. cbn [firstn]. rewrite app_nil_r, R, app_length. cbn [length].
  destruct a; [discriminate|]. cbn [length]. rewrite !andb_true_r. replace (_ =? _)%nat with true; [reflexivity|].
  symmetry. apply Nat.eqb_eq. lia.
Qed.
(** an exponent in parentheses: the symbol ends with the closing parenthesis, whatever follows *)
Lemma sym_par file a e r n m t c w : real_val a = Some m -> (e = "E"%char \/ e = "e"%char) -> signed_int r n ->
  a ++ e :: "("%char :: r ++ [")"%char] = c :: w ->
  sym_loop file false false 0 [c] (w ++ t) = Ok (c :: w, scan t).
Proof.
  intros Hm He Hr E. destruct a as [|c' a]; [discriminate|]. cbn [app] in E. injection E as -> <-.
  pose proof (real_chars _ _ Hm) as F. inversion F as [|? ? _ Fa]; subst.
  replace ((a ++ e :: "("%char :: r ++ [")"%char]) ++ t) with ((a ++ [e]) ++ "("%char :: r ++ ")"%char :: t)
    by (rewrite <- !app_assoc; cbn [app]; now rewrite <- !app_assoc).
  assert (Fe : Forall (fun c => ~ delimC c) (a ++ [e])).
  { apply Forall_app. split; [exact Fa|]. constructor; [apply ndelim_lit; tauto|constructor]. }
  destruct (sym_plain file (a ++ [e]) ("("%char :: r ++ ")"%char :: t) Fe false false 0 [c]) as (b & -> & _).
  cbn [sym_loop]. rewrite app_assoc. change ([c] ++ a) with (c :: a). rewrite (start_sci (c :: a) e m Hm He), orb_true_r.
  change (aeq "(" nul) with false. change (aeq "(" lpar) with true. cbv iota.
  destruct (sym_plain file r (")"%char :: t) (signed_nd r n Hr) true true (0 + 1) (((c :: a) ++ [e]) ++ ["("%char])) as (b' & E' & Hb').
  rewrite E'. cbn [sym_loop]. rewrite (Hb' eq_refl). change (aeq ")" nul) with false. change (aeq ")" lpar) with false. change (aeq ")" rpar) with true.
  cbn [orb andb]. change (0 + 1 - 1 =? 0) with true. cbv iota. rewrite <- !app_assoc. reflexivity.
Qed.
(** an exponent without parentheses, at the end of the text *)
Lemma sym_end a e ex n m c w : real_val a = Some m -> (e = "E"%char \/ e = "e"%char) -> signed_int ex n ->
  a ++ e :: ex = c :: w -> sym_loop false false false 0 [c] w = Ok (c :: w, scan []).
Proof.
  intros Hm He Hx E. pose proof (real_chars _ _ Hm) as F.
  assert (G : Forall (fun c => ~ delimC c) (c :: w)).
  { rewrite <- E. apply Forall_app. split; [exact F|]. constructor; [apply ndelim_lit; tauto|]. now apply (signed_nd ex n). }
  inversion G as [|? ? _ Gw]; subst. destruct (sym_plain false w [] Gw false false 0 [c]) as (b & Eq & _).
  rewrite app_nil_r in Eq. rewrite Eq. reflexivity.
Qed.
Lemma means_first s m n v : sci_means s m n v -> exists c w, s = c :: w /\ ~ delimC c.
Proof.
  intros (a & e & ex & -> & _ & Hm & _). pose proof (real_chars _ _ Hm) as F. destruct a as [|c a]; [discriminate|].
  exists c, (a ++ e :: ex). split; [reflexivity|]. now inversion F.
Qed.
(** the whole text is the literal *)
Lemma sym_whole s m n v c w : sci_means s m n v -> s = c :: w -> sym_loop false false false 0 [c] w = Ok (c :: w, scan []).
Proof.
  intros (a & e & ex & E & He & Hm & Hd & Hx & _) Es. subst s. destruct Hx as [Hx|(r & -> & Hx)].
  - symmetry in Es. apply (sym_end a e ex n m); congruence.
  - pose proof (sym_par false a e r n m [] c w Hm He Hx ltac:(congruence)) as P. now rewrite app_nil_r in P.
Qed.
Lemma mkExpr_sci x p s m n v : x_sci x = sci -> x_file x = false -> top_state x p -> sci_means s m n v ->
  isReal (sci s) = true -> declared p s = None -> mkExpr x p s = Ok (mkConstReal (sci s), p).
Proof.
  intros Hs Hf T M R Hd. destruct (means_first s m n v M) as (c & w & E & Nc). pose proof (sym_whole s m n v c w M E) as Sy.
  pose proof (means_digit s m n v M) as D. destruct (means_kinds s m n v M) as (K1 & K2 & K3). unfold mkExpr. rewrite E at 1.
  change (match c :: w with [] => _ | _ :: _ => ?X end) with X.
  assert (Sc : scan s = Lx s SM_SYMBOL) by (rewrite E; now apply scan_word). rewrite Sc.
  change (pexpr_fuel _) with (4 * length s + 4)%nat. replace (4 * length s + 4)%nat with (S (4 * length s + 3)) by lia.
  cbn [pexpr]. unfold atc. cbn [sl]. unfold cur. cbn [txt]. rewrite E at 1. cbv iota.
  assert (Np : aeq c lpar = false). { apply aeq_false. intros ->. apply Nc. right. left. now left. }
  rewrite Np. cbn [negb]. unfold sym. cbn [sl sp]. unfold getSymbol. cbn [txt md]. rewrite E at 1. cbv iota.
  rewrite Hf, Sy. cbn [bind fst snd]. rewrite <- E.
  assert (W : forall w, forallb (fun c => negb (isdigit c)) (L w) = true -> seqs s w = false) by (intros u; now apply digit_word).
  assert (Pn : pname x s (CS p (scan [])) = Ok (mkConstReal (sci s), CS p (scan []))).
  { unfold pname. rewrite !W by reflexivity. cbn [sp]. rewrite (ts_aph _ _ T).
    destruct (top_base x p T) as [B N]. rewrite (lookup_free x p false (p_ctr p) [] [] p s B N eq_refl) by discriminate. rewrite Hd.
    unfold pconst. rewrite !W by reflexivity. rewrite K1, K2, K3, Hs. cbn [orb]. unfold pConstReal.
    rewrite R. cbn [orb]. rewrite !(not_word isReal _ _ R) by reflexivity. rewrite condAssert_true. reflexivity. }
  rewrite Pn. reflexivity.
Qed.
