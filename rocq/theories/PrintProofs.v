(** Proofs about the printer: the loop ends, and what it writes for the terms of PrintSpec.v
    spells an expression that stands for the term. *)
From Verif Require Import Base LexSpec LexProofs KindModel SortModel TermModel UtilModel BVProofs2 SemProofs SimpModel OpModel LexModel
  ParseModel ParseSpec ParseProofs ParseProofs2 DagProofs OpProofs PrintModel PrintSpec.
Open Scope Z_scope.

(** the names in the printer's cache *)
Lemma print_cache k : cache_name k = kindToString k.
Proof. destruct k; reflexivity. Qed.

(** ** the loop *)
Definition wI (i : item) : nat := match i with INode t => 12 * tsize t - 5 | IText _ => 1 end.
Definition wL (l : list item) : nat := fold_right (fun i a => wI i + a)%nat O l.
Lemma wL_app a b : wL (a ++ b) = (wL a + wL b)%nat.
Proof. unfold wL. induction a; cbn; [reflexivity|]. rewrite IHa. lia. Qed.
Lemma wL_cons i l : wL (i :: l) = (wI i + wL l)%nat. Proof. reflexivity. Qed.
Lemma tsize_pos t : (1 <= tsize t)%nat. Proof. destruct t; cbn; lia. Qed.
Definition tsL (l : list term) : nat := fold_right (fun x a => tsize x + a)%nat O l.
Lemma tsL_cons t l : tsL (t :: l) = (tsize t + tsL l)%nat. Proof. reflexivity. Qed.
Lemma tsL_app a b : tsL (a ++ b) = (tsL a + tsL b)%nat.
Proof. unfold tsL. induction a; cbn; [reflexivity|]. rewrite IHa. lia. Qed.
Lemma tsL_len l : (length l <= tsL l)%nat.
Proof. induction l as [|t l IH]; [cbn; lia|]. cbn. fold (tsL l). pose proof (tsize_pos t). lia. Qed.
Lemma firsts_ok n : forall ch c, firsts n ch = Ok c -> c = firstn n ch /\ length c = n.
Proof.
  induction n; intros ch c E; cbn in E; [injection E as <-; split; reflexivity|].
  destruct ch as [|a ch]; [discriminate|]. destruct (firsts n ch) eqn:F; try discriminate. injection E as <-.
  destruct (IHn _ _ F) as [-> HL]. split; [reflexivity|]. cbn. now rewrite HL.
Qed.
Lemma tsL_firstn n ch : (tsL (firstn n ch) <= tsL ch)%nat.
Proof. rewrite <- (firstn_skipn n ch) at 2. rewrite tsL_app. lia. Qed.
Lemma tsL_skipn n ch : (tsL (skipn n ch) <= tsL ch)%nat.
Proof. rewrite <- (firstn_skipn n ch) at 2. rewrite tsL_app. lia. Qed.
Lemma tsL_split n ch : (tsL (firstn n ch) + tsL (skipn n ch) = tsL ch)%nat.
Proof. rewrite <- tsL_app. now rewrite firstn_skipn. Qed.
Lemma tsL_tl ch : (tsL (tl ch) <= tsL ch)%nat.
Proof. destruct ch; cbn; [lia|]. fold (tsL ch). lia. Qed.
Lemma tsL_rev l : tsL (rev l) = tsL l.
Proof. induction l as [|a l IH]; [reflexivity|]. cbn [rev]. rewrite tsL_app, IH. cbn. fold (tsL l). lia. Qed.
Lemma w_spaced ch : (wL (spaced ch) + 4 * length ch <= 12 * tsL ch)%nat.
Proof.
  induction ch as [|t ch IH]; [cbn; lia|]. change (spaced (t :: ch)) with (sp1 :: INode t :: spaced ch). rewrite !wL_cons, tsL_cons. cbn [wI sp1 txti length].
  pose proof (tsize_pos t). lia.
Qed.
Lemma w_napp op ch : (wL (napp op ch) <= 12 * tsL ch + 2)%nat.
Proof. unfold napp. rewrite wL_cons, wL_app. cbn [wI close txti wL fold_right]. pose proof (w_spaced ch). lia. Qed.
Lemma w_iapp op ix ch : (wL (iapp op ix ch) <= 12 * (tsL ix + tsL ch) + 3)%nat.
Proof.
  unfold iapp. rewrite wL_cons, wL_app, wL_cons, wL_app. cbn [wI close txti wL fold_right]. pose proof (w_spaced ch). pose proof (w_spaced ix). lia.
Qed.
Lemma w_fapp op ch : (wL (fapp op ch) <= 12 * tsL ch + 2)%nat.
Proof. unfold fapp. destruct ch; [cbn; lia|]. apply w_napp. Qed.
Lemma child0_size t u : child0 t = Ok u -> (tsize u < tsize t)%nat.
Proof. destruct t as [k s n [|a ch]]; cbn; intros E; [discriminate|]. injection E as <-. lia. Qed.
Lemma w_lbinds vs : forall b l, lbinds b vs = Ok l -> (wL l <= 12 * tsL vs)%nat.
Proof.
  induction vs as [|v vs IH]; intros b l E; cbn [lbinds] in E; [injection E as <-; cbn; lia|].
  destruct (child0 v) as [e| | | | |] eqn:C; try discriminate. cbn [bind] in E. destruct (lbinds false vs) as [r| | | | |] eqn:F; try discriminate.
  cbn [bind] in E. injection E as <-. pose proof (IH _ _ F). pose proof (child0_size _ _ C). pose proof (tsize_pos e).
  rewrite tsL_cons. destruct b; cbn [app]; rewrite !wL_cons; cbn [wI sp1 txti close]; lia.
Qed.
Lemma w_lchain d ls : forall l, lchain d ls = Ok l -> (wL l + 2 * length ls <= 12 * tsL ls)%nat.
Proof.
  induction ls as [|v ls IH]; intros l E; cbn [lchain] in E; [injection E as <-; cbn; lia|].
  destruct (condAssert d _); try discriminate. cbn [bind] in E.
  destruct (lbinds true (t_ch v)) as [b| | | | |] eqn:C; try discriminate. cbn [bind] in E. destruct (lchain d ls) as [r| | | | |] eqn:F; try discriminate.
  cbn [bind] in E. injection E as <-. pose proof (IH _ eq_refl). pose proof (w_lbinds _ _ _ C).
  rewrite wL_cons, wL_app, wL_cons, tsL_cons. cbn [wI txti length].
  destruct v as [k s n ch]. cbn [t_ch] in *. cbn [tsize]. fold (tsL ch). lia.
Qed.
Lemma w_close {A} (l : list A) : wL (map (fun _ => close) l) = length l.
Proof. induction l; cbn; [reflexivity|]. now f_equal. Qed.
Lemma removelast_last_size ch : ch <> [] -> tsL ch = (tsL (removelast ch) + tsize (last ch NULLT))%nat.
Proof. intros N. rewrite (app_removelast_last NULLT N) at 1. rewrite tsL_app. cbn. lia. Qed.
Lemma len_removelast {A} (l : list A) : length (removelast l) = pred (length l).
Proof. induction l as [|a [|b l] IH]; try reflexivity. cbn [removelast length] in *. rewrite IH. reflexivity. Qed.

Lemma Ok_inj {A} (a b : A) : Ok a = Ok b -> a = b. Proof. congruence. Qed.
Lemma visit_small d t l : visit d t = Ok l -> (wL l < wI (INode t))%nat.
Proof.
  destruct t as [k s nm ch]. intros E. cbn [wI tsize]. fold (tsL ch).
  assert (A0 : forall n c op, firsts n ch = Ok c -> (wL (napp op c) < 12 * S (tsL ch) - 5)%nat).
  { intros n c op F. apply firsts_ok in F as [-> _]. pose proof (w_napp op (firstn n ch)). pose proof (tsL_firstn n ch). lia. }
  assert (A1 : forall op, (wL (napp op ch) < 12 * S (tsL ch) - 5)%nat) by (intros op; pose proof (w_napp op ch); lia).
  assert (A2 : forall n c op i j, firsts n ch = Ok c -> (tsL i + tsL j <= tsL c)%nat -> (wL (iapp op i j) < 12 * S (tsL ch) - 5)%nat).
  { intros n c op i j F H. apply firsts_ok in F as [-> _]. pose proof (w_iapp op i j). pose proof (tsL_firstn n ch). lia. }
  assert (A3 : forall x : str, (wL [IText x] < 12 * S (tsL ch) - 5)%nat) by (intros; cbn; lia).
  assert (T0 : forall c : list term, (tsL (tl c) + tsL (firstn 1 c) <= tsL c)%nat).
  { intros [|a c]; [cbn; lia|]. cbn. fold (tsL c). lia. }
  assert (T1 : forall c : list term, (tsL (skipn 2 c) + tsL (firstn 2 c) <= tsL c)%nat) by (intros c; pose proof (tsL_split 2 c); lia).
  assert (T2 : forall c : list term, (tsL (firstn 2 c) + tsL (skipn 2 c) <= tsL c)%nat) by (intros c; pose proof (tsL_split 2 c); lia).
  assert (S1 : forall c z n, firsts n ch = Ok c -> (wL (IText z :: spaced c ++ [close]) < 12 * S (tsL ch) - 5)%nat).
  { intros c z n F. apply firsts_ok in F as [-> _]. rewrite wL_cons, wL_app.
    pose proof (w_spaced (firstn n ch)). pose proof (tsL_firstn n ch). cbn. lia. }
  destruct k; cbn [visit] in E;
  first
  [ apply Ok_inj in E; subst l; first [apply A1|apply A3|(pose proof (w_fapp nm ch); lia)|(pose proof (w_fapp nm (tl ch)); pose proof (tsL_tl ch); lia)]
  | (destruct (firsts _ ch) as [c| | | | |] eqn:F; try discriminate E; cbn [bind] in E; apply Ok_inj in E; subst l;
     first [eapply A0; exact F | eapply A2; [exact F|first [apply T0|apply T1|apply T2]]])
  | (destruct ch; apply Ok_inj in E; subst l; first [apply A1|apply A3])
  | idtac ].
  - (* const *) destruct (seqs nm _ && _); apply Ok_inj in E; subst l; [apply A1|apply A3].
  - (* const array *) destruct (sort_str s) as [a| | | | |]; try discriminate. cbn [bind] in E. destruct (firsts 1 ch) as [c| | | | |] eqn:F; try discriminate.
    cbn [bind] in E. apply Ok_inj in E; subst l. eapply S1; exact F.
  - (* to_fp *) destruct (firsts 2 ch) as [c| | | | |] eqn:F; try discriminate. cbn [bind] in E. destruct (_ || _); apply Ok_inj in E; subst l; [|apply A3].
    apply firsts_ok in F as [-> _]. pose proof (w_iapp (L "to_fp") (firstn 2 ch) (skipn 2 ch)). pose proof (tsL_split 2 ch). lia.
  - (* let *) destruct (condAssert d _); try discriminate. cbn [bind] in E. destruct (firsts 1 ch) as [c| | | | |] eqn:F; try discriminate. cbn [bind] in E.
    destruct (lbinds true (tl ch)) as [b| | | | |] eqn:B; try discriminate. cbn [bind] in E. apply Ok_inj in E; subst l.
    apply w_lbinds in B. apply firsts_ok in F as [-> F]. destruct ch as [|a0 ch]; [discriminate F|].
    cbn [firstn tl] in *. rewrite wL_cons, wL_app, wL_cons, tsL_cons. cbn [wI close txti wL fold_right spaced flat_map app sp1]. pose proof (tsize_pos a0). lia.
  - (* chain *) destruct ch as [|a ch]; [discriminate|]. set (cc := a :: ch) in *. destruct (lchain d (removelast cc)) as [b| | | | |] eqn:B; try discriminate. cbn [bind] in E.
    apply Ok_inj in E; subst l. apply w_lchain in B. rewrite wL_app, wL_cons, w_close. cbn [wI].
    rewrite (removelast_last_size cc) by discriminate. pose proof (tsize_pos (last cc NULLT)). lia.
  - (* list *) destruct (lbinds true (tl ch)) as [b| | | | |] eqn:B; try discriminate. cbn [bind] in E. apply Ok_inj in E; subst l. apply w_lbinds in B. pose proof (tsL_tl ch).
    rewrite wL_cons, wL_app. cbn -[Nat.mul]. lia.
  - (* forall *) destruct (qvars true (tl ch)) as [q| | | | |]; try discriminate. cbn [bind] in E. destruct (firsts 1 ch) as [c| | | | |] eqn:F; try discriminate.
    cbn [bind] in E. apply Ok_inj in E; subst l. eapply S1; exact F.
  - destruct (qvars true (tl ch)) as [q| | | | |]; try discriminate. cbn [bind] in E. destruct (firsts 1 ch) as [c| | | | |] eqn:F; try discriminate.
    cbn [bind] in E. apply Ok_inj in E; subst l. eapply S1; exact F.
  - (* root of *) destruct (rev ch) as [|u [|v co]] eqn:R; try discriminate. apply Ok_inj in E; subst l.
    assert (tsL ch = (tsize u + (tsize v + tsL co)))%nat as -> by (rewrite <- tsL_rev, R; reflexivity).
    rewrite wL_cons, wL_app, wL_cons, wL_app. cbn [wI close txti wL fold_right]. pose proof (w_spaced [v; u]) as W2. cbn [tsL fold_right length] in W2.
    pose proof (w_spaced (rev co)). rewrite tsL_rev in *. 
    pose proof (tsize_pos u). pose proof (tsize_pos v). lia.
  - (* algebraic *) destruct (firsts 3 ch) as [c| | | | |] eqn:F; try discriminate. cbn [bind] in E. destruct c as [|p [|q [|r [|]]]]; try discriminate. apply Ok_inj in E; subst l.
    apply firsts_ok in F as [F _]. pose proof (tsL_firstn 3 ch) as H. rewrite <- F in H. cbn in *. pose proof (tsize_pos p). pose proof (tsize_pos q). pose proof (tsize_pos r). lia.
Qed.

Lemma loop_ends d : forall n work out, (wL work < n)%nat -> dumpLoop n d work out <> NoFuel.
Proof.
  induction n; intros work out H; [lia|]. cbn [dumpLoop]. destruct work as [|[t|s] w]; [discriminate| |].
  - destruct (visit d t) as [its| | | | |] eqn:V; try discriminate; cbn [bind].
    + apply IHn. rewrite wL_app. rewrite wL_cons in H. apply visit_small in V. lia.
    + exfalso. clear -V. destruct t as [k s nm ch].
      assert (F : forall n c, firsts n c <> NoFuel). { induction n; intros [|a c]; cbn; try discriminate. specialize (IHn c). destruct (firsts n c); try discriminate. congruence. }
      assert (Lb : forall vs b, lbinds b vs <> NoFuel).
      { induction vs; intros b; cbn; try discriminate. destruct a as [? ? ? [|]]; cbn; try discriminate. specialize (IHvs false). destruct (lbinds false vs); cbn; try discriminate. congruence. }
      assert (Lc : forall ls, lchain d ls <> NoFuel).
      { induction ls as [|a ls IHls]; cbn [lchain]; try discriminate. assert (Ca : forall b, condAssert d b <> NoFuel) by (intros b; unfold condAssert; destruct d, b; discriminate).
        specialize (Ca (isk NT_LET_BIND_VAR_LIST a)). destruct (condAssert d _); cbn [bind]; try discriminate; [|congruence].
        specialize (Lb (t_ch a) true). destruct (lbinds true (t_ch a)); cbn [bind]; try discriminate; [|congruence]. destruct (lchain d ls); cbn; try discriminate; congruence. }
      assert (Ss : forall s, sort_str s <> NoFuel).
      { fix IH 1. intros [k0 n0 a0 l0]. destruct k0; cbn; try discriminate; destruct l0 as [|u [|v l0]]; try discriminate.
        generalize (IH u), (IH v). destruct (sort_str u); cbn; try discriminate; try congruence. destruct (sort_str v); cbn; try discriminate; congruence. }
      assert (Qv : forall vs b, qvars b vs <> NoFuel).
      { induction vs; intros b; cbn; try discriminate. generalize (Ss (t_sort a)). destruct (sort_str (t_sort a)); cbn; try discriminate; try congruence. intros _. specialize (IHvs false). destruct (qvars false vs); cbn; try discriminate; congruence. }
      assert (Ca : forall b, condAssert d b <> NoFuel) by (intros b; unfold condAssert; destruct d, b; discriminate).
      pose proof (F 1%nat ch) as F1. pose proof (F 2%nat ch) as F2. pose proof (F 3%nat ch) as F3. pose proof (F 4%nat ch) as F4.
      pose proof (Lb (tl ch) true). pose proof (Lc (removelast ch)). pose proof (Ss s). pose proof (Qv (tl ch) true). pose proof (Ca (Nat.ltb 0 (length ch))).
      destruct k; cbn [visit] in V; repeat match type of V with
        | bind ?m _ = NoFuel => destruct m; cbn [bind] in V
        | (if ?b then _ else _) = NoFuel => destruct b
        | match ?l with [] => _ | _ => _ end = NoFuel => destruct l
        end; try discriminate V; try congruence.
  - apply IHn. rewrite wL_cons in H. cbn [wI] in H. lia.
Qed.
Theorem dump_ends d t : dumpSMTLIB2 d t <> NoFuel.
Proof. apply loop_ends. unfold dump_fuel. rewrite wL_cons. cbn [wL fold_right wI]. lia. Qed.
Lemma loop_mono d : forall n m work out, (n <= m)%nat -> dumpLoop n d work out <> NoFuel -> dumpLoop m d work out = dumpLoop n d work out.
Proof.
  induction n; intros m work out H N; [now contradict N|]. destruct m; [lia|]. cbn [dumpLoop] in *. destruct work as [|[t|s] w]; [reflexivity| |].
  - destruct (visit d t); try reflexivity. cbn [bind] in *. apply IHn; [lia|exact N].
  - apply IHn; [lia|exact N].
Qed.

(** ** what is written *)
Inductive writes (d : bool) : list item -> str -> Prop :=
| w_nil : writes d [] []
| w_text s l o : writes d l o -> writes d (IText s :: l) (s ++ o)
| w_node t its l a o : visit d t = Ok its -> writes d its a -> writes d l o -> writes d (INode t :: l) (a ++ o).
Lemma writes_loop d l o : writes d l o -> exists n, forall w out m, (n <= m)%nat -> dumpLoop m d (l ++ w) out = dumpLoop (m - n) d w (out ++ o).
Proof.
  induction 1 as [|s l o H (n & IH)|t its l a o V H1 (n1 & IH1) H2 (n2 & IH2)].
  - exists O. intros w out m _. now rewrite Nat.sub_0_r, app_nil_r.
  - exists (S n). intros w out m Hm. destruct m; [lia|]. cbn [app dumpLoop]. rewrite IH by lia. rewrite app_assoc. reflexivity.
  - exists (S (n1 + n2)). intros w out m Hm. destruct m; [lia|]. cbn [app dumpLoop]. rewrite V. cbn [bind]. rewrite IH1 by lia. rewrite IH2 by lia. rewrite app_assoc. f_equal. lia.
Qed.
Lemma writes_dump d t o : writes d [INode t] o -> dumpSMTLIB2 d t = Ok o.
Proof.
  intros H. destruct (writes_loop d _ _ H) as (n & E). unfold dumpSMTLIB2. set (m := Nat.max (S n) (dump_fuel t)).
  rewrite <- (loop_mono d (dump_fuel t) m) by (try apply dump_ends; lia). specialize (E [] [] m ltac:(lia)). cbn [app] in E. rewrite E.
  destruct (m - n)%nat eqn:Q; [lia|]. reflexivity.
Qed.
Lemma writes_app d l1 o1 l2 o2 : writes d l1 o1 -> writes d l2 o2 -> writes d (l1 ++ l2) (o1 ++ o2).
Proof. intros H. revert l2 o2. induction H; intros l2 o2 H2; cbn [app]; [exact H2| |]; rewrite <- app_assoc; econstructor; eauto. Qed.
Lemma writes_one d t its o : visit d t = Ok its -> writes d its o -> writes d [INode t] o.
Proof. intros V H. rewrite <- (app_nil_r o). apply (w_node d t its [] o []); auto. constructor. Qed.

(** ** spelling *)
Definition follow (u : str) : Prop := starts (fun c => wsC c \/ c = "("%char \/ c = ")"%char) u.
(** the text [a] spells the tokens [ks] whatever follows *)
Definition puts (a : str) (ks : list token) : Prop :=
  forall u vs, follow u -> lexes plain_word u vs -> lexes plain_word (a ++ u) (ks ++ vs).
Lemma spells_tok n k : spells n k -> raw k = n /\ is_tok k.
Proof. intros [w A B C|b A|b A]; (split; [reflexivity|split; discriminate]). Qed.
Lemma delim_follow u : follow u -> starts delimC u.
Proof. destruct u as [|c u]; cbn; [trivial|]. unfold delimC. cbn. intuition auto. Qed.
Lemma puts_tok n k : spells n k -> puts n [k].
Proof.
  intros [w A B C|b A|b A] u vs Hu H; cbn [app].
  - apply lx_word; auto; [now apply delim_follow|]. split; assumption.
  - rewrite <- app_assoc. cbn [app]. now apply lx_quoted.
  - rewrite <- app_assoc. cbn [app]. apply lx_string; auto. destruct u as [|c u]; [exact Logic.I|]. cbn in *. unfold wsC in Hu. cbn in Hu. intros ->. cbn in Hu.
    destruct Hu as [Hu|[Hu|Hu]]; try discriminate. lia.
Qed.
Lemma puts_app a b ks ls : puts a ks -> puts b ls -> follow b -> b <> [] -> puts (a ++ b) (ks ++ ls).
Proof.
  intros A B F N u vs Hu H. rewrite <- !app_assoc. apply A; [|now apply B]. destruct b; [congruence|exact F].
Qed.
Lemma puts_l a ks : puts a ks -> puts ("("%char :: a) (TL :: ks).
Proof. intros A u vs Hu H. cbn. apply lx_l. now apply A. Qed.
Lemma puts_nil : puts [] []. Proof. intros u vs _ H. exact H. Qed.
Lemma puts_r a ks : puts a ks -> puts (")"%char :: a) (TR :: ks).
Proof. intros A u vs Hu H. cbn. apply lx_r. now apply A. Qed.
Lemma puts_sp a ks : puts a ks -> puts (" "%char :: a) ks.
Proof. intros A u vs Hu H. cbn. apply lx_ws; [unfold wsC; cbn; tauto|]. now apply A. Qed.
Lemma puts_word (w : string) : L w <> [] -> forallb (fun c => negb (existsb (aeq c) [")"%char; "("%char; ";"%char; "|"%char; quoteC; nul] || existsb (Nat.eqb (code c)) [9;10;11;12;13;32]%nat)) (L w) = true ->
  no_sci (L w) [] -> spells (L w) (word w).
Proof.
  intros N F C. apply sp_word; auto. rewrite forallb_forall in F. apply Forall_forall. intros c Hc D. specialize (F c Hc). apply negb_true_iff, orb_false_iff in F as [F1 F2].
  assert (X : existsb (aeq c) [")"%char; "("%char; ";"%char; "|"%char; quoteC; nul] = true \/ existsb (Nat.eqb (code c)) [9;10;11;12;13;32]%nat = true); [|destruct X; congruence].
  assert (AR : forall a, aeq a a = true) by (intros a; unfold aeq; apply Ascii.eqb_refl).
  unfold delimC, wsC in D. cbn [In] in D. cbn [existsb]. destruct D as [D|[D|D]].
  - right. repeat (destruct D as [D|D]; [rewrite <- D; cbn; reflexivity|]). contradiction.
  - left. repeat (destruct D as [D|D]; [subst c; rewrite AR; rewrite ?orb_true_r; reflexivity|]). contradiction.
  - left. subst c. rewrite AR, ?orb_true_r. reflexivity.
Qed.
