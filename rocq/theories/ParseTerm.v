(** The parser terminates on every text: no function of ParseModel.v runs out of fuel
    except inside a term constructor. *)
From Verif Require Import Base LexSpec LexProofs KindModel SortModel TermModel UtilModel SimpModel OpModel LexModel
  ParseModel.
Open Scope Z_scope.

Definition ln (s : cs) : nat := length (txt (sl s)).
(** some call of a term constructor does not return *)
Definition stuck (x : pcfg) : Prop :=
  (exists k fa ps, oper_kind x k fa ps = NoFuel) \/ (exists f ps, x_apply x f ps = NoFuel)
  \/ (exists k ps, mkOper (x_c x) boolS k ps = NoFuel).
Section Term.
Context (x : pcfg).
Definition calls {A} (r : res A) : Prop := r = NoFuel -> stuck x.
Definition good {A} (n : nat) (r : res (A * cs)) : Prop :=
  calls r /\ forall a s', r = Ok (a, s') -> (ln s' < n)%nat.
Definition goodc (n : nat) (r : res cs) : Prop :=
  calls r /\ forall s', r = Ok s' -> (ln s' < n)%nat.
Lemma good_bind {A B} n m (r : res (A * cs)) (k : A * cs -> res (B * cs)) :
  good n r -> (forall a s', (ln s' < n)%nat -> good m (k (a, s'))) -> good m (bind r k).
Proof.
  intros [H1 H2] HK. destruct r as [[a s']| | | | |]; cbn [bind];
    try (split; [intros E; try discriminate; try (apply H1; reflexivity)|discriminate]).
  apply HK. now apply (H2 a).
Qed.
Lemma goodc_bind {B} n m (r : res cs) (k : cs -> res (B * cs)) :
  goodc n r -> (forall s', (ln s' < n)%nat -> good m (k s')) -> good m (bind r k).
Proof.
  intros [H1 H2] HK. destruct r as [s'| | | | |]; cbn [bind];
    try (split; [intros E; try discriminate; try (apply H1; reflexivity)|discriminate]).
  apply HK. now apply H2.
Qed.
Lemma pure_bind {A B} m (r : res A) (k : A -> res (B * cs)) :
  calls r -> (forall a, good m (k a)) -> good m (bind r k).
Proof.
  intros H HK. destruct r as [a| | | | |]; cbn [bind];
    try (split; [intros E; try discriminate; try (apply H; reflexivity)|discriminate]).
  apply HK.
Qed.
Lemma good_ok {A} n (a : A) s : (ln s < n)%nat -> good n (Ok (a, s)).
Proof. intros H. split; [discriminate|]. intros ? ? [= _ <-]. exact H. Qed.
Lemma good_bad {A} n (r : res (A * cs)) : r = Exit \/ r = UB -> good n r.
Proof. intros [-> | ->]; split; discriminate. Qed.
Lemma good_le {A} n m (r : res (A * cs)) : good n r -> (n <= m)%nat -> good m r.
Proof. intros [H1 H2] H. split; [exact H1|]. intros a s' E. specialize (H2 a s' E). lia. Qed.

Lemma ln_onp f s : ln (onp f s) = ln s. Proof. reflexivity. Qed.
Lemma ln_scanc s : (ln (scanc s) <= ln s)%nat. Proof. apply scan_len. Qed.
Lemma sym_good s : good (ln s) (sym x s).
Proof.
  unfold sym. destruct (txt (sl s)) as [|c t] eqn:E.
  - rewrite (proj2 (getSymbol_UB _ _ _) E). split; discriminate.
  - destruct (getSymbol_calm (c_dbg (x_c x)) (x_file x) (sl s)) as [C1 C2]; [congruence|].
    destruct (getSymbol _ _ _) as [[k l]| | | | |] eqn:G; cbn [bind]; try (split; [intros; congruence|discriminate]).
    split; [discriminate|]. intros a s' [= _ <-]. apply getSymbol_piece in G. unfold ln. cbn [sl].
    destruct G as (Hk & (g & G & _)). rewrite E in G. apply (f_equal (@length _)) in G. rewrite !app_length in G. rewrite E. destruct k; [congruence|]. cbn [length] in *. lia.
Qed.
Lemma lpar_good s : goodc (ln s) (lparc s).
Proof.
  unfold lparc, parseLpar, ln. destruct (txt (sl s)) as [|c r]; [split; discriminate|].
  destruct (aeq c lpar); cbn [bind]; [|split; discriminate]. split; [discriminate|]. intros s' [= <-].
  unfold ln. cbn [sl length]. pose proof (scan_len r). lia.
Qed.
Lemma rpar_good s : goodc (ln s) (rparc s).
Proof.
  unfold rparc, parseRpar, ln. destruct (txt (sl s)) as [|c r]; [split; discriminate|].
  destruct (aeq c rpar); cbn [bind]; [|split; discriminate]. split; [discriminate|]. intros s' [= <-].
  unfold ln. cbn [sl length]. pose proof (scan_len r). lia.
Qed.
Lemma skip1_len c s : (ln (skip1 c s) <= ln s)%nat.
Proof.
  unfold skip1. destruct (atc c s); [|lia]. unfold ln. cbn [sl]. destruct (txt (sl s)); [apply scan_len|].
  cbn [tl length]. pose proof (scan_len l). lia.
Qed.

(** ** calls that always return *)
Notation nf r := (r <> NoFuel).
Lemma nf_calls {A} (r : res A) : nf r -> calls r. Proof. intros H E. now apply H in E. Qed.
Lemma nf_bind {A B} (r : res A) (k : A -> res B) : nf r -> (forall a, nf (k a)) -> nf (bind r k).
Proof. intros H HK. destruct r; cbn [bind]; [apply HK|discriminate..|now destruct H]. Qed.
Lemma nf_cond d b : nf (condAssert d b).
Proof. unfold condAssert. destruct d, b; discriminate. Qed.
Lemma nf_foldM {A S} (f : S -> A -> res S) l : (forall s a, nf (f s a)) -> forall s, nf (foldM f s l).
Proof. intros H. induction l as [|a l IH]; intros s; cbn [foldM]; [discriminate|]. apply nf_bind; auto. Qed.
Lemma nf_int s : nf (Integer_of_str s).
Proof.
  assert (A : forall s a, nf (mpz_digits s a)).
  { induction s0 as [|c s0 IH]; intros a; cbn [mpz_digits]; [discriminate|].
    repeat match goal with |- nf (if ?b then _ else _) => destruct b end; auto; discriminate. }
  assert (B : forall s, nf (mpz_unsigned s)).
  { intros [|c t]; cbn [mpz_unsigned]; [discriminate|]. destruct (isdigit c); [apply A|discriminate]. }
  unfold Integer_of_str. destruct (skip_space s); [discriminate|].
  destruct (aeq _ _); [|apply B]. apply nf_bind; [apply B|discriminate].
Qed.
Ltac nfs := repeat first
  [ apply nf_int | apply nf_cond | apply nf_foldM; intros | apply nf_bind; [|intros]
  | match goal with |- nf (if ?b then _ else _) => destruct b end | discriminate ].
Lemma nf_nat d i n : nf (BVModel.natToBv_str d i n).
Proof.
  unfold BVModel.natToBv_str, BVModel.hexToBv, BVModel.decToBv, BVModel.natToBv, substr, toULong, mkstr. cbn zeta.
  nfs. destruct (BVModel.hex_digit _) as [[[[? ?] ?] ?]|]; nfs.
Qed.
Lemma nf_str v : nf (mkConstStr v). Proof. unfold mkConstStr, substr. nfs. Qed.
Lemma nf_stoi s : nf (stoi s). Proof. unfold stoi. destruct (strtol s); nfs. Qed.
Lemma nf_stoul s : nf (stoul s). Proof. unfold stoul. destruct (strtol s); nfs. Qed.
Lemma nf_creal v : nf (pConstReal x v). Proof. unfold pConstReal. nfs. Qed.
Lemma nf_bvof n : nf (bv_of n). Proof. unfold bv_of. apply nf_bind; [apply nf_stoi|discriminate]. Qed.
Lemma nf_fpof e g : nf (fp_of e g).
Proof. unfold fp_of. repeat (apply nf_bind; [apply nf_stoi|intros]). discriminate. Qed.
Lemma nf_sstr : forall t, nf (sort_str t).
Proof.
  fix IH 1. intros [k n a ch]. destruct k; cbn [sort_str]; try discriminate;
  destruct ch as [|c [|d ch]]; try discriminate; try (pose proof (IH c) as Hc); try (pose proof (IH d) as Hd);
  repeat (apply nf_bind; [assumption|intros]); try discriminate.
Qed.
Lemma nf_width t : nf (width t). Proof. unfold width. destruct (t_sort t) as [k n a ch]. cbn. nfs; destruct ch; discriminate. Qed.
Lemma nf_fpc a e m : nf (mkFpConst a e m).
Proof. unfold mkFpConst. repeat first [apply nf_width | apply nf_bind; [|intros] | match goal with |- nf (if ?b then _ else _) => destruct b end | discriminate]. Qed.
Lemma nf_carr t v : nf (mkConstArray t v). Proof. unfold mkConstArray. nfs. Qed.
Lemma nf_noerr t : nf (noerr t). Proof. unfold noerr. nfs. Qed.
Lemma nf_llist l : nf (mkLetList l). Proof. destruct l; discriminate. Qed.
Lemma nf_peek s : nf (peek x s).
Proof.
  unfold peek, peekSymbol. cbn zeta. set (l := if aeq _ _ then _ else _).
  destruct (txt l) eqn:E; [rewrite (proj2 (getSymbol_UB _ _ _) E); discriminate|].
  destruct (getSymbol_calm (c_dbg (x_c x)) (x_file x) l) as [_ C]; [congruence|].
  destruct (getSymbol _ _ l); cbn; congruence.
Qed.

Lemma cached_good key mk s : nf mk -> good (S (ln s)) (cached key mk s).
Proof.
  intros H. unfold cached. destruct (mget _ _); [apply good_ok; lia|].
  apply pure_bind; [now apply nf_calls|]. intros a. apply good_ok. rewrite ln_onp. lia.
Qed.
Lemma constbv_good v w s : good (S (ln s)) (pConstBv x v w s).
Proof.
  unfold pConstBv. eapply good_bind; [apply cached_good; discriminate|]. intros a s' H. cbn [fst snd].
  apply pure_bind; [apply nf_calls, nf_nat|]. intros b. apply good_ok. exact H.
Qed.
Lemma pconst_good v s r : pconst x v s = Some r -> good (S (ln s)) r.
Proof.
  unfold pconst. cbn zeta.
  assert (K : forall t, Some (Ok (t, s)) = Some r -> good (S (ln s)) r).
  { intros t [= <-]. apply good_ok. lia. }
  repeat (match goal with |- (if ?b then _ else _) = _ -> _ => destruct b end; [apply K|]).
  destruct (isInt v). { intros [= <-]. apply pure_bind; [apply nf_calls, nf_int|]. intros. apply good_ok. lia. }
  destruct (isReal v). { intros [= <-]. apply pure_bind; [apply nf_calls, nf_creal|]. intros. apply good_ok. lia. }
  destruct (isScientificNotation v). { intros [= <-]. apply pure_bind; [apply nf_calls, nf_creal|]. intros. apply good_ok. lia. }
  destruct (isBV v).
  { intros [= <-]. apply pure_bind; [|intros; apply constbv_good]. apply nf_calls. nfs. }
  destruct (isFP v); [intros [= <-]; apply good_bad; auto|].
  destruct (isString v). { intros [= <-]. apply pure_bind; [apply nf_calls, nf_str|]. intros. apply good_ok. lia. }
  repeat (match goal with |- (if ?b then _ else _) = _ -> _ => destruct b end; [apply K|]).
  discriminate.
Qed.
Lemma place_len nm s : ln (snd (mkPlaceholder nm s)) = ln s.
Proof. unfold mkPlaceholder. now destruct (mget _ _). Qed.
Lemma pname_good v s : good (S (ln s)) (pname x v s).
Proof.
  unfold pname. destruct (seqs v "true"); [apply good_ok; lia|]. destruct (seqs v "false"); [apply good_ok; lia|].
  destruct (if p_aph (sp s) then _ else _); [apply good_ok; lia|].
  destruct (lookup _ _ _); [apply good_ok; lia|].
  destruct (pconst x v s) eqn:E; [eapply pconst_good; eassumption|].
  destruct (_ && _); [|apply good_bad; auto].
  pose proof (place_len v s) as HP. destruct (mkPlaceholder v s) as [t s']. cbn [snd] in HP. apply good_ok. lia.
Qed.
Lemma oper_calls k fa ps : calls (oper_kind x k fa ps).
Proof. intros H. left. eauto. Qed.
Lemma arg_nf ps i : nf (arg ps i). Proof. unfold arg. destruct (nth_error ps i); discriminate. Qed.
Lemma parseOper_calls p nm fa ps : calls (parseOper x p nm fa ps).
Proof.
  unfold parseOper. destruct (mget _ _); [intros H; right; left; eauto|].
  destruct (seqs nm "root-obj"); [|apply oper_calls]. apply nf_calls.
  repeat first [apply nf_cond | apply arg_nf | apply nf_stoi | apply nf_bind; [|intros] | discriminate].
Qed.
Lemma apply_calls p nm ps : calls (apply_op x p nm ps).
Proof.
  unfold apply_op. destruct (fast_kind nm) as [k|]; [|apply parseOper_calls].
  destruct k; try apply oper_calls.
  unfold condAssert. destruct (c_dbg (x_c x)), (length ps =? 3)%nat; cbn [bind]; try (intros E; discriminate E); apply (oper_calls NT_ITE []).
Qed.

(** ** sorts *)
Ltac lens := repeat match goal with
  | |- context [ln (onp ?f ?s)] => rewrite (ln_onp f s)
  | H : context [ln (onp ?f ?s)] |- _ => rewrite (ln_onp f s) in H
  end;
  repeat match goal with
  | |- context [ln (scanc ?s)] => pose proof (ln_scanc s); generalize dependent (ln (scanc s)); intros
  | |- context [ln (skip1 ?c ?s)] => pose proof (skip1_len c s); generalize dependent (ln (skip1 c s)); intros
  end; try lia.
Ltac gstep := match goal with
  | |- good _ (bind (sym x _) _) => eapply good_bind; [apply sym_good|intros ? ? ?; cbn [fst snd]]
  | |- good _ (bind (lparc _) _) => eapply goodc_bind; [apply lpar_good|intros ? ?]
  | |- good _ (bind (rparc _) _) => eapply goodc_bind; [apply rpar_good|intros ? ?]
  | |- good _ (bind (cached _ _ _) _) => eapply good_bind; [apply cached_good|intros ? ? ?; cbn [fst snd]]
  | |- good _ (cached _ _ _) => eapply good_le; [apply cached_good|]
  | |- good _ (bind (noerr _) _) => apply pure_bind; [apply nf_calls, nf_noerr|intros]
  | |- good _ (bind (stoi _) _) => apply pure_bind; [apply nf_calls, nf_stoi|intros]
  | |- good _ (bind (stoul _) _) => apply pure_bind; [apply nf_calls, nf_stoul|intros]
  | |- good _ (bind (sort_str _) _) => apply pure_bind; [apply nf_calls, nf_sstr|intros]
  | |- good _ (bind (mkConstArray _ _) _) => apply pure_bind; [apply nf_calls, nf_carr|intros]
  | |- good _ (bind (mkFpConst _ _ _) _) => apply pure_bind; [apply nf_calls, nf_fpc|intros]
  | |- good _ (bind (parseOper _ _ _ _ _) _) => apply pure_bind; [apply parseOper_calls|intros]
  | |- good _ (bind (apply_op _ _ _ _) _) => apply pure_bind; [apply apply_calls|intros]
  | |- good _ (bind (pConstBv _ _ _ _) _) => eapply good_bind; [apply constbv_good|intros ? ? ?; cbn [fst snd]]
  | |- good _ Exit => apply good_bad; now left
  | |- good _ UB => apply good_bad; now right
  | |- good _ (Ok (_, _)) => apply good_ok; lens
  | |- good _ (if ?b then _ else _) => destruct b eqn:?
  end.
Lemma psorts_good rd n0 : (forall s, (ln s <= n0)%nat -> good (S (ln s)) (rd s)) ->
  forall n t s, (ln s <= n0)%nat -> good (S (ln s)) (psorts rd n t s).
Proof.
  intros H. induction n as [|n IH]; intros t s Hs; cbn [psorts]; [gstep|].
  eapply good_bind; [apply H; exact Hs|]. intros a s' Hl. cbn [fst snd].
  eapply good_le; [apply IH; lia|lia].
Qed.
Lemma psort_good : forall fuel s, (ln s < fuel)%nat -> good (S (ln s)) (psort fuel x s).
Proof.
  induction fuel as [|f IH]; intros s Hu; [lia|]. cbn [psort].
  gstep; [gstep|]. gstep.
  { gstep. destruct (mget _ basic_sorts); [gstep|]. destruct (mget _ _); gstep. }
  gstep. gstep.
  eapply (good_bind (ln s)); [|intros ? ? ?; cbn [fst snd]; gstep; gstep].
  gstep.
  { eapply good_bind; [apply IH; lia|]. intros ? ? ?. cbn [fst snd].
    eapply good_bind; [apply IH; lia|]. intros ? ? ?. cbn [fst snd]. gstep. gstep. gstep; [discriminate|lia]. }
  gstep; [gstep|].
  gstep.
  { eapply good_bind; [apply IH; lia|]. intros ? ? ?. cbn [fst snd]. gstep; gstep. }
  gstep.
  { gstep. gstep. { gstep. gstep; [apply nf_bvof|lia]. } gstep; [|gstep]. gstep. gstep. gstep; [apply nf_fpof|lia]. }
  destruct (mget _ basic_sorts); [gstep|]. destruct (mget _ _); [|gstep].
  eapply good_bind; [apply (psorts_good _ (ln s'0)); [intros; apply IH; lia|lia]|].
  intros ? ? ?. cbn [fst snd]. gstep.
Qed.

Lemma pvars_good : forall fuel s, (ln s < fuel)%nat -> good (S (ln s)) (pvars fuel x s).
Proof.
  induction fuel as [|f IH]; intros s Hu; [lia|]. cbn [pvars]. gstep; [gstep|]. gstep. gstep.
  eapply good_bind; [apply psort_good; unfold ln; lia|]. intros ? ? ?. cbn [fst snd].
  match goal with |- context [mkQuantVar ?n ?t ?c] => assert (E : ln (snd (mkQuantVar n t c)) = ln c) by
    (unfold mkQuantVar; now destruct (mget _ _)); destruct (mkQuantVar n t c) as [v s4] end. cbn [fst snd] in *.
  gstep. eapply good_bind; [apply IH; lia|]. intros ? ? ?. cbn [fst snd]. gstep.
Qed.
Lemma letvar_len nm t s : ln (snd (mkLetVar nm t s)) = ln s.
Proof. unfold mkLetVar. now destruct (mget _ _). Qed.
Lemma tryk_good s : good (S (ln s)) (tryKeyword x s).
Proof.
  unfold tryKeyword. destruct (atc _ s); [|gstep]. unfold parseKeyword. gstep.
  repeat (gstep; [gstep|]). gstep.
Qed.

Definition G (fuel : nat) : Prop :=
  (forall s, (3 * ln s + 1 <= fuel)%nat -> good (ln s) (pexpr fuel x s)) /\
  (forall nm s, (3 * ln s + 3 <= fuel)%nat -> good (ln s) (papp fuel x nm s)) /\
  (forall s, (3 * ln s + 2 <= fuel)%nat -> good (ln s) (pargs fuel x s)) /\
  (forall s, (3 * ln s + 3 <= fuel)%nat -> good (ln s) (plet fuel x s)) /\
  (forall s, (3 * ln s + 1 <= fuel)%nat -> good (S (ln s)) (pbinds fuel x s)) /\
  (forall r s, (3 * ln s + 2 <= fuel)%nat -> good (S (ln s)) (pbody fuel x r s)) /\
  (forall fa s, (3 * ln s + 1 <= fuel)%nat -> good (ln s) (pquant fuel x fa s)).
Ltac use H := eapply good_bind; [apply H; lens|intros ? ? ?; cbn [fst snd]; lens].
Lemma all_good : forall fuel, G fuel.
Proof.
  induction fuel as [|f (He & Ha & Hg & Hl & Hb & Hy & Hq)].
  { unfold G. repeat match goal with |- _ /\ _ => split end; intros; lia. }
  unfold G. repeat match goal with |- _ /\ _ => split end.
  - intros s Hf. cbn [pexpr]. gstep.
    { gstep. eapply good_bind; [apply pname_good|]. intros ? ? ?. cbn [fst snd]. gstep. gstep. }
    gstep. gstep.
    + gstep. gstep. cbn zeta. gstep.
      { gstep. use Hg. use Hg. gstep. gstep. gstep. }
      gstep.
      { gstep. gstep; [|gstep]. eapply good_bind; [apply psort_good; unfold ln; lia|]. intros ? ? ?. cbn [fst snd].
        gstep. use He. gstep. gstep. gstep. }
      gstep. { use He. gstep. gstep. gstep. gstep. }
      gstep; [|gstep]. gstep. gstep. use Hg. use He. use He. gstep. gstep.
    + gstep. cbn zeta. gstep.
      { use Hq. gstep. gstep. }
      gstep.
      { gstep. gstep. { gstep. gstep. gstep. gstep. gstep. }
        gstep. { gstep. gstep. gstep. gstep. gstep. gstep. }
        gstep. { gstep. match goal with |- context [mkPlaceholder ?n ?c] => pose proof (place_len n c) as E; destruct (mkPlaceholder n c) end.
          cbn [fst snd] in *. gstep. gstep. }
        gstep; [|eapply good_le; [apply Ha; lia|lia]].
        match goal with |- context [scanc (onp (set_aph true realS) ?c)] => assert (E : (ln (scanc (onp (set_aph true realS) c)) <= ln c)%nat) by exact (ln_scanc (onp (set_aph true realS) c));
          generalize dependent (scanc (onp (set_aph true realS) c)); intros s4 E end.
        eapply (good_bind (ln s)); [|intros ? ? ?; cbn [fst snd]; gstep; gstep].
        gstep.
        - pose proof (skip1_len "<"%char s4). use He.
          match goal with |- context [skip1 ?d (scanc ?c)] => assert (E2 : (ln (skip1 d (scanc c)) <= ln c)%nat) by (etransitivity; [apply skip1_len|apply ln_scanc]);
            generalize dependent (skip1 d (scanc c)); intros s5 E2 end.
          eapply (good_bind (ln s)).
          + gstep.
            * gstep. use He.
              match goal with |- context [skip1 ?d (scanc ?c)] => assert (E3 : (ln (skip1 d (scanc c)) <= ln c)%nat) by (etransitivity; [apply skip1_len|apply ln_scanc]);
                generalize dependent (skip1 d (scanc c)); intros s6 E3 end.
              use He. gstep. gstep.
            * use He. use He. gstep.
          + intros ? s6 ?. cbn [fst snd]. apply good_ok. pose proof (ln_scanc s6).
            destruct (atc ">"%char (scanc s6)); [|lia]. unfold ln in *. cbn [sl txt]. destruct (txt (sl (scanc s6))); cbn [tl length] in *; lia.
        - use He. use He. use He. gstep. }
      gstep. { use He. use He. use He. gstep. gstep. gstep. }
      gstep.
      { gstep. rewrite ln_onp in *. use Hl. apply pure_bind.
        { apply nf_calls. destruct (snd _); [discriminate|]. destruct (x_keep x); discriminate. }
        intros ?. gstep. gstep. gstep. }
      gstep.
      { use He. eapply good_bind; [apply tryk_good|]. intros ? ? ?. cbn [fst snd].
        eapply (goodc_bind (ln s)); [|intros ? ?; gstep; gstep].
        assert (K : goodc (ln s) (Ok s'2)). { split; [discriminate|]. intros ? [= <-]. lia. }
        destruct a1; try exact K. pose proof (sym_good s'2) as [K1 K2].
        destruct (sym x s'2) as [[n s5]| | | | |]; cbn [bind]; (split; [try discriminate|try discriminate]).
        - intros ? [= <-]. specialize (K2 _ _ eq_refl). rewrite ln_onp. cbn [fst snd] in *. lia.
        - intros _. now apply K1. }
      gstep; [|eapply good_le; [apply Ha; lia|lia]].
      gstep. gstep. use Hg. use He. use He. gstep. gstep.
  - intros nm s Hf. cbn [papp].
    eapply good_bind; [apply Hg; destruct (ph_name nm); lens|]. intros ? ? Hs. cbn [fst snd]. gstep. gstep.
    apply good_ok. destruct (ph_name nm); lens.
  - intros s Hf. cbn [pargs]. cbn zeta. pose proof (ln_scanc s). gstep; [gstep; gstep|].
    use He. use Hg. gstep.
  - intros s Hf. cbn [plet]. use Hb. gstep. apply pure_bind.
    { apply nf_calls. destruct (x_keep x); [|discriminate]. apply nf_bind; [apply nf_llist|discriminate]. }
    intros ?. use Hy. apply good_ok. destruct (x_keep x); lens.
  - intros s Hf. cbn [pbinds]. gstep; [gstep|]. gstep. gstep. cbn zeta.
    match goal with |- good _ (match ?m with _ => _ end) => destruct m end; [gstep|]. use He.
    match goal with |- context [mkLetVar ?n ?t ?c] => pose proof (letvar_len n t c) as E; destruct (mkLetVar n t c) end.
    destruct (x_keep x); cbn [fst snd] in *; gstep; rewrite ?ln_onp in *; use Hb; gstep.
  - intros r s Hf. cbn [pbody]. apply pure_bind.
    { apply nf_calls. destruct (atc _ s); [|discriminate]. apply nf_bind; [apply nf_peek|discriminate]. }
    intros isl. gstep.
    { gstep. gstep. gstep. use Hl. gstep. use Hy. gstep. }
    gstep; [gstep|]. use He. gstep.
  - intros fa s Hf. cbn [pquant]. gstep. eapply good_bind; [apply pvars_good; lia|]. intros ? ? ?. cbn [fst snd].
    gstep. use He. apply pure_bind; [|intros; gstep].
    intros E. right. right. eauto.
Qed.
Lemma pexpr_ends s : pexpr (pexpr_fuel s) x s = NoFuel -> stuck x.
Proof. destruct (all_good (pexpr_fuel s)) as [H _]. apply H. unfold pexpr_fuel, ln. lia. Qed.
Lemma mkExpr_ends p t : mkExpr x p t = NoFuel -> stuck x.
Proof.
  unfold mkExpr. destruct t as [|c t]; [discriminate|]. cbn zeta.
  destruct (pexpr _ _ _) as [[]| | | | |] eqn:E; cbn [bind]; try discriminate. intros _. eapply pexpr_ends, E.
Qed.
End Term.
