(** What literals stand for. *)
From Verif Require Import Base KindModel SortModel TermModel UtilModel UtilSpec UtilProofs BVModel BVSpec BVProofs BVProofs2 BVProofs4
  SimpModel OpModel OpSpec OpProofs OpProofs3 LexModel ParseModel ParseSpec ParseProofs.
Open Scope Z_scope.

Lemma not_word (f : str -> bool) v w : f v = true -> f (L w) = false -> seqs v w = false.
Proof.
  intros H Hw. unfold seqs. destruct (seq_str v (L w)) eqn:Q; [|reflexivity].
  apply seq_str_spec in Q. subst v. congruence.
Qed.
Lemma lit_numeral x z : 0 <= z -> lit_of x (Idec z) (mkConstInt z).
Proof.
  intros Hz. eexists. unfold pconst. rewrite Idec_isInt, Idec_round.
  rewrite !(not_word isInt _ _ (Idec_isInt z)) by reflexivity. cbn [orb bind]. reflexivity.
Qed.
(** a text that starts with # or a double quote is no number *)
Definition mark (v : str) : bool := aeq (hd nul v) "#"%char || aeq (hd nul v) """"%char.
Lemma mark_not v : mark v = true -> isInt v = false /\ isReal v = false /\ isScientificNotation v = false.
Proof.
  destruct v as [|c v]; [discriminate|]. unfold mark. cbn [hd]. intros H.
  assert (R : forall s, isReal (c :: s) = false).
  { intros s. apply orb_true_iff in H. destruct H as [H|H]; apply aeq_spec in H; subst c; reflexivity. }
  split; [|split; [apply R|]].
  - apply orb_true_iff in H. destruct H as [H|H]; apply aeq_spec in H; subst c; reflexivity.
  - unfold isScientificNotation. destruct (find_e (c :: v) 0) as [[|e]|]; try reflexivity.
    cbn [firstn]. now rewrite R.
Qed.
Lemma pconst_mark x v s : mark v = true ->
  pconst x v s = (if isBV v then
    let k := nth 1 v nul in
    Some (w <- (if aeq k "b"%char || aeq k "B"%char then Ok (zlen v - 2)
                else if aeq k "x"%char || aeq k "X"%char then Ok ((zlen v - 2) * 4)
                else if aeq k "d"%char || aeq k "D"%char
                     then z <- Integer_of_str (skipn 2 v) ;; Ok (zlen (Ibin z))
                else Ok (zlen v - 2)) ;;
          pConstBv x v w s)
  else if isString v then Some (t <- mkConstStr v ;; Ok (t, s)) else None).
Proof.
  intros H. destruct (mark_not v H) as (E1 & E2 & E3). unfold pconst. rewrite E1, E2, E3.
  rewrite !(not_word mark _ _ H) by reflexivity. cbn [orb].
  replace (isFP v) with false; [reflexivity|]. symmetry. unfold isFP. destruct v as [|c v]; [discriminate|].
  unfold mark in H. cbn [hd] in H. apply orb_true_iff in H. destruct H as [H|H]; apply aeq_spec in H; subst c;
    (destruct (Nat.leb _ _); reflexivity).
Qed.
Lemma pConstBv_new x v w b : natToBv_str (c_dbg (x_c x)) v w = Ok b ->
  exists s', pConstBv x v w (CS pst0 (Lx [] SM_SYMBOL)) = Ok (T NT_CONST (bvS w) b [], s').
Proof. intros H. unfold pConstBv, cached. cbn [mget sp p_srt pst0 bind fst snd]. rewrite H. cbn [bind]. eauto. Qed.
Lemma lit_binary x w v : (0 < w)%nat -> fits w ->
  lit_of x (lit w v) (T NT_CONST (bvS (Z.of_nat w)) (lit w v) []).
Proof.
  intros Hw Hf. unfold lit_of.
  assert (M : mark (lit w v) = true) by (rewrite lit_dig; reflexivity).
  assert (B : isBV (lit w v) = true).
  { apply isBV_iff. rewrite lit_dig. apply (BVbin "b"%char (dig w v)); [auto| |apply dig_bin].
    intros E. apply (f_equal (@length _)) in E. rewrite dig_length in E. cbn in E. lia. }
  destruct (pConstBv_new x (lit w v) (Z.of_nat w) (lit w v) (natToBv_str_lit _ w v Hw Hf)) as (s' & E).
  exists s'. rewrite pconst_mark, B by exact M. cbn zeta.
  replace (nth 1 (lit w v) nul) with "b"%char by (rewrite lit_dig; reflexivity).
  change (aeq "b" "b" || aeq "b" "B") with true. cbn [bind].
  replace (zlen (lit w v) - 2) with (Z.of_nat w) by (unfold zlen; rewrite lit_length; lia). now rewrite E.
Qed.
Lemma hexnum_hexC ds : forall a v, hexnum_from a ds = Some v -> Forall hexC ds.
Proof.
  induction ds as [|c ds IH]; intros a v H; [constructor|]. cbn [hexnum_from] in H.
  destruct (hexval c) eqn:E; [|discriminate]. constructor; [|eapply IH; eassumption].
  revert E. unfold hexval, hexC, digitC. cbn zeta.
  destruct (Z.leb_spec 48 (Z.of_nat (nat_of_ascii c))), (Z.leb_spec (Z.of_nat (nat_of_ascii c)) 57); cbn [andb]; [intros _; lia|..];
  (destruct (Z.leb_spec 65 (Z.of_nat (nat_of_ascii c))), (Z.leb_spec (Z.of_nat (nat_of_ascii c)) 70); cbn [andb]; [intros _; lia|..]);
  (destruct (Z.leb_spec 97 (Z.of_nat (nat_of_ascii c))), (Z.leb_spec (Z.of_nat (nat_of_ascii c)) 102); cbn [andb]; [intros _; lia|..]);
  intros; discriminate.
Qed.
Lemma lit_hex x ds v : ds <> [] -> hexnum ds = Some v ->
  lit_of x (L "#x" ++ ds) (T NT_CONST (bvS (4 * zlen ds)) (lit (4 * length ds) v) []).
Proof.
  intros Hn Hv. unfold lit_of.
  assert (M : mark (L "#x" ++ ds) = true) by reflexivity.
  assert (B : isBV (L "#x" ++ ds) = true).
  { apply isBV_iff. apply (BVhex "x"%char ds); [auto|exact Hn|]. eapply hexnum_hexC, Hv. }
  assert (N : natToBv_str (c_dbg (x_c x)) (L "#x" ++ ds) (4 * zlen ds) = Ok (lit (4 * length ds) v)).
  { unfold natToBv_str. rewrite app_length. destruct ds as [|c ds]; [congruence|].
    replace (Nat.ltb 2 (length (L "#x") + length (c :: ds))) with true by (cbn [length L list_ascii_of_string]; symmetry; apply Nat.ltb_lt; cbn; lia).
    change (is_prefix (L "#b") (L "#x" ++ c :: ds)) with false. change (is_prefix (L "#x") (L "#x" ++ c :: ds)) with true.
    cbn [andb]. unfold substr, zlen. rewrite app_length. change (length (L "#x")) with 2%nat.
    destruct (Z.ltb_spec (Z.of_nat (2 + length (c :: ds))) 2); [lia|]. cbn [bind].
    change (skipn (Z.to_nat 2) (L "#x" ++ c :: ds)) with (c :: ds). rewrite firstn_all2 by lia.
    now apply hexToBv_ok. }
  destruct (pConstBv_new x _ _ _ N) as (s' & E). exists s'. rewrite pconst_mark, B by exact M. cbn zeta.
  change (nth 1 (L "#x" ++ ds) nul) with "x"%char.
  change (aeq "x" "b" || aeq "x" "B") with false. change (aeq "x" "x" || aeq "x" "X") with true. cbn [bind].
  replace ((zlen (L "#x" ++ ds) - 2) * 4) with (4 * zlen ds) by (unfold zlen; rewrite app_length; change (length (L "#x")) with 2%nat; lia).
  now rewrite E.
Qed.
Lemma lit_string x b : Forall plainC b -> lit_of x (Q b) (T NT_CONST strS (Q b) []).
Proof.
  intros H. eexists. rewrite pconst_mark by reflexivity.
  replace (isBV (Q b)) with false by (unfold Q, isBV; destruct b as [|c [|d b]]; reflexivity).
  replace (isString (Q b)) with true.
  2:{ unfold isString, Q. change (""""%char :: b ++ [""""%char]) with ((""""%char :: b) ++ [""""%char]).
      now rewrite last_last. }
  rewrite mkConstStr_Q by exact H. reflexivity.
Qed.
Lemma dec_not_int ds es : isInt (ds ++ "."%char :: es) = false.
Proof.
  set (v := ds ++ "."%char :: es).
  destruct (isInt v) eqn:E; [|reflexivity]. apply isInt_iff in E.
    assert (In "."%char v) by (apply in_or_app; right; now left).
    destruct E as [E|[E|E]].
    - destruct E as [? Hn' Hd'|? ? Hs Hn' Hd'].
      + rewrite Forall_forall in Hd'. specialize (Hd' _ H). unfold digitC in Hd'. cbn in Hd'. lia.
      + destruct H as [H|H]; [subst; destruct Hs; discriminate|].
        rewrite Forall_forall in Hd'. specialize (Hd' _ H). unfold digitC in Hd'. cbn in Hd'. lia.
    - rewrite E in H. destruct H as [H|[]]; discriminate.
    - rewrite E in H. destruct H as [H|[]]; discriminate.
Qed.
Lemma lit_decimal x ds es : ds <> [] -> Forall digitC ds -> Forall digitC es ->
  lit_of x (ds ++ "."%char :: es) (mkConstReal (ds ++ "."%char :: es)).
Proof.
  intros Hn Hd He. set (v := ds ++ "."%char :: es).
  assert (R : isReal v = true).
  { apply isReal_iff. split; [destruct ds; discriminate|]. left. now constructor. }
  assert (I : isInt v = false) by now apply dec_not_int.
  assert (W : forall w, isReal (L w) = false -> seqs v w = false) by (intros w; apply not_word; exact R).
  eexists. unfold pconst. rewrite !W by reflexivity. rewrite I, R. cbn [orb]. unfold pConstReal.
  rewrite R. cbn [orb]. rewrite !W by reflexivity. rewrite condAssert_true. cbn [bind]. reflexivity.
Qed.
