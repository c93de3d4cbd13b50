(** C101: the constants a user makes from numbers. *)
From Coq Require Import QArith Qcanon Qround Qabs Lia Lqa.
From Verif Require Import Base KindModel SortModel TermModel BVModel BVSpec BVProofs BVProofs2 BVProofs4 UtilModel UtilSpec Sem SemProofs SimpModel OpModel OpSpec OpProofs
  MeanLits NumModel RoundModel SciModel SciSpec SciProofs SciProofs2 ValueModel TextModel TextSpec PropsText ConstModel.
Open Scope Z_scope.
Local Notation Q := QArith_base.Q.

(** [is t v]: t is a constant that the lexer's test for numerals accepts, with the value v in every interpretation *)
Definition is (t : term) (v : Qc) : Prop := isReal (t_name t) = true /\ forall I e, eval I e t = VNum v.
Lemma real_is s t v : isReal s = true -> real_val s = Some v -> t = mkConstReal s -> is t v.
Proof. intros R V ->. split; [exact R|]. intros I e. now apply eval_real. Qed.
Lemma fix_ud d k : (0 < d)%nat -> 0 <= k -> exists q, udecimal (fixtxt d k) q /\ (q == inject_Z k * p10 (- Z.of_nat d))%Q.
Proof.
  intros D K. destruct (fix_ok d k D K) as (a & b & -> & _ & A & B & LB & N). eexists. split; [now constructor|].
  rewrite N. unfold zlen. now rewrite LB.
Qed.

(** from a double: within half a millionth, and exact for a number of at most six decimals *)
Theorem C101_double q : exists v, is (mkConstReal_double (Fin q)) v /\ (Qabs (v - q) <= 1 # 2000000)%Q /\
  ((exists m, (q == inject_Z m * (1 # 1000000))%Q) -> (v == q)%Q).
Proof.
  set (k := Qeven (Qabs q * p10 6)). assert (P6 : (p10 6 == 1000000)%Q) by reflexivity.
  assert (K : 0 <= k).
  { unfold k. rewrite <- (Qeven_Z 0 0 ltac:(reflexivity)). apply Qeven_mono. pose proof (Qabs_nonneg q). rewrite P6. lra. }
  destruct (fix_ud 6 k ltac:(lia) K) as (u & U & E). change (p10 (- Z.of_nat 6)) with (1 # 1000000)%Q in E.
  set (neg := qlt q 0). exists (Q2Qc (if neg then - u else u)).
  assert (V : (this (Q2Qc (if neg then - u else u)) == if neg then - u else u)%Q) by apply Qred_correct.
  destruct (signed_ok neg _ u _ U V) as [R W]. split; [apply (real_is _ _ _ R W); reflexivity|].
  pose proof (Qeven_near (Qabs q * p10 6)) as N. fold k in N. rewrite P6 in N.
  assert (A : (q == if neg then - Qabs q else Qabs q)%Q).
  { unfold neg, qlt. destruct (Qle_bool 0 q) eqn:B; cbn [negb].
    - apply Qle_bool_iff in B. now rewrite Qabs_pos.
    - assert (C : (q < 0)%Q) by (apply Qnot_le_lt; intros C; apply Qle_bool_iff in C; congruence). rewrite Qabs_neg by lra. ring. }
  split.
  - rewrite V. apply Qabs_Qle_condition. clearbody neg. destruct neg; rewrite E; lra.
  - intros (m & M). rewrite V. assert (k = Z.abs m).
    { unfold k. apply Qeven_Z. rewrite P6, M, Qabs_Qmult. change (Qabs (1 # 1000000)) with (1 # 1000000)%Q. rewrite <- Qmult_assoc. change ((1 # 1000000) * 1000000)%Q with (1000000 # 1000000)%Q.
      setoid_replace (1000000 # 1000000)%Q with 1%Q by reflexivity. rewrite Qmult_1_r. unfold Qabs, inject_Z. reflexivity. }
    assert (AQ : (Qabs q == inject_Z k * (1 # 1000000))%Q) by (rewrite H, M, Qabs_Qmult; reflexivity).
    rewrite A. clearbody neg. destruct neg; rewrite E, AQ; reflexivity.
Qed.
Print Assumptions C101_double.
Example C101_double_case : mkConstReal_double (Fin (-5 # 4)) = T NT_CONST realS (L "-1.250000") [].
Proof. vm_compute. reflexivity. Qed.
(** the rest is lost: small numbers become zero, different doubles become one constant, an infinity becomes a constant whose text
    is no numeral *)
Theorem C101_double_refuted :
  mkConstReal_double (Fin (1 # 2 ^ 30)) = mkConstReal_double (Fin 0) /\
  (forall q, (0 <= q)%Q -> (q < 1 # 2000000)%Q -> is (mkConstReal_double (Fin q)) 0%Qc) /\
  isReal (t_name (mkConstReal_double (Inf false))) = false /\ isReal (t_name (mkConstReal_double Nan)) = false.
Proof.
  split; [vm_compute; reflexivity|]. split; [|vm_compute; auto]. intros q Z0 S.
  assert (E : mkConstReal_double (Fin q) = mkConstReal (L "0.000000")).
  { unfold mkConstReal_double, dbl_txt. replace (qlt q 0) with false by (symmetry; unfold qlt; apply negb_false_iff; now apply Qle_bool_iff).
    assert (P6 : (p10 6 == 1000000)%Q) by reflexivity. pose proof (Qabs_pos q Z0) as A.
    assert (K : Qeven (Qabs q * p10 6) = 0).
    { assert (AP : (Qabs q * p10 6 == q * 1000000)%Q) by (rewrite A, P6; reflexivity).
      assert (F0 : 0 <= Qfloor (Qabs q * p10 6)) by (rewrite <- (Qfloor_Z 0); apply Qfloor_resp_le; rewrite AP; change (inject_Z 0) with 0%Q; lra).
      pose proof (Qfloor_le (Qabs q * p10 6)) as F1. rewrite AP in F1 at 2.
      assert (F2 : Qfloor (Qabs q * p10 6) < 1) by (rewrite Zlt_Qlt; change (inject_Z 1) with 1%Q; lra).
      assert (F3 : Qfloor (Qabs q * p10 6) = 0) by lia.
      destruct (Qeven_cases (Qabs q * p10 6)) as [[C _]|[_ C]]; [now rewrite C|]. exfalso. rewrite F3 in C. change (inject_Z 0) with 0%Q in C. rewrite AP in C. lra. }
    rewrite K. reflexivity. }
  rewrite E. apply (real_is (L "0.000000")); [vm_compute; reflexivity|vm_compute; reflexivity|reflexivity].
Qed.
Print Assumptions C101_double_refuted.

Lemma isReal_Idec z : isReal (Idec z) = true.
Proof.
  assert (P : forall w, 0 <= w -> isReal (Idec w) = true /\ isReal ("-"%char :: Idec w) = true).
  { intros w W. destruct (SciProofs.Idec_nat w W) as (N & F & _). exact (ud_isReal _ _ (ud_int _ N F)). }
  destruct z as [|p|p]; [apply (P 0); lia|apply (P (Z.pos p)); lia|]. change (Idec (Z.neg p)) with ("-"%char :: Idec (Z.pos p)). apply (P (Z.pos p)). lia.
Qed.
(** from an integer *)
Theorem C101_integer z : is (mkConstReal_int z) (ZQ z) /\ (forall I e, eval I e (mkConstInt z) = VNum (ZQ z)) /\ (forall I e, eval I e (mkConstInt_num (NI z)) = VNum (ZQ z)).
Proof.
  assert (G : forall I e, eval I e (mkConstInt z) = VNum (ZQ z)) by (intros I e; apply (eval_ic I e intorealS); auto).
  split; [|split; exact G]. apply (real_is (Idec z)); [|apply real_val_Idec|reflexivity]. apply isReal_Idec.
Qed.
Print Assumptions C101_integer.
(** an integer constant from a real Number: the nearest integer; 0 for an infinity and for NaN *)
Theorem C101_int_of_real q : exists n, (Qabs (q - inject_Z n) <= 1 # 2)%Q /\ (forall I e, eval I e (mkConstInt_num (NR (Fin q))) = VNum (ZQ n)).
Proof.
  exists (Qeven q). split; [|intros I e; apply (eval_ic I e intorealS); auto]. pose proof (Qeven_near q). apply Qabs_Qle_condition. lra.
Qed.
Print Assumptions C101_int_of_real.
Example C101_int_of_real_case : mkConstInt_num (NR (Fin (5 # 2))) = mkConstInt 2 /\ mkConstInt_num (NR (Fin (-7 # 2))) = mkConstInt (-4) /\ mkConstInt_num (NR (Inf true)) = mkConstInt 0.
Proof. vm_compute. auto. Qed.
(** a real constant from a real or a Number: exact for integers of at most 128 bits and for the 128-bit reals nearest to the decimals
    of at most 17 places (or digits) that [shown] lists *)
Theorem C101_real x v : shown (NR x) (Val v) -> is (mkConstReal_real x) v /\ is (mkConstReal_num (NR x)) v.
Proof.
  intros H. destruct (shown_txt (NR x) v H) as (b & t & q & E & U & V & _). cbn [n_str] in E.
  destruct (signed_ok b t q v U V) as [R W]. rewrite <- E in R, W.
  assert (G : is (mkConstReal_real x) v) by (apply (real_is _ _ _ R W); reflexivity). split; exact G.
Qed.
Print Assumptions C101_real.
Theorem C101_real_of_int z : Z.abs z <= 2 ^ 128 -> is (mkConstReal_num (NI z)) (ZQ z).
Proof.
  intros H. apply (fun K => proj1 (C101_real _ _ K)). apply sh_whole. apply (rn_exact 128 ltac:(lia)). exists z, 0. split; [exact H|]. cbn. ring.
Qed.
Print Assumptions C101_real_of_int.
Theorem C101_real_of_int_refuted : exists z, mkConstReal_num (NI z) = mkConstReal_num (NI (z + 1)).
Proof. exists (2 ^ 129). vm_compute. reflexivity. Qed.
Print Assumptions C101_real_of_int_refuted.
Example C101_real_case : mkConstReal_num (NI (-12)) = T NT_CONST realS (L "-12") [] /\ mkConstReal_real (Fin (-5 # 4)) = T NT_CONST realS (L "-1.25") [].
Proof. vm_compute. auto. Qed.

(** ** bit-vectors: mkConstBv(text, width) *)
(** [bits t w v]: t is a constant of the sort of width w whose value is v modulo 2^w *)
Definition bits (t : term) (w : nat) (v : Z) : Prop := t_sort t = bvS (Z.of_nat w) /\ forall I e, eval I e t = VBV w (v mod 2 ^ Z.of_nat w).
Lemma bc_bits w v : bits (bc w v) w v. Proof. split; [reflexivity|]. intros I e. apply eval_bc. Qed.
(** a decimal numeral of any size; the binary digits of the width; hexadecimal digits, when there are a quarter of the width *)
Theorem C101_bv c w : BVSpec.fits w ->
  (forall k v, BVSpec.fits k -> 0 <= v < 2 ^ Z.of_nat k -> exists t, mkConstBv c (Idec v) (Z.of_nat w) = Ok t /\ bits t w v) /\
  (forall v, (0 < w)%nat -> exists t, mkConstBv c (lit w v) (Z.of_nat w) = Ok t /\ bits t w v) /\
  (forall ds v, hexnum ds = Some v -> ds <> [] -> w = (4 * length ds)%nat -> exists t, mkConstBv c (L "#x" ++ ds) (Z.of_nat w) = Ok t /\ bits t w v).
Proof.
  intros Hf. split; [|split].
  - intros k v Hk Hv. exists (bc w v). split; [|apply bc_bits]. unfold mkConstBv, natToBv_str.
    change (L "#b") with ["#"%char; "b"%char]. change (L "#x") with ["#"%char; "x"%char]. change (L "#d") with ["#"%char; "d"%char].
    rewrite !idec_no_hash by lia. rewrite !andb_false_r. rewrite UtilProofs.Idec_round. cbn [bind]. rewrite (natToBv_ok w k v Hv Hk Hf). reflexivity.
  - intros v Hw. exists (bc w v). split; [|apply bc_bits]. unfold mkConstBv. now rewrite natToBv_str_lit.
  - intros ds v Hx Hn ->. exists (bc (4 * length ds) v). split; [|apply bc_bits]. unfold mkConstBv, natToBv_str.
    rewrite app_length. destruct ds as [|d ds]; [congruence|].
    replace (Nat.ltb 2 (length (L "#x") + length (d :: ds))) with true by (cbn [length L list_ascii_of_string]; symmetry; apply Nat.ltb_lt; cbn; lia).
    change (is_prefix (L "#b") (L "#x" ++ d :: ds)) with false. change (is_prefix (L "#x") (L "#x" ++ d :: ds)) with true.
    cbn [andb]. unfold substr, zlen. rewrite app_length. change (length (L "#x")) with 2%nat.
    destruct (Z.ltb_spec (Z.of_nat (2 + length (d :: ds))) 2); [lia|]. cbn [bind].
    change (skipn (Z.to_nat 2) (L "#x" ++ d :: ds)) with (d :: ds). rewrite firstn_all2 by lia.
    rewrite (hexToBv_ok _ _ _ Hx). cbn [bind]. reflexivity.
Qed.
Print Assumptions C101_bv.
(** binary digits of another width are extended with zeros or truncated to the low bits *)
Theorem C101_bv_resize c n w v : BVSpec.fits w -> (0 < n)%nat -> (0 < w)%nat -> 0 <= v ->
  (Z.of_nat w <= Z.of_nat n \/ v < 2 ^ Z.of_nat n) ->
  exists t, mkConstBv c (lit n v) (Z.of_nat w) = Ok t /\ bits t w v.
Proof.
  intros Hf Hn Hw Hv Hc. exists (bc w v). split; [|apply bc_bits]. unfold mkConstBv, natToBv_str.
  rewrite lit_length. replace (Nat.ltb 2 (n + 2)) with true by (symmetry; apply Nat.ltb_lt; lia).
  rewrite lit_dig. change (is_prefix (L "#b") (hashb ++ dig n v)) with true. cbn [andb].
  unfold substr at 1. unfold zlen. rewrite app_length, dig_length. cbn [hashb length Nat.add].
  destruct (Z.ltb_spec (Z.of_nat (S (S n))) 2); [lia|]. cbn [bind].
  change (skipn (Z.to_nat 2) (hashb ++ dig n v)) with (dig n v).
  rewrite firstn_all2 by (rewrite dig_length; lia).
  unfold Base.toULong. unfold BVSpec.fits in Hf. replace ((Z.of_nat w <? 0) || (two64 <=? Z.of_nat w)) with false
    by (unfold two64; symmetry; apply orb_false_iff; split; [apply Z.ltb_ge|apply Z.leb_gt]; lia).
  cbn [bind]. rewrite dig_length. destruct (Z.ltb_spec (Z.of_nat n) (Z.of_nat w)) as [Hl|Hl].
  - destruct Hc as [Hc|Hc]; [lia|]. unfold mkstr. destruct (Z.ltb_spec str_max (Z.of_nat w - Z.of_nat n)) as [Hx|Hx]; [unfold str_max in Hx; lia|].
    cbn [bind]. change BVModel.hashb with hashb. replace (Z.to_nat (Z.of_nat w - Z.of_nat n)) with (w - n)%nat by lia.
    pose proof (dig_pad (w - n) n v (conj Hv Hc)) as Hp. replace (w - n + n)%nat with w in Hp by lia.
    unfold bc. rewrite lit_dig, Hp. reflexivity.
  - replace (Z.of_nat n - Z.of_nat w) with (Z.of_nat (n - w)) by lia. rewrite substr_last by lia. cbn [bind]. rewrite <- lit_dig. reflexivity.
Qed.
Print Assumptions C101_bv_resize.
Definition cfg0 : cfg := Cfg false false false true false (fun _ => 0%Q) (fun _ => 0) (fun _ _ => L "0.5") (fun _ => 0) (fun ps => ps).
(** the width is not compared with hexadecimal digits (eight digits in a sort of width 4), and a negative numeral is no constant *)
Theorem C101_bv_refuted : exists t u, mkConstBv cfg0 (L "#xff") 4 = Ok t /\ t_sort t = bvS 4 /\ (forall I e, eval I e t = VBV 8 255) /\
  mkConstBv cfg0 (L "-3") 4 = Ok u /\ t_name u = L "#b0-11".
Proof.
  exists (T NT_CONST (bvS 4) (L "#b11111111") []), (T NT_CONST (bvS 4) (L "#b0-11") []). repeat split; try (vm_compute; reflexivity).
Qed.
Print Assumptions C101_bv_refuted.
Example C101_bv_case : mkConstBv cfg0 (L "10") 4 = Ok (T NT_CONST (bvS 4) (L "#b1010") []) /\ mkConstBv cfg0 (L "#xA") 4 = Ok (T NT_CONST (bvS 4) (L "#b1010") []).
Proof. vm_compute. auto. Qed.
