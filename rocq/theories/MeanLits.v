(** Proofs for MeanSpec.v: numerals and bit-vector literals. *)
From Coq Require Import QArith Qcanon Permutation.
From Verif Require Import Base LexSpec KindModel SortModel TermModel BVModel BVSpec BVProofs BVProofs2 UtilModel UtilSpec UtilProofs UtilProofs2 Sem SemProofs DagProofs SortProofs
  SimpModel OpModel OpSpec OpProofs OpProofs2 OpProofs3 TypedSpec TypedProofs LexModel ParseModel ParseSpec ParseProofs ParseProofs2 ParseLits
  ApplyModel CommandModel CommandSpec MeanSpec MeanProofs MeanProofs2 MeanBv.
Open Scope Z_scope.

(** the names of literals *)
Lemma idec_digits z : 0 <= z -> Idec z <> [] /\ Forall digitC (Idec z).
Proof.
  intros Hz. unfold Idec. destruct z as [|q|q]; cbn [Z.to_int]; [split; [discriminate|repeat constructor; cbn; lia]| |lia].
  split; [apply udec_nonnil, to_uint_nonnil|apply udec_digits].
Qed.
Lemma idec_word z : 0 <= z -> barred (Idec z) = false /\ UtilModel.isNumber (Idec z) = true /\ digits_val (Idec z) 0 = Some z.
Proof.
  intros Hz. destruct (idec_digits z Hz) as [N D]. split; [|split].
  - unfold barred. destruct (Idec z) as [|a l]; [congruence|]. inversion D as [|? ? Da _]; subst. unfold digitC in Da.
    assert (X : aeq a bar = false). { destruct (aeq a bar) eqn:Q; [|reflexivity]. unfold aeq in Q. apply Ascii.eqb_eq in Q. subst a. vm_compute in Da. lia. }
    cbn [hd]. rewrite X. now rewrite ?andb_false_r.
  - unfold UtilModel.isNumber. now rewrite Idec_isInt.
  - pose proof (int_val_Idec z) as H. rewrite (int_val_plain _ N D) in H. rewrite (digits_val_num _ D). exact H.
Qed.

Lemma idec_not_bits z : 0 <= z -> bits_of (Idec z) = None.
Proof.
  intros Hz. destruct (idec_digits z Hz) as [N D]. unfold bits_of. destruct (Idec z) as [|a [|b ds]]; try reflexivity. inversion D as [|? ? Da _]; subst. unfold digitC in Da.
  assert (X : aeq a "#"%char = false). { destruct (aeq a "#"%char) eqn:Q; [|reflexivity]. unfold aeq in Q. apply Ascii.eqb_eq in Q. subst a. vm_compute in Da. lia. }
  now rewrite X.
Qed.
(** the digits of a literal *)
Lemma binnum_dig ds : forall a v, binnum_from a ds = Some v -> exists u, v = a * 2 ^ zlen ds + u /\ 0 <= u < 2 ^ zlen ds /\ ds = dig (length ds) u.
Proof.
  induction ds as [|c ds IH]; intros a v H; cbn [binnum_from] in H.
  - injection H as <-. exists 0. cbn. repeat split; lia.
  - assert (P : 2 ^ zlen (c :: ds) = 2 * 2 ^ zlen ds).
    { unfold zlen. cbn [length]. rewrite Nat2Z.inj_succ, Z.pow_succ_r by lia. reflexivity. }
    assert (K : forall b, c = ch b -> binnum_from (2 * a + (if b then 1 else 0)) ds = Some v ->
      exists u, v = a * 2 ^ zlen (c :: ds) + u /\ 0 <= u < 2 ^ zlen (c :: ds) /\ c :: ds = dig (length (c :: ds)) u).
    { intros b -> Hb. destruct (IH _ _ Hb) as (u & E & R & D). exists ((if b then 1 else 0) * 2 ^ zlen ds + u). rewrite P. split; [rewrite E; ring|].
      split; [destruct b; lia|]. cbn [length]. rewrite dig_S_msb. unfold zlen in *. f_equal.
      - f_equal. symmetry. destruct b.
        + rewrite Z.testbit_true by lia. rewrite Z.div_add_l by lia. rewrite Z.div_small by lia. reflexivity.
        + cbn [Z.mul Z.add]. apply (high (length ds)); [exact R|lia].
      - rewrite D at 1. apply dig_cong. rewrite Z.add_comm, Z.mod_add by lia. reflexivity. }
    destruct (aeq c "0"%char) eqn:Q0.
    + unfold aeq in Q0. apply Ascii.eqb_eq in Q0. apply (K false); [exact Q0|]. now rewrite Z.add_0_r.
    + destruct (aeq c "1"%char) eqn:Q1; [|discriminate H]. unfold aeq in Q1. apply Ascii.eqb_eq in Q1. now apply (K true).
Qed.
Lemma hexnum_range ds : forall a v, hexnum_from a ds = Some v -> 0 <= a -> a * 16 ^ zlen ds <= v < (a + 1) * 16 ^ zlen ds.
Proof.
  induction ds as [|c ds IH]; intros a v H Ha; cbn [hexnum_from] in H; [injection H as <-; cbn; lia|].
  destruct (hexval c) as [h|] eqn:E; [|discriminate H].
  assert (R : 0 <= h < 16).
  { revert E. unfold hexval. cbn zeta.
    destruct (Z.leb_spec 48 (Z.of_nat (nat_of_ascii c))), (Z.leb_spec (Z.of_nat (nat_of_ascii c)) 57); cbn [andb]; [intros X; injection X as <-; lia|..];
    (destruct (Z.leb_spec 65 (Z.of_nat (nat_of_ascii c))), (Z.leb_spec (Z.of_nat (nat_of_ascii c)) 70); cbn [andb]; [intros X; injection X as <-; lia|..]);
    (destruct (Z.leb_spec 97 (Z.of_nat (nat_of_ascii c))), (Z.leb_spec (Z.of_nat (nat_of_ascii c)) 102); cbn [andb]; [intros X; injection X as <-; lia|..]);
    intros; discriminate. }
  specialize (IH _ _ H ltac:(lia)).
  assert (P : 16 ^ zlen (c :: ds) = 16 * 16 ^ zlen ds).
  { unfold zlen. cbn [length]. rewrite Nat2Z.inj_succ, Z.pow_succ_r by lia. reflexivity. }
  rewrite P. assert (0 < 16 ^ zlen ds) by (apply Z.pow_pos_nonneg; unfold zlen; lia). nia.
Qed.
Lemma bits_lit x s w v : (0 < w)%nat -> fits w -> bits_of s = Some (w, v) -> lit_of x s (bc w v) /\ barred s = false /\ 0 <= v < 2 ^ Z.of_nat w.
Proof.
  intros Hw Hf H. unfold bits_of in H. destruct s as [|a [|b ds]]; try discriminate H.
  destruct (aeq a "#"%char) eqn:Qa; [|discriminate H]. unfold aeq in Qa. apply Ascii.eqb_eq in Qa. subst a. cbn [andb] in H.
  destruct (aeq b "b"%char) eqn:Qb.
  - unfold aeq in Qb. apply Ascii.eqb_eq in Qb. subst b. destruct (binnum_from 0 ds) as [u|] eqn:E; [|discriminate H]. injection H as <- <-.
    destruct (binnum_dig ds 0 u E) as (u' & Eu & R & D). rewrite Z.mul_0_l, Z.add_0_l in Eu. subst u'.
    assert (EL : "#"%char :: "b"%char :: ds = lit (length ds) u) by (rewrite lit_dig; unfold hashb; cbn [app]; now rewrite <- D).
    rewrite EL. split; [now apply lit_binary|]. split; [|exact R]. unfold barred. rewrite <- EL. cbn [hd]. change (aeq "#" bar) with false. now rewrite andb_false_r.
  - destruct (aeq b "x"%char) eqn:Qx; [|discriminate H]. unfold aeq in Qx. apply Ascii.eqb_eq in Qx. subst b.
    destruct (hexnum ds) as [u|] eqn:E; [|discriminate H].
    assert (X : w = (4 * length ds)%nat /\ v = u) by (split; congruence). destruct X as [ -> -> ]. clear H.
    assert (Nd : ds <> []) by (intros ->; cbn in Hw; lia). split; [|split].
    + pose proof (lit_hex x ds u Nd E) as HL. unfold bc. replace (Z.of_nat (4 * length ds)) with (4 * zlen ds) by (unfold zlen; lia). exact HL.
    + unfold barred. cbn [hd]. change (aeq "#" bar) with false. now rewrite andb_false_r.
    + pose proof (hexnum_range ds 0 u E ltac:(lia)) as R. unfold zlen in R. rewrite Nat2Z.inj_mul, Z.pow_mul_r by lia. change (2 ^ Z.of_nat 4) with 16. lia.
Qed.
Lemma digits_prefix_num ds : forall acc, Forall digitC ds -> digits_prefix ds acc = fold_left (fun a c => a * 10 + digit_of c) ds acc.
Proof.
  induction ds as [|c ds IH]; intros acc F; [reflexivity|]. inversion F as [|? ? Hc Hd]; subst. cbn [digits_prefix fold_left].
  assert (isdigit c = true) as -> by (unfold isdigit, digitC, code in *; lia). rewrite IH by exact Hd. reflexivity.
Qed.
Lemma strtol_Idec z : 0 <= z -> strtol (Idec z) = Some z.
Proof.
  intros H. destruct (idec_digits z H) as [N F]. pose proof (int_val_plain _ N F) as V. rewrite int_val_Idec in V. injection V as V.
  destruct (Idec z) as [|c ds] eqn:E; [congruence|]. inversion F as [|? ? Hc Hd]; subst. unfold strtol.
  assert (isdigit c = true) as D by (unfold isdigit, digitC, code in *; lia).
  assert (skip_space (c :: ds) = c :: ds) as ->. { cbn [skip_space]. destruct (isspace c) eqn:S; [|reflexivity]. unfold isspace, isdigit in *. exfalso. unfold code in *. cbn in S. lia. }
  destruct (aeq c "-"%char) eqn:A1; [unfold aeq in A1; apply Ascii.eqb_eq in A1; subst c; discriminate D|]. destruct (aeq c "+"%char) eqn:A2; [unfold aeq in A2; apply Ascii.eqb_eq in A2; subst c; discriminate D|].
  rewrite D. rewrite digits_prefix_num by exact F. reflexivity.
Qed.
Lemma stoul_Idec z : 0 <= z < two64 -> stoul (Idec z) = Ok z.
Proof.
  intros H. unfold stoul. rewrite strtol_Idec by lia. rewrite Z.abs_eq by lia. destruct (Z.ltb_spec z two64); [|lia]. f_equal. now apply u64_id.
Qed.
Lemma stoi_Idec z : 0 <= z < 2 ^ 31 -> stoi (Idec z) = Ok z.
Proof. intros H. unfold stoi. rewrite strtol_Idec by lia. replace ((-2147483648 <=? z) && (z <=? 2147483647)) with true by lia. reflexivity. Qed.
Lemma idec_no_hash z l : 0 <= z -> is_prefix ("#"%char :: l) (Idec z) = false.
Proof.
  intros H. destruct (idec_digits z H) as [N F]. destruct (Idec z) as [|a s]; [reflexivity|]. inversion F as [|? ? Da _]; subst. unfold digitC in Da. cbn [is_prefix].
  assert (X : aeq "#"%char a = false). { destruct (aeq "#"%char a) eqn:Q; [|reflexivity]. unfold aeq in Q. apply Ascii.eqb_eq in Q. subst a. vm_compute in Da. lia. }
  now rewrite X.
Qed.
Lemma bvnum_lit d w v : (0 < w)%nat -> fits w -> 0 <= v < 2 ^ Z.of_nat w -> natToBv_str d (Idec v) (Z.of_nat w) = Ok (lit w v).
Proof.
  intros Hw Hf Hv. unfold natToBv_str. change (L "#b") with ["#"%char; "b"%char]. change (L "#x") with ["#"%char; "x"%char]. change (L "#d") with ["#"%char; "d"%char].
  rewrite !idec_no_hash by lia. rewrite !andb_false_r. rewrite Idec_round. cbn [bind]. now apply (natToBv_ok w w).
Qed.
