(** Proofs about constant folding: literals and binary steps. *)
From Coq Require Import QArith Qcanon Qround Permutation ZifyBool ZifyNat DecimalPos.
From Verif Require Import Base KindModel SortModel TermModel BVModel BVSpec BVProofs BVProofs2 BVProofs4 BVProofs5
  UtilModel UtilSpec UtilProofs UtilProofs2 DagProofs SortProofs Sem SemProofs SimpModel OpModel OpSpec.
Open Scope Z_scope.

(** ** values of numerals *)
Lemma digits_val_num s : Forall digitC s -> forall acc,
  digits_val s acc = Some (fold_left (fun a c => a * 10 + digit_of c) s acc).
Proof.
  induction 1 as [|c s Hc Hs IH]; intros acc; cbn [digits_val fold_left]; [reflexivity|].
  unfold digitC in Hc.
  replace (Nat.leb 48 (nat_of_ascii c) && Nat.leb (nat_of_ascii c) 57) with true by lia.
  apply IH.
Qed.
Lemma int_val_plain s : s <> [] -> Forall digitC s -> int_val s = Some (num_of s).
Proof.
  intros Hn H. destruct s as [|c s]; [congruence|]. unfold int_val.
  inversion H as [|? ? Hc Hs]; subst.
  destruct (digit_not c Hc) as (_ & M & _). unfold aeq in M. rewrite M. now apply digits_val_num.
Qed.
Lemma int_val_Idec z : int_val (Idec z) = Some z.
Proof.
  unfold Idec. destruct z as [|p|p]; cbn [Z.to_int].
  - reflexivity.
  - rewrite int_val_plain by (apply udec_digits || apply udec_nonnil, to_uint_nonnil).
    rewrite udec_num, Unsigned.of_to. reflexivity.
  - unfold int_val. change (Ascii.eqb "-" "-") with true. cbv iota.
    destruct (udec (Pos.to_uint p)) as [|c s] eqn:E.
    { exfalso. revert E. apply udec_nonnil, to_uint_nonnil. }
    rewrite <- E. rewrite digits_val_num by apply udec_digits. cbn [option_map].
    change (fold_left _ _ 0) with (num_of (udec (Pos.to_uint p))).
    rewrite udec_num, Unsigned.of_to. reflexivity.
Qed.
Lemma real_val_Idec z : real_val (Idec z) = Some (ZQ z).
Proof. unfold real_val. now rewrite int_val_Idec. Qed.
Lemma Idec_inj x y : Idec x = Idec y -> x = y.
Proof. intros H. assert (int_val (Idec x) = int_val (Idec y)) by congruence. rewrite !int_val_Idec in H0. congruence. Qed.

Definition numsort (s : sort) : Prop := s = intS \/ s = intorealS \/ s = realS.
Definition ic (s : sort) (z : Z) : term := T NT_CONST s (Idec z) [].
Lemma eval_int I e s z : numsort s -> eval I e (ic s z) = VNum (ZQ z).
Proof.
  intros [ -> | [ -> | -> ]]; cbn [eval ic]; unfold leaf_sem; cbn [is_leaf_var kin existsb keq orb];
    cbn [cst_val s_kind intS intorealS realS]; rewrite ?int_val_Idec, ?real_val_Idec; reflexivity.
Qed.
Lemma eval_real I e n q : real_val n = Some q -> eval I e (T NT_CONST realS n []) = VNum q.
Proof.
  intros H. cbn [eval]. unfold leaf_sem. cbn [is_leaf_var kin existsb keq orb].
  cbn [cst_val s_kind realS]. now rewrite H.
Qed.
Lemma bits_val_hv s : Forall binC s -> forall acc,
  bits_val s acc = Some (fold_left (fun r c => r * 2 + bv1 c) s acc).
Proof.
  induction 1 as [|c s Hc _ IH]; intros acc; cbn [bits_val fold_left]; [reflexivity|].
  destruct Hc as [ -> | -> ]; cbn [Ascii.eqb Bool.eqb]; rewrite IH; do 2 f_equal; unfold bv1; cbn; lia.
Qed.
Lemma dig_bin w v : Forall binC (dig w v).
Proof.
  unfold dig. apply Forall_forall. intros c Hc. apply in_map_iff in Hc. destruct Hc as (i & <- & _).
  unfold ch, binC. destruct (Z.testbit v (Z.of_nat i)); auto.
Qed.
Definition bc (w : nat) (v : Z) : term := T NT_CONST (bvS (Z.of_nat w)) (lit w v) [].
Lemma eval_bc I e w v : eval I e (bc w v) = VBV w (uv w v).
Proof.
  cbn [eval bc]. unfold leaf_sem. cbn [is_leaf_var kin existsb keq orb].
  unfold cst_val, bvS. cbn [s_kind]. rewrite lit_dig. unfold hashb. cbn [app].
  change (Ascii.eqb "#" "#" && Ascii.eqb "b" "b") with true. cbv iota.
  rewrite bits_val_hv by apply dig_bin. cbn [option_map]. rewrite dig_length.
  fold (hv (dig w v)). now rewrite hv_dig.
Qed.
Definition sc (s : str) : term := T NT_CONST strS (Q s) [].
Lemma eval_sc I e s : eval I e (sc s) = VStr s.
Proof.
  cbn [eval sc]. unfold leaf_sem. cbn [is_leaf_var kin existsb keq orb].
  unfold cst_val, Q. cbn [s_kind strS]. now rewrite removelast_last.
Qed.
Lemma eval_TRUE I e : eval I e TRUE = VBool true. Proof. reflexivity. Qed.
Lemma eval_FALSE I e : eval I e FALSE = VBool false. Proof. reflexivity. Qed.
Lemma eval_mkB I e (b : bool) : eval I e (if b then TRUE else FALSE) = VBool b.
Proof. now destruct b. Qed.

(** ** classification of literals *)
Lemma s_is_iff k s : s_is k s = true <-> s_kind s = k.
Proof. unfold s_is. now destruct (s_kind s), k. Qed.
Ltac nos H := exfalso; apply H; cbn; tauto.
Lemma isConst_iff t : isConst t = kin (t_kind t) const_kinds. Proof. reflexivity. Qed.
Lemma lit_cint p : literal p -> isCInt p = true -> exists s z, (s = intS \/ s = intorealS) /\ p = ic s z.
Proof.
  intros H C. destruct H as [| |z s Hs| | | |k s n H]; try discriminate C.
  - exists s, z. auto.
  - unfold isCInt in C. apply andb_true_iff in C. destruct C as [_ C].
    unfold sis in C. cbn [t_sort] in C. rewrite orb_true_iff, !s_is_iff in C.
    exfalso. apply H. destruct C as [ -> | -> ]; cbn; tauto.
Qed.
Lemma lit_creal p : literal p -> isCReal p = true ->
  exists s n q, (s = intorealS \/ s = realS) /\ real_val n = Some q /\ p = T NT_CONST s n [].
Proof.
  intros H C. destruct H as [| |z s Hs|n q Hq| | |k s n H]; try discriminate C.
  - destruct Hs as [ -> | -> ]; [discriminate C|]. exists intorealS, (Idec z), (ZQ z).
    split; [now left|]. split; [apply real_val_Idec|reflexivity].
  - exists realS, n, q. auto.
  - unfold isCReal in C. apply andb_true_iff in C. destruct C as [_ C].
    unfold sis in C. cbn [t_sort] in C. rewrite orb_true_iff, !s_is_iff in C.
    exfalso. apply H. destruct C as [ -> | -> ]; cbn; tauto.
Qed.
Lemma lit_cbv p : literal p -> isCBV p = true -> exists w v, (0 < w)%nat /\ fits w /\ p = bc w v.
Proof.
  intros H C. destruct H as [| |z s Hs|n q Hq|w v Hw Hf| |k s n H]; try discriminate C.
  - destruct Hs as [ -> | -> ]; discriminate C.
  - exists w, v. auto.
  - unfold isCBV in C. apply andb_true_iff in C. destruct C as [_ C].
    unfold sis in C. cbn [t_sort] in C. rewrite s_is_iff in C. exfalso. apply H. rewrite C. cbn; tauto.
Qed.
Lemma lit_cstr p : literal p -> isCStr p = true -> exists s, Forall plainC s /\ p = sc s.
Proof.
  intros H C. destruct H as [| |z s Hs|n q Hq|w v Hw Hf|s Hs|k s n H]; try discriminate C.
  - destruct Hs as [ -> | -> ]; discriminate C.
  - exists s. auto.
  - unfold isCStr in C. apply andb_true_iff in C. destruct C as [_ C].
    unfold sis in C. cbn [t_sort] in C. rewrite s_is_iff in C. exfalso. apply H. rewrite C. cbn; tauto.
Qed.
Lemma isTrue_const p : isTrue p = true -> isConst p = true.
Proof.
  unfold isTrue, isConst, isk, kin. intros H. apply andb_true_iff in H. destruct H as [H _].
  apply keq_spec in H. rewrite H. reflexivity.
Qed.
Lemma isFalse_const p : isFalse p = true -> isConst p = true.
Proof.
  unfold isFalse, isConst, isk, kin. intros H. apply andb_true_iff in H. destruct H as [H _].
  apply keq_spec in H. rewrite H. reflexivity.
Qed.
Lemma lit_true p : literal p -> isTrue p = true -> p = TRUE.
Proof.
  intros H C. destruct H as [| |z s Hs|n q Hq|w v Hw Hf|s Hs|k s n H]; try discriminate C; [reflexivity|].
  unfold isTrue in C. apply andb_true_iff in C. destruct C as [_ C].
  unfold sis in C. cbn [t_sort] in C. rewrite s_is_iff in C. exfalso. apply H. rewrite C. cbn; tauto.
Qed.
Lemma lit_false p : literal p -> isFalse p = true -> p = FALSE.
Proof.
  intros H C. destruct H as [| |z s Hs|n q Hq|w v Hw Hf|s Hs|k s n H]; try discriminate C; [reflexivity|].
  unfold isFalse in C. apply andb_true_iff in C. destruct C as [_ C].
  unfold sis in C. cbn [t_sort] in C. rewrite s_is_iff in C. exfalso. apply H. rewrite C. cbn; tauto.
Qed.
Definition lo (p : term) : Prop := isConst p = true -> literal p.
Lemma lo_true p : lo p -> isTrue p = true -> p = TRUE.
Proof. intros H C. apply lit_true; [|assumption]. apply H. now apply isTrue_const. Qed.
Lemma lo_false p : lo p -> isFalse p = true -> p = FALSE.
Proof. intros H C. apply lit_false; [|assumption]. apply H. now apply isFalse_const. Qed.
Lemma lo_int p : lo p -> isCInt p = true -> exists s z, (s = intS \/ s = intorealS) /\ p = ic s z.
Proof. intros H C. apply lit_cint; [|assumption]. apply H. unfold isCInt in C. now apply andb_true_iff in C. Qed.
Lemma lo_bv p : lo p -> isCBV p = true -> exists w v, (0 < w)%nat /\ fits w /\ p = bc w v.
Proof. intros H C. apply lit_cbv; [|assumption]. apply H. unfold isCBV in C. now apply andb_true_iff in C. Qed.
Lemma lo_str p : lo p -> isCStr p = true -> exists s, Forall plainC s /\ p = sc s.
Proof. intros H C. apply lit_cstr; [|assumption]. apply H. unfold isCStr in C. now apply andb_true_iff in C. Qed.
Lemma lo_real p : lo p -> isCReal p = true ->
  exists s n q, (s = intorealS \/ s = realS) /\ real_val n = Some q /\ p = T NT_CONST s n [].
Proof. intros H C. apply lit_creal; [|assumption]. apply H. unfold isCReal in C. now apply andb_true_iff in C. Qed.

Lemma isCInt_ic s z : (s = intS \/ s = intorealS) -> isCInt (ic s z) = true.
Proof. intros [ -> | -> ]; reflexivity. Qed.
Lemma toInt_ic c s z : (s = intS \/ s = intorealS) -> toInt c (ic s z) = Ok z.
Proof.
  intros H. unfold toInt. cbn [t_name ic]. change (isConst (T NT_CONST s (Idec z) [])) with true.
  rewrite Idec_isInt, Idec_round. cbn [andb]. fold (ic s z). rewrite isCInt_ic by assumption.
  now rewrite condAssert_true.
Qed.
Lemma eval_ic I e s z : (s = intS \/ s = intorealS) -> eval I e (ic s z) = VNum (ZQ z).
Proof. intros H. apply eval_int. unfold numsort. tauto. Qed.
Lemma width_bc w v : width (bc w v) = Ok (Z.of_nat w).
Proof. reflexivity. Qed.
Lemma natToBv_str_lit d w v : (0 < w)%nat -> fits w -> natToBv_str d (lit w v) (Z.of_nat w) = Ok (lit w v).
Proof.
  intros Hw Hf. unfold natToBv_str. rewrite lit_length. replace (Nat.ltb 2 (w + 2)) with true by lia.
  rewrite lit_dig. change (is_prefix (L "#b") (hashb ++ dig w v)) with true. cbn [andb].
  unfold substr. unfold zlen. rewrite app_length, dig_length. cbn [hashb length Nat.add].
  destruct (Z.ltb_spec (Z.of_nat (S (S w))) 2); [lia|]. cbn [bind].
  change (skipn (Z.to_nat 2) (hashb ++ dig w v)) with (dig w v).
  rewrite firstn_all2 by (rewrite dig_length; lia).
  unfold toULong. unfold fits in Hf. replace ((Z.of_nat w <? 0) || (two64 <=? Z.of_nat w)) with false by (unfold two64; lia).
  cbn [bind]. rewrite dig_length. destruct (Z.ltb_spec (Z.of_nat w) (Z.of_nat w)); [lia|].
  replace (Z.of_nat w - Z.of_nat w) with 0 by lia. destruct (Z.ltb_spec (Z.of_nat w) 0); [lia|]. cbn [bind].
  change (skipn (Z.to_nat 0) (dig w v)) with (dig w v). rewrite firstn_all2 by (rewrite dig_length; lia). reflexivity.
Qed.
Lemma mkConstBv_lit c w v : (0 < w)%nat -> fits w -> mkConstBv c (lit w v) (Z.of_nat w) = Ok (bc w v).
Proof. intros. unfold mkConstBv. now rewrite natToBv_str_lit. Qed.
Lemma unescape_plain s : Forall plainC s -> unescapeString s = s.
Proof.
  induction 1 as [|c s Hc _ IH]; [reflexivity|]. cbn [unescapeString].
  destruct (aeq c bs) eqn:E; [|now rewrite IH].
  exfalso. apply aeq_spec in E. subst c. discriminate Hc.
Qed.
Lemma escape_plain s : Forall plainC s -> escapeString s = s.
Proof. induction 1 as [|c s Hc _ IH]; [reflexivity|]. unfold escapeString in *. cbn [map concat]. rewrite Hc, IH. reflexivity. Qed.
Lemma mkConstStr_Q s : Forall plainC s -> mkConstStr (Q s) = Ok (sc s).
Proof.
  intros H. unfold mkConstStr, Q.
  replace (last (""""%char :: s ++ [""""%char]) nul) with """"%char.
  2:{ change (""""%char :: s ++ [""""%char]) with ((""""%char :: s) ++ [""""%char]). now rewrite last_app1. }
  cbn [hd]. change (aeq """" dq) with true. rewrite !andb_true_r.
  unfold zlen. cbn [length]. rewrite app_length. cbn [length].
  replace (2 <=? Z.of_nat (S (length s + 1))) with true by lia.
  unfold substr, zlen. cbn [length]. rewrite app_length. cbn [length].
  destruct (Z.ltb_spec (Z.of_nat (S (length s + 1))) 1); [lia|]. cbn [bind].
  change (skipn (Z.to_nat 1) (""""%char :: s ++ [""""%char])) with (s ++ [""""%char]).
  replace (Z.to_nat _) with (length s) by lia.
  rewrite firstn_app, Nat.sub_diag, firstn_all. cbn [firstn]. rewrite app_nil_r.
  rewrite unescape_plain, escape_plain by assumption. reflexivity.
Qed.

(** ** rationals *)
Lemma ZQ_this a : (this (ZQ a) == inject_Z a)%Q.
Proof. unfold ZQ, Q2Qc. cbn [this]. apply Qred_correct. Qed.
Lemma ZQ_inj a b : ZQ a = ZQ b -> a = b.
Proof.
  intros H. assert (Q : (inject_Z a == inject_Z b)%Q) by (rewrite <- !ZQ_this, H; reflexivity).
  unfold Qeq in Q. cbn in Q. lia.
Qed.
Lemma veqb_ZQ a b : veqb (VNum (ZQ a)) (VNum (ZQ b)) = (a =? b).
Proof.
  cbn. destruct (Qc_eq_dec (ZQ a) (ZQ b)) as [E|E].
  - apply ZQ_inj in E. subst. symmetry. apply Z.eqb_refl.
  - symmetry. apply Z.eqb_neq. congruence.
Qed.
Lemma ZQ_le a b : Qcleb (ZQ a) (ZQ b) = (a <=? b).
Proof.
  destruct (Z.leb_spec a b) as [H|H].
  - apply Qcleb_spec. unfold Qcle. rewrite !ZQ_this. unfold Qle. cbn. lia.
  - destruct (Qcleb (ZQ a) (ZQ b)) eqn:E; [|reflexivity]. apply Qcleb_spec in E.
    unfold Qcle in E. rewrite !ZQ_this in E. unfold Qle in E. cbn in E. lia.
Qed.
Lemma ZQ_lt a b : Qcltb (ZQ a) (ZQ b) = (a <? b).
Proof. rewrite Qcltb_negb, ZQ_le. lia. Qed.
Lemma ZQ_add a b : (ZQ a + ZQ b)%Qc = ZQ (a + b).
Proof. apply Qc_is_canon. unfold Qcplus, Qcmult, Qcopp, Q2Qc. cbn [this]. rewrite ?Qred_correct, !ZQ_this. unfold Qeq. cbn. lia. Qed.
Lemma ZQ_mul a b : (ZQ a * ZQ b)%Qc = ZQ (a * b).
Proof. apply Qc_is_canon. unfold Qcplus, Qcmult, Qcopp, Q2Qc. cbn [this]. rewrite ?Qred_correct, !ZQ_this. unfold Qeq. cbn. lia. Qed.
Lemma ZQ_opp a : (- ZQ a)%Qc = ZQ (- a).
Proof. apply Qc_is_canon. unfold Qcplus, Qcmult, Qcopp, Q2Qc. cbn [this]. rewrite ?Qred_correct, !ZQ_this. unfold Qeq. cbn. lia. Qed.
Lemma ZQ_sub a b : (ZQ a - ZQ b)%Qc = ZQ (a - b).
Proof. unfold Qcminus. rewrite ZQ_opp, ZQ_add. f_equal. Qed.
Lemma qfloor_ZQ a : qfloor (ZQ a) = a.
Proof.
  unfold qfloor. rewrite (Qfloor_comp _ _ (ZQ_this a)). apply Qfloor_Z.
Qed.
Lemma is_intq_ZQ a : is_intq (ZQ a) = true.
Proof. unfold is_intq. rewrite qfloor_ZQ. now destruct (Qc_eq_dec (ZQ a) (ZQ a)). Qed.
Lemma Qeq_bool_veqb (x y : QArith_base.Q) (a b : Qc) : (x == this a)%Q -> (y == this b)%Q ->
  Qeq_bool x y = veqb (VNum a) (VNum b).
Proof.
  intros Hx Hy. cbn. destruct (Qc_eq_dec a b) as [E|E].
  - subst. apply Qeq_bool_iff. now rewrite Hx, Hy.
  - destruct (Qeq_bool x y) eqn:F; [|reflexivity]. exfalso. apply E. apply Qc_is_canon.
    apply Qeq_bool_iff in F. now rewrite <- Hx, <- Hy.
Qed.
Lemma Qle_bool_Qcleb (x y : QArith_base.Q) (a b : Qc) : (x == this a)%Q -> (y == this b)%Q ->
  Qle_bool x y = Qcleb a b.
Proof.
  intros Hx Hy. destruct (Qcleb a b) eqn:E.
  - apply Qle_bool_iff. rewrite Hx, Hy. now apply Qcleb_spec.
  - destruct (Qle_bool x y) eqn:F; [|reflexivity]. apply Qle_bool_iff in F. rewrite Hx, Hy in F.
    apply Qcleb_spec in F. congruence.
Qed.
