(** C70: the inverse functions acoth, asech, acsch, acsc, asec, acos of intervals.  All but the last are computed
    from the reciprocal of the interval.  [off0 a la ha]: [a] is the closed interval from [la] to [ha], which lies
    on one side of 0.  Where the reciprocals of the bounds are not numbers of 128 bits the library rounds them to
    the nearest one, not outwards; these theorems are about bounds whose reciprocals are held exactly. *)
From Coq Require Import Reals QArith Qreals Qround Qabs ZArith List Bool Lia Lra.
From Coq Require Lqa.
From Verif Require Import Base NumModel RoundModel NumSpec NumProofs NumMore FunModel FunSpec FunProofs FunProofs2 FunProofs3 FunProofs4 FunProofs5 FunProofs6 RecipProofs PropsFun.
Open Scope R_scope.

Lemma use_recip (op F : interval -> res interval) g dbg a u : (forall y, memberR u y <-> exists x, memberR a x /\ y = / x) ->
  i_div rn128 dbg oneI a = Ok u -> op a = bind (i_div rn128 dbg oneI a) F -> encloses F g u -> encloses op (fun x => g (/ x)) a.
Proof.
  intros Hu E Eo (b & Eb & H). exists b. rewrite Eo, E. split; [exact Eb|]. intros x Hx. apply H. apply Hu. eauto.
Qed.
Lemma inv_small x : 1 < x \/ x < -1 -> -1 < / x < 1.
Proof.
  intros [H|H].
  - pose proof (Rinv_0_lt_compat x ltac:(lra)). pose proof (Rinv_lt_contravar 1 x ltac:(nra) H) as K. rewrite Rinv_1 in K. lra.
  - pose proof (Rinv_lt_0_compat x ltac:(lra)). pose proof (Rinv_lt_contravar x (-1) ltac:(nra) H) as K. replace (/ -1) with (-1) in K by field. lra.
Qed.
Lemma inv_big x : -1 <= x <= 1 -> x <> 0 -> 1 <= / x \/ / x <= -1.
Proof.
  intros H N. destruct (Rtotal_order x 0) as [K|[K|K]]; [right|contradiction|left].
  - pose proof (inv_rev (-1) x x ltac:(lra) ltac:(lra)) as W. replace (/ -1) with (-1) in W by field. lra.
  - pose proof (inv_rev x x 1 ltac:(lra) ltac:(lra)) as W. rewrite Rinv_1 in W. lra.
Qed.

(** acoth x = artanh (1/x): an enclosure outside [-1, 1]; an error if a member is inside *)
Theorem C70_acoth_partial M dbg a la ha : correct M -> off0 a la ha -> repr 128 (/ la) -> repr 128 (/ ha) ->
  ((1 < Q2R la \/ Q2R ha < -1) -> encloses (i_acoth M dbg) (fun x => ln ((1 + / x) / (1 - / x)) / 2) a) /\
  ((exists x, memberR a x /\ -1 <= x <= 1) -> i_acoth M dbg a = Throw DomainError).
Proof.
  intros C O K1 K2. pose proof (off0_usable _ _ _ O) as U. destruct (recip_itv dbg a la ha O K1 K2) as (u & E & Uu & Hu).
  assert (L : Q2R la <= Q2R ha) by (apply Qle_Rle, O).
  assert (Nz : forall x, memberR a x -> x <> 0).
  { intros x Hx. apply (off0_mem a la ha x O) in Hx. destruct O as (_ & _ & _ & _ & _ & _ & _ & [S|S]); apply Qlt_Rlt in S; rewrite RMicromega.Q2R_0 in S; lra. }

  assert (Ma : memberR a (Q2R la)) by (apply (off0_mem a la ha _ O); lra).
  split.
  - intros D.
    assert (Dm : n_ge rn128 (lo a) (NI (-1)) && n_le rn128 (hi a) (NI 1) = false).
    { apply not_true_iff_false. rewrite andb_true_iff. destruct O as (A & B & _ & _ & V1 & V2 & _). rewrite (ge_I (lo a) (-1) A ltac:(lia)), (le_I (hi a) 1 B ltac:(lia)), V1, V2. lra. }
    apply (use_recip (i_acoth M dbg) (i_atanh M) (fun x => ln ((1 + x) / (1 - x)) / 2) dbg a u Hu E).
    + unfold i_acoth. rewrite (member_open a _ U Ma), Dm. reflexivity.
    + apply (proj1 (C70_atanh_partial M u C Uu)).
      assert (S' : 0 < Q2R la \/ Q2R ha < 0) by lra.
      exists (/ Q2R ha), (/ Q2R la). split; [apply inv_small; lra|]. split; [apply inv_small; lra|].
      intros y Hy. apply Hu in Hy. destruct Hy as (x & Hx & ->). apply (off0_mem a la ha x O) in Hx. now apply inv_rev.
  - intros (x & Hx & B). unfold i_acoth. rewrite (member_open a _ U Ma). destruct (n_ge rn128 (lo a) (NI (-1)) && n_le rn128 (hi a) (NI 1)); [reflexivity|].
    rewrite E. cbn [bind]. apply (proj2 (C70_atanh_partial M u C Uu)). exists (/ x). split; [apply Hu; eauto|]. pose proof (inv_big x B (Nz x Hx)). lra.
Qed.
(** asech x = arcosh (1/x) *)
Theorem C70_asech_partial M dbg a la ha : correct M -> off0 a la ha -> repr 128 (/ la) -> repr 128 (/ ha) -> 0 < Q2R la -> Q2R ha <= 1 ->
  encloses (i_asech M dbg) (fun x => ln (/ x + sqrt (/ x * / x - 1))) a.
Proof.
  intros C O K1 K2 P1 P2. pose proof (off0_usable _ _ _ O) as U. destruct (recip_itv dbg a la ha O K1 K2) as (u & E & Uu & Hu).
  assert (L : Q2R la <= Q2R ha) by (apply Qle_Rle, O).
  assert (Ma : memberR a (Q2R la)) by (apply (off0_mem a la ha _ O); lra).
  apply (use_recip (i_asech M dbg) (i_acosh M) (fun x => ln (x + sqrt (x * x - 1))) dbg a u Hu E).
  - unfold i_asech. rewrite (member_open a _ U Ma).
    assert (Dm : n_le rn128 (lo a) (NI 0) || n_gt rn128 (hi a) (NI 1) = false).
    { apply not_true_iff_false. rewrite orb_true_iff. destruct O as (A & B & _ & _ & V1 & V2 & _). rewrite (le_I (lo a) 0 A ltac:(lia)), (gt_I (hi a) 1 B ltac:(lia)), V1, V2. lra. }
    now rewrite Dm.
  - apply (proj1 (C70_acosh M u C Uu)). intros y Hy. apply Hu in Hy. destruct Hy as (x & Hx & ->). apply (off0_mem a la ha x O) in Hx.
    destruct (inv_big x ltac:(lra) ltac:(lra)) as [W|W]; [exact W|]. pose proof (Rinv_0_lt_compat x ltac:(lra)). lra.
Qed.
(** acsch x = arsinh (1/x) *)
Theorem C70_acsch_partial M dbg a la ha : correct M -> off0 a la ha -> repr 128 (/ la) -> repr 128 (/ ha) ->
  encloses (i_acsch M dbg) (fun x => arcsinh (/ x)) a.
Proof.
  intros C O K1 K2. pose proof (off0_usable _ _ _ O) as U. destruct (recip_itv dbg a la ha O K1 K2) as (u & E & Uu & Hu).
  assert (L : Q2R la <= Q2R ha) by (apply Qle_Rle, O).
  assert (Ma : memberR a (Q2R la)) by (apply (off0_mem a la ha _ O); lra).
  assert (S' : 0 < Q2R la \/ Q2R ha < 0).
  { destruct O as (_ & _ & _ & _ & _ & _ & _ & [S|S]); apply Qlt_Rlt in S; rewrite RMicromega.Q2R_0 in S; auto. }
  apply (use_recip (i_acsch M dbg) (i_asinh M) arcsinh dbg a u Hu E).
  - unfold i_acsch. rewrite (member_open a _ U Ma).
    assert (Dm : n_le rn128 (lo a) (NI 0) && n_ge rn128 (hi a) (NI 0) = false).
    { apply not_true_iff_false. rewrite andb_true_iff. destruct O as (A & B & _ & _ & V1 & V2 & _). rewrite (le_I (lo a) 0 A ltac:(lia)), (ge_I (hi a) 0 B ltac:(lia)), V1, V2. lra. }
    now rewrite Dm.
  - apply (all_enc _ _ u Uu); [intros K; unfold i_asinh, i_mono; now rewrite K|]. intros x Hx. now apply asinh_enc.
Qed.
(** acsc x = arcsin (1/x), of an interval outside (-1, 1) *)
Theorem C70_acsc_partial M dbg a la ha : correct M -> off0 a la ha -> repr 128 (/ la) -> repr 128 (/ ha) -> 1 <= Q2R la \/ Q2R ha <= -1 ->
  encloses (i_acsc M dbg) (fun x => asin (/ x)) a.
Proof.
  intros C O K1 K2 D. pose proof (off0_usable _ _ _ O) as U. destruct (recip_itv dbg a la ha O K1 K2) as (u & E & Uu & Hu).
  assert (L : Q2R la <= Q2R ha) by (apply Qle_Rle, O).
  assert (Ma : memberR a (Q2R la)) by (apply (off0_mem a la ha _ O); lra).
  apply (use_recip (i_acsc M dbg) (i_asin M) asin dbg a u Hu E).
  - unfold i_acsc. rewrite (member_open a _ U Ma).
    assert (D1 : n_gt rn128 (lo a) (NI (-1)) && n_lt rn128 (hi a) (NI 1) = false).
    { apply not_true_iff_false. rewrite andb_true_iff. destruct O as (A & B & _ & _ & V1 & V2 & _). rewrite (gt_I (lo a) (-1) A ltac:(lia)), (lt_I (hi a) 1 B ltac:(lia)), V1, V2. lra. }
    assert (D2 : n_le rn128 (lo a) (NI (-1)) && n_ge rn128 (hi a) (NI 1) = false).
    { apply not_true_iff_false. rewrite andb_true_iff. destruct O as (A & B & _ & _ & V1 & V2 & _). rewrite (le_I (lo a) (-1) A ltac:(lia)), (ge_I (hi a) 1 B ltac:(lia)), V1, V2. lra. }
    now rewrite D1, D2.
  - apply (proj1 (C70_asin M u C Uu)). intros y Hy. apply Hu in Hy. destruct Hy as (x & Hx & ->). apply (off0_mem a la ha x O) in Hx.
    assert (X : 1 <= x \/ x <= -1) by lra. destruct X as [X|X].
    + pose proof (inv_rev 1 x x ltac:(lra) ltac:(lra)) as W. rewrite Rinv_1 in W. pose proof (Rinv_0_lt_compat x ltac:(lra)). lra.
    + pose proof (inv_rev x x (-1) ltac:(lra) ltac:(lra)) as W. replace (/ -1) with (-1) in W by field. pose proof (Rinv_lt_0_compat x ltac:(lra)). lra.
Qed.
(** a negative member: asech is an error, whatever the bounds; a member above 1 likewise; so is acsch of an interval that has 0 *)
Theorem C70_domain M dbg a : usable a ->
  ((exists x, memberR a x /\ (x <= 0 \/ 1 < x)) -> i_asech M dbg a = Throw DomainError) /\
  (memberR a 0 -> i_acsch M dbg a = Throw DomainError) /\
  ((exists x, memberR a x) -> (forall x, memberR a x -> -1 < x < 1) -> lc a = true -> rc a = true ->
   i_asec M dbg a = Throw DomainError /\ i_acsc M dbg a = Throw DomainError /\ i_acoth M dbg a = Throw DomainError).
Proof.
  intros U. split; [|split].
  - intros (x & Hx & D). unfold i_asech. rewrite (member_open a x U Hx). destruct U as (A & B & W).
    assert (Dm : n_le rn128 (lo a) (NI 0) || n_gt rn128 (hi a) (NI 1) = true); [|now rewrite Dm].
    apply orb_true_iff. rewrite (le_I (lo a) 0 A ltac:(lia)), (gt_I (hi a) 1 B ltac:(lia)). destruct Hx as (L & H). destruct D as [D|D]; [left|right].
    + destruct (val (lo a)) as [|s|q]; [contradiction|exact L|]. pose proof (lowR_le _ _ _ q eq_refl L). lra.
    + destruct (val (hi a)) as [|s|q]; [contradiction|exact H|]. pose proof (highR_le _ _ _ q eq_refl H). lra.
  - intros Hx. unfold i_acsch. rewrite (member_open a 0 U Hx). destruct U as (A & B & W).
    assert (Dm : n_le rn128 (lo a) (NI 0) && n_ge rn128 (hi a) (NI 0) = true); [|now rewrite Dm].
    apply andb_true_iff. rewrite (le_I (lo a) 0 A ltac:(lia)), (ge_I (hi a) 0 B ltac:(lia)). destruct Hx as (L & H). split.
    + destruct (val (lo a)) as [|s|q]; [contradiction|exact L|]. exact (lowR_le _ _ _ q eq_refl L).
    + destruct (val (hi a)) as [|s|q]; [contradiction|exact H|]. exact (highR_le _ _ _ q eq_refl H).
  - intros (x & Hx) D C1 C2. unfold i_asec, i_acsc, i_acoth. rewrite (member_open a x U Hx). destruct U as (A & B & W1 & W2).
    destruct Hx as (L & H). rewrite C1 in *. rewrite C2 in *.
    destruct (val (lo a)) as [|s|p] eqn:V1; [contradiction|destruct W1; discriminate|]. destruct (val (hi a)) as [|s|q] eqn:V2; [contradiction|destruct W2; discriminate|].
    cbn in L, H. assert (X : -1 < Q2R p < 1) by (apply D; unfold memberR; rewrite V1, V2, C1, C2; cbn; lra). assert (Y : -1 < Q2R q < 1) by (apply D; unfold memberR; rewrite V1, V2, C1, C2; cbn; lra).
    assert (D1 : n_gt rn128 (lo a) (NI (-1)) = true) by (apply (gt_I (lo a) (-1) A ltac:(lia)); rewrite V1; lra).
    assert (D2 : n_lt rn128 (hi a) (NI 1) = true) by (apply (lt_I (hi a) 1 B ltac:(lia)); rewrite V2; lra).
    assert (D3 : n_ge rn128 (lo a) (NI (-1)) = true) by (apply (ge_I (lo a) (-1) A ltac:(lia)); rewrite V1; lra).
    assert (D4 : n_le rn128 (hi a) (NI 1) = true) by (apply (le_I (hi a) 1 B ltac:(lia)); rewrite V2; lra).
    rewrite D1, D2, D3, D4. auto.
Qed.
(** acos: the bounds are the correctly rounded values at the opposite bounds; an error if a member is outside [-1, 1] *)
Theorem C70_acos M a : correct M -> usable a -> (exists x, memberR a x) ->
  ((forall x, memberR a x -> -1 <= x <= 1) -> exists p q y z, val (lo a) = Fin p /\ val (hi a) = Fin q /\ nearest y (acos (Q2R q)) /\ nearest z (acos (Q2R p)) /\
     i_acos M a = Ok (Itv (NR (Fin y)) (NR (Fin z)) (rc a) (lc a))) /\
  ((exists x, memberR a x /\ ~ -1 <= x <= 1) -> i_acos M a = Throw DomainError).
Proof.
  intros C U (x0 & H0). split.
  - intros D. unfold i_acos. rewrite (member_open a x0 U H0). pose proof U as (A & B & W).
    assert (D1 : n_lt rn128 (lo a) (NI (-1)) = false).
    { apply not_true_iff_false. rewrite (lt_I (lo a) (-1) A ltac:(lia)). intros K. destruct (below_exists a x0 (-1) W H0 K) as (y & Hy & Ky). specialize (D y Hy). lra. }
    assert (D2 : n_gt rn128 (hi a) (NI 1) = false).
    { apply not_true_iff_false. rewrite (gt_I (hi a) 1 B ltac:(lia)). intros K. destruct (above_exists a x0 1 W H0 K) as (y & Hy & Ky). specialize (D y Hy). lra. }
    rewrite D1, D2. cbn [orb].
    apply (not_true_iff _ _ (lt_I (lo a) (-1) A ltac:(lia))) in D1. apply (not_true_iff _ _ (gt_I (hi a) 1 B ltac:(lia))) in D2.
    destruct H0 as (L & H), W as (W1 & W2). destruct (val (lo a)) as [|s|p] eqn:V1; [contradiction|destruct W1 as (-> & _); now elim D1|]. destruct (val (hi a)) as [|s|q] eqn:V2; [contradiction|destruct W2 as (-> & _); now elim D2|].
    pose proof (lowR_le _ _ _ _ eq_refl L). pose proof (highR_le _ _ _ _ eq_refl H).
    destruct (n_fun_fin M C F_acos (hi a) q B V2) as (y & Ey & Ny); [cbn; lra|]. destruct (n_fun_fin M C F_acos (lo a) p A V1) as (z & Ez & Nz); [cbn; lra|].
    exists p, q, y, z. rewrite Ey, Ez. cbn [bind]. repeat (split; [reflexivity || assumption|]). reflexivity.
  - intros (x & (L & H) & N). unfold i_acos. rewrite (member_open a x U (conj L H)). destruct U as (A & B & W).
    assert (Dm : n_lt rn128 (lo a) (NI (-1)) || n_gt rn128 (hi a) (NI 1) = true); [|now rewrite Dm].
    apply orb_true_iff. rewrite (lt_I (lo a) (-1) A ltac:(lia)), (gt_I (hi a) 1 B ltac:(lia)).
    assert (X : x < -1 \/ 1 < x) by lra. destruct X as [X|X]; [left|right].
    + destruct (val (lo a)) as [|s|q]; [contradiction|exact L|]. pose proof (lowR_le _ _ _ q eq_refl L). lra.
    + destruct (val (hi a)) as [|s|q]; [contradiction|exact H|]. pose proof (highR_le _ _ _ q eq_refl H). lra.
Qed.
(** cot, sec and csc: of what the library computes for tan, cos and sin, exactly the reciprocals, or everything if 0 is in it *)
Theorem C70_recip M dbg a u g f : usable a -> (exists x, memberR a x) ->
  In (f, g) [(i_cot M dbg, i_tan M); (i_sec M dbg, i_cos M); (i_csc M dbg, i_sin M)] -> g a = Ok u -> usable u ->
  (memberR u 0 -> exists v, f a = Ok v /\ forall x, memberR v x) /\
  (forall la ha, off0 u la ha -> repr 128 (/ la) -> repr 128 (/ ha) -> exists v, f a = Ok v /\ forall y, memberR v y <-> exists x, memberR u x /\ y = / x).
Proof.
  intros U (x0 & H0) Hf Eg Uu.
  assert (Ef : f a = if containsI rn128 u (NI 0) then Ok wholeI else i_div rn128 dbg oneI u).
  { cbn [In] in Hf. destruct Hf as [Hf|[Hf|[Hf|[]]]]; injection Hf as <- <-; unfold i_cot, i_sec, i_csc, recip; rewrite (member_open a x0 U H0), Eg; reflexivity. }
  pose proof (contains_x rn128 fits fits_nn fits_lt fits_eq fits_le u (NI 0) 0 (usable_PI u Uu) fits0' eq_refl) as Z. rewrite member_R, RMicromega.Q2R_0 in Z.
  split.
  - intros H. exists wholeI. rewrite Ef, (proj2 Z H). split; [reflexivity|]. intros x. split; reflexivity.
  - intros la ha O K1 K2. destruct (recip_itv dbg u la ha O K1 K2) as (v & E & _ & Hv). exists v. rewrite Ef.
    assert (N : containsI rn128 u (NI 0) = false).
    { apply not_true_iff_false. rewrite Z, (off0_mem u la ha 0 O). destruct O as (_ & _ & _ & _ & _ & _ & _ & [S|S]); apply Qlt_Rlt in S; rewrite RMicromega.Q2R_0 in S; lra. }
    rewrite N. auto.
Qed.
(** the interval (0, 1], on all of which asech and acsch are defined, is an error *)
Theorem C70_open0_refuted M dbg : let a := Itv (NI 0) (NI 1) false true in usable a /\ (forall x, memberR a x <-> 0 < x <= 1) /\
  i_asech M dbg a = Throw DomainError /\ i_acsch M dbg a = Throw DomainError.
Proof.
  cbn zeta. split; [split; [cbn; lia|split; [cbn; lia|split; exact I]]|]. split; [|split; reflexivity].
  intros x. unfold memberR. cbn. unfold Q2R. cbn. split; intros; lra.
Qed.
Example C70_recip_case : off0 (Itv (NI 2) (NI 4) true true) 2 4 /\ repr 128 (/ 2) /\ repr 128 (/ 4) /\ 1 < Q2R 2 /\
  off0 (Itv (NR (Fin (1 # 4))) (NI 1) true true) (1 # 4) 1 /\ repr 128 (/ (1 # 4)) /\ repr 128 (/ 1).
Proof.
  assert (R2 : repr 128 (/ 2)) by (exists 1%Z, (-1)%Z; split; [lia|reflexivity]). assert (R4 : repr 128 (/ 4)) by (exists 1%Z, (-2)%Z; split; [lia|reflexivity]).
  refine (conj _ (conj R2 (conj R4 (conj _ (conj _ (conj _ _)))))).
  - split; [cbn; lia|]. split; [cbn; lia|]. repeat (split; [reflexivity|]). split; [discriminate|]. left. reflexivity.
  - unfold Q2R. cbn. lra.
  - split; [exists 1%Z, (-2)%Z; split; [lia|reflexivity]|]. split; [cbn; lia|]. repeat (split; [reflexivity|]). split; [discriminate|]. left. reflexivity.
  - exists 4%Z, 0%Z. split; [lia|reflexivity].
  - exists 1%Z, 0%Z. split; [lia|reflexivity].
Qed.
Print Assumptions C70_acoth_partial.
Print Assumptions C70_asech_partial.
Print Assumptions C70_acsch_partial.
Print Assumptions C70_acsc_partial.
Print Assumptions C70_domain.
Print Assumptions C70_acos.
Print Assumptions C70_recip.
Print Assumptions C70_open0_refuted.
