(** C92, continued: an interval of positive integer bounds to the power of an interval. *)
From Coq Require Import Reals QArith Qreals Qround Qabs ZArith List Bool Lia Lra.
From Verif Require Import Base KindModel NumModel RoundModel NumSpec NumProofs NumMore FunModel FunSpec FunProofs FunProofs2 FunProofs3 FunProofs4 FunProofs5 FunProofs6 PropsNum PropsFun IopModel PropsIop.
Open Scope R_scope.
Local Notation r := rn128.

Lemma itv_open u v c d : (u < v)%Z -> isEmptyI r (Itv (NI u) (NI v) c d) = false /\ isPoint r (Itv (NI u) (NI v) c d) = false.
Proof.
  intros H. unfold isEmptyI, isPoint, n_gt. cbn. destruct (Z.eqb_spec u v); [lia|]. destruct (Z.leb_spec u v); [|lia].
  rewrite ?andb_false_r, ?orb_false_r. split; reflexivity.
Qed.
Lemma zpow_R v n : (0 < v)%Z -> (0 <= n)%Z -> IZR (v ^ n) = Rpower (IZR v) (IZR n).
Proof.
  intros Hv Hn. rewrite <- (Z2Nat.id n Hn), <- pow_IZR, <- INR_IZR_INZ. symmetry. apply Rpower_pow. now apply IZR_lt.
Qed.
Lemma npow_Z M a p : (0 <= p < 2 ^ 64)%Z -> n_pow M (NI a) (NI p) = NI (a ^ p).
Proof. intros H. unfold n_pow. destruct (Z.leb_spec 0 p); [|lia]. destruct (Z.ltb_spec p (2 ^ 64)); [|lia]. reflexivity. Qed.
Lemma rpower_mono x y u v : 1 <= x -> x <= u -> 0 <= y -> y <= v -> Rpower x y <= Rpower u v.
Proof.
  intros H1 H2 H3 H4. apply Rle_trans with (Rpower u y).
  - apply Rle_Rpower_l; lra.
  - destruct (Req_dec u 1) as [->|N]; [unfold Rpower; rewrite ln_1, !Rmult_0_r; right; reflexivity|].
    apply Rle_Rpower; lra.
Qed.
Lemma rpower_lt_base x y u : 1 <= x -> x < u -> 0 < y -> Rpower x y < Rpower u y.
Proof. intros H1 H2 H3. apply Rlt_Rpower_l; lra. Qed.
Lemma rpower_lt_exp u y v : 1 < u -> y < v -> Rpower u y < Rpower u v.
Proof. intros. now apply Rpower_lt. Qed.

(** the result has the least and the greatest corner as bounds, and contains every power of a member of the base by a
    member of the exponent, if both intervals are closed or the bounds are at least 2 and 1 *)
Theorem C92_pow_box_partial M at2 a b p q la ra le re : (1 <= a < b)%Z -> (0 <= p < q)%Z -> (q < 2 ^ 64)%Z ->
  (la = true /\ ra = true /\ le = true /\ re = true) \/ (2 <= a /\ 1 <= p)%Z ->
  exists e, operate2 M at2 false NT_POW (Itv (NI a) (NI b) la ra) (Itv (NI p) (NI q) le re) = Ok e /\
    lo e = NI (a ^ p) /\ hi e = NI (b ^ q) /\
    forall x y, memberR (Itv (NI a) (NI b) la ra) x -> memberR (Itv (NI p) (NI q) le re) y -> memberR e (Rpower x y).
Proof.
  intros Ha Hp Hq F. destruct (itv_open a b la ra ltac:(lia)) as [Ea Pa]. destruct (itv_open p q le re ltac:(lia)) as [Ee Pe].
  unfold operate2. rewrite Ea, Ee. cbn [orb]. unfold i_powI. rewrite Ea, Ee, Pe, Pa. cbn [orb lo hi lc rc].
  assert (N0 : n_gt r (NI a) (NI 0) = true) by (unfold n_gt; cbn [n_le]; destruct (Z.leb_spec a 0); [lia|reflexivity]). rewrite N0.
  rewrite !npow_Z by lia.
  assert (Z1 : (a ^ p <= a ^ q)%Z) by (apply Z.pow_le_mono_r; lia).
  assert (Z2 : (a ^ p <= b ^ p)%Z) by (apply Z.pow_le_mono_l; lia).
  assert (Z3 : (a ^ q < b ^ q)%Z) by (apply Z.pow_lt_mono_l; lia).
  assert (Z4 : (b ^ p < b ^ q)%Z) by (apply Z.pow_lt_mono_r; lia).
  cbn [filter n_isNaN negb]. cbv zeta.
  assert (MN : fold_left (fun m v => if n_lt r v m then v else m) [NI (a ^ p); NI (a ^ q); NI (b ^ p); NI (b ^ q)] (NI (a ^ p)) = NI (a ^ p)).
  { cbn [fold_left n_lt]. destruct (Z.ltb_spec (a ^ p) (a ^ p)); [lia|]. destruct (Z.ltb_spec (a ^ q) (a ^ p)); [lia|].
    destruct (Z.ltb_spec (b ^ p) (a ^ p)); [lia|]. destruct (Z.ltb_spec (b ^ q) (a ^ p)); [lia|]. reflexivity. }
  assert (MX : fold_left (fun m v => if n_gt r v m then v else m) [NI (a ^ p); NI (a ^ q); NI (b ^ p); NI (b ^ q)] (NI (a ^ p)) = NI (b ^ q)).
  { assert (G : forall u v, n_gt r (NI u) (NI v) = (v <? u)%Z) by (intros; unfold n_gt; cbn [n_le]; now rewrite Z.leb_antisym, negb_involutive).
    cbn [fold_left]. rewrite !G. destruct (Z.ltb_spec (a ^ p) (a ^ p)); [lia|]. rewrite G.
    destruct (Z.ltb_spec (a ^ p) (a ^ q)); rewrite G; (match goal with |- context [(?u <? ?v)%Z] => destruct (Z.ltb_spec u v) end); rewrite G;
    (match goal with |- context [(?u <? ?v)%Z] => destruct (Z.ltb_spec u v) end); (reflexivity || lia). }
  rewrite MN, MX.
  assert (C1 : forall fs, corner_flag [NI (a ^ p); NI (a ^ q); NI (b ^ p); NI (b ^ q)] [fs; la && re; ra && le; ra && re] (NI (a ^ p)) = Ok fs).
  { intros fs. unfold corner_flag. cbn [at_ nth_error bind n_eq]. now rewrite Z.eqb_refl. }
  assert (C2 : forall fs, corner_flag [NI (a ^ p); NI (a ^ q); NI (b ^ p); NI (b ^ q)] [fs; la && re; ra && le; ra && re] (NI (b ^ q)) = Ok (ra && re)).
  { intros fs. unfold corner_flag. cbn [at_ nth_error bind n_eq]. destruct (Z.eqb_spec (b ^ q) (a ^ p)); [lia|].
    destruct (Z.eqb_spec (b ^ q) (a ^ q)); [lia|]. destruct (Z.eqb_spec (b ^ q) (b ^ p)); [lia|]. now rewrite Z.eqb_refl. }
  rewrite C1, C2. cbn [bind]. eexists. split; [reflexivity|]. split; [reflexivity|]. split; [reflexivity|].
  intros x y (Lx & Hx) (Ly & Hy). cbn [lo hi lc rc val] in *. 
  assert (A1 : 1 <= IZR a) by (apply IZR_le; lia). assert (P0 : 0 <= IZR p) by (apply IZR_le; lia).
  assert (B1 : 1 < IZR b) by (apply IZR_lt; lia).
  cbn in Lx, Hx, Ly, Hy. rewrite !Q2R_Z in *.
  split; cbn; rewrite Q2R_Z, zpow_R by lia.
  - destruct F as [(-> & -> & -> & ->)|[F1 F2]].
    + cbn [andb]. apply rpower_mono; lra.
    + assert (A2 : 2 <= IZR a) by (apply IZR_le; lia). assert (P1 : 1 <= IZR p) by (apply IZR_le; lia).
      assert (x0 : IZR a <= x) by (destruct la; lra). assert (y0 : IZR p <= y) by (destruct le; lra).
      destruct la; cbn [andb]; [|apply Rlt_le_trans with (Rpower x (IZR p)); [apply rpower_lt_base; lra|apply rpower_mono; lra]].
      destruct le; cbn [andb]; [apply rpower_mono; lra|]. apply Rle_lt_trans with (Rpower x (IZR p)); [apply rpower_mono; lra|apply rpower_lt_exp; lra].
  - assert (x0 : IZR a <= x) by (destruct la; lra). assert (y0 : IZR p <= y) by (destruct le; lra).
    assert (x1 : x <= IZR b) by (destruct ra; lra). assert (y1 : y <= IZR q) by (destruct re; lra).
    destruct ra; cbn [andb].
    + destruct re; cbn [andb]; [apply rpower_mono; lra|]. apply Rle_lt_trans with (Rpower (IZR b) y); [apply rpower_mono; lra|apply rpower_lt_exp; lra].
    + assert (Q1 : 0 < IZR q) by (apply IZR_lt; lia).
      apply Rle_lt_trans with (Rpower x (IZR q)); [apply rpower_mono; lra|]. apply rpower_lt_base; lra.
Qed.
Print Assumptions C92_pow_box_partial.

(** with open ends the result can lose powers: 5/2 to the 0 is not in (2,3] to the [0,1] *)
Theorem C92_pow_box_refuted M at2 : let a := Itv (NI 2) (NI 3) false true in let e := iv 0 1 in
  both a e /\ memberR a (5 / 2) /\ memberR e 0 /\ exists c, operate2 M at2 false NT_POW a e = Ok c /\ ~ memberR c (Rpower (5 / 2) 0).
Proof.
  cbn zeta. split; [split; [split|split]|].
  - left. intros x [<-|[<-|[]]]; split; cbn; lia.
  - intros x [<-|[<-|[]]]; split; exact Logic.I.
  - exists (5 # 2)%Q. split; cbn; unfold ltX, leX, eqX; cbn; reflexivity || (left; reflexivity).
  - exists 0%Q. split; cbn; [right; reflexivity|left; reflexivity].
  - split; [split; cbn; unfold Q2R; cbn; lra|]. split; [split; cbn; unfold Q2R; cbn; lra|].
    eexists. split; [vm_compute; reflexivity|]. intros (A & _). cbn in A. rewrite Rpower_O in A by lra. unfold Q2R in A. cbn in A. lra.
Qed.
Print Assumptions C92_pow_box_refuted.
(** non-vacuity: [2,3] to the [1,2] contains (5/2)^(3/2) and has bounds 2 and 9 *)
Example pow_box_ex : exists e, operate2 M0 (fun _ _ => Ok EmptyI) false NT_POW (iv 2 3) (iv 1 2) = Ok e /\ lo e = NI 2 /\ hi e = NI 9 /\ memberR e (Rpower (5 / 2) (3 / 2)).
Proof.
  destruct (C92_pow_box_partial M0 (fun _ _ => Ok EmptyI) 2 3 1 2 true true true true ltac:(lia) ltac:(lia) ltac:(lia) ltac:(left; repeat split)) as (e & E & L & H & X).
  exists e. split; [exact E|]. split; [exact L|]. split; [exact H|]. apply X; split; cbn; unfold Q2R; cbn; lra.
Qed.
