(** Further theorems on C38 (multiplication by 0), C44 (options after a script) and C65 (interval arithmetic of values). *)
From Coq Require Import QArith Lqa.
From Verif Require Import Base NumModel RoundModel NumSpec NumProofs NumMore PropsNum ValueModel ValueSpec ValueProofs PropsValue.
Open Scope Z_scope.
Local Notation R := rn128.

(** * C38 *)
(** a non-empty closed interval times 0 is {0} *)
Theorem C38_mul_zero_partial a q : good [a] -> lc a = true -> rc a = true -> inhabited a ->
  (member (i_mulN R a (NI 0)) q <-> exists x, member a x /\ (q == x * 0)%Q).
Proof.
  intros G C1 C2 (x & Hx).
  assert (E : isEmptyI R a = false).
  { destruct G as [[G|G] W].
    - apply (emp_f R fits fits_nn fits_lt fits_eq fits_le a); [eapply PIf; [exact G|exact W|cbn; tauto]|]. now exists x.
    - apply (emp_f R whole whole_nn (whole_lt R) (whole_eq R) (whole_le R) a); [eapply PIw; [exact G|exact W|cbn; tauto]|]. now exists x. }
  unfold i_mulN. rewrite E. change (n_gt R (NI 0) (NI 0)) with false. change (n_lt R (NI 0) (NI 0)) with false. cbn iota. rewrite C1, C2. cbn [andb].
  unfold member, above, below, leX. cbn [lo hi lc rc val eqX ltX]. split.
  - intros H. exists x. split; [exact Hx|]. change (inject_Z 0) with 0%Q in H. lra.
  - intros (y & _ & K). change (inject_Z 0) with 0%Q. assert (q == 0)%Q by (rewrite K; ring). lra.
Qed.
(** if a bound is open the product is empty *)
Theorem C38_mul_zero_refuted : (forall a, lc a && rc a = false -> i_mulN R a (NI 0) = EmptyI) /\
  (let a := Itv (NI 0) (NI 1) true false in member a 0 /\ ~ member (i_mulN R a (NI 0)) (0 * 0)).
Proof.
  split.
  - intros a H. unfold i_mulN. destruct (isEmptyI R a); [reflexivity|]. change (n_gt R (NI 0) (NI 0)) with false. change (n_lt R (NI 0) (NI 0)) with false. cbn iota. now rewrite H.
  - split; [mem; lia|]. mem; lia.
Qed.

(** * C65 *)
(** [v] holds an interval with exactly the members [P] *)
Definition vset (v : Val) (P : Q -> Prop) : Prop := exists i, vholds v (CItv i) /\ forall q, member i q <-> P q.
Lemma vset_itv i P : (forall q, member i q <-> P q) -> vset (vItv i) P.
Proof. intros H. exists i. split; [exact (construct_holds (CItv i))|exact H]. Qed.
Lemma good2 a b c d : good [iv a b; iv c d].
Proof. split; [right|]; (intros i [<-|[<-|[]]]; [split; exact I|split; exact I]). Qed.
(** sums, differences and products of the intervals [a, b] and [c, d] *)
Theorem C65_interval_arith v w a b c d : vholds v (CItv (iv a b)) -> vholds w (CItv (iv c d)) ->
  let all g q := exists x y, (inject_Z a <= x <= inject_Z b)%Q /\ (inject_Z c <= y <= inject_Z d)%Q /\ (q == g x y)%Q in
  (exists u, v_add R v w = Ok u /\ vset u (all Qplus)) /\
  (exists u, v_sub R v w = Ok u /\ vset u (all Qminus)) /\
  (~ (a = c /\ b = d /\ a <= 0 <= b) -> exists u, v_mul R v w = Ok u /\ vset u (all Qmult)).
Proof.
  intros V W all.
  assert (Mi : forall j k x, member (iv j k) x <-> (inject_Z j <= x <= inject_Z k)%Q).
  { intros j k x. unfold member, above, below, leX. cbn. lra. }
  split; [|split].
  - eexists. split.
    + unfold v_add. destruct V as (T1 & V'), W as (T2 & W'). rewrite T1, T2. cbn [ctype]. rewrite (itv2 _ _ v w _ _ (conj T1 V') (conj T2 W')). cbn [bind]. reflexivity.
    + apply vset_itv. intros q. rewrite (C38_add_partial (iv a b) (iv c d) q (good2 a b c d)).
      * unfold all. split; intros (x & y & X & Y & K); exists x, y; (split; [apply Mi; exact X|split; [apply Mi; exact Y|exact K]]).
      * cbn. now rewrite inject_Z_plus.
      * cbn. now rewrite inject_Z_plus.
  - eexists. split.
    + unfold v_sub. rewrite (itv2 _ _ v w _ _ V W). cbn [bind]. reflexivity.
    + apply vset_itv. intros q. rewrite (C38_sub_partial (iv a b) (iv c d) q (good2 a b c d)).
      * unfold all. split; intros (x & y & X & Y & K); exists x, y; (split; [apply Mi; exact X|split; [apply Mi; exact Y|exact K]]).
      * cbn. unfold Z.sub. now rewrite inject_Z_plus, inject_Z_opp.
      * cbn. unfold Z.sub. now rewrite inject_Z_plus, inject_Z_opp.
  - intros N. eexists. split.
    + unfold v_mul. rewrite (itv2 _ _ v w _ _ V W). cbn [bind]. reflexivity.
    + apply vset_itv. intros q. apply (C38_mul_int a b c d q N).
Qed.
(** a number and an interval do not mix, in either order; nor do strings and Booleans with anything but strings under + *)
Theorem C65_arith_mixed dbg v w c d : vholds v c -> vholds w d ->
  ctype c <> ctype d \/ ctype c = VT_BOOLEAN -> is_throw (v_add R v w) /\ is_throw (v_sub R v w) /\ is_throw (v_mul R v w) /\ is_throw (v_div R dbg v w).
Proof.
  intros (T1 & _) (T2 & _) N. unfold is_throw, v_add, v_sub, v_mul, v_div, v_op2. rewrite T1, T2. destruct c, d; cbn [ctype] in *; (destruct N as [N|N]; [now elim N|discriminate]) || auto.
Qed.
Example C65_interval_case : let v := construct (CItv (iv 1 2)) in let w := construct (CItv (iv (-3) 5)) in
  vholds v (CItv (iv 1 2)) /\ vholds w (CItv (iv (-3) 5)) /\ (exists u, v_sub R v w = Ok u /\ vholds u (CItv (iv (-4) 5))).
Proof. cbn zeta. split; [apply construct_holds|]. split; [apply construct_holds|]. eexists. split; [vm_compute; reflexivity|]. exact (construct_holds (CItv (iv (-4) 5))). Qed.
Print Assumptions C38_mul_zero_partial.
Print Assumptions C38_mul_zero_refuted.
Print Assumptions C65_interval_arith.
Print Assumptions C65_arith_mixed.
