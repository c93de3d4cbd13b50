(** Further theorems for C38, C40 and C51/C52, added after tests of the other theorems against wrong programs. *)
From Coq Require Import QArith Lia Lqa.
From Verif Require Import Base NumModel RoundModel NumSpec NumProofs NumMore PropsNum.
Open Scope Z_scope.
Local Notation R := rn128.

Lemma whole_ne a q : ibounds whole [a] -> iwf a -> member a q -> isEmptyI R a = false.
Proof.
  intros W F M. apply (emp_f R whole whole_nn (whole_lt R) (whole_eq R) (whole_le R)).
  - apply (PIw a [a]); [exact W|intros x [<-|[]]; exact F|now left].
  - now exists q.
Qed.
Lemma empty_no q : ~ member EmptyI q.
Proof. intros [A B]. change (1 < q)%Q in A. change (q < -1)%Q in B. Lqa.lra. Qed.
Lemma dec_as_add m : whole m -> n_sub R m (NI 1) = n_add R m (NI (-1)).
Proof. destruct m as [z|[|s|x]]; cbn; intros H; [f_equal; lia|contradiction|reflexivity|contradiction]. Qed.
Lemma step_const m k : whole m -> eqX (val (n_add R m (NI k))) (xs (val m) (Fin (inject_Z k))).
Proof. destruct m as [z|[|s|x]]; cbn; intros H; [rewrite inject_Z_plus; reflexivity|contradiction|reflexivity|contradiction]. Qed.

(** ** C38: the operators ++ and -- move every member by one (whole bounds) *)
Theorem C38_increment_partial a q : ibounds whole [a] -> iwf a -> (member (i_inc R a) q <-> exists x, member a x /\ (q == x + 1)%Q).
Proof.
  intros W F. destruct (W a (or_introl eq_refl)) as [Wl Wh].
  assert (A : member (i_addN R a (NI 1)) q <-> exists x, member a x /\ (q == x + 1)%Q).
  { apply C38_add_const_partial; [exact (Qeq_refl _)| |]; apply step_const; assumption. }
  unfold i_inc. destruct (isEmptyI R a) eqn:E; [|exact A].
  split.
  - intros M. exfalso. revert M. apply (empty_no q).
  - intros (x & M & _). rewrite (whole_ne a x W F M) in E. discriminate E.
Qed.
Theorem C38_decrement_partial a q : ibounds whole [a] -> iwf a -> (member (i_dec R a) q <-> exists x, member a x /\ (q == x - 1)%Q).
Proof.
  intros W F. destruct (W a (or_introl eq_refl)) as [Wl Wh].
  assert (A : member (i_addN R a (NI (-1))) q <-> exists x, member a x /\ (q == x + - (1))%Q).
  { apply C38_add_const_partial; [exact (Qeq_refl _)| |]; apply step_const; assumption. }
  unfold i_dec. destruct (isEmptyI R a) eqn:E.
  - split.
    + intros M. exfalso. revert M. apply (empty_no q).
    + intros (x & M & _). rewrite (whole_ne a x W F M) in E. discriminate E.
  - rewrite !dec_as_add by assumption. exact A.
Qed.
Print Assumptions C38_increment_partial.
Print Assumptions C38_decrement_partial.
Example C38_ex_step : member (i_inc R (iv 1 3)) 4 /\ ~ member (i_inc R (iv 1 3)) 1 /\ member (i_dec R (iv 1 3)) 0 /\ ~ member (i_dec R (iv 1 3)) 3 /\
  (exists x, member (iv 1 3) x /\ (4 == x + 1)%Q) /\ ibounds whole [iv 1 3] /\ iwf (iv 1 3).
Proof.
  repeat split; try (vm_compute; intuition congruence).
  - exists 3%Q. vm_compute. intuition congruence.
  - destruct H as [<-|[]]; exact Logic.I.
  - destruct H as [<-|[]]; exact Logic.I.
Qed.

(** ** C40: % by a number that is not an INT always throws: its value is taken to be 0 *)
Theorem C40_mod_real_refuted : forall a x, n_mod false a (NR x) = Throw DomainError.
Proof. reflexivity. Qed.
Print Assumptions C40_mod_real_refuted.
(** and a real dividend counts as 0 *)
Theorem C40_mod_real_dividend_refuted : forall x y, y <> 0 -> n_mod false (NR x) (NI y) = Ok (NI 0).
Proof. intros x y H. unfold n_mod, n_ip. cbn [condAssert bind]. now rewrite (proj2 (Z.eqb_neq y 0) H). Qed.
Print Assumptions C40_mod_real_dividend_refuted.
Example C40_ex_mod_real : n_mod false (NI 7) (NR (Fin 2)) = Throw DomainError /\ n_mod false (NR (Fin (15 # 2))) (NI 2) = Ok (NI 0) /\ n_mod false (NI 7) (NI 2) = Ok (NI 1).
Proof. repeat split; vm_compute; reflexivity. Qed.

(** ** C51, C52: the two-argument logarithm *)
From Verif Require Import KindModel SortModel SortProofs TermModel SimpModel OpModel OpSpec ParseModel CtorModel CtorSpec PropsCtor.
Definition numeric (t : term) : Prop := typed t TInt \/ typed t TReal.
Lemma nonconst t : isConst t = false -> isCInt t = false /\ isCReal t = false.
Proof. destruct t as [k s n ch]. destruct k; cbn; intros H; try discriminate H; auto. Qed.
Lemma log_folds c l r : isConst l = false \/ isConst r = false -> simp2 c NT_LOG l r = Ok UNKNOWN.
Proof.
  intros H. unfold simp2. assert (X : (isCInt l && isCInt r = false) /\ (isCReal l && isCReal r = false) /\ (isCInt l && isCReal r = false) /\ (isCReal l && isCInt r = false)).
  { destruct H as [H|H]; apply nonconst in H; destruct H as [-> ->]; rewrite ?andb_false_r; auto. }
  destruct X as (-> & -> & -> & ->). cbn [orb]. rewrite andb_false_r. reflexivity.
Qed.
Theorem C51_log : forall x ptr p l r, numeric l -> numeric r -> isConst l = false \/ isConst r = false -> mget (L "log") (p_fun p) = None ->
  parseOper (with_ops x ptr) p (L "log") [] [l; r] = Ok (T NT_LOG realS (L "log") [l; r]).
Proof.
  intros x ptr p l r Hl Hr Hc M. 
  assert (E : parseOper (with_ops x ptr) p (L "log") [] [l; r] = mkLog (x_c x) l r) by (unfold parseOper; rewrite M; reflexivity).
  rewrite E. unfold mkLog. assert (C : compat (t_sort l) (t_sort r) = Ok true).
  { destruct l as [k1 s1 n1 c1], r as [k2 s2 n2 c2]. unfold numeric, typed in Hl, Hr. cbn in Hl, Hr |- *.
    destruct Hl as [[->| ->]|[->| ->]], Hr as [[->| ->]|[->| ->]]; reflexivity. }
  rewrite C. cbn [bind]. unfold mkOper. change (simp (x_c x) NT_LOG [l; r]) with (simp2 (x_c x) NT_LOG l r). rewrite (log_folds _ _ _ Hc). reflexivity.
Qed.
Theorem C52_log_rejected : forall x ptr p l r y, numeric l -> typed r y -> y <> TInt -> y <> TReal -> mget (L "log") (p_fun p) = None ->
  parseOper (with_ops x ptr) p (L "log") [] [l; r] = Exit /\ parseOper (with_ops x ptr) p (L "log") [] [r; l] = Exit.
Proof.
  intros x ptr p l r y Hl Hr N1 N2 M.
  assert (E : forall a b, parseOper (with_ops x ptr) p (L "log") [] [a; b] = mkLog (x_c x) a b) by (intros; unfold parseOper; rewrite M; reflexivity).
  rewrite !E. unfold mkLog. assert (C : compat (t_sort l) (t_sort r) = Ok false /\ compat (t_sort r) (t_sort l) = Ok false).
  { destruct l as [k1 s1 n1 c1], r as [k2 s2 n2 c2]. unfold numeric, typed in Hl, Hr. cbn in Hl, Hr |- *.
    destruct y; try congruence; cbn in Hr; try (destruct Hr as (n & Hr)); subst s2;
    destruct Hl as [[->| ->]|[->| ->]]; split; reflexivity. }
  destruct C as [-> ->]. split; reflexivity.
Qed.
Print Assumptions C51_log.
Print Assumptions C52_log_rejected.
Example C51_ex_log : reads "(log 2 x)" = Ok (T NT_LOG realS (L "log") [mkConstInt 2; OpExamples.ivar (L "x")]) /\ reads "(log x u)" = Exit /\ reads "(log u x)" = Exit.
Proof. repeat split; vm_compute; reflexivity. Qed.
