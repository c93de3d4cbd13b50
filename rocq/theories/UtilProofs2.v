(** Proofs about StringUtils and the escape functions. *)
From Coq Require Import ZifyBool ZifyNat.
From Verif Require Import Base UtilModel UtilSpec BVProofs BVProofs2 UtilProofs.

(** strings short enough to exist as a std::string *)
Definition sfits (s : str) : Prop := zlen s + 2 <= str_max.

Lemma quote_Q s : quote s = Q s. Proof. reflexivity. Qed.
Lemma last_app1 (s : str) (c d : ascii) : last (s ++ [c]) d = c.
Proof. apply last_last. Qed.
Lemma clean_Q s : sfits s -> clean (Q s) = Ok s.
Proof.
  intros H. unfold clean, Q. change (aeq """" dq) with true. cbn [andb].
  replace (last (""""%char :: s ++ [""""%char]) nul) with """"%char.
  2:{ change (""""%char :: s ++ [""""%char]) with ((""""%char :: s) ++ [""""%char]). now rewrite last_app1. }
  change (aeq """" dq) with true. cbn iota. unfold sfits, str_max in H. unfold substr, zlen in *.
  cbn [length]. rewrite app_length. cbn [length].
  destruct (Z.ltb_spec (Z.of_nat (S (length s + 1))) 1); [lia|]. cbn [Z.to_nat Pos.to_nat Pos.iter_op skipn].
  f_equal. rewrite u64_id by (unfold two64; lia).
  replace (Z.to_nat (Z.min (Z.of_nat (S (length s + 1)) - 2) (Z.of_nat (S (length s + 1)) - 1))) with (length s) by lia.
  change (skipn (Pos.to_nat 1) (""""%char :: s ++ [""""%char])) with (s ++ [""""%char]).
  rewrite firstn_app, Nat.sub_diag, firstn_all. apply app_nil_r.
Qed.
Lemma is_prefix_spec p : forall s, is_prefix p s = true <-> exists r, s = p ++ r.
Proof.
  induction p as [|a p IH]; intros s; cbn [is_prefix].
  - split; [intros _; now exists s|reflexivity].
  - destruct s as [|b s].
    + split; [discriminate|]. intros [r E]. discriminate.
    + rewrite andb_true_iff, aeq_spec, IH. split.
      * intros [-> [r ->]]. now exists r.
      * intros [r E]. injection E as -> ->. split; [reflexivity|now exists r].
Qed.
Lemma find_go_spec t : forall s p0,
  match find_go t s p0 with
  | Some p => exists a b, s = a ++ t ++ b /\ p = (p0 + length a)%nat /\
                forall q, Occurs t s q -> (length a <= q)%nat
  | None => ~ Contains t s
  end.
Proof.
  induction s as [|c s IH]; intros p0; cbn [find_go].
  - destruct (is_prefix t []) eqn:E.
    + apply is_prefix_spec in E. destruct E as [r Er]. exists [], r. split; [assumption|]. split; [cbn; lia|]. cbn. lia.
    + intros (p & a & b & E2 & _). symmetry in E2. apply app_eq_nil in E2 as [-> E2]. apply app_eq_nil in E2 as [-> ->].
      cbn in E. discriminate.
  - destruct (is_prefix t (c :: s)) eqn:E.
    + apply is_prefix_spec in E. destruct E as [r Er]. exists [], r. split; [assumption|]. split; [cbn; lia|]. cbn. lia.
    + specialize (IH (S p0)). destruct (find_go t s (S p0)) as [p|].
      * destruct IH as (a & b & -> & -> & M). exists (c :: a), b. split; [reflexivity|]. split; [cbn; lia|].
        intros q (a' & b' & Eq & Hl). destruct a' as [|x a'].
        -- exfalso. assert (is_prefix t (c :: a ++ t ++ b) = true) by (apply is_prefix_spec; now exists b'). congruence.
        -- cbn [app] in Eq. injection Eq as -> Eq. cbn in Hl |- *. subst q.
           specialize (M (length a') (ex_intro _ a' (ex_intro _ b' (conj Eq eq_refl)))). lia.
      * intros (q & a' & b' & Eq & Hl). destruct a' as [|x a'].
        -- assert (is_prefix t (c :: s) = true) by (apply is_prefix_spec; now exists b'). congruence.
        -- cbn [app] in Eq. injection Eq as -> Eq. apply IH. exists (length a'), a', b'. auto.
Qed.
Lemma occurs_skip t s k q : (k <= length s)%nat -> (Occurs t (skipn k s) q <-> Occurs t s (k + q)).
Proof.
  intros Hk. split.
  - intros (a & b & E & Hl). exists (firstn k s ++ a), b. rewrite <- app_assoc, <- E, firstn_skipn. split; [reflexivity|].
    rewrite app_length, firstn_length. lia.
  - intros (a & b & E & Hl). exists (skipn k a), b. split.
    + rewrite E, skipn_app. replace (k - length a)%nat with O by lia. reflexivity.
    + rewrite skipn_length. lia.
Qed.
Lemma find_from_spec t s k : (k <= length s)%nat ->
  match find_from t s k with
  | Some p => Occurs t s p /\ (k <= p)%nat /\ forall q, Occurs t s q -> (k <= q)%nat -> (p <= q)%nat
  | None => forall q, Occurs t s q -> (k <= q)%nat -> False
  end.
Proof.
  intros Hk. unfold find_from. destruct (Nat.ltb_spec (length s) k) as [?|_]; [lia|].
  pose proof (find_go_spec t (skipn k s) k) as H. destruct (find_go t (skipn k s) k) as [p|].
  - destruct H as (a & b & E & -> & M). split; [|split; [lia|]].
    + apply occurs_skip; [assumption|]. now exists a, b.
    + intros q Hq Hle. replace q with (k + (q - k))%nat in Hq by lia.
      apply occurs_skip in Hq; [|assumption]. apply M in Hq. lia.
  - intros q Hq Hle. apply H. exists (q - k)%nat. apply occurs_skip; [assumption|].
    now replace (k + (q - k))%nat with q by lia.
Qed.
Lemma occurs_bound t s p : Occurs t s p -> (p + length t <= length s)%nat.
Proof. intros (a & b & -> & <-). rewrite !app_length. lia. Qed.
Lemma find_zero_spec t s :
  match find_from t s 0 with
  | Some p => exists b, First t s (firstn p s) b /\ b = skipn (p + length t) s /\ (p + length t <= length s)%nat
  | None => ~ Contains t s
  end.
Proof.
  pose proof (find_from_spec t s 0 ltac:(lia)) as H. destruct (find_from t s 0) as [p|].
  - destruct H as ((a & b & E & Hl) & _ & M). exists b.
    assert (Ha : a = firstn p s). { rewrite E, <- Hl, firstn_app, Nat.sub_diag, firstn_all. cbn. now rewrite app_nil_r. }
    assert (Hb : b = skipn (p + length t) s).
    { rewrite E, <- Hl. rewrite app_assoc, skipn_app, app_length, Nat.sub_diag.
      rewrite skipn_all2 by (rewrite app_length; lia). reflexivity. }
    split; [|split; [assumption|]].
    + unfold First. rewrite <- Ha. split; [assumption|]. intros q Hq. rewrite Hl. apply M; [assumption|lia].
    + apply occurs_bound. now exists a, b.
  - intros [q Hq]. now apply (H q Hq ltac:(lia)).
Qed.

(** substr *)
Lemma strSubstr_ok s i j : sfits s -> 0 <= i < two64 -> 0 <= j < two64 ->
  strSubstr (Q s) i j = Ok (Q (substrS s i j)).
Proof.
  intros Hs Hi Hj. unfold strSubstr. rewrite clean_Q by assumption. cbn [bind].
  rewrite !toULong_ok by assumption. cbn [bind]. unfold zlen.
  unfold substrS. unfold sfits, zlen, str_max in Hs.
  destruct (Z.leb_spec (Z.of_nat (length s)) i) as [Hge|Hlt].
  - destruct (0 <=? i); destruct (Z.ltb_spec i (Z.of_nat (length s))); try lia; cbn [andb]; reflexivity.
  - destruct (Z.leb_spec 0 i); [|lia]. destruct (Z.ltb_spec i (Z.of_nat (length s))); [|lia]. cbn [andb].
    unfold substr, zlen. destruct (Z.ltb_spec (Z.of_nat (length s)) i); [lia|]. cbn [bind]. f_equal. rewrite quote_Q. f_equal.
    set (r := if Z.of_nat (length s) <? u64 (i + j) then u64 (Z.of_nat (length s) - i) else j).
    assert (R : Z.min r (Z.of_nat (length s) - i) = Z.min j (Z.of_nat (length s) - i)).
    { unfold r, u64, two64 in *. rewrite (Z.mod_small (Z.of_nat (length s) - i)) by lia.
      assert (H64 : (i + j) mod 18446744073709551616 = i + j \/ (i + j) mod 18446744073709551616 = i + j - 18446744073709551616).
      { destruct (Z.lt_ge_cases (i + j) 18446744073709551616); [left; apply Z.mod_small; lia|right].
        symmetry. apply Z.mod_unique with (q := 1); lia. }
      destruct (Z.ltb_spec (Z.of_nat (length s)) ((i + j) mod 18446744073709551616)); lia. }
    rewrite R. unfold sub. destruct (Z.ltb_spec 0 j).
    + destruct (Z.le_gt_cases j (Z.of_nat (length s) - i)).
      * now rewrite Z.min_l by lia.
      * rewrite Z.min_r by lia. rewrite !firstn_all2; [reflexivity| |]; rewrite skipn_length; lia.
    + rewrite Z.min_l by lia. replace (Z.to_nat j) with O by lia. reflexivity.
Qed.
Lemma strSubstr_neg s i j : sfits s -> i < 0 \/ (0 <= i < two64 /\ j < 0) ->
  strSubstr (Q s) i j = Throw OverflowError.
Proof.
  intros Hs H. unfold strSubstr. rewrite clean_Q by assumption. cbn [bind]. unfold toULong.
  destruct H as [H|[H1 H2]].
  - destruct (Z.ltb_spec i 0); [reflexivity|lia].
  - destruct (Z.ltb_spec i 0); [lia|]. destruct (Z.leb_spec two64 i); [lia|]. cbn [orb bind].
    destruct (Z.ltb_spec j 0); [reflexivity|lia].
Qed.

Lemma firstn_eq_prefix (s t : str) : firstn (length s) t = s <-> exists r, t = s ++ r.
Proof.
  split.
  - intros H. exists (skipn (length s) t). rewrite <- H at 1. symmetry. apply firstn_skipn.
  - intros [r ->]. rewrite firstn_app, Nat.sub_diag, firstn_all. apply app_nil_r.
Qed.
Lemma strPrefixof_ok s t : sfits s -> sfits t ->
  exists b, strPrefixof (Q s) (Q t) = Ok b /\ (b = true <-> exists r, t = s ++ r).
Proof.
  intros Hs Ht. unfold strPrefixof. rewrite !clean_Q by assumption. cbn [bind]. unfold zlen.
  destruct (Z.ltb_spec (Z.of_nat (length t)) (Z.of_nat (length s))).
  - exists false. split; [reflexivity|]. split; [discriminate|]. intros [r ->]. rewrite app_length in *. lia.
  - unfold substr, zlen. destruct (Z.ltb_spec (Z.of_nat (length t)) 0); [lia|]. cbn [bind].
    eexists. split; [reflexivity|]. rewrite seq_str_spec. cbn [skipn Z.to_nat].
    replace (Z.to_nat (Z.min (Z.of_nat (length s)) (Z.of_nat (length t) - 0))) with (length s) by lia.
    apply firstn_eq_prefix.
Qed.
Lemma strSuffixof_ok s t : sfits s -> sfits t ->
  exists b, strSuffixof (Q s) (Q t) = Ok b /\ (b = true <-> exists r, t = r ++ s).
Proof.
  intros Hs Ht. unfold strSuffixof. rewrite !clean_Q by assumption. cbn [bind]. unfold zlen.
  destruct (Z.ltb_spec (Z.of_nat (length t)) (Z.of_nat (length s))).
  - exists false. split; [reflexivity|]. split; [discriminate|]. intros [r ->]. rewrite app_length in *. lia.
  - unfold substr, zlen. destruct (Z.ltb_spec (Z.of_nat (length t)) (Z.of_nat (length t) - Z.of_nat (length s))); [lia|]. cbn [bind].
    eexists. split; [reflexivity|]. rewrite seq_str_spec.
    replace (Z.to_nat (Z.of_nat (length t) - Z.of_nat (length s))) with (length t - length s)%nat by lia.
    rewrite firstn_all2 by (rewrite skipn_length; lia). split.
    + intros E. exists (firstn (length t - length s) t). rewrite <- (firstn_skipn (length t - length s) t) at 1. now rewrite E.
    + intros [r ->]. rewrite app_length, Nat.add_sub, skipn_app, Nat.sub_diag, skipn_all. reflexivity.
Qed.
Lemma strContains_ok s t : sfits s -> sfits t ->
  exists b, strContains (Q s) (Q t) = Ok b /\ (b = true <-> Contains t s).
Proof.
  intros Hs Ht. unfold strContains. rewrite !clean_Q by assumption. cbn [bind].
  eexists. split; [reflexivity|]. pose proof (find_zero_spec t s) as H. destruct (find_from t s 0) as [p|].
  - split; [intros _|reflexivity]. destruct H as (b & (E & _) & _). eexists. exists (firstn p s), b. split; [exact E|reflexivity].
  - split; [discriminate|]. intros H2. contradiction.
Qed.
Lemma strIndexof_ok s t i : sfits s -> sfits t -> 0 <= i < two64 ->
  exists r, strIndexof (Q s) (Q t) i = Ok r /\ IndexOf s t i r.
Proof.
  intros Hs Ht Hi. unfold strIndexof. rewrite !clean_Q by assumption. cbn [bind].
  rewrite toULong_ok by assumption. cbn [bind]. unfold zlen.
  destruct (Z.ltb_spec (Z.of_nat (length s)) i).
  - exists (-1). split; [reflexivity|]. right. split; [reflexivity|]. intros (_ & p & Hp & Ho).
    apply occurs_bound in Ho. lia.
  - eexists. split; [reflexivity|]. pose proof (find_from_spec t s (Z.to_nat i) ltac:(lia)) as H1.
    destruct (find_from t s (Z.to_nat i)) as [p|].
    + left. destruct H1 as (Ho & Hp & M). exists p. split; [reflexivity|]. split; [lia|]. split; [assumption|].
      intros q Hq Hl. apply M; [assumption|lia].
    + right. split; [reflexivity|]. intros (_ & p & Hp & Ho). apply (H1 p Ho). lia.
Qed.
Lemma strCharAt_ok s i : sfits s -> 0 <= i <= zlen s -> strCharAt (Q s) i = Ok (Q (atS s i)).
Proof.
  intros Hs Hi. unfold sfits, str_max in Hs. unfold strCharAt. rewrite clean_Q by assumption. cbn [bind].
  rewrite toULong_ok by (unfold two64; lia). cbn [bind]. unfold substr. destruct (Z.ltb_spec (zlen s) i); [lia|].
  cbn [bind]. f_equal. rewrite quote_Q. f_equal. unfold atS, substrS, sub, zlen in *.
  destruct (Z.leb_spec 0 i); [|lia]. destruct (Z.ltb_spec i (Z.of_nat (length s))); cbn [andb].
  - change (0 <? 1) with true. cbn iota. now rewrite Z.min_l by lia.
  - rewrite Z.min_r by lia. replace (Z.to_nat (Z.of_nat (length s) - i)) with O by lia. reflexivity.
Qed.
Lemma strCharAt_out s i : sfits s -> (i < 0 -> strCharAt (Q s) i = Throw OverflowError) /\
  (zlen s < i < two64 -> strCharAt (Q s) i = Throw OutOfRange).
Proof.
  intros Hs. unfold strCharAt. rewrite clean_Q by assumption. cbn [bind]. unfold toULong. split; intros H.
  - destruct (Z.ltb_spec i 0); [reflexivity|lia].
  - unfold zlen in *. destruct (Z.ltb_spec i 0); [lia|]. destruct (Z.leb_spec two64 i); [lia|]. cbn [orb bind].
    unfold substr, zlen. destruct (Z.ltb_spec (Z.of_nat (length s)) i); [reflexivity|lia].
Qed.
Lemma strUpdate_ok s i t : sfits s -> sfits t -> 0 <= i -> i + zlen t <= zlen s ->
  strUpdate (Q s) i (Q t) = Ok (Q (sub s 0 i ++ t ++ sub s (i + zlen t) (zlen s))).
Proof.
  intros Hs Ht Hi Hl. unfold strUpdate. rewrite !clean_Q by assumption. cbn [bind].
  unfold sfits, str_max in *. assert (0 <= zlen t) by (unfold zlen; lia).
  rewrite toULong_ok by (unfold two64; lia). cbn [bind]. unfold substr.
  destruct (Z.ltb_spec (zlen s) 0); [lia|]. cbn [bind].
  rewrite !u64_id by (unfold two64; lia). destruct (Z.ltb_spec (zlen s) (i + zlen t)); [lia|]. cbn [bind].
  f_equal. rewrite quote_Q. unfold sub. do 2 f_equal.
  - f_equal. lia.
  - f_equal. rewrite !firstn_all2; [reflexivity| |]; rewrite skipn_length; unfold zlen in *; lia.
Qed.
Lemma substr_firstn s p : (p <= length s)%nat -> substr s 0 (Z.of_nat p) = Ok (firstn p s).
Proof.
  intros H. unfold substr, zlen. destruct (Z.ltb_spec (Z.of_nat (length s)) 0); [lia|]. f_equal.
  cbn [skipn Z.to_nat]. f_equal. lia.
Qed.
Lemma substr_skipn s p : sfits s -> (p <= length s)%nat -> substr s (Z.of_nat p) npos = Ok (skipn p s).
Proof.
  intros Hs H. unfold sfits, str_max, substr, zlen, npos, two64 in *.
  destruct (Z.ltb_spec (Z.of_nat (length s)) (Z.of_nat p)); [lia|]. f_equal. rewrite Nat2Z.id.
  apply firstn_all2. rewrite skipn_length. lia.
Qed.
Lemma strReplace_ok s t u : sfits s -> sfits t -> sfits u ->
  exists r, strReplace (Q s) (Q t) (Q u) = Ok (Q r) /\ Replace t u s r.
Proof.
  intros Hs Ht Hu. unfold strReplace. rewrite !clean_Q by assumption. cbn [bind].
  pose proof (find_zero_spec t s) as H. destruct (find_from t s 0) as [p|].
  - destruct H as (b & F & Eb & Hl). rewrite substr_firstn by lia. cbn [bind]. unfold zlen. rewrite <- Nat2Z.inj_add.
    rewrite substr_skipn by (assumption || lia). cbn [bind]. rewrite <- Eb. eexists. split; [reflexivity|].
    now constructor.
  - exists s. split; [reflexivity|now constructor].
Qed.

(** replace_all *)
Lemma occurs_app_pre t x s k : Occurs t (x ++ s) (length x + k) <-> Occurs t s k.
Proof.
  split.
  - intros (a & b & E & Hl).
    assert (Ha : a = x ++ skipn (length x) a).
    { pose proof (f_equal (firstn (length x)) E) as E2. rewrite !firstn_app, Nat.sub_diag, firstn_all in E2.
      replace (length x - length a)%nat with O in E2 by lia. cbn [firstn] in E2. rewrite !app_nil_r in E2.
      rewrite E2 at 1. symmetry. apply firstn_skipn. }
    rewrite Ha in E. rewrite <- app_assoc in E. apply app_inv_head in E. exists (skipn (length x) a), b.
    split; [assumption|]. rewrite skipn_length. lia.
  - intros (a & b & -> & <-). exists (x ++ a), b. rewrite <- !app_assoc. split; [reflexivity|]. now rewrite app_length.
Qed.
Lemma find_from_pre t x s : find_from t (x ++ s) (length x) =
  match find_from t s 0 with Some p => Some (length x + p)%nat | None => None end.
Proof.
  pose proof (find_from_spec t (x ++ s) (length x) ltac:(rewrite app_length; lia)) as H1.
  pose proof (find_from_spec t s 0 ltac:(lia)) as H2.
  destruct (find_from t (x ++ s) (length x)) as [p|], (find_from t s 0) as [q|]; try reflexivity.
  - f_equal. destruct H1 as (O1 & L1 & M1), H2 as (O2 & L2 & M2).
    replace p with (length x + (p - length x))%nat in O1 by lia. apply (proj1 (occurs_app_pre _ _ _ _)) in O1.
    apply (proj2 (occurs_app_pre t x _ _)) in O2. specialize (M1 _ O2 ltac:(lia)). specialize (M2 _ O1 ltac:(lia)). lia.
  - exfalso. destruct H1 as (O1 & L1 & M1). replace p with (length x + (p - length x))%nat in O1 by lia.
    apply (proj1 (occurs_app_pre _ _ _ _)) in O1. now apply (H2 _ O1); lia.
  - exfalso. destruct H2 as (O2 & L2 & M2). apply (proj2 (occurs_app_pre t x _ _)) in O2. now apply (H1 _ O2); lia.
Qed.
(** every intermediate string fits, assumed as a bound on the final lengths *)
Lemma repl_loop_ok t u : t <> [] -> forall fuel s x,
  (length s < fuel)%nat ->
  (forall n, (n <= length s)%nat -> Z.of_nat (length x + n + n * length u) + 2 <= str_max) ->
  exists r, repl_loop fuel t u (x ++ s) (find_from t (x ++ s) (length x)) = Ok (x ++ r) /\ ReplaceAll t u s r.
Proof.
  intros Ht. induction fuel as [|f IH]; intros s x Hf Hb; [lia|].
  rewrite find_from_pre. pose proof (find_zero_spec t s) as H. destruct (find_from t s 0) as [p|].
  - destruct H as (b & F & Eb & Hl). cbn [repl_loop].
    rewrite substr_firstn by (rewrite app_length; lia). cbn [bind]. unfold zlen.
    rewrite <- Nat2Z.inj_add.
    rewrite substr_skipn.
    2:{ unfold sfits, zlen. rewrite app_length. specialize (Hb (length s) ltac:(lia)). lia. }
    2:{ rewrite app_length. lia. }
    cbn [bind]. rewrite firstn_app, skipn_app.
    rewrite firstn_all2 by lia. rewrite skipn_all2 by lia.
    replace (length x + p - length x)%nat with p by lia.
    replace (length x + p + length t - length x)%nat with (p + length t)%nat by lia.
    cbn [app]. rewrite <- Eb. rewrite <- app_assoc.
    assert (Lt : (0 < length t)%nat) by (destruct t; [congruence|cbn; lia]).
    assert (Lb : length b = (length s - (p + length t))%nat) by (rewrite Eb; apply skipn_length).
    assert (Lp : length (firstn p s) = p) by (apply firstn_length_le; lia).
    destruct (IH b (x ++ firstn p s ++ u)) as (r & E & R).
    + lia.
    + intros n Hn. rewrite !app_length, Lp. specialize (Hb (p + n + 1)%nat ltac:(lia)). nia.
    + rewrite !app_length, Lp in E. rewrite <- !app_assoc in E. rewrite Nat.add_assoc in E.
      rewrite E. exists (firstn p s ++ u ++ r). split; [reflexivity|]. now apply RaStep with (b := b).
  - exists s. split; [reflexivity|now constructor].
Qed.
Lemma strReplaceAll_ok s t u : t <> [] -> sfits t -> sfits u ->
  Z.of_nat (length s + length s * length u) + 2 <= str_max ->
  exists r, strReplaceAll (S (length s)) (Q s) (Q t) (Q u) = Ok (Q r) /\ ReplaceAll t u s r.
Proof.
  intros Hn Ht Hu Hs. unfold strReplaceAll. rewrite !clean_Q by (assumption || (unfold sfits, zlen; lia)). cbn [bind].
  destruct (repl_loop_ok t u Hn (S (length s)) s []) as (r & E & R).
  - lia.
  - intros n Hl. cbn [length]. nia.
  - cbn [app length] in E. rewrite E. cbn [bind]. exists r. split; [reflexivity|assumption].
Qed.
(** with an empty pattern the loop never ends (memory aside) *)
Lemma find_empty s k : (k <= length s)%nat -> find_from [] s k = Some k.
Proof.
  intros H. unfold find_from. destruct (Nat.ltb_spec (length s) k); [lia|].
  destruct (skipn k s); reflexivity.
Qed.
Lemma repl_loop_empty u : u = [] -> forall fuel s p, sfits s -> (p <= length s)%nat ->
  repl_loop fuel [] u s (Some p) = NoFuel.
Proof.
  intros ->. induction fuel as [|f IH]; intros s p Hs Hp; [reflexivity|]. cbn [repl_loop].
  rewrite substr_firstn by assumption. cbn [bind zlen length Z.of_nat]. rewrite Z.add_0_r.
  rewrite substr_skipn by assumption. cbn [bind app]. rewrite firstn_skipn, Nat.add_0_r.
  rewrite find_empty by assumption. now apply IH.
Qed.
Lemma strReplaceAll_empty fuel s : sfits s -> strReplaceAll fuel (Q s) (Q []) (Q []) = NoFuel.
Proof.
  intros Hs. unfold strReplaceAll. rewrite !clean_Q by (assumption || (vm_compute; discriminate)). cbn [bind].
  rewrite find_empty by lia. now rewrite repl_loop_empty by (auto; lia).
Qed.
Lemma strCase_ok s : sfits s -> strToLower (Q s) = Ok (Q (map tolower s)) /\
  strToUpper (Q s) = Ok (Q (map toupper s)) /\ strRev (Q s) = Ok (Q (rev s)).
Proof. intros H. unfold strToLower, strToUpper, strRev. rewrite clean_Q by assumption. auto. Qed.

(** ** escaping *)
Lemma unescape_escape_char c s :
  unescapeString (escape_char c ++ s) = (if escapable c then c else nul) :: unescapeString s.
Proof.
  destruct c as [b0 b1 b2 b3 b4 b5 b6 b7].
  destruct b0, b1, b2, b3, b4, b5, b6, b7; reflexivity.
Qed.
Lemma unescape_escape s :
  unescapeString (escapeString s) = map (fun c => if escapable c then c else nul) s.
Proof.
  unfold escapeString. induction s as [|c s IH]; [reflexivity|].
  cbn [map concat]. rewrite unescape_escape_char, IH. reflexivity.
Qed.
Lemma unescape_escape_iff s : unescapeString (escapeString s) = s <-> forallb escapable s = true.
Proof.
  rewrite unescape_escape. induction s as [|c s IH]; cbn [map forallb]; [tauto|].
  rewrite andb_true_iff. destruct (escapable c) eqn:E.
  - split.
    + intros H. injection H as H. tauto.
    + intros [_ H]. f_equal. tauto.
  - split; [|intros [H _]; discriminate]. intros H. injection H as Hc Hs.
    rewrite <- Hc in E. discriminate.
Qed.
Lemma escape_unquoted s : Forall (fun c => escapable c = true) s ->
  forall a b, escapeString s = a ++ """"%char :: b -> exists a', a = a' ++ ["\"%char].
Proof.
  induction 1 as [|c s Hc Hs IH]; intros a b E; [destruct a; discriminate|].
  unfold escapeString in E. cbn [map concat] in E. fold (escapeString s) in E.
  assert (D : (exists x, escape_char c = [x] /\ x <> """"%char) \/ (exists x, escape_char c = ["\"%char; x])).
  { clear - Hc. destruct c as [b0 b1 b2 b3 b4 b5 b6 b7].
    destruct b0, b1, b2, b3, b4, b5, b6, b7; vm_compute in Hc; try discriminate Hc;
    ((right; eexists; reflexivity) || (left; eexists; split; [reflexivity|discriminate])). }
  destruct D as [(x & D & Hx)|(x & D)]; rewrite D in E; cbn [app] in E.
  - destruct a as [|y a]; cbn [app] in E; [congruence|]. injection E as -> E.
    destruct (IH _ _ E) as [a' ->]. now exists (y :: a').
  - destruct a as [|y [|z a]]; cbn [app] in E.
    + discriminate.
    + injection E as <- _ _. now exists [].
    + injection E as <- -> E. destruct (IH _ _ E) as [a' ->]. now exists ("\"%char :: z :: a').
Qed.

(** scientific notation *)
Lemma find_e_pre m c r : (forall x, In x m -> aeq x "E"%char || aeq x "e"%char = false) ->
  c = "E"%char \/ c = "e"%char -> forall k, find_e (m ++ c :: r) k = Some (k + length m)%nat.
Proof.
  intros Hm Hc. induction m as [|x m IH]; intros k; cbn [app find_e length].
  - destruct Hc as [-> | ->]; cbn; f_equal; lia.
  - rewrite Hm by now left. rewrite IH by (intros y Hy; apply Hm; now right). f_equal. lia.
Qed.
Lemma digit_not_e x : digitC x -> aeq x "E"%char || aeq x "e"%char = false.
Proof.
  intros H. destruct (aeq x "E" || aeq x "e") eqn:E; [|reflexivity]. exfalso.
  apply orb_true_iff in E. rewrite !aeq_spec in E. unfold digitC in H. destruct E as [-> | ->]; cbn in H; lia.
Qed.
Lemma real_not_e m : isReal m = true -> forall x, In x m -> aeq x "E"%char || aeq x "e"%char = false.
Proof.
  intros H. apply isReal_iff in H. destruct H as [_ H].
  assert (B : forall r, RealBody r -> forall x, In x r -> aeq x "E"%char || aeq x "e"%char = false).
  { intros r Hr x Hx. inversion Hr as [ds Hd|ds es Hd He]; subst.
    - rewrite Forall_forall in Hd. apply digit_not_e; auto.
    - rewrite Forall_forall in Hd, He. apply in_app_iff in Hx. destruct Hx as [Hx|[<-|Hx]]; [|reflexivity|]; apply digit_not_e; auto. }
  destruct H as [H|(c & r & -> & Hs & H)]; [now apply B|].
  intros x [<-|Hx]; [|now apply (B r)]. destruct Hs as [-> | ->]; reflexivity.
Qed.
Lemma filter_all (s : str) : (forall x, In x s -> isspace x = false) -> filter (fun c => negb (isspace c)) s = s.
Proof.
  induction s as [|c s IH]; intros H; cbn [filter]; [reflexivity|].
  rewrite H by now left. cbn [negb]. rewrite IH; [reflexivity|]. intros x Hx. apply H. now right.
Qed.
Lemma sci_ok m e ex : isReal m = true -> (e = "E"%char \/ e = "e"%char) -> IntNumeral ex ->
  isScientificNotation (m ++ e :: ex) = true.
Proof.
  intros Hm He Hx. unfold isScientificNotation. rewrite (find_e_pre m e ex (real_not_e m Hm) He 0).
  cbn [Nat.add]. assert (N : m <> []) by (intros ->; discriminate).
  destruct (length m) as [|n] eqn:Ln; [destruct m; [congruence|discriminate]|]. rewrite <- Ln.
  rewrite firstn_app, Nat.sub_diag, firstn_all. cbn [firstn]. rewrite app_nil_r, Hm. cbn [negb].
  assert (Sk : skipn (S (length m)) (m ++ e :: ex) = ex).
  { rewrite skipn_app, skipn_all2 by lia. replace (S (length m) - length m)%nat with 1%nat by lia. reflexivity. }
  rewrite Sk.
  assert (Sp : forall x, In x ex -> isspace x = false).
  { intros x Hin. inversion Hx as [ds Hn Hd|c ds Hc Hn Hd]; subst.
    - rewrite Forall_forall in Hd. now apply digit_not, Hd.
    - destruct Hin as [<-|Hin]; [destruct Hc as [-> | ->]; reflexivity|].
      rewrite Forall_forall in Hd. now apply digit_not, Hd. }
  rewrite (filter_all ex Sp).
  destruct ex as [|c r]; [inversion Hx; congruence|].
  assert (NP : aeq c "("%char = false).
  { destruct (aeq c "(") eqn:E; [|reflexivity]. apply aeq_spec in E. subst c. exfalso.
    inversion Hx as [ds Hn Hd|c ds Hc Hn Hd]; subst.
    - inversion Hd as [|? ? Hc _]; subst. unfold digitC in Hc. cbn in Hc. lia.
    - destruct Hc; discriminate. }
  rewrite NP. inversion Hx as [ds Hn Hd|c' ds Hc Hn Hd]; subst.
  - destruct (is_sign c) eqn:Sg.
    + apply is_sign_spec in Sg. inversion Hd; subst. exfalso. now apply (sign_not_digit c).
    + now apply forallb_digit.
  - apply is_sign_spec in Hc. rewrite Hc. destruct r; [congruence|]. now apply forallb_digit.
Qed.
