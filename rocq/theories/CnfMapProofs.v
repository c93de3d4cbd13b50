(** The table of new variables: proofs. *)
From Coq Require Import QArith Qcanon Permutation ZifyBool ZifyNat.
From Verif Require Import Base KindModel SortModel TermModel BVModel BVSpec UtilModel UtilSpec DagProofs SortProofs
  Sem SemProofs ArrayModel SimpModel OpModel OpSpec OpProofs OpProofs2 OpProofs3 OpProofs4 OpProofs5 OpProofs6 OpProofs7
  ShapeProofs ConvModel ConvSpec ConvProofs WalkProofs GoodProofs SplitProofs CnfModel CnfSpec CnfProofs CnfAtoms CnfProofs2 CnfProofs3 CnfProofs4 CnfProofs5
  CnfMapModel CnfMapSpec.
Open Scope Z_scope.

Record tab_ok (n : nat) (D : memo) : Prop := {
  t_new : forall v a, In (v, a) D -> new_lit 0 n v;
  t_nd : NoDup (map fst D) }.
Lemma new_up n m m' v : (m <= m')%nat -> new_lit n m v -> new_lit n m' v.
Proof. intros L [i H|i H]; [apply NL_pos|apply NL_neg]; lia. Qed.
Lemma tab_mono n m D : (n <= m)%nat -> tab_ok n D -> tab_ok m D.
Proof. intros L [A B]. constructor; [|exact B]. intros v a H. apply (new_up 0 n); [exact L|exact (A v a H)]. Qed.
Lemma name_tab c as_ : forall am S am' S', name_atoms c as_ am S = Ok (am', S') -> tab_ok (cs_n S) (cs_atoms S) -> tab_ok (cs_n S') (cs_atoms S').
Proof.
  induction as_ as [|a as_ IH]; intros am S am' S' H T.
  - injection H as <- <-. exact T.
  - cbn [name_atoms] in H. destruct (isVBool a); [now apply IH in H|].
    destruct (mkNot c a) as [na| | | | |]; cbn [bind] in H; try discriminate H. rewrite (mkNot_var c _ (tmp_var (cs_n S))) in H. cbn [bind] in H.
    apply IH in H; [exact H|]. cbn [cs_n cs_atoms]. destruct T as [A B]. constructor.
    + intros v x [E|[E|E]]; [injection E as <- <-; apply NL_neg; lia|injection E as <- <-; apply NL_pos; lia|].
      apply (new_up 0 (cs_n S)); [lia|exact (A v x E)].
    + cbn [map fst]. assert (X : forall v, In v (map fst (cs_atoms S)) -> new_lit 0 (cs_n S) v).
      { intros v Hv. apply in_map_iff in Hv. destruct Hv as ([w x] & <- & Hw). exact (A w x Hw). }
      constructor; [|constructor; [|exact B]].
      * intros [E|E]; [discriminate E|]. pose proof (X _ E) as N. assert (i_ : exists i, (0 <= i < cs_n S)%nat /\ tmp i = tmp (cs_n S)) by (inversion N as [i Hi Ei|i Hi Ei]; exists i; split; [exact Hi|unfold tmp; congruence]). destruct i_ as (i & Hi & Ei). apply tmp_inj in Ei. lia.
      * intros E. pose proof (X _ E) as N. assert (i_ : exists i, (0 <= i < cs_n S)%nat /\ tmp i = tmp (cs_n S)) by (inversion N as [i Hi Ei|i Hi Ei]; exists i; split; [exact Hi|unfold tmp; congruence]). destruct i_ as (i & Hi & Ei). apply tmp_inj in Ei. lia.
Qed.
(** the counter never decreases *)
Lemma emits_n c lss : forall S S', emits c S lss = Ok S' -> ts_n S' = ts_n S.
Proof.
  induction lss as [|ls lss IH]; intros S S' H; cbn [emits] in H; [injection H as <-; reflexivity|].
  unfold emit in H. destruct (mkOr c ls); cbn [bind] in H; try discriminate H. now apply IH in H.
Qed.
Definition up (r : res (term * ts)) (S : ts) : Prop := forall u S', r = Ok (u, S') -> (ts_n S <= ts_n S')%nat.
Ltac binds H := repeat match type of H with bind ?m _ = Ok _ => let E := fresh "E" in destruct m eqn:E; cbn [bind] in H; try discriminate H end.
Ltac gate H := match type of H with context [fresh ?S] => change (fresh S) with (tmp (ts_n S), snd (fresh S)) in H end; cbv iota beta in H; binds H;
  injection H as <- <-; match goal with X : emits _ _ _ = Ok _ |- _ => apply emits_n in X; cbn [fresh snd ts_n] in X; lia end.
Lemma tsXor_up c a b S : up (tsXor c a b S) S. Proof. intros u S' H. unfold tsXor in H. gate H. Qed.
Lemma tsEq_up c a b S : up (tsEq c a b S) S. Proof. intros u S' H. unfold tsEq in H. gate H. Qed.
Lemma tsDistinct_up c a b S : up (tsDistinct c a b S) S. Proof. intros u S' H. unfold tsDistinct in H. gate H. Qed.
Lemma tsAnd_up c us S : up (tsAnd c us S) S. Proof. intros u S' H. unfold tsAnd in H. gate H. Qed.
Lemma tsOr_up c us S : up (tsOr c us S) S. Proof. intros u S' H. unfold tsOr in H. gate H. Qed.
Lemma tsImplies_up c us S : up (tsImplies c us S) S. Proof. intros u S' H. unfold tsImplies in H. gate H. Qed.
Lemma tsIte_up c a b d S : up (tsIte c a b d S) S. Proof. intros u S' H. unfold tsIte in H. gate H. Qed.
Lemma tsXors_up c us : forall a S, up (tsXors c a us S) S.
Proof.
  induction us as [|b us IH]; intros a S u S' H; cbn [tsXors] in H; [injection H as <- <-; lia|].
  destruct (tsXor c a b S) as [[v S1]| | | | |] eqn:E; cbn [bind fst snd] in H; try discriminate H. apply tsXor_up in E. apply IH in H. lia.
Qed.
Lemma tsEqs_up c a us : forall S vs S', tsEqs c a us S = Ok (vs, S') -> (ts_n S <= ts_n S')%nat.
Proof.
  induction us as [|b us IH]; intros S vs S' H; cbn [tsEqs] in H; [injection H as <- <-; lia|].
  destruct (tsEq c a b S) as [[v S1]| | | | |] eqn:E; cbn [bind fst snd] in H; try discriminate H. apply tsEq_up in E.
  destruct (tsEqs c a us S1) as [[ws S2]| | | | |] eqn:E2; cbn [bind fst snd] in H; try discriminate H. apply IH in E2. injection H as <- <-. lia.
Qed.
Lemma tsmemo_up t r S : up r S -> up (tsmemo t r) S.
Proof. intros H u S' E. unfold tsmemo in E. destruct r as [[v S1]| | | | |]; cbn [bind] in E; try discriminate E. injection E as <- <-. exact (H v S1 eq_refl). Qed.
Lemma up_trans (r : res (term * ts)) S S1 : (ts_n S <= ts_n S1)%nat -> up r S1 -> up r S.
Proof. intros L H u S' E. apply H in E. lia. Qed.
Lemma up_ok u S S1 : (ts_n S <= ts_n S1)%nat -> up (Ok (u, S1)) S.
Proof. intros L w S' E. injection E as <- <-. exact L. Qed.
Lemma up_bad S (r : res (term * ts)) : (forall x, r <> Ok x) -> up r S.
Proof. intros H u S' E. now apply H in E. Qed.
Lemma tseitin_up c m t : forall S, up (tseitin c m t S) S.
Proof.
  induction t as [k s n ch IH] using term_ind'. rewrite Forall_forall in IH. intros S.
  assert (GO : forall l S0 us S1, (forall x, In x l -> In x ch) -> tsgo c m l S0 = Ok (us, S1) -> (ts_n S0 <= ts_n S1)%nat).
  { induction l as [|x l IHl]; intros S0 us S1 Hin H; cbn [tsgo] in H; [injection H as <- <-; lia|]. fold (tsgo c m) in H.
    destruct (tseitin c m x S0) as [[u S2]| | | | |] eqn:E; cbn [bind fst snd] in H; try discriminate H.
    destruct (tsgo c m l S2) as [[ws S3]| | | | |] eqn:E2; cbn [bind fst snd] in H; try discriminate H. injection H as <- <-.
    apply IH in E; [|apply Hin; now left]. apply IHl in E2; [|intros y Hy; apply Hin; now right]. lia. }
  specialize (fun S0 us S1 => GO ch S0 us S1 (fun x H => H)).
  assert (MEMO : forall r, up r S -> up (tsmemo (T k s n ch) r) S) by (intros r; apply tsmemo_up).
  assert (ONE : forall f, (forall us S1, up (f us S1) S1) -> up (p <- tsgo c m ch S ;;
       match fst p with
       | [u] => lu <- isLiteral u ;; condAssert (c_dbg c) lu ;;; Ok (u, snd p)
       | us => tsmemo (T k s n ch) (f us (snd p))
       end) S).
  { intros f Hf. destruct (tsgo c m ch S) as [[us S1]| | | | |] eqn:E; cbn [bind fst snd]; try (apply up_bad; discriminate). specialize (GO S us S1 E).
    destruct us as [|a [|b us]]; try (apply MEMO; apply (up_trans _ S S1); [exact GO|apply Hf]).
    destruct (isLiteral a) as [lu| | | | |]; cbn [bind]; try (apply up_bad; discriminate). unfold condAssert. destruct (c_dbg c), lu; cbn [bind]; try (apply up_bad; discriminate).
    all: now apply up_ok. }
  cbn [tseitin]. destruct (isAtom (T k s n ch)) as [[|]| | | | |]; cbn [bind]; try (apply up_bad; discriminate).
  { destruct (mfind (T k s n ch) m); [now apply up_ok|]. destruct (c_dbg c); apply up_bad; discriminate. }
  destruct (isLiteral (T k s n ch)) as [lt| | | | |]; cbn [bind]; try (apply up_bad; discriminate).
  destruct (lt || isk NT_TEMP_VAR (T k s n ch)); [now apply up_ok|].
  destruct (mfind (T k s n ch) (ts_v S)); [now apply up_ok|].
  fold (tsgo c m). cbv zeta.
  assert (REST : up (if isEq (T k s n ch) then
                    if forallb (sis SK_BOOL) ch then
                      p <- tsgo c m ch S ;;
                      match fst p with
                      | [] => UB
                      | [u] => tsmemo (T k s n ch) (Ok (u, snd p))
                      | [a; b] => tsmemo (T k s n ch) (tsEq c a b (snd p))
                      | a :: us => tsmemo (T k s n ch) (q <- tsEqs c a us (snd p) ;; tsAnd c (fst q) (snd q))
                      end
                    else Exit
                  else
                    match isDistinct (T k s n ch), ch with
                    | true, a :: b :: tl =>
                        if sis SK_BOOL a && sis SK_BOOL b then
                          if forallb (sis SK_BOOL) ch then
                            match tl with
                            | [] => p <- tsgo c m ch S ;;
                                    match fst p with
                                    | [a; b] => tsmemo (T k s n ch) (tsDistinct c a b (snd p))
                                    | _ => UB
                                    end
                            | _ => Ok (FALSE, S)
                            end
                          else Ok (T k s n ch, S)
                        else Exit
                    | true, _ => UB
                    | false, _ =>
                        if isk NT_ITE (T k s n ch) then
                          match ch with
                          | a :: b :: d :: _ =>
                              if sis SK_BOOL b && sis SK_BOOL d then
                                pa <- tseitin c m a S ;; pb <- tseitin c m b (snd pa) ;; pd <- tseitin c m d (snd pb) ;;
                                tsmemo (T k s n ch) (tsIte c (fst pa) (fst pb) (fst pd) (snd pd))
                              else Exit
                          | _ => UB
                          end
                        else Exit
                    end) S).
  { destruct (isEq (T k s n ch)).
    - destruct (forallb (sis SK_BOOL) ch); [|apply up_bad; discriminate].
      destruct (tsgo c m ch S) as [[us S1]| | | | |] eqn:E; cbn [bind fst snd]; try (apply up_bad; discriminate). specialize (GO S us S1 E).
      destruct us as [|a [|b [|d us]]]; [apply up_bad; discriminate|apply MEMO; now apply up_ok|apply MEMO, (up_trans _ S S1 GO), tsEq_up|].
      apply MEMO. intros u S' H. destruct (tsEqs c a (b :: d :: us) S1) as [[vs S2]| | | | |] eqn:E2; cbn [bind fst snd] in H; try discriminate H.
      apply tsEqs_up in E2. apply tsAnd_up in H. lia.
    - destruct (isDistinct (T k s n ch)).
      + destruct ch as [|a [|b tl]]; try (apply up_bad; discriminate). destruct (sis SK_BOOL a && sis SK_BOOL b); [|apply up_bad; discriminate].
        destruct (forallb (sis SK_BOOL) (a :: b :: tl)); [|now apply up_ok]. destruct tl as [|d tl]; [|now apply up_ok].
        destruct (tsgo c m [a; b] S) as [[us S1]| | | | |] eqn:E; cbn [bind fst snd]; try (apply up_bad; discriminate). specialize (GO S us S1 E).
        destruct us as [|a' [|b' [|d us]]]; try (apply up_bad; discriminate). apply MEMO, (up_trans _ S S1 GO), tsDistinct_up.
      + destruct (isk NT_ITE (T k s n ch)); [|apply up_bad; discriminate]. destruct ch as [|a [|b [|d tl]]]; try (apply up_bad; discriminate).
        destruct (sis SK_BOOL b && sis SK_BOOL d); [|apply up_bad; discriminate].
        destruct (tseitin c m a S) as [[ua S1]| | | | |] eqn:E1; cbn [bind fst snd]; try (apply up_bad; discriminate).
        destruct (tseitin c m b S1) as [[ub S2]| | | | |] eqn:E2; cbn [bind fst snd]; try (apply up_bad; discriminate).
        destruct (tseitin c m d S2) as [[ud S3]| | | | |] eqn:E3; cbn [bind fst snd]; try (apply up_bad; discriminate).
        apply IH in E1; [|cbn; tauto]. apply IH in E2; [|cbn; tauto]. apply IH in E3; [|cbn; tauto].
        apply MEMO, (up_trans _ S S3); [lia|apply tsIte_up]. }
  destruct k; try exact REST; try (apply ONE, tsAnd_up); try (apply ONE, tsOr_up); try (apply ONE, tsImplies_up).
  - destruct ch as [|a tl]; [apply up_bad; discriminate|].
    match goal with |- up (bind ?r _) _ => change (up (tsmemo (T NT_NOT s n (a :: tl)) r) S) end. apply MEMO. intros u S' H. gate H.
  - destruct (tsgo c m ch S) as [[us S1]| | | | |] eqn:E; cbn [bind fst snd]; try (apply up_bad; discriminate). specialize (GO S us S1 E).
    destruct us as [|a us]; [apply up_bad; discriminate|].
    match goal with |- up (bind ?r _) _ => change (up (tsmemo (T NT_XOR s n ch) r) S) end. apply MEMO, (up_trans _ S S1 GO), tsXors_up.
Qed.

Lemma name_n c as_ : forall am S am' S', name_atoms c as_ am S = Ok (am', S') -> (cs_n S <= cs_n S')%nat.
Proof.
  induction as_ as [|a as_ IH]; intros am S am' S' H; cbn [name_atoms] in H; [injection H as <- <-; lia|].
  destruct (isVBool a); [now apply IH in H|]. destruct (mkNot c a); cbn [bind] in H; try discriminate H.
  destruct (mkNot c (tmp (cs_n S))); cbn [bind] in H; try discriminate H. apply IH in H. cbn [cs_n] in H. lia.
Qed.
Lemma toCNF1_tab c ord t S u S' : toCNF1 c ord t S = Ok (u, S') -> tab_ok (cs_n S) (cs_atoms S) -> tab_ok (cs_n S') (cs_atoms S').
Proof.
  unfold toCNF1. intros H T. destruct (mfind t (cs_map S)); [injection H as <- <-; exact T|].
  destruct (toNNF c t) as [r| | | | |]; cbn [bind] in H; try discriminate H.
  destruct (isCNF r) as [done| | | | |]; cbn [bind] in H; try discriminate H.
  destruct (atoms r) as [as_| | | | |]; cbn [bind] in H; try discriminate H.
  destruct (name_atoms c (ord (dedup [] as_)) [] S) as [[am S1]| | | | |] eqn:EN; cbn [bind] in H; try discriminate H.
  pose proof (name_tab c _ _ _ _ _ EN T) as T1.
  destruct (match am with [] => Ok r | _ => replaceAtoms c am r end) as [r'| | | | |]; cbn [bind] in H; try discriminate H.
  destruct done.
  - cbn [bind] in H. injection H as <- <-. exact T1.
  - destruct (tseitin c (cs_map S1) r' _) as [[l S2]| | | | |] eqn:ET; cbn [bind] in H; try discriminate H.
    destruct (match ts_c S2 with [] => Ok l | _ => mkAnd c (ts_c S2 ++ [l]) end) as [w| | | | |]; cbn [bind] in H; try discriminate H.
    injection H as <- <-. cbn [cs_n cs_atoms]. apply tseitin_up in ET. cbn [ts_n] in ET. exact (tab_mono _ _ _ ET T1).
Qed.
Lemma toCNF_tab c ord ts S u S' : toCNF c ord ts S = Ok (u, S') -> tab_ok (cs_n S') (cs_atoms S').
Proof.
  unfold toCNF. intros H. destruct (mapM (toNNF c) ts) as [rs| | | | |]; cbn [bind] in H; try discriminate H.
  assert (T0 : tab_ok (cs_n S) []) by (constructor; [intros v a []|constructor]).
  destruct (elimTop (elim_fuel rs) c rs) as [rs2| | | | |]; cbn [bind] in H; try discriminate H.
  destruct rs2 as [|x rs2]; [injection H as <- <-; exact T0|].
  destruct (allM isClause (x :: rs2)) as [done| | | | |]; cbn [bind] in H; try discriminate H.
  destruct (atomsL (x :: rs2)) as [as_| | | | |]; cbn [bind] in H; try discriminate H.
  destruct (name_atoms c (ord (dedup [] as_)) [] _) as [[am S1]| | | | |] eqn:EN; cbn [bind] in H; try discriminate H.
  pose proof (name_tab c _ _ _ _ _ EN T0) as T1.
  destruct (replAll c am (x :: rs2)) as [rs'| | | | |]; cbn [bind] in H; try discriminate H.
  destruct (mkAnd c rs') as [r| | | | |]; cbn [bind] in H; try discriminate H.
  destruct done.
  - cbn [bind] in H. injection H as <- <-. exact T1.
  - destruct (toCNF1 c ord r S1) as [[w S2]| | | | |] eqn:E1; cbn [bind] in H; try discriminate H.
    injection H as <- <-. cbn [cs_n cs_atoms]. exact (toCNF1_tab _ _ _ _ _ _ E1 T1).
Qed.
Lemma reached_tab c S : reached c S -> tab_ok (cs_n S) (cs_atoms S).
Proof.
  induction 1 as [n|ord t S u S' _ IH H|ord ts S u S' _ IH H].
  - constructor; [intros v a []|constructor].
  - exact (toCNF1_tab _ _ _ _ _ _ H IH).
  - exact (toCNF_tab _ _ _ _ _ _ H).
Qed.

(** ** the lookups *)
Lemma find_nd (D : memo) v a : NoDup (map fst D) -> (mfind v D = Some a <-> In (v, a) D).
Proof.
  intros N. split; [apply mfind_in|]. induction D as [|[w b] D IH]; [intros []|]. cbn [map fst] in N. inversion N as [|x l Hx HN]; subst. intros [H|H].
  - injection H as -> ->. apply mfind_same.
  - rewrite mfind_cons. destruct (teq v w) eqn:E; [|now apply IH].
    exfalso. apply teq_spec in E. subst w. apply Hx. apply in_map_iff. exists (v, a). auto.
Qed.
Lemma not_tmp c i : mkNot c (T NT_NOT boolS (kindToString NT_NOT) [tmp i]) = Ok (tmp i).
Proof. destruct c as [[|] f k i1 r v r2 rs h so]; reflexivity. Qed.
Lemma new_mkNot c n v : new_lit 0 n v -> exists u, mkNot c v = Ok u.
Proof. intros [i H|i H]; [rewrite (mkNot_var c _ (tmp_var i))|rewrite not_tmp]; eauto. Qed.
Lemma seen_in v vis : existsb (teq v) vis = true <-> In v vis.
Proof.
  rewrite existsb_exists. split; [intros (x & H & E); apply teq_spec in E; now subst|]. intros H. exists v. split; [exact H|apply teq_refl].
Qed.
Lemma loop_in c n es : forall vis, (forall a v, In (a, v) es -> new_lit 0 n v) ->
  exists l, pos_loop c es vis = Ok l /\ (forall a, In a l -> exists v, In (a, v) es /\ isNot v = false) /\ (NoDup (map fst es) -> NoDup l).
Proof.
  induction es as [|[a v] es IH]; intros vis H.
  - exists []. split; [reflexivity|]. split; [intros a []|constructor].
  - assert (H' : forall b w, In (b, w) es -> new_lit 0 n w) by (intros b w Hb; apply (H b w); now right).
    assert (LIFT : forall vis', exists l, pos_loop c es vis' = Ok l /\ (forall b, In b l -> exists w, In (b, w) ((a, v) :: es) /\ isNot w = false) /\ (NoDup (map fst ((a, v) :: es)) -> NoDup l)).
    { intros vis'. destruct (IH vis' H') as (l & E & X & Y). exists l. split; [exact E|]. split.
      - intros b Hb. destruct (X b Hb) as (w & Hw & Nw). exists w. split; [now right|exact Nw].
      - intros N. apply Y. now inversion N. }
    cbn [pos_loop]. destruct (existsb (teq v) vis); [apply LIFT|].
    destruct (new_mkNot c n v (H a v (or_introl eq_refl))) as (nv & ->). cbn [bind].
    destruct (existsb (teq nv) vis); [apply LIFT|]. destruct (isNot v) eqn:V; [apply LIFT|].
    destruct (IH (v :: vis) H') as (l & E & X & Y). rewrite E. cbn [bind]. exists (a :: l). split; [reflexivity|]. split.
    + intros b [ <- |Hb]; [exists v; split; [now left|exact V]|]. destruct (X b Hb) as (w & Hw & Nw). exists w. split; [now right|exact Nw].
    + intros N. cbn [map fst] in N. inversion N as [|x l' Hx HN]; subst. constructor; [|now apply Y].
      intros Ha. destruct (X a Ha) as (w & Hw & _). apply Hx. apply in_map_iff. exists (a, w). auto.
Qed.
Lemma loop_neg c n es : forall vis, (forall a v, In (a, v) es -> new_lit 0 n v /\ isNot v = true) -> pos_loop c es vis = Ok [].
Proof.
  induction es as [|[a v] es IH]; intros vis H; [reflexivity|].
  assert (R : forall vis', pos_loop c es vis' = Ok []) by (intros vis'; apply IH; intros b w Hb; apply (H b w); now right).
  cbn [pos_loop]. destruct (existsb (teq v) vis); [apply R|]. destruct (H a v (or_introl eq_refl)) as [Hv Nv].
  destruct (new_mkNot c n v Hv) as (nv & ->). cbn [bind]. destruct (existsb (teq nv) vis); [apply R|]. rewrite Nv. apply R.
Qed.
Lemma loop_pos c n ns ps : forall vis, (forall a v, In (a, v) ns -> new_lit 0 n v /\ isNot v = true) ->
  (forall a v, In (a, v) ps -> new_lit 0 n v /\ isNot v = false) -> NoDup (map snd ps) ->
  (forall v, In v vis -> ~ In v (map snd ps) /\ isNot v = false) -> pos_loop c (ps ++ ns) vis = Ok (map fst ps).
Proof.
  induction ps as [|[a v] ps IH]; intros vis Hn Hp N Hv; [cbn [app map]; now apply (loop_neg c n)|].
  cbn [app map fst pos_loop]. destruct (Hp a v (or_introl eq_refl)) as [Nv Pv].
  destruct (existsb (teq v) vis) eqn:E1; [apply seen_in in E1; destruct (Hv v E1) as [X _]; exfalso; apply X; now left|].
  inversion Nv as [i Hi Ei|i Hi Ei]; subst v; [|discriminate Pv]. rewrite (mkNot_var c _ (tmp_var i)). cbn [bind].
  clear E1. destruct (existsb _ vis) eqn:E2; [apply seen_in in E2; destruct (Hv _ E2) as [_ X]; cbn in X; discriminate X|]. rewrite Pv.
  cbn [map snd] in N. inversion N as [|x l Hx HN]; subst. rewrite IH; [reflexivity|exact Hn| |exact HN|].
  - intros b w Hb. apply (Hp b w). now right.
  - intros w [ <- |Hw]; [split; [exact Hx|exact Pv]|]. destruct (Hv w Hw) as [X Y]. split; [|exact Y]. intros Z. apply X. now right.
Qed.
(** the entries of a map *)
Lemma ent_key seen m : forall k v, In (k, v) (entries seen m) <-> mfind k m = Some v /\ ~ In k seen.
Proof.
  revert seen. induction m as [|[k' v'] m IH]; intros seen k v; [cbn; split; [tauto|intros [H _]; discriminate H]|]. cbn [entries]. rewrite mfind_cons.
  destruct (existsb (teq k') seen) eqn:E.
  - apply seen_in in E. rewrite IH. destruct (teq k k') eqn:Ek; [|reflexivity]. apply teq_spec in Ek. subst k'. tauto.
  - assert (N : ~ In k' seen) by (intros X; apply seen_in in X; congruence). cbn [In]. rewrite IH. destruct (teq k k') eqn:Ek.
    + apply teq_spec in Ek. subst k'. split.
      * intros [H|[_ H]]; [injection H as ->; auto|exfalso; apply H; now left].
      * intros [H _]. injection H as ->. now left.
    + assert (D : k <> k') by (intros ->; rewrite teq_refl in Ek; discriminate Ek). split.
      * intros [H|[H1 H2]]; [injection H as H0 _; congruence|]. split; [exact H1|intros X; apply H2; now right].
      * intros [H1 H2]. right. split; [exact H1|]. intros [X|X]; [congruence|contradiction].
Qed.
Lemma ent_nd seen m : NoDup (map fst (entries seen m)).
Proof.
  revert seen. induction m as [|[k v] m IH]; intros seen; [constructor|]. cbn [entries]. destruct (existsb (teq k) seen); [apply IH|].
  cbn [map fst]. constructor; [|apply IH]. intros H. apply in_map_iff in H. destruct H as ([k' v'] & E & H). cbn [fst] in E. subst k'.
  apply ent_key in H. destruct H as [_ H]. apply H. now left.
Qed.
Lemma ent_snd seen m : NoDup (map snd m) -> NoDup (map snd (entries seen m)).
Proof.
  revert seen. induction m as [|[k v] m IH]; intros seen N; [constructor|]. cbn [map snd] in N. inversion N as [|x l Hx HN]; subst.
  cbn [entries]. destruct (existsb (teq k) seen); [now apply IH|]. cbn [map snd]. constructor; [|now apply IH].
  intros H. apply Hx. apply in_map_iff in H. destruct H as ([k' v'] & E & H). cbn [snd] in E. subst v'. apply ent_key in H. destruct H as [H _].
  apply mfind_in in H. apply in_map_iff. exists (k', v). auto.
Qed.
Lemma bool_in S v a : In (a, v) (bool_vars S) <-> In (v, a) (cs_atoms S).
Proof.
  unfold bool_vars. rewrite in_map_iff. split; [intros ([w b] & E & H); injection E as <- <-; exact H|intros H; exists (v, a); auto].
Qed.
Lemma bool_snd S : map snd (bool_vars S) = map fst (cs_atoms S).
Proof. unfold bool_vars. rewrite map_map. reflexivity. Qed.
Lemma bool_atom c S a v : reached c S -> getCNFBoolVar S a = Some v -> getCNFAtom S v = Some a.
Proof.
  intros R H. apply reached_tab in R. unfold getCNFAtom. apply find_nd; [apply R|]. unfold getCNFBoolVar in H. apply mfind_in in H. now apply bool_in in H.
Qed.

Lemma nodup_l {A} (l1 l2 : list A) : NoDup (l1 ++ l2) -> NoDup l1.
Proof.
  induction l1 as [|x l1 IH]; [constructor|]. cbn [app]. intros N. inversion N as [|y l Hx HN]; subst. constructor; [|now apply IH].
  intros H. apply Hx, in_app_iff. now left.
Qed.
Lemma new_pos n v : new_lit 0 n v -> isNot v = false -> exists i, v = tmp i.
Proof. intros [i H|i H] E; [eauto|discriminate E]. Qed.
Lemma atoms_list c ord S : reached c S -> any_order ord ->
  exists l, getCNFAtoms c ord S = Ok l /\ NoDup l /\
    (forall a, In a l -> exists i, getCNFBoolVar S a = Some (tmp i)) /\
    (positives_first snd (ord (entries [] (bool_vars S))) -> forall a, In a l <-> exists i, getCNFBoolVar S a = Some (tmp i)).
Proof.
  intros R HO. pose proof (reached_tab c S R) as [TN ND]. set (es := entries [] (bool_vars S)) in *. specialize (HO es).
  assert (IN : forall a v, In (a, v) (ord es) <-> getCNFBoolVar S a = Some v).
  { intros a v. split.
    - intros H. apply (Permutation_in _ HO) in H. apply ent_key in H. exact (proj1 H).
    - intros H. apply (Permutation_in _ (Permutation_sym HO)). apply ent_key. split; [exact H|intros []]. }
  assert (NL : forall a v, In (a, v) (ord es) -> new_lit 0 (cs_n S) v).
  { intros a v H. apply IN in H. apply mfind_in, bool_in in H. exact (TN v a H). }
  assert (N1 : NoDup (map fst (ord es))) by (apply (Permutation_NoDup (Permutation_map fst (Permutation_sym HO))), ent_nd).
  destruct (loop_in c (cs_n S) (ord es) [] NL) as (l & E & X & Y). exists l. split; [exact E|]. split; [exact (Y N1)|].
  assert (X' : forall a, In a l -> exists i, getCNFBoolVar S a = Some (tmp i)).
  { intros a Ha. destruct (X a Ha) as (v & Hv & Nv). destruct (new_pos _ v (NL a v Hv) Nv) as (i & ->). exists i. now apply IN. }
  split; [exact X'|]. intros (ps & ns & EP & HP & HN) a. split; [apply X'|]. intros (i & Hi).
  assert (N2 : NoDup (map snd (ord es))).
  { apply (Permutation_NoDup (Permutation_map snd (Permutation_sym HO))), ent_snd. rewrite bool_snd. exact ND. }
  rewrite EP in E, NL, N2. rewrite (loop_pos c (cs_n S) ns ps []) in E.
  - injection E as <-. apply IN in Hi. rewrite EP in Hi. apply in_app_iff in Hi. destruct Hi as [Hi|Hi]; [apply in_map_iff; exists (a, tmp i); auto|].
    specialize (HN _ Hi). discriminate HN.
  - intros b w H. split; [apply (NL b w), in_app_iff; auto|exact (HN _ H)].
  - intros b w H. split; [apply (NL b w), in_app_iff; auto|exact (HP _ H)].
  - rewrite map_app in N2. exact (nodup_l _ _ N2).
  - intros v [].
Qed.
Lemma vars_list c ord S : reached c S -> any_order ord ->
  exists l, getCNFBoolVars c ord S = Ok l /\ NoDup l /\
    (forall v, In v l -> exists i a, v = tmp i /\ getCNFAtom S v = Some a) /\
    (positives_first fst (ord (entries [] (cs_atoms S))) -> forall v, In v l <-> exists i a, v = tmp i /\ getCNFAtom S v = Some a).
Proof.
  intros R HO. pose proof (reached_tab c S R) as [TN ND]. set (es := entries [] (cs_atoms S)) in *. specialize (HO es).
  assert (IN : forall v a, In (v, a) (ord es) <-> getCNFAtom S v = Some a).
  { intros v a. split.
    - intros H. apply (Permutation_in _ HO) in H. apply ent_key in H. exact (proj1 H).
    - intros H. apply (Permutation_in _ (Permutation_sym HO)). apply ent_key. split; [exact H|intros []]. }
  set (es2 := map (fun p : term * term => (fst p, fst p)) (ord es)).
  assert (IN2 : forall v w, In (v, w) es2 <-> v = w /\ exists a, getCNFAtom S v = Some a).
  { intros v w. unfold es2. rewrite in_map_iff. split.
    - intros ([x a] & E & H). cbn [fst] in E. injection E as <- <-. split; [reflexivity|]. exists a. now apply IN.
    - intros (<- & a & H). exists (v, a). split; [reflexivity|]. now apply IN. }
  assert (NL : forall v w, In (v, w) es2 -> new_lit 0 (cs_n S) w).
  { intros v w H. apply IN2 in H. destruct H as (<- & a & H). apply mfind_in in H. exact (TN v a H). }
  assert (NF : NoDup (map fst (ord es))) by (apply (Permutation_NoDup (Permutation_map fst (Permutation_sym HO))), ent_nd).
  assert (N1 : NoDup (map fst es2)) by (unfold es2; rewrite map_map; exact NF).
  destruct (loop_in c (cs_n S) es2 [] NL) as (l & E & X & Y). exists l. split; [exact E|]. split; [exact (Y N1)|].
  assert (X' : forall v, In v l -> exists i a, v = tmp i /\ getCNFAtom S v = Some a).
  { intros v Hv. destruct (X v Hv) as (w & Hw & Nw). destruct (new_pos _ w (NL v w Hw) Nw) as (i & Ei). apply IN2 in Hw. destruct Hw as (<- & a & H). eauto. }
  split; [exact X'|]. intros (ps & ns & EP & HP & HN) v. split; [apply X'|]. intros (i & a & Ev & Hv).
  set (f := fun p : term * term => (fst p, fst p)) in *.
  assert (EQ : es2 = map f ps ++ map f ns) by (unfold es2; now rewrite EP, map_app).
  rewrite EQ in E, NL. rewrite (loop_pos c (cs_n S) (map f ns) (map f ps) []) in E.
  - injection E as <-. rewrite map_map. unfold f at 1. cbn [fst]. apply IN in Hv. rewrite EP in Hv. apply in_app_iff in Hv.
    destruct Hv as [Hv|Hv]; [apply in_map_iff; exists (v, a); auto|]. specialize (HN _ Hv). cbn [fst] in HN. subst v. discriminate HN.
  - intros b w H. split; [apply (NL b w), in_app_iff; auto|]. apply in_map_iff in H. destruct H as (q & Eq & H). injection Eq as <- <-. exact (HN _ H).
  - intros b w H. split; [apply (NL b w), in_app_iff; auto|]. apply in_map_iff in H. destruct H as (q & Eq & H). injection Eq as <- <-. exact (HP _ H).
  - rewrite map_map. unfold f. cbn [snd]. rewrite EP, map_app in NF. exact (nodup_l _ _ NF).
  - intros w [].
Qed.
