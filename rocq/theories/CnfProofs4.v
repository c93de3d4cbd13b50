(** Conjunctive normal form, part 4: naming the atoms. *)
From Coq Require Import QArith Qcanon Permutation ZifyBool ZifyNat.
From Verif Require Import Base KindModel SortModel TermModel BVModel BVSpec UtilModel UtilSpec DagProofs SortProofs
  Sem SemProofs ArrayModel SimpModel OpModel OpSpec OpProofs OpProofs2 OpProofs3 OpProofs4 OpProofs5 OpProofs6 OpProofs7
  ShapeProofs ConvModel ConvSpec ConvProofs WalkProofs GoodProofs SplitProofs CnfModel CnfSpec CnfProofs CnfAtoms CnfProofs2 CnfProofs3.
Open Scope Z_scope.

Lemma pfi_mono c (K K' : term -> Prop) t : (forall a, K a -> K' a) -> forall b, pfi c K b t -> pfi c K' b t.
Proof.
  intros HK. induction t as [k s n ch IH] using term_ind'. rewrite Forall_forall in IH. intros b H.
  inversion H as [b' t' S|b' t' A B|b' n' t' D|b' k' n' ch' A N C]; subst.
  - now apply PI_slit.
  - apply PI_atom; auto.
  - apply PI_not. destruct D as [D|[D1 D2]]; [now left|right; auto].
  - apply PI_node; auto.
Qed.
Lemma bl_alit c K t : bl c K t -> alit c t.
Proof. intros [H|[H _]]; [now apply AL_slit|now apply AL_atom]. Qed.
(** NNF of something in that form *)
Lemma nnf_nfm c t : cfg_ok c -> nfm c t -> nnf_good c false t.
Proof.
  intros Hc. induction t as [k s n ch IH] using term_ind'. rewrite Forall_forall in IH. intros F.
  assert (SL : forall b x, slit x -> nnf_good c b x).
  { intros b x S. destruct (isNot x) eqn:N; [|apply nnf_alit; [exact Hc|now apply AL_slit|exact N]].
    destruct S as [ | |t' H|n' t' H]; try discriminate N; [rewrite bool_var_not in N; [discriminate N|exact H]|].
    apply nnf_not. apply nnf_alit; [exact Hc|now apply bool_var_alit|now apply bool_var_not]. }
  inversion F as [b' t' S|b' t' A B|b' n' t' D|b' k' n' ch' A N C]; subst.
  - now apply SL.
  - apply nnf_alit; [exact Hc|now apply AL_atom|apply (tatom_isk c _ NT_NOT A); cbn; tauto].
  - apply nnf_not. cbn [negb]. destruct D as [D|[D _]]; [now apply SL|].
    apply nnf_alit; [exact Hc|now apply AL_atom|apply (tatom_isk c _ NT_NOT D); cbn; tauto].
  - pose proof (node_kinds _ _ A) as KK. assert (NI : k <> NT_ITE) by (now apply N).
    assert (ID : nnf c (T k boolS n ch) false = Ok (T k boolS n ch) -> nnf_good c false (T k boolS n ch)).
    { intros E. exists (T k boolS n ch). split; [exact E|]. split; [exact F|]. split; [auto|]. intros I e. now rewrite xorb_false_l. }
    destruct KK as [ -> | [ -> | [ -> | [ -> | [ -> | -> ]]]]].
    + apply (nnf_junction c true false n ch Hc); [intros ->; discriminate A|]. intros x Hx. apply IH; [exact Hx|]. exact (C x Hx).
    + apply (nnf_junction c false false n ch Hc); [intros ->; discriminate A|]. intros x Hx. apply IH; [exact Hx|]. exact (C x Hx).
    + now apply ID.
    + now apply ID.
    + now apply ID.
    + congruence.
Qed.

(** ** the test for clauses *)
Lemma pfi_isLiteral c K b t : pfi c K b t -> exists l, isLiteral t = Ok l /\ (l = true -> slit t).
Proof.
  intros [b' t' S|b' t' A B|b' n' t' D|b' k' n' ch' A N C].
  - exists true. split; [now apply slit_isLiteral|auto].
  - exists false. split; [now apply (tatom_nolit c)|discriminate].
  - destruct (isVBool t') eqn:V.
    + assert (S : slit (T NT_NOT boolS n' [t'])).
      { destruct D as [D|[D _]]; [|destruct (tatom_cb c t' D) as (_ & X & _); congruence].
        destruct D as [ | |t'' H|n'' t'' H]; try discriminate V. now constructor. }
      exists true. split; [now apply slit_isLiteral|auto].
    + exists false. split; [|discriminate]. unfold isLiteral. change (isVBool (T NT_NOT boolS n' [t'])) with false. change (isk NT_NOT (T NT_NOT boolS n' [t'])) with true.
      cbv iota. cbn [child0 t_ch bind]. now rewrite V.
  - exists false. split; [|discriminate]. apply node_kinds in A. destruct A as [ -> | [ -> | [ -> | [ -> | [ -> | -> ]]]]]; reflexivity.
Qed.
Lemma allM_total f (Q : term -> Prop) l : (forall x, In x l -> exists b, f x = Ok b /\ (b = true -> Q x)) -> exists b, allM f l = Ok b /\ (b = true -> forall x, In x l -> Q x).
Proof.
  induction l as [|x l IH]; intros H; [exists true; split; [reflexivity|intros _ x []]|].
  destruct (H x (or_introl eq_refl)) as (b & E & A). destruct IH as (b' & E' & A'); [intros y Hy; apply H; now right|].
  exists (b && b'). split; [cbn [allM]; rewrite E; cbn [bind]; rewrite E'; reflexivity|]. intros X. apply andb_true_iff in X. destruct X as [X X'].
  intros y [ <- | Hy ]; auto.
Qed.
Lemma pfi_child c K b k n ch x : pfi c K b (T k boolS n ch) -> k = NT_AND \/ k = NT_OR -> In x ch -> pfi c K b x.
Proof.
  intros P Kk Hx. inversion P as [b' t' S|b' t' A B|b' n' t' D|b' k' n' ch' A N C]; subst.
  - exfalso. inversion S as [ | |t' [k' n' V]|n' t' V]; subst; destruct Kk; try congruence; subst; discriminate V.
  - exfalso. assert (X : isk k (T k boolS n ch) = false) by (apply (tatom_isk c _ k A); destruct Kk as [ -> | -> ]; cbn; tauto).
    unfold isk in X. cbn [t_kind] in X. now rewrite keq_refl in X.
  - destruct Kk; discriminate.
  - specialize (C x Hx). replace (b && kin k [NT_AND; NT_OR]) with b in C; [exact C|]. destruct Kk as [ -> | -> ]; now rewrite andb_true_r.
Qed.
(** clauses over variables *)
Inductive vclause : term -> Prop :=
| VC_lit t : slit t -> vclause t
| VC_or n ls : (forall l, In l ls -> slit l) -> vclause (T NT_OR boolS n ls).
Inductive vcnf : term -> Prop :=
| VN_clause t : vclause t -> vcnf t
| VN_and n cs : (forall x, In x cs -> vclause x) -> vcnf (T NT_AND boolS n cs).
Lemma vclause_clause t : vclause t -> clause t.
Proof. intros [t' H|n ls H]; [now apply Cl_lit, slit_lit|apply Cl_or; intros l Hl; now apply slit_lit, H]. Qed.
Lemma vcnf_cnf t : vcnf t -> in_cnf t.
Proof. intros [t' H|n cs H]; [now apply Cnf_clause, vclause_clause|apply Cnf_and; intros x Hx; now apply vclause_clause, H]. Qed.
Lemma pfi_isClause c K b t : pfi c K b t -> exists l, isClause t = Ok l /\ (l = true -> vclause t).
Proof.
  intros P. unfold isClause. destruct (isk NT_OR t) eqn:Ki.
  - pose proof (pfi_sort c K b t P) as PS. destruct t as [k s n ch]. apply isk_kind in Ki. cbn in Ki, PS. subst k s. cbn [t_ch].
    destruct (allM_total isLiteral slit ch) as (l & E & A); [intros x Hx; apply (pfi_isLiteral c K b); apply (pfi_child c K b NT_OR n ch x P); auto|].
    exists l. split; [exact E|]. intros X. apply VC_or. now apply A.
  - destruct (pfi_isLiteral c K b t P) as (l & E & A). exists l. split; [exact E|]. intros X. now apply VC_lit, A.
Qed.
Lemma pfi_isCNF c K b t : pfi c K b t -> exists l, isCNF t = Ok l /\ (l = true -> vcnf t).
Proof.
  intros P. unfold isCNF. destruct (isk NT_AND t) eqn:Ki.
  - pose proof (pfi_sort c K b t P) as PS. destruct t as [k s n ch]. apply isk_kind in Ki. cbn in Ki, PS. subst k s. cbn [t_ch].
    destruct (allM_total isClause vclause ch) as (l & E & A); [intros x Hx; apply (pfi_isClause c K b); apply (pfi_child c K b NT_AND n ch x P); auto|].
    exists l. split; [exact E|]. intros X. apply VN_and. now apply A.
  - destruct (pfi_isClause c K b t P) as (l & E & A). exists l. split; [exact E|]. intros X. now apply VN_clause, A.
Qed.
(** ** the atoms *)
Definition atomsgo := fix go (l : list term) : res (list term) :=
  match l with [] => Ok [] | x :: r => a <- atoms x ;; b <- go r ;; Ok (a ++ b) end.
Lemma atoms_eq k s n ch : atoms (T k s n ch) = (b <- isAtom (T k s n ch) ;; if b : bool then Ok [T k s n ch] else atomsgo ch).
Proof. reflexivity. Qed.
Lemma slit_atoms t : slit t -> atoms t = Ok [].
Proof.
  intros H. pose proof (slit_not_atom t H) as NA. destruct H as [ | |t' [k n V]|n t' [k m V]]; [reflexivity|reflexivity| |].
  - rewrite atoms_eq, NA. reflexivity.
  - rewrite atoms_eq, NA. cbn [bind atomsgo]. fold atomsgo. rewrite atoms_eq. rewrite (slit_not_atom (T k boolS m [])) by (apply SL_var; now constructor). reflexivity.
Qed.
Lemma vclause_atoms t : vclause t -> atoms t = Ok [].
Proof.
  intros [t' H|n ls H]; [now apply slit_atoms|]. rewrite atoms_eq. replace (isAtom (T NT_OR boolS n ls)) with (@Ok bool false) by (destruct ls; reflexivity). cbn [bind].
  induction ls as [|x ls IH]; [reflexivity|]. cbn [atomsgo]. fold atomsgo. rewrite slit_atoms by (apply H; now left). cbn [bind]. rewrite IH; [reflexivity|].
  intros l Hl. apply H. now right.
Qed.
Lemma vcnf_atoms t : vcnf t -> atoms t = Ok [].
Proof.
  intros [t' H|n ls H]; [now apply vclause_atoms|]. rewrite atoms_eq. replace (isAtom (T NT_AND boolS n ls)) with (@Ok bool false) by (destruct ls; reflexivity). cbn [bind].
  induction ls as [|x ls IH]; [reflexivity|]. cbn [atomsgo]. fold atomsgo. rewrite vclause_atoms by (apply H; now left). cbn [bind]. rewrite IH; [reflexivity|].
  intros l Hl. apply H. now right.
Qed.
Definition atoms_ok (c : cfg) (b : bool) (t : term) (as_ : list term) : Prop :=
  (forall a, In a as_ -> tatom c a /\ subterm a t) /\ (forall K' : term -> Prop, (forall a, In a as_ -> K' a) -> pfi c K' b t).
Lemma pfi_atoms c K t : forall b, pfi c K b t -> exists as_, atoms t = Ok as_ /\ atoms_ok c b t as_.
Proof.
  induction t as [k s n ch IH] using term_ind'. rewrite Forall_forall in IH. intros b H.
  inversion H as [b' t' S|b' t' A B|b' n' t' D|b' k' n' ch' A N C]; subst.
  - exists []. split; [now apply slit_atoms|]. split; [intros a []|]. intros K' _. now apply PI_slit.
  - exists [T k s n ch]. rewrite atoms_eq, (tatom_atom c _ A). split; [reflexivity|]. split; [intros a [ <- | [] ]; split; [exact A|apply Sub_refl]|].
    intros K' HK. apply PI_atom; [exact A|apply HK; now left].
  - rewrite atoms_eq. change (isAtom (T NT_NOT boolS n [t'])) with (@Ok bool false). cbn [bind atomsgo]. fold atomsgo. destruct D as [D|[D _]].
    + exists []. rewrite slit_atoms by exact D. split; [reflexivity|]. split; [intros a []|]. intros K' _. apply PI_not. now left.
    + exists [t']. assert (E : atoms t' = Ok [t']) by (destruct t' as [k s m l]; rewrite atoms_eq, (tatom_atom c _ D); reflexivity).
      rewrite E. split; [reflexivity|]. split; [intros a [ <- | [] ]; split; [exact D|apply (Sub_ch t' t'); [now left|apply Sub_refl]]|].
      intros K' HK. apply PI_not. right. split; [exact D|apply HK; now left].
  - rewrite atoms_eq, (node_not_atom c K _ k n ch A C). cbn [bind].
    assert (G : forall l, (forall x, In x l -> In x ch) -> exists as_, atomsgo l = Ok as_ /\ (forall a, In a as_ -> tatom c a /\ exists x, In x l /\ subterm a x) /\
       (forall K' : term -> Prop, (forall a, In a as_ -> K' a) -> forall x, In x l -> pfi c K' (b && kin k [NT_AND; NT_OR]) x)).
    { induction l as [|x l IHl]; intros Hin.
      - exists []. split; [reflexivity|]. split; [intros a []|intros K' _ x []].
      - destruct (IH x (Hin x (or_introl eq_refl)) _ (C x (Hin x (or_introl eq_refl)))) as (a1 & E1 & A1 & P1).
        destruct IHl as (a2 & E2 & A2 & P2); [intros y Hy; apply Hin; now right|].
        exists (a1 ++ a2). split; [cbn [atomsgo]; fold atomsgo; rewrite E1; cbn [bind]; rewrite E2; reflexivity|]. split.
        + intros a Ha. apply in_app_or in Ha. destruct Ha as [Ha|Ha].
          * destruct (A1 a Ha) as [X Y]. split; [exact X|]. exists x. split; [now left|exact Y].
          * destruct (A2 a Ha) as [X (y & Y1 & Y2)]. split; [exact X|]. exists y. split; [now right|exact Y2].
        + intros K' HK y [ <- | Hy ]; [apply P1; intros a Ha; apply HK, in_or_app; now left|apply P2; [|exact Hy]; intros a Ha; apply HK, in_or_app; now right]. }
    destruct (G ch (fun x Hx => Hx)) as (as_ & E & A1 & P1). exists as_. split; [exact E|]. split.
    + intros a Ha. destruct (A1 a Ha) as [X (y & Y1 & Y2)]. split; [exact X|]. now apply (Sub_ch a y).
    + intros K' HK. apply PI_node; [exact A|exact N|]. now apply P1.
Qed.
Lemma dedup_in l : forall seen x, In x l -> In x seen \/ In x (dedup seen l).
Proof.
  induction l as [|y l IH]; intros seen x Hx; [contradiction|]. cbn [dedup]. destruct (existsb (teq y) seen) eqn:E.
  - destruct Hx as [ <- | Hx ]; [|now apply IH]. left. apply existsb_exists in E. destruct E as (z & Hz & E). apply teq_spec in E. now subst.
  - destruct Hx as [ <- | Hx ]; [right; now left|]. destruct (IH (y :: seen) x Hx) as [[ <- | H ]|H]; [right; now left|now left|right; now right].
Qed.
Lemma ord_in ord l x : perm_ord ord -> In x (ord (dedup [] l)) <-> In x l.
Proof.
  intros HO. split; intros H.
  - apply (Permutation_in x (HO _)) in H. now apply dedup_incl in H.
  - apply (Permutation_in x (Permutation_sym (HO _))). destruct (dedup_in l [] x H) as [[]|H']. exact H'.
Qed.

(** ** naming *)
Lemma new_slit n m v : new_lit n m v -> slit v /\ below m v.
Proof.
  intros [i H|i H].
  - split; [apply SL_var, tmp_var|apply below_tmp; lia].
  - split; [apply SL_neg, tmp_var|]. apply below_kind; [discriminate|]. intros x [ <- | [] ]. apply below_tmp. lia.
Qed.
Lemma new_mono n n' m v : (n' <= n)%nat -> new_lit n m v -> new_lit n' m v.
Proof. intros L [i H|i H]; [apply NL_pos|apply NL_neg]; lia. Qed.
Lemma respects_app D D' I e : respects (D ++ D') I e <-> respects D I e /\ respects D' I e.
Proof.
  unfold respects. split.
  - intros H. split; intros v a Hin; apply H, in_or_app; auto.
  - intros [A B] v a Hin. apply in_app_or in Hin. destruct Hin; auto.
Qed.
Definition below_def (n : nat) (D : list (term * term)) : Prop := forall v a, In (v, a) D -> below n v /\ below n a.
Lemma respects_agree n D I e e' : below_def n D -> agree n e e' -> respects D I e -> respects D I e'.
Proof.
  intros B A R v a H. destruct (B v a H) as [B1 B2]. rewrite <- (holds_agree I n v e e' B1 A), <- (holds_agree I n a e e' B2 A). now apply R.
Qed.
Record named (c : cfg) (n n' : nat) (as_ : list term) (E D : memo) : Prop := {
  n_le : (n <= n')%nat;
  n_inv : forall x u, In (x, u) E <-> In (u, x) D;
  n_new : forall x u, In (x, u) E -> new_lit n n' u /\ alit c x /\ below n x;
  n_all : forall a, In a as_ -> exists u, In (a, u) E;
  n_ext : forall I e, exists e', agree n e e' /\ respects D I e' }.
Lemma name_atoms_ok c as_ : cfg_ok c -> forall am S, (forall a, In a as_ -> tatom c a /\ below (cs_n S) a) ->
  exists E D n', name_atoms c as_ am S = Ok (E ++ am, CnfSt n' (E ++ cs_map S) (D ++ cs_atoms S)) /\ named c (cs_n S) n' as_ E D.
Proof.
  intros Hc am S HA. assert (G : forall as_ am S n0, (n0 <= cs_n S)%nat -> (forall a, In a as_ -> tatom c a /\ below n0 a) ->
    exists E D n', name_atoms c as_ am S = Ok (E ++ am, CnfSt n' (E ++ cs_map S) (D ++ cs_atoms S)) /\
     (cs_n S <= n')%nat /\ (forall x u, In (x, u) E <-> In (u, x) D) /\ (forall x u, In (x, u) E -> new_lit (cs_n S) n' u /\ alit c x /\ below n0 x) /\
     (forall a, In a as_ -> exists u, In (a, u) E) /\ forall I e, exists e', agree (cs_n S) e e' /\ respects D I e').
  { clear as_ am S HA. induction as_ as [|a as_ IH]; intros am S n0 L0 HA.
    - exists [], [], (cs_n S). split; [cbn; now destruct S|]. split; [lia|]. split; [intros x u; cbn; tauto|]. split; [intros x u []|]. split; [intros a []|].
      intros I e. exists e. split; [apply agree_refl|intros v a []].
    - destruct (HA a (or_introl eq_refl)) as [Ta Ba]. cbn [name_atoms]. destruct (tatom_cb c a Ta) as (_ & -> & _).
      destruct (tatom_not c a Hc Ta) as (na & -> & ALn & Bn & Vn). cbn [bind]. rewrite (mkNot_var c _ (tmp_var (cs_n S))). cbn [bind].
      set (v := tmp (cs_n S)). set (nv := T NT_NOT boolS (kindToString NT_NOT) [v]).
      destruct (IH ((na, nv) :: (a, v) :: am) (CnfSt (Datatypes.S (cs_n S)) ((na, nv) :: (a, v) :: cs_map S) ((nv, na) :: (v, a) :: cs_atoms S)) n0) as (E & D & n' & EQ & L & INV & NEW & ALL & EXT).
      { cbn [cs_n]. lia. } { intros x Hx. apply HA. now right. }
      cbn [cs_n cs_map cs_atoms] in *.
      exists (E ++ [(na, nv); (a, v)]), (D ++ [(nv, na); (v, a)]), n'. rewrite <- !app_assoc. cbn [app]. split; [exact EQ|]. split; [lia|]. split; [|split; [|split]].
      + intros x u. rewrite !in_app_iff, INV. cbn [In]. split; intros [H|[H|[H|[]]]]; auto; injection H as <- <-; auto.
      + intros x u H. apply in_app_or in H. destruct H as [H|[H|[H|[]]]].
        * destruct (NEW x u H) as (X & Y & Z). split; [apply (new_mono (Datatypes.S (cs_n S))); [lia|exact X]|]. now split.
        * injection H as <- <-. split; [apply NL_neg; lia|]. split; [exact ALn|now apply Bn].
        * injection H as <- <-. split; [apply NL_pos; lia|]. split; [now apply AL_atom|exact Ba].
      + intros x [ <- | Hx ]; [exists v; apply in_or_app; right; right; now left|]. destruct (ALL x Hx) as (u & Hu). exists u. apply in_or_app. now left.
      + intros I e. destruct (EXT I (set_tmp e (cs_n S) (holds I e a))) as (e' & A & R).
        assert (A2 : agree (cs_n S) e e').
        { apply (agree_trans _ e (set_tmp e (cs_n S) (holds I e a)) e'); [apply set_agree|]. apply (agree_mono _ (Datatypes.S (cs_n S))); [lia|exact A]. }
        exists e'. split; [exact A2|]. apply respects_app. split; [exact R|].
        assert (Hv : holds I e' v = holds I e a).
        { rewrite <- (holds_agree I (Datatypes.S (cs_n S)) v _ e' (below_tmp _ _ (Nat.lt_succ_diag_r _)) A). apply set_holds. }
        assert (Ha : holds I e' a = holds I e a) by (symmetry; apply (holds_agree I (cs_n S) a e e'); [apply (below_mono n0); [exact L0|exact Ba]|exact A2]).
        intros w x [H|[H|[]]]; injection H as <- <-; [|congruence].
        rewrite Vn, (holds_not nv v I e') by reflexivity. congruence. }
  destruct (G as_ am S (cs_n S) (le_n _) HA) as (E & D & n' & EQ & L & INV & NEW & ALL & EXT).
  exists E, D, n'. split; [exact EQ|]. constructor; assumption.
Qed.
Lemma mfind_none_app t E V : mfind t E = None -> mfind t (E ++ V) = mfind t V.
Proof. induction E as [|[a b] E IH]; [reflexivity|]. cbn [app]. rewrite !mfind_cons. destruct (teq t a); [discriminate|exact IH]. Qed.
Lemma mfind_some_app t u E V : mfind t E = Some u -> mfind t (E ++ V) = Some u.
Proof. induction E as [|[a b] E IH]; [discriminate|]. cbn [app]. rewrite !mfind_cons. destruct (teq t a); [auto|exact IH]. Qed.
Lemma mfind_has t u E : In (t, u) E -> exists w, mfind t E = Some w.
Proof.
  induction E as [|[a b] E IH]; [intros []|]. rewrite mfind_cons. destruct (teq t a) eqn:X; [intros _; eauto|]. intros [H|H]; [|now apply IH].
  injection H as -> _. rewrite teq_refl in X. discriminate X.
Qed.
