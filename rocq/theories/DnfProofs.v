(** Disjunctive normal form: elimination of the other connectives. *)
From Coq Require Import QArith Qcanon Permutation ZifyBool ZifyNat.
From Verif Require Import Base KindModel SortModel TermModel BVModel BVSpec UtilModel UtilSpec DagProofs SortProofs
  Sem SemProofs ArrayModel SimpModel OpModel OpSpec OpProofs OpProofs2 OpProofs3 OpProofs4 OpProofs5 OpProofs6 OpProofs7
  ShapeProofs ConvModel ConvSpec ConvProofs WalkProofs GoodProofs SplitProofs CnfModel CnfSpec CnfProofs CnfProofs2 CnfProofs3 DnfModel DnfSpec.
Open Scope Z_scope.

Section W.
Context (w : bool).
Lemma af_dfm t : af w t -> dfm w t.
Proof.
  induction t as [k s n ch IH] using term_ind'. rewrite Forall_forall in IH. intros H.
  inversion H as [ | |t V|m a A|m ps NE N C|m ps NE N C]; subst; [apply DF_true|apply DF_false|now apply DF_var|apply DF_not; apply IH; [now left|exact A]|apply DF_and|apply DF_or]; auto.
Qed.
Lemma chs_node k s n ch : chs (T k s n ch) = (if rewritten (T k s n ch) then [T k s n ch] else []) ++ flat_map chs ch.
Proof. reflexivity. Qed.
Lemma flat_nil (l : list term) : flat_map chs l = [] <-> forall x, In x l -> chs x = [].
Proof.
  induction l as [|x l IH]; cbn [flat_map]; [split; [intros _ y []|reflexivity]|]. split.
  - intros H. apply app_eq_nil in H. destruct H as [H1 H2]. intros y [ <- | Hy ]; [exact H1|]. now apply IH.
  - intros H. rewrite (H x (or_introl eq_refl)). cbn. apply IH. intros y Hy. apply H. now right.
Qed.
Lemma af_chs t : af w t -> chs t = [].
Proof.
  induction t as [k s n ch IH] using term_ind'. rewrite Forall_forall in IH. intros H.
  inversion H as [ | |t V|m a A|m ps NE N C|m ps NE N C]; subst; try reflexivity.
  - inversion V as [k' n' HV]; subst. destruct (var_kinds5 _ HV) as [ -> | [ -> | [ -> | [ -> | -> ]]]]; reflexivity.
  - rewrite chs_node. cbn [rewritten kin t_kind existsb keq orb app flat_map]. change (rewritten (T NT_NOT boolS n [a])) with false. cbv iota.
    cbn. now rewrite (IH a (or_introl eq_refl) A).
  - rewrite chs_node. change (rewritten (T NT_AND boolS n ch)) with false. cbv iota. cbn [app]. apply flat_nil. auto.
  - rewrite chs_node. change (rewritten (T NT_OR boolS n ch)) with false. cbv iota. cbn [app]. apply flat_nil. auto.
Qed.
Lemma dfm_af t : dfm w t -> chs t = [] -> af w t.
Proof.
  induction t as [k s n ch IH] using term_ind'. rewrite Forall_forall in IH. intros H E. rewrite chs_node in E. apply app_eq_nil in E. destruct E as [E1 E2].
  rewrite flat_nil in E2.
  inversion H as [ | |t V|m a A|m ps NE N C|m ps NE N C|m p q|m p q r|m ps|m ps|m ps]; subst; try discriminate E1.
  - apply AF_true.
  - apply AF_false.
  - now apply AF_var.
  - apply AF_not. apply IH; [now left|exact A|apply E2; now left].
  - apply AF_and; auto.
  - apply AF_or; auto.
Qed.
Lemma sub_chs x t : subterm x t -> incl (chs x) (chs t).
Proof.
  induction 1 as [t|u x t Hx S IH]; [intros y Hy; exact Hy|]. intros y Hy. apply IH in Hy. destruct t as [k s n ch]. rewrite chs_node.
  apply in_or_app. right. apply in_flat_map. exists x. now split.
Qed.
Lemma dfm_good t : dfm w t -> goodB t.
Proof.
  intros [ | |t' H|n a A|n ps NE N C|n ps NE N C|n p q A B|n p q r A B C|n ps L C|n ps L N C|n ps L C]; try (apply goodB_node; [reflexivity|reflexivity|discriminate]);
    [apply goodB_TRUE|apply goodB_FALSE|apply slit_good; now apply SL_var].
Qed.
Lemma af_good t : af w t -> goodB t. Proof. intros H. now apply dfm_good, af_dfm. Qed.
(** ** the constructors *)
Lemma mkNot_af c t : af w t -> exists u, mkNot c t = Ok u /\ af w u /\ forall I e, holds I e u = negb (holds I e t).
Proof.
  intros [ | |t' H|n a A|n ps NE N C|n ps NE N C].
  - exists FALSE. split; [reflexivity|]. split; [apply AF_false|reflexivity].
  - exists TRUE. split; [reflexivity|]. split; [apply AF_true|reflexivity].
  - exists (T NT_NOT boolS (kindToString NT_NOT) [t']). split; [now apply mkNot_var|]. split; [apply AF_not; now apply AF_var|]. intros I e. now apply holds_not.
  - exists a. split; [unfold mkNot; cbn [tsize fold_right]; destruct (c_dbg c) eqn:D; cbn; unfold condAssert; rewrite ?D; reflexivity|]. split; [exact A|].
    intros I e. rewrite (holds_not (T NT_NOT boolS n [a]) a I e) by reflexivity. now rewrite negb_involutive.
  - exists (T NT_NOT boolS (kindToString NT_NOT) [T NT_AND boolS n ps]). split; [reflexivity|]. split; [apply AF_not; now apply AF_and|]. intros I e. now apply holds_not.
  - exists (T NT_NOT boolS (kindToString NT_NOT) [T NT_OR boolS n ps]). split; [reflexivity|]. split; [apply AF_not; now apply AF_or|]. intros I e. now apply holds_not.
Qed.
Lemma junction_af c (conj : bool) ps : cfg_ok c -> (w = true -> (length ps <= 2)%nat) -> (forall p, In p ps -> af w p) ->
  exists r, mkJunction c (jk conj) ps = Ok r /\ af w r /\ forall I e, holds I e r = jsem conj (holds I e) ps.
Proof.
  intros Hc HN H. assert (HB : bool_args ps) by (apply goodB_args; intros p Hp; now apply af_good, H).
  destruct (mkJunction_sound c conj ps Hc HB) as (r & E & V). exists r. split; [destruct conj; exact E|].
  assert (E' : mkJunction c (jk conj) ps = Ok r) by (destruct conj; exact E). split; [|intros I e; rewrite V; now destruct conj].
  apply mkJunction_shape in E'; [|exact Hc|exact HB]. destruct E' as [ -> | [ -> | [Hin|(qs & -> & L & Hi & ND & _)] ]].
  - apply AF_true.
  - apply AF_false.
  - now apply H.
  - assert (NE : qs <> []) by (intros ->; cbn in L; lia).
    assert (W : w = true -> (length qs <= 2)%nat) by (intros Hw; specialize (HN Hw); pose proof (NoDup_incl_length ND Hi); lia).
    destruct conj; [apply AF_and|apply AF_or]; auto.
Qed.
Lemma jun2_af c (conj : bool) x y : cfg_ok c -> af w x -> af w y ->
  exists r, mkJunction c (jk conj) [x; y] = Ok r /\ af w r /\ forall I e, holds I e r = if conj then holds I e x && holds I e y else holds I e x || holds I e y.
Proof.
  intros Hc Hx Hy. destruct (junction_af c conj [x; y] Hc) as (r & E & N & V); [cbn; lia|intros p [ <- | [ <- | [] ]]; assumption|].
  exists r. split; [exact E|]. split; [exact N|].
  intros I e. rewrite V. destruct conj; cbn [jsem forallb existsb]; [now rewrite andb_true_r|now rewrite orb_false_r].
Qed.
Lemma xor2_af c a b : cfg_ok c -> af w a -> af w b -> exists r, dnfXor2 c a b = Ok r /\ af w r /\ forall I e, holds I e r = xorb (holds I e a) (holds I e b).
Proof.
  intros Hc A B. destruct (mkNot_af c b B) as (nb & Eb & Nb & Vb). destruct (mkNot_af c a A) as (na & Ea & Na & Va).
  destruct (jun2_af c true a nb Hc A Nb) as (x & Ex & Nx & Vx). destruct (jun2_af c true na b Hc Na B) as (y & Ey & Ny & Vy).
  destruct (jun2_af c false x y Hc Nx Ny) as (r & Er & Nr & Vr). exists r. unfold dnfXor2. rewrite Eb. cbn [bind].
  unfold mkAnd. change NT_AND with (jk true). rewrite Ex. cbn [bind]. rewrite Ea. cbn [bind]. rewrite Ey. cbn [bind]. split; [exact Er|]. split; [exact Nr|].
  intros I e. rewrite Vr, Vx, Vy, Va, Vb. now destruct (holds I e a), (holds I e b).
Qed.
Lemma eq2_af c a b : cfg_ok c -> af w a -> af w b -> exists r, dnfEq2 c a b = Ok r /\ af w r /\ forall I e, holds I e r = Bool.eqb (holds I e a) (holds I e b).
Proof.
  intros Hc A B. destruct (mkNot_af c b B) as (nb & Eb & Nb & Vb). destruct (mkNot_af c a A) as (na & Ea & Na & Va).
  destruct (jun2_af c true a b Hc A B) as (x & Ex & Nx & Vx). destruct (jun2_af c true na nb Hc Na Nb) as (y & Ey & Ny & Vy).
  destruct (jun2_af c false x y Hc Nx Ny) as (r & Er & Nr & Vr). exists r. unfold dnfEq2.
  unfold mkAnd. change NT_AND with (jk true). rewrite Ex. cbn [bind]. rewrite Ea. cbn [bind]. rewrite Eb. cbn [bind]. rewrite Ey. cbn [bind]. split; [exact Er|]. split; [exact Nr|].
  intros I e. rewrite Vr, Vx, Vy, Va, Vb. now destruct (holds I e a), (holds I e b).
Qed.
Lemma xors_af c us : cfg_ok c -> (forall u, In u us -> af w u) -> forall a, af w a ->
  exists r, dnfXors c a us = Ok r /\ af w r /\ forall I e, holds I e r = xors (map (holds I e) (a :: us)).
Proof.
  intros Hc. induction us as [|b us IH]; intros H a A.
  - exists a. split; [reflexivity|]. split; [exact A|]. intros I e. cbn. now rewrite xorb_false_r.
  - destruct (xor2_af c a b Hc A (H b (or_introl eq_refl))) as (x & Ex & Nx & Vx).
    destruct (IH (fun u Hu => H u (or_intror Hu)) x Nx) as (r & Er & Nr & Vr). exists r. cbn [dnfXors]. rewrite Ex. cbn [bind].
    split; [exact Er|]. split; [exact Nr|]. intros I e. rewrite Vr. cbn [map xors fold_right]. rewrite Vx. apply xorb_assoc.
Qed.
Lemma xor_af c us : cfg_ok c -> (2 <= length us)%nat -> (forall u, In u us -> af w u) ->
  exists r, dnfXor c us = Ok r /\ af w r /\ forall I e, holds I e r = xors (map (holds I e) us).
Proof.
  intros Hc L H. destruct us as [|a [|b us]]; try (cbn in L; lia).
  exact (xors_af c (b :: us) Hc (fun u Hu => H u (or_intror Hu)) a (H a (or_introl eq_refl))).
Qed.
(** equality of a list of truth values: each with the next *)
Fixpoint eqs (bs : list bool) : bool :=
  match bs with a :: ((b :: _) as tl) => Bool.eqb a b && eqs tl | _ => true end.
Lemma pairs_af c us : cfg_ok c -> (forall u, In u us -> af w u) ->
  exists rs, pairs_next (dnfEq2 c) us = Ok rs /\ (forall r, In r rs -> af w r) /\ (length rs = pred (length us)) /\
    forall I e, forallb (holds I e) rs = eqs (map (holds I e) us).
Proof.
  intros Hc. induction us as [|a [|b us] IH]; intros H; [exists []; repeat split; intros ? []|exists []; repeat split; intros ? []|].
  destruct (eq2_af c a b Hc (H a (or_introl eq_refl)) (H b (or_intror (or_introl eq_refl)))) as (x & Ex & Nx & Vx).
  destruct (IH (fun u Hu => H u (or_intror Hu))) as (rs & E & N & Ln & V). exists (x :: rs). cbn [pairs_next]. rewrite Ex. cbn [bind].
  cbn [pairs_next] in E. rewrite E. split; [reflexivity|]. split; [intros r [ <- | Hr ]; auto|].
  split; [cbn [length pred] in *; lia|]. intros I e. cbn [forallb]. rewrite V, Vx. reflexivity.
Qed.
Lemma eq_af c us : cfg_ok c -> (2 <= length us)%nat -> (w = true -> (length us <= 3)%nat) -> (forall u, In u us -> af w u) ->
  exists r, dnfEq c us = Ok r /\ af w r /\ forall I e, holds I e r = eqs (map (holds I e) us).
Proof.
  intros Hc L HN H. destruct us as [|a [|b [|d us]]]; try (cbn in L; lia).
  - destruct (eq2_af c a b Hc (H a (or_introl eq_refl)) (H b (or_intror (or_introl eq_refl)))) as (x & Ex & Nx & Vx). exists x.
    split; [exact Ex|]. split; [exact Nx|]. intros I e. rewrite Vx. cbn. now rewrite andb_true_r.
  - destruct (pairs_af c (a :: b :: d :: us) Hc H) as (rs & E & N & Ln & V).
    destruct (junction_af c true rs Hc) as (r & Er & Nr & Vr); [intros Hw; specialize (HN Hw); rewrite Ln; cbn [length] in *; lia|exact N|].
    exists r. cbn [dnfEq]. rewrite E. cbn [bind]. split; [exact Er|]. split; [exact Nr|]. intros I e. rewrite Vr. apply V.
Qed.
Definition diffs (bs : list bool) : bool := match bs with [a; b] => xorb a b | _ => false end.
Lemma distinct_af c us : cfg_ok c -> (2 <= length us)%nat -> (forall u, In u us -> af w u) ->
  exists r, dnfDistinct c us = Ok r /\ af w r /\ forall I e, holds I e r = diffs (map (holds I e) us).
Proof.
  intros Hc L H. destruct us as [|a [|b [|d us]]]; try (cbn in L; lia).
  - destruct (xor2_af c a b Hc (H a (or_introl eq_refl)) (H b (or_intror (or_introl eq_refl)))) as (x & Ex & Nx & Vx). exists x.
    split; [exact Ex|]. split; [exact Nx|]. intros I e. now rewrite Vx.
  - exists FALSE. split; [reflexivity|]. split; [apply AF_false|reflexivity].
Qed.

(** ** equality and distinctness of Booleans *)
Lemma dfm_bool t : dfm w t -> boolean t.
Proof.
  induction t as [k s n ch IH] using term_ind'. rewrite Forall_forall in IH. intros H.
  inversion H as [ | |t V|m a A|m ps NE N C|m ps NE N C|m p q A B|m p q r A B C|m ps L C|m ps L N C|m ps L C]; subst; try (apply slit_boolean; constructor; assumption);
    intros I e.
  - eexists. apply eval_op; [discriminate|reflexivity|reflexivity].
  - eexists. apply eval_op; [exact NE|reflexivity|]. destruct ch; [congruence|reflexivity].
  - eexists. apply eval_op; [exact NE|reflexivity|]. destruct ch; [congruence|reflexivity].
  - eexists. apply eval_op; [discriminate|reflexivity|reflexivity].
  - destruct (IH q (or_intror (or_introl eq_refl)) B I e) as (y & Ey). destruct (IH r (or_intror (or_intror (or_introl eq_refl))) C I e) as (z & Ez).
    exists (if truth (eval I e p) then y else z). apply eval_op; [discriminate|reflexivity|]. cbn [map]. rewrite Ey, Ez. cbn. now destruct (truth (eval I e p)).
  - eexists. apply eval_op; [intros ->; cbn in L; lia|reflexivity|]. destruct ch as [|a [|b ch]]; try (cbn in L; lia). reflexivity.
  - eexists. apply eval_op; [intros ->; cbn in L; lia|reflexivity|]. apply eq_op; [reflexivity|now rewrite map_length].
  - eexists. apply eval_op; [intros ->; cbn in L; lia|reflexivity|]. apply dis_op; [reflexivity|now rewrite map_length].
Qed.
Lemma chain_eqs I e ch : (forall x, In x ch -> boolean x) -> chain veqb (map (eval I e) ch) = eqs (map (holds I e) ch).
Proof.
  induction ch as [|a [|b ch] IH]; intros H; try reflexivity. cbn [map chain eqs].
  rewrite (holds_veqb I e a b) by (apply H; cbn; tauto). f_equal. apply IH. intros x Hx. apply H. now right.
Qed.
Lemma eq_holds n ch I e : (2 <= length ch)%nat -> (forall x, In x ch -> dfm w x) -> holds I e (T NT_EQ boolS n ch) = eqs (map (holds I e) ch).
Proof.
  intros L C. unfold holds at 1. rewrite (eval_op I e NT_EQ boolS n ch (VBool (chain veqb (map (eval I e) ch)))); [|intros ->; cbn in L; lia|reflexivity|apply eq_op; [reflexivity|now rewrite map_length]].
  cbn [truth]. apply chain_eqs. intros x Hx. now apply dfm_bool, C.
Qed.
Lemma dis_holds n ch I e : (2 <= length ch)%nat -> (forall x, In x ch -> dfm w x) -> holds I e (T NT_DISTINCT boolS n ch) = diffs (map (holds I e) ch).
Proof.
  intros L C. unfold holds at 1. rewrite (eval_op I e NT_DISTINCT boolS n ch (VBool (pairwise (fun a b => negb (veqb a b)) (map (eval I e) ch)))); [|intros ->; cbn in L; lia|reflexivity|apply dis_op; [reflexivity|now rewrite map_length]].
  cbn [truth]. assert (B : forall x, In x ch -> boolean x) by (intros x Hx; now apply dfm_bool, C). clear C.
  destruct ch as [|a [|b [|d ch]]]; try (cbn in L; lia).
  - cbn [map pairwise forallb diffs]. rewrite (holds_veqb I e a b) by (apply B; cbn; tauto). now destruct (holds I e a), (holds I e b).
  - cbn [map pairwise forallb diffs].
    rewrite (holds_veqb I e a b), (holds_veqb I e a d), (holds_veqb I e b d) by (apply B; cbn; tauto).
    destruct (holds I e a), (holds I e b), (holds I e d); cbn; rewrite ?andb_false_r; reflexivity.
Qed.

(** ** the walk *)
Definition Vok (V : memo) : Prop := forall x u, In (x, u) V -> af w u /\ forall I e, holds I e u = holds I e x.
Definition apart (V : memo) (t : term) : Prop := forall x u, In (x, u) V -> chs x <> [] -> ~ subterm x t.
Definition hc (t : term) : bool := match chs t with [] => false | _ => true end.
Definition elim_good (c : cfg) (t : term) : Prop := forall V b, NoDup (chs t) -> Vok V -> apart V t ->
  exists u V', elim c t V b = Ok (u, b || hc t, V') /\ af w u /\ (forall I e, holds I e u = holds I e t) /\ Vok V' /\
    forall x u, In (x, u) V' -> In (x, u) V \/ subterm x t.
Definition hcs (l : list term) : bool := existsb hc l.
Record many (V : memo) (l us : list term) (V' : memo) : Prop := {
  m_af : forall u, In u us -> af w u;
  m_len : length us = length l;
  m_sem : forall I e, map (holds I e) us = map (holds I e) l;
  m_ok : Vok V';
  m_new : forall x u, In (x, u) V' -> In (x, u) V \/ exists y, In y l /\ subterm x y }.
Lemma apart_step V V' x l : NoDup (flat_map chs (x :: l)) -> (forall y, In y (x :: l) -> apart V y) ->
  (forall z u, In (z, u) V' -> In (z, u) V \/ subterm z x) -> forall y, In y l -> apart V' y.
Proof.
  intros ND A N y Hy z u Hz NC S. destruct (N z u Hz) as [Hv|Hs]; [exact (A y (or_intror Hy) z u Hv NC S)|].
  cbn [flat_map] in ND. destruct (chs z) as [|q qs] eqn:E; [congruence|].
  assert (Q1 : In q (chs x)) by (apply (sub_chs z x Hs); rewrite E; now left).
  assert (Q2 : In q (flat_map chs l)) by (apply in_flat_map; exists y; split; [exact Hy|]; apply (sub_chs z y S); rewrite E; now left).
  clear - ND Q1 Q2. induction (chs x) as [|p ps IH]; [destruct Q1|]. inversion ND as [|? ? N1 N2]; subst. destruct Q1 as [ -> | Q1 ]; [|now apply IH].
  apply N1, in_or_app. now right.
Qed.
Lemma nodup_app_r (l1 l2 : list term) : NoDup (l1 ++ l2) -> NoDup l2.
Proof. induction l1 as [|x l1 IH]; intros H; [exact H|]. inversion H; subst. now apply IH. Qed.
Lemma nodup_app_l (l1 l2 : list term) : NoDup (l1 ++ l2) -> NoDup l1.
Proof.
  induction l1 as [|x l1 IH]; intros H; [constructor|]. inversion H as [|? ? N1 N2]; subst. constructor; [|now apply IH].
  intros F. apply N1, in_or_app. now left.
Qed.
Lemma fresh_ok c l : (forall x, In x l -> elim_good c x) -> forall V b, NoDup (flat_map chs l) -> Vok V -> (forall y, In y l -> apart V y) ->
  exists us V', el_fresh (elim c) l V b = Ok (us, b || hcs l, V') /\ many V l us V'.
Proof.
  induction l as [|x l IH]; intros G V b ND HV HA.
  - exists [], V. cbn. rewrite orb_false_r. split; [reflexivity|]. constructor; auto. intros u [].
  - destruct (G x (or_introl eq_refl) V false) as (u & V1 & E & A & S & OK1 & N1); [cbn [flat_map] in ND; now apply nodup_app_l in ND|exact HV|apply HA; now left|].
    destruct (IH (fun y Hy => G y (or_intror Hy)) V1 (b || hc x)) as (us & V2 & E2 & M2); [cbn [flat_map] in ND; now apply nodup_app_r in ND|exact OK1|exact (apart_step V V1 x l ND HA N1)|].
    exists (u :: us), V2. cbn [el_fresh]. fold (el_fresh (elim c)). rewrite E. cbn [bind]. rewrite orb_false_l, E2. cbn [bind hcs existsb]. rewrite orb_assoc. split; [reflexivity|].
    destruct M2 as [M1 M2 M3 M4 M5]. constructor; [intros y [ <- | Hy ]; auto|cbn; lia|intros I e; cbn; now rewrite S, M3|exact M4|].
    intros z v Hz. destruct (M5 z v Hz) as [Hz'|(y & Hy & Hs)]; [|right; exists y; split; [now right|exact Hs]].
    destruct (N1 z v Hz') as [Hz''|Hs]; [now left|right; exists x; split; [now left|exact Hs]].
Qed.
Lemma pass_ok c l : (forall x, In x l -> elim_good c x) -> forall V b, NoDup (flat_map chs l) -> Vok V -> (forall y, In y l -> apart V y) ->
  exists us V', el_pass (elim c) l V b = Ok (us, b || hcs l, V') /\ many V l us V'.
Proof.
  induction l as [|x l IH]; intros G V b ND HV HA.
  - exists [], V. cbn. rewrite orb_false_r. split; [reflexivity|]. constructor; auto. intros u [].
  - destruct (G x (or_introl eq_refl) V b) as (u & V1 & E & A & S & OK1 & N1); [cbn [flat_map] in ND; now apply nodup_app_l in ND|exact HV|apply HA; now left|].
    destruct (IH (fun y Hy => G y (or_intror Hy)) V1 (b || hc x)) as (us & V2 & E2 & M2); [cbn [flat_map] in ND; now apply nodup_app_r in ND|exact OK1|exact (apart_step V V1 x l ND HA N1)|].
    exists (u :: us), V2. cbn [el_pass]. fold (el_pass (elim c)). rewrite E. cbn [bind]. rewrite E2. cbn [bind hcs existsb]. rewrite orb_assoc. split; [reflexivity|].
    destruct M2 as [M1 M2 M3 M4 M5]. constructor; [intros y [ <- | Hy ]; auto|cbn; lia|intros I e; cbn; now rewrite S, M3|exact M4|].
    intros z v Hz. destruct (M5 z v Hz) as [Hz'|(y & Hy & Hs)]; [|right; exists y; split; [now right|exact Hs]].
    destruct (N1 z v Hz') as [Hz''|Hs]; [now left|right; exists x; split; [now left|exact Hs]].
Qed.
Lemma dfm_not_term t : dfm w t -> isArithTerm t = false /\ isBVTerm t = false /\ isFPTerm t = false /\ isV SK_STR t = false /\ isCStr t = false /\ isStrOp t = false.
Proof.
  intros [ | |t' [k n H]|n a A|n ps NE N C|n ps NE N C|n p q A B|n p q r A B C|n ps L C|n ps L N C|n ps L C]; try (repeat split; reflexivity).
  destruct (var_kinds5 k H) as [ -> | [ -> | [ -> | [ -> | -> ]]]]; repeat split; reflexivity.
Qed.
Lemma dfm_lit t : dfm w t -> (isLiteral t = Ok true /\ af w t) \/ (isLiteral t = Ok false /\ isAtom t = Ok false /\ isk NT_TEMP_VAR t = false).
Proof.
  intros [ | |t' H|n a A|n ps NE N C|n ps NE N C|n p q A B|n p q r A B C|n ps L C|n ps L N C|n ps L C]; try (right; repeat split; reflexivity);
    try (right; split; [reflexivity|]; split; [destruct ps; reflexivity|reflexivity]).
  - left. split; [reflexivity|apply AF_true].
  - left. split; [reflexivity|apply AF_false].
  - left. split; [now apply bool_var_lit|now apply AF_var].
  - assert (X : isVBool a = true -> bool_var a).
    { destruct A; intros X; try discriminate X. assumption. }
    destruct (isVBool a) eqn:Ea.
    + left. specialize (X eq_refl). split; [apply slit_isLiteral; now apply SL_neg|apply AF_not; now apply AF_var].
    + right. split; [|split; reflexivity]. unfold isLiteral. change (isVBool (T NT_NOT boolS n [a])) with false. cbv iota.
      change (isk NT_NOT (T NT_NOT boolS n [a])) with true. cbv iota. unfold child0. cbn [t_ch bind]. now rewrite Ea.
  - right. split; [reflexivity|]. split; [|reflexivity]. destruct ps as [|a [|b ps]]; try (cbn in L; lia).
    destruct (dfm_not_term a (C a (or_introl eq_refl))) as (X1 & X2 & X3 & X4 & X5 & X6).
    unfold isAtom, isArithAtom, isArithComp, isBVCompOp, isFPComp, isStrComp, isStrEq;
     cbn -[isArithTerm isBVTerm isFPTerm isV isCStr isStrOp]; rewrite ?X1, ?X2, ?X3, ?X4, ?X5, ?X6; reflexivity.
  - right. split; [reflexivity|]. split; [|reflexivity]. destruct ps as [|a [|b ps]]; try (cbn in L; lia).
    destruct (dfm_not_term a (C a (or_introl eq_refl))) as (X1 & X2 & X3 & X4 & X5 & X6).
    unfold isAtom, isArithAtom, isArithComp, isBVCompOp, isFPComp, isStrComp, isStrEq;
     cbn -[isArithTerm isBVTerm isFPTerm isV isCStr isStrOp]; rewrite ?X1, ?X2, ?X3, ?X4, ?X5, ?X6; reflexivity.
Qed.
Lemma mfind_in t V u : mfind t V = Some u -> In (t, u) V.
Proof.
  induction V as [|[a b] V IH]; cbn [mfind]; [discriminate|]. destruct (teq t a) eqn:E; [|intros H; right; now apply IH].
  intros H. injection H as ->. apply teq_spec in E. subst. now left.
Qed.
(** storing the result of a node *)
Lemma store_ok t u V V' l us : many V l us V' -> (forall y, In y l -> In y (t_ch t)) -> af w u -> (forall I e, holds I e u = holds I e t) ->
  Vok ((t, u) :: V') /\ forall x v, In (x, v) ((t, u) :: V') -> In (x, v) V \/ subterm x t.
Proof.
  intros M Hl A S. split.
  - intros x v [Hx|Hx]; [injection Hx as <- <-; now split|]. exact (m_ok _ _ _ _ M x v Hx).
  - intros x v [Hx|Hx]; [injection Hx as <- <-; right; constructor|]. destruct (m_new _ _ _ _ M x v Hx) as [Hv|(y & Hy & Hs)]; [now left|right].
    exact (Sub_ch x y t (Hl y Hy) Hs).
Qed.
Lemma hc_node k n ch : rewritten (T k boolS n ch) = true -> hc (T k boolS n ch) = true.
Proof. intros H. unfold hc. rewrite chs_node, H. reflexivity. Qed.
Lemma hc_plain k n ch : rewritten (T k boolS n ch) = false -> hc (T k boolS n ch) = hcs ch.
Proof.
  intros H. unfold hc, hcs. rewrite chs_node, H. cbn [app]. induction ch as [|x ch IH]; [reflexivity|]. cbn [flat_map existsb].
  assert (IH' : match flat_map chs ch with [] => false | _ => true end = existsb hc ch).
  { clear -IH H. apply IH. unfold rewritten in *. cbn [t_kind] in *. exact H. }
  unfold hc at 1. destruct (chs x); [exact IH'|reflexivity].
Qed.
Lemma hc_af t : af w t -> hc t = false. Proof. intros H. unfold hc. now rewrite (af_chs t H). Qed.
Lemma hcs_nil l : hcs l = false -> flat_map chs l = [].
Proof.
  intros H. apply flat_nil. intros x Hx. unfold hcs in H. destruct (chs x) eqn:E; [reflexivity|]. assert (X : existsb hc l = true) by (apply existsb_exists; exists x; split; [exact Hx|unfold hc; now rewrite E]). congruence.
Qed.
Lemma many1 c a V b : elim_good c a -> NoDup (chs a) -> Vok V -> apart V a ->
  exists u V', elim c a V b = Ok (u, b || hc a, V') /\ many V [a] [u] V'.
Proof.
  intros G ND HV HA. destruct (G V b ND HV HA) as (u & V1 & E & A & S & OK1 & N1). exists u, V1. split; [exact E|].
  constructor; [intros v [ <- | [] ]; exact A|reflexivity|intros I e; cbn; now rewrite S|exact OK1|].
  intros x v Hx. destruct (N1 x v Hx) as [H|H]; [now left|right; exists a; split; [now left|exact H]].
Qed.
Lemma dfm_sis t : dfm w t -> sis SK_BOOL t = true.
Proof. intros [ | |t' [k n H]|n a A|n ps NE N C|n ps NE N C|n p q A B|n p q r A B C|n ps L C|n ps L N C|n ps L C]; reflexivity. Qed.
Lemma dfm_allbool ch : (forall x, In x ch -> dfm w x) -> forallb (sis SK_BOOL) ch = true.
Proof. intros H. apply forallb_forall. intros x Hx. now apply dfm_sis, H. Qed.
Lemma elim_ok c t : cfg_ok c -> dfm w t -> elim_good c t.
Proof.
  intros Hc. induction t as [k s n ch IH] using term_ind'. rewrite Forall_forall in IH. intros F V b ND HV HA.
  destruct (dfm_lit _ F) as [[EL A]|(EL & EA & ET)].
  { exists (T k s n ch), V. rewrite (hc_af _ A), orb_false_r. split; [|split; [exact A|split; [reflexivity|split; [exact HV|auto]]]].
    cbn [elim]. rewrite EL. reflexivity. }
  destruct (mfind (T k s n ch) V) as [u|] eqn:EF.
  { pose proof (mfind_in _ _ _ EF) as Hin. destruct (HV _ _ Hin) as [Au Su]. exists u, V.
    assert (Hh : hc (T k s n ch) = false).
    { unfold hc. destruct (chs (T k s n ch)) eqn:E; [reflexivity|]. exfalso. apply (HA _ _ Hin); [rewrite E; discriminate|constructor]. }
    rewrite Hh, orb_false_r. split; [|split; [exact Au|split; [exact Su|split; [exact HV|auto]]]]. cbn [elim]. rewrite EL. cbn [bind]. rewrite EA. cbn [bind]. rewrite ET, EF. reflexivity. }
  assert (G : forall x, In x ch -> dfm w x -> elim_good c x) by (intros x Hx Fx; apply IH; assumption).
  assert (HA' : forall y, In y ch -> apart V y).
  { intros y Hy x u Hx NC Sx. apply (HA x u Hx NC). exact (Sub_ch x y (T k s n ch) Hy Sx). }
  assert (ND' : NoDup (flat_map chs ch)) by (unfold unshared in ND; rewrite chs_node in ND; now apply nodup_app_r in ND).
  cbn [elim]. rewrite EL. cbn [bind]. rewrite EA. cbn [bind]. rewrite ET, EF. cbn [orb].
  inversion F as [ | |t V0|m a A|m ps NE N C|m ps NE N C|m p q A B|m p q r A B C|m ps L C|m ps L N C|m ps L C]; subst; try discriminate EL.
  - inversion V0 as [k' n' HV0]; subst. rewrite (bool_var_lit _ V0) in EL. discriminate EL.
  - (* not *)
    destruct (many1 c a V false (G a (or_introl eq_refl) A)) as (u & V1 & E & M); [cbn in ND'; now rewrite app_nil_r in ND'|exact HV|apply HA'; now left|].
    rewrite E. cbn [bind]. destruct (mkNot_af c u (m_af _ _ _ _ M u (or_introl eq_refl))) as (r & Er & Ar & Vr). rewrite Er. cbn [bind].
    assert (S : forall I e, holds I e r = holds I e (T NT_NOT boolS n [a])).
    { intros I e. rewrite Vr, (holds_not (T NT_NOT boolS n [a]) a I e) by reflexivity. pose proof (m_sem _ _ _ _ M I e) as X. cbn in X. injection X as X. now rewrite X. }
    destruct (store_ok (T NT_NOT boolS n [a]) r V V1 _ _ M (fun y Hy => Hy) Ar S) as [S1 S2]. exists r, ((T NT_NOT boolS n [a], r) :: V1).
    split; [|split; [exact Ar|split; [exact S|split; assumption]]]. rewrite (hc_plain NT_NOT n [a] eq_refl). cbn [hcs existsb]. now rewrite orb_false_r.
  - (* and *)
    destruct (fresh_ok c ch (fun x Hx => G x Hx (C x Hx)) V b ND' HV HA') as (us & V1 & E & M). rewrite E. cbn [bind].
    rewrite (hc_plain NT_AND n ch eq_refl). destruct (b || hcs ch) eqn:EB.
    + destruct (junction_af c true us Hc) as (r & Er & Ar & Vr); [intros Hw; rewrite (m_len _ _ _ _ M); auto|exact (m_af _ _ _ _ M)|].
      change (mkAnd c us) with (mkJunction c (jk true) us). rewrite Er. cbn [bind].
      assert (S : forall I e, holds I e r = holds I e (T NT_AND boolS n ch)).
      { intros I e. rewrite Vr, holds_and by exact NE. cbn [jsem]. now rewrite !forallb_mapid, (m_sem _ _ _ _ M). }
      destruct (store_ok (T NT_AND boolS n ch) r V V1 _ _ M (fun y Hy => Hy) Ar S) as [S1 S2]. exists r, ((T NT_AND boolS n ch, r) :: V1).
      split; [reflexivity|split; [exact Ar|split; [exact S|split; assumption]]].
    + apply orb_false_iff in EB. destruct EB as [_ EB].
      assert (At : af w (T NT_AND boolS n ch)) by (apply dfm_af; [exact F|]; rewrite chs_node; change (rewritten (T NT_AND boolS n ch)) with false; cbn [app]; now apply hcs_nil).
      destruct (store_ok (T NT_AND boolS n ch) (T NT_AND boolS n ch) V V1 _ _ M (fun y Hy => Hy) At (fun _ _ => eq_refl)) as [S1 S2]. eexists _, _.
      split; [reflexivity|split; [exact At|split; [reflexivity|split; assumption]]].
  - (* or *)
    destruct (fresh_ok c ch (fun x Hx => G x Hx (C x Hx)) V b ND' HV HA') as (us & V1 & E & M). rewrite E. cbn [bind].
    rewrite (hc_plain NT_OR n ch eq_refl). destruct (b || hcs ch) eqn:EB.
    + destruct (junction_af c false us Hc) as (r & Er & Ar & Vr); [intros Hw; rewrite (m_len _ _ _ _ M); auto|exact (m_af _ _ _ _ M)|].
      change (mkOr c us) with (mkJunction c (jk false) us). rewrite Er. cbn [bind].
      assert (S : forall I e, holds I e r = holds I e (T NT_OR boolS n ch)).
      { intros I e. rewrite Vr, holds_or by exact NE. cbn [jsem]. now rewrite !existsb_mapid, (m_sem _ _ _ _ M). }
      destruct (store_ok (T NT_OR boolS n ch) r V V1 _ _ M (fun y Hy => Hy) Ar S) as [S1 S2]. exists r, ((T NT_OR boolS n ch, r) :: V1).
      split; [reflexivity|split; [exact Ar|split; [exact S|split; assumption]]].
    + apply orb_false_iff in EB. destruct EB as [_ EB].
      assert (At : af w (T NT_OR boolS n ch)) by (apply dfm_af; [exact F|]; rewrite chs_node; change (rewritten (T NT_OR boolS n ch)) with false; cbn [app]; now apply hcs_nil).
      destruct (store_ok (T NT_OR boolS n ch) (T NT_OR boolS n ch) V V1 _ _ M (fun y Hy => Hy) At (fun _ _ => eq_refl)) as [S1 S2]. eexists _, _.
      split; [reflexivity|split; [exact At|split; [reflexivity|split; assumption]]].
  - (* implies *)
    assert (GG : forall x, In x [p; q] -> elim_good c x) by (intros x Hx; apply G; [exact Hx|destruct Hx as [ <- | [ <- | [] ]]; assumption]).
    destruct (pass_ok c [p; q] GG V b ND' HV HA') as (us & V1 & E & M).
    cbn [el_pass] in E. destruct (elim c p V b) as [[[u b1] V2]| | | | |]; cbn [bind] in E |- *; try discriminate E.
    destruct (elim c q V2 b1) as [[[v b2] V3]| | | | |]; cbn [bind] in E |- *; try discriminate E. cbn [bind]. injection E as <- Eb <-.
    pose proof (m_af _ _ _ _ M u (or_introl eq_refl)) as Au. pose proof (m_af _ _ _ _ M v (or_intror (or_introl eq_refl))) as Av.
    destruct (mkNot_af c u Au) as (nu & En & An & Vn). rewrite En. cbn [bind]. destruct (jun2_af c false nu v Hc An Av) as (r & Er & Ar & Vr).
    change (mkOr c [nu; v]) with (mkJunction c (jk false) [nu; v]). rewrite Er. cbn [bind].
    assert (S : forall I e, holds I e r = holds I e (T NT_IMPLIES boolS n [p; q])).
    { intros I e. rewrite Vr, Vn, (skel_holds NT_IMPLIES boolS n [p; q] I e eq_refl). cbn [map skel_sem imps].
      pose proof (m_sem _ _ _ _ M I e) as X. cbn [map] in X. injection X as X1 X2. rewrite X1, X2. now destruct (holds I e p), (holds I e q). }
    destruct (store_ok (T NT_IMPLIES boolS n [p; q]) r V V3 _ _ M (fun y Hy => Hy) Ar S) as [S1 S2]. eexists _, _.
    rewrite (hc_node NT_IMPLIES n [p; q] eq_refl), orb_true_r. split; [reflexivity|split; [exact Ar|split; [exact S|split; assumption]]].
  - (* ite *)
    assert (GG : forall x, In x [p; q; r] -> elim_good c x) by (intros x Hx; apply G; [exact Hx|destruct Hx as [ <- | [ <- | [ <- | [] ]]]; assumption]).
    destruct (pass_ok c [p; q; r] GG V b ND' HV HA') as (us & V1 & E & M).
    cbn [el_pass] in E. destruct (elim c p V b) as [[[u b1] V2]| | | | |]; cbn [bind] in E |- *; try discriminate E.
    destruct (elim c q V2 b1) as [[[v b2] V3]| | | | |]; cbn [bind] in E |- *; try discriminate E.
    destruct (elim c r V3 b2) as [[[x b3] V4]| | | | |]; cbn [bind] in E |- *; try discriminate E. cbn [bind]. injection E as <- Eb <-.
    pose proof (m_af _ _ _ _ M u (or_introl eq_refl)) as Au. pose proof (m_af _ _ _ _ M v (or_intror (or_introl eq_refl))) as Av.
    pose proof (m_af _ _ _ _ M x (or_intror (or_intror (or_introl eq_refl)))) as Ax.
    destruct (mkNot_af c u Au) as (nu & En & An & Vn). rewrite En. cbn [bind]. destruct (jun2_af c false nu v Hc An Av) as (r1 & Er1 & Ar1 & Vr1).
    destruct (jun2_af c false u x Hc Au Ax) as (r2 & Er2 & Ar2 & Vr2). destruct (jun2_af c true r1 r2 Hc Ar1 Ar2) as (y & Ey & Ay & Vy).
    unfold mkOr, mkAnd. change NT_OR with (jk false). rewrite Er1. cbn [bind]. rewrite Er2. cbn [bind]. change NT_AND with (jk true). rewrite Ey. cbn [bind].
    assert (S : forall I e, holds I e y = holds I e (T NT_ITE boolS n [p; q; r])).
    { intros I e. rewrite Vy, Vr1, Vr2, Vn, (skel_holds NT_ITE boolS n [p; q; r] I e eq_refl). cbn [map skel_sem].
      pose proof (m_sem _ _ _ _ M I e) as X. cbn [map] in X. injection X as X1 X2 X3. rewrite X1, X2, X3. now destruct (holds I e p), (holds I e q), (holds I e r). }
    destruct (store_ok (T NT_ITE boolS n [p; q; r]) y V V4 _ _ M (fun y Hy => Hy) Ay S) as [S1 S2]. eexists _, _.
    rewrite (hc_node NT_ITE n [p; q; r] eq_refl), orb_true_r. split; [reflexivity|split; [exact Ay|split; [exact S|split; assumption]]].
  - (* xor *)
    destruct (pass_ok c ch (fun x Hx => G x Hx (C x Hx)) V b ND' HV HA') as (us & V1 & E & M). rewrite E. cbn [bind].
    destruct (xor_af c us Hc) as (r & Er & Ar & Vr); [rewrite (m_len _ _ _ _ M); exact L|exact (m_af _ _ _ _ M)|]. rewrite Er. cbn [bind].
    assert (S : forall I e, holds I e r = holds I e (T NT_XOR boolS n ch)).
    { intros I e. rewrite Vr, (m_sem _ _ _ _ M). symmetry. apply (skel_holds NT_XOR boolS n ch I e). apply Nat.leb_le. lia. }
    destruct (store_ok (T NT_XOR boolS n ch) r V V1 _ _ M (fun y Hy => Hy) Ar S) as [S1 S2]. eexists _, _.
    rewrite (hc_node NT_XOR n ch eq_refl), orb_true_r. split; [reflexivity|split; [exact Ar|split; [exact S|split; assumption]]].
  - (* eq *)
    rewrite (dfm_allbool ch C). change (isEq (T NT_EQ boolS n ch)) with true. cbv iota.
    destruct (fresh_ok c ch (fun x Hx => G x Hx (C x Hx)) V b ND' HV HA') as (us & V1 & E & M). rewrite E. cbn [bind].
    destruct (eq_af c us Hc) as (r & Er & Ar & Vr); [rewrite (m_len _ _ _ _ M); exact L|rewrite (m_len _ _ _ _ M); exact N|exact (m_af _ _ _ _ M)|]. rewrite Er. cbn [bind].
    assert (S : forall I e, holds I e r = holds I e (T NT_EQ boolS n ch)).
    { intros I e. rewrite Vr, (m_sem _ _ _ _ M). symmetry. now apply eq_holds. }
    destruct (store_ok (T NT_EQ boolS n ch) r V V1 _ _ M (fun y Hy => Hy) Ar S) as [S1 S2]. eexists _, _.
    rewrite (hc_node NT_EQ n ch eq_refl), orb_true_r. split; [reflexivity|split; [exact Ar|split; [exact S|split; assumption]]].
  - (* distinct *)
    rewrite (dfm_allbool ch C). change (isEq (T NT_DISTINCT boolS n ch)) with false. change (isDistinct (T NT_DISTINCT boolS n ch)) with true. cbv iota.
    destruct (fresh_ok c ch (fun x Hx => G x Hx (C x Hx)) V b ND' HV HA') as (us & V1 & E & M). rewrite E. cbn [bind].
    destruct (distinct_af c us Hc) as (r & Er & Ar & Vr); [rewrite (m_len _ _ _ _ M); exact L|exact (m_af _ _ _ _ M)|]. rewrite Er. cbn [bind].
    assert (S : forall I e, holds I e r = holds I e (T NT_DISTINCT boolS n ch)).
    { intros I e. rewrite Vr, (m_sem _ _ _ _ M). symmetry. now apply dis_holds. }
    destruct (store_ok (T NT_DISTINCT boolS n ch) r V V1 _ _ M (fun y Hy => Hy) Ar S) as [S1 S2]. eexists _, _.
    rewrite (hc_node NT_DISTINCT n ch eq_refl), orb_true_r. split; [reflexivity|split; [exact Ar|split; [exact S|split; assumption]]].
Qed.
Lemma elimAll_ok c t : cfg_ok c -> dfm w t -> unshared t ->
  exists u, toDNFEliminateAll c t = Ok u /\ af w u /\ forall I e, holds I e u = holds I e t.
Proof.
  intros Hc F ND.
  destruct (elim_ok c t Hc F [] false ND) as (u & V1 & E & A & Su & OK1 & _); [intros ? ? []|intros ? ? []|].
  unfold toDNFEliminateAll, dnf_rounds. change 1000%nat with (S (S 998)). set (f := 998%nat). clearbody f. cbn [elimLoop]. rewrite E. cbn [bind orb].
  destruct (hc t); [|exists u; now split].
  destruct (elim_ok c u Hc (af_dfm u A) V1 false) as (u2 & V2 & E2 & A2 & S2 & _ & _); [rewrite (af_chs u A); constructor|exact OK1| |].
  - intros x v Hx NC Sx. apply NC. pose proof (sub_chs x u Sx) as Hi. rewrite (af_chs u A) in Hi. destruct (chs x) as [|q qs]; [reflexivity|]. destruct (Hi q (or_introl eq_refl)).
  - rewrite E2. cbn [bind orb]. rewrite (hc_af u A). exists u2. split; [reflexivity|]. split; [exact A2|]. intros I e. now rewrite S2, Su.
Qed.
End W.
