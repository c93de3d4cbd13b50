(** C97: the predicates that tell to which theory a term belongs (dag.h:359-653, op_utils.h): isArithTerm, isBVTerm, isFPTerm,
    isAtom.  For applications of the theory operators of CtorSpec.rank, for variables and for constants. *)
From Coq Require Import String Lia Permutation.
From Verif Require Import Base KindModel SortModel TermModel BVModel BVSpec SimpModel OpModel ArrSimpModel OpSpec OpProofs
  ParseModel OpExamples PropsParse CtorModel CtorSpec CtorProofs CtorProofs2 CtorProofs3 PropsCtor PropsKinds.
Open Scope Z_scope.

(** the theory of a sort *)
Definition numeric_ty (y : ty) : Prop := y = TInt \/ y = TReal.
Definition bv_ty (y : ty) : Prop := exists w, y = TBV w.
Definition fp_ty (y : ty) : Prop := exists e g, y = TFP e g.
(** the operators whose results the predicates miss *)
Definition bv_missed : list string := ["bvneg"; "bvcomp"; "int2bv"; "fp.to_ubv"; "fp.to_sbv"]%string.
Definition arith_missed : list string := ["bv2nat"; "fp.to_real"; "str.len"; "str.to_int"; "str.to_code"; "str.indexof"]%string.
Definition atom_missed : list string := ["str.prefixof"; "str.suffixof"]%string.

(** ** the predicates on a node of operator kind *)
Definition op_kind (k : kind) : bool := negb (kin k (var_kinds ++ const_kinds ++ [NT_ITE; NT_MAX; NT_MIN; NT_UF_APPLY; NT_EQ; NT_EQ_BOOL; NT_EQ_OTHER; NT_DISTINCT; NT_DISTINCT_BOOL; NT_DISTINCT_OTHER])).
Lemma bv_kind k s n ch : op_kind k = true -> isBVTerm (T k s n ch) = kin k bv_op_kinds.
Proof. destruct k; intros H; try discriminate H; reflexivity. Qed.
Lemma arith_kind k s n ch : op_kind k = true -> isArithTerm (T k s n ch) = kin k arith_kinds.
Proof. destruct k; intros H; try discriminate H; reflexivity. Qed.
Lemma fp_kind k s n ch : op_kind k = true -> isFPTerm (T k s n ch) = kin k fp_op_kinds || (kin k fp_conv_kinds && sis SK_FP (T k s n ch)).
Proof. destruct k; intros H; try discriminate H; reflexivity. Qed.
Lemma atom_kind k s n ch : op_kind k = true ->
  isAtom (T k s n ch) = Ok (kin k (arith_comp_kinds ++ arith_prop_kinds ++ bv_comp_kinds ++ fp_comp_kinds ++ fp_prop_kinds ++ str_comp_kinds ++ str_prop_kinds)).
Proof. destruct k; intros H; try discriminate H; destruct ch; reflexivity. Qed.

Ltac ranks R := destruct R; repeat match goal with H : In _ _ |- _ => cbn [In] in H; repeat (destruct H as [<-|H]; [|]); try destruct H end.
Lemma rank_op op ix tys r : rank op ix tys r -> op_kind (getOperKind (L op)) = true.
Proof. intros R. destruct R; try reflexivity; repeat match goal with H : In ?x _ |- context [L ?x] => cbn [In] in H; repeat (destruct H as [<-|H]; [reflexivity|]); destruct H end. Qed.
Lemma rank_bv op ix tys r : rank op ix tys r -> (kin (getOperKind (L op)) bv_op_kinds = true <-> bv_ty r /\ ~ In op bv_missed).
Proof.
  unfold bv_ty, bv_missed. intros R.
  assert (N : forall k, kin k bv_op_kinds = false -> (forall w, r <> TBV w) \/ In op bv_missed -> (kin k bv_op_kinds = true <-> (exists w, r = TBV w) /\ ~ In op bv_missed)).
  { intros k E [H|H]; rewrite E; split; try discriminate; intros [(w & Hw) C]; [now apply H in Hw|contradiction]. }
  assert (Y : forall k, kin k bv_op_kinds = true -> (exists w, r = TBV w) -> ~ In op bv_missed -> (kin k bv_op_kinds = true <-> (exists w, r = TBV w) /\ ~ In op bv_missed)) by (intros; tauto).
  destruct R; repeat match goal with H : In ?x (_ :: _) |- context [L ?x] => cbn [In] in H; repeat (destruct H as [<-|H]; [|]); try destruct H end;
  first [apply N; [reflexivity|first [left; discriminate|right; cbn; tauto]]
        |apply Y; [reflexivity|eexists; reflexivity|cbn; intuition discriminate]].
Qed.
Lemma rank_arith op ix tys r : rank op ix tys r -> (kin (getOperKind (L op)) arith_kinds = true <-> numeric_ty r /\ ~ In op arith_missed).
Proof.
  unfold numeric_ty. intros R.
  assert (N : forall k, kin k arith_kinds = false -> (r <> TInt /\ r <> TReal) \/ In op arith_missed -> (kin k arith_kinds = true <-> (r = TInt \/ r = TReal) /\ ~ In op arith_missed)).
  { intros k E H; rewrite E; split; [discriminate|]. intros [A C]; destruct H as [[H1 H2]|H]; tauto. }
  assert (Y : forall k, kin k arith_kinds = true -> (r = TInt \/ r = TReal) -> ~ In op arith_missed -> (kin k arith_kinds = true <-> (r = TInt \/ r = TReal) /\ ~ In op arith_missed)) by (intros; tauto).
  destruct R; repeat match goal with H : In ?x (_ :: _) |- context [L ?x] => cbn [In] in H; repeat (destruct H as [<-|H]; [|]); try destruct H end;
  first [apply N; [reflexivity|first [left; split; discriminate|right; cbn; tauto]]
        |apply Y; [reflexivity|tauto|cbn; intuition discriminate]].
Qed.
Lemma rank_atom op ix tys r : rank op ix tys r ->
  (kin (getOperKind (L op)) (arith_comp_kinds ++ arith_prop_kinds ++ bv_comp_kinds ++ fp_comp_kinds ++ fp_prop_kinds ++ str_comp_kinds ++ str_prop_kinds) = true <->
   r = TBool /\ ~ In op atom_missed).
Proof.
  set (ks := arith_comp_kinds ++ _). intros R.
  assert (N : forall k, kin k ks = false -> r <> TBool \/ In op atom_missed -> (kin k ks = true <-> r = TBool /\ ~ In op atom_missed)).
  { intros k E H; rewrite E; split; [discriminate|]. tauto. }
  assert (Y : forall k, kin k ks = true -> r = TBool -> ~ In op atom_missed -> (kin k ks = true <-> r = TBool /\ ~ In op atom_missed)) by (intros; tauto).
  destruct R; repeat match goal with H : In ?x (_ :: _) |- context [L ?x] => cbn [In] in H; repeat (destruct H as [<-|H]; [|]); try destruct H end;
  first [apply N; [reflexivity|first [left; discriminate|right; cbn; tauto]]
        |apply Y; [reflexivity|reflexivity|cbn; intuition discriminate]].
Qed.
Lemma rank_fp op ix tys r s n ch : rank op ix tys r -> has_ty s r ->
  (kin (getOperKind (L op)) fp_op_kinds || (kin (getOperKind (L op)) fp_conv_kinds && sis SK_FP (T (getOperKind (L op)) s n ch)) = true <-> fp_ty r).
Proof.
  unfold fp_ty. intros R Hs.
  assert (N : forall b, b = false -> (forall e g, r <> TFP e g) -> (b = true <-> exists e g, r = TFP e g)).
  { intros b E H; rewrite E; split; [discriminate|]. intros (e & g & A). now apply H in A. }
  assert (Y : forall b, b = true -> (exists e g, r = TFP e g) -> (b = true <-> exists e g, r = TFP e g)) by (intros; tauto).
  destruct R; repeat match goal with H : In ?x (_ :: _) |- context [L ?x] => cbn [In] in H; repeat (destruct H as [<-|H]; [|]); try destruct H end;
  cbn [has_ty] in Hs; repeat match type of Hs with ex _ => destruct Hs as [nm Hs] | _ \/ _ => destruct Hs as [Hs|Hs] end; subst s;
  first [apply N; [reflexivity|discriminate]
        |apply Y; [reflexivity|do 2 eexists; reflexivity]].
Qed.

(** ** applications of the operators of SMT-LIB *)
(** [applied x ptr p op ix ps t]: parsing the application gives [t] *)
Definition applied (x : pcfg) (ptr : list term -> list term) (p : pst) (op : string) (ix : list Z) (ps : list term) (t : term) : Prop :=
  parseOper (with_ops x ptr) p (L op) (idx ix) ps = Ok t.
(** well-sorted arguments, none an error node, constant folding does not apply, the name is not a user's function *)
Definition plain_application (x : pcfg) (p : pst) (op : string) (ix : list Z) (ps : list term) (tys : list ty) (r : ty) : Prop :=
  (forall l, Permutation (c_sort (x_c x) l) l) /\ rank op ix tys r /\ Forall2 typed ps tys /\ Forall (fun t => isErr t = false) ps /\
  mget (L op) (p_fun p) = None /\ (never_folded op = false -> open_args ps) /\ (c_dbg (x_c x) = true -> op <> "fp.fma"%string).
Lemma applied_node x ptr p op ix ps tys r t : plain_application x p op ix ps tys r -> applied x ptr p op ix ps t ->
  exists s n ch, t = T (getOperKind (L op)) s n ch /\ has_ty s r /\ rank op ix tys r.
Proof.
  intros (P & R & F & E & M & O & D) A. destruct (well_sorted x ptr p op ix ps tys r P R F E M O D) as (u & U & S & K & _).
  unfold applied in A. rewrite U in A. injection A as <-. destruct u as [k s n ch]. cbn in S, K. subst k. exists s, n, ch. split; [reflexivity|split; [exact S|exact R]].
Qed.
(** isFPTerm is exact *)
Theorem C97_fp_terms : forall x ptr p op ix ps tys r t, plain_application x p op ix ps tys r -> applied x ptr p op ix ps t ->
  (isFPTerm t = true <-> fp_ty r).
Proof.
  intros x ptr p op ix ps tys r t H A. destruct (applied_node _ _ _ _ _ _ _ _ _ H A) as (s & n & ch & -> & S & R).
  rewrite (fp_kind _ _ _ _ (rank_op _ _ _ _ R)). exact (rank_fp _ _ _ _ _ _ _ R S).
Qed.
Print Assumptions C97_fp_terms.
(** isBVTerm, isArithTerm and isAtom never hold of a term of another theory, and hold of all of their own except the listed operators *)
Theorem C97_bv_terms_partial : forall x ptr p op ix ps tys r t, plain_application x p op ix ps tys r -> applied x ptr p op ix ps t ->
  (isBVTerm t = true <-> bv_ty r /\ ~ In op ["bvneg"; "bvcomp"; "int2bv"; "fp.to_ubv"; "fp.to_sbv"]%string).
Proof.
  intros x ptr p op ix ps tys r t H A. destruct (applied_node _ _ _ _ _ _ _ _ _ H A) as (s & n & ch & -> & S & R).
  rewrite (bv_kind _ _ _ _ (rank_op _ _ _ _ R)). exact (rank_bv _ _ _ _ R).
Qed.
Print Assumptions C97_bv_terms_partial.
Theorem C97_arith_terms_partial : forall x ptr p op ix ps tys r t, plain_application x p op ix ps tys r -> applied x ptr p op ix ps t ->
  (isArithTerm t = true <-> numeric_ty r /\ ~ In op ["bv2nat"; "fp.to_real"; "str.len"; "str.to_int"; "str.to_code"; "str.indexof"]%string).
Proof.
  intros x ptr p op ix ps tys r t H A. destruct (applied_node _ _ _ _ _ _ _ _ _ H A) as (s & n & ch & -> & S & R).
  rewrite (arith_kind _ _ _ _ (rank_op _ _ _ _ R)). exact (rank_arith _ _ _ _ R).
Qed.
Print Assumptions C97_arith_terms_partial.
Theorem C97_atoms_partial : forall x ptr p op ix ps tys r t, plain_application x p op ix ps tys r -> applied x ptr p op ix ps t ->
  exists b, isAtom t = Ok b /\ (b = true <-> r = TBool /\ ~ In op ["str.prefixof"; "str.suffixof"]%string).
Proof.
  intros x ptr p op ix ps tys r t H A. destruct (applied_node _ _ _ _ _ _ _ _ _ H A) as (s & n & ch & -> & S & R).
  rewrite (atom_kind _ _ _ _ (rank_op _ _ _ _ R)). eexists. split; [reflexivity|]. exact (rank_atom _ _ _ _ R).
Qed.
Print Assumptions C97_atoms_partial.

(** ** variables and constants *)
Theorem C97_variables : forall k s n y, In k [NT_VAR; NT_TEMP_VAR; NT_QUANT_VAR; NT_LET_BIND_VAR; NT_PLACEHOLDER_VAR] -> has_ty s y -> s <> intorealS ->
  let t := T k s n [] in
  (isBVTerm t = true <-> bv_ty y) /\ (isArithTerm t = true <-> numeric_ty y) /\ (isFPTerm t = true <-> fp_ty y) /\ isAtom t = Ok false.
Proof.
  intros k s n y Hk Hs Hn. unfold bv_ty, numeric_ty, fp_ty.
  destruct y; cbn [has_ty] in Hs; repeat match type of Hs with ex _ => destruct Hs as [nm Hs] | _ \/ _ => destruct Hs as [Hs|Hs] end; subst s; try (exfalso; now apply Hn);
  cbn [In] in Hk; repeat (destruct Hk as [<-|Hk]; [split; [|split; [|split; [|reflexivity]]]; (split; [first [discriminate|intros _; eauto]|first [reflexivity|intros (? & E); try destruct E as (? & E); discriminate E|intros [E|E]; discriminate E]])|]); destruct Hk.
Qed.
Print Assumptions C97_variables.
Theorem C97_constants : forall s n y, has_ty s y -> let t := T NT_CONST s n [] in
  (isBVTerm t = true <-> bv_ty y) /\ (isArithTerm t = true <-> numeric_ty y) /\ (isFPTerm t = true <-> fp_ty y) /\ isAtom t = Ok false.
Proof.
  intros s n y Hs. unfold bv_ty, numeric_ty, fp_ty.
  destruct y; cbn [has_ty] in Hs; repeat match type of Hs with ex _ => destruct Hs as [nm Hs] | _ \/ _ => destruct Hs as [Hs|Hs] end; subst s;
  (split; [|split; [|split; [|reflexivity]]]; (split; [first [discriminate|intros _; eauto]|first [reflexivity|intros (? & E); try destruct E as (? & E); discriminate E|intros [E|E]; discriminate E]])).
Qed.
Print Assumptions C97_constants.

(** ** what the predicates miss *)
Theorem C97_missed_refuted :
  (exists t, reads "(bvneg u)" = Ok t /\ t_sort t = bvS 8 /\ isBVTerm t = false) /\
  (exists t, reads "(bvcomp u v)" = Ok t /\ t_sort t = bvS 1 /\ isBVTerm t = false) /\
  (exists t, reads "(bv2nat u)" = Ok t /\ t_sort t = intS /\ isArithTerm t = false) /\
  (exists t, reads "(str.len s)" = Ok t /\ t_sort t = intS /\ isArithTerm t = false) /\
  (exists t, reads "(str.prefixof s s)" = Ok t /\ isAtom t = Ok false) /\
  (exists t, reads "(= (bvneg u) v)" = Ok t /\ t_sort t = boolS /\ isAtom t = Ok false) /\
  (exists t, reads "(= v (bvneg u))" = Ok t /\ t_sort t = boolS /\ isAtom t = Ok true).
Proof. repeat split; (eexists; split; [vm_compute; reflexivity|]; repeat split; vm_compute; reflexivity). Qed.
Print Assumptions C97_missed_refuted.
(** not vacuous *)
Example C97_ex : plain_application (xk true) pt "concat" [] [u8; w4] [TBV 8; TBV 4] (TBV 12) /\
  (exists t, applied (xk true) idp pt "concat" [] [u8; w4] t /\ isBVTerm t = true) /\
  (exists t, applied (xk true) idp pt "fp.lt" [] [f32; f32] t /\ isAtom t = Ok true /\ isFPTerm t = false) /\
  (exists t, applied (xk true) idp pt "/" [] [rl; rl] t /\ isArithTerm t = true /\ isBVTerm t = false).
Proof.
  split.
  { unfold plain_application.
    split; [intros l; apply Permutation_refl|]. split; [apply (R_concat [8; 4]); [cbn; lia| |reflexivity]; repeat constructor; reflexivity|].
    split; [repeat constructor|]. split; [repeat constructor|]. split; [reflexivity|]. split; [intros _; left; reflexivity|intros _ E; discriminate E]. }
  repeat split; (eexists; split; [vm_compute; reflexivity|]; repeat split; vm_compute; reflexivity).
Qed.
