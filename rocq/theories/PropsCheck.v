(** C95: a script is parsed, a model text is read, and the assertions are evaluated under that model.
    CheckSpec.v says what a model text that lists the values of the constants is ([lists_values]). *)
From Coq Require Import QArith Qcanon.
From Verif Require Import Base LexSpec LexProofs KindModel SortModel TermModel BVSpec Sem SemProofs SimpModel OpModel OpSpec TypedSpec TypedProofs LexModel ParseModel ParseSpec ParseProofs ParseProofs2
  ApplyModel CommandModel CommandSpec CommandProofs CommandMore PropsParse PropsCommand OpExamples MeanSpec MeanProofs MeanProofs4 MeanProofs5 PropsMean PropsEval
  TraverseModel EvalModel MTextModel MTextSpec PropsMText EvTextSpec EvTextProofs EvTextProofs2 PropsEvText PropsSorts CheckSpec CheckProofs.
From Verif Require CtorSpec CtorModel.
Open Scope Z_scope.

Lemma funs_same (g : ctx) : set_funs (g_funs g) g = g. Proof. destruct g; reflexivity. Qed.
Lemma ty_width s w : so_ty s (TyBV w) -> (0 < w)%nat /\ fits w.
Proof. intros [_ H]. split; [lia|]. unfold fits. cbv [str_max]. lia. Qed.
Lemma check_read b r l fs tx only kw mt vals M : cfg_ok (x_c b) -> library_bv b ->
  script no_decls l fs -> tx <> [] -> lexes plain_word tx (render_script l) ->
  Forall (fun f => evaluable true (fst f) [] (snd f)) fs -> (forall v, introduced l v -> ordinary v) ->
  lists_values l M vals -> (kw = true -> model_header mt) -> lexes plain_word mt (render_model kw (map value_entry vals)) ->
  exists q m q', parseStr b tx (parser0 r) = Ok q /\ parseModel b mt only q = Ok (m, q') /\ q_g q' = q_g q /\
    Forall2 (good_as false) fs (g_as (q_g q)) /\ Forall (fun f => holds_values (fst f) M m /\ widths_ok (fst f)) fs.
Proof.
  intros HC HB HS HT HL HE HO (V1 & V2) Hh Hm.
  destruct (script_ev b false false no_decls l fs HC HB HS HE eq_refl pst0 ctx0 (declares_ready _ _ (declares_new false)) (int_new false) eq_refl)
    as (p' & g' & ts & G' & SS & EA & W & RD & (K1 & K2 & K3 & K4) & IN).
  destruct (parseStr_ok b l pst0 ctx0 p' g' tx (parser0 r) HT (new_holds r) eq_refl HL SS) as (q & E & Gq & HD & _ & R).
  assert (FR : free G'). { intros v Nv. apply K4; [repeat split|]. intros X. now apply Nv, HO. }
  assert (EO : Forall (entry_ok G' M) vals).
  { eapply Forall_impl; [|exact V1]. intros [[n s] e] (A & t & B & C & D). cbn [fst snd] in *. split; [exact A|]. unfold vname. cbn [fst snd]. split; [|exists t; now repeat split; auto].
    apply HO. destruct B as (n' & s' & B1 & _ & B2). exists n'. split; [exact B1|]. destruct B2; [left; now exists s'|right; left; now exists [], s']. }
  destruct (entries_given (xo b false (g_opt g')) only G' p' M vals RD FR EO) as (Dc & a & Gv & FA).
  destruct (C61_reads_partial b only p' g' mt q kw (map value_entry vals) p' (g_funs g') p' a HD Gq Hh Hm (Dc _) Gv) as (m & q' & Em & Get & _ & _ & Gq' & _).
  exists q, m, q'. split; [exact E|]. split; [exact Em|]. split; [rewrite Gq', Gq; apply funs_same|].
  split; [rewrite Gq, EA; exact W|].
  assert (CO : forall v t, look v (s_con G') = Some t -> constant_of l v t). { intros v t H. destruct (K3 v t H) as [X|X]; [discriminate X|exact X]. }
  rewrite Forall_forall in IN |- *. intros fe Hf. specialize (IN fe Hf). split.
  - intros v t H. apply IN in H. destruct (given_last G' M vals a v t FA H) as [L1 L2].
    change (m_get (T NT_VAR (sort_of t) v []) m) with (m_getName v m). rewrite Get.
    destruct (last_given v a) as [u|] eqn:LG; [|exfalso; apply L2; [apply (V2 v t), CO, H|reflexivity]].
    exists u. split; [reflexivity|]. now apply L1.
  - intros v w H. apply IN, CO in H. destruct H as (n & s & _ & H & _). now apply (ty_width s).
Qed.
(** Any script of C64 whose assertions are evaluable, and any text that lists the value in [M] of every
    constant the script declares, in any order: both are read, and every recorded assertion evaluates
    under the model that was read to the literal of its value in [M] *)
Theorem C95_check_partial : forall b r l fs tx only kw mt vals M ptr, cfg_ok (x_c b) -> library_bv b ->
  script no_decls l fs -> tx <> [] -> lexes plain_word tx (render_script l) ->
  Forall (fun f => evaluable true (fst f) [] (snd f)) fs -> (forall v, introduced l v -> ordinary v) ->
  lists_values l M vals -> (kw = true -> model_header mt) -> lexes plain_word mt (render_model kw (map value_entry vals)) ->
  exists q m q', parseStr b tx (parser0 r) = Ok q /\ parseModel b mt only q = Ok (m, q') /\ q_g q' = q_g q /\
    Forall2 (fun f u => exists w, evaluateT (x_c (xo b false (g_opt (q_g q)))) ptr m u = Ok w /\ literal (value_of (fst f) M [] (snd f)) w) fs (g_as (q_g q)).
Proof.
  intros b r l fs tx only kw mt vals M ptr HC HB HS HT HL HE HO HV Hh Hm.
  destruct (check_read b r l fs tx only kw mt vals M HC HB HS HT HL HE HO HV Hh Hm) as (q & m & q' & E1 & E2 & E3 & F & V). exists q, m, q'.
  split; [exact E1|]. split; [exact E2|]. split; [exact E3|]. revert V. generalize (x_c (xo b false (g_opt (q_g q)))). intros c. clear -F. induction F as [|fe t fs' ts (( c' & Gt) & A) F IH]; intros V; [constructor|].
  inversion V as [|? ? (V1 & V2) V3]; subst. constructor; [|exact (IH V3)].
  apply (eval_term false (fst fe) c c' ptr m M t TyBool _ Gt V2 V1). apply A, agrees_interp.
Qed.
Print Assumptions C95_check_partial.
(** the structure satisfies the script exactly when every recorded assertion evaluates to true *)
Theorem C95_satisfies_partial : forall b r l fs tx only kw mt vals M ptr, cfg_ok (x_c b) -> library_bv b ->
  script no_decls l fs -> tx <> [] -> lexes plain_word tx (render_script l) ->
  Forall (fun f => evaluable true (fst f) [] (snd f)) fs -> (forall v, introduced l v -> ordinary v) ->
  lists_values l M vals -> (kw = true -> model_header mt) -> lexes plain_word mt (render_model kw (map value_entry vals)) ->
  exists q m q', parseStr b tx (parser0 r) = Ok q /\ parseModel b mt only q = Ok (m, q') /\
    Forall (fun u => evaluateT (x_c (xo b false (g_opt (q_g q)))) ptr m u = Ok TRUE \/ evaluateT (x_c (xo b false (g_opt (q_g q)))) ptr m u = Ok FALSE) (g_as (q_g q)) /\
    (satisfies M fs <-> Forall (fun u => evaluateT (x_c (xo b false (g_opt (q_g q)))) ptr m u = Ok TRUE) (g_as (q_g q))).
Proof.
  intros b r l fs tx only kw mt vals M ptr HC HB HS HT HL HE HO HV Hh Hm.
  destruct (check_read b r l fs tx only kw mt vals M HC HB HS HT HL HE HO HV Hh Hm) as (q & m & q' & E1 & E2 & E3 & F & V). exists q, m, q'.
  split; [exact E1|]. split; [exact E2|]. unfold satisfies. generalize (x_c (xo b false (g_opt (q_g q)))). intros c. revert V. clear -F.
  induction F as [|fe t fs' ts (( c' & Gt) & A) F IH]; intros V; [split; [constructor|split; constructor]|].
  inversion V as [|? ? (V1 & V2) V3]; subst. destruct (IH V3) as (I1 & I2).
  destruct (eval_term false (fst fe) c c' ptr m M t TyBool _ Gt V2 V1 (A _ _ M (agrees_interp M))) as (w & Ew & Lw).
  pose proof (A _ _ M (agrees_interp M)) as Q. destruct (wt_val (interp_of M) (env_of_structure M) CB t) as (bt & Eb); [apply Gt|].
  rewrite Eb in Q. rewrite <- Q in Lw. cbn [literal] in Lw. split; [constructor; [|exact I1]; rewrite Ew, Lw; destruct bt; [now left|now right]|]. split; intros X; inversion X as [|? ? X1 X2]; subst.
  - constructor; [|now apply I2]. rewrite Ew. rewrite X1 in Q. injection Q as ->. reflexivity.
  - constructor; [|now apply I2]. rewrite Ew in X1. rewrite <- Q. destruct bt; [reflexivity|]. injection X1 as X1. discriminate X1.
Qed.
Print Assumptions C95_satisfies_partial.

(** ** an example: the script and two model texts *)
Definition e95 : sx := SApp (word "and") [A "b"; SApp (word "<") [A "x"; SApp (word "+") [A "x"; A "x"]]; SApp (word "bvult") [A "a"; SApp (word "bvadd") [A "a"; A "#b0101"]]].
Definition s95 : list cmd := [CDeclareConst (word "x") (SoName (word "Int")); CDeclareFun (word "b") [] (SoName (word "Bool")); CDeclareConst (word "a") (SoBV (Idec 4)); CAssert e95].
Definition tx95 : str := L "(declare-const x Int) (declare-fun b () Bool)(declare-const a (_ BitVec 4)) (assert (and b (< x (+ x x)) (bvult a (bvadd a #b0101))))".
Definition G95 : signature := Signature [(L "a", TyBV 4); (L "b", TyBool); (L "x", TyInt)] [] true false [] false.
Definition vals95 (n : string) (neg : bool) : list (token * so * sx) :=
  [(word "b", SoName (word "Bool"), A "true"); (word "x", SoName (word "Int"), if neg then SApp (word "-") [A n] else A n); (word "a", SoBV (Idec 4), A "#x6")].
Definition mt95 (v : string) : str := L "(model (define-fun b () Bool true)(define-fun x () Int " ++ L v ++ L ") (define-fun a () (_ BitVec 4) #x6))".
Example C95_ex_script : script no_decls s95 [(G95, e95)] /\ evaluable true G95 [] e95 /\ lexes plain_word tx95 (render_script s95) /\ (forall v, introduced s95 v -> ordinary v).
Proof.
  assert (C : forall s t, constant_name (word s) -> look (L s) (s_con G95) = Some t -> ty_of G95 [] (A s) t).
  { intros s t N H. apply T_const; [exact N|reflexivity|exact H|reflexivity]. }
  assert (OP : forall o args ts t, no_fun G95 (L o) -> op_ty o ts t -> tys_of G95 [] args ts -> ty_of G95 [] (SApp (word o) args) t).
  { intros o args ts t N O T. apply (T_op G95 [] (word o) o args ts t); [apply tok_word|reflexivity|exact N|split; [reflexivity|discriminate]|exact O|exact T]. }
  assert (TX : ty_of G95 [] (A "x") TyInt) by (apply C; [cnm|reflexivity]). assert (TB : ty_of G95 [] (A "a") (TyBV 4)) by (apply C; [cnm|reflexivity]).
  split; [|split; [|split]].
  - apply (Sc_const _ _ _ TyInt); [apply tok_word|eexists; repeat split; apply tok_word|split; [reflexivity|split; reflexivity]|].
    apply (Sc_fun0 _ _ _ TyBool); [apply tok_word|eexists; repeat split; apply tok_word|split; [reflexivity|split; reflexivity]|].
    apply (Sc_const _ _ _ (TyBV 4)); [apply tok_word|split; [reflexivity|lia]|split; [reflexivity|split; reflexivity]|].
    apply Sc_assert; [|reflexivity|intros X; vm_compute in X; discriminate X|apply Sc_nil].
    apply (OP "and"%string _ [TyBool; TyBool; TyBool]); [split; reflexivity|apply (O_junct "and" 3); [cbn; tauto|lia]|]. constructor; [apply C; [cnm|reflexivity]|]. constructor; [|constructor; [|constructor]].
    + apply (OP "<"%string _ [TyInt; TyInt]); [split; reflexivity|apply O_cmp; [cbn; tauto|now left]|]. constructor; [exact TX|]. constructor; [|constructor].
      apply (OP "+"%string _ [TyInt; TyInt]); [split; reflexivity|apply (O_arith "+" TyInt 2); [cbn; tauto|now left|lia]|]. repeat (constructor; [exact TX|]). constructor.
    + apply (OP "bvult"%string _ [TyBV 4; TyBV 4]); [split; reflexivity|apply O_bvcmp; cbn; tauto|]. constructor; [exact TB|]. constructor; [|constructor].
      apply (OP "bvadd"%string _ [TyBV 4; TyBV 4]); [split; reflexivity|apply (O_bvn "bvadd" 4 2); [cbn; tauto|lia]|]. constructor; [exact TB|]. constructor; [|constructor].
      apply (T_bits _ _ (word "#b0101") 4 5); [now apply cn|reflexivity|reflexivity|split; reflexivity|reflexivity|lia|apply fits8; lia|reflexivity].
  - unfold e95. repeat match goal with |- evaluable _ _ _ (SApp _ _) => apply Ev_app; [discriminate|split; reflexivity|discriminate|] | |- evaluable _ _ _ (A _) => apply Ev_atom | |- Forall _ (_ :: _) => constructor | |- Forall _ [] => constructor end.
  - cbn. lw. wdd "declare-const"%string. lw. wdd "x"%string. lw. wdd "Int"%string. lw. wdd "declare-fun"%string. lw. wdd "b"%string. lw. wdd "Bool"%string. lw. wdd "declare-const"%string. lw. wdd "a"%string. lw.
    wd "_"%string. lw. wdd "BitVec"%string. lw. wd "4"%string. lw. wdd "assert"%string. lw. wdd "and"%string. lw. wdd "b"%string. lw. wdd "<"%string. lw. wdd "x"%string. lw.
    wd "+"%string. lw. wdd "x"%string. lw. wdd "x"%string. lw. wdd "bvult"%string. lw. wdd "a"%string. lw. wdd "bvadd"%string. lw. wdd "a"%string. lw. wdd "#b0101"%string. lw.
  - intros v (n & <- & H). cbn [s95 In] in H. destruct H as [(s & H)|[(ss & s & H)|(ps & s & e & H)]]; repeat (destruct H as [H|H]; [try discriminate H; injection H; intros; subst; repeat split; discriminate|]); contradiction.
Qed.

Definition M95 : structure := M69 5.
Definition M95' : structure := M69 (-5).
Example C95_ex_values : lists_values s95 M95 (vals95 "5" false) /\ lists_values s95 M95' (vals95 "5" true).
Proof.
  assert (X : constant_of s95 (L "x") TyInt) by (exists (word "x"), (SoName (word "Int")); split; [reflexivity|]; split; [eexists; repeat split; apply tok_word|left; cbn; auto]).
  assert (Y : constant_of s95 (L "b") TyBool) by (exists (word "b"), (SoName (word "Bool")); split; [reflexivity|]; split; [eexists; repeat split; apply tok_word|right; cbn; auto]).
  assert (Z : constant_of s95 (L "a") (TyBV 4)) by (exists (word "a"), (SoBV (Idec 4)); split; [reflexivity|]; split; [split; [reflexivity|lia]|left; cbn; auto]).
  assert (N : forall v t, constant_of s95 v t -> v = L "x" \/ v = L "b" \/ v = L "a").
  { intros v t (n & s & <- & _ & [H|H]); cbn [s95 In] in H; repeat (destruct H as [H|H]; [try discriminate H; injection H; intros; subst; cbn; auto|]); contradiction. }
  assert (B : forall w, so_ty (SoName (word w)) TyBool -> so_ty (SoName (word w)) TyBool) by auto.
  split; (split; [|intros v t H; apply N in H; cbn; intuition (subst; auto)]).
  - constructor; [split; [apply tok_word|exists TyBool; split; [exact Y|split; [eexists; repeat split; apply tok_word|apply Sp_true; [apply tok_word|reflexivity]]]]|].
    constructor; [split; [apply tok_word|exists TyInt; split; [exact X|split; [eexists; repeat split; apply tok_word|apply (Sp_num _ 5); [apply tok_word|lia|reflexivity]]]]|].
    constructor; [split; [apply tok_word|exists (TyBV 4); split; [exact Z|split; [split; [reflexivity|lia]|apply (Sp_bits _ 4 6); [apply tok_word|lia|apply fits8; lia|reflexivity]]]]|constructor].
  - constructor; [split; [apply tok_word|exists TyBool; split; [exact Y|split; [eexists; repeat split; apply tok_word|apply Sp_true; [apply tok_word|reflexivity]]]]|].
    constructor; [split; [apply tok_word|exists TyInt; split; [exact X|split; [eexists; repeat split; apply tok_word|apply (Sp_neg _ _ 5); [apply tok_word|reflexivity|apply tok_word|lia|reflexivity]]]]|].
    constructor; [split; [apply tok_word|exists (TyBV 4); split; [exact Z|split; [split; [reflexivity|lia]|apply (Sp_bits _ 4 6); [apply tok_word|lia|apply fits8; lia|reflexivity]]]]|constructor].
Qed.
Example C95_ex_text : (lexes plain_word (mt95 "5") (render_model true (map value_entry (vals95 "5" false))) /\ model_header (mt95 "5")) /\
  (lexes plain_word (mt95 "(- 5)") (render_model true (map value_entry (vals95 "5" true))) /\ model_header (mt95 "(- 5)")).
Proof.
  assert (HD : forall v, model_header (mt95 v)).
  { intros v. exists [], [], " "%char, (skipn 7 (mt95 v)). split; [reflexivity|]. split; [constructor|]. split; [constructor|]. left. cbn. tauto. }
  split; (split; [|apply HD]).
  - cbn. lw. wdd "model"%string. lw. wdd "define-fun"%string. lw. wdd "b"%string. lw. wdd "Bool"%string. lw. wdd "true"%string. lw. wdd "define-fun"%string. lw. wdd "x"%string. lw. wdd "Int"%string. lw. wd "5"%string. lw.
    wdd "define-fun"%string. lw. wdd "a"%string. lw. wd "_"%string. lw. wdd "BitVec"%string. lw. wd "4"%string. lw. wdd "#x6"%string. lw.
  - cbn. lw. wdd "model"%string. lw. wdd "define-fun"%string. lw. wdd "b"%string. lw. wdd "Bool"%string. lw. wdd "true"%string. lw. wdd "define-fun"%string. lw. wdd "x"%string. lw. wdd "Int"%string. lw. wd "-"%string. lw. wd "5"%string. lw.
    wdd "define-fun"%string. lw. wdd "a"%string. lw. wd "_"%string. lw. wdd "BitVec"%string. lw. wd "4"%string. lw. wdd "#x6"%string. lw.
Qed.
(** x = 5 satisfies the script, x = -5 does not; the library finds both out *)
Definition check95 (mt : str) : res (list term) :=
  q <- parseStr B90 tx95 (parser0 RT_UNKNOWN) ;; r <- parseModel B90 mt false q ;;
  mapM (evaluateT (x_c (xo B90 false (g_opt (q_g q)))) (fun l => l) (fst r)) (g_as (q_g q)).
Example C95_ex_run : check95 (mt95 "5") = Ok [TRUE] /\ check95 (mt95 "(- 5)") = Ok [FALSE] /\ satisfies M95 [(G95, e95)] /\ ~ satisfies M95' [(G95, e95)].
Proof.
  split; [vm_compute; reflexivity|]. split; [vm_compute; reflexivity|]. split; [constructor; [reflexivity|constructor]|].
  intros H. inversion H as [|? ? H1 _]; subst. vm_compute in H1. discriminate H1.
Qed.
(** ** limits *)
(** A value for a constant that the model text leaves out, or spells |x|, is not given: the assertion does not evaluate to a literal *)
Theorem C95_left_out_refuted : exists u, check95 (L "(model (define-fun b () Bool true)(define-fun a () (_ BitVec 4) #x6))") = Ok [u] /\ isConst u = false /\
  check95 (L "(model (define-fun b () Bool true)(define-fun |x| () Int 5)(define-fun a () (_ BitVec 4) #x6))") = Ok [u].
Proof. eexists. split; [vm_compute; reflexivity|]. split; vm_compute; reflexivity. Qed.
Print Assumptions C95_left_out_refuted.
