(** C51-C53: applications of the theory operators.  CtorSpec.v has the SMT-LIB signatures
    ([rank]); [with_ops x ptr] is the parser of CtorModel.v, an application is what
    Parser::parseOper builds for an operator name, its indices and its arguments. *)
From Coq Require Import String Lia Permutation.
From Verif Require Import Base KindModel SortModel TermModel BVModel BVSpec SimpModel OpModel ArrSimpModel OpSpec OpProofs
  ParseModel OpExamples PropsParse CtorModel CtorSpec CtorProofs CtorProofs2 CtorProofs3.
Open Scope Z_scope.

(** ** C51: a well-sorted application is accepted and gives a node of the operator's kind, with
    the result sort of the signature and the arguments (and indices) as children *)
Theorem C51_well_sorted_application_partial : forall x ptr p op ix ps tys r,
  (forall l, Permutation (c_sort (x_c x) l) l) ->
  rank op ix tys r -> Forall2 typed ps tys -> Forall (fun t => isErr t = false) ps ->
  mget (L op) (p_fun p) = None ->
  (never_folded op = false -> open_args ps) ->
  (c_dbg (x_c x) = true -> op <> "fp.fma"%string) ->
  exists t, parseOper (with_ops x ptr) p (L op) (idx ix) ps = Ok t /\
    has_ty (t_sort t) r /\ t_kind t = getOperKind (L op) /\
    (if reordered op then Permutation (t_ch t) (children op ix ps) else t_ch t = children op ix ps).
Proof. exact well_sorted. Qed.
Print Assumptions C51_well_sorted_application_partial.

Definition var (s : sort) (n : string) : term := T NT_VAR s (L n) [].
Definition u8 := var (bvS 8) "u".
Definition v8 := var (bvS 8) "v".
Definition w4 := var (bvS 4) "w".
Definition f32 := var (fpS (L "Float32") 8 24) "f".
Definition st := var strS "s".
Definition rx := var regS "re".
Definition rl := var realS "rl".
Definition idp : list term -> list term := fun l => l.
Definition xt : pcfg := with_ops (xk true) idp.
Definition pt : pst := set_var [(L "u", u8); (L "v", v8); (L "w", w4); (L "f", f32); (L "s", st); (L "re", rx);
                                (L "x", xi); (L "rl", rl)] pst0.
Definition reads (s : string) : res term := r <- mkExpr xt pt (L s) ;; Ok (fst r).
(* the whole text goes through the lexer, the expression parser and the constructor *)
Example C51_ex_extract : reads "((_ extract 6 3) u)" = Ok (T NT_BV_EXTRACT (bvS 4) (L "extract") [u8; mkConstInt 6; mkConstInt 3]).
Proof. vm_compute. reflexivity. Qed.
Example C51_ex_concat : reads "(concat u w v)" = Ok (T NT_BV_CONCAT (bvS 20) (L "concat") [u8; w4; v8]).
Proof. vm_compute. reflexivity. Qed.
Example C51_ex_tofp : exists t, reads "((_ to_fp 5 11) RNE f)" = Ok t /\ has_ty (t_sort t) (TFP 5 11).
Proof. eexists. split; [vm_compute; reflexivity|]. exists (L "FP"). reflexivity. Qed.
Example C51_ex_hyps :
  rank "concat" [] [TBV 8; TBV 4; TBV 8] (TBV 20) /\ Forall2 typed [u8; w4; v8] [TBV 8; TBV 4; TBV 8] /\
  Forall (fun t => isErr t = false) [u8; w4; v8] /\ mget (L "concat") (p_fun pt) = None /\ open_args [u8; w4; v8].
Proof.
  split; [apply (R_concat [8; 4; 8]); [cbn; lia|repeat constructor|reflexivity]|]. split; [repeat constructor|].
  split; [repeat constructor|]. split; [reflexivity|]. left. reflexivity.
Qed.
Example C51_ex_hyps2 : rank "str.replace_re" [] [TStr; TReg; TStr] TStr /\ Forall2 typed [st; rx; st] [TStr; TReg; TStr].
Proof. split; [apply R_replace_re; cbn; auto|repeat constructor]. Qed.

(** the result sort of (_ zero_extend n) and (_ sign_extend n) is (_ BitVec n), whatever the
    width of the argument *)
Theorem C51_extension_sort_refuted : forall x ptr p op n w a,
  In op ["zero_extend"; "sign_extend"]%string -> 0 <= n < maxw -> fits w -> typed a (TBV w) -> isConst a = false ->
  mget (L op) (p_fun p) = None ->
  exists t, parseOper (with_ops x ptr) p (L op) (idx [n]) [a] = Ok t /\ t_sort t = bvS n /\ bvS n <> bvS (w + n).
Proof.
  intros x ptr p op n w a I N W A C M. cbn [In] in I. destruct I as [ <- |[ <- |[]]].
  all: byspec; rewrite fargs_all by reflexivity; cbn [bind fst snd idx map app call2]; unfold mkBvIndexed;
    rewrite (sis_bv _ w A), idx_par; cbn [andb]; rewrite toInt_idx; cbn [bind]; rewrite toULong_small by exact N; cbn [bind];
    rewrite mkOper_open; [|left; exact C|left; reflexivity|reflexivity]; eexists; split; [reflexivity|]; split; [reflexivity|];
    unfold fits in W; intros E; apply (f_equal (fun s => child_arity s 0)) in E; cbn in E; injection E; lia.
Qed.
Print Assumptions C51_extension_sort_refuted.
Example C51_ext_ex : reads "((_ zero_extend 4) u)" = Ok (T NT_BV_ZERO_EXT (bvS 4) (L "zero_extend") [u8; mkConstInt 4]).
Proof. vm_compute. reflexivity. Qed.
(** well-sorted applications that end the program or read past the end of the arguments *)
Theorem C51_accepted_refuted :
  reads "((_ to_fp_unsigned 8 24) RNE u)" = Exit /\ reads "((_ re.^ 3) re)" = UB /\ reads "((_ nat2bv 8) x)" = UB /\
  reads "(bvumod u v)" = Exit /\ reads "(coth rl)" = Exit /\ reads "(gcd x 4)" = Exit /\ reads "(is_even x)" = Exit.
Proof. repeat (split; [vm_compute; reflexivity|]). vm_compute. reflexivity. Qed.
Print Assumptions C51_accepted_refuted.
(** with assertions compiled in, every fp.fma application fails *)
Theorem C51_fma_assertion_refuted : forall x ptr p ps, c_dbg (x_c x) = true -> mget (L "fp.fma") (p_fun p) = None ->
  forall t, parseOper (with_ops x ptr) p (L "fp.fma") [] ps <> Ok t.
Proof.
  intros x ptr p ps D M t. byspec. rewrite D. cbn [condAssert].
  destruct ps as [|? [|? [|? [|? [|? ps]]]]]; discriminate.
Qed.
Print Assumptions C51_fma_assertion_refuted.
(** folded applications of the wrong sort: to_int of a real literal is of sort Real, bvcomp of
    literals is of sort Bool *)
Theorem C51_folded_sort_refuted :
  (exists t, reads "(to_int 3.7)" = Ok t /\ t_sort t = realS) /\ reads "(bvcomp #b01 #b01)" = Ok FALSE.
Proof. split; [eexists; split; vm_compute; reflexivity|vm_compute; reflexivity]. Qed.
Print Assumptions C51_folded_sort_refuted.

(** ** C52: an application with an argument of a foreign family of sorts ends the program with
    an error *)
Theorem C52_ill_sorted_rejected_partial : forall x ptr p op ix ps tys r,
  rank op ix tys r -> length ps = length tys -> clash ps tys -> tolerant op = false ->
  Forall (fun t => isErr t = false) ps -> Forall wf_bv ps ->
  (untested_on_constants op = true -> exists t, In t ps /\ isConst t = false) ->
  mget (L op) (p_fun p) = None ->
  (c_dbg (x_c x) = true -> op <> "fp.fma"%string) ->
  parseOper (with_ops x ptr) p (L op) (idx ix) ps = Exit.
Proof. exact ill_sorted. Qed.
Print Assumptions C52_ill_sorted_rejected_partial.
Example C52_ex : reads "(bvadd u x)" = Exit /\ reads "(str.len u)" = Exit /\ reads "((_ extract 1 0) x)" = Exit /\
  reads "(concat u w s)" = Exit.
Proof. repeat (split; [vm_compute; reflexivity|]). vm_compute. reflexivity. Qed.
Example C52_hyps : rank "bvadd" [] [TBV 8; TBV 8] (TBV 8) /\ clash [u8; xi] [TBV 8; TBV 8] /\ Forall wf_bv [u8; xi].
Proof.
  split; [apply (R_bvn "bvadd" 8 2); cbn; [tauto|unfold fits, maxw; lia|lia]|]. split.
  - exists 1%nat, xi, (TBV 8). split; [reflexivity|]. split; [reflexivity|]. discriminate.
  - constructor; [intros _; exists 8; reflexivity|]. constructor; [|constructor]. intros E. discriminate E.
Qed.
(** accepted although ill-sorted: different widths, bvneg of an integer, integer division of
    reals, a square root whose rounding mode is an integer, constants of a wrong sort *)
Theorem C52_rejected_refuted :
  (exists t, reads "(bvadd u w)" = Ok t /\ t_sort t = bvS 8) /\
  (exists t, reads "(bvneg x)" = Ok t /\ t_sort t = intS) /\
  (exists t, reads "(div rl rl)" = Ok t /\ t_sort t = intS) /\
  (exists t, reads "(fp.sqrt x f)" = Ok t) /\
  (exists t, reads "(bvadd ""a"" ""b"" ""c"")" = Ok t /\ t_kind t = NT_BV_ADD /\ t_sort t = strS).
Proof.
  split; [eexists; split; vm_compute; reflexivity|]. split; [eexists; split; vm_compute; reflexivity|].
  split; [eexists; split; vm_compute; reflexivity|]. split; [eexists; vm_compute; reflexivity|].
  eexists. split; [vm_compute; reflexivity|]. split; reflexivity.
Qed.
Print Assumptions C52_rejected_refuted.
(** the widths of two bit-vector arguments are never compared *)
Theorem C52_width_mismatch_refuted : forall x ptr p op v w a b,
  In op ["bvudiv"; "bvurem"; "bvsdiv"; "bvsrem"; "bvsmod"; "bvshl"; "bvlshr"; "bvashr"; "bvnand"; "bvnor"; "bvxnor"; "bvsub"]%string ->
  typed a (TBV v) -> typed b (TBV w) -> isConst a = false -> mget (L op) (p_fun p) = None ->
  exists t, parseOper (with_ops x ptr) p (L op) [] [a; b] = Ok t /\ t_sort t = bvS v /\ t_ch t = [a; b].
Proof.
  intros x ptr p op v w a b I A B C M.
  assert (S : okp PBv a = true /\ okp PBv b = true) by (split; [exact (sis_bv _ v A)|exact (sis_bv _ w B)]).
  destruct S as [SA SB]. unfold typed, has_ty in A. cbn [In] in I.
  assert (O : open_args [a; b]) by (left; exact C).
  repeat (destruct I as [ <- |I]; [byspec; cbn [okp] in SA, SB;
    cbn [bv_nary ctor bin r_chk length]; unfold bv_bin; rewrite ?args_all by reflexivity; cbn [bind]; unfold mk_row; cbn [r_err bin andb r_chk allok okp r_out out_sort nth];
    rewrite SA, SB; cbn [andb]; rewrite (mkOper_open _ _ _ [a; b] O) by (reflexivity || (right; discriminate));
    eexists; split; [reflexivity|]; split; [exact A|reflexivity]|]). destruct I.
Qed.
Print Assumptions C52_width_mismatch_refuted.

(** ** C53: wrong numbers of arguments *)
(** with assertions compiled in, no application with a wrong number of arguments gives a node *)
Theorem C53_arity_checked_partial : forall x ptr p op ix ps tys r,
  rank op ix tys r -> nary op = false -> c_dbg (x_c x) = true ->
  ~ In op ["fp.sqrt"; "fp.roundToIntegral"; "to_fp"]%string ->
  mget (L op) (p_fun p) = None -> length ps <> length tys ->
  forall t, parseOper (with_ops x ptr) p (L op) (idx ix) ps <> Ok t.
Proof. exact arity_debug. Qed.
Print Assumptions C53_arity_checked_partial.
Definition cD : cfg := Cfg true false false true false rv0 (fun _ => 0) (fun _ _ => L "0.5") (fun _ => 0) (fun ps => ps).
Definition xD : pcfg := PCfg cD false true (fun _ _ => Exit) (theory_oper cD idp) (fun s => s) (fun _ => []).
Example C53_ex : parseOper xD pt (L "bvudiv") [] [u8; v8; u8] = Abort /\ parseOper xD pt (L "bvudiv") [] [u8] = Abort.
Proof. split; vm_compute; reflexivity. Qed.
(** in a release build surplus arguments are silently dropped *)
Theorem C53_surplus_dropped_refuted : forall x ptr p op tys r ps qs,
  rank op [] tys r -> nary op = false -> exact_arity op = false -> c_dbg (x_c x) = false ->
  mget (L op) (p_fun p) = None -> length ps = length tys ->
  parseOper (with_ops x ptr) p (L op) [] (ps ++ qs) = parseOper (with_ops x ptr) p (L op) [] ps.
Proof. exact surplus. Qed.
Print Assumptions C53_surplus_dropped_refuted.
(** and missing ones are read past the end of the argument vector *)
Theorem C53_missing_refuted : forall x ptr p op tys r ps q,
  rank op [] tys r -> nary op = false -> exact_arity op = false -> c_dbg (x_c x) = false ->
  mget (L op) (p_fun p) = None -> length (ps ++ [q]) = length tys ->
  parseOper (with_ops x ptr) p (L op) [] ps = UB.
Proof. exact missing. Qed.
Print Assumptions C53_missing_refuted.
Example C53_ex_release : reads "(bvudiv u v u v)" = reads "(bvudiv u v)" /\ reads "(bvudiv u)" = UB /\
  reads "(bvand)" = Ok TRUE /\ reads "(bvsub u)" = Ok u8.
Proof. repeat (split; [vm_compute; reflexivity|]). vm_compute. reflexivity. Qed.
Example C53_hyps : rank "bvudiv" [] [TBV 8; TBV 8] (TBV 8) /\ nary "bvudiv" = false /\ exact_arity "bvudiv" = false.
Proof. split; [apply R_bv2; [cbn; tauto|unfold fits, maxw; lia]|]. split; reflexivity. Qed.
