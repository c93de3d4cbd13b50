(** The operator signatures of the SMT-LIB theories (Ints, Reals, FixedSizeBitVectors,
    FloatingPoint, Strings), written from the standard and not from the code. *)
From Coq Require Import String.
From Verif Require Import Base SortModel TermModel SimpModel ParseModel CtorModel.
Open Scope Z_scope.

Inductive ty := TInt | TReal | TBool | TBV (w : Z) | TFP (e g : Z) | TStr | TReg | TRm.

(** the parser's sort objects of a type: a numeral has the sort IntOrReal, which stands for
    both; floating-point sorts carry a name ("FP", "Float32", ..) besides their widths *)
Definition has_ty (s : sort) (y : ty) : Prop :=
  match y with
  | TInt => s = intS \/ s = intorealS
  | TReal => s = realS \/ s = intorealS
  | TBool => s = boolS
  | TBV w => s = bvS w
  | TFP e g => exists nm, s = fpS nm e g
  | TStr => s = strS
  | TReg => s = regS
  | TRm => s = rmS
  end.
Definition typed (t : term) (y : ty) : Prop := has_ty (t_sort t) y.

Definition maxw : Z := 18446744073709551616.   (* 2^64 *)
Definition fits (w : Z) : Prop := 0 < w < maxw.
Definition sumw (ws : list Z) : Z := fold_right Z.add 0 ws.

(** [rank op ix args r]: the operator [op], with the numeral indices [ix] if it is of the form
    (_ op ix), takes arguments of types [args] to a result of type [r]. *)
Inductive rank : string -> list Z -> list ty -> ty -> Prop :=
(* Ints, Reals, Reals_Ints *)
| R_divmod op : In op ["div"; "mod"]%string -> rank op [] [TInt; TInt] TInt
| R_div : rank "/" [] [TReal; TReal] TReal
| R_abs : rank "abs" [] [TInt] TInt
| R_to_real : rank "to_real" [] [TInt] TReal
| R_to_int : rank "to_int" [] [TReal] TInt
| R_is_int : rank "is_int" [] [TReal] TBool
(* FixedSizeBitVectors and QF_BV *)
| R_bv1 op w : In op ["bvnot"; "bvneg"]%string -> fits w -> rank op [] [TBV w] (TBV w)
| R_bv2 op w : In op ["bvudiv"; "bvurem"; "bvsdiv"; "bvsrem"; "bvsmod"; "bvshl"; "bvlshr"; "bvashr";
                      "bvnand"; "bvnor"; "bvxnor"; "bvsub"]%string -> fits w ->
    rank op [] [TBV w; TBV w] (TBV w)
| R_bvn op w n : In op ["bvand"; "bvor"; "bvxor"; "bvadd"; "bvmul"]%string -> fits w -> (2 <= n)%nat ->
    rank op [] (repeat (TBV w) n) (TBV w)
| R_bvcomp w : fits w -> rank "bvcomp" [] [TBV w; TBV w] (TBV 1)
| R_concat ws : (2 <= List.length ws)%nat -> Forall fits ws -> sumw ws < maxw ->
    rank "concat" [] (map TBV ws) (TBV (sumw ws))
| R_extract i j w : 0 <= j <= i -> i < w -> fits w -> rank "extract" [i; j] [TBV w] (TBV (i - j + 1))
| R_repeat n w : 1 <= n -> fits w -> n * w < maxw -> rank "repeat" [n] [TBV w] (TBV (n * w))
| R_rotate op n w : In op ["rotate_left"; "rotate_right"]%string -> 0 <= n -> fits w ->
    rank op [n] [TBV w] (TBV w)
| R_bv2nat w : fits w -> rank "bv2nat" [] [TBV w] TInt
| R_int2bv w : fits w -> rank "int2bv" [w] [TInt] (TBV w)
(* FloatingPoint *)
| R_fp1 op e g : In op ["fp.abs"; "fp.neg"]%string -> rank op [] [TFP e g] (TFP e g)
| R_fprem e g : rank "fp.rem" [] [TFP e g; TFP e g] (TFP e g)
| R_fp2 op e g : In op ["fp.add"; "fp.sub"; "fp.mul"; "fp.div"]%string ->
    rank op [] [TRm; TFP e g; TFP e g] (TFP e g)
| R_fma e g : rank "fp.fma" [] [TRm; TFP e g; TFP e g; TFP e g] (TFP e g)
| R_fprm op e g : In op ["fp.sqrt"; "fp.roundToIntegral"]%string -> rank op [] [TRm; TFP e g] (TFP e g)
| R_fpmm op e g : In op ["fp.min"; "fp.max"]%string -> rank op [] [TFP e g; TFP e g] (TFP e g)
| R_fpcmp op e g : In op ["fp.leq"; "fp.lt"; "fp.geq"; "fp.gt"; "fp.eq"]%string ->
    rank op [] [TFP e g; TFP e g] TBool
| R_fpis op e g : In op ["fp.isNormal"; "fp.isSubnormal"; "fp.isZero"; "fp.isInfinite"; "fp.isNaN";
                         "fp.isNegative"; "fp.isPositive"]%string -> rank op [] [TFP e g] TBool
| R_fp2bv op e g w : In op ["fp.to_ubv"; "fp.to_sbv"]%string -> fits w ->
    rank op [w] [TRm; TFP e g] (TBV w)
| R_fp2real e g : rank "fp.to_real" [] [TFP e g] TReal
| R_tofp1 e g : fits e -> fits g -> rank "to_fp" [e; g] [TBV (e + g)] (TFP e g)
| R_tofp2 e g y : fits e -> fits g -> In y [TReal] \/ (exists w, y = TBV w) \/ (exists e' g', y = TFP e' g') ->
    rank "to_fp" [e; g] [TRm; y] (TFP e g)
(* Strings *)
| R_strn n : (2 <= n)%nat -> rank "str.++" [] (repeat TStr n) TStr
| R_str_int op : In op ["str.len"; "str.to_code"; "str.to_int"]%string -> rank op [] [TStr] TInt
| R_int_str op : In op ["str.from_code"; "str.from_int"]%string -> rank op [] [TInt] TStr
| R_str_at : rank "str.at" [] [TStr; TInt] TStr
| R_substr : rank "str.substr" [] [TStr; TInt; TInt] TStr
| R_strpred op : In op ["str.prefixof"; "str.suffixof"; "str.contains"]%string -> rank op [] [TStr; TStr] TBool
| R_indexof : rank "str.indexof" [] [TStr; TStr; TInt] TInt
| R_replace op : In op ["str.replace"; "str.replace_all"]%string -> rank op [] [TStr; TStr; TStr] TStr
| R_replace_re op : In op ["str.replace_re"; "str.replace_re_all"]%string -> rank op [] [TStr; TReg; TStr] TStr
| R_is_digit : rank "str.is_digit" [] [TStr] TBool
| R_in_re : rank "str.in_re" [] [TStr; TReg] TBool
| R_to_re : rank "str.to_re" [] [TStr] TReg
| R_re1 op : In op ["re.*"; "re.+"; "re.opt"; "re.comp"]%string -> rank op [] [TReg] TReg
| R_ren op n : In op ["re.++"; "re.union"; "re.inter"]%string -> (2 <= n)%nat -> rank op [] (repeat TReg n) TReg
| R_rediff : rank "re.diff" [] [TReg; TReg] TReg
| R_range : rank "re.range" [] [TStr; TStr] TReg
| R_loop i j : 0 <= i -> 0 <= j -> rank "re.loop" [i; j] [TReg] TReg.

(** the operators the parser may reorder the arguments of *)
Definition reordered (op : string) : bool :=
  existsb (String.eqb op) ["bvand"; "bvor"; "bvxor"; "bvadd"; "bvmul"]%string.
(** operators no constant folding is done for *)
Definition never_folded (op : string) : bool :=
  prefix "fp." op || prefix "re." op || String.eqb op "to_fp".
(** an application that constant folding leaves alone: one of the first two arguments (the
    only one, if there is one) is not a constant *)
Definition open_args (ps : list term) : Prop :=
  match ps with
  | [] => False
  | [p] => isConst p = false
  | l :: m :: _ => isConst l = false \/ isConst m = false
  end.
(** numerals of the indices *)
Definition idx (ix : list Z) : list term := map mkConstInt ix.
(** the children of the node in the order of the SMT-LIB text: arguments, then indices; for
    to_fp the indices come first *)
Definition children (op : string) (ix : list Z) (ps : list term) : list term :=
  if String.eqb op "to_fp" then idx ix ++ ps else ps ++ idx ix.

(** the parser with the typed constructors of CtorModel.v *)
Definition with_ops (x : pcfg) (ptr : list term -> list term) : pcfg :=
  PCfg (x_c x) (x_file x) (x_keep x) (x_apply x) (theory_oper (x_c x) ptr) (x_sci x) (x_str x).

(** a sort that is not even of the right family for a type *)
Definition foreign (s : sort) (y : ty) : Prop :=
  match y with
  | TInt => s_kind s <> SK_INT /\ s_kind s <> SK_INTOREAL
  | TReal => s_kind s <> SK_REAL /\ s_kind s <> SK_INTOREAL
  | TBool => s_kind s <> SK_BOOL
  | TBV _ => s_kind s <> SK_BV
  | TFP _ _ => s_kind s <> SK_FP
  | TStr => s_kind s <> SK_STR
  | TReg => s_kind s <> SK_REG
  | TRm => s_kind s <> SK_ROUNDING_MODE
  end.
(** some argument is of a foreign family *)
Definition clash (ps : list term) (tys : list ty) : Prop :=
  exists i t y, nth_error ps i = Some t /\ nth_error tys i = Some y /\ foreign (t_sort t) y.
(** operators whose argument sorts the parser does not fully test; to_fp is overloaded *)
Definition tolerant (op : string) : bool :=
  existsb (String.eqb op) ["bvneg"; "div"; "/"; "abs"; "fp.sqrt"; "fp.roundToIntegral"; "to_fp"]%string.
(** operators for which the test is skipped if all arguments are constants *)
Definition untested_on_constants (op : string) : bool :=
  existsb (String.eqb op) ["bvand"; "bvor"; "bvxor"; "bvadd"; "bvmul"; "fp.min"; "fp.max"]%string.
(** the bit-vector sorts the sort manager makes *)
Definition wf_bv (t : term) : Prop := s_kind (t_sort t) = SK_BV -> exists w, t_sort t = bvS w.
(** operators taking a fixed number of arguments *)
Definition nary (op : string) : bool :=
  existsb (String.eqb op) ["bvand"; "bvor"; "bvxor"; "bvadd"; "bvmul"; "concat"; "str.++"; "re.++"; "re.union"; "re.inter";
                           "bvsub"; "bvnand"; "bvnor"; "bvxnor"; "fp.leq"; "fp.lt"; "fp.geq"; "fp.gt"; "fp.eq"]%string.
