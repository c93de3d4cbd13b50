(** Vocabulary for the theorems about constant folding and the term constructors. *)
From Coq Require Import QArith Qcanon Permutation.
From Verif Require Import Base KindModel SortModel TermModel BVModel BVSpec UtilModel UtilSpec Sem
  SimpModel OpModel.
Open Scope Z_scope.

(** characters printed as themselves by the escaping of string constants *)
Definition plainC (c : ascii) : Prop := escape_char c = [c].

(** Literals as the lexer and the constructors build them: true, false, integer numerals
    in canonical decimal form, decimals, binary bit-vector literals and quoted strings.
    Constants of other sorts (floating point, uninterpreted) are arbitrary.  Infinities,
    pi, e, algebraic numbers are not literals. *)
Inductive literal : term -> Prop :=
| LTrue : literal TRUE
| LFalse : literal FALSE
| LInt z s : s = intS \/ s = intorealS -> literal (T NT_CONST s (Idec z) [])
| LReal n q : real_val n = Some q -> literal (T NT_CONST realS n [])
| LBV w v : (0 < w)%nat -> fits w -> literal (T NT_CONST (bvS (Z.of_nat w)) (lit w v) [])
| LStr s : Forall plainC s -> literal (T NT_CONST strS (Q s) [])
| LOther k s n : ~ In (s_kind s) [SK_BOOL; SK_INT; SK_REAL; SK_INTOREAL; SK_BV; SK_STR] ->
    literal (T k s n []).
Definition lits_ok (ps : list term) : Prop :=
  forall p, In p ps -> isConst p = true -> literal p.

(** The MPFR value of the numeral is its exact value. *)
Definition exact (c : cfg) (p : term) : Prop :=
  exists q : Qc, real_val (t_name p) = Some q /\ (c_rv c p == this q)%Q.
Definition no_real (ps : list term) : Prop :=
  forall p, In p ps -> isConst p = true -> sis SK_REAL p = false.
Definition reals_exact (c : cfg) (ps : list term) : Prop :=
  no_real ps \/ forall p, In p ps -> isConst p = true -> numS p = true -> exact c p.

(** What is assumed of the environment of the parser: sortParams permutes, and MPFR
    recognises zero and one. *)
Record cfg_ok (c : cfg) : Prop := {
  ok_sort : forall ps, Permutation (c_sort c ps) ps;
  ok_zero : forall z s, (c_rv c (T NT_CONST s (Idec z) []) == 0)%Q <-> z = 0;
  ok_one : forall z s, (c_rv c (T NT_CONST s (Idec z) []) == 1)%Q <-> z = 1 }.

(** terms whose value always is of the given type *)
Definition numeric (p : term) : Prop := forall I e, exists q, eval I e p = VNum q.
Definition boolean (p : term) : Prop := forall I e, exists b, eval I e p = VBool b.
Definition bv_valued (w : nat) (p : term) : Prop :=
  forall I e, exists v, 0 <= v < 2 ^ Z.of_nat w /\ eval I e p = VBV w v.

(** The operators and arguments for which folding is claimed to be right.  Everything
    left out here is either folded wrongly by the code (see the refutations in
    PropsOp.v and PropsBV.v) or has no fixed meaning in Sem.v. *)
Definition fold_dom (c : cfg) (k : kind) (ps : list term) : Prop :=
  lits_ok ps /\
  match k with
  | NT_NOT => length ps = 1%nat
  | NT_AND | NT_OR | NT_XOR => (2 <= length ps)%nat
  | NT_IMPLIES => (2 <= length ps)%nat /\ length ps <> 3%nat
  | NT_ITE => length ps = 3%nat
  | NT_EQ | NT_EQ_BOOL | NT_EQ_OTHER =>
      (2 <= length ps)%nat /\ reals_exact c ps /\ (forall p, In p ps -> isArray p = false)
  | NT_DISTINCT | NT_DISTINCT_BOOL | NT_DISTINCT_OTHER => (2 <= length ps)%nat /\ reals_exact c ps
  | NT_LE | NT_LT | NT_GE | NT_GT => length ps = 2%nat /\ reals_exact c ps
  | NT_ADD | NT_MUL | NT_IAND => (2 <= length ps)%nat /\ no_real ps
  | NT_SUB => (2 <= length ps)%nat /\ no_real ps /\ Forall numeric ps
  | NT_MAX | NT_MIN => (2 <= length ps)%nat /\ no_real ps /\ Forall (fun p => numS p = true) ps
  | NT_NEG | NT_ABS | NT_CEIL | NT_FLOOR | NT_ROUND | NT_TO_INT | NT_TO_REAL | NT_IS_INT =>
      length ps = 1%nat /\ no_real ps
  | NT_IS_EVEN | NT_IS_ODD => length ps = 1%nat /\ Forall (fun p => isCInt p = true) ps
  | NT_DIV_INT | NT_MOD =>
      no_real ps /\
      match ps with
      | [l; r] => (forall z, t_name l = Idec z -> 0 <= z) /\ (forall z, t_name r = Idec z -> z <> 0)
      | _ => False
      end
  | NT_BV_NOT | NT_BV_NEG | NT_BV_TO_NAT | NT_BV_TO_INT => length ps = 1%nat
  | NT_BV_AND | NT_BV_OR | NT_BV_XOR | NT_BV_NAND | NT_BV_NOR | NT_BV_XNOR | NT_BV_ADD | NT_BV_MUL =>
      (2 <= length ps)%nat /\ exists w, Forall (bv_valued w) ps
  | NT_BV_ULT | NT_BV_ULE | NT_BV_UGT | NT_BV_UGE | NT_BV_SLT | NT_BV_SLE | NT_BV_SGT | NT_BV_SGE =>
      length ps = 2%nat /\ exists w, Forall (bv_valued w) ps
  | NT_BV_CONCAT =>
      match ps with
      | [l; r] => exists w w', bv_valued w l /\ bv_valued w' r /\ fits (w + w')
      | _ => False
      end
  | NT_STR_CONCAT => (2 <= length ps)%nat
  | _ => False
  end.

(** ** the term constructors *)
(** The call returns a term, and in every interpretation and environment that term holds
    exactly when [f] says so (has exactly the value [f] says). *)
Definition decides (r : res term) (f : interp -> env -> bool) : Prop :=
  exists t, r = Ok t /\ forall I e, holds I e t = f I e.
Definition means (r : res term) (f : interp -> env -> value) : Prop :=
  exists t, r = Ok t /\ forall I e, eval I e t = f I e.

(** arguments of a Boolean constructor *)
Definition bool_args (ps : list term) : Prop :=
  lits_ok ps /\ forall p, In p ps -> isBoolParam p = true /\ isErr p = false.

Inductive subterm : term -> term -> Prop :=
| Sub_refl t : subterm t t
| Sub_ch u x t : In x (t_ch t) -> subterm u x -> subterm u t.

(** two arguments that may be compared *)
Definition comparable (c : cfg) (l r : term) : Prop :=
  compat (t_sort l) (t_sort r) = Ok true /\ reals_exact c [l; r].
(** Conditions on one node: a floating-point sort has its two widths, it is not an error node, its literals are literals, a
    Boolean-sorted node has Boolean values, a negation has one Boolean argument, an equality or comparison has two comparable arguments. *)
Record node_ok (c : cfg) (p : term) : Prop := {
  n_sort : s_kind (t_sort p) = SK_FP -> exists nm e g, t_sort p = fpS nm e g;
  n_err : isErr p = false;
  n_lit : lits_ok [p];
  n_bool : isBoolParam p = true -> t_sort p = boolS /\ boolean p;
  n_not : isNot p = true -> exists q, t_ch p = [q] /\ isBoolParam q = true;
  n_bvcomp : t_kind p = NT_BV_COMP -> isBoolParam p = false;
  n_eq : isEq p = true \/ isDistinct p = true -> exists l r, t_ch p = [l; r] /\ comparable c l r /\
           isArray l = false /\ isArray r = false;
  n_cmp : kin (t_kind p) arith_comp_kinds = true -> exists l r, t_ch p = [l; r] /\ comparable c l r;
  n_str : kin (t_kind p) str_comp_kinds = true -> exists l r, t_ch p = [l; r] /\
            sis SK_STR l = true /\ sis SK_STR r = true /\ isCStr l && isCStr r = false;
  n_bv : kin (t_kind p) bv_comp_kinds = true -> exists l r w, t_ch p = [l; r] /\
           sis SK_BV l = true /\ sis SK_BV r = true /\ bv_valued w l /\ bv_valued w r }.
(** how many negations the term begins with *)
Fixpoint nots (t : term) : nat := match t with T NT_NOT _ _ [q] => S (nots q) | _ => O end.
(** every node of the term *)
Definition tree_ok (c : cfg) (t : term) : Prop := forall p, subterm p t -> node_ok c p.
(** a value that is not NaN, in every interpretation *)
Definition never_nan (p : term) : Prop := forall I e, fpval (eval I e p) <> FNaN.
(** the sort check of the n-ary constructors succeeds *)
Definition same_sorts (ps : list term) : Prop :=
  exists s, getSort ps = Ok s /\ forall p, In p ps -> check_sort s p = Ok true.
(** arguments of an arithmetic constructor: well-formed terms of sort Int or Real, no Real literal *)
Definition num_args (ps : list term) : Prop :=
  lits_ok ps /\ no_real ps /\ forall p, In p ps -> numS p = true /\ isErr p = false.
(** no argument is an error node *)
Definition no_err (ps : list term) : Prop := forall p, In p ps -> isErr p = false.
(** parity, and right-associative implication *)
Definition xors (bs : list bool) : bool := fold_right xorb false bs.
Fixpoint imps (bs : list bool) : bool :=
  match bs with [] => true | [b] => b | b :: tl => implb b (imps tl) end.
(** comparisons: what negateComp is meant for *)
Definition cmpk (p : term) : Prop :=
  isEq p = true \/ isDistinct p = true \/ kin (t_kind p) (arith_comp_kinds ++ bv_comp_kinds ++ str_comp_kinds) = true.
(** the call returns a term with the given numeric value *)
Definition nmeans (r : res term) (f : interp -> env -> Qc) : Prop :=
  exists t, r = Ok t /\ forall I e, num (eval I e t) = f I e.
(** every two neighbours may be compared *)
Definition neighbours (c : cfg) : list term -> Prop := fix go ps :=
  match ps with a :: ((b :: _) as tl) => comparable c a b /\ go tl | _ => True end.
(** the meaning of the arithmetic comparisons *)
Definition cmpr (k : kind) : value -> value -> bool :=
  match k with NT_LE => vle | NT_LT => vlt | NT_GE => vge | _ => vgt end.
