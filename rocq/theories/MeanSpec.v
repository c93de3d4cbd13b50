(** The meaning of expressions and scripts as SMT-LIB 2.6 gives it, for Boolean, integer, real
    and bit-vector expressions, stated on the abstract syntax of ParseSpec.v and CommandSpec.v without
    any term of the library: sorting rules, structures, and the value of an expression in a structure. *)
From Coq Require Import QArith Qcanon.
From Verif Require Import Base LexSpec KindModel SortModel TermModel BVSpec Sem SimpModel OpModel LexModel ParseModel ParseSpec CommandModel CommandSpec.
From Verif Require OpSpec ApplyModel CtorModel.
Open Scope Z_scope.

Inductive ty := TyBool | TyInt | TyReal | TyBV (w : nat).
Fixpoint look {A} (v : str) (r : list (str * A)) : option A :=
  match r with [] => None | (u, t) :: r' => if seq_str u v then Some t else look v r' end.
(** ** structures *)
Record structure := Structure {
  m_bool : str -> bool; m_int : str -> Z; m_real : str -> Qc; m_bv : str -> nat -> Z;
  f_bool : str -> list value -> bool; f_int : str -> list value -> Z; f_real : str -> list value -> Qc;
  f_bv : str -> nat -> list value -> Z }.
(** the language: declared constants and functions, whether the logic has integer arithmetic,
    whether formulas are kept clausal (no let, no xor, bvneg or bv2nat and no equality of Booleans),
    the functions defined so far with their values, and whether this is the body of a
    definition (where the library does not take declared constants, see C28_global_refuted) *)
Record signature := Signature {
  s_con : list (str * ty); s_fun : list (str * (list ty * ty)); s_ints : bool; s_clausal : bool;
  s_def : list (str * (list ty * ty * (structure -> list value -> value))); s_body : bool }.
(** not the name of a function *)
Definition no_fun (G : signature) (v : str) : Prop := look v (s_fun G) = None /\ look v (s_def G) = None.
Definition allowed (G : signature) (o : string) (ts : list ty) : Prop :=
  (In o ["+"; "-"; "*"]%string -> s_ints G = true) /\
  (s_clausal G = true -> ~ In o ["xor"; "bvneg"; "bv2nat"]%string /\ (In o ["="; "distinct"]%string -> ~ In TyBool ts)).

(** ** sorting rules *)
Definition is_num (t : ty) : Prop := t = TyInt \/ t = TyReal.
Inductive op_ty : string -> list ty -> ty -> Prop :=
| O_not : op_ty "not" [TyBool] TyBool
| O_junct h n : In h ["and"; "or"; "xor"]%string -> (2 <= n)%nat -> op_ty h (repeat TyBool n) TyBool
| O_imp : op_ty "=>" [TyBool; TyBool] TyBool
| O_ite t : op_ty "ite" [TyBool; t; t] t
| O_eq h t : In h ["="; "distinct"]%string -> op_ty h [t; t] TyBool
| O_cmp h t : In h ["<"; "<="; ">"; ">="]%string -> is_num t -> op_ty h [t; t] TyBool
| O_neg t : is_num t -> op_ty "-" [t] t
| O_arith h t n : In h ["+"; "-"; "*"]%string -> is_num t -> (2 <= n)%nat -> op_ty h (repeat t n) t
| O_bv1 h w : In h ["bvnot"; "bvneg"]%string -> op_ty h [TyBV w] (TyBV w)
| O_bvn h w n : In h ["bvand"; "bvor"; "bvxor"; "bvadd"; "bvmul"]%string -> (2 <= n)%nat -> op_ty h (repeat (TyBV w) n) (TyBV w)
| O_bv2 h w : In h ["bvnand"; "bvnor"; "bvxnor"]%string -> op_ty h [TyBV w; TyBV w] (TyBV w)
| O_bvcmp h w : In h ["bvult"; "bvule"; "bvugt"; "bvuge"; "bvslt"; "bvsle"; "bvsgt"; "bvsge"]%string -> op_ty h [TyBV w; TyBV w] TyBool
| O_concat w w' : fits (w + w') -> op_ty "concat" [TyBV w; TyBV w'] (TyBV (w + w'))
| O_bv2nat w : op_ty "bv2nat" [TyBV w] TyInt.
(** bit-vector literals #b... and #x...: width and value *)
Fixpoint binnum_from (acc : Z) (s : str) : option Z :=
  match s with
  | [] => Some acc
  | c :: s' => if aeq c "0"%char then binnum_from (2 * acc) s' else if aeq c "1"%char then binnum_from (2 * acc + 1) s' else None
  end.
Definition bits_of (s : str) : option (nat * Z) :=
  match s with
  | a :: b :: ds =>
      if aeq a "#"%char && aeq b "b"%char then match binnum_from 0 ds with Some v => Some (length ds, v) | None => None end
      else if aeq a "#"%char && aeq b "x"%char then match hexnum ds with Some v => Some (4 * length ds, v)%nat | None => None end
      else None
  | _ => None
  end.
Definition constant_name (k : token) : Prop := is_tok k /\ raw k <> L "true" /\ raw k <> L "false".
(** [ty_of G r e t]: under declarations [G] and let variables [r], [e] has sort [t].  A numeral
    may be used as an integer or as a real, as in the logics of reals. *)
Inductive ty_of (G : signature) : list (str * ty) -> sx -> ty -> Prop :=
| T_true r k : is_tok k -> raw k = L "true" -> ty_of G r (SAtom k) TyBool
| T_false r k : is_tok k -> raw k = L "false" -> ty_of G r (SAtom k) TyBool
| T_bound r k t : constant_name k -> look (raw k) r = Some t -> ty_of G r (SAtom k) t
| T_const r k t : constant_name k -> look (raw k) r = None -> look (raw k) (s_con G) = Some t -> s_body G = false -> ty_of G r (SAtom k) t
| T_num r k z t : constant_name k -> look (raw k) r = None -> look (raw k) (s_con G) = None -> no_fun G (raw k) ->
    0 <= z -> raw k = Idec z -> is_num t -> ty_of G r (SAtom k) t
| T_bits r k w v : constant_name k -> look (raw k) r = None -> look (raw k) (s_con G) = None -> no_fun G (raw k) ->
    look (bar :: raw k ++ [bar]) (s_con G) = None ->
    (0 < w)%nat -> fits w -> bits_of (raw k) = Some (w, v) -> ty_of G r (SAtom k) (TyBV w)
| T_bvnum r v w : (0 < w)%nat -> fits w -> 0 <= v < 2 ^ Z.of_nat w -> ty_of G r (SBv (Idec v) (Idec (Z.of_nat w))) (TyBV w)
| T_op r h o args ts t : is_tok h -> raw h = L o -> no_fun G (raw h) ->
    allowed G o ts -> op_ty o ts t -> tys_of G r args ts -> ty_of G r (SApp h args) t
| T_fun r h args ts t : is_tok h -> special (raw h) = false -> core_op (raw h) = false -> look (raw h) (s_fun G) = Some (ts, t) -> look (raw h) (s_def G) = None ->
    args <> [] -> tys_of G r args ts -> ty_of G r (SApp h args) t
| T_def r h args ts t d : is_tok h -> special (raw h) = false -> core_op (raw h) = false -> look (raw h) (s_def G) = Some (ts, t, d) ->
    args <> [] -> tys_of G r args ts -> ty_of G r (SApp h args) t
| T_let r bs b ts t : s_clausal G = false -> bs <> [] -> Forall (fun q => is_tok (fst q)) bs -> tys_of G r (map snd bs) ts ->
    ty_of G (combine (names bs) ts ++ r) b t -> ty_of G r (SLet bs b) t
with tys_of (G : signature) : list (str * ty) -> list sx -> list ty -> Prop :=
| Ts_nil r : tys_of G r [] []
| Ts_cons r e l t ts : ty_of G r e t -> tys_of G r l ts -> tys_of G r (e :: l) (t :: ts).

(** ** values of declared symbols *)
Definition con_val (M : structure) (v : str) (t : ty) : value :=
  match t with TyBool => VBool (m_bool M v) | TyInt => VNum (ZQ (m_int M v)) | TyReal => VNum (m_real M v)
  | TyBV w => VBV w (m_bv M v w mod 2 ^ Z.of_nat w) end.
Definition fun_val (M : structure) (f : str) (t : ty) (vs : list value) : value :=
  match t with TyBool => VBool (f_bool M f vs) | TyInt => VNum (ZQ (f_int M f vs)) | TyReal => VNum (f_real M f vs)
  | TyBV w => VBV w (f_bv M f w vs mod 2 ^ Z.of_nat w) end.

(** ** values *)
(** a bit-vector value is its width and its unsigned value *)
Definition bits (v : value) : Z := match v with VBV _ x => x | _ => 0 end.
(** two's complement *)
Definition signed (v : value) : Z :=
  match v with VBV w x => if x <? 2 ^ (Z.of_nat w - 1) then x else x - 2 ^ Z.of_nat w | _ => 0 end.
(** left-associative binary operators on unsigned values; [f] is given 2^w *)
Definition bv_fold (f : Z -> Z -> Z -> Z) (vs : list value) : value :=
  match vs with
  | VBV w a :: l => VBV w (fold_left (fun x v => f (2 ^ Z.of_nat w) x (bits v)) l a)
  | _ => VBool false
  end.
Definition op_val (h : str) (vs : list value) : value :=
  let is := seqs h in
  let rel (r : value -> value -> bool) := match vs with [a; b] => VBool (r a b) | _ => VBool false end in
  if is "not"%string then match vs with [a] => VBool (negb (truth a)) | _ => VBool false end
  else if is "and"%string then VBool (forallb truth vs)
  else if is "or"%string then VBool (existsb truth vs)
  else if is "xor"%string then VBool (fold_left xorb (map truth vs) false)
  else if is "=>"%string then rel (fun a b => implb (truth a) (truth b))
  else if is "ite"%string then match vs with [a; b; d] => if truth a then b else d | _ => VBool false end
  else if is "="%string then rel veqb
  else if is "distinct"%string then rel (fun a b => negb (veqb a b))
  else if is "<"%string then rel (fun a b => Qcltb (num a) (num b))
  else if is "<="%string then rel (fun a b => Qcleb (num a) (num b))
  else if is ">"%string then rel (fun a b => Qcltb (num b) (num a))
  else if is ">="%string then rel (fun a b => Qcleb (num b) (num a))
  else if is "+"%string then VNum (fold_left Qcplus (map num vs) (Q2Qc 0))
  else if is "*"%string then VNum (fold_left Qcmult (map num vs) (Q2Qc 1))
  else if is "-"%string then match map num vs with
                      | [] => VBool false
                      | [a] => VNum (- a)
                      | a :: l => VNum (fold_left Qcminus l a)
                      end
  else if is "bvnot"%string then match vs with [VBV w a] => VBV w (2 ^ Z.of_nat w - 1 - a) | _ => VBool false end
  else if is "bvneg"%string then match vs with [VBV w a] => VBV w ((- a) mod 2 ^ Z.of_nat w) | _ => VBool false end
  else if is "bvand"%string then bv_fold (fun _ => Z.land) vs
  else if is "bvor"%string then bv_fold (fun _ => Z.lor) vs
  else if is "bvxor"%string then bv_fold (fun _ => Z.lxor) vs
  else if is "bvnand"%string then bv_fold (fun m a b => m - 1 - Z.land a b) vs
  else if is "bvnor"%string then bv_fold (fun m a b => m - 1 - Z.lor a b) vs
  else if is "bvxnor"%string then bv_fold (fun m a b => m - 1 - Z.lxor a b) vs
  else if is "bvadd"%string then bv_fold (fun m a b => (a + b) mod m) vs
  else if is "bvmul"%string then bv_fold (fun m a b => (a * b) mod m) vs
  else if is "bvult"%string then rel (fun a b => bits a <? bits b)
  else if is "bvule"%string then rel (fun a b => bits a <=? bits b)
  else if is "bvugt"%string then rel (fun a b => bits b <? bits a)
  else if is "bvuge"%string then rel (fun a b => bits b <=? bits a)
  else if is "bvslt"%string then rel (fun a b => signed a <? signed b)
  else if is "bvsle"%string then rel (fun a b => signed a <=? signed b)
  else if is "bvsgt"%string then rel (fun a b => signed b <? signed a)
  else if is "bvsge"%string then rel (fun a b => signed b <=? signed a)
  else if is "concat"%string then match vs with [VBV w a; VBV w' b] => VBV (w + w') (a * 2 ^ Z.of_nat w' + b) | _ => VBool false end
  else if is "bv2nat"%string then match vs with [VBV _ a] => VNum (ZQ a) | _ => VBool false end
  else VBool false.
(** the value of an expression in structure [M], let variables having the values [r]; let
    binds in parallel *)
Fixpoint value_of (G : signature) (M : structure) (r : list (str * value)) (e : sx) {struct e} : value :=
  match e with
  | SAtom k =>
      if seqs (raw k) "true" then VBool true else if seqs (raw k) "false" then VBool false
      else match look (raw k) r with
           | Some v => v
           | None => match look (raw k) (s_con G) with
                     | Some t => con_val M (raw k) t
                     | None => match bits_of (raw k) with
                               | Some (w, z) => VBV w z
                               | None => match digits_val (raw k) 0 with Some z => VNum (ZQ z) | None => VBool false end
                               end
                     end
           end
  | SApp h args =>
      match look (raw h) (s_def G) with
      | Some (_, d) => d M (map (value_of G M r) args)
      | None =>
          match look (raw h) (s_fun G) with
          | Some (_, t) => fun_val M (raw h) t (map (value_of G M r) args)
          | None => op_val (raw h) (map (value_of G M r) args)
          end
      end
  | SLet bs b => value_of G M (combine (names bs) (map (fun q => value_of G M r (snd q)) bs) ++ r) b
  | SBv n w => match digits_val n 0, digits_val w 0 with Some v, Some w => VBV (Z.to_nat w) v | _, _ => VBool false end
  | _ => VBool false
  end.

(** ** the library side *)
Definition sort_of (t : ty) : sort := match t with TyBool => boolS | TyInt => intS | TyReal => realS | TyBV w => bvS (Z.of_nat w) end.
(** the library's sorts of terms of sort [t]; a numeral has the library's own sort IntOrReal *)
Definition ty_fits (t : ty) (s : sort) : Prop :=
  match t with TyBool => s = boolS | TyBV w => s = bvS (Z.of_nat w) | _ => s = intS \/ s = realS \/ s = intorealS end.
(** the parser's tables hold exactly these declarations, and nothing is defined *)
Definition declares (G : signature) (p : pst) : Prop :=
  (forall v, mget v (p_var p) = match look v (s_con G) with Some t => Some (T NT_VAR (sort_of t) v []) | None => None end) /\
  (forall v, match look v (s_fun G) with
             | Some (ts, t) => exists qs, mget v (p_fun p) = Some (T NT_FUNC_DEC (sort_of t) v (NULLT :: qs)) /\ length qs = length ts
             | None => mget v (p_fun p) = None
             end) /\
  (forall v t, look v (s_con G) = Some t -> look v (s_fun G) = None) /\
  p_fv p = [] /\ s_def G = [] /\ s_body G = false.
(** an interpretation of terms that gives constants and functions their values in [M] *)
Definition agrees (I : interp) (e : Sem.env) (M : structure) : Prop :=
  (forall v t, eval I e (T NT_VAR (sort_of t) v []) = con_val M v t) /\
  (forall f t vs, app_sem I NT_UF_APPLY (sort_of t) f vs = fun_val M f t vs).
(** bit-vector operators are built as in the library *)
Definition library_bv (x : pcfg) : Prop :=
  forall k ps, In k [NT_BV_NOT; NT_BV_NEG; NT_BV_AND; NT_BV_OR; NT_BV_XOR; NT_BV_NAND; NT_BV_NOR; NT_BV_XNOR; NT_BV_ADD; NT_BV_MUL;
                     NT_BV_CONCAT; NT_BV_TO_NAT] ->
    x_oper x k [] ps = CtorModel.theory_oper (x_c x) (fun l => l) k [] ps.
(** functions are applied as in the library, and defined functions expanded (the default); the logic is one without reals (or not set), and
    has integers if [G] says so *)
Definition mean_cfg (G : signature) (x : pcfg) : Prop :=
  OpSpec.cfg_ok (x_c x) /\ (s_ints G = true -> c_int (x_c x) = true) /\ c_real (x_c x) = false /\ library_bv x /\
  exists o, ApplyModel.x_fun o = true /\ forall f ts, x_apply x f ts = ApplyModel.applyFun (x_c x) o f ts.

(** ** scripts *)
(** widths of declared constants: below 2^31, as the library reads them with std::stoi *)
Definition so_ty (s : so) (t : ty) : Prop :=
  match t with
  | TyBV w => s = SoBV (Idec (Z.of_nat w)) /\ 0 < Z.of_nat w < 2 ^ 31
  | _ => exists k, s = SoName k /\ is_tok k /\ raw k = L (match t with TyBool => "Bool" | TyInt => "Int" | _ => "Real" end)%string
  end.
(** no name is bound by let twice, or used outside the let that binds it, inside one outermost let *)
Definition well_scoped (e : sx) : Prop := scoped pst0 false [] [] e = Some [].
Definition new_name (G : signature) (v : str) : Prop := look v (s_con G) = None /\ no_fun G v.
Definition add_con (v : str) (t : ty) (G : signature) : signature := Signature ((v, t) :: s_con G) (s_fun G) (s_ints G) (s_clausal G) (s_def G) (s_body G).
Definition add_fn (v : str) (ts : list ty) (t : ty) (G : signature) : signature := Signature (s_con G) ((v, (ts, t)) :: s_fun G) (s_ints G) (s_clausal G) (s_def G) (s_body G).
Definition set_ints (i : bool) (G : signature) : signature := Signature (s_con G) (s_fun G) i (s_clausal G) (s_def G) (s_body G).
Definition in_body (G : signature) : signature := Signature (s_con G) (s_fun G) (s_ints G) (s_clausal G) (s_def G) true.
Definition add_def (v : str) (ts : list ty) (t : ty) (d : structure -> list value -> value) (G : signature) : signature :=
  Signature (s_con G) (s_fun G) (s_ints G) (s_clausal G) ((v, (ts, t, d)) :: s_def G) (s_body G).
(** Logics without reals are those whose name has no R; those with integers have an I.
    [script G l fs]: under declarations [G], the commands [l] are well-sorted; [fs] are the asserted
    formulas in order, each with the declarations in force *)
Inductive script : signature -> list cmd -> list (signature * sx) -> Prop :=
| Sc_nil G : script G [] []
| Sc_assert G e l fs : ty_of G [] e TyBool -> well_scoped e -> no_colon e -> script G l fs -> script G (CAssert e :: l) ((G, e) :: fs)
| Sc_named G e n l fs : ty_of G [] e TyBool -> well_scoped e -> is_tok n -> raw n <> [] -> script G l fs ->
    script G (CAssertNamed e n :: l) ((G, e) :: fs)
| Sc_const G n s t l fs : is_tok n -> so_ty s t -> new_name G (raw n) -> script (add_con (raw n) t G) l fs ->
    script G (CDeclareConst n s :: l) fs
| Sc_fun0 G n s t l fs : is_tok n -> so_ty s t -> new_name G (raw n) -> script (add_con (raw n) t G) l fs ->
    script G (CDeclareFun n [] s :: l) fs
| Sc_fun G n ss ts s t l fs : is_tok n -> ss <> [] -> Forall2 so_ty ss ts -> so_ty s t -> new_name G (raw n) ->
    script (add_fn (raw n) ts t G) l fs -> script G (CDeclareFun n ss s :: l) fs
| Sc_def G n ps ts s t e l fs : is_tok n -> NoDup (names ps) ->
    Forall2 (fun q u => is_tok (fst q) /\ no_fun G (raw (fst q)) /\ so_ty (snd q) u) ps ts -> so_ty s t ->
    ty_of (in_body G) (combine (names ps) ts) e t -> well_scoped e -> new_name G (raw n) ->
    (* the value of the function: that of the body, the parameters having the values of the arguments *)
    script (add_def (raw n) ts t (fun M vs => value_of (in_body G) M (combine (names ps) vs) e) G) l fs ->
    script G (CDefineFun n ps s e :: l) fs
| Sc_logic G v l fs : is_tok v -> In (raw v) (map L logics) -> has_char "R"%char (raw v) = false ->
    script (set_ints (has_char "I"%char (raw v)) G) l fs -> script G (CSetLogic v :: l) fs
| Sc_check G c l fs : c = CCheckSat \/ c = CGetModel -> script G l fs -> script G (c :: l) fs
| Sc_info G c ks l fs : In c ["set-info"; "set-option"]%string -> balanced ks -> script G l fs -> script G (CIgnored c ks :: l) fs.
(** a new parser has no declarations; its logic is not set, and integers may be used *)
Definition no_decls : signature := Signature [] [] true false [] false.
(** the same, for scripts of clausal formulas *)
Definition no_decls_clausal : signature := Signature [] [] true true [] false.
(** every asserted formula is true in [M] *)
Definition satisfies (M : structure) (fs : list (signature * sx)) : Prop :=
  Forall (fun f => value_of (fst f) M [] (snd f) = VBool true) fs.
