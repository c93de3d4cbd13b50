(** Specification of expression parsing, independent of the parser: abstract syntax, its
    spelling as tokens, and the term it stands for under an environment. *)
From Verif Require Import Base LexSpec KindModel SortModel TermModel SimpModel OpModel LexModel ParseModel.
Open Scope Z_scope.

(** ** abstract syntax *)
Inductive so :=                    (* sorts *)
| SoName (k : token)               (* Int, Bool, a declared sort *)
| SoBV (n : str)                   (* (_ BitVec n) *)
| SoFP (e g : str)                 (* (_ FloatingPoint e g) *)
| SoArr (i e : so).                (* (Array i e) *)
Inductive sx :=
| SAtom (k : token)
| SApp (h : token) (args : list sx)               (* (h args...) *)
| SIdx (h : token) (ix args : list sx)            (* ((_ h ix...) args...) *)
| SBv (n w : str)                                 (* (_ bvn w) *)
| SFp (a e m : sx)                                (* (fp a e m) *)
| SFps (h : token) (e g : str)                    (* (_ h e g), h a special floating-point number *)
| SConst (s : so) (e : sx)                        (* ((as const s) e) *)
| SLet (bs : list (token * sx)) (b : sx)
| SQuant (fa : bool) (vs : list (token * so)) (b : sx).

Definition word (s : string) : token := TWord (L s).
Fixpoint render_so (t : so) : list token :=
  match t with
  | SoName k => [k]
  | SoBV n => [TL; word "_"; word "BitVec"; TWord n; TR]
  | SoFP e g => [TL; word "_"; word "FloatingPoint"; TWord e; TWord g; TR]
  | SoArr i e => TL :: word "Array" :: render_so i ++ render_so e ++ [TR]
  end.
Fixpoint render (e : sx) : list token :=
  match e with
  | SAtom k => [k]
  | SApp h args => TL :: h :: flat_map render args ++ [TR]
  | SIdx h ix args =>
      TL :: TL :: word "_" :: h :: flat_map render ix ++ TR :: flat_map render args ++ [TR]
  | SBv n w => [TL; word "_"; TWord (L "bv" ++ n); TWord w; TR]
  | SFp a e m => TL :: word "fp" :: render a ++ render e ++ render m ++ [TR]
  | SFps h e g => [TL; word "_"; h; TWord e; TWord g; TR]
  | SConst s e =>
      TL :: TL :: word "as" :: word "const" :: render_so s ++ TR :: render e ++ [TR]
  | SLet bs b =>
      TL :: word "let" :: TL
        :: flat_map (fun q => TL :: fst q :: render (snd q) ++ [TR]) bs
        ++ TR :: render b ++ [TR]
  | SQuant fa vs b =>
      TL :: word (if fa then "forall" else "exists") :: TL
        :: flat_map (fun q => TL :: fst q :: render_so (snd q) ++ [TR]) vs
        ++ TR :: render b ++ [TR]
  end.

(** ** environments *)
Definition env := list (str * term).
Fixpoint assoc (v : str) (r : env) : option term :=
  match r with [] => None | (u, t) :: r' => if seq_str u v then Some t else assoc v r' end.
Definition orelse {A} (a b : option A) : option A := match a with Some _ => a | None => b end.
(** What a symbol is declared as: a function, a parameter of the function being defined,
    a variable; |x| and x are the same symbol. *)
Definition declared (g : pst) (v : str) : option term :=
  orelse (mget v (p_fun g)) (orelse (mget v (p_fv g)) (orelse (mget v (p_var g))
    (orelse (if barred v then mget (unbar v) (p_var g) else None)
            (if UtilModel.isNumber v then None else mget (bar :: v ++ [bar]) (p_var g))))).
(** a literal: what a parser that has read nothing else makes of it *)
Definition lit_of (x : pcfg) (v : str) (t : term) : Prop :=
  exists s', pconst x v (CS pst0 (Lx [] SM_SYMBOL)) = Some (Ok (t, s')).
(** a word, quoted symbol or string literal *)
Definition is_tok (k : token) : Prop := k <> TL /\ k <> TR.
(** the sorts allowed as index and element of an array: the parser keeps the array sorts it
    has built under the printed names of both, so two of these sorts must not be printed
    alike, nor may a name contain the characters that separate names *)
Definition basic_key : list sort := [boolS; intS; realS; strS; rmS].
Definition sep (c : ascii) : Prop := c = " "%char \/ c = "("%char \/ c = ")"%char \/ c = "_"%char.
Inductive key_sort : sort -> Prop :=
| ks_basic s : In s basic_key -> key_sort s
| ks_bv w : 0 <= w -> key_sort (bvS w)
| ks_fp e m : 0 <= e -> 0 <= m -> key_sort (fpS (L "FP") e m)
| ks_dec n : Forall (fun c => ~ sep c) n -> mget n basic_sorts = None -> key_sort (Srt SK_DEC n 0 [])
| ks_arr i e : key_sort i -> key_sort e -> key_sort (arrayS i e).
(** the sort a sort expression stands for *)
Inductive dsort (g : pst) : so -> sort -> Prop :=
| ds_basic k t : is_tok k -> mget (raw k) basic_sorts = Some t -> dsort g (SoName k) t
| ds_decl k t : is_tok k -> mget (raw k) basic_sorts = None -> mget (raw k) (p_srt g) = Some t ->
    dsort g (SoName k) t
| ds_bv n t : bv_of n = Ok t -> dsort g (SoBV n) t
| ds_fp e h t : ~ In "_"%char e -> fp_of e h = Ok t -> dsort g (SoFP e h) t
| ds_arr a b u v : dsort g a u -> dsort g b v -> key_sort u -> key_sort v -> dsort g (SoArr a b) (arrayS u v).

(** heads that are not operators *)
Definition special (h : str) : bool :=
  existsb (seqs h) ["exists"; "forall"; "_"; "fp"; "let"; "!"; "root-of-with-interval"; "root-obj";
                    "real_algebraic_number"]%string.
(** the operators that cannot be redefined *)
Definition core_op (h : str) : bool :=
  existsb (seqs h) ["="; "and"; "=>"; "or"; "not"; "ite"; "distinct"; "+"; "-"; "*"; "<="; "<"; ">="; ">";
                    "bvult"; "bvugt"; "bvule"; "bvuge"; "bvsgt"; "bvsle"; "bvslt"; "bvsge"]%string.

(** the special floating-point numbers: the sort has the two widths written, and the name is
    what was written (for a zero), or what the number is called with the widths in decimal *)
Definition fp_inf (nm : string) (k : kind) (e g : Z) : term :=
  T k (fpS (L "FP") e g) (L "(_ " ++ L nm ++ L " " ++ Idec e ++ L " " ++ Idec g ++ L ")") [].
Inductive fp_named : str -> str -> str -> Z -> Z -> term -> Prop :=
| fn_zero nm eb gb e g : nm = L "+zero" \/ nm = L "-zero" ->
    fp_named nm eb gb e g (T NT_CONST (fpS (L "FP") e g) (L "(_ " ++ nm ++ L " " ++ eb ++ L " " ++ gb ++ L ")") [])
| fn_pinf eb gb e g : fp_named (L "+oo") eb gb e g (fp_inf "+oo" NT_POS_INFINITY e g)
| fn_ninf eb gb e g : fp_named (L "-oo") eb gb e g (fp_inf "-oo" NT_NEG_INFINITY e g)
| fn_nan nm eb gb e g : nm = L "NaN" \/ nm = L "+NaN" \/ nm = L "-NaN" -> fp_named nm eb gb e g (fp_inf "NaN" NT_NAN e g).

(** the node of a let variable: its name is made unique by the number of the outermost let *)
Definition let_node (v : str) (c : Z) (t : term) : term :=
  T NT_LET_BIND_VAR (t_sort t) (v ++ SUFFIX ++ Idec c) [t].
Definition quant_node (v : str) (s : sort) : term := T NT_QUANT_VAR s v [].
(** what a let variable stands for in its body: in the mode that keeps lets (the
    default) the variable node, else the bound term itself *)
Definition let_val (x : pcfg) (v : str) (c : Z) (t : term) : term :=
  if x_keep x then let_node v c t else t.

Definition let_vals (x : pcfg) (bs : list (token * sx)) (c : Z) (ts : list term) : list term :=
  map (fun p => let_val x (raw (fst (fst p))) c (snd p)) (combine bs ts).
Definition names {A} (bs : list (token * A)) : list str := map (fun q => raw (fst q)) bs.
Definition quant_nodes (vs : list (token * so)) (ss : list sort) : list term :=
  map (fun p => quant_node (raw (fst (fst p))) (snd p)) (combine vs ss).

(** ** the term an expression stands for
    [den d c r e t c']: in environment [r], [e] stands for [t]; [d] says whether [e] is
    inside a let; [c] and [c'] count the outermost lets before and after.  Let binds in
    parallel: every bound term is taken in the environment of the let itself. *)
Section Den.
Context (x : pcfg) (g : pst).
Inductive den : bool -> Z -> env -> sx -> term -> Z -> Prop :=
| d_true d c r k : raw k = L "true" -> is_tok k -> den d c r (SAtom k) TRUE c
| d_false d c r k : raw k = L "false" -> is_tok k -> den d c r (SAtom k) FALSE c
| d_bound d c r k t : is_tok k -> assoc (raw k) r = Some t -> isErr t = false ->
    den d c r (SAtom k) t c
| d_decl d c r k t : is_tok k -> raw k <> L "true" -> raw k <> L "false" ->
    assoc (raw k) r = None -> declared g (raw k) = Some t -> isErr t = false ->
    den d c r (SAtom k) t c
| d_lit d c r k t : is_tok k -> raw k <> L "true" -> raw k <> L "false" ->
    assoc (raw k) r = None -> declared g (raw k) = None -> lit_of x (raw k) t -> isErr t = false ->
    den d c r (SAtom k) t c
(* an operator: its constructor on the arguments, in order *)
| d_op d c r h args ts c' t : is_tok h -> special (raw h) = false ->
    core_op (raw h) = true \/ mget (raw h) (p_fun g) = None ->
    dens d c r args ts c' ->
    oper_kind x (getOperKind (raw h)) [] ts = Ok t -> isErr t = false ->
    den d c r (SApp h args) t c'
(* a function declared or defined in the script *)
| d_fun d c r h args ts c' f t : is_tok h -> special (raw h) = false -> core_op (raw h) = false ->
    mget (raw h) (p_fun g) = Some f ->
    dens d c r args ts c' ->
    x_apply x f ts = Ok t -> isErr t = false ->
    den d c r (SApp h args) t c'
(* an indexed operator *)
| d_idx d c r h ix args js ts c1 c' t : is_tok h -> raw h <> L "root-obj" ->
    mget (raw h) (p_fun g) = None ->
    dens d c r ix js c1 -> dens d c1 r args ts c' ->
    oper_kind x (getOperKind (raw h)) js ts = Ok t -> isErr t = false ->
    den d c r (SIdx h ix args) t c'
| d_bv d c r n w z b : stoul w = Ok z -> BVModel.natToBv_str (c_dbg (x_c x)) n z = Ok b ->
    den d c r (SBv n w) (T NT_CONST (bvS z) b []) c
(* a floating-point number from its three bit-vectors *)
| d_fp d c r a e m ta te tm we wm c' : dens d c r [a; e; m] [ta; te; tm] c' ->
    t_sort ta = bvS 1 -> t_sort te = bvS we -> t_sort tm = bvS wm ->
    isErr ta = false -> isErr te = false -> isErr tm = false ->
    den d c r (SFp a e m)
      (T NT_CONST (fpS (L "FP") we ((wm + 1) mod two64)) (L "(fp_bit_representation)") [ta; te; tm]) c'
| d_fps d c r h eb gb e g t : is_tok h -> stoul eb = Ok e -> stoul gb = Ok g -> fp_named (raw h) eb gb e g t ->
    den d c r (SFps h eb gb) t c
(* the array with one value everywhere *)
| d_const d c r s e i v t c' : dsort g s (arrayS i v) -> den d c r e t c' ->
    den d c r (SConst s e) (T NT_CONST_ARRAY (arrayS i v) (L "const_array") [t]) c'
| d_let (d : bool) c r bs b ls t c1 : c1 = (if d then c else c + 1) ->
    dlet c1 r bs b ls t -> isErr t = false ->
    den d c r (SLet bs b) (if x_keep x then mkLetChain ls t else t) c1
| d_quant d c r (fa : bool) vs ss b t c' q : Forall2 (fun (v : token * so) s => is_tok (fst v) /\ dsort g (snd v) s) vs ss ->
    den d c (combine (names vs) (quant_nodes vs ss) ++ r) b t c' ->
    mkOper (x_c x) boolS (if fa then NT_FORALL else NT_EXISTS)
      (t :: quant_nodes vs ss) = Ok q ->
    den d c r (SQuant fa vs b) q c'
with dens : bool -> Z -> env -> list sx -> list term -> Z -> Prop :=
| ds_nil d c r : dens d c r [] [] c
| ds_cons d c r e l t ts c1 c2 : den d c r e t c1 -> dens d c1 r l ts c2 ->
    dens d c r (e :: l) (t :: ts) c2
(* one level of let: the terms of the bindings, then the body; a body that is itself a let
   adds its bindings to the same chain *)
with dlet : Z -> env -> list (token * sx) -> sx -> list term -> term -> Prop :=
| dl_body c r bs b ts t : bs <> [] -> Forall (fun q => is_tok (fst q)) bs ->
    dens true c r (map snd bs) ts c -> (forall bs' b', b <> SLet bs' b') ->
    den true c (combine (names bs) (let_vals x bs c ts) ++ r) b t c ->
    dlet c r bs b [T NT_LET_BIND_VAR_LIST (t_sort (hd NULLT ts)) [] (let_vals x bs c ts)] t
| dl_let c r bs bs' b' ts ls t : bs <> [] -> Forall (fun q => is_tok (fst q)) bs ->
    dens true c r (map snd bs) ts c ->
    dlet c (combine (names bs) (let_vals x bs c ts) ++ r) bs' b' ls t ->
    dlet c r bs (SLet bs' b')
      (T NT_LET_BIND_VAR_LIST (t_sort (hd NULLT ts)) [] (let_vals x bs c ts) :: ls) t.
End Den.

(** ** scoping discipline
    [scoped g d D N e]: under the names [N] in scope and the names [D] already bound by let
    inside the present outermost let, no let rebinds a name of [D] or [N], no
    quantifier binds a name of [D] or [N] or the name of a function or parameter, and no name is used
    outside the let that binds it (within the same outermost let).  The result is [D]
    extended with the names bound in [e]. *)
Definition mem (v : str) (l : list str) : bool := existsb (seq_str v) l.
Definition unboundable (v : str) : bool := seqs v "true" || seqs v "false".
Definition is_fun (g : pst) (v : str) : bool :=
  match mget v (p_fun g), mget v (p_fv g) with None, None => false | _, _ => true end.
Fixpoint nodupb (l : list str) : bool :=
  match l with [] => true | v :: l' => negb (mem v l') && nodupb l' end.
Fixpoint scoped (g : pst) (d : bool) (D N : list str) (e : sx) {struct e} : option (list str) :=
  let all := fix all (D : list str) (l : list sx) : option (list str) :=
    match l with
    | [] => Some D
    | e :: l' => match scoped g d D N e with Some D' => all D' l' | None => None end
    end in
  match e with
  | SAtom k => if d && mem (raw k) D && negb (mem (raw k) N) then None else Some D
  | SApp _ args => all D args
  | SIdx _ ix args => match all D ix with Some D' => all D' args | None => None end
  | SBv _ _ | SFps _ _ _ => Some D
  | SFp a e m =>
      match scoped g d D N a with
      | Some D1 => match scoped g d D1 N e with Some D2 => scoped g d D2 N m | None => None end
      | None => None
      end
  | SConst _ e => scoped g d D N e
  | SLet bs b =>
      let binds := fix binds (D : list str) (l : list (token * sx)) : option (list str) :=
        match l with
        | [] => Some D
        | q :: l' =>
            match scoped g true D N (snd q) with
            | Some D' => if mem (raw (fst q)) (D' ++ N) || unboundable (raw (fst q)) then None
                         else binds (raw (fst q) :: D') l'
            | None => None
            end
        end in
      match binds (if d then D else []) bs with
      | Some D1 =>
          match scoped g true D1 (names bs ++ N) b with
          | Some D2 => Some (if d then D2 else D)
          | None => None
          end
      | None => None
      end
  | SQuant _ vs b =>
      let ns := names vs in
      if nodupb ns && forallb (fun v => negb (mem v N || (d && mem v D) || unboundable v || is_fun g v)) ns
      then scoped g d D (ns ++ N) b else None
  end.

(** ** the parser state between two commands *)
Record top_state (x : pcfg) (p : pst) : Prop := {
  ts_ld : p_ld p = 0%nat;
  ts_let : forall v, mget v (p_let p) = None;
  ts_quant : forall v, mget v (p_quant p) = None;
  ts_aph : p_aph p = false;
  ts_ctr : 0 <= p_ctr p;
  ts_plet : forall v c t, p_ctr p < c -> mget (v ++ SUFFIX ++ Idec c) (p_plet p) <> Some t;
  (* the table of sorts is right about bit-vector, floating-point and array sorts *)
  ts_bv : forall w t, 0 <= w -> mget (L "BV_" ++ Idec w) (p_srt p) = Some t -> t = bvS w;
  ts_bv' : forall n u t, bv_of n = Ok u -> mget (L "BV_" ++ n) (p_srt p) = Some t -> t = u;
  ts_fp : forall e h u t, ~ In "_"%char e -> fp_of e h = Ok u ->
    mget (L "FP_" ++ e ++ L "_" ++ h) (p_srt p) = Some t -> t = u;
  ts_arr : forall u v a b t, key_sort u -> key_sort v -> sort_str u = Ok a -> sort_str v = Ok b ->
    mget (L "ARRAY_" ++ a ++ L "_" ++ b) (p_srt p) = Some t -> t = arrayS u v }.
(** the keys under which the parser keeps the bit-vector, floating-point and array sorts it has built *)
Definition cache_key (v : str) : bool := is_prefix (L "BV_") v || is_prefix (L "FP_") v || is_prefix (L "ARRAY_") v.
(** declarations are untouched *)
Definition same_decls (p p' : pst) : Prop :=
  p_fun p' = p_fun p /\ p_fv p' = p_fv p /\ p_var p' = p_var p /\ p_named p' = p_named p
  /\ (forall v t, mget v (p_srt p) = Some t -> mget v (p_srt p') = Some t)
  /\ forall v, cache_key v = false -> mget v (p_srt p') = mget v (p_srt p).
