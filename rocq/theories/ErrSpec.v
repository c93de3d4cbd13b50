(** C68: erroneous commands and expressions.  [bad p c]: in a parser that holds the tables [p], the
    text behind an opening parenthesis starts a command that SMT-LIB rejects. *)
From Verif Require Import Base LexSpec KindModel SortModel TermModel UtilModel SimpModel OpModel LexModel ParseModel ParseSpec CtorModel CtorSpec CommandModel CommandSpec.
Open Scope Z_scope.

(** every command the library knows *)
Definition commands : list string :=
  ["assert"; "assert-soft"; "check-sat"; "check-sat-assuming"; "declare-const"; "declare-fun"; "declare-sort"; "define-const"; "define-fun";
   "define-fun-rec"; "define-funs-rec"; "define-sort"; "exit"; "echo"; "get-assertions"; "get-assignment"; "get-info"; "get-option"; "get-proof";
   "get-unsat-assumptions"; "get-unsat-core"; "get-value"; "pop"; "push"; "reset"; "reset-assertions"; "set-info"; "set-option"; "get-model";
   "set-logic"; "exists"; "forall"; "get-objectives"; "maximize"; "minimize"; "define-objective"; "lex-optimize"; "pareto-optimize"; "box-optimize";
   "minmax"; "maxmin"; "maxsat"; "minsat"; "optimize"]%string.
(** the names the library gives a meaning of its own *)
Definition predefined : list string :=
  ["true"; "false"; "pi"; "e"; "inf"; "epsion"; "NaN"; "re.none"; "re.all"; "re.allchar"; "RNE"; "roundNearestTiesToEven"; "RNA"; "roundNearestTiesToAway";
   "RTP"; "roundTowardPositive"; "RTN"; "roundTowardNegative"; "RTZ"; "roundTowardZero"]%string.
Definition letter (c : ascii) : bool :=
  let n := nat_of_ascii c in (Nat.leb 65 n && Nat.leb n 90) || (Nat.leb 97 n && Nat.leb n 122) || aeq c "_"%char.
(** an identifier that names nothing *)
Definition undeclared (p : pst) (k : token) : Prop :=
  is_tok k /\ letter (hd nul (raw k)) = true /\ ~ In (raw k) (map L predefined) /\ declared p (raw k) = None.
(** an operator or function name that names nothing *)
Definition no_operator (p : pst) (h : token) : Prop :=
  is_tok h /\ special (raw h) = false /\ mget (raw h) (p_fun p) = None /\ ~ In (raw h) (map (fun q => L (fst q)) oper_key_map).
Fixpoint scoped_all (p : pst) (l : list sx) : Prop :=
  match l with [] => True | e :: l' => scoped p false [] [] e = Some [] /\ scoped_all p l' end.
(** the operators are the ones of the library *)
Definition library_ops (x : pcfg) : Prop := exists ptr, forall k fa ps, x_oper x k fa ps = theory_oper (x_c x) ptr k fa ps.
(** arguments of a foreign family of sorts for the operator (C52) *)
Definition ill_sorted_args (x : pcfg) (p : pst) (op : string) (us : list term) : Prop :=
  exists tys r, rank op [] tys r /\ length us = length tys /\ clash us tys /\ tolerant op = false /\
    Forall (fun t => isErr t = false) us /\ Forall wf_bv us /\
    (untested_on_constants op = true -> exists t, In t us /\ isConst t = false) /\
    mget (L op) (p_fun p) = None /\ (c_dbg (x_c x) = true -> op <> "fp.fma"%string).
(** an expression in which something is wrong, everything before it being right; [c] is the
    number of lets read so far *)
Inductive wrong (x : pcfg) (p : pst) : Z -> sx -> Prop :=
| wr_name c k : undeclared p k -> wrong x p c (SAtom k)
| wr_op c h args us c' : no_operator p h -> dens x p false c [] args us c' -> scoped_all p args -> wrong x p c (SApp h args)
| wr_sort c h op args us c' : is_tok h -> raw h = L op -> special (raw h) = false -> op <> "ite"%string -> library_ops x -> dens x p false c [] args us c' -> scoped_all p args ->
    ill_sorted_args x p op us -> wrong x p c (SApp h args)
| wr_arg c h l us c' e l' : is_tok h -> special (raw h) = false -> dens x p false c [] l us c' -> scoped_all p l -> wrong x p c' e -> wrong x p c (SApp h (l ++ e :: l')).
(** a sort name that names nothing *)
Definition no_sort (p : pst) (k : token) : Prop :=
  is_tok k /\ mget (raw k) basic_sorts = None /\ mget (raw k) (p_srt p) = None /\ cache_key (raw k) = false.
Inductive bad (x : pcfg) (p : pst) : list token -> Prop :=
(* an unknown command, an unknown logic *)
| bad_command c ks : is_tok c -> ~ In (raw c) (map L commands) -> ks <> [] -> bad x p (c :: ks)
| bad_logic v ks : is_tok v -> ~ In (raw v) (map L logics) -> ks <> [] -> bad x p (word "set-logic" :: v :: ks)
(* a function defined twice; defined after it was declared; declared twice *)
| bad_redefine w n f ks : In w ["define-fun"; "define-const"; "define-fun-rec"]%string -> is_tok n -> mget (raw n) (p_fun p) = Some f -> t_kind f = NT_FUNC_DEF -> ks <> [] ->
    bad x p (word w :: n :: ks)
| bad_define w n f k ks : In w ["define-fun"; "define-const"; "define-fun-rec"]%string -> is_tok n -> mget (raw n) (p_fun p) = Some f -> k <> TR ->
    bad x p (word w :: n :: k :: ks)
| bad_declare n f ps ss t s ks : is_tok n -> mget (raw n) (p_fun p) = Some f -> ps <> [] -> Forall2 (dsort p) ps ss -> dsort p t s -> ks <> [] ->
    bad x p (word "declare-fun" :: n :: TL :: flat_map render_so ps ++ TR :: render_so t ++ ks)
(* two parameters of one name *)
| bad_param w n ps ss q s ks : In w ["define-fun"; "define-fun-rec"]%string -> is_tok n -> fresh_fun p (raw n) -> params_ok p ps ss -> is_tok (fst q) -> dsort p (snd q) s ->
    In (raw (fst q)) (names ps) -> bad x p (word w :: n :: TL :: render_params (ps ++ [q]) ++ ks)
(* an unknown sort *)
| bad_sort n k ks : is_tok n -> no_sort p k -> ks <> [] -> bad x p (word "declare-const" :: n :: k :: ks)
| bad_fun_sort n k ks : is_tok n -> no_sort p k -> ks <> [] -> bad x p (word "declare-fun" :: n :: TL :: TR :: k :: ks)
(* an expression in which something is wrong: asserted, to be optimized, as the body of a function or constant *)
| bad_assert e ks : no_colon e -> wrong x p (p_ctr p) e -> ks <> [] -> bad x p (word "assert" :: render e ++ ks)
| bad_objective w e ks : In w ["maximize"; "minimize"]%string -> no_colon e -> wrong x p (p_ctr p) e -> ks <> [] -> bad x p (word w :: render e ++ ks)
| bad_body n ps ss t s e ks : is_tok n -> params_ok p ps ss -> dsort p t s -> fresh_fun p (raw n) -> wrong x (with_params (combine (names ps) ss) p) (p_ctr p) e -> ks <> [] ->
    bad x p (word "define-fun" :: n :: TL :: render_params ps ++ TR :: render_so t ++ render e ++ ks)
| bad_const n t s e ks : is_tok n -> dsort p t s -> fresh_fun p (raw n) -> wrong x p (p_ctr p) e -> ks <> [] ->
    bad x p (word "define-const" :: n :: render_so t ++ render e ++ ks)
(* the text ends where a closing parenthesis is due *)
| bad_end e t c : x_file x = false -> no_colon e -> means x p e t c -> bad x p (word "assert" :: render e)
| bad_end_flag w : x_file x = false -> In w ["check-sat"; "get-model"; "get-objectives"; "push"; "pop"; "set-info"; "set-option"]%string -> bad x p [word w].
