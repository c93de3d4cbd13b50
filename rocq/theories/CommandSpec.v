(** Specification of scripts: the commands of the language, their spelling, and what each
    does to the declarations and to the context. *)
From Verif Require Import Base LexSpec KindModel SortModel TermModel UtilModel SimpModel OpModel LexModel ParseModel
  ParseSpec CommandModel.
From Verif Require UtilSpec.
Open Scope Z_scope.

(** ** attributes of assert-soft and of objectives *)
Inductive akind := AId | AWeight | AComp | AEps | AM.
Notation attr := (akind * token)%type.
Definition akw (k : akind) : token :=
  word (match k with AId => ":id" | AWeight => ":weight" | AComp => ":comp" | AEps => ":epsilon" | AM => ":M" end).
Definition render_attrs (l : list attr) : list token := flat_map (fun a => [akw (fst a); snd a]) l.
Definition ak_eqb (a b : akind) : bool :=
  match a, b with AId, AId | AWeight, AWeight | AComp, AComp | AEps, AEps | AM, AM => true | _, _ => false end.
(** the value of an attribute: the last one given, in the order of the text *)
Definition attr_val (k : akind) (l : list attr) : str :=
  last (map (fun a => raw (snd a)) (filter (fun a => ak_eqb (fst a) k) l)) [].

(** ** commands *)
Inductive cmd :=
| CAssert (e : sx)                                           (* (assert e) *)
| CAssertNamed (e : sx) (n : token)                          (* (assert (! e :named n)) *)
| CAssertId (i : token) (e : sx)                             (* (assert :id i e) *)
| CAssertIdAfter (e : sx) (i : token)                        (* (assert e :id i) *)
| CAssertSoft (pre : list attr) (e : sx) (post : list attr)
| COptimize (mx : bool) (pre : list attr) (e : sx) (post : list attr)   (* maximize, minimize *)
| CDefineObj (n : token) (mx : bool) (pre : list attr) (e : sx) (post : list attr)
| CMulti (k : okind) (id : option token) (ns : list token)   (* lex-optimize etc. *)
| CDeclareConst (n : token) (t : so)
| CDeclareFun (n : token) (ps : list so) (t : so)
| CDeclareSort (n : token) (a : str)
| CDefineSort (n : token) (t : so)
| CDefineConst (n : token) (t : so) (e : sx)
| CDefineFun (n : token) (ps : list (token * so)) (t : so) (e : sx)
| CDefineFunRec (n : token) (ps : list (token * so)) (t : so) (e : sx)
| CSetLogic (v : token)
| CCheckSat | CGetModel | CGetObjectives
| CIgnored (c : string) (ks : list token).                   (* set-info, set-option, push, ... *)

Definition multi_name (k : okind) : option string :=
  match k with
  | O_LEX => Some "lex-optimize" | O_PARETO => Some "pareto-optimize" | O_BOX => Some "box-optimize"
  | O_MINMAX => Some "minmax" | O_MAXMIN => Some "maxmin" | _ => None
  end%string.
Definition mx_name (mx : bool) : string := if mx then "maximize" else "minimize".
Definition render_params (ps : list (token * so)) : list token :=
  flat_map (fun q => TL :: fst q :: render_so (snd q) ++ [TR]) ps.
Definition render_def (c : string) (n : token) (ps : list (token * so)) (t : so) (e : sx) : list token :=
  word c :: n :: TL :: render_params ps ++ TR :: render_so t ++ render e.
(** the tokens between the parentheses of a command *)
Definition render_cmd (c : cmd) : list token :=
  match c with
  | CAssert e => word "assert" :: render e
  | CAssertNamed e n => word "assert" :: TL :: word "!" :: render e ++ [word ":named"; n; TR]
  | CAssertId i e => word "assert" :: word ":id" :: i :: render e
  | CAssertIdAfter e i => word "assert" :: render e ++ [word ":id"; i]
  | CAssertSoft pre e post => word "assert-soft" :: render_attrs pre ++ render e ++ render_attrs post
  | COptimize mx pre e post => word (mx_name mx) :: render_attrs pre ++ render e ++ render_attrs post
  | CDefineObj n mx pre e post =>
      word "define-objective" :: n :: TL :: word (mx_name mx) :: render_attrs pre ++ render e ++ render_attrs post ++ [TR]
  | CMulti k id ns =>
      word (match multi_name k with Some s => s | None => "" end)
        :: match id with Some i => [word ":id"; i] | None => [] end ++ TL :: ns ++ [TR]
  | CDeclareConst n t => word "declare-const" :: n :: render_so t
  | CDeclareFun n ps t => word "declare-fun" :: n :: TL :: flat_map render_so ps ++ TR :: render_so t
  | CDeclareSort n a => [word "declare-sort"; n; TWord a]
  | CDefineSort n t => word "define-sort" :: n :: TL :: TR :: render_so t
  | CDefineConst n t e => word "define-const" :: n :: render_so t ++ render e
  | CDefineFun n ps t e => render_def "define-fun" n ps t e
  | CDefineFunRec n ps t e => render_def "define-fun-rec" n ps t e
  | CSetLogic v => [word "set-logic"; v]
  | CCheckSat => [word "check-sat"]
  | CGetModel => [word "get-model"]
  | CGetObjectives => [word "get-objectives"]
  | CIgnored c ks => word c :: ks
  end.
Definition render_script (l : list cmd) : list token := flat_map (fun c => TL :: render_cmd c ++ [TR]) l.

(** ** effects *)
(** an expression that does not start like a keyword *)
Definition no_colon (e : sx) : Prop :=
  match render e with k :: _ => hd nul (raw k) <> ":"%char | [] => True end.
(** what an expression stands for between two commands *)
Definition means (x : pcfg) (p : pst) (e : sx) (t : term) (c' : Z) : Prop :=
  den x p false (p_ctr p) [] e t c' /\ scoped p false [] [] e = Some [].
Definition attrs_ok (ks : list akind) (n : nat) (l : list attr) : Prop :=
  (length l <= n)%nat /\ Forall (fun a => In (fst a) ks /\ is_tok (snd a)) l.
(** the weight of a soft assertion: 1 unless given; a numeral or decimal *)
Inductive weight_of : str -> term -> Prop :=
| w_none : weight_of [] (mkConstInt 1)
| w_num z : 0 <= z -> weight_of (Idec z) (mkConstInt z)
| w_dec ds es : ds <> [] -> Forall UtilSpec.digitC ds -> Forall UtilSpec.digitC es ->
    weight_of (ds ++ "."%char :: es) (mkConstReal (ds ++ "."%char :: es)).
(** membership of assertion number [i] in group [id] *)
Definition in_group (id : str) (i : nat) (m : smap (list nat)) : smap (list nat) :=
  match id with [] => m | _ => group_add id i m end.
(** the objective of a maximize or minimize: term, comparison, identifier *)
Inductive comp_of (logic : str) (mx : bool) : str -> comp -> Prop :=
| co_default c : defaultComp false logic (if mx then O_MAX else O_MIN) = Ok c -> comp_of logic mx [] c
| co_given v : v <> [] -> comp_of logic mx v (getComp v).
Inductive objective_of (logic : str) (mx : bool) (t : term) (a : list attr) : objective -> Prop :=
| ob_single c : comp_of logic mx (attr_val AComp a) c ->
    objective_of logic mx t a
      (Group (if mx then O_MAX else O_MIN) (attr_val AId a)
         [Some (Single (if mx then O_MAX else O_MIN) t c
            (match attr_val AEps a with [] => NULLT | _ => EPS_NODE end)
            (match attr_val AM a with [] => NULLT | _ => inf_node NT_INFINITY intS end) (attr_val AId a))]).

Definition add_var n (t : sort) p := set_var ((n, T NT_VAR t n []) :: p_var p) p.
Definition add_fun n f p := set_fun ((n, f) :: p_fun p) p.
Definition add_srt n (t : sort) p := set_srt ((n, t) :: p_srt p) p.
Definition param (q : str * sort) : term := T NT_FUNC_PARAM (snd q) (fst q) [].
(** the parameters in scope while a body is read *)
Definition with_params (l : list (str * sort)) p := set_fv (rev (map (fun q => (fst q, param q)) l)) p.
Definition params_ok (p : pst) (ps : list (token * so)) (ss : list sort) : Prop :=
  NoDup (names ps) /\ Forall2 (fun (q : token * so) s => is_tok (fst q) /\ dsort p (snd q) s) ps ss.
Definition fresh_fun (p : pst) (n : str) : Prop := mget n (p_fun p) = None.
(** a name for a user sort *)
Definition fresh_sort (p : pst) (n : str) : Prop := mget n (p_srt p) = None /\ cache_key n = false.

Section Step.
Context (b : pcfg) (file : bool).
Let x (g : ctx) := xo b file (g_opt g).
(** [step p g c p' g']: command [c], with declarations [p] and context [g] before it; only the tables of
    declared functions, parameters, variables, sorts, named assertions and the
    number of lets matter in [p] *)
Inductive step (p : pst) (g : ctx) : cmd -> pst -> ctx -> Prop :=
| s_assert e t c : no_colon e -> means (x g) p e t c ->
    step p g (CAssert e) (set_ctr c p) (set_as (g_as g ++ [t]) g)
| s_named e n t c : is_tok n -> raw n <> [] -> means (x g) p e t c ->
    step p g (CAssertNamed e n) (set_named (mset (raw n) t (p_named p)) (set_ctr c p)) (set_as (g_as g ++ [t]) g)
| s_id e i t c : is_tok i -> means (x g) p e t c ->
    step p g (CAssertId i e) (set_ctr c p)
      (set_groups (in_group (raw i) (length (g_as g)) (g_groups g)) (set_as (g_as g ++ [t]) g))
| s_id2 e i t c : is_tok i -> no_colon e -> means (x g) p e t c ->
    step p g (CAssertIdAfter e i) (set_ctr c p)
      (set_groups (in_group (raw i) (length (g_as g)) (g_groups g)) (set_as (g_as g ++ [t]) g))
| s_soft pre e post t c w : attrs_ok [AId; AWeight] 2 pre -> attrs_ok [AId; AWeight] 2 post -> no_colon e ->
    means (x g) p e t c -> weight_of (attr_val AWeight (pre ++ post)) w ->
    step p g (CAssertSoft pre e post) (set_ctr c p)
      (set_sgroups (in_group (attr_val AId (pre ++ post)) (length (g_soft g)) (g_sgroups g))
         (set_soft (g_soft g ++ [t]) (g_wt g ++ [w]) g))
| s_opt mx pre e post t c o : attrs_ok [AId; AComp; AEps; AM] 4 pre -> attrs_ok [AId; AComp; AEps; AM] 4 post ->
    no_colon e -> means (x g) p e t c -> objective_of (o_logic (g_opt g)) mx t (pre ++ post) o ->
    step p g (COptimize mx pre e post) (set_ctr c p) (set_obj (g_obj g ++ [o]) g)
| s_defobj n mx pre e post t c o : is_tok n -> attrs_ok [AId; AComp; AEps; AM] 4 pre -> attrs_ok [AId; AComp; AEps; AM] 4 post ->
    no_colon e -> means (x g) p e t c -> objective_of (o_logic (g_opt g)) mx t (pre ++ post) o ->
    mget (raw n) (g_omap g) = None ->
    step p g (CDefineObj n mx pre e post) (set_ctr c p)
      (set_omap ((raw n, Some o) :: g_omap g) (set_obj (g_obj g ++ [o]) g))
| s_multi k nm id ns os : multi_name k = Some nm -> (forall i, id = Some i -> is_tok i) ->
    Forall2 (fun n o => is_tok n /\ mget (raw n) (g_omap g) = Some (Some o)) ns os ->
    step p g (CMulti k id ns) p
      (set_obj (g_obj g ++ [Group k (match id with Some i => raw i | None => [] end) (map Some os)]) g)
| s_const n t s : is_tok n -> dsort p t s -> mget (raw n) (p_var p) = None ->
    step p g (CDeclareConst n t) (add_var (raw n) s p) g
| s_fun0 n t s : is_tok n -> dsort p t s -> mget (raw n) (p_var p) = None ->
    step p g (CDeclareFun n [] t) (add_var (raw n) s p) g
| s_fun n ps t ss s qs : is_tok n -> ps <> [] -> Forall2 (dsort p) ps ss -> dsort p t s -> fresh_fun p (raw n) ->
    Forall2 (fun u q => exists m, sort_str u = Ok m /\ q = T NT_FUNC_PARAM u m []) ss qs ->
    step p g (CDeclareFun n ps t) (add_fun (raw n) (T NT_FUNC_DEC s (raw n) (NULLT :: qs)) p)
      (set_funs (g_funs g ++ [raw n]) g)
| s_sort n a z : is_tok n -> stoi a = Ok z -> 0 <= z -> fresh_sort p (raw n) ->
    step p g (CDeclareSort n a) (add_srt (raw n) (Srt SK_DEC (raw n) z []) p) g
| s_defsort n t s : is_tok n -> dsort p t s -> fresh_sort p (raw n) ->
    step p g (CDefineSort n t) (add_srt (raw n) s p) g
| s_defconst n t s e u c : is_tok n -> dsort p t s -> fresh_fun p (raw n) -> means (x g) p e u c ->
    step p g (CDefineConst n t e) (add_fun (raw n) (T NT_FUNC_DEF s (raw n) [u]) (set_ctr c p))
      (set_funs (g_funs g ++ [raw n]) g)
| s_deffun n ps ss t s e u c : is_tok n -> params_ok p ps ss -> dsort p t s -> fresh_fun p (raw n) ->
    means (x g) (with_params (combine (names ps) ss) p) e u c ->
    step p g (CDefineFun n ps t e)
      (add_fun (raw n) (T NT_FUNC_DEF s (raw n) (u :: map param (combine (names ps) ss))) (set_ctr c p))
      (set_funs (g_funs g ++ [raw n]) g)
| s_defrec n ps ss t s e u c qs : is_tok n -> params_ok p ps ss -> dsort p t s -> fresh_fun p (raw n) ->
    (* while the body is read the function is a declared one *)
    Forall2 (fun v q => exists m, sort_str v = Ok m /\ q = T NT_FUNC_PARAM v m []) ss qs ->
    means (x g) (add_fun (raw n) (T NT_FUNC_DEC s (raw n) (NULLT :: qs)) (with_params (combine (names ps) ss) p)) e u c ->
    step p g (CDefineFunRec n ps t e)
      (add_fun (raw n) (T NT_FUNC_REC s (raw n) (u :: map param (combine (names ps) ss))) (set_ctr c p))
      (set_funs (g_funs g ++ [raw n]) g)
| s_logic v : is_tok v -> In (raw v) (map L logics) ->
    step p g (CSetLogic v) p (set_opt (set_logic (raw v) (g_opt g)) g)
| s_checksat : step p g CCheckSat p (set_opt (set_checksat (g_opt g)) g)
| s_getmodel : step p g CGetModel p (set_opt (set_getmodel (g_opt g)) g)
| s_getobj : step p g CGetObjectives p (set_opt (set_getobj (g_opt g)) g)
| s_ignored c ks : In c ignored -> balanced ks -> step p g (CIgnored c ks) p g.

Inductive steps : pst -> ctx -> list cmd -> pst -> ctx -> Prop :=
| st_nil p g : steps p g [] p g
| st_cons p g c p1 g1 l p2 g2 : step p g c p1 g1 -> steps p1 g1 l p2 g2 -> steps p g (c :: l) p2 g2.
End Step.

(** the parser's tables hold the declarations [p]; it is between two commands *)
Definition holds_decls (p q : pst) : Prop :=
  same_decls p q /\ (forall x, top_state x q) /\ p_ctr q = p_ctr p /\ p_fv p = [].

(** ** what a script records *)
Definition asserted (c : cmd) : list sx :=
  match c with CAssert e | CAssertNamed e _ | CAssertId _ e | CAssertIdAfter e _ => [e] | _ => [] end.
Definition softened (c : cmd) : list sx := match c with CAssertSoft _ e _ => [e] | _ => [] end.
Definition n_obj (c : cmd) : nat :=
  match c with COptimize _ _ _ _ | CDefineObj _ _ _ _ _ | CMulti _ _ _ => 1 | _ => 0 end.
Definition count_obj (l : list cmd) : nat := fold_right (fun c n => (n_obj c + n)%nat) 0%nat l.
(** the indices in group [id] *)
Definition members (id : str) (m : smap (list nat)) : list nat := match mget id m with Some l => l | None => [] end.
(** groups name existing entries only *)
Definition groups_in (m : smap (list nat)) (n : nat) : Prop := forall id i, In i (members id m) -> (i < n)%nat.

(** ** option names and what they control *)
Inductive flag := FKeepLet | FKeepDiv | FFloat | FExpand | FExpandRec.
Definition flag_name (f : flag) : str :=
  L (match f with FKeepLet => "keep_let" | FKeepDiv => "keep_division" | FFloat => "float_evaluate"
     | FExpand => "expand_functions" | FExpandRec => "expand_recursive_functions" end).
Definition flag_get (f : flag) (o : opts) : bool :=
  match f with FKeepLet => o_keeplet o | FKeepDiv => o_keepdiv o | FFloat => o_float o | FExpand => o_xfun o | FExpandRec => o_xrec o end.
(** a sequence of setOption calls; a call that throws leaves what it had stored *)
Definition set_all (l : list (str * optval)) (o : opts) : opts :=
  fold_left (fun o q => fst (parserSetOption (fst q) (snd q) o)) l o.
(** the last value given for key [k], if any *)
Definition last_value (k : str) (l : list (str * optval)) : option str :=
  fold_left (fun a q => if seq_str (fst q) k then Some (optval_str (snd q)) else a) l None.

(** ** histories of a parser object: every public way of asserting or asking *)
Inductive reach (b : pcfg) (r : rt) : parser -> Prop :=
| re_new : reach b r (parser0 r)
| re_str t q q' : reach b r q -> parseStr b t q = Ok q' -> reach b r q'
| re_file t q q' : reach b r q -> parseFile b t q = Ok q' -> reach b r q'
| re_astr t q q' : reach b r q -> assertStr b t q = Ok q' -> reach b r q'
| re_anode t q : reach b r q -> reach b r (assertNode t q)
| re_check q : reach b r q -> reach b r (snd (checkSat q)).
