(** Specification of the script round trip: which parser states dumpSMT2 writes faithfully. *)
From Verif Require Import Base LexSpec KindModel SortModel TermModel SimpModel OpModel ParseModel ParseSpec PrintSpec PrintModel
  CommandModel CommandSpec.
Open Scope Z_scope.

(** the declarations, with no other functions than those in [l] *)
Definition only_funs (l : list str) (p : pst) : pst := set_fun (filter (fun e => mem (fst e) l) (p_fun p)) p.
(** the parameters of a declared function are placeholders named after their sort *)
Definition sort_param (u : sort) (t : term) : Prop := exists m, sort_str u = Ok m /\ t = T NT_FUNC_PARAM u m [].
(** parameters of a definition: different legal names with printable sorts *)
Definition params_back (p : pst) (ps : list (str * sort)) : Prop :=
  NoDup (map fst ps) /\ Forall (fun e => token_text (fst e) /\ exists so, sort_back p (snd e) so) ps.
Section Fun.
Context (x : pcfg) (p : pst) (n : str).
(** [fun_back f]: function [n] is [f], declared, defined or recursively defined; a body is a term that
    comes back ([rt]) with the functions before it, its parameters and, if recursive, the function itself *)
Inductive fun_back : term -> Prop :=
| fb_dec s ss qs so : ss <> [] -> Forall (fun u => exists so, sort_back p u so) ss -> Forall2 sort_param ss qs -> sort_back p s so ->
    fun_back (T NT_FUNC_DEC s n (NULLT :: qs))
| fb_def s ps u so : params_back p ps -> sort_back p s so -> PrintSpec.rt x (with_params ps p) [] u ->
    fun_back (T NT_FUNC_DEF s n (u :: map param ps))
| fb_rec s ps qs u so : params_back p ps -> sort_back p s so -> Forall2 sort_param (map snd ps) qs ->
    PrintSpec.rt x (add_fun n (T NT_FUNC_DEC s n (NULLT :: qs)) (with_params ps p)) [] u ->
    fun_back (T NT_FUNC_REC s n (u :: map param ps)).
End Fun.

(** the text of an assertion does not start with a colon, i.e. it is not a variable named like a keyword *)
Definition no_keyword (dbg : bool) (t : term) : Prop := forall a, dumpSMTLIB2 dbg t = Ok a -> hd nul a <> ":"%char.

(** a parser between two commands whose script can be written: a logic of the standard, every declared sort
    under its own name, every declaration and assertion with a text that is read back *)
Record dumpable (x : pcfg) (q : parser) : Prop := {
  du_logic : In (o_logic (g_opt (q_g q))) (map L logics);
  du_sort_names : NoDup (map fst (p_srt (q_p q)));
  du_sorts : forall n s, In (n, s) (p_srt (q_p q)) -> s_is SK_DEC s = true ->
    token_text n /\ cache_key n = false /\ exists a, s = Srt SK_DEC n a [] /\ 0 <= a < 2 ^ 31;
  du_var_names : NoDup (map fst (p_var (q_p q)));
  du_vars : forall n v, In (n, v) (p_var (q_p q)) -> token_text n /\ exists s so, v = T NT_VAR s n [] /\ sort_back (q_p q) s so;
  du_fun_names : NoDup (g_funs (q_g q));
  du_fun_table : forall n, mget n (p_fun (q_p q)) <> None -> In n (g_funs (q_g q));
  du_funs : forall l1 n l2, g_funs (q_g q) = l1 ++ n :: l2 ->
    token_text n /\ exists f, mget n (p_fun (q_p q)) = Some f /\ fun_back x (only_funs l1 (q_p q)) n f;
  du_no_params : p_fv (q_p q) = [];
  du_asserts : Forall (fun t => PrintSpec.rt x (q_p q) [] t /\ no_keyword (c_dbg (x_c x)) t) (g_as (q_g q)) }.

(** the options that matter for reading terms *)
Definition same_flags (o o' : opts) : Prop :=
  o_float o = o_float o' /\ o_keepdiv o = o_keepdiv o' /\ o_keeplet o = o_keeplet o' /\ o_xfun o = o_xfun o' /\ o_xrec o = o_xrec o'.
(** a new parser with options [o] *)
Definition fresh_parser (o : opts) (r : CommandModel.rt) : parser := Parser pst0 (set_opt o ctx0) r false.
(** the same assertions, variables, functions, declared sorts (names BV_... and FP_... are the parser's own), logic *)
Definition same_script (q q' : parser) : Prop :=
  g_as (q_g q') = g_as (q_g q) /\ o_logic (g_opt (q_g q')) = o_logic (g_opt (q_g q)) /\
  (forall n, mget n (p_var (q_p q')) = mget n (p_var (q_p q))) /\
  (forall n, mget n (p_fun (q_p q')) = mget n (p_fun (q_p q))) /\ g_funs (q_g q') = g_funs (q_g q) /\
  forall n a, cache_key n = false -> mget n (p_srt (q_p q')) = Some (Srt SK_DEC n a []) <-> mget n (p_srt (q_p q)) = Some (Srt SK_DEC n a []).
