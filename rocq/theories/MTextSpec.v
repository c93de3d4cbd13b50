(** Specification of reading models: the entries of a model, their spelling, and which variable gets which
    value; expressions and sorts are those of ParseSpec.v. *)
From Verif Require Import Base LexSpec KindModel SortModel TermModel SimpModel OpModel LexModel ParseModel ParseSpec CommandModel CommandSpec.

Inductive entry :=
| EVal (n : token) (t : so) (e : sx)                                        (* (define-fun n () t e) *)
| EFun (n : token) (ps : list (token * so)) (t : so) (body : list token)    (* (define-fun n (...) t body) *)
| EOther (c : token) (ks : list token).                                     (* (c ...) *)
Definition render_entry (e : entry) : list token :=
  match e with
  | EVal n t e => TL :: word "define-fun" :: n :: TL :: TR :: render_so t ++ render e ++ [TR]
  | EFun n ps t body => TL :: word "define-fun" :: n :: TL :: render_params ps ++ TR :: render_so t ++ body ++ [TR]
  | EOther c ks => TL :: c :: ks ++ [TR]
  end.
(** a model: (model entries...) or (entries...) *)
Definition render_entries (l : list entry) : list token := flat_map render_entry l.
Definition render_model (kw : bool) (l : list entry) : list token :=
  TL :: (if kw then [word "model"] else []) ++ render_entries l ++ [TR].
(** with the word model: it follows the parenthesis directly or after blanks and line ends, and is
    followed by a blank, a line end or a parenthesis *)
Definition blankC (c : ascii) : Prop := In (code c) [9; 10; 13; 32]%nat.
Definition model_header (t : str) : Prop :=
  exists u w c r, t = u ++ "("%char :: w ++ L "model" ++ c :: r /\ Forall wsC u /\ Forall blankC w /\ (blankC c \/ c = "("%char).

(** the name an entry gives a value to; a name that starts with a digit is quoted *)
Definition ename (n : token) : str :=
  match raw n with
  | c :: _ => if ((48 <=? code c) && (code c <=? 57))%nat then "|"%char :: raw n ++ ["|"%char] else raw n
  | [] => []
  end.
Definition sorts_of (p : pst) (ps : list (token * so)) (ss : list sort) : Prop :=
  Forall2 (fun (q : token * so) s => is_tok (fst q) /\ dsort p (snd q) s) ps ss.

(** the functions with parameters are declared first ([fs]: the list of function names) *)
Inductive declares : pst -> list str -> list entry -> pst -> list str -> Prop :=
| de_nil p fs : declares p fs [] p fs
| de_val p fs n t e s l p' fs' : is_tok n -> dsort p t s -> balanced (render e) -> declares p fs l p' fs' ->
    declares p fs (EVal n t e :: l) p' fs'
| de_fun p fs n ps ss t s body qs l p' fs' : is_tok n -> ps <> [] -> sorts_of p ps ss -> dsort p t s -> balanced body ->
    fresh_fun p (ename n) ->
    Forall2 (fun u q => exists m, sort_str u = Ok m /\ q = T NT_FUNC_PARAM u m []) ss qs ->
    declares (add_fun (ename n) (T NT_FUNC_DEC s (ename n) (NULLT :: qs)) p) (if mem (ename n) fs then fs else fs ++ [ename n]) l p' fs' ->
    declares p fs (EFun n ps t body :: l) p' fs'
| de_other p fs c ks l p' fs' : is_tok c -> raw c <> L "define-fun" -> balanced ks -> declares p fs l p' fs' ->
    declares p fs (EOther c ks :: l) p' fs'.

(** the values: in order, each in the declarations as they then are; a variable that is not declared
    becomes declared, or is left out if only declared ones are wanted *)
Inductive gives (x : pcfg) (only : bool) : pst -> list entry -> pst -> list (term * term) -> Prop :=
| gi_nil p : gives x only p [] p []
| gi_known p n t s e w v c l p' a : is_tok n -> dsort p t s -> mget (ename n) (p_var p) = Some w ->
    means x p e v c -> isErr v = false -> gives x only (set_ctr c p) l p' a ->
    gives x only p (EVal n t e :: l) p' ((w, v) :: a)
| gi_new p n t s e v c l p' a : only = false -> is_tok n -> dsort p t s -> mget (ename n) (p_var p) = None ->
    means x (add_var (ename n) s p) e v c -> isErr v = false -> gives x only (set_ctr c (add_var (ename n) s p)) l p' a ->
    gives x only p (EVal n t e :: l) p' ((T NT_VAR s (ename n) [], v) :: a)
| gi_skip p n t s e l p' a : only = true -> is_tok n -> dsort p t s -> mget (ename n) (p_var p) = None -> balanced (render e) ->
    gives x only p l p' a -> gives x only p (EVal n t e :: l) p' a
| gi_fun p n ps ss t body l p' a : is_tok n -> ps <> [] -> sorts_of p ps ss -> balanced (render_so t ++ body) -> gives x only p l p' a ->
    gives x only p (EFun n ps t body :: l) p' a
| gi_other p c ks l p' a : is_tok c -> raw c <> L "define-fun" -> balanced ks -> gives x only p l p' a ->
    gives x only p (EOther c ks :: l) p' a.

(** the last value given to name [n] *)
Fixpoint last_given (n : str) (a : list (term * term)) : option term :=
  match a with
  | [] => None
  | (w, v) :: a' => match last_given n a' with Some u => Some u | None => if seq_str (t_name w) n then Some v else None end
  end.
