(** Specification of print and re-parse: the terms that the printed text gives back.  [rt x g r t]:
    in a parser with declarations [g] and the variables [r] bound by enclosing quantifiers, every
    leaf of [t] is a declared or bound name under a legal spelling or a literal, and
    every inner node is what its own operator's constructor returns for its children. *)
From Verif Require Import Base LexSpec KindModel SortModel TermModel SimpModel OpModel ParseModel ParseSpec.
Open Scope Z_scope.

(** texts that are one token: a word (not starting like 1e5), a quoted symbol, a string *)
Inductive spells : str -> token -> Prop :=
| sp_word w : w <> [] -> Forall (fun c => ~ delimC c) w -> no_sci w [] -> spells w (TWord w)
| sp_quoted b : Forall (fun c => c <> "|"%char /\ c <> nul) b -> spells ("|"%char :: b ++ ["|"%char]) (TQuoted b)
| sp_string b : str_body b -> spells (quoteC :: b ++ [quoteC]) (TString b).
Definition token_text (n : str) : Prop := exists k, spells n k.

(** leaves printed as their name *)
Definition name_kinds : list kind :=
  [NT_VAR; NT_TEMP_VAR; NT_PLACEHOLDER_VAR; NT_QUANT_VAR; NT_FUNC_PARAM].
(** constants printed as a fixed word *)
Definition const_word (k : kind) : option string :=
  match k with
  | NT_CONST_PI => Some "pi"%string | NT_CONST_E => Some "e"%string | NT_INFINITY => Some "inf"%string
  | NT_POS_INFINITY => Some "+inf"%string | NT_NEG_INFINITY => Some "-inf"%string | NT_NAN => Some "NaN"%string
  | _ => None
  end.
Definition numericS (s : sort) : bool := s_is SK_REAL s || s_is SK_INT s || s_is SK_INTOREAL s.
(** nodes not written (operator argument ... argument) *)
Definition no_op_kinds : list kind :=
  name_kinds ++
  [NT_CONST_TRUE; NT_CONST_FALSE; NT_CONST; NT_FUNC_DEC; NT_FUNC_DEF; NT_FUNC_REC; NT_CONST_ARRAY; NT_REG_LOOP; NT_BV_EXTRACT;
   NT_BV_REPEAT; NT_BV_ZERO_EXT; NT_BV_SIGN_EXT; NT_BV_ROTATE_LEFT; NT_BV_ROTATE_RIGHT; NT_CONST_PI; NT_CONST_E;
   NT_INFINITY; NT_POS_INFINITY; NT_NEG_INFINITY; NT_NAN; NT_EPSILON; NT_POS_EPSILON; NT_NEG_EPSILON;
   NT_REG_NONE; NT_REG_ALL; NT_REG_ALLCHAR; NT_FORALL; NT_EXISTS; NT_FUNC_APPLY; NT_FUNC_REC_APPLY; NT_UF_APPLY;
   NT_LET; NT_LET_CHAIN; NT_LET_BIND_VAR; NT_LET_BIND_VAR_LIST; NT_FP_TO_UBV; NT_FP_TO_SBV; NT_FP_TO_FP;
   NT_FP_TO_FP_UNSIGNED; NT_ROOT_OBJ; NT_ROOT_OF_WITH_INTERVAL; NT_REAL_ALGEBRAIC_NUMBER].
(** operators with a fixed number of arguments *)
Definition op_arity (k : kind) : option nat :=
  if kin k [NT_NOT; NT_NEG; NT_FP_ABS; NT_FP_NEG; NT_FP_IS_NORMAL; NT_FP_IS_SUBNORMAL; NT_FP_IS_ZERO; NT_FP_IS_INF;
            NT_FP_IS_NAN; NT_FP_IS_NEG; NT_FP_IS_POS; NT_FP_TO_REAL] then Some 1%nat
  else if kin k [NT_FP_REM; NT_FP_LE; NT_FP_LT; NT_FP_GE; NT_FP_GT; NT_FP_EQ; NT_SELECT] then Some 2%nat
  else if kin k [NT_ITE; NT_STORE] then Some 3%nat
  else None.
(** nodes written ((_ operator index ... index) argument ... argument) *)
Definition indexed (k : kind) (ch : list term) : option (string * list term * list term) :=
  match k, ch with
  | NT_BV_EXTRACT, [a; i; j] => Some ("extract"%string, [i; j], [a])
  | NT_REG_LOOP, [a; i; j] => Some ("re.loop"%string, [i; j], [a])
  | NT_BV_REPEAT, [a; i] => Some ("repeat"%string, [i], [a])
  | NT_BV_ZERO_EXT, [a; i] => Some ("zero_extend"%string, [i], [a])
  | NT_BV_SIGN_EXT, [a; i] => Some ("sign_extend"%string, [i], [a])
  | NT_BV_ROTATE_LEFT, [a; i] => Some ("rotate_left"%string, [i], [a])
  | NT_BV_ROTATE_RIGHT, [a; i] => Some ("rotate_right"%string, [i], [a])
  | NT_FP_TO_UBV, [m; a; n] => Some ("fp.to_ubv"%string, [n], [m; a])
  | NT_FP_TO_SBV, [m; a; n] => Some ("fp.to_sbv"%string, [n], [m; a])
  | NT_FP_TO_FP, [e; s; a] => Some ("to_fp"%string, [e; s], [a])
  | NT_FP_TO_FP, [e; s; m; a] => Some ("to_fp"%string, [e; s], [m; a])
  | NT_FP_TO_FP_UNSIGNED, [e; s; m; a] => Some ("to_fp_unsigned"%string, [e; s], [m; a])
  | _, _ => None
  end.
(** applications of functions: the arguments *)
Definition fun_args (k : kind) (ch : list term) : option (list term) :=
  match k, ch with
  | NT_UF_APPLY, _ => Some ch
  | (NT_FUNC_APPLY | NT_FUNC_REC_APPLY), _ :: args => Some args
  | _, _ => None
  end.

(** sorts whose text is read back as the same sort *)
Inductive sort_back (g : pst) : sort -> so -> Prop :=
| sb_basic n s : In (n, s) [("Bool"%string, boolS); ("Int"%string, intS); ("Real"%string, realS);
                            ("String"%string, strS); ("RoundingMode"%string, rmS)] ->
    sort_back g s (SoName (word n))
| sb_bv w : 0 <= w < 2 ^ 31 -> sort_back g (bvS w) (SoBV (Idec w))
| sb_fp e m : 0 <= e < 2 ^ 31 -> 0 <= m < 2 ^ 31 -> sort_back g (fpS (L "FP") e m) (SoFP (Idec e) (Idec m))
| sb_dec n a k : spells n k -> mget n basic_sorts = None ->
    mget n (p_srt g) = Some (Srt SK_DEC n a []) -> sort_back g (Srt SK_DEC n a []) (SoName k)
| sb_arr u v a b : sort_back g u a -> sort_back g v b -> key_sort u -> key_sort v -> sort_back g (arrayS u v) (SoArr a b).

Section RT.
Context (x : pcfg) (g : pst).
(** a name with no meaning but that of a literal *)
Definition free (r : env) (n : str) : Prop :=
  n <> L "true" /\ n <> L "false" /\ assoc n r = None /\ declared g n = None.

Inductive rt : env -> term -> Prop :=
| rt_true r : rt r TRUE
| rt_false r : rt r FALSE
| rt_bound r k s n : In k name_kinds -> token_text n -> assoc n r = Some (T k s n []) ->
    rt r (T k s n [])
| rt_decl r k s n : In k name_kinds -> token_text n -> n <> L "true" -> n <> L "false" ->
    assoc n r = None -> declared g n = Some (T k s n []) -> rt r (T k s n [])
(* literals *)
| rt_lit r s n : token_text n -> free r n -> (numericS s = true -> hd nul n <> "-"%char) ->
    lit_of x n (T NT_CONST s n []) -> rt r (T NT_CONST s n [])
| rt_word r t w : const_word (t_kind t) = Some w -> hd nul (t_name t) <> "("%char ->
    free r (L w) -> lit_of x (L w) t -> rt r t
(* a negative numeral is read as the unary minus of a numeral *)
| rt_minus r s n u : token_text n -> free r n -> numericS s = true -> lit_of x n u -> isErr u = false ->
    mkSub (x_c x) [u] = Ok (T NT_CONST s ("-"%char :: n) []) -> rt r (T NT_CONST s ("-"%char :: n) [])
(* an operator *)
| rt_op r k s nm ch : ~ In k no_op_kinds -> ch <> [] -> (forall n, op_arity k = Some n -> length ch = n) ->
    token_text (kindToString k) -> special (kindToString k) = false ->
    core_op (kindToString k) = true \/ mget (kindToString k) (p_fun g) = None ->
    Forall (rt r) ch -> oper_kind x (getOperKind (kindToString k)) [] ch = Ok (T k s nm ch) ->
    isErr (T k s nm ch) = false -> rt r (T k s nm ch)
| rt_idx r k s nm ch h ix args : indexed k ch = Some (h, ix, args) -> mget (L h) (p_fun g) = None ->
    Forall (rt r) ch -> oper_kind x (getOperKind (L h)) ix args = Ok (T k s nm ch) -> rt r (T k s nm ch)
| rt_fun r k s nm ch args f : fun_args k ch = Some args -> args <> [] -> token_text nm ->
    special nm = false -> core_op nm = false -> mget nm (p_fun g) = Some f ->
    Forall (rt r) args -> x_apply x f args = Ok (T k s nm ch) -> rt r (T k s nm ch)
(* a quantifier over variables not bound outside *)
| rt_quant r k s nm b vs ns ss sos : k = NT_FORALL \/ k = NT_EXISTS ->
    vs = map (fun q => quant_node (fst q) (snd q)) (combine ns ss) -> length ns = length ss -> vs <> [] ->
    Forall token_text ns -> NoDup ns ->
    (forall n, In n ns -> n <> L "true" /\ n <> L "false" /\ assoc n r = None /\ is_fun g n = false) ->
    Forall2 (sort_back g) ss sos ->
    rt (combine ns vs ++ r) b -> mkOper (x_c x) boolS k (b :: vs) = Ok (T k s nm (b :: vs)) ->
    rt r (T k s nm (b :: vs)).
End RT.
