(** Model of Parser::dumpSMT2: the text of a whole script (src/base_parser.cpp:2829-2865). *)
From Verif Require Import Base KindModel SortModel TermModel SimpModel ParseModel PrintModel CommandModel.
Open Scope Z_scope.

Definition nl : str := ["010"%char].
(** base_parser.cpp:2833-2837: one entry of sort_key_map; Sort::isDec (sort.h) *)
Definition dump_sort (q : str * sort) : str :=
  if s_is SK_DEC (snd q) then L "(declare-sort " ++ fst q ++ L " " ++ Idec (s_arity (snd q)) ++ L ")" ++ nl else [].
(** 2839-2842 *)
Definition dump_var (v : term) : res str :=
  s <- sort_str (t_sort v) ;; Ok (L "(declare-fun " ++ t_name v ++ L " () " ++ s ++ L ")" ++ nl).
(** 276-282 getFunctions: fun_key_map.at; 2843-2857: the three forms *)
Definition dump_fun (dbg : bool) (p : pst) (n : str) : res str :=
  match mget n (p_fun p) with
  | None => Throw OutOfRange
  | Some f => t <- (if isk NT_FUNC_DEC f then dumpFuncDec f else dumpFuncDef dbg (isk NT_FUNC_REC f) f) ;; Ok (t ++ nl)
  end.
(** 2858-2861 *)
Definition dump_assert (dbg : bool) (t : term) : res str :=
  s <- dumpSMTLIB2 dbg t ;; Ok (L "(assert " ++ s ++ L ")" ++ nl).
(** 2829-2865 dumpSMT2.  sort_key_map and var_names are unordered_maps: [ss] and [vs] are their entries in
    whatever order the loops meet them.  Not modelled: temp_var_names (variables made by mkTempVar). *)
Definition dumpSMT2 (dbg : bool) (ss : list (str * sort)) (vs : list (str * term)) (q : parser) : res str :=
  v <- mapM (fun e => dump_var (snd e)) vs ;;
  f <- mapM (dump_fun dbg (q_p q)) (g_funs (q_g q)) ;;
  a <- mapM (dump_assert dbg) (g_as (q_g q)) ;;
  Ok (L "(set-logic " ++ o_logic (g_opt (q_g q)) ++ L ")" ++ nl ++ concat (map dump_sort ss) ++ concat v ++ concat f
      ++ concat a ++ L "(check-sat)" ++ nl ++ L "(exit)" ++ nl).
(** 2874-2895 removeFuns: for each name present, one removal; the first occurrence in function_names is erased *)
Fixpoint erase1 (n : str) (l : list str) : list str :=
  match l with [] => [] | m :: l' => if seq_str m n then l' else m :: erase1 n l' end.
Fixpoint removeFuns (ns : list str) (m : smap term) (l : list str) : Z * smap term * list str :=
  match ns with
  | [] => (0, m, l)
  | n :: ns' =>
      match mget n m with
      | None => removeFuns ns' m l
      | Some _ => let '(c, m', l') := removeFuns ns' (mdel n m) (erase1 n l) in (1 + c, m', l')
      end
  end.
