(** Substitution and function application: src/base_parser.cpp:1857-2020, 2081-2165. *)
From Verif Require Import Base KindModel SortModel TermModel OpModel SimpModel ConvModel PostModel ParseModel.

Definition ERR : term := T NT_ERROR nullS (L "error") [].
Definition isFuncParam := isk NT_FUNC_PARAM.

(** ** substitute (base_parser.cpp:2081-2165); [m] is the unordered_map from names *)
Definition subst_leaf (m : smap term) (t : term) : option (res term) :=
  if isVar t then Some (Ok (match mget (t_name t) m with Some u => u | None => t end))
  else if isConst t || isFuncParam t then Some (Ok t) else None.
(** 2127-2137: applications and array terms keep their name *)
Definition keeps_name (t : term) : bool :=
  kin (t_kind t) [NT_UF_APPLY; NT_FUNC_APPLY; NT_FUNC_REC_APPLY] || isArray t.
Definition subst_build (c : cfg) (t : term) (us : list term) : res term :=
  if keeps_name t then Ok (T (t_kind t) (t_sort t) (t_name t) us) else mkOper c (t_sort t) (t_kind t) us.
Definition substitute (c : cfg) (m : smap term) (t : term) : res term :=
  post_run true (subst_leaf m) (fun _ => false) (subst_build c) t.

(** ** function application *)
(** base_parser.cpp:2001-2020; fresh nodes, not shared with equal ones *)
Definition mkApplyFunc (f : term) (ps : list term) : term := T NT_FUNC_APPLY (t_sort f) (t_name f) (f :: ps).
Definition mkApplyRecFunc (f : term) (ps : list term) : term := T NT_FUNC_REC_APPLY (t_sort f) (t_name f) (f :: ps).
Definition mkApplyUF (s : sort) (n : str) (ps : list term) : term := T NT_UF_APPLY s n ps.
(** the options expand_functions and expand_recursive_functions *)
Record expand := Expand { x_fun : bool; x_rec : bool }.
(** 1901-1906: the map from parameter names to arguments, the first argument that is an error *)
Fixpoint bind_params (fs ps : list term) (m : smap term) : smap term + term :=
  match fs, ps with
  | f :: fs', p :: ps' => if isErr p then inr p else bind_params fs' ps' (mins (t_name f) p m)
  | _, _ => inl m
  end.
(** 1969-1981 *)
Definition apply_leaf (m : smap term) (t : term) : option (res term) :=
  if isFuncParam t then Some (Ok (match mget (t_name t) m with Some u => u | None => ERR end))
  else if isConst t then Some (Ok t) else None.
(** 1959, 1987: an application that will be expanded; its first child is not visited *)
Definition to_expand (o : expand) (t : term) : bool :=
  isk NT_FUNC_APPLY t || (isk NT_FUNC_REC_APPLY t && x_rec o).
(** 1857-1911 applyFun and 1914-1999 applyFunPostOrder, which call each other.
    [us] are the results of the visited children. *)
Fixpoint applyFunF (fuel : nat) (c : cfg) (o : expand) (f : term) (ps : list term) : res term :=
  match fuel with
  | O => NoFuel
  | S n =>
      match t_ch f with
      | [] => Ok ERR  (* getFuncParamsSize() wraps around *)
      | body :: fs =>
          if negb (Nat.eqb (length fs) (length ps)) then Ok ERR
          else if isk NT_NULL body then Ok (mkApplyUF (t_sort f) (t_name f) ps)
          else if isk NT_FUNC_REC f && negb (x_rec o) then Ok (mkApplyRecFunc f ps)
          else if isk NT_FUNC_DEC f then Ok (mkApplyUF (t_sort f) (t_name f) ps)
          else if isk NT_FUNC_DEF f && negb (x_fun o) then Ok (mkApplyFunc f ps)
          else if isErr body then Ok body
          else
            match bind_params fs ps [] with
            | inr e => Ok e
            | inl m => post_run false (apply_leaf m) (to_expand o) (fun t us =>
                if isUF t then Ok (mkApplyUF (t_sort t) (t_name t) us)
                else if isk NT_FUNC_REC_APPLY t && negb (x_rec o) then Ok (mkApplyRecFunc t us)
                else if to_expand o t then g <- child0 t ;; applyFunF n c o g us
                else mkOper c (t_sort t) (t_kind t) us) body
            end
      end
  end.
(** every nested expansion is of a function stored inside the one being expanded *)
Definition applyFun (c : cfg) (o : expand) (f : term) (ps : list term) : res term := applyFunF (S (tsize f)) c o f ps.
