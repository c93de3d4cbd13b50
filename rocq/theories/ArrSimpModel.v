(** Simplification of select/store terms: src/simp_parser.cpp:1841-1981, and the
    constructors src/op_parser.cpp:3594-3637.

    Simplified: the caches (array_select_cache, array_normalize_cache) store results that
    depend on their keys only and are left out.  areDefinitelyEqual (1966-1982) compares
    nodes of one NodeManager, that is pointers: [teq] (see C17).  The order of the keys
    (std::sort by address, 1935-1937) is the parameter [ptr]. *)
From Verif Require Import Base KindModel SortModel TermModel ArrayModel SimpModel OpModel.
Open Scope Z_scope.

(** sort.h:179-187; children[i] of a sort without them is undefined *)
Definition indexS (s : sort) : res sort := match s_ch s with i :: _ => Ok i | _ => UB end.
Definition elemS (s : sort) : res sort := match s_ch s with _ :: e :: _ => Ok e | _ => UB end.

(** simp_parser.cpp:1845-1859 collectStoreChain: base and (index, value) pairs; here the
    newest write comes first, as in [tmp] *)
Fixpoint storeChain (t : term) : res (term * list (term * term)) :=
  match t with
  | T k s n ch =>
      if keq k NT_STORE then
        match ch with
        | a :: i :: v :: _ => p <- storeChain a ;; Ok (fst p, (i, v) :: snd p)
        | _ => UB
        end
      else Ok (T k s n ch, [])
  end.

(** the scan of rewriteSelect (1885-1898): inl the value of the newest write to the index,
    inr the base *)
Fixpoint scan (idx t : term) {struct t} : res (term + term) :=
  match t with
  | T k s n ch =>
      if keq k NT_STORE then
        match ch with
        | a :: i :: v :: _ => if teq idx i then Ok (inl v) else scan idx a
        | _ => UB
        end
      else Ok (inr (T k s n ch))
  end.
(** simp_parser.cpp:1861-1905 rewriteSelect *)
Definition rewriteSelect (c : cfg) (t : term) : res term :=
  if negb (isSelect t) then Ok t
  else match t_ch t with
       | a :: i :: _ =>
           if negb (isStore a) then Ok t
           else o <- scan i a ;;
                match o with
                | inl v => Ok v
                | inr b => es <- elemS (t_sort b) ;; mkOper c es NT_SELECT [b; i]
                end
       | _ => UB
       end.

(** overwrite[key] = value (1924-1927) on an association list *)
Fixpoint overwrite (k v : term) (m : list (term * term)) : list (term * term) :=
  match m with
  | [] => [(k, v)]
  | w :: m' => if teq (fst w) k then (k, v) :: m' else w :: overwrite k v m'
  end.
Fixpoint lookup (k : term) (m : list (term * term)) : term :=
  match m with
  | [] => NULLT
  | w :: m' => if teq (fst w) k then snd w else lookup k m'
  end.
(** simp_parser.cpp:1907-1950 normalizeStoreChain *)
Definition normalizeStoreChain (c : cfg) (ptr : list term -> list term) (t : term) : res term :=
  if negb (isStore t) then Ok t
  else
    p <- storeChain t ;;
    let m := fold_left (fun m w => overwrite (fst w) (snd w) m) (rev (snd p)) [] in
    foldM (fun res idx => mkOper c (t_sort res) NT_STORE [res; idx; lookup idx m])
          (fst p) (ptr (map fst m)).

(** simp_parser.cpp:1952-1964 simplifyArray *)
Definition simplifyArray (c : cfg) (ptr : list term -> list term) (t : term) : res term :=
  if isSelect t then rewriteSelect c t
  else if isStore t then normalizeStoreChain c ptr t
  else Ok t.

(** op_parser.cpp:3598-3613 mkSelect *)
Definition mkSelect (c : cfg) (ptr : list term -> list term) (l r : term) : res term :=
  if negb (isArray l) then Exit
  else
    is <- indexS (t_sort l) ;;
    e <- sort_eq (t_sort r) is ;;
    if negb e then Exit
    else es <- elemS (t_sort l) ;;
         t <- mkOper c es NT_SELECT [l; r] ;;
         simplifyArray c ptr t.
(** op_parser.cpp:3617-3637 mkStore *)
Definition mkStore (c : cfg) (ptr : list term -> list term) (l r v : term) : res term :=
  if isErr l || isErr r || isErr v then Ok (if isErr l then l else r)
  else if negb (isArray l) then Exit
  else
    is <- indexS (t_sort l) ;;
    es <- elemS (t_sort l) ;;
    e <- sort_eq (t_sort r) is ;;
    if negb e then Exit
    else
      e' <- sort_eq (t_sort v) es ;;
      if negb e' then Exit
      else t <- mkOper c (t_sort l) NT_STORE [l; r; v] ;;
           simplifyArray c ptr t.
