(** Array equality and the variable check used by constant folding
    (src/simp_parser.cpp:1964-2222, include/parser.h:203-232).

    The caches (array_canonical_cache etc.) map a node to a result computed from that
    node alone and are transparent.  [hash] is the node hash; ties of the order of the
    writes are broken by pointer in the code, the result of the comparison does not
    depend on them unless the hashes collide. *)
From Verif Require Import Base KindModel SortModel TermModel.
Open Scope Z_scope.

Definition isStore := isk NT_STORE.
Definition isSelect := isk NT_SELECT.
Definition isConstArray := isk NT_CONST_ARRAY.

(** dag.h:830-860: children 0, 1, 2 of a store node.  In release builds a missing child
    is undefined behaviour; the model takes the three children together. *)
Definition store3 (t : term) : res (term * term * term) :=
  match t_ch t with
  | a :: i :: v :: _ => Ok (a, i, v)
  | _ => UB
  end.

(** ArrayCanonicalForm, parser.h:208-228 *)
Record acf := ACF { cf_base : term; cf_writes : list (term * term); cf_const : bool }.

(** the loop of canonicalizeArray (simp_parser.cpp:2009-2029): writes from the newest to
    the oldest, the first occurrence of an index is kept.  Store nodes are finite trees,
    so the loop is a structural recursion. *)
Fixpoint chain_walk (t : term) (acc : list (term * term)) {struct t} : res (term * list (term * term)) :=
  match t with
  | T k s n ch =>
      if keq k NT_STORE then
        match ch with
        | a :: i :: v :: _ =>
            chain_walk a (if existsb (fun w => teq (fst w) i) acc then acc else acc ++ [(i, v)])
        | _ => UB
        end
      else Ok (T k s n ch, acc)
  end.

(** insertion into the sorted vector of writes (std::sort by hash, simp_parser.cpp:2056-2067) *)
Fixpoint ins_write (hash : term -> Z) (w : term * term) (l : list (term * term)) : list (term * term) :=
  match l with
  | [] => [w]
  | x :: l' => if hash (fst w) <? hash (fst x) then w :: l else x :: ins_write hash w l'
  end.
Definition sort_writes (hash : term -> Z) (l : list (term * term)) : list (term * term) :=
  fold_left (fun acc w => ins_write hash w acc) l [].

(** simp_parser.cpp:1983-2073 canonicalizeArray *)
Definition canonicalizeArray (hash : term -> Z) (a : term) : res acf :=
  if negb (isArray a) then Ok (ACF a [] false)
  else if isConstArray a then v <- child0 a ;; Ok (ACF v [] true)
  else
    p <- chain_walk a [] ;;
    let (base, ws) := p in
    if isConstArray base then
      v <- child0 base ;;
      Ok (ACF v (sort_writes hash (filter (fun w => negb (teq (snd w) v)) ws)) true)
    else Ok (ACF base (sort_writes hash ws) false).

(** ArrayCanonicalForm::computeHash, parser.h:215-227 *)
Definition cf_hash (hash : term -> Z) (c : acf) : Z :=
  fold_left (fun h w =>
      let wh := Z.lxor (hash (fst w)) (u64 (Z.shiftl (hash (snd w)) 1)) in
      Z.lxor h (u64 (wh + 2654435769 + u64 (Z.shiftl h 6) + Z.shiftr h 2)))
    (cf_writes c) (hash (cf_base c)).

(** matching of the writes, simp_parser.cpp:2146-2168: for each write of the first, the
    first unmatched equal write of the second *)
Fixpoint take_write (w : term * term) (l : list (term * term)) : option (list (term * term)) :=
  match l with
  | [] => None
  | x :: l' => if teq (fst w) (fst x) && teq (snd w) (snd x) then Some l'
               else option_map (cons x) (take_write w l')
  end.
Fixpoint match_writes (a b : list (term * term)) : bool :=
  match a with
  | [] => true
  | w :: a' => match take_write w b with Some b' => match_writes a' b' | None => false end
  end.

(** simp_parser.cpp:2075-2170 areArraysEqual.  The recursive call on two array bases
    (line 2127) is on the bases themselves: for two different base arrays whose hashes
    collide it never ends; [fuel] is the recursion budget. *)
Fixpoint areArraysEqual (fuel : nat) (hash : term -> Z) (a b : term) : res bool :=
  match fuel with
  | O => NoFuel
  | S f =>
      if teq a b then Ok true
      else
        ca <- canonicalizeArray hash a ;;
        cb <- canonicalizeArray hash b ;;
        if negb (cf_hash hash ca =? cf_hash hash cb) then Ok false
        else if negb (Bool.eqb (cf_const ca) (cf_const cb)) then
          let cc := if cf_const ca then ca else cb in
          let sc := if cf_const ca then cb else ca in
          if forallb (fun w => teq (snd w) (cf_base cc)) (cf_writes sc)
             && isConstArray (cf_base sc)
          then v <- child0 (cf_base sc) ;; Ok (teq v (cf_base cc))
          else Ok false
        else
          be <- (if cf_const ca then Ok (teq (cf_base ca) (cf_base cb))
                 else if isArray (cf_base ca) && isArray (cf_base cb)
                 then areArraysEqual f hash (cf_base ca) (cf_base cb)
                 else Ok (teq (cf_base ca) (cf_base cb))) ;;
          if negb be then Ok false
          else if negb (Nat.eqb (length (cf_writes ca)) (length (cf_writes cb))) then Ok false
          else Ok (match_writes (cf_writes ca) (cf_writes cb))
  end.

(** simp_parser.cpp:2172-2220 arrayContainsVar *)
Fixpoint arr_has_var (t : term) : res bool :=
  match t with
  | T k s n ch =>
      if keq k NT_STORE then
        match ch with
        | a :: i :: v :: _ => if isVar i || isVar v then Ok true else arr_has_var a
        | _ => UB
        end
      else if keq k NT_CONST_ARRAY then
        match ch with v :: _ => Ok (isVar v) | [] => UB end
      else Ok (isVar (T k s n ch) && isArray (T k s n ch))
  end.
Definition arrayContainsVar (t : term) : res bool :=
  if negb (isArray t) then Ok false
  else if isVar t then Ok true else arr_has_var t.
