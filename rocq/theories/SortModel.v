(** Sorts and the sort manager (include/sort.h, src/sort.cpp). *)
From Verif Require Import Base.

(** include/sort.h:43-56: enum class SORT_KIND *)
Inductive skind := SK_NULL | SK_UNKNOWN | SK_BOOL | SK_INT | SK_REAL | SK_BV | SK_FP | SK_STR
 | SK_ARRAY | SK_DATATYPE | SK_SET | SK_RELATION | SK_BAG | SK_SEQ | SK_UF | SK_REG | SK_EXT
 | SK_RAT | SK_NAT | SK_ALGEBRAIC | SK_TRANSCENDENTAL | SK_RAND | SK_INTOREAL | SK_DEC | SK_DEF
 | SK_ROUNDING_MODE.
Definition skind_ix (k : skind) : Z :=
  match k with
  | SK_NULL => 0 | SK_UNKNOWN => 1 | SK_BOOL => 2 | SK_INT => 3 | SK_REAL => 4 | SK_BV => 5
  | SK_FP => 6 | SK_STR => 7 | SK_ARRAY => 8 | SK_DATATYPE => 9 | SK_SET => 10
  | SK_RELATION => 11 | SK_BAG => 12 | SK_SEQ => 13 | SK_UF => 14 | SK_REG => 15 | SK_EXT => 16
  | SK_RAT => 17 | SK_NAT => 18 | SK_ALGEBRAIC => 19 | SK_TRANSCENDENTAL => 20 | SK_RAND => 21
  | SK_INTOREAL => 22 | SK_DEC => 23 | SK_DEF => 24 | SK_ROUNDING_MODE => 25
  end.
Definition skeq (a b : skind) : bool := skind_ix a =? skind_ix b.

(** include/sort.h:58-71: class Sort.  [sar] is the size_t arity; children are
    values (the shared pointers are never reseated). *)
Inductive sort := Srt (skd : skind) (snm : str) (sar : Z) (sch : list sort).
Definition s_kind (s : sort) : skind := let (k, _, _, _) := s in k.
Definition s_name (s : sort) : str := let (_, n, _, _) := s in n.
Definition s_arity (s : sort) : Z := let (_, _, a, _) := s in a.
Definition s_ch (s : sort) : list sort := let (_, _, _, c) := s in c.

(** sort.h:74-99: isBool() etc. *)
Definition s_is (k : skind) (s : sort) : bool := skeq (s_kind s) k.

(** children[i]->arity, sort.h:164-177 getBitWidth/getExponentWidth/getSignificandWidth
    (the condAssert on the kind is off in release builds; a missing child is UB). *)
Definition child_arity (s : sort) (i : nat) : res Z :=
  match nth_error (s_ch s) i with Some c => Ok (s_arity c) | None => UB end.

(** sort.h:102-127: Sort::operator== *)
Definition sort_eq (a b : sort) : res bool :=
  let dd s := s_is SK_DEF s || s_is SK_DEC s in
  if dd a && dd b && seq_str (s_name a) (s_name b) && (s_arity a =? s_arity b) then Ok true
  else if (s_is SK_INT a && s_is SK_INTOREAL b) || (s_is SK_INTOREAL a && s_is SK_INT b)
  then Ok true
  else if (s_is SK_REAL a && s_is SK_INTOREAL b) || (s_is SK_INTOREAL a && s_is SK_REAL b)
  then Ok true
  else if s_is SK_FP a && s_is SK_FP b then
    e1 <- child_arity a 0 ;; e2 <- child_arity b 0 ;;
    if e1 =? e2 then
      g1 <- child_arity a 1 ;; g2 <- child_arity b 1 ;; Ok (g1 =? g2)
    else Ok false
  else Ok (skeq (s_kind a) (s_kind b) && seq_str (s_name a) (s_name b)
           && (s_arity a =? s_arity b)).

(** sort.h:213-227: Sort::hash().  std::hash of int and size_t is the identity
    (libstdc++); std::hash<std::string> is the parameter [hs].  All arithmetic is
    modulo 2^64. *)
Definition mixh (r x : Z) : Z :=
  Z.lxor r (u64 (x + 2654435769 + u64 (Z.shiftl r 6) + Z.shiftr r 2)).
Fixpoint sort_hash (hs : str -> Z) (s : sort) : Z :=
  match s with
  | Srt k n a ch =>
      fold_left mixh (map (sort_hash hs) ch)
        (mixh (mixh (skind_ix k) (hs n)) a)
  end.

(** sort.h:230-311, sort.cpp: SortManager.  [sorts] in creation order; the bucket of a
    hash value is the sublist of sorts with that hash, in creation order
    (sort.cpp:64-67, 109-111 append to the bucket exactly when they append to [sorts]).
    A shared pointer to a managed sort is its index. *)
Definition smgr := list sort.

(** sort.cpp:95-114: insertSortToBucket; returns the index of the sort object. *)
Fixpoint bucket_find (hs : str -> Z) (s : sort) (l : list sort) (i : nat) : res (option nat) :=
  match l with
  | [] => Ok None
  | x :: l' =>
      if sort_hash hs x =? sort_hash hs s then
        e <- sort_eq x s ;;
        if e then Ok (Some i) else bucket_find hs s l' (S i)
      else bucket_find hs s l' (S i)
  end.
Definition insertSort (hs : str -> Z) (m : smgr) (s : sort) : res (nat * smgr) :=
  r <- bucket_find hs s m 0 ;;
  match r with
  | Some i => Ok (i, m)
  | None => Ok (length m, m ++ [s])
  end.

Definition widthS (w : Z) : sort := Srt SK_NULL (L "Width") w [].
Definition expS (w : Z) : sort := Srt SK_NULL (L "Exp") w [].
Definition sigS (w : Z) : sort := Srt SK_NULL (L "Sig") w [].
Definition bvS (w : Z) : sort := Srt SK_BV (L "BV") 0 [widthS w].
Definition fpS (nm : str) (e s : Z) : sort := Srt SK_FP nm 0 [expS e; sigS s].
Definition arrayS (i e : sort) : sort := Srt SK_ARRAY (L "Array") 0 [i; e].

(** sort.h:290-306: the static sorts *)
Definition nullS := Srt SK_NULL (L "Null") 0 [].
Definition unknownS := Srt SK_UNKNOWN (L "Unknown") 0 [].
Definition boolS := Srt SK_BOOL (L "Bool") 0 [].
Definition intS := Srt SK_INT (L "Int") 0 [].
Definition realS := Srt SK_REAL (L "Real") 0 [].
Definition strS := Srt SK_STR (L "String") 0 [].
Definition extS := Srt SK_EXT (L "ExtReal") 0 [].
Definition intorealS := Srt SK_INTOREAL (L "IntOrReal") 0 [].
Definition regS := Srt SK_REG (L "Reg") 0 [].

(** sort.cpp:43-68: initializeStaticSorts *)
Definition smgr0 : smgr :=
  [ nullS; unknownS; boolS; intS; realS;
    Srt SK_ALGEBRAIC (L "Algebraic") 0 []; Srt SK_TRANSCENDENTAL (L "Transcendental") 0 [];
    strS; regS; extS; Srt SK_NAT (L "Natural") 0 []; Srt SK_RAND (L "Random") 0 []; intorealS;
    fpS (L "Float64") 11 53; fpS (L "Float32") 8 24; fpS (L "Float16") 5 11;
    Srt SK_ROUNDING_MODE (L "RoundingMode") 0 [] ].

(** sort.cpp:148-177: createBVSort, createFPSort, createArraySort, createSortDec,
    createSortDef.  Sort arguments are managed sorts, given by index. *)
Inductive sop :=
| CreateBV (w : Z) | CreateFP (e s : Z) | CreateArray (i e : nat)
| CreateDec (nm : str) (ar : Z) | CreateDef (nm : str) (ps : list nat) (out : nat).

Definition get_s (m : smgr) (i : nat) : res sort :=
  match nth_error m i with Some s => Ok s | None => UB end.
Definition sop_sort (m : smgr) (o : sop) : res sort :=
  match o with
  | CreateBV w => Ok (bvS w)
  | CreateFP e s => Ok (fpS (L "FP") e s)
  | CreateArray i e => a <- get_s m i ;; b <- get_s m e ;; Ok (arrayS a b)
  | CreateDec nm ar => Ok (Srt SK_DEC nm ar [])
  | CreateDef nm ps out =>
      qs <- mapM (get_s m) ps ;; o <- get_s m out ;;
      Ok (Srt SK_DEF nm (zlen qs) (qs ++ [o]))
  end.
Definition sstep (hs : str -> Z) (m : smgr) (o : sop) : res (nat * smgr) :=
  s <- sop_sort m o ;; insertSort hs m s.
Fixpoint srun (hs : str -> Z) (m : smgr) (os : list sop) : res smgr :=
  match os with
  | [] => Ok m
  | o :: os' => r <- sstep hs m o ;; srun hs (snd r) os'
  end.

(** sort.h:133-162: Sort::toString().  The cases SK_BV, SK_FP, SK_ARRAY read children. *)
Fixpoint sort_str (s : sort) : res str :=
  match s with
  | Srt k n a ch =>
      match k with
      | SK_BOOL => Ok (L "Bool") | SK_INT => Ok (L "Int") | SK_REAL => Ok (L "Real")
      | SK_BV => match ch with
                 | c :: _ => Ok (L "(_ BitVec " ++ Idec (s_arity c) ++ L ")")
                 | _ => UB end
      | SK_FP => match ch with
                 | c :: d :: _ => Ok (L "(_ FloatingPoint " ++ Idec (s_arity c) ++ L " "
                                      ++ Idec (s_arity d) ++ L ")")
                 | _ => UB end
      | SK_STR => Ok (L "String")
      | SK_ARRAY => match ch with
                 | c :: d :: _ => x <- sort_str c ;; y <- sort_str d ;;
                                  Ok (L "(Array " ++ x ++ L " " ++ y ++ L ")")
                 | _ => UB end
      | SK_DATATYPE => Ok (L "Datatype") | SK_SET => Ok (L "Set")
      | SK_RELATION => Ok (L "Relation") | SK_BAG => Ok (L "Bag")
      | SK_SEQ => Ok (L "Sequence") | SK_UF => Ok (L "UF")
      | SK_REG => Ok (L "(RegEx String)") | SK_EXT => Ok (L "ExtReal")
      | SK_NAT => Ok (L "Natural") | SK_RAND => Ok (L "Random")
      | SK_INTOREAL => Ok (L "IntOrReal") | SK_ALGEBRAIC => Ok (L "Algebraic")
      | SK_TRANSCENDENTAL => Ok (L "Transcendental")
      | SK_DEC => Ok n | SK_DEF => Ok n
      | SK_ROUNDING_MODE => Ok (L "RoundingMode")
      | _ => Ok (L "Unknown")
      end
  end.
