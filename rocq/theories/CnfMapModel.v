(** The table of the variables introduced by toCNF (src/conv_parser.cpp:94-161). *)
From Verif Require Import Base KindModel SortModel TermModel BVModel SimpModel OpModel ConvModel CnfModel.

(** parser.h:177-179.  cnf_bool_var_map (atom to variable) is written where cnf_atom_map
    (variable to atom) is written, with the pair turned round (conv_parser.cpp:846-849, 929-932), and
    cleared with it (799-800): so it is the table turned round, newest entry first. *)
Definition bool_vars (S : cnfst) : memo := map (fun p => (snd p, fst p)) (cs_atoms S).
(** conv_parser.cpp:94-99 getCNFAtom; None is the null node *)
Definition getCNFAtom (S : cnfst) (v : term) : option term := mfind v (cs_atoms S).
(** conv_parser.cpp:100-105 getTExplanation *)
Definition getTExplanation (S : cnfst) (t : term) : option term := mfind t (cs_atoms S).
(** conv_parser.cpp:106-111 isTAbstraction *)
Definition isTAbstraction (S : cnfst) (t : term) : bool := match mfind t (cs_atoms S) with Some _ => true | None => false end.
(** conv_parser.cpp:134-139 getCNFBoolVar *)
Definition getCNFBoolVar (S : cnfst) (a : term) : option term := mfind a (bool_vars S).
(** the entries of a map written newest first: the first entry of each key *)
Fixpoint entries (seen : list term) (m : memo) : memo :=
  match m with
  | [] => []
  | (k, v) :: r => if existsb (teq k) seen then entries seen r else (k, v) :: entries (k :: seen) r
  end.
(** the loops of conv_parser.cpp:112-133 and 140-161: [es] are pairs of what is returned
    and the variable tested *)
Fixpoint pos_loop (c : cfg) (es : memo) (vis : list term) : res (list term) :=
  match es with
  | [] => Ok []
  | (a, v) :: r =>
      if existsb (teq v) vis then pos_loop c r vis
      else
        nv <- mkNot c v ;;
        if existsb (teq nv) vis then pos_loop c r vis
        else if isNot v then pos_loop c r (v :: vis)
        else l <- pos_loop c r (v :: vis) ;; Ok (a :: l)
  end.
(** conv_parser.cpp:112-133 getCNFAtoms; [ord] is the iteration order of the map *)
Definition getCNFAtoms (c : cfg) (ord : memo -> memo) (S : cnfst) : res (list term) :=
  pos_loop c (ord (entries [] (bool_vars S))) [].
(** conv_parser.cpp:140-161 getCNFBoolVars *)
Definition getCNFBoolVars (c : cfg) (ord : memo -> memo) (S : cnfst) : res (list term) :=
  pos_loop c (map (fun p => (fst p, fst p)) (ord (entries [] (cs_atoms S)))) [].
