(** Vocabulary for C95: a model text is read and the assertions of a script are evaluated under it. *)
From Coq Require Import QArith Qcanon.
From Verif Require Import Base LexSpec KindModel SortModel TermModel BVSpec Sem OpModel LexModel ParseModel ParseSpec CommandModel CommandSpec MTextSpec MeanSpec.
Open Scope Z_scope.

(** the constants a script declares, and all names it declares or defines *)
Definition constant_of (l : list cmd) (v : str) (t : ty) : Prop :=
  exists n s, raw n = v /\ so_ty s t /\ (In (CDeclareConst n s) l \/ In (CDeclareFun n [] s) l).
Definition introduced (l : list cmd) (v : str) : Prop :=
  exists n, raw n = v /\ ((exists s, In (CDeclareConst n s) l) \/ (exists ss s, In (CDeclareFun n ss s) l) \/ (exists ps s e, In (CDefineFun n ps s e) l)).
(** names that are not spelled like a numeral or a bit-vector literal, quoted or not *)
Definition ordinary (v : str) : Prop :=
  match v with
  | c :: d => ((48 <=? code c) && (code c <=? 57))%nat = false /\ c <> "#"%char /\ (c = bar -> hd bar d <> "#"%char)
  | [] => False
  end.
(** the spellings of a value in a model: true, false, 5, (- 5), #b01, #x1f, (_ bv5 8) *)
Inductive spells : sx -> value -> Prop :=
| Sp_true k : is_tok k -> raw k = L "true" -> spells (SAtom k) (VBool true)
| Sp_false k : is_tok k -> raw k = L "false" -> spells (SAtom k) (VBool false)
| Sp_num k z : is_tok k -> 0 <= z -> raw k = Idec z -> spells (SAtom k) (VNum (ZQ z))
| Sp_neg h k z : is_tok h -> raw h = L "-" -> is_tok k -> 0 <= z -> raw k = Idec z -> spells (SApp h [SAtom k]) (VNum (ZQ (- z)))
| Sp_bits k w v : is_tok k -> (0 < w)%nat -> fits w -> bits_of (raw k) = Some (w, v) -> spells (SAtom k) (VBV w v)
| Sp_bvnum v w : (0 < w)%nat -> fits w -> 0 <= v < 2 ^ Z.of_nat w -> spells (SBv (Idec v) (Idec (Z.of_nat w))) (VBV w v).
(** a model text that lists the value in [M] of every constant of the script *)
Definition value_entry (q : token * so * sx) : entry := EVal (fst (fst q)) (snd (fst q)) (snd q).
Definition lists_values (l : list cmd) (M : structure) (vals : list (token * so * sx)) : Prop :=
  Forall (fun q => is_tok (fst (fst q)) /\ exists t, constant_of l (raw (fst (fst q))) t /\ so_ty (snd (fst q)) t /\
    spells (snd q) (con_val M (raw (fst (fst q))) t)) vals /\
  forall v t, constant_of l v t -> In v (map (fun q => raw (fst (fst q))) vals).
