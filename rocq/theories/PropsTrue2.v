(** C76, C77: complete statements about parts of C19 and C25. *)
From Coq Require Import QArith Qcanon Permutation.
From Verif Require Import Base KindModel SortModel TermModel Sem SemProofs SimpModel OpModel OpSpec OpExamples ConvModel ConvSpec ConvProofs WalkProofs GoodProofs SplitProofs PropsOp PropsConv.
Open Scope Z_scope.

(** C76: conjunction, disjunction, exclusive or, implication and if-then-else of any arguments that are no error
    nodes.  [bool_args]: the arguments are no error nodes and of sort Bool; [lits_ok]: literals of sort Bool among
    them are true and false themselves (OpSpec.v). *)
Theorem C76_connectives : forall c ps, cfg_ok c -> bool_args ps ->
  decides (mkAnd c ps) (fun I e => forallb (holds I e) ps) /\
  decides (mkOr c ps) (fun I e => existsb (holds I e) ps) /\
  decides (mkXor c ps) (fun I e => xors (map (holds I e) ps)) /\
  ((2 <= length ps)%nat -> decides (mkImplies c ps) (fun I e => imps (map (holds I e) ps))) /\
  (forall b l r, ps = [b; l; r] -> means (mkIte c b l r) (fun I e => if holds I e b then eval I e l else eval I e r)).
Proof.
  intros c ps Hc Hb. assert (Hl : lits_ok ps) by apply Hb. assert (Hn : no_err ps) by (intros p Hp; now apply Hb).
  split; [now apply C19_and|]. split; [now apply C19_or|]. split; [now apply C19_xor|]. split; [intros; now apply C19_implies|].
  intros b l r ->. now apply C19_ite.
Qed.
Print Assumptions C76_connectives.
Example C76_ex : cfg_ok c0 /\ bool_args [pa; TRUE; pb] /\ mkAnd c0 [pa; TRUE; pb] = Ok (T NT_AND boolS (L "and") [pa; pb]).
Proof. exact C19_and_ex. Qed.

(** C77: replaceNodes and replaceAtoms: in the result some keys are replaced by their images, nodes above them are
    rebuilt by the constructor, and nothing else happens; without keys the term is returned *)
Theorem C77_only_keys : forall c m t,
  (forall u, replaceNodes c m t = Ok u -> replaced c (fun x => mfind x m) t u) /\
  (forall u, replaceAtoms c m t = Ok u -> replaced c (atom_map m) t u) /\
  (keys_in (fun x => mfind x m) t = [] -> replaceNodes c m t = Ok t).
Proof.
  intros c m t. split; [intros u; apply C25_only_keys|]. split; [intros u; apply C25_atoms_only_keys|apply C25_no_key].
Qed.
Print Assumptions C77_only_keys.
Example C77_ex : replaceNodes c0 [(pa, pb)] (T NT_AND boolS (L "and") [bvar (L "c"); T NT_NOT boolS (L "not") [pa]]) = Ok (T NT_AND boolS (L "and") [bvar (L "c"); T NT_NOT boolS (L "not") [pb]]).
Proof. vm_compute. reflexivity. Qed.
