(** C63, C64: scripts outside the language of MeanSpec.v to which the library gives another meaning than
    SMT-LIB.  Each theorem is about a text; the meaning SMT-LIB gives it is stated in plain arithmetic. *)
From Coq Require Import QArith Qcanon Permutation.
From Verif Require Import Base LexSpec KindModel SortModel TermModel BVSpec Sem SimpModel OpModel OpSpec LexModel ParseModel ParseSpec CommandModel CommandSpec
  PropsParse PropsCommand OpExamples SemProofs MeanSpec.
From Verif Require CtorSpec.
Open Scope Z_scope.

Definition BB : pcfg := CtorSpec.with_ops B (fun l => l).
(** what parsing a text and asking checkSat gives *)
Definition answer (s : string) : option rt := on (fun q => fst (checkSat q)) (parseStr BB (L s) (parser0 RT_UNKNOWN)).
Definition recorded (s : string) : option (list term) := on (fun q => g_as (q_g q)) (parseStr BB (L s) (parser0 RT_UNKNOWN)).
Definition intv (s : string) : term := T NT_VAR intS (L s) [].
Definition val_int (f : string -> Z) : Sem.env := env_of (fun s => if seqs s "a" then VNum (ZQ (f "a"%string)) else if seqs s "b" then VNum (ZQ (f "b"%string)) else VNum (ZQ (f "c"%string))).

(** a chain of comparisons loses its tail: (< x 3 x) is unsatisfiable, what is recorded holds for x = 0 *)
Theorem C64_chain_refuted : exists t, recorded "(declare-const x Int)(assert (< x 3 x))" = Some [t] /\
  (exists I e, holds I e t = true) /\ ~ exists x : Z, x < 3 /\ 3 < x.
Proof.
  eexists. split; [vm_compute; reflexivity|]. split; [|intros (x & X & Y); lia]. exists I0, (val_int (fun _ => 0)). vm_compute. reflexivity.
Qed.
(** (not (= a b c)) is recorded as (distinct a b c): a satisfiable script becomes unsatisfiable *)
Theorem C64_not_equal_refuted :
  exists ts, recorded "(declare-const a Int)(declare-const b Int)(declare-const c Int)(assert (not (= a b c)))(assert (= a b))" = Some ts /\
  (exists a b c : Z, ~ (a = b /\ b = c) /\ a = b) /\ forall I e, ~ Forall (fun t => holds I e t = true) ts.
Proof.
  exists [T NT_DISTINCT boolS (L "distinct") [intv "a"; intv "b"; intv "c"]; T NT_EQ boolS (L "=") [intv "a"; intv "b"]]. split; [vm_compute; reflexivity|]. split.
  - exists 0, 0, 1. split; [lia|reflexivity].
  - intros I e H. inversion H as [|? ? H1 H']; subst. inversion H' as [|? ? H2 _]; subst. unfold holds in H1, H2.
    set (x := eval I e (intv "a")) in *. set (y := eval I e (intv "b")) in *. set (z := eval I e (intv "c")) in *.
    change (truth (VBool (pairwise (fun a b => negb (veqb a b)) [x; y; z])) = true) in H1. change (truth (VBool (veqb x y && true)) = true) in H2.
    clearbody x y z. cbn [truth pairwise forallb] in H1, H2. destruct (veqb x y); cbn [negb andb] in H1, H2; [discriminate H1|discriminate H2].
Qed.
(** constants: true statements that are recorded as false, so that checkSat answers UNSAT *)
Theorem C64_folding_refuted :
  (answer "(assert (= (mod (- 7) 2) 1))" = Some RT_UNSAT /\ (-7) mod 2 = 1) /\
  (answer "(assert (= (div (- 7) 2) (- 4)))" = Some RT_UNSAT /\ (-7) / 2 = -4) /\
  (answer "(assert (= (bvsub #x05 #x03) #x02))" = Some RT_UNSAT /\ (5 - 3) mod 2 ^ 8 = 2) /\
  (answer "(assert (= (bvshl #x01 #x01) #x02))" = Some RT_UNSAT /\ 1 * 2 ^ 1 mod 2 ^ 8 = 2) /\
  (answer "(assert (= (bvlshr #x04 #x02) #x01))" = Some RT_UNSAT /\ 4 / 2 ^ 2 = 1).
Proof. repeat split; vm_compute; reflexivity. Qed.
(** ... and a false one that is recorded as true *)
Theorem C64_folding_sat_refuted : answer "(assert (= (mod (- 7) 2) (- 1)))" = Some RT_SAT /\ (-7) mod 2 <> -1.
Proof. split; [vm_compute; reflexivity|discriminate]. Qed.
(** the same texts as expressions *)
Definition expr (s : string) : option term := match mkExpr BB pst0 (L s) with Ok (t, _) => Some t | _ => None end.
Theorem C63_folding_refuted : expr "(= (mod (- 7) 2) 1)" = Some FALSE /\ expr "(= (bvsub #x05 #x03) #x02)" = Some FALSE /\ expr "(< 1 2 0)" = Some TRUE.
Proof. repeat split; vm_compute; reflexivity. Qed.
Print Assumptions C64_chain_refuted.
Print Assumptions C64_not_equal_refuted.
Print Assumptions C64_folding_refuted.
Print Assumptions C64_folding_sat_refuted.
Print Assumptions C63_folding_refuted.
