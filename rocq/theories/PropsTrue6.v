(** C86, C87: complete statements about parts of C65, C66. *)
From Coq Require Import QArith Permutation Sorting.Sorted Lqa.
From Verif Require Import Base BVProofs2 NumModel RoundModel NumSpec NumProofs NumMore PropsNum UtilModel UtilSpec UtilProofs UtilProofs2 ValueModel ValueSpec ValueProofs PropsValue.
Import QArith_base.
Open Scope Z_scope.
Local Notation R := rn128.

(** C86: a value holds what it was constructed from or last assigned, a copy holds the same, and no two different contents; counting an
    integer up and down; the connectives of Booleans *)
Theorem C86_value : (forall c, vholds (construct c) c) /\ (forall v c l, vholds (fold_left assign (l ++ [c]) v) c) /\
  (forall v c, vholds v c <-> vholds (vCopy v) c) /\ (forall v c d, vholds v c -> vholds v d -> c = d) /\
  (forall a z, vholds a (CNum (NI z)) ->
     (exists v, v_inc R a = Ok v /\ vholds v (CNum (NI (z + 1)))) /\ (exists v, v_dec R a = Ok v /\ vholds v (CNum (NI (z - 1)))) /\
     (exists o v, v_incpost R a = Ok (o, v) /\ vholds o (CNum (NI z)) /\ vholds v (CNum (NI (z + 1)))) /\
     (exists o v, v_decpost R a = Ok (o, v) /\ vholds o (CNum (NI z)) /\ vholds v (CNum (NI (z - 1))))) /\
  (forall a b x y, vholds a (CBool x) -> vholds b (CBool y) -> v_and a b = Ok (x && y) /\ v_or a b = Ok (x || y) /\ v_not a = Ok (negb x)).
Proof.
  destruct C65_contents as (H1 & H2 & H3 & H4). split; [exact H1|]. split; [exact H2|]. split; [exact H3|]. split; [exact H4|].
  split; [exact C65_step|exact C65_bool].
Qed.
Print Assumptions C86_value.
Example C86_ex : vholds (construct (CNum (NI 7))) (CNum (NI 7)) /\ vholds (assign (construct (CNum (NI 7))) (CBool true)) (CBool true).
Proof. destruct C65_contents as (H1 & H2 & _). split; [apply H1|]. exact (H2 (construct (CNum (NI 7))) (CBool true) []). Qed.

(** C87: joining, repeating, reversing and changing the case of string values *)
Theorem C87_string_values : forall a s, vholds a (CStr s) ->
  (forall b t, vholds b (CStr t) -> vstr (v_concat a b) (s ++ t) /\ vstr (v_add R a b) (s ++ t)) /\
  (forall b n, vholds b (CNum (NI n)) -> -2147483648 <= n <= 2147483647 -> vstr (v_repeat a b) (copies (Z.to_nat n) s)) /\
  (exists t, vstr (v_reverse a) t /\ length t = length s /\ forall i, (i < length s)%nat -> nth_error t i = nth_error s (length s - 1 - i)) /\
  (exists t, vstr (v_toLower a) t /\ Forall2 lower_of s t) /\ (exists t, vstr (v_toUpper a) t /\ Forall2 upper_of s t) /\
  (exists t, vstr (v_unique a) t /\ subseq t s /\ NoDup t /\ (forall c, In c t <-> In c s)).
Proof.
  intros a s H. split; [intros b t Hb; now apply C66_concat|]. split; [intros b n Hb Hn; now apply C66_repeat|]. split; [now apply C66_reverse|].
  destruct (C66_case a s H) as [H1 H2]. split; [exact H1|]. split; [exact H2|]. destruct (C66_unique a s H) as (t & T1 & T2 & T3 & T4 & _). exists t. auto.
Qed.
Print Assumptions C87_string_values.
Example C87_ex : vholds (vStr (L "abcab")) (CStr (L "abcab")) /\ v_unique (vStr (L "abcab")) = Ok (vStr (L "abc")).
Proof. split; [exact (proj1 C65_contents (CStr (L "abcab")))|vm_compute; reflexivity]. Qed.
