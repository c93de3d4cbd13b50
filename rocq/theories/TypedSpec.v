(** A well-sorted fragment: Boolean, integer, real and bit-vector terms over variables, integer
    numerals, bit-vector literals, the connectives, ite, equality, distinct, the arithmetic
    comparisons, + - *, the bit-vector operators whose constant folding is right (not, neg, and,
    or, xor, nand, nor, xnor, add, mul, concat, bv2nat) and the eight bit-vector comparisons,
    uninterpreted functions and (kept) let.  Used to state end-to-end theorems about
    substitution, function application, evaluation and parsing.

    Left out: Real literals (they go through MPFR), the ternary implication (folded wrongly,
    see C21_implies3_refuted), the other bit-vector operators (subtraction, division and shifts are
    folded wrongly, see C03 to C06), quantifiers, strings, arrays and floating point. *)
From Coq Require Import QArith Qcanon.
From Verif Require Import Base KindModel SortModel TermModel BVModel BVSpec Sem SimpModel OpModel OpSpec.
Open Scope Z_scope.

(** Boolean, integer, real, bit-vectors of width [w]; [CL] is the list of bindings of a let, which has no value *)
Inductive cl := CB | CI | CR | CL | CV (w : nat).
(** sorts of variables and applications of uninterpreted functions *)
Definition vsort (r : cl) (s : sort) : Prop :=
  match r with CB => s = boolS | CI => s = intS | CR => s = realS | CL => False | CV w => s = bvS (Z.of_nat w) end.
(** sorts recorded on operator nodes: the code is free to write Int, Real or IntOrReal *)
Definition rsort (r : cl) (s : sort) : Prop :=
  match r with CB => s = boolS | CL => s_is SK_ARRAY s = false | CV w => s = bvS (Z.of_nat w) | _ => s = intS \/ s = realS \/ s = intorealS end.

Definition bvn_kinds : list kind := [NT_BV_AND; NT_BV_OR; NT_BV_XOR; NT_BV_NAND; NT_BV_NOR; NT_BV_XNOR; NT_BV_ADD; NT_BV_MUL].
Inductive sig : kind -> cl -> list cl -> Prop :=
| S_not : sig NT_NOT CB [CB]
| S_conn k n : In k [NT_AND; NT_OR; NT_XOR] -> (2 <= n)%nat -> sig k CB (repeat CB n)
| S_imp n : (2 <= n)%nat -> n <> 3%nat -> sig NT_IMPLIES CB (repeat CB n)
| S_ite r : r <> CL -> sig NT_ITE r [CB; r; r]
| S_eq k r n : In k [NT_EQ; NT_DISTINCT] -> r <> CL -> (2 <= n)%nat -> sig k CB (repeat r n)
| S_cmp k : In k arith_comp_kinds -> sig k CB [CR; CR]
| S_arith k r n : In k [NT_ADD; NT_MUL; NT_SUB] -> r = CI \/ r = CR -> (2 <= n)%nat -> sig k r (repeat r n)
| S_neg r : r = CI \/ r = CR -> sig NT_NEG r [r]
| S_bind r : r <> CL -> sig NT_LET_BIND_VAR r [r]
| S_blist rs : rs <> [] -> ~ In CL rs -> sig NT_LET_BIND_VAR_LIST CL rs
| S_chain n r : (1 <= n)%nat -> r <> CL -> sig NT_LET_CHAIN r (repeat CL n ++ [r])
| S_bv1 k w : In k [NT_BV_NOT; NT_BV_NEG] -> sig k (CV w) [CV w]
| S_bvn k w n : In k bvn_kinds -> (2 <= n)%nat -> sig k (CV w) (repeat (CV w) n)
| S_bvcmp k w : In k bv_comp_kinds -> sig k CB [CV w; CV w]
| S_concat w w' : fits (w + w') -> sig NT_BV_CONCAT (CV (w + w')) [CV w; CV w']
| S_bv2nat w : sig NT_BV_TO_NAT CI [CV w].

Inductive wt : cl -> term -> Prop :=
| W_var k s n r : is_leaf_var k = true -> vsort r s -> wt r (T k s n [])
| W_true : wt CB TRUE
| W_false : wt CB FALSE
| W_int s z : s = intS \/ s = intorealS -> wt CI (T NT_CONST s (Idec z) [])
| W_app k s n r rs ch : sig k r rs -> rsort r s -> Forall2 wt rs ch -> wt r (T k s n ch)
| W_uf s n r rs ch : ch <> [] -> ~ In CL rs -> vsort r s -> Forall2 wt rs ch -> wt r (T NT_UF_APPLY s n ch)
| W_sub t : wt CI t -> wt CR t
| W_bv w v : (0 < w)%nat -> fits w -> wt (CV w) (T NT_CONST (bvS (Z.of_nat w)) (lit w v) []).

(** values of a class *)
Definition vcl (r : cl) (v : value) : Prop :=
  match r with
  | CB => exists b, v = VBool b
  | CI => exists z, v = VNum (ZQ z)
  | CR => exists q, v = VNum q
  | CL => True
  | CV w => exists z, 0 <= z < 2 ^ Z.of_nat w /\ v = VBV w z
  end.
