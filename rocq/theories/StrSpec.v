(** Values of string expressions as SMT-LIB 2.6 defines them: the operators as relations between values, and
    the value of a term whose variables a model gives constants. *)
From Coq Require Import QArith.
From Verif Require Import Base KindModel SortModel TermModel UtilModel UtilSpec SimpModel OpModel OpSpec TraverseModel EvalModel.
Open Scope Z_scope.

Inductive sv := VS (s : str) | VI (z : Z) | VB (b : bool).
(** the constant of a value: a string in quotes, an integer numeral, true or false *)
Definition const (v : sv) : term :=
  match v with VS s => T NT_CONST strS (Q s) [] | VI z => mkConstInt z | VB true => TRUE | VB false => FALSE end.
(** strings without characters that need an escape, short enough for std::string *)
Definition proper (v : sv) : Prop := match v with VS s => Forall plainC s /\ zlen s + 2 <= str_max | _ => True end.

(** the operators; [replace_all] with an empty pattern, indices outside the string for [str.at] and
    [str.update], and negative indices, are left out (see C14) *)
Inductive sop : kind -> list sv -> sv -> Prop :=
| R_substr s i j : 0 <= i < two64 -> 0 <= j < two64 -> sop NT_STR_SUBSTR [VS s; VI i; VI j] (VS (substrS s i j))
| R_at s i : 0 <= i <= zlen s -> sop NT_STR_CHARAT [VS s; VI i] (VS (atS s i))
| R_prefix s t b : (b = true <-> exists r, t = s ++ r) -> sop NT_STR_PREFIXOF [VS s; VS t] (VB b)
| R_suffix s t b : (b = true <-> exists r, t = r ++ s) -> sop NT_STR_SUFFIXOF [VS s; VS t] (VB b)
| R_contains s t b : (b = true <-> Contains t s) -> sop NT_STR_CONTAINS [VS s; VS t] (VB b)
| R_indexof s t i r : 0 <= i < two64 -> IndexOf s t i r -> sop NT_STR_INDEXOF [VS s; VS t; VI i] (VI r)
| R_replace s t u r : Replace t u s r -> sop NT_STR_REPLACE [VS s; VS t; VS u] (VS r)
| R_replace_all s t u r : t <> [] -> Z.of_nat (length s + length s * length u) + 2 <= str_max -> ReplaceAll t u s r ->
    sop NT_STR_REPLACE_ALL [VS s; VS t; VS u] (VS r)
| R_update s i t : 0 <= i -> i + zlen t <= zlen s -> sop NT_STR_UPDATE [VS s; VI i; VS t] (VS (sub s 0 i ++ t ++ sub s (i + zlen t) (zlen s)))
| R_lower s : sop NT_STR_TO_LOWER [VS s] (VS (map tolower s))
| R_upper s : sop NT_STR_TO_UPPER [VS s] (VS (map toupper s))
| R_rev s : sop NT_STR_REV [VS s] (VS (rev s)).

(** [value_in m t v]: with the values the model [m] gives the variables, [t] has the value [v].  No application
    has only constant arguments (the constructors fold those) *)
Inductive value_in (m : model) : term -> sv -> Prop :=
| N_var k s n v : In k [NT_VAR; NT_TEMP_VAR; NT_QUANT_VAR; NT_PLACEHOLDER_VAR] -> m_get (T k s n []) m = Ok (const v) -> proper v ->
    value_in m (T k s n []) v
| N_const v : proper v -> value_in m (const v) v
| N_op k s n ch vs v : values_in m ch vs -> Exists (fun x => isConst x = false) ch -> sop k vs v -> proper v -> value_in m (T k s n ch) v
with values_in (m : model) : list term -> list sv -> Prop :=
| Ns_nil : values_in m [] []
| Ns_cons t v ts vs : value_in m t v -> values_in m ts vs -> values_in m (t :: ts) (v :: vs).
