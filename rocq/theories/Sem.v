(** The meaning of terms (SMT-LIB), independent of the code.

    - Numbers are rationals with Leibniz equality ([Qc]); a bit-vector carries its width
      and its unsigned value; strings are byte lists; floating-point data keep NaN,
      the infinities and signed zeros apart.
    - An interpretation gives meaning to everything the theories leave open
      (uninterpreted functions, arrays, regular expressions, transcendental
      functions, division by zero, ill-typed applications) and to quantification.
    - An environment gives values to the variables. *)
From Coq Require Import QArith Qcanon Qround.
From Verif Require Import Base KindModel SortModel TermModel BVSpec.
Open Scope Z_scope.

(** ** values *)
Inductive fpv := FNaN | FInf (neg : bool) | FFin (neg : bool) (q : Qc).
Inductive value :=
| VBool (b : bool) | VNum (q : Qc) | VBV (w : nat) (v : Z) | VStr (s : str)
| VFP (f : fpv) | VOther (n : Z).

Definition fpv_eqb (a b : fpv) : bool :=
  match a, b with
  | FNaN, FNaN => true
  | FInf x, FInf y => Bool.eqb x y
  | FFin x q, FFin y r => Bool.eqb x y && (if Qc_eq_dec q r then true else false)
  | _, _ => false
  end.
Definition veqb (a b : value) : bool :=
  match a, b with
  | VBool x, VBool y => Bool.eqb x y
  | VNum x, VNum y => if Qc_eq_dec x y then true else false
  | VBV w x, VBV w' y => Nat.eqb w w' && (x =? y)
  | VStr x, VStr y => if list_eq_dec ascii_dec x y then true else false
  | VFP x, VFP y => fpv_eqb x y
  | VOther x, VOther y => x =? y
  | _, _ => false
  end.

(** total readings *)
Definition truth (v : value) : bool := match v with VBool b => b | _ => false end.
Definition num (v : value) : Qc := match v with VNum q => q | _ => Q2Qc 0 end.
Definition strv (v : value) : str := match v with VStr s => s | _ => [] end.
Definition fpval (v : value) : fpv := match v with VFP f => f | _ => FNaN end.
Definition bvv (v : value) : Z := match v with VBV _ x => x | _ => 0 end.
Definition bvw (v : value) : nat := match v with VBV w _ => w | _ => O end.
Definition ZQ (z : Z) : Qc := Q2Qc (inject_Z z).
Definition qfloor (q : Qc) : Z := Qfloor q.
Definition is_intq (q : Qc) : bool := if Qc_eq_dec (ZQ (qfloor q)) q then true else false.
Definition Qcleb (a b : Qc) : bool := if Qclt_le_dec b a then false else true.
Definition Qcltb (a b : Qc) : bool := if Qclt_le_dec a b then true else false.

(** value of a given sort: the domain of the sort, any other value mapped into it *)
Definition coerce (s : sort) (v : value) : value :=
  match s_kind s with
  | SK_BOOL => VBool (truth v)
  | SK_INT => VNum (ZQ (qfloor (num v)))
  | SK_REAL | SK_INTOREAL => VNum (num v)
  | SK_BV => match s_ch s with
             | c :: _ => VBV (Z.to_nat (s_arity c)) (uv (Z.to_nat (s_arity c)) (bvv v))
             | [] => v
             end
  | SK_STR => VStr (strv v)
  | SK_FP => VFP (fpval v)
  | _ => v
  end.

(** ** orders *)
Fixpoint chain (r : value -> value -> bool) (vs : list value) : bool :=
  match vs with
  | a :: ((b :: _) as tl) => r a b && chain r tl
  | _ => true
  end.
Fixpoint pairwise (r : value -> value -> bool) (vs : list value) : bool :=
  match vs with
  | a :: tl => forallb (r a) tl && pairwise r tl
  | [] => true
  end.
Definition vle (a b : value) : bool := Qcleb (num a) (num b).
Definition vlt (a b : value) : bool := Qcltb (num a) (num b).
Definition vge (a b : value) : bool := vle b a.
Definition vgt (a b : value) : bool := vlt b a.
Definition bule (a b : value) : bool := bvv a <=? bvv b.
Definition bult (a b : value) : bool := bvv a <? bvv b.
Definition svv (a : value) : Z := sv (bvw a) (bvv a).
Definition bsle (a b : value) : bool := svv a <=? svv b.
Definition bslt (a b : value) : bool := svv a <? svv b.
(** lexicographic order on byte strings *)
Fixpoint str_lt (a b : str) : bool :=
  match a, b with
  | [], _ :: _ => true
  | x :: a', y :: b' =>
      Nat.ltb (nat_of_ascii x) (nat_of_ascii y) || (Ascii.eqb x y && str_lt a' b')
  | _, [] => false
  end.
Definition vstr_lt (a b : value) : bool := str_lt (strv a) (strv b).
Definition vstr_le (a b : value) : bool := negb (str_lt (strv b) (strv a)).
(** IEEE order: false as soon as a NaN is involved; both zeros are equal *)
Definition fp_le (a b : fpv) : bool :=
  match a, b with
  | FNaN, _ | _, FNaN => false
  | FInf true, _ => true
  | _, FInf false => true
  | FFin _ x, FFin _ y => Qcleb x y
  | _, _ => false
  end.
Definition fp_lt (a b : fpv) : bool :=
  match a, b with
  | FNaN, _ | _, FNaN => false
  | FInf true, FInf true => false
  | FInf true, _ => true
  | FInf false, _ => false
  | _, FInf false => true
  | FFin _ x, FFin _ y => Qcltb x y
  | _, _ => false
  end.
Definition fp_eq (a b : fpv) : bool := fp_le a b && fp_le b a.
Definition onfp (r : fpv -> fpv -> bool) (a b : value) : bool := r (fpval a) (fpval b).

(** ** operators with a fixed meaning.  [None]: left to the interpretation. *)
Definition xorl (vs : list value) : bool := fold_left (fun a v => xorb a (truth v)) vs false.
Fixpoint impl (vs : list value) : bool :=
  match vs with
  | [] => true
  | [v] => truth v
  | v :: tl => implb (truth v) (impl tl)
  end.
Definition sumq (vs : list value) : Qc := fold_right (fun v a => (num v + a)%Qc) (Q2Qc 0) vs.
Definition prodq (vs : list value) : Qc := fold_right (fun v a => (num v * a)%Qc) (Q2Qc 1) vs.
Definition subq (v : value) (vs : list value) : Qc := fold_left (fun a w => (a - num w)%Qc) vs (num v).
(** SMT-LIB integer division: the remainder is non-negative *)
Definition sdiv (a b : Z) : Z := if 0 <=? b then a / b else - (a / (- b)).
Definition smod (a b : Z) : Z := a mod (Z.abs b).
Definition cmpop (r : value -> value -> bool) (vs : list value) : option value :=
  match vs with _ :: _ :: _ => Some (VBool (chain r vs)) | _ => None end.
Definition bv2 (f : nat -> Z -> Z -> Z) (vs : list value) : option value :=
  match vs with
  | VBV w a :: tl =>
      Some (fold_left (fun acc v => VBV w (uv w (f w (bvv acc) (bvv v)))) tl (VBV w a))
  | _ => None
  end.

Definition op_sem (k : kind) (vs : list value) : option value :=
  match k with
  | NT_NOT => match vs with [v] => Some (VBool (negb (truth v))) | _ => None end
  | NT_AND => Some (VBool (forallb truth vs))
  | NT_OR => Some (VBool (existsb truth vs))
  | NT_XOR => Some (VBool (xorl vs))
  | NT_IMPLIES => match vs with _ :: _ :: _ => Some (VBool (impl vs)) | _ => None end
  | NT_ITE => match vs with [c; a; b] => Some (if truth c then a else b) | _ => None end
  | NT_EQ | NT_EQ_BOOL | NT_EQ_OTHER => cmpop veqb vs
  | NT_DISTINCT | NT_DISTINCT_BOOL | NT_DISTINCT_OTHER =>
      match vs with
      | _ :: _ :: _ => Some (VBool (pairwise (fun a b => negb (veqb a b)) vs))
      | _ => None
      end
  | NT_LET_BIND_VAR => match vs with [v] => Some v | _ => None end
  | NT_LET_CHAIN => match vs with [] => None | _ => Some (last vs (VBool false)) end
  (* arithmetic *)
  | NT_ADD => match vs with [] => None | _ => Some (VNum (sumq vs)) end
  | NT_MUL => match vs with [] => None | _ => Some (VNum (prodq vs)) end
  | NT_SUB => match vs with v :: (_ :: _) as tl => Some (VNum (subq v (List.tl vs))) | _ => None end
  | NT_NEG => match vs with [v] => Some (VNum (- num v)%Qc) | _ => None end
  | NT_ABS => match vs with
              | [v] => Some (VNum (if Qcltb (num v) (Q2Qc 0) then (- num v)%Qc else num v))
              | _ => None end
  | NT_DIV_INT => match vs with
              | [a; b] => if is_intq (num a) && is_intq (num b) && negb (qfloor (num b) =? 0)
                          then Some (VNum (ZQ (sdiv (qfloor (num a)) (qfloor (num b))))) else None
              | _ => None end
  | NT_MOD => match vs with
              | [a; b] => if is_intq (num a) && is_intq (num b) && negb (qfloor (num b) =? 0)
                          then Some (VNum (ZQ (smod (qfloor (num a)) (qfloor (num b))))) else None
              | _ => None end
  | NT_DIV_REAL => match vs with
              | [a; b] => if Qc_eq_dec (num b) (Q2Qc 0) then None else Some (VNum (num a / num b)%Qc)
              | _ => None end
  | NT_TO_INT | NT_FLOOR => match vs with [v] => Some (VNum (ZQ (qfloor (num v)))) | _ => None end
  | NT_CEIL => match vs with [v] => Some (VNum (ZQ (- qfloor (- num v)%Qc))) | _ => None end
  | NT_ROUND => match vs with
                | [v] => if is_intq (num v) then Some (VNum (num v)) else None
                | _ => None end
  | NT_TO_REAL => match vs with [v] => Some (VNum (num v)) | _ => None end
  | NT_IS_INT => match vs with [v] => Some (VBool (is_intq (num v))) | _ => None end
  | NT_IS_EVEN => match vs with [v] => Some (VBool (Z.even (qfloor (num v)))) | _ => None end
  | NT_IS_ODD => match vs with [v] => Some (VBool (Z.odd (qfloor (num v)))) | _ => None end
  | NT_MAX => match vs with
              | v :: tl => Some (VNum (fold_left (fun a w => if Qcleb a (num w) then num w else a) tl (num v)))
              | [] => None end
  | NT_MIN => match vs with
              | v :: tl => Some (VNum (fold_left (fun a w => if Qcleb (num w) a then num w else a) tl (num v)))
              | [] => None end
  | NT_GCD => match vs with [a; b] => Some (VNum (ZQ (Z.gcd (qfloor (num a)) (qfloor (num b))))) | _ => None end
  | NT_IAND => match vs with
              | v :: tl => Some (VNum (ZQ (fold_left (fun a w => Z.land a (qfloor (num w))) tl (qfloor (num v)))))
              | [] => None end
  | NT_LE => cmpop vle vs | NT_LT => cmpop vlt vs | NT_GE => cmpop vge vs | NT_GT => cmpop vgt vs
  (* bit-vectors *)
  | NT_BV_NOT => match vs with [VBV w a] => Some (VBV w (uv w (Z.lnot a))) | _ => None end
  | NT_BV_NEG => match vs with [VBV w a] => Some (VBV w (uv w (- a))) | _ => None end
  | NT_BV_AND => bv2 (fun _ => Z.land) vs
  | NT_BV_OR => bv2 (fun _ => Z.lor) vs
  | NT_BV_XOR => bv2 (fun _ => Z.lxor) vs
  | NT_BV_NAND => bv2 (fun _ a b => Z.lnot (Z.land a b)) vs
  | NT_BV_NOR => bv2 (fun _ a b => Z.lnot (Z.lor a b)) vs
  | NT_BV_XNOR => bv2 (fun _ a b => Z.lnot (Z.lxor a b)) vs
  | NT_BV_ADD => bv2 (fun _ => Z.add) vs
  | NT_BV_SUB => bv2 (fun _ => Z.sub) vs
  | NT_BV_MUL => bv2 (fun _ => Z.mul) vs
  | NT_BV_UDIV => match vs with [VBV w a; VBV _ b] => Some (VBV w (udivS w a b)) | _ => None end
  | NT_BV_UREM => match vs with [VBV w a; VBV _ b] => Some (VBV w (uremS w a b)) | _ => None end
  | NT_BV_SDIV => match vs with [VBV w a; VBV _ b] => Some (VBV w (sdivS w a b)) | _ => None end
  | NT_BV_SREM => match vs with [VBV w a; VBV _ b] => Some (VBV w (sremS w a b)) | _ => None end
  | NT_BV_SMOD => match vs with [VBV w a; VBV _ b] => Some (VBV w (smodS w a b)) | _ => None end
  | NT_BV_SHL => match vs with [VBV w a; VBV _ b] => Some (VBV w (shlS w a b)) | _ => None end
  | NT_BV_LSHR => match vs with [VBV w a; VBV _ b] => Some (VBV w (lshrS w a b)) | _ => None end
  | NT_BV_ASHR => match vs with [VBV w a; VBV _ b] => Some (VBV w (ashrS w a b)) | _ => None end
  | NT_BV_CONCAT => match vs with
                    | VBV w a :: tl =>
                        Some (fold_left (fun acc v =>
                          VBV (bvw acc + bvw v) (bvv acc * 2 ^ Z.of_nat (bvw v) + bvv v)) tl (VBV w a))
                    | _ => None end
  | NT_BV_COMP => match vs with
                  | [a; b] => Some (VBV 1 (if veqb a b then 1 else 0))
                  | _ => None end
  | NT_BV_TO_NAT => match vs with [VBV w a] => Some (VNum (ZQ a)) | _ => None end
  | NT_BV_TO_INT => match vs with [VBV w a] => Some (VNum (ZQ (sv w a))) | _ => None end
  | NT_BV_ULE => cmpop bule vs | NT_BV_ULT => cmpop bult vs
  | NT_BV_UGE => cmpop (fun a b => bule b a) vs | NT_BV_UGT => cmpop (fun a b => bult b a) vs
  | NT_BV_SLE => cmpop bsle vs | NT_BV_SLT => cmpop bslt vs
  | NT_BV_SGE => cmpop (fun a b => bsle b a) vs | NT_BV_SGT => cmpop (fun a b => bslt b a) vs
  (* floating point comparisons *)
  | NT_FP_LE => cmpop (onfp fp_le) vs | NT_FP_LT => cmpop (onfp fp_lt) vs
  | NT_FP_GE => cmpop (onfp (fun a b => fp_le b a)) vs
  | NT_FP_GT => cmpop (onfp (fun a b => fp_lt b a)) vs
  | NT_FP_EQ => cmpop (onfp fp_eq) vs
  (* strings *)
  | NT_STR_CONCAT => match vs with [] => None | _ => Some (VStr (flat_map strv vs)) end
  | NT_STR_LEN => match vs with [v] => Some (VNum (ZQ (zlen (strv v)))) | _ => None end
  | NT_STR_LT => cmpop vstr_lt vs | NT_STR_LE => cmpop vstr_le vs
  | NT_STR_GT => cmpop (fun a b => vstr_lt b a) vs | NT_STR_GE => cmpop (fun a b => vstr_le b a) vs
  | NT_STR_PREFIXOF => match vs with [a; b] => Some (VBool (is_prefix (strv a) (strv b))) | _ => None end
  | _ => None
  end.

(** ** constants: by kind, sort and text *)
Fixpoint digits_val (s : str) (acc : Z) : option Z :=
  match s with
  | [] => Some acc
  | c :: s' => if Nat.leb 48 (nat_of_ascii c) && Nat.leb (nat_of_ascii c) 57
               then digits_val s' (acc * 10 + (Z.of_nat (nat_of_ascii c) - 48)) else None
  end.
Definition int_val (s : str) : option Z :=
  match s with
  | [] => None
  | c :: s' => if Ascii.eqb c "-"%char
               then match s' with [] => None | _ => option_map Z.opp (digits_val s' 0) end
               else digits_val s 0
  end.
(** decimal numerals [-]digits.digits *)
Fixpoint split_dot (s : str) : option (str * str) :=
  match s with
  | [] => None
  | c :: s' => if Ascii.eqb c "."%char then Some ([], s')
               else option_map (fun p => (c :: fst p, snd p)) (split_dot s')
  end.
Definition dec_val (s : str) : option Qc :=
  match split_dot s with
  | Some (a, b) =>
      match digits_val a 0, digits_val b 0 with
      | Some x, Some y => Some (ZQ x + ZQ y / ZQ (10 ^ zlen b))%Qc
      | _, _ => None
      end
  | None => None
  end.
Definition real_val (s : str) : option Qc :=
  match int_val s with
  | Some z => Some (ZQ z)
  | None => match s with
            | c :: s' => if Ascii.eqb c "-"%char then option_map Qcopp (dec_val s') else dec_val s
            | [] => None
            end
  end.
Fixpoint bits_val (s : str) (acc : Z) : option Z :=
  match s with
  | [] => Some acc
  | c :: s' => if Ascii.eqb c "0"%char then bits_val s' (2 * acc)
               else if Ascii.eqb c "1"%char then bits_val s' (2 * acc + 1) else None
  end.
Definition cst_val (k : kind) (s : sort) (n : str) : option value :=
  match k with
  | NT_CONST_TRUE => Some (VBool true)
  | NT_CONST_FALSE => Some (VBool false)
  | NT_CONST =>
      match s_kind s with
      | SK_INT => option_map (fun z => VNum (ZQ z)) (int_val n)
      | SK_REAL | SK_INTOREAL => option_map VNum (real_val n)
      | SK_BV => match n with
                 | h :: b :: ds => if Ascii.eqb h "#"%char && Ascii.eqb b "b"%char
                                   then option_map (VBV (length ds)) (bits_val ds 0) else None
                 | _ => None
                 end
      | SK_STR => match n with
                  | q :: s' => Some (VStr (removelast s'))
                  | [] => None
                  end
      | _ => None
      end
  | _ => None
  end.

(** ** interpretations, environments, evaluation *)
Record interp := {
  i_op : kind -> sort -> str -> list value -> value;
  i_dom : sort -> value -> Prop;
  i_all : list sort -> (list value -> bool) -> bool;
  i_all_ok : forall ss f, i_all ss f = true <-> (forall vs, Forall2 i_dom ss vs -> f vs = true) }.
Definition env := term -> value.
Definition is_leaf_var (k : kind) : bool :=
  kin k [NT_VAR; NT_TEMP_VAR; NT_QUANT_VAR; NT_PLACEHOLDER_VAR; NT_FUNC_PARAM].
Fixpoint upd (e : env) (xs : list term) (vs : list value) : env :=
  match xs, vs with
  | x :: xs', v :: vs' => fun t => if teq t x then v else upd e xs' vs' t
  | _, _ => e
  end.

Definition app_sem (I : interp) (k : kind) (s : sort) (n : str) (vs : list value) : value :=
  match op_sem k vs with
  | Some v => v
  | None => coerce s (i_op I k s n vs)
  end.
Definition leaf_sem (I : interp) (e : env) (k : kind) (s : sort) (n : str) : value :=
  if is_leaf_var k then coerce s (e (T k s n []))
  else match cst_val k s n with
       | Some v => v
       | None => coerce s (i_op I k s n [])
       end.
(** A quantifier node has the body first, then the bound variables. *)
Fixpoint eval (I : interp) (e : env) (t : term) {struct t} : value :=
  match t with
  | T k s n ch =>
      match ch with
      | [] => leaf_sem I e k s n
      | b :: xs =>
          match k with
          | NT_FORALL => VBool (i_all I (map t_sort xs) (fun vs => truth (eval I (upd e xs vs) b)))
          | NT_EXISTS => VBool (negb (i_all I (map t_sort xs)
                                         (fun vs => negb (truth (eval I (upd e xs vs) b)))))
          | _ => app_sem I k s n (map (eval I e) ch)
          end
      end
  end.
Definition holds (I : interp) (e : env) (t : term) : bool := truth (eval I e t).
