{
 "claims": [
  {
   "property": "C01",
   "status": "proved",
   "theorems": [
    "C01_bitwise"
   ],
   "note": "all widths and values; bvNot..bvXnor"
  },
  {
   "property": "C02",
   "status": "proved",
   "theorems": [
    "C02_add",
    "C02_neg",
    "C02_mul"
   ],
   "note": "all widths and values; multiplication of the width-0 text '#b' is undefined behaviour in the code, hence 0 < w"
  },
  {
   "property": "C03",
   "status": "partial",
   "theorems": [
    "C03_sub_correct_iff_zero",
    "C03_sub_refuted",
    "C03_sub_width_partial"
   ],
   "note": "Property is FALSE of the code: the fold is right only for 0 - 0 (exact characterisation proved), C03_sub_refuted gives a witness; the width is always right"
  },
  {
   "property": "C04",
   "status": "partial",
   "theorems": [
    "C04_zero_divisor",
    "C04_udiv_correct_iff",
    "C04_udiv_value",
    "C04_urem_correct_iff",
    "C04_refuted"
   ],
   "note": "Property is FALSE of the code for non-zero divisors: exact characterisation and witnesses proved; zero divisors proved correct"
  },
  {
   "property": "C05",
   "status": "partial",
   "theorems": [
    "C05_sdiv_correct_iff",
    "C05_srem",
    "C05_smod_correct_iff",
    "C05_refuted"
   ],
   "note": "bvsrem fully proved; bvsdiv and bvsmod are wrong on exactly characterised operands (iff theorems + witness)"
  },
  {
   "property": "C06",
   "status": "partial",
   "theorems": [
    "C06_lshr_value",
    "C06_ashr_value",
    "C06_shift_partial",
    "C06_refuted"
   ],
   "note": "exact behaviour proved (amount read in base ten); property refuted at every width >= 4"
  },
  {
   "property": "C07",
   "status": "partial",
   "theorems": [
    "C07_concat",
    "C07_extract",
    "C07_zero_extend",
    "C07_sign_extend",
    "C07_repeat",
    "C07_extract_far",
    "C07_extract_refuted"
   ],
   "note": "concat, extract in range, zero/sign extend, repeat proved; out-of-range extract rejected only from w+2 up, refuted at i = w"
  },
  {
   "property": "C08",
   "status": "partial",
   "theorems": [
    "C08_rotate_partial",
    "C08_rotate_refuted"
   ],
   "note": "correct for amounts up to the width; every larger rotate_left throws"
  },
  {
   "property": "C09",
   "status": "proved",
   "theorems": [
    "C09_comparison"
   ],
   "note": "all ten comparisons, all widths"
  },
  {
   "property": "C10",
   "status": "partial",
   "theorems": [
    "C10_bv_to_nat",
    "C10_bv_to_int",
    "C10_int_to_bv",
    "C10_nat_to_bv",
    "C10_nat_round_trip",
    "C10_int_round_trip",
    "C10_nat_negative_refuted"
   ],
   "note": "bv2nat, bv2int, int2bv, nat2bv of naturals and both round trips proved; nat2bv of a negative integer refuted"
  },
  {
   "property": "C11",
   "status": "partial",
   "theorems": [
    "C11_hex",
    "C11_width_refuted"
   ],
   "note": "hex digits proved for every literal; requested width ignored for hexadecimal numerals (refuted)"
  },
  {
   "property": "C12",
   "status": "partial",
   "theorems": [
    "C12_isInt_exact",
    "C12_isReal_exact",
    "C12_isBV_exact",
    "C12_scientific_accepts",
    "C12_int_converts_iff",
    "C12_int_value",
    "C12_decimal_round_trip",
    "C12_refuted",
    "C12_scientific_refuted",
    "C12_string_literal"
   ],
   "note": "exact languages of isInt, isReal, isBV proved, decimal round trip proved; the property itself is refuted by '-', '+5', '.', and trailing garbage in scientific notation"
  },
  {
   "property": "C13",
   "status": "partial",
   "theorems": [
    "C13_pow",
    "C13_gcd",
    "C13_lcm",
    "C13_factorial",
    "C13_parity",
    "C13_prime",
    "C13_refuted"
   ],
   "note": "gcd, lcm up to sign, pow for non-negative exponents, factorial, parity, primality proved with termination; signs, lcm(0,0) and negative exponents refuted"
  },
  {
   "property": "C14",
   "status": "partial",
   "theorems": [
    "C14_substr",
    "C14_prefix_suffix_contains",
    "C14_indexof",
    "C14_at",
    "C14_update",
    "C14_replace",
    "C14_replace_all",
    "C14_case_reverse",
    "C14_index_refuted",
    "C14_substr_refuted",
    "C14_replace_all_refuted"
   ],
   "note": "every operation proved against SMT-LIB for in-range arguments; out-of-range indices throw, empty pattern in replace_all never ends (refuted)"
  },
  {
   "property": "C15",
   "status": "partial",
   "theorems": [
    "C15_round_trip_exact",
    "C15_round_trip_iff",
    "C15_quotes_escaped",
    "C15_refuted"
   ],
   "note": "exact result of unescape(escape s) for every string; identity iff all characters are printable or have a letter escape"
  },
  {
   "property": "C16",
   "status": "partial",
   "theorems": [
    "C16_negation_complements",
    "C16_negation_involutive",
    "C16_negation_domain",
    "C16_negation_fp_iff",
    "C16_flip_swaps",
    "C16_flip_slt_iff",
    "C16_flip_refuted",
    "C16_nary_refuted"
   ],
   "note": "negation and flip proved for all arithmetic, bit-vector, string comparisons; floating point exactly when no NaN; bvslt flip and n-ary = refuted"
  },
  {
   "property": "C17",
   "status": "proved",
   "theorems": [
    "C17_history",
    "C17_same_iff",
    "C17_pointer_is_tree"
   ],
   "note": "every sequence of node creations, arbitrary hash function"
  },
  {
   "property": "C18",
   "status": "partial",
   "theorems": [
    "C18_history",
    "C18_bv_width",
    "C18_fp_width",
    "C18_stable",
    "C18_objects_fixed",
    "C18_eq_defined",
    "C18_eq_fp",
    "C18_eq_refuted",
    "C18_array_refuted"
   ],
   "note": "manager histories proved for bit-vector, FP and stability; operator== is not transitive and array sorts can be confused (refuted)"
  },
  {
   "property": "C19",
   "status": "partial",
   "theorems": [
    "C19_and",
    "C19_or",
    "C19_xor",
    "C19_implies",
    "C19_ite",
    "C19_not_partial",
    "C19_not_nary_refuted"
   ],
   "note": "mkAnd, mkOr, mkXor, mkImplies, mkIte proved for every argument list (nodes with an error kind excluded: the code exits on them); mkNot proved for every well-formed term, false for equalities of three or more terms (refuted)"
  },
  {
   "property": "C20",
   "status": "partial",
   "theorems": [
    "C20_eq_partial",
    "C20_eq_nary_partial",
    "C20_eq_nary_true_refuted",
    "C20_distinct_partial",
    "C20_distinct_not_refuted",
    "C20_distinct_nary_partial",
    "C20_distinct_nary_false_refuted"
   ],
   "note": "proved for every well-formed operand except where the code is wrong: constant true among three or more arguments of =, constant false in distinct, a negation on one side of distinct (all refuted); array operands see C26"
  },
  {
   "property": "C21",
   "status": "partial",
   "theorems": [
    "C21_divreal",
    "C21_divreal_kept",
    "C21_divreal_rounding",
    "C21_divreal_refuted",
    "C21_fold_partial",
    "C21_oper_partial",
    "C21_implies3_refuted",
    "C21_mod_refuted",
    "C21_div_refuted",
    "C21_mod_negative",
    "C21_bvcomp_refuted",
    "C21_strlen_refuted",
    "C21_strlt_refuted",
    "C21_is_int_refuted",
    "C21_array_eq_refuted",
    "C21_max_bool_ub"
   ],
   "note": "proved for every operator in fold_dom and for (/ a b) of integers with an exact quotient (C21_divreal: right exactly when it fits in 32 bits; C21_divreal_kept: otherwise kept); missing: Real literals in arithmetic (128-bit rounding, see C40), transcendental functions, floating point; the operators folded wrongly are refuted one by one"
  },
  {
   "property": "C22",
   "status": "partial",
   "theorems": [
    "C22_nnf_partial",
    "C22_nnf_set_partial",
    "C22_nary_implies_refuted"
   ],
   "note": "proved for every formula of not, and, or, binary implication and ite over well-formed atoms; an implication with three arguments loses its third argument (refuted)"
  },
  {
   "property": "C23",
   "status": "partial",
   "theorems": [
    "C23_cnf_partial",
    "C23_cnf_set_partial",
    "C23_implies_refuted",
    "C23_not_refuted",
    "C23_atoms_refuted",
    "C23_shared_refuted"
   ],
   "note": "proved for formulas over Boolean variables and theory atoms (comparisons and equalities of arithmetic terms, other Boolean-sorted atoms that are no string comparisons): not/and/or/implies/ite of any polarity, xor/Boolean equality/distinctness of positive polarity (result is in CNF and, with the table of new variables, a conservative extension; single formula and list of assertions, including the naming and replacement of atoms and termination of the flattening loop); implications and negations left below xor, string atoms and array reads are handled wrongly, and an atom may survive its replacement (refuted)"
  },
  {
   "property": "C24",
   "status": "partial",
   "theorems": [
    "C24_eliminate_partial",
    "C24_shape_partial",
    "C24_meaning_partial",
    "C24_set_shape_partial",
    "C24_set_meaning_partial",
    "C24_meaning_refuted",
    "C24_shape_refuted",
    "C24_shared_refuted"
   ],
   "note": "Formulas over not, and, or, =>, ite, xor, =, distinct on Boolean variables in which no rewritten connective occurs twice: the result always has no disjunction below a conjunction or disjunction; its meaning is that of the input when conjunctions and disjunctions have at most two arguments and equalities at most three; same for a list. Refuted: with three conjuncts the meaning may change (a collapsed distribution is taken for a disjunction), nested conjunctions stay nested, a xor occurring twice ends the process."
  },
  {
   "property": "C25",
   "status": "partial",
   "theorems": [
    "C25_all_partial",
    "C25_only_keys",
    "C25_no_key",
    "C25_atoms_partial",
    "C25_atoms_only_keys",
    "C25_shared_refuted"
   ],
   "note": "nothing but keys is replaced (proved for every term); every key is replaced when no key occurs twice (proved); a second occurrence in a shared subterm is missed (refuted)"
  },
  {
   "property": "C26",
   "status": "partial",
   "theorems": [
    "C26_select_separated_partial",
    "C26_select_of_store",
    "C26_select_of_base",
    "C26_store_separated_partial",
    "C26_equality_separated_partial",
    "C26_numeral_indices_apart",
    "C26_select_numerals",
    "C26_store_numerals",
    "C26_select_refuted",
    "C26_store_refuted",
    "C26_equality_refuted",
    "C26_inequality_refuted",
    "C26_equality_terminates_refuted"
   ],
   "note": "Reading and writing proved right for separated indices (different index terms have different values), in particular numerals; refuted for indices that may alias (select skips such stores, chains are reordered, equality folded both ways wrongly)."
  },
  {
   "property": "C27",
   "status": "partial",
   "theorems": [
    "C27_value_partial",
    "C27_traversal",
    "C27_bound_refuted",
    "C27_let_refuted"
   ],
   "note": "Value under the updated assignment proved for every well-sorted Bool/Int/Real/bit-vector term (connectives, ite, =, distinct, comparisons, + - *, the bit-vector operators not neg and or xor nand nor xnor add mul concat bv2nat and the eight comparisons, uninterpreted functions) without kept let variables; the stack-based traversal equals the recursion for every term. Refuted: bound variables are replaced; definitions inside kept let variables are not substituted."
  },
  {
   "property": "C28",
   "status": "partial",
   "theorems": [
    "C28_value_partial",
    "C28_arity",
    "C28_kept",
    "C28_ends",
    "C28_global_refuted",
    "C28_recursive_callee_refuted"
   ],
   "note": "Value of the expansion proved for bodies of the well-sorted fragment (with bit-vectors) whose variables are the parameters; arity errors and kept applications for every function; termination of nested expansion. Refuted: a body with a global constant terminates the program; calls of recursive functions are rebuilt with a wrong argument list."
  },
  {
   "property": "C29",
   "status": "proved",
   "theorems": [
    "C29_has_kind",
    "C29_walk",
    "C29_parent_first",
    "C29_several"
   ],
   "note": "Every term, every sequence of walks of one visitor object."
  },
  {
   "property": "C30",
   "status": "proved",
   "theorems": [
    "C30_any_rules",
    "C30_default_value",
    "C30_default_normal",
    "C30_default_fixed",
    "C30_calls",
    "C30_no_rules_refuted",
    "C30_stale_refuted",
    "C30_zero_refuted"
   ],
   "note": "Any rules of the user that keep the value (fixpoint or not, any bound); the default rules on typed terms; normal form, termination and idempotence of the default rules on every term. Outside the statement and refuted: without rules the result is null (and is dereferenced below a parent); rules added later are not applied to nodes already in the memo; 0.0 + x changes the sort."
  },
  {
   "property": "C31",
   "status": "partial",
   "theorems": [
    "C31_terminates",
    "C31_tokens_in_order",
    "C31_symbol_in_order",
    "C31_spec_deterministic",
    "C31_smtlib_tokens_partial",
    "C31_rescanned_tokens_partial",
    "C31_plain_is_standard",
    "C31_skip_to_rpar",
    "C31_comment_refuted",
    "C31_scientific_refuted",
    "C31_quoted_refuted"
   ],
   "note": "for every text reading ends without undefined behaviour and returns consecutive pieces of the text in order; exactly the SMT-LIB tokens when every bare word is followed by white space, a parenthesis or the end and none looks like scientific notation; skipToRpar proved for every lexically correct text; comments or strings right after a word and words such as -exp are split wrongly (refuted)"
  },
  {
   "property": "C32",
   "status": "partial",
   "theorems": [
    "C32_round_trip_partial",
    "C32_printing_ends",
    "C32_integer",
    "C32_bit_vector",
    "C32_string",
    "C32_let_refuted",
    "C32_float_refuted",
    "C32_quote_refuted",
    "C32_normal_refuted",
    "C32_missing_child"
   ],
   "note": "Printing ends for every node. For every term of PrintSpec.rt (declared or bound names with a legal spelling, numerals of either sign, bit-vectors, plain strings, named constants, every operator node that is what its own constructor returns for its children, indexed operators, function applications, quantifiers over the basic sorts) the printed text is read back as the same node, without touching the declarations. Refuted: lets get another identity, Float32 variables another sort, doubled quotes are escaped, nodes built unnormalised come back normalised. Not covered: floating-point and array constants, root objects."
  },
  {
   "property": "C33",
   "status": "partial",
   "theorems": [
    "C33_word_constants",
    "C33_fp_values",
    "C33_mkExpr_partial",
    "C33_consumes_partial",
    "C33_numeral",
    "C33_binary",
    "C33_hex",
    "C33_string",
    "C33_decimal"
   ],
   "note": "Proved for every expression of the syntax sx (atoms, operators, indexed operators, (_ bvN w), (fp s e m), the special floating-point numbers, ((as const S) e), let, forall/exists over basic, declared, bit-vector, floating-point and nested array sorts, any nesting) under the scoping discipline, with the constructors as modelled in OpModel; root objects, algebraic numbers, as-array and annotations are in the model but not in the theorem."
  },
  {
   "property": "C34",
   "status": "partial",
   "theorems": [
    "C34_let_partial",
    "C34_variable_value",
    "C34_rebound_refuted",
    "C34_leak_refuted",
    "C34_sequential_refuted",
    "C34_shadow_refuted"
   ],
   "note": "Parallel binding proved when names are not reused; refuted otherwise (rebinding, leaking, sequential binding, shadowing ends the program)."
  },
  {
   "property": "C35",
   "status": "partial",
   "theorems": [
    "C35_quant_partial",
    "C35_variables",
    "C35_rebind_refuted"
   ],
   "note": "Proved when no name is rebound; refuted for nested quantifiers over one name and for names of lets and functions."
  },
  {
   "property": "C36",
   "status": "partial",
   "theorems": [
    "C36_script_partial",
    "C36_file_partial",
    "C36_new_parser",
    "C36_order",
    "C36_only_asserts",
    "C36_two_texts_partial",
    "C36_exit_partial",
    "C36_pop_refuted",
    "C36_assuming_refuted",
    "C36_named_refuted",
    "C36_define_declared_refuted"
   ],
   "note": "Proved for every script of the listed commands (assert in all four forms, assert-soft, objectives, declarations, definitions, logic, ignored commands) in any order and number, from text or file; text behind (exit) is not read; several texts are one script. Refuted: push/pop/reset are ignored, check-sat-assuming ends the program, :named behind the formula is lost, defining a declared function ends the program. define-funs-rec, parametric define-sort and check-sat-assuming are modelled but not in the theorem."
  },
  {
   "property": "C37",
   "status": "partial",
   "theorems": [
    "C37_sat_partial",
    "C37_unsat_iff_partial",
    "C37_unsat",
    "C37_unsat_sound",
    "C37_sat_sound_partial",
    "C37_pure",
    "C37_stale_refuted",
    "C37_uninitialised_refuted"
   ],
   "note": "UNSAT only with a false assertion, for every history; exact conditions for SAT and UNSAT when no verdict is stored. Refuted: a stored SAT survives later assertions; the stored verdict is not initialised."
  },
  {
   "property": "C38",
   "status": "partial",
   "theorems": [
    "C38_mod_const_partial",
    "C38_mod_partial",
    "C38_mod_refuted",
    "C38_increment_partial",
    "C38_decrement_partial",
    "C38_isEmpty",
    "C38_contains",
    "C38_isSubsetOf",
    "C38_isSubsetEqOf",
    "C38_isSupersetOf_partial",
    "C38_isIntersectingWith",
    "C38_isDisjointFrom_partial",
    "C38_intersection",
    "C38_union_partial",
    "C38_difference_partial",
    "C38_unionMulti_partial",
    "C38_less",
    "C38_less_equal",
    "C38_less_empty",
    "C38_neg",
    "C38_add_partial",
    "C38_sub_partial",
    "C38_whole_exact",
    "C38_add_const_partial",
    "C38_mul_const_partial",
    "C38_div_const_partial",
    "C38_mul_partial",
    "C38_mul_int",
    "C38_div_partial",
    "C38_abs_partial",
    "C38_getIntegers_partial",
    "C38_intCount_partial",
    "C38_empty_refuted",
    "C38_difference_refuted",
    "C38_mul_refuted",
    "C38_abs_refuted",
    "C38_div_refuted",
    "C38_integers_refuted",
    "C38_rounding_refuted",
    "C38_divInt_mod_refuted",
    "C38_assign_refuted",
    "C38_mul_zero_partial",
    "C38_mul_zero_refuted"
   ],
   "note": "Every interval without NaN whose bounds are INT/infinite of any size, or all within 128 bits: isEmpty, contains, isSubsetOf, isSubsetEqOf, isIntersectingWith, intersection, <, >, negation exact; isDisjointFrom, isSupersetOf, unionWith, union of many, difference exact under stated conditions (non-empty arguments; difference not inside) and refuted outside them; + - and multiplication/division by a constant exactly the set of results when the bounds are computed without rounding (always for INT), * and / for closed finite intervals (any INT bounds), abs, getIntegers, IntCount for closed intervals. Refuted: empty arguments, difference with b inside a, squaring around 0, open ends in products and quotients, rounding of REAL bounds, integer division, modulo with an open or negative lower end (proved for non-negative intervals with INT bounds). Elementary functions: C70; operate: C92. Not modelled: atan2."
  },
  {
   "property": "C39",
   "status": "partial",
   "theorems": [
    "C39_xor_partial",
    "C39_total_partial",
    "C39_total_env_partial",
    "C39_sound_partial",
    "C39_empty",
    "C39_div_refuted",
    "C39_div_negative_refuted",
    "C39_concat_refuted",
    "C39_concat_drop_refuted",
    "C39_implies_refuted",
    "C39_bv2int_refuted",
    "C39_int2bv_refuted",
    "C39_unevaluated_refuted",
    "C39_read",
    "C39_write"
   ],
   "note": "Total assignments: every well-sorted Boolean, integer and bit-vector term over the operators of esig evaluates to a constant, its value. Partial assignments: the value is kept on Boolean/arithmetic terms over psig, the term itself is returned when no change is reported; an empty model changes nothing. Refuted: div, concat, ternary implication, int2bv/bv2int, extract and function application. evaluateLet and floating point are not modelled."
  },
  {
   "property": "C40",
   "status": "partial",
   "theorems": [
    "C40_mod_zero",
    "C40_mod_truncated",
    "C40_mod_real_refuted",
    "C40_mod_real_dividend_refuted",
    "C40_add",
    "C40_sub",
    "C40_mul",
    "C40_div",
    "C40_div_by_zero",
    "C40_order",
    "C40_floor",
    "C40_ceil",
    "C40_round",
    "C40_abs_neg",
    "C40_assign_partial",
    "C40_assign_refuted",
    "C40_mod_partial",
    "C40_mod_refuted",
    "C40_order_refuted"
   ],
   "note": "All operations on all finite numbers: + - * / exact on INT (when the quotient is integral), otherwise the nearest 128-bit real with relative error at most 2^-128; comparisons agree with the order of the rationals within 128 bits, floor, ceil, round, abs, negation exact for all; REAL op= agrees with op. Refuted: INT op= REAL is lost, /= truncates, % is truncated, comparison is not transitive beyond 128 bits and wrong for NaN. Simplified: no signed zero, unbounded exponents."
  },
  {
   "property": "C41",
   "status": "partial",
   "theorems": [
    "C41_meaning_partial",
    "C41_shape_partial",
    "C41_comparison_partial",
    "C41_nary_equality_refuted",
    "C41_nary_equality_debug",
    "C41_parameter_refuted",
    "C41_idempotent_refuted"
   ],
   "note": "Meaning and shape proved for every Boolean term whose comparisons have two arguments of the well-sorted arithmetic fragment (no Real literals), exact result for inequalities; refuted: (= x y z) loses its third argument, parameters of functions are not normalised, the operation is not idempotent."
  },
  {
   "property": "C42",
   "status": "partial",
   "theorems": [
    "C42_negate_partial",
    "C42_negate_fp_partial",
    "C42_negate_nan_refuted",
    "C42_flip_meaning",
    "C42_flip_refuted",
    "C42_flip_eq"
   ],
   "note": "negation proved for every comparison of well-formed terms, for floating point when no operand is NaN (refuted otherwise); flipComp keeps the kind and swaps the sides, so it is refuted for <, <=, >, >="
  },
  {
   "property": "C43",
   "status": "partial",
   "theorems": [
    "C43_split_partial",
    "C43_binarize_partial",
    "C43_split_nary_refuted",
    "C43_binarize_shared_refuted"
   ],
   "note": "splitting (with valid lemmas) and binarising proved equivalent for every Boolean formula over numeric comparisons of two terms resp. n-ary comparisons; splitting an n-ary distinct drops arguments (refuted), binarising misses shared subterms (refuted)"
  },
  {
   "property": "C44",
   "status": "partial",
   "theorems": [
    "C44_script",
    "C44_flag",
    "C44_history",
    "C44_table",
    "C44_bool",
    "C44_precision",
    "C44_literal_refuted",
    "C44_unknown_refuted",
    "C44_bad_precision_refuted",
    "C44_script_refuted",
    "C44_no_logic_refuted",
    "C44_logic"
   ],
   "note": "Every flag and the precision over every sequence of calls proved; the logic accepted exactly for the listed names. Refuted: string literals select the bool overload, unknown keys are accepted, a bad precision is stored before the exception, set-option in scripts is ignored. C44_script: what a script of the modelled commands does to the options."
  },
  {
   "property": "C45",
   "status": "proved",
   "theorems": [
    "C45_history",
    "C45_names",
    "C45_unknown_name_refuted"
   ],
   "note": "Every history of add, add by name, addVar, clear, clearValues. Refuted outside the precondition: add by an unknown name overwrites the first variable or writes outside the vector. The text form (getModel parsing) is not modelled."
  },
  {
   "property": "C46",
   "status": "partial",
   "theorems": [
    "C46_soft_partial",
    "C46_once",
    "C46_objective_partial",
    "C46_objectives_once",
    "C46_order_soft",
    "C46_order_objective",
    "C46_order_texts_partial",
    "C46_operators",
    "C46_attributes_refuted",
    "C46_multi_refuted"
   ],
   "note": "Each assert-soft and maximize/minimize recorded once, in order, with term, weight/comparison and group; attribute order irrelevant; operators negComp/flipOp/strictOp right. Refuted: :epsilon and :M values dropped, unknown :comp taken for <, trailing :id of lex-optimize lost, optimize records nothing."
  },
  {
   "property": "C47",
   "status": "partial",
   "theorems": [
    "C47_sort_expression_partial",
    "C47_sort_names_partial",
    "C47_lookup_partial",
    "C47_undeclared",
    "C47_function_hides_refuted",
    "C47_undeclared_refuted",
    "C47_sort_cache_refuted",
    "C47_redeclare_refuted",
    "C47_sort_name_refuted",
    "C47_parameter_refuted"
   ],
   "note": "Lookup proved, declarations in scripts proved (C36), sort expressions with nested array sorts proved when the printed names of index and element sorts are free of separators; refuted: functions hide quantified variables and parameters, redeclaration keeps the old sort, sort names collide with the cache, names accepted after root-obj, array sort cache."
  },
  {
   "property": "C48",
   "status": "partial",
   "theorems": [
    "C48_terminates_partial",
    "C48_ub_refuted",
    "C48_script_terminates_partial",
    "C48_empty_refuted"
   ],
   "note": "Termination of expression and script parsing on every text proved (relative to the constructors and function application); freedom from undefined behaviour refuted (texts that end early, missing arguments, empty let, empty text)."
  },
  {
   "property": "C49",
   "status": "partial",
   "theorems": [
    "C49_name_round_trip",
    "C49_table_reachable",
    "C49_refuted"
   ],
   "note": "round trip proved for all table entries but a listed set of exceptions, which are refuted"
  },
  {
   "property": "C50",
   "status": "partial",
   "theorems": [
    "C50_add_partial",
    "C50_mul_partial",
    "C50_mul_refuted",
    "C50_sub_partial",
    "C50_compare_partial"
   ],
   "note": "sum, product, difference and n-ary comparison proved for terms without Real literals in logics with an arithmetic theory; the product is refuted when the logic has no arithmetic theory"
  },
  {
   "property": "C51",
   "status": "partial",
   "theorems": [
    "C51_fp_chain",
    "C51_log",
    "C51_well_sorted_application_partial",
    "C51_extension_sort_refuted",
    "C51_accepted_refuted",
    "C51_fma_assertion_refuted",
    "C51_folded_sort_refuted"
   ],
   "note": "Every SMT-LIB signature of CtorSpec.rank (Ints, Reals, bit-vectors, floating point, strings, regular expressions), for applications that constant folding leaves alone. Refuted: the sort of zero_extend and sign_extend, to_fp_unsigned, (_ re.^ n), nat2bv, bvumod, coth, gcd and the like on non-literals, fp.fma with assertions, the sorts of folded to_int and bvcomp."
  },
  {
   "property": "C52",
   "status": "partial",
   "theorems": [
    "C52_fp_rounding_rejected",
    "C52_log_rejected",
    "C52_ill_sorted_rejected_partial",
    "C52_rejected_refuted",
    "C52_width_mismatch_refuted"
   ],
   "note": "Every signature, every position, any argument of a foreign family of sorts. Refuted: widths are never compared, bvneg, div, abs and the rounding mode of fp.sqrt are not tested, all-constant arguments of n-ary operators are not tested."
  },
  {
   "property": "C53",
   "status": "partial",
   "theorems": [
    "C53_arity_checked_partial",
    "C53_surplus_dropped_refuted",
    "C53_missing_refuted"
   ],
   "note": "With assertions compiled in no node is built. Refuted for release builds: surplus arguments are dropped, missing ones read out of bounds (both for every argument list)."
  },
  {
   "property": "C54",
   "status": "partial",
   "theorems": [
    "C54_round_trip_partial",
    "C54_no_logic_refuted",
    "C54_soft_refuted",
    "C54_let_refuted"
   ],
   "note": "Every parser state whose declarations and assertions come back when printed (PrintSpec.rt, basic, bit-vector, floating-point, declared and array sorts), for every traversal order, in a new parser with the same evaluation options. Refuted: with no logic set the script is rejected; soft assertions, objectives, names and groups are not written; lets may be renumbered. Not covered: temporary variables."
  },
  {
   "property": "C55",
   "status": "proved",
   "theorems": [
    "C55_table",
    "C55_count",
    "C55_dump_refuted"
   ],
   "note": "Every name list and table. That a dumped script stays readable after a removal is refuted."
  },
  {
   "property": "C56",
   "status": "partial",
   "theorems": [
    "C56_vars_partial",
    "C56_vars_any",
    "C56_decide_partial",
    "C56_assignable",
    "C56_let_refuted",
    "C56_bound_refuted"
   ],
   "note": "Every list of expressions; exact set and independence of the value for expressions without let-bound variables (C56_vars_any gives the exact set for all). Refuted: a kept let hides the variables of its bindings; a quantifier's bound variable is collected."
  },
  {
   "property": "C57",
   "status": "partial",
   "theorems": [
    "C57_atoms_partial",
    "C57_decide_partial",
    "C57_ground_partial",
    "C57_bool_var_refuted"
   ],
   "note": "Exact set of outermost atoms and dependence for expressions on which the atom test is defined; ground atoms for the formulas of C22. Refuted: Boolean variables are not collected."
  },
  {
   "property": "C58",
   "status": "proved",
   "theorems": [
    "C58_isUnit",
    "C58_getUnitVar",
    "C58_isUnitAtom",
    "C58_null",
    "C58_decide"
   ],
   "note": "Every expression; null pointers included."
  },
  {
   "property": "C59",
   "status": "partial",
   "theorems": [
    "C59_count_partial",
    "C59_count_exists",
    "C59_group_refuted"
   ],
   "note": "Every context whose objectives have a term. Refuted: a group of objectives adds the null node to the count."
  },
  {
   "property": "C60",
   "status": "partial",
   "theorems": [
    "C60_value_partial",
    "C60_other",
    "C60_traversal",
    "C60_uf_refuted",
    "C60_nested_refuted"
   ],
   "note": "Every kept let of the well-sorted fragment (with bit-vectors) without let variables under uninterpreted functions. Refuted: an uninterpreted application over a let variable loses its function name; a let nested in the body stays."
  },
  {
   "property": "C61",
   "status": "partial",
   "theorems": [
    "C61_reads_partial",
    "C61_function_refuted",
    "C61_bare_refuted",
    "C61_empty_text",
    "C61_new_empty",
    "C61_quoted_refuted",
    "C61_sort_refuted",
    "C61_parenthesised_name"
   ],
   "note": "Every text of entries with basic, bit-vector, floating-point, declared and array sorts, values as in C33, names other than those starting with a parenthesis. Refuted: a definition of a function the script declares ends the program; a text without the outer parenthesis gives nothing; |x| is not x; values are not sort-checked."
  },
  {
   "property": "C62",
   "status": "partial",
   "theorems": [
    "C62_table_partial",
    "C62_explained",
    "C62_bool_atom",
    "C62_atom_bool_partial",
    "C62_atoms_partial",
    "C62_vars_partial",
    "C62_lists_refuted",
    "C62_shared_refuted"
   ],
   "note": "Lookups for the formulas of C23 (meaning) and for any conversions that return (shape of the tables). Refuted: getCNFAtoms and getCNFBoolVars miss entries when a negated variable is iterated first; an atom whose complement also occurs is looked up as the negation of the other variable."
  },
  {
   "property": "C63",
   "status": "partial",
   "theorems": [
    "C63_folding_refuted",
    "C63_meaning_partial",
    "C63_structures",
    "C63_equivalence_partial"
   ],
   "note": "Boolean, integer, real and bit-vector expressions without decimals, quantifiers and real division; binary = and distinct and comparisons; bit-vector literals #b, #x, (_ bvN w) and the operators bvnot bvneg bvand bvor bvxor bvnand bvnor bvxnor bvadd bvmul concat bv2nat and the eight comparisons (subtraction, division and shifts are refuted in C03 to C06); applications of defined functions in scripts (C64); in a logic without reals (or none set); no let variable bound twice inside one outermost let. Refuted outside this language: folding of mod, div, bvsub, shifts on constants, comparison chains."
  },
  {
   "property": "C64",
   "status": "partial",
   "theorems": [
    "C64_chain_refuted",
    "C64_not_equal_refuted",
    "C64_folding_refuted",
    "C64_folding_sat_refuted",
    "C64_assertions_partial",
    "C64_satisfiable_partial",
    "C64_check_sound_partial",
    "C64_file_partial",
    "C64_incremental_partial",
    "C64_library_partial"
   ],
   "note": "Scripts of assert, named assert, declare-const, declare-fun (Bool, Int, Real, bit-vectors of width below 2^31), define-fun (the body over its parameters and functions; a body naming a declared constant is refuted in C28; a defined function without parameters is accepted but outside the expressions), set-logic (a logic without reals; arithmetic only if it has integers), check-sat, get-model, set-info, set-option over the expressions of C63. Refuted outside this language, for script texts: checkSat answers UNSAT on true statements about mod, div, bvsub and shifts of constants, and SAT on a false one; a chain of comparisons loses its tail; the negation of a three-fold equality is recorded as distinct."
  },
  {
   "property": "C65",
   "status": "partial",
   "theorems": [
    "C65_interval_arith",
    "C65_arith_mixed",
    "C65_contents",
    "C65_order_partial",
    "C65_mixed",
    "C65_arith",
    "C65_div",
    "C65_unary",
    "C65_step",
    "C65_bool",
    "C65_convert",
    "C65_refuted"
   ],
   "note": "Order: strings, booleans and numbers of at most 128 bits. C65_refuted: a value without contents is not equal to itself, two overlapping intervals are each greater than the other, bitwise operations always throw and ~ negates an interval, newValue(long) keeps 32 bits, a BOOLEAN value built without a boolean is read uninitialised."
  },
  {
   "property": "C66",
   "status": "partial",
   "theorems": [
    "C66_concat",
    "C66_repeat",
    "C66_sort_partial",
    "C66_substr",
    "C66_replace_partial",
    "C66_reverse",
    "C66_unique",
    "C66_trim_partial",
    "C66_trim_unique",
    "C66_case",
    "C66_types",
    "C66_refuted"
   ],
   "note": "C66_refuted: replacing the empty string never ends, sorting uses signed bytes, trimming is undefined on bytes above 127, the end of the string is not a start position."
  },
  {
   "property": "C67",
   "status": "partial",
   "theorems": [
    "C67_nnf_partial",
    "C67_cnf_partial",
    "C67_satisfiable_partial",
    "C67_bvneg_refuted",
    "C67_bv2nat_refuted",
    "C67_let_refuted"
   ],
   "note": "Scripts of C64; for CNF those without let, xor, Boolean equality, bvneg and bv2nat. Refuted outside: an equality with bvneg or bv2nat, or a let below a connective, makes toCNF end the process."
  },
  {
   "property": "C68",
   "status": "partial",
   "theorems": [
    "C68_script_rejected_partial",
    "C68_file_rejected_partial",
    "C68_expression_rejected_partial",
    "C68_assert_rejected_partial",
    "C68_accepted_refuted"
   ],
   "note": "Errors covered: unknown command, logic, sort, name, operator; argument of a foreign family of sorts (C52); redeclared and redefined functions, double parameters, wrong expressions asserted, optimized or as bodies, text ending after an asserted expression or flag command. Refuted: surplus arguments, parentheses in place of names, repeated set-logic, redeclared constants and sorts are accepted."
  },
  {
   "property": "C69",
   "status": "proved",
   "theorems": [
    "C69_parse_eval",
    "C69_every_model",
    "C69_agree",
    "C69_literal_value",
    "C69_distinct_refuted",
    "C69_concat_refuted",
    "C69_let_refuted"
   ],
   "note": "For the language named in the property. The exceptions are needed: with no constant and the empty model (distinct true true) stays, concat evaluates to a literal of the wrong width, a kept let is not evaluated (C69_*_refuted)."
  },
  {
   "property": "C70",
   "status": "partial",
   "theorems": [
    "C70_pi",
    "C70_acoth_partial",
    "C70_asech_partial",
    "C70_acsch_partial",
    "C70_acsc_partial",
    "C70_domain",
    "C70_acos",
    "C70_recip",
    "C70_open0_refuted",
    "C70_mpfr_exists",
    "C70_everywhere",
    "C70_log",
    "C70_log_none",
    "C70_log_base",
    "C70_asin",
    "C70_acosh",
    "C70_atanh_partial",
    "C70_sqrt_partial",
    "C70_pow_partial",
    "C70_pow_overflow",
    "C70_pow_negative",
    "C70_tight",
    "C70_wide_partial",
    "C70_empty",
    "C70_sqrt_refuted",
    "C70_atanh_refuted",
    "C70_sin_refuted",
    "C70_tan_refuted",
    "C70_acot_coth_refuted",
    "C70_asech_refuted",
    "C70_pow_refuted",
    "C70_pow_inverse_refuted",
    "C70_root_refuted"
   ],
   "note": "Enclosure proved for exp, cosh, sinh, tanh, atan, asinh, pow2, ln, lg, lb, asin, acosh (with the exact domain errors), atanh away from the ends, sqrt with a positive member, pow with natural exponents on integer or infinite bounds, sin and cos of wide intervals; all with MPFR assumed to round correctly (its existence is proved) and an unbounded exponent range. Refuted: sqrt [0,0], atanh (-1,1), sin (0,3), tan [1,2], acot and coth of a point, Number::asech, [-1,1)^2, [3,3]^-1, [1,oo)^(1/2). acoth, acsch, asech, acsc of a closed interval on one side of 0 whose bounds have exactly representable reciprocals, the domain errors of these and of asec, the bounds of acos, cot/sec/csc relative to what is computed for tan/cos/sin. Missing: sin and cos of narrow intervals, asec, sech, csch, log with a base, pow with other exponents, atan2, pow and log with interval arguments."
  },
  {
   "property": "C71",
   "status": "proved",
   "theorems": [
    "C71_remainders"
   ],
   "note": "widths below 2^31 (BVSpec.fits), as everywhere"
  },
  {
   "property": "C72",
   "status": "proved",
   "theorems": [
    "C72_structure"
   ],
   "note": "widths below 2^31"
  },
  {
   "property": "C73",
   "status": "proved",
   "theorems": [
    "C73_conversions"
   ],
   "note": "widths below 2^31"
  },
  {
   "property": "C74",
   "status": "proved",
   "theorems": [
    "C74_naturals"
   ],
   "note": "fuel bounds the iterations of the model's loops; every pair of naturals has enough"
  },
  {
   "property": "C75",
   "status": "proved",
   "theorems": [
    "C75_strings"
   ],
   "note": "strings shorter than the maximal size of std::string"
  },
  {
   "property": "C76",
   "status": "proved",
   "theorems": [
    "C76_connectives"
   ],
   "note": "arguments that are no error nodes (the code exits on those)"
  },
  {
   "property": "C77",
   "status": "proved",
   "theorems": [
    "C77_only_keys"
   ],
   "note": "every term and map"
  },
  {
   "property": "C78",
   "status": "proved",
   "theorems": [
    "C78_reading"
   ],
   "note": "every text, mode and build"
  },
  {
   "property": "C79",
   "status": "proved",
   "theorems": [
    "C79_verdict"
   ],
   "note": "the stored verdict is uninitialised in a new parser; the claim excludes that it happens to be UNSAT (C37_uninitialised_refuted)"
  },
  {
   "property": "C80",
   "status": "proved",
   "theorems": [
    "C80_options"
   ],
   "note": "every sequence of calls"
  },
  {
   "property": "C81",
   "status": "proved",
   "theorems": [
    "C81_recording"
   ],
   "note": "the effect of the commands is CommandSpec.steps; C36_script_partial says that parsing a text has it"
  },
  {
   "property": "C82",
   "status": "proved",
   "theorems": [
    "C82_intervals"
   ],
   "note": "numbers without NaN; see C38 for the bounds"
  },
  {
   "property": "C83",
   "status": "proved",
   "theorems": [
    "C83_rounding"
   ],
   "note": "every finite number"
  },
  {
   "property": "C84",
   "status": "proved",
   "theorems": [
    "C84_arrays"
   ],
   "note": "integer index sort"
  },
  {
   "property": "C85",
   "status": "proved",
   "theorems": [
    "C85_sorts"
   ],
   "note": "every hash function"
  },
  {
   "property": "C86",
   "status": "proved",
   "theorems": [
    "C86_value"
   ],
   "note": ""
  },
  {
   "property": "C87",
   "status": "proved",
   "theorems": [
    "C87_string_values"
   ],
   "note": "bytes; counts in the range of int"
  },
  {
   "property": "C88",
   "status": "proved",
   "theorems": [
    "C88_history",
    "C88_same_name",
    "C88_temporary_fresh"
   ],
   "note": "every history of calls shorter than 2^64, every hash function; other constructors make no node of kind variable or temporary variable"
  },
  {
   "property": "C89",
   "status": "partial",
   "theorems": [
    "C89_rename_partial",
    "C89_rename_refuted",
    "C89_rename_clash_refuted",
    "C89_rename_quantified_refuted",
    "C89_temporary_name_refuted",
    "C89_declareVar_refuted"
   ],
   "note": "Renaming a declared variable to an unused name: found under the new name, others untouched. Refuted: the old name stays declared and getDeclaredVariables lists the variable twice; renaming to a used name merges two variables; renaming a quantified variable binds both names to the NULL node; a declared variable may have a temporary variable's name; declareVar(name, \"Int\") dereferences null."
  },
  {
   "property": "C90",
   "status": "partial",
   "theorems": [
    "C90_arity_partial",
    "C90_children_partial",
    "C90_chain_refuted",
    "C90_to_fp_refuted"
   ],
   "note": "getArity against the signatures of CtorSpec and against the children of the nodes built. Refuted: a comparison with three arguments is chainable in SMT-LIB, but has arity 2 here and the third argument is dropped; to_fp without rounding mode has 3 children, getArity says 4."
  },
  {
   "property": "C91",
   "status": "partial",
   "theorems": [
    "C91_single_partial",
    "C91_multi_partial",
    "C91_kinds",
    "C91_optkind",
    "C91_comp_for_term",
    "C91_equality",
    "C91_default_comp_refuted",
    "C91_default_comp_partial",
    "C91_self_refuted",
    "C91_unknown_member_refuted"
   ],
   "note": "Objectives of maximize, minimize, define-objective and the multi-objective commands. Refuted: the default comparison follows the name of the logic, so a bit-vector objective in QF_UFBV or without a logic is compared with <; getObjective(0) of a single objective is the first one ever asked; an unknown name gives a null member. Values of epsilon and M are not kept (C46)."
  },
  {
   "property": "C92",
   "status": "partial",
   "theorems": [
    "C92_unary_partial",
    "C92_neg_abs_partial",
    "C92_empty",
    "C92_unsupported",
    "C92_and",
    "C92_or_partial",
    "C92_or_refuted",
    "C92_add_sub_partial",
    "C92_mul_partial",
    "C92_pow_partial",
    "C92_pow_refuted",
    "C92_atan2_box_partial",
    "C92_atan2_operate",
    "C92_atan2_full_refuted",
    "C92_pow_box_partial",
    "C92_pow_box_refuted",
    "C92_atan2_axis_partial",
    "C92_angle",
    "C92_atan2_exists",
    "C92_atan2_number_partial",
    "C92_atan2_number_refuted",
    "C92_pow_infinite_partial",
    "C92_pow_infinite_refuted"
   ],
   "note": "The elementary functions with a proved enclosure in C70; / div mod are those of C38. Powers with an interval as exponent: a base between positive integers, exponents between two non-negative integers (open ends: C92_pow_box_refuted). atan2: boxes in one quadrant, infinite bounds included, and boxes that meet an axis (the result is given exactly; it misses angles above the rounded half turn). An infinite exponent: bases between integers above 1, between 0 and 1, or from below 0. Missing: a box that touches an axis without crossing it. Refuted: an infinite power leaves out its limit 0; or of disjoint intervals is an open interval that loses end points and contains other numbers; a negative base gives an interval without members; atan2 of [-1,0] and -1 loses angles next to -pi; the interval for all angles ends below pi (its 128 bits are computed), so it misses the angle of the negative half axis."
  },
  {
   "property": "C93",
   "status": "partial",
   "theorems": [
    "C93_fold",
    "C93_concat_fold",
    "C93_evaluate",
    "C93_len_refuted",
    "C93_is_digit_refuted",
    "C93_to_int_refuted",
    "C93_to_code_refuted",
    "C93_from_int_refuted",
    "C93_concat_refuted",
    "C93_bounds_refuted"
   ],
   "note": "Proved for strings without characters that need an escape, lengths a std::string can hold, replace_all with a non-empty pattern, at/update inside the string, non-negative indices. Concatenation: folding only. Refuted: str.len counts the quotes; str.is_digit is never true; str.to_int and str.to_code of a constant end the program; str.from_int yields a constant without quotes; evaluating str.++ of variables writes the first value twice; negative or too large positions raise an exception instead of giving the empty string."
  },
  {
   "property": "C94",
   "status": "partial",
   "theorems": [
    "C94_equal",
    "C94_point",
    "C94_set_lower",
    "C94_set_upper",
    "C94_width",
    "C94_midpoint",
    "C94_midpoint_int",
    "C94_empty_refuted"
   ],
   "note": "Proved for intervals without NaN whose bounds are INT or infinite, or within 128 bits (midpoint: bounds a 128-bit real holds exactly; width: INT bounds). Refuted for empty intervals: they are not all equal."
  },
  {
   "property": "C95",
   "status": "partial",
   "theorems": [
    "C95_check_partial",
    "C95_satisfies_partial",
    "C95_left_out_refuted"
   ],
   "note": "Proved for the scripts of C64 (Booleans, integers, reals without a logic of reals, bit-vectors) whose assertions use no let, no function with parameters, no concat and no distinct of Booleans, and whose names are not spelled like numerals; model texts with the words true/false, numerals, (- n), #b, #x and (_ bvN w). Refuted: a value given for |x| does not reach x."
  },
  {
   "property": "C96",
   "status": "partial",
   "theorems": [
    "C96_decimal",
    "C96_integer",
    "C96_power_of_ten",
    "C96_tiny_refuted",
    "C96_unchanged",
    "C96_parse",
    "C96_literal",
    "C96_symbol",
    "C96_refuted"
   ],
   "note": "Proved: the text computed is a decimal numeral of exactly the value for every number of at most 17 places between 10^-7 and 10^6, for every number of at most 17 significant digits between 10^6 and 10^17, and for every integer whose mantissa, power and value have 128 bits; the parser makes a constant of that value. The code is wrong outside: C96_refuted (1E-20 becomes 1e-20, no numeral; 18 decimals are rounded; 1E60 is not 10^60); inside an expression an exponent without parentheses swallows what follows (C31_scientific_refuted, C96_ex_nested). The exponent range of MPFR is unbounded in the model."
  },
  {
   "property": "C97",
   "status": "partial",
   "theorems": [
    "C97_fp_terms",
    "C97_bv_terms_partial",
    "C97_arith_terms_partial",
    "C97_atoms_partial",
    "C97_variables",
    "C97_constants",
    "C97_missed_refuted"
   ],
   "note": "Proved for well-sorted applications that are not folded, for variables and for constants: isFPTerm is exact, the others never hold of a term of another theory and miss exactly the operators listed in the theorems (bvneg, bvcomp, bv2nat, str.len, ...), which C97_missed_refuted shows by text. Excluded: folded applications, variables of the internal sort IntOrReal."
  },
  {
   "property": "C98",
   "status": "proved",
   "theorems": [
    "C98_last_handler",
    "C98_fallback",
    "C98_neither",
    "C98_total",
    "C98_no_null_call",
    "C98_sugar"
   ],
   "note": "Handlers are arbitrary functions of node and context; the 170-odd methods onX are one list of kinds."
  },
  {
   "property": "C99",
   "status": "partial",
   "theorems": [
    "C99_integer_read",
    "C99_integer_space",
    "C99_integer_read_only",
    "C99_integer",
    "C99_number",
    "C99_read_back",
    "C99_interval",
    "C99_refuted",
    "C99_value",
    "C99_value_refuted"
   ],
   "note": "Integers: all bases and texts. Numbers and intervals whose bounds are integers, integral reals, infinite, or the nearest real to a decimal of at most 17 places (digits above 10^6). Refuted otherwise: reals are shown with 17 places, so [1,1] and [1,1+2^-100] have one text; from 10^6 on a text may have an exponent. Values: the kind is not in the text (the string 5 and the number 5), a BOOLEAN value without a boolean is undefined. Bases below 2 of the constructor from a text, and texts with exponents or words for a real, are not modelled; a real zero is unsigned."
  },
  {
   "property": "C100",
   "status": "partial",
   "theorems": [
    "C100_bitwise",
    "C100_bits_all",
    "C100_shift",
    "C100_division",
    "C100_divides",
    "C100_gcd_lcm",
    "C100_root",
    "C100_sqrt",
    "C100_pow",
    "C100_loops",
    "C100_loops_refuted",
    "C100_machine",
    "C100_toDouble",
    "C100_ofDouble",
    "C100_steps",
    "C100_order",
    "C100_real_conversions",
    "C100_real_toInt_refuted"
   ],
   "note": "Proved for all integers, except: factorial and fibonacci of 2^64-1 do not end (C100_loops_refuted); the conversion of a real to int wraps instead of stopping at the ends of int (C100_real_toInt_refuted; it makes (/ 4294967296 1) fold to 0, C21_divreal_refuted). isProbablePrime is a random test and not modelled. long and long long have 64 bits."
  },
  {
   "property": "C101",
   "status": "partial",
   "theorems": [
    "C101_double",
    "C101_double_refuted",
    "C101_integer",
    "C101_int_of_real",
    "C101_real",
    "C101_real_of_int",
    "C101_real_of_int_refuted",
    "C101_bv",
    "C101_bv_resize",
    "C101_bv_refuted"
   ],
   "note": "Proved: exact for every integer; a double within half a millionth and exactly for at most six decimals; a Real or real Number exactly when it is integral or the nearest real to a decimal of at most 17 places or digits; integer Numbers of at most 128 bits. Refuted outside: a double below 5e-7 becomes 0, an infinity or NaN gives a constant whose text is no numeral, neighbouring integer Numbers above 2^128 become one constant. For mkConstBv: decimal numerals of any size, binary digits extended or truncated to the width, hexadecimal digits when there are a quarter of the width; refuted for hexadecimal digits of another width and negative numerals. Minus zero is not distinguished."
  }
 ]
}