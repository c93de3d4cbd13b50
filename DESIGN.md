# Design: a Rocq model of fuqi-jia/SMTParser

## Trusted base

* Coq 8.16.1's kernel (and `coqc`). Every property theorem is followed by
  `Print Assumptions`; the expected answer is "Closed under the global context"
  unless a theorem is listed under "Axioms" below.
* Axioms: none of our own.  The theorems of PropsFun.v and PropsRecip.v (C70) and PropsIop.v (C92) are about real numbers and use the axioms of Coq's
  standard library of reals: `ClassicalDedekindReals.sig_forall_dec`, `ClassicalDedekindReals.sig_not_dec`,
  `FunctionalExtensionality.functional_extensionality_dep` and, in those that use trigonometric or hyperbolic facts,
  `Classical_Prop.classic`.  Every other theorem is closed under the global context.
* The reading of the C++ source by a person: nothing is extracted or run. Every
  model definition cites file and lines of `/repo`.
* External libraries, modelled by their documented behaviour: `std::string`
  (`substr` throws `out_of_range`, `max_size` = 2^63-1, `s[size()]` is NUL, `s[i]`
  beyond is undefined behaviour), `size_t` = unsigned 64 bit, GMP integers
  (`mpz_set_str` base 10 as in `Integer(std::string)`), unordered containers
  (as finite maps whose iteration order is irrelevant or left arbitrary).

## Conventions

* `res A` is the outcome of a C++ call: a value, an exception, `exit(0)`, a failed
  assertion in debug builds (`Abort`), undefined behaviour (`UB`), or `NoFuel`
  (recursion budget of the model exhausted; never equal to `Ok`).
* Boolean parameter `d`/`dbg` says whether `condAssert` is compiled in (debug build);
  theorems quantify over it.
* Files: `*Model.v` (the code), `*Spec.v` (vocabulary of the statements, does not
  mention the model), `*Proofs*.v`, and `Props*.v` (only theorems
  closed by an earlier lemma or a witness, `Print Assumptions`, and examples that
  the hypotheses are met).
* A property that the code violates keeps its full statement in `properties.jsonl`;
  its theorems then are `*_refuted` (a witness, or every input in a class), the exact
  condition under which the code is right where one could be found (`*_iff`), and the
  part that holds (`*_partial`). Its manifest status is `partial`.

## Properties: what is modelled and how it is proved

| Id | Model | Proof |
|----|-------|-------|
| C01-C11 | `BVModel.v`: all of `BitVectorUtils` (src/util.cpp:346-1056) on character lists | induction on the digit strings against Z arithmetic modulo 2^w |
| C12 | numeral recognisers of `TypeChecker` (src/util.cpp:37-255) on character lists | induction on strings, against a grammar |
| C13 | `MathUtils` (src/util.cpp:258-344) with fuel where the loop is unbounded | induction; Z.gcd etc. as specification |
| C14 | `StringUtils` (src/util.cpp:1109-1215) | induction on strings, SMT-LIB definitions as specification |
| C15 | `escapeString`/`unescapeString` (src/util.cpp:1247-1369) | induction on strings |
| C16, C42 | tables of src/kind.cpp; `negateComp`, `flipComp` of op_parser.cpp | case analysis against the comparison each kind denotes |
| C17 | `NodeManager` buckets (src/dag.cpp) with an arbitrary hash function | invariant over every sequence of creations |
| C18 | `Sort::operator==`, `SortManager` | invariant; refutation of transitivity |
| C19, C20 | `mkNot`..`mkIte`, `mkEq`, `mkDistinct` (src/op_parser.cpp) on terms | semantic equality under every interpretation |
| C21 | `simp_oper` (src/simp_parser.cpp), Boolean, integer, bit-vector cases | semantic equality, per operator |
| C22, C43 | `ConvModel.v`: toNNF, splitOp, binarizeOp, remove (src/conv_parser.cpp) with their visited tables | structural induction; invariant of the visited table (unchanged terms map to themselves, all others to equivalent ones) |
| C23 | NNF, flattening, atom naming, Tseitin encoding: toCNF of one formula and of a list (CnfModel) | invariant of the run: each clause set is a conservative extension, each cached literal is equivalent to its term; termination of the flattening by total size; the memo of the atom replacement maps each formula to one of the same shape and value under the table of new variables |
| C24 | toDNFEliminateAll with its visited table and change flags, NNF, distribution, flattenDNF, toDNF of one formula and of a list (DnfModel) | invariant of the table (stored results equivalent, unshared rewritten subterms), structural induction; refutations by computation |
| C25 | `replaceNodes`, `replaceAtoms` with their visited table | simulation between memoised DAG walk and tree substitution |
| C26 | `rewriteSelect`, `normalizeStoreChain`, `simplifyArray`, `mkSelect`, `mkStore` (ArrSimpModel.v) | an abstract theory of arrays (ArrSpec.v, inhabited in ArrExists.v); soundness when the indices are numerals or pairwise apart; refutation by an interpretation where indices alias |
| C27, C28 | `substitute`, `applyFun` (ApplyModel) | substitution lemma by induction on well-sorted terms (TypedSpec `wt`) |
| C29, C30 | `visitor.cpp`, `rewriter.cpp` | TraverseModel.v; the explicit stack and the memo table are refined to first occurrences of the preorder and to a memo-free recursion; value preservation by induction on terms for arbitrary rules |
| C31 | lexer of base_parser.cpp on the NUL-terminated buffer (LexModel) | induction on the remaining text; the position invariant `at_toks` relates the buffer to the tokens still to come |
| C48 | the parser model on arbitrary text | induction on the remaining text |
| C32 | `PrintModel.v`: dumpSMTLIB2_streaming with its work stack (src/dag.cpp:58-900), read by the parser of C33 | `PrintSpec.rt` says which terms come back; induction on them against the grammar of C33 |
| C33 | application core of parseExpr (`ParseModel.v`) against a denotation of s-expressions | induction on expressions |
| C34, C35, C47 | `parseLet`, `mkQuantVar`, `mkVar`, lookup order of `parseConstFunc` over explicit scope tables | state-machine lemmas |
| C36, C37, C46 | `parseStr`, `parseSmtlib2File`, `assert`, `checkSat`, every command of `parseCommand`, opt_parser.cpp, objective.cpp operators (CommandModel) | one lemma per command, induction on the script (CommandSpec `steps`); invariants over histories (`reach`) |
| C38, C40 | interval.cpp without transcendental functions, number.cpp: NumModel.v with the MPFR rounding as a function (RoundModel.v: round to 128 bits, nearest, ties to even) | an interval denotes a set of rationals (NumSpec.v); cut lemmas on extended reals; nearest-rounding lemmas; everything stated for the real rounding |
| C39 | EvalModel.v (eval_parser.cpp); EvalSpec.v | structural induction over well-sorted terms: total assignments give the constant that is the value of the term; partial assignments keep the value; counterexamples by computation |
| C41 | arithNormalize (2168–2362): model NormModel, spec NormSpec (Boolean terms over two-argument comparisons) | induction on the term; a − b op 0 iff a op b over Qc; n-ary =, parameters and idempotence refuted |
| C44, C45 | options.h, model.cpp | finite-map refinement over histories (CommandModel.v, TraverseModel.v) |
| C49 | tables of src/kind.cpp | exhaustive over the (finite) table |
| C50 | `mkAdd`, `mkMul`, `mkSub`, `mkNeg` | semantic equality under every interpretation |
| C51–C53 | parseOper's dispatch to the typed constructors of op_parser.cpp (CtorModel.v, which instantiates the operator parameter of ParseModel.v) | CtorSpec.v writes down the SMT-LIB signatures; case analysis on the signature, induction on n-ary argument lists |
| C54 | Parser::dumpSMT2 as a text (DumpModel.v); the two unordered maps are traversed in an arbitrary order | composition of C32 (each printed term and sort spells tokens that stand for it) with C36 (a script's tokens do what its commands say); induction on sorts, variables, functions, assertions |
| C55 | removeFuns (DumpModel.v) | induction on the list of names |
| C56–C59 | collectors of conv_parser.cpp, isUnit/getUnitVar, getNodeCount (CollectModel.v) | one generic recursive collector, invariant on the visited set by node size; stack and queue searches with a measure; CollectSpec.v gives `outer`, `conjunct`, `subterms_of` |
| C60 | expandLet (LetModel.v): the work list with its two tables | the loop is refined to a table-free recursion; the recursion preserves values by induction on well-sorted terms |
| C61 | parseModel with both passes, parseModelSymbolName, newEmptyModel (MTextModel.v) | MTextSpec.v gives the entries and their meaning over the declarations of C36; induction on the entries, position invariant of C31; the model itself by C45 |
| C62 | getCNFAtom, getTExplanation, isTAbstraction, getCNFAtoms, getCNFBoolVar, getCNFBoolVars over the two tables of toCNF (CnfMapModel.v) | meaning by C23; the tables by induction on the history of conversions: the counter never decreases (induction on the formula through tseitin), so the keys are distinct temporaries; the lists by induction on the iteration |
| C63 | sorting rules (Booleans, integers, reals, bit-vectors), structures and values of expressions on the abstract syntax (MeanSpec.v), against mkExpr (ParseModel.v) and the value of terms (Sem.v) | mutual induction on sorting derivations: every well-sorted expression stands for a term of its class with its value (each constructor by C19, C20, C50), then C33 for the text; structures and interpretations of terms translated into each other |
| C64 | sorting rules of scripts and satisfaction by structures (MeanSpec.v), against parseStr, parseFile and checkSat (CommandModel.v) | induction on the script through the steps of C36, declarations and definitions kept in step with the tables (a definition's body by the same induction with parameters as leaves, its applications by the rebuild lemma of C28 strengthened to the class of terms, MeanDef.v); checkSat by C37 |
| C65 | class Value: members, setters and getters, comparisons, arithmetic, conversions (ValueModel.v); contents and their order (ValueSpec.v) | case analysis on contents; order of byte strings by induction; numbers through C40 |
| C66 | string operations of Value (ValueModel.v); specifications as permutations, subsequences, decompositions (ValueSpec.v, UtilSpec.v) | induction on the string; replacement through the loop lemma of C14 |
| C67 | composition: text of a script (MeanSpec.v), parser, toNNF and toCNF (ConvSpec.v, CnfSpec.v) | the constructors keep well-sorted terms plain (no temporaries, binary implications; in the clausal language no let, xor, Boolean equality), so recorded assertions are inputs of C22 and C23 |
| C68 | ErrSpec.v: erroneous expressions (`wrong`) and commands (`bad`) over the declarations held; CommandModel.v, ParseModel.v | run of the correct commands (CommandMore.v), then the failing command by cases; expressions by induction on the position of the error |
| C69 | EvTextSpec.v: the expressions evaluation computes (`evaluable`), literals of values; MeanSpec.v, EvalModel.v | parsing keeps terms tidy (no operator left applied to constants only) next to the typing invariant of C63; tidy typed terms are those of C39, whose totality theorem gives the literal |
| C70 | interval.cpp:429-1392, 1788-1957 and the methods of number.cpp they call: FunModel.v, with the MPFR routines as a record; FunSpec.v: the real functions, correct rounding, intervals as sets of reals | monotonicity of the functions (standard library of reals); a number is strictly between the neighbours of its rounding; a correctly rounding MPFR is constructed, so the hypothesis is satisfiable; inverse functions through the reciprocal of an interval (PropsRecip.v); explicit counterexamples |
| C71–C87 | the models of C04–C05, C07, C10, C13, C14, C19, C25, C31, C37, C44, C36/C46, C38, C40, C26, C18, C65, C66 | parts of those properties that hold without exception, stated as one theorem each (PropsTrue1.v–PropsTrue6.v) |
| C88, C89 | mkVar, mkTempVar, declareVar, rename and the queries over the node manager of C17 (NameModel.v); what a history should give (NameSpec.v: `wanted`, `first_sort`, `temps`) | invariant over histories of calls on top of the hash-consing invariant; counterexamples by computation |
| C90 | getArity (ArityModel.v) against the signatures of CtorSpec.v and the nodes of C51 | case analysis on the signature; counterexamples by computation |
| C91 | accessors of objective.h and the helpers of objective.cpp (ObjModel.v) over the scripts of C36 | induction on the script: a name stands for an earlier define-objective; counterexamples by computation |
| C92 | Interval::operate, pow with an interval or an infinite exponent, atan2 (IopModel.v, Atan2Model.v with mpfr_atan2 as a field, assumed correctly rounded) | the dispatch is unfolded and reduced to the theorems of C38 and C70; the special cases of atan2 are evaluated from the positions of the bounds; monotonicity of powers and of the polar angle in each argument; the 128 bits of pi from Machin's series of the standard library; counterexamples by computation |
| C93 | folding and evaluation of string operators (SimpModel.v, EvalModel.v, UtilModel.v); StrSpec.v gives the operators as relations and a big-step value of a term in a model | the relations are shown functional and matched with the C14 theorems; induction on the derivation of the value; refutations for all constants or by computation |
| C94 | equality, isPoint, midpoint, width, setters of Interval (NumModel.v) | the cuts of an interval with members are determined by its members; monotonicity and exactness of the rounding |
| C95 | the script of C64, the model text of C61 and evaluation of C69 together; CheckSpec.v says which texts list the values of a structure | invariant over scripts: assertions are tidy typed terms over the declared constants and the tables end with exactly these; each listed spelling denotes its literal; totality of evaluation |
| C96 | parseScientificNotation with mpfr_set_str, mpfr_pow, the product rounded to 128 bits and HighPrecisionReal::toString (SciModel.v); SciSpec.v says what mantissa and exponent denote | error bound of three roundings; the digits printed by each of the three formats; the lexer and parser on such a word |
| C97 | isArithTerm, isBVTerm, isFPTerm, isAtom (TermModel.v, DagModel.v) against the ranks of CtorSpec.v and the nodes of C51 | the predicate depends on the operator's kind; case analysis on the ranks; counterexamples by computation |
| C98 | OpDispatcher (DispModel.v): a table filled by any sequence of registrations | induction on the sequence |
| C99 | digits of mpz_get_str and mpz_set_str, Number, Interval and Value toString (TextModel.v; the real part is SciModel.v) | induction on the digits; the printing lemmas of C96 for a real near a decimal; texts of bounds have no comma |
| C100 | every operation of HighPrecisionInteger, the conversions of HighPrecisionReal to int and long long (IntModel.v); GMP's functions by what its manual says | bits by Z.testbit; the root bit by bit with its bounds as invariant; loops by induction on the distance to the end |
| C101 | the overloads of mkConstInt and mkConstReal that take a number (ConstModel.v): %f with six decimals for a double, toString of a Real; mkConstBv (SimpModel.v) with natToBv and hexToBv (BVModel.v) | fixed-point texts of SciProofs.v, nearest integers, the texts of C99 |

## Which code is modelled and which is not

Per source file of `/repo/src` (with its header). "Not modelled" means: no theorem says anything about it.

| file | modelled | not modelled |
|---|---|---|
| base_parser.cpp | lexer, parseSort, parseLet, parseQuant, parseCommand and all its commands, parseStr/parseFile, mkExpr, checkSat, options, parseModel, newEmptyModel, removeFuns, dumpSMT2, isUnit/isUnitAtom/getUnitVar, getNodeCount, applyFun, substitution, node replacement | plain getters of vectors, warnings, the texts of error messages (err_* are `Exit`), parseParams outside commands |
| expr_parser.cpp | the whole expression parser | the value of a floating-point literal `(fp ...)` (its text and sort are modelled) |
| op_parser.cpp | every mk* constructor with its sort checks and rewriting | mkInfinity/epsilon rows except as opaque constants, mkRootObj |
| simp_parser.cpp | constant folding of Boolean, arithmetic, bit-vector and string operators, simplification of arrays | folding of transcendental functions and of floating-point operators is an abstract parameter |
| eval_parser.cpp | evaluate over all modelled operators, expandLet, arithNormalize | transcendental functions, floating point |
| conv_parser.cpp | NNF, CNF (with its tables), DNF, collectors, splitting, binarisation | |
| dag.cpp / dag.h | hash-consing, printing, dumping, predicates on nodes | updateFuncDef/updateApplyFunc as mutation of a shared node (so a recursive body that names its function without applying it is cyclic in the code, not in the model), the identity of FUNC_APPLY nodes (made outside the node manager, base_parser.cpp:2001-2016: equal ones are different pointers, which matters with expand_functions off only), NodeManager::clear, reference counts |
| sort.cpp, kind.cpp, rewriter.cpp, visitor.cpp, model.cpp, objective.cpp, opt_parser.cpp, context.cpp | all functions (context.cpp: the getters are the fields of the state) | |
| util.cpp | bit-vector, string, integer, conversion and classification functions | sqrt/pow of reals, fpToUbv/fpToSbv |
| number.cpp | integers with all their operations, 128-bit reals as rationals with round-to-nearest, comparisons, + - * / %, floor/ceil/round/abs; exponentials, logarithms, roots, powers, trigonometry over assumed MPFR routines | NaN payloads, the exponent range (printing a real is modelled in SciModel.v) |
| interval.cpp | queries, set operations, + - * /, abs, comparisons, integer enumeration, the functions of lines 429-596 and 630-1392, pow2, pow, operate, atan2 | log with an interval |
| include/op_dispatcher.h, include/op_utils.h | the dispatcher; the free predicates are the methods of DAGNode with a null check | the template parameters |
| value.cpp | contents, comparisons, arithmetic, conversions, string operations, toString | functions that only pass on to the unmodelled functions of number.cpp and interval.cpp |

Never modelled: memory management (shared_ptr reference counts, memory exhaustion), threads, timing, the file
system beyond "the file has this text", performance, `std::unordered_*` iteration order except as "some order".

Array sorts are kept in a table under the printed names of their index and element sorts; the theorems about texts cover array sorts
whose parts are printed without separators (ParseSpec.key_sort); C47_sort_cache_refuted shows what happens otherwise.

Note: std++ is used in ArrExists.v only (an inhabitant of the array theory). Loading it makes coqchk list seven items `Coq.ssr.ssrunder.Under_rel.*`; these are fields of a standard-library module type instance, no theorem's `Print Assumptions` shows them.
