{"id": "C01", "title": "Bitwise bit-vector folding", "statement": "Folding bvnot, bvand, bvor, bvxor, bvnand, bvnor, bvxnor on binary bit-vector literals of the same width yields the literal of that width whose value is the bitwise function of the operand values.", "quantifier": "every width and every pair of operand values", "why_tests_cant": "the operand space is infinite (all widths)", "anchors": ["src/util.cpp: BitVectorUtils::bvNot/bvAnd/bvOr/bvXor/bvNand/bvNor/bvXnor"]}
{"id": "C02", "title": "Modular add, negate, multiply", "statement": "Folding bvadd, bvneg and bvmul on literals of width w yields the width-w literal of the sum, negation or product modulo 2^w.", "quantifier": "every width and every operand value", "why_tests_cant": "carry chains of every length", "anchors": ["src/util.cpp: bvAdd, bvNeg, bvMul"]}
{"id": "C03", "title": "Modular subtraction", "statement": "Folding bvsub on literals of width w yields the width-w literal of the difference modulo 2^w.", "quantifier": "every width and every operand pair", "why_tests_cant": "borrow chains of every length", "anchors": ["src/util.cpp: bvSub"]}
{"id": "C04", "title": "Unsigned division and remainder", "statement": "Folding bvudiv/bvurem follows SMT-LIB: quotient and remainder of the unsigned values when the divisor is non-zero, all-ones and the dividend when it is zero.", "quantifier": "every width and every operand pair including zero divisors", "why_tests_cant": "all widths, all operands", "anchors": ["src/util.cpp: bvUdiv, bvUrem, bvUmod"]}
{"id": "C05", "title": "Signed division, remainder and modulo", "statement": "Folding bvsdiv/bvsrem/bvsmod on two's-complement values follows the SMT-LIB definitions, including minimum/-1 overflow and zero divisors.", "quantifier": "every width and every operand pair", "why_tests_cant": "sign corner cases at every width", "anchors": ["src/util.cpp: bvSdiv, bvSrem, bvSmod, truncDiv, mathMod"]}
{"id": "C06", "title": "Shifts", "statement": "Folding bvshl/bvlshr/bvashr by a literal amount yields a literal of the same width with the bits shifted by the unsigned value of the amount, overshifting to zero (or sign).", "quantifier": "every width, operand and shift amount", "why_tests_cant": "amounts of every size", "anchors": ["src/util.cpp: bvShl, bvLshr, bvAshr"]}
{"id": "C07", "title": "Concatenation, extraction, extension, repetition", "statement": "concat, extract, zero_extend, sign_extend and repeat on literals yield a literal of the width SMT-LIB prescribes with the value it prescribes, and ill-ranged extraction is rejected.", "quantifier": "every width, operand and index", "why_tests_cant": "all widths and indices", "anchors": ["src/util.cpp: bvConcat, bvExtract, bvRepeat, bvZeroExtend, bvSignExtend"]}
{"id": "C08", "title": "Rotation", "statement": "rotate_left/rotate_right by n rotate by n modulo the width, for every n.", "quantifier": "every width, operand and amount", "why_tests_cant": "unbounded rotation amounts", "anchors": ["src/util.cpp: bvRotateLeft, bvRotateRight"]}
{"id": "C09", "title": "Bit-vector comparison", "statement": "Folded bvult/bvule/bvugt/bvuge/bvslt/bvsle/bvsgt/bvsge and (dis)equality between same-width literals agree with comparison of the unsigned, respectively two's-complement, values.", "quantifier": "every width and every operand pair", "why_tests_cant": "all widths", "anchors": ["src/util.cpp: bvComp, bvToNat, bvToInt"]}
{"id": "C10", "title": "Bit-vector / integer conversion", "statement": "bv2nat returns the unsigned value, signed conversion the two's-complement value, int2bv of any integer the value modulo 2^w, and converting back and forth is the identity on w-bit values.", "quantifier": "every integer and every width", "why_tests_cant": "unbounded integers", "anchors": ["src/util.cpp: bvToNat, bvToInt, natToBv, intToBv"]}
{"id": "C11", "title": "Hexadecimal and decimal literals", "statement": "A #x or decimal literal converted to binary denotes the same number; every hex digit contributes four bits.", "quantifier": "every literal string", "why_tests_cant": "unbounded literal length", "anchors": ["src/util.cpp: hexToBv, decToBv, natToBv(string)"]}
{"id": "C12", "title": "Numeral classification", "statement": "The numeral tests accept exactly optional-sign digit strings (integers), digit strings with at most one decimal point (reals), and #b/#x/#d literals (bit-vectors); anything accepted as an integer can be converted to one.", "quantifier": "every string", "why_tests_cant": "infinitely many strings", "anchors": ["src/util.cpp: TypeChecker::isInt/isReal/isNumber/isBV/isString/isScientificNotation"]}
{"id": "C13", "title": "Integer mathematics", "statement": "gcd, lcm, pow, factorial, parity and primality return the mathematical result for every argument in their domain and terminate.", "quantifier": "every pair of integers", "why_tests_cant": "unbounded integers", "anchors": ["src/util.cpp: MathUtils::gcd/lcm/pow/factorial/isPrime/isEven/isOdd"]}
{"id": "C14", "title": "String operations", "statement": "Folding the string operators on constants gives the SMT-LIB result for every string and every, including out-of-range, index, without crashing.", "quantifier": "every string constant and every integer index", "why_tests_cant": "unbounded strings and indices", "anchors": ["src/util.cpp: StringUtils::*"]}
{"id": "C15", "title": "String escaping", "statement": "Unescaping an escaped string returns the original string, and unescape decodes each documented escape.", "quantifier": "every string", "why_tests_cant": "infinitely many strings", "anchors": ["src/util.cpp: ConversionUtils::escapeString/unescapeString"]}
{"id": "C16", "title": "Kind negation and flipping", "statement": "The negation table maps every comparison kind to one that holds exactly when the original does not and is an involution; the flip table maps each to the one with swapped arguments.", "quantifier": "every kind and every pair of values it compares", "why_tests_cant": "semantic, ranges over all values", "anchors": ["src/kind.cpp: getNegatedKind, getFlipKind"]}
{"id": "C17", "title": "Hash-consing", "statement": "Creating a node structurally equal to an existing one returns that node, creating a different one never aliases, and node indices never change, in any sequence of creations.", "quantifier": "every sequence of node creations and every hash function", "why_tests_cant": "histories and hash collisions", "anchors": ["src/dag.cpp: NodeManager::createNode/insertNodeToBucket", "include/dag.h: isEquivalentTo"]}
{"id": "C18", "title": "Sort identity", "statement": "Sort equality is an equivalence relation distinguishing sorts with different parameters, and the sort manager returns one object per sort.", "quantifier": "every triple of sorts, every creation sequence", "why_tests_cant": "infinitely many sorts", "anchors": ["include/sort.h: Sort::operator==", "src/sort.cpp: SortManager"]}
{"id": "C19", "title": "Boolean constructors preserve meaning", "statement": "mkNot, mkAnd, mkOr, mkXor, mkImplies and mkIte return a formula that has, under every assignment, the value of the operator applied to its arguments, whatever simplifications they perform.", "quantifier": "every argument list (any length, any formulas) and every assignment", "why_tests_cant": "all formulas and assignments", "anchors": ["src/op_parser.cpp: mkNot, mkAnd, mkOr, mkXor, mkImplies, mkIte"]}
{"id": "C20", "title": "Equality and distinct constructors preserve meaning", "statement": "mkEq/mkDistinct (binary and n-ary) return a formula equivalent to the chained equality / pairwise distinctness of their arguments.", "quantifier": "every argument list and assignment", "why_tests_cant": "all formulas and assignments", "anchors": ["src/op_parser.cpp: mkEq, mkDistinct"]}
{"id": "C21", "title": "Constant folding is sound", "statement": "Whenever simplification of an operator application returns a constant or a smaller term, that term has the same value as the application.", "quantifier": "every operator, argument list and assignment", "why_tests_cant": "all terms", "anchors": ["src/simp_parser.cpp: simp_oper"]}
{"id": "C22", "title": "Negation normal form", "statement": "toNNF returns a formula equivalent to its input, in which negation is applied only to atoms and non-monotone connectives.", "quantifier": "every formula and assignment", "why_tests_cant": "all formulas", "anchors": ["src/conv_parser.cpp: toNNF"]}
{"id": "C23", "title": "Conjunctive normal form", "statement": "toCNF returns a formula that is a conjunction of clauses and equisatisfiable with its input: every model of the input extends to a model of the output and every model of the output restricts to one of the input.", "quantifier": "every formula and assignment", "why_tests_cant": "all formulas", "anchors": ["src/conv_parser.cpp: toCNF, toTseitinCNF"]}
{"id": "C24", "title": "Disjunctive normal form", "statement": "toDNF returns an equivalent disjunction of conjunctions of literals.", "quantifier": "every formula and assignment", "why_tests_cant": "all formulas", "anchors": ["src/conv_parser.cpp: toDNF"]}
{"id": "C25", "title": "Node replacement", "statement": "Replacing nodes according to a map replaces every occurrence of each key, at any depth and through shared subterms, and nothing else.", "quantifier": "every term and map", "why_tests_cant": "arbitrary DAG sharing", "anchors": ["src/conv_parser.cpp: replaceAtoms, replaceNodes"]}
{"id": "C26", "title": "Array simplification", "statement": "Simplification of select/store terms preserves their value for every array and index interpretation.", "quantifier": "every term and interpretation", "why_tests_cant": "aliasing indices", "anchors": ["src/simp_parser.cpp: rewriteSelect, normalizeStoreChain, simplifyArray", "src/op_parser.cpp: mkSelect, mkStore"]}
{"id": "C27", "title": "Substitution", "statement": "Substituting terms for variables yields a term whose value is that of the original under the updated assignment; bound variables are untouched and no free variable is captured.", "quantifier": "every term, substitution and assignment", "why_tests_cant": "all terms", "anchors": ["src/base_parser.cpp: substitute"]}
{"id": "C28", "title": "Function application expansion", "statement": "Applying a defined function expands to its body with all parameters simultaneously replaced by the arguments, and has the body's value with parameters bound to argument values.", "quantifier": "every definition and arguments", "why_tests_cant": "all terms", "anchors": ["src/base_parser.cpp: applyFun, applyFunPostOrder"]}
{"id": "C29", "title": "Traversal", "statement": "Walking a term with a fresh visitor calls visit exactly once on each distinct node of the term and on nothing else, parents first, in the order of the first occurrences of the depth-first left-to-right preorder; several walks of one visitor together visit each node of all the terms once.", "quantifier": "every term and every sequence of walks", "why_tests_cant": "all DAGs", "anchors": ["src/visitor.cpp: NodeVisitor::walk", "include/visitor.h"]}
{"id": "C30", "title": "Rewriter", "statement": "With rules that keep the value of the node they are given, and with the default rules on terms whose Boolean and numeric operators have Boolean and numeric arguments, rewriting keeps the value of the term in every interpretation. With the default rules it always ends, in a term in which no rule applies any more; one pass reaches it and further passes change nothing. Repeated calls on one rewriter with the same rules answer as a fresh rewriter would.", "quantifier": "every rule set, term, assignment, bound on the rounds and sequence of calls", "why_tests_cant": "all terms and rule sets", "anchors": ["src/rewriter.cpp", "include/rewriter.h", "include/op_dispatcher.h"]}
{"id": "C31", "title": "Lexing", "statement": "Every token returned by the lexer is a substring of the input in order; white space and comments are skipped; quoted symbols and string literals are returned whole; the lexer always terminates.", "quantifier": "every input text", "why_tests_cant": "all byte strings", "anchors": ["src/base_parser.cpp: getSymbol, scanToNextSymbol, skipToRpar"]}
{"id": "C32", "title": "Print and re-parse", "statement": "Printing an expression and parsing the text gives back the same expression.", "quantifier": "every expression", "why_tests_cant": "all expressions", "anchors": ["src/dag.cpp: dumpSMTLIB2", "src/base_parser.cpp: parseLet"]}
{"id": "C33", "title": "Expression parsing", "statement": "Parsing the SMT-LIB text of an application calls the constructor of that operator on exactly the parsed arguments, in order, at any nesting depth, and consumes exactly that expression.", "quantifier": "every expression text", "why_tests_cant": "all texts, all depths", "anchors": ["src/expr_parser.cpp: parseExpr, parseConstFunc"]}
{"id": "C34", "title": "Let scoping", "statement": "A let expression binds its variables in parallel in its body only; parsing leaves the surrounding scope unchanged.", "quantifier": "every nesting of lets", "why_tests_cant": "all nestings", "anchors": ["src/base_parser.cpp: parseLet"]}
{"id": "C35", "title": "Quantifier scoping", "statement": "A quantified variable is visible only in its quantifier body, inner binders shadow outer ones, and the outer binding is visible again afterwards.", "quantifier": "every nesting of binders", "why_tests_cant": "all nestings", "anchors": ["src/base_parser.cpp: parseQuant, mkQuantVar"]}
{"id": "C36", "title": "Command processing", "statement": "The assertion list after a script is exactly the list of asserted formulas in order; each command is consumed up to its closing parenthesis and does not disturb earlier assertions.", "quantifier": "every command sequence", "why_tests_cant": "histories", "anchors": ["src/base_parser.cpp: parseCommand, assert"]}
{"id": "C37", "title": "checkSat", "statement": "checkSat never answers sat when an assertion is the constant false and never unsat unless one is, after any history of assertions and calls.", "quantifier": "every history of assert and checkSat calls", "why_tests_cant": "histories", "anchors": ["src/base_parser.cpp: checkSat, assert"]}
{"id": "C38", "title": "Interval arithmetic", "statement": "Every interval operation contains every result of the operation on members of its arguments; intersection, union, membership and emptiness agree with the sets denoted.", "quantifier": "all intervals (open/closed, infinite) and all points", "why_tests_cant": "infinitely many points", "anchors": ["src/interval.cpp"]}
{"id": "C39", "title": "Evaluation", "statement": "Evaluating a term under a model returns the value of the term when all its variables are assigned, and otherwise a term with the same value under every extension of the model.", "quantifier": "every term and model", "why_tests_cant": "all terms", "anchors": ["src/eval_parser.cpp"]}
{"id": "C40", "title": "Mixed number arithmetic", "statement": "Arithmetic and comparison on numbers of integer and real type agree with exact arithmetic (up to rounding of reals), and comparison is a total order.", "quantifier": "all pairs of numbers", "why_tests_cant": "infinitely many values", "anchors": ["src/number.cpp: Number operators"]}
{"id": "C41", "title": "Arithmetic normalisation", "statement": "Normalising a comparison a op b to a - b op 0 preserves its meaning.", "quantifier": "every comparison and assignment", "why_tests_cant": "all terms", "anchors": ["src/base_parser.cpp: arithNormalize"]}
{"id": "C42", "title": "Comparison negation", "statement": "Negating a comparison yields the complement; flipping a comparison yields an equivalent comparison with swapped sides.", "quantifier": "every comparison and assignment", "why_tests_cant": "all terms", "anchors": ["src/op_parser.cpp: negateComp, flipComp"]}
{"id": "C43", "title": "Splitting and binarising", "statement": "Binarising n-ary operators and splitting comparisons yield formulas equivalent to (or equisatisfiable with) the input.", "quantifier": "every formula", "why_tests_cant": "all formulas, arbitrary sharing", "anchors": ["src/conv_parser.cpp: splitOp, binarizeOp"]}
{"id": "C44", "title": "Options", "statement": "Setting an option and reading it back returns the value set; setting one option changes no other; unknown options are reported.", "quantifier": "every sequence of option settings", "why_tests_cant": "histories", "anchors": ["include/options.h"]}
{"id": "C45", "title": "Models", "statement": "A model returns for each variable the value last assigned to it since the last clear, and the unknown value for variables never assigned or cleared; the pairs list each variable once in the order of its first appearance; size, isFull and isEmpty agree with the history. (Assigning by name requires, as the assertion in the code says, that the model has the name.)", "quantifier": "every sequence of model updates", "why_tests_cant": "histories", "anchors": ["src/model.cpp"]}
{"id": "C46", "title": "Optimisation objectives and soft assertions", "statement": "Each minimize, maximize, assert-soft command is recorded once with its term, weight and identifier, whichever order its attributes come in, with default weight 1.", "quantifier": "every command with every attribute order", "why_tests_cant": "all attribute combinations", "anchors": ["src/opt_parser.cpp", "src/objective.cpp"]}
{"id": "C47", "title": "Symbol declaration and lookup", "statement": "A declared symbol resolves to its declaration; parameters, let and quantified variables shadow global names; redeclaration never silently changes a sort.", "quantifier": "every sequence of declarations and lookups", "why_tests_cant": "histories", "anchors": ["src/base_parser.cpp", "src/expr_parser.cpp: parseConstFunc", "src/op_parser.cpp: mkVar"]}
{"id": "C48", "title": "No undefined behaviour on input text", "statement": "Parsing any text terminates with a result or a reported error, never with undefined behaviour.", "quantifier": "every input text", "why_tests_cant": "all byte strings", "anchors": ["src/base_parser.cpp: parseStr, parse, getSymbol"]}
{"id": "C49", "title": "Operator names", "statement": "Printing an operator and reading the printed name back gives the same operator, for every operator the parser accepts.", "quantifier": "every operator kind and every operator name", "why_tests_cant": "the whole operator table, in both directions", "anchors": ["src/kind.cpp: kindToString, getOperKind"]}
{"id": "C50", "title": "Arithmetic constructors", "statement": "Building a sum, product, difference or negation through the API yields a term whose value is the arithmetic value of the operands, in every logic.", "quantifier": "every list of numeric terms, every logic and every assignment", "why_tests_cant": "unbounded argument lists, all assignments", "anchors": ["src/op_parser.cpp: mkAdd, mkMul, mkSub, mkNeg"]}
{"id": "C51", "title": "Well-sorted applications are accepted", "statement": "Applying an operator of the arithmetic, bit-vector, floating-point, string or regular-expression theory to arguments of the sorts of its SMT-LIB signature gives a node of that operator, with the result sort of the signature and the arguments as children.", "quantifier": "every operator, index and argument list", "why_tests_cant": "unboundedly many widths, indices and argument lists", "anchors": ["src/expr_parser.cpp: parseOper", "src/op_parser.cpp: mkBv*, mkFp*, mkStr*, mkReg*, mkDivInt, mkMod"]}
{"id": "C52", "title": "Ill-sorted applications are rejected", "statement": "Applying a theory operator to an argument of a foreign sort is reported as an error; no node is built.", "quantifier": "every operator and argument list with an ill-sorted argument", "why_tests_cant": "all positions, sorts and argument lists", "anchors": ["src/expr_parser.cpp: parseOper", "src/op_parser.cpp"]}
{"id": "C53", "title": "Numbers of arguments are checked", "statement": "Applying a theory operator of fixed arity to fewer or more arguments is reported as an error.", "quantifier": "every operator and argument list of a wrong length", "why_tests_cant": "unbounded argument lists", "anchors": ["src/expr_parser.cpp: parseOper", "src/op_parser.cpp"]}
{"id": "C54", "title": "Dumped scripts read back", "statement": "dumpSMT2 writes a script that a new parser accepts and that recreates the same assertions in the same order, the same variables, functions, declared sorts and logic, whatever order the hash tables are traversed in.", "quantifier": "every parser state and every traversal order of the symbol tables", "why_tests_cant": "unbounded scripts, unspecified iteration order", "anchors": ["src/base_parser.cpp: dumpSMT2, getVariables, getFunctions", "src/dag.cpp: dumpFuncDef, dumpFuncRec, dumpFuncDec"]}
{"id": "C55", "title": "Removing functions", "statement": "removeFuns removes exactly the named functions, leaves the others and the consistency of the function tables alone, and returns how many functions it removed, whatever names it is given.", "quantifier": "every list of names, with repetitions and unknown names, and every function table", "why_tests_cant": "unbounded lists and tables", "anchors": ["src/base_parser.cpp: removeFuns"]}
{"id": "C56", "title": "Variable collection", "statement": "collectVars and collectAssignableVars leave the elements of the given set in place and add exactly the variables (resp. the variables and outermost uninterpreted applications) that occur in the given expressions, each once; the value of the expressions depends on no other variable.", "quantifier": "every list of expressions, shared or not, and every initial set", "why_tests_cant": "unbounded sharing DAGs", "anchors": ["src/conv_parser.cpp: collectVars, collectAssignableVars", "include/dag.h: isVar, isAssignableVar"]}
{"id": "C57", "title": "Atom collection", "statement": "collectAtoms adds exactly the outermost atoms of the given expressions, so that a quantifier-free formula's value is determined by them; every atom collectGroundAtoms adds is a consequence of the given formulas, and every atomic conjunct of their negation normal forms is added.", "quantifier": "every list of expressions and every initial set", "why_tests_cant": "unbounded formulas, semantic consequence", "anchors": ["src/conv_parser.cpp: collectAtoms, collectGroundAtoms", "include/dag.h: isAtom"]}
{"id": "C58", "title": "Unit expressions", "statement": "isUnit says whether at most one variable occurs in an expression, isUnitAtom whether it is moreover an atom, and getUnitVar returns the only variable (the null node if there is none or more than one), on whose value alone the expression depends.", "quantifier": "every expression", "why_tests_cant": "unbounded DAGs", "anchors": ["src/base_parser.cpp: isUnit, isUnitAtom, getUnitVar"]}
{"id": "C59", "title": "Node count", "statement": "getNodeCount returns the number of different nodes of the assertions, assumptions, soft assertions, weights and objective terms, counting shared nodes once.", "quantifier": "every script and every sharing", "why_tests_cant": "unbounded DAGs", "anchors": ["src/base_parser.cpp: getNodeCount", "include/objective.h: getObjectiveTerm"]}
{"id": "C60", "title": "Let expansion", "statement": "expandLet of a let expression (as kept by the parser with preserving-let) ends without error and returns an expression with the same value under every interpretation in which no let-bound variable is left; any other expression is returned unchanged.", "quantifier": "every let expression, any nesting, sharing and depth", "why_tests_cant": "unbounded DAGs, all interpretations", "anchors": ["src/eval_parser.cpp: expandLet", "include/options.h: parsing_preserve_let"]}
{"id": "C61", "title": "Reading a model", "statement": "parseModel of a model as a solver prints it, wrapped in (model ...) or (...), returns and gives each constant the last value the text defines for it (only the declared ones if asked), leaves every other name unknown and the assertions, options and objectives as they are; functions with parameters are skipped. newEmptyModel contains every declared variable without a value.", "quantifier": "every model text, parser state and declaration history", "why_tests_cant": "unbounded texts and histories", "anchors": ["src/base_parser.cpp: parseModel, parseModelSymbolName, newEmptyModel, isDeclaredVariable", "src/model.cpp: Model::add"]}
{"id": "C62", "title": "Table of CNF variables", "statement": "After toCNF, the variables it introduced can be looked up: a model of the clauses in which every variable has the value of what getCNFAtom (getTExplanation) answers for it is a model of the assertions, and every model of the assertions extends to one; isTAbstraction tells which terms are such variables; getCNFBoolVar of an atom is a variable whose atom is that atom, and the other way round; getCNFAtoms and getCNFBoolVars list every abstracted atom and every introduced variable once.", "quantifier": "every sequence of conversions, every interpretation, every iteration order of the tables", "why_tests_cant": "unbounded formulas and histories, unspecified hash-table order", "anchors": ["src/conv_parser.cpp: getCNFAtom, getTExplanation, isTAbstraction, getCNFAtoms, getCNFBoolVar, getCNFBoolVars, toCNF"]}
{"id": "C63", "title": "Meaning of an expression text", "statement": "mkExpr of the text of a well-sorted expression over declared constants and functions returns a term whose value, in every structure, is the value SMT-LIB gives to the expression, whatever simplification happened on the way; two texts yield terms equal in value under every interpretation exactly when the expressions are equal in value in every structure.", "quantifier": "every well-sorted expression, every spelling, every structure, every parser state between two commands", "why_tests_cant": "unbounded expressions, all structures", "anchors": ["src/base_parser.cpp: mkExpr", "src/base_parser.cpp: parseLet", "src/op_parser.cpp: mkOper and the constructors", "src/expr_parser.cpp"]}
{"id": "C64", "title": "Meaning of a script", "statement": "A new parser accepts the text of a well-sorted script; the assertions it records have, in every structure and in order, the values SMT-LIB gives to the asserted formulas, so they are satisfiable exactly when the script is; checkSat answers UNSAT only if no structure satisfies the script and SAT only if one does.", "quantifier": "every well-sorted script, every spelling, every structure", "why_tests_cant": "unbounded scripts, all structures", "anchors": ["src/base_parser.cpp: parseStr, parseSmtlib2File, checkSat", "src/base_parser.cpp: parseCommand"]}
{"id": "C65", "title": "Contents, order and arithmetic of values", "statement": "A Value returns from the getter of its type exactly what it was constructed from or last assigned, and the other getters throw; the six comparisons of two strings, booleans or numbers agree with one total order, values of different types are unequal and cannot be ordered; arithmetic, rounding, increment, Boolean connectives and conversions compute the mathematical result, compound assignment the same as the operator.", "quantifier": "every history of assignments, every pair of values", "why_tests_cant": "all histories and contents, integers of any size", "anchors": ["src/value.cpp: Value::setValue, operator==, operator<, operator+, toNumber, toBoolean", "include/value.h: Value"]}
{"id": "C66", "title": "String operations of values", "statement": "concatStr, repeatStr, sortStr, substr, replace, reverse, unique, trim, ltrim, rtrim, toLower and toUpper return the named function of the string (all occurrences replaced from left to right, distinct characters at their first occurrence, no leading or trailing white space, ...), and throw on a value of another type.", "quantifier": "every string and argument", "why_tests_cant": "strings of any length", "anchors": ["src/value.cpp: concatStr, repeatStr, sortStr, substr, replace, reverse, unique, trim, ltrim, rtrim, toLower, toUpper"]}
{"id": "C67", "title": "From script text to normal form", "statement": "Reading the text of a well-sorted script into a new parser and converting the recorded assertions gives: with toNNF one formula in negation normal form that is true in exactly the structures that satisfy the script; with toCNF a conjunction of clauses over literals whose models, with the new variables defined as the table says, are exactly the extensions of the structures that satisfy the script; so the script is satisfiable if and only if the clauses are.", "quantifier": "every well-sorted script text, every layout, every iteration order of sets, every earlier state of the CNF table, every structure", "why_tests_cant": "unbounded scripts and structures", "anchors": ["src/base_parser.cpp: parseStr", "src/expr_parser.cpp: parseExpr", "src/conv_parser.cpp: toNNF, toCNF"]}
{"id": "C68", "title": "Erroneous commands are rejected", "statement": "After any correct commands, a command that SMT-LIB rejects (unknown command or logic, undeclared name, operator or sort, ill-sorted arguments, a function or parameter declared or defined twice, a missing closing parenthesis) ends the program with an error, whatever follows it; no parser with a wrong context is returned.", "quantifier": "every correct prefix of commands, every erroneous command, every continuation of the text", "why_tests_cant": "unbounded texts and positions of the error", "anchors": ["src/base_parser.cpp: parseCommand, parseStr, parseSmtlib2File, mkFuncDec, parseSort", "src/expr_parser.cpp: parseExpr, parseConstFunc"]}
{"id": "C69", "title": "Parsing an expression and evaluating it under a model", "statement": "For every well-sorted expression text over declared Boolean, integer, real and bit-vector constants and the operators of the parser's core (without concat, function applications, distinct of Booleans, and let when the library is told to keep it), and every model that gives each declared constant a literal of its sort: mkExpr returns a term, evaluate under the model returns a literal, and that literal is the value SMT-LIB gives to the expression in the structure the model describes, whatever was simplified while parsing.", "quantifier": "every well-sorted expression of that language, every spelling, every model of the declared constants", "why_tests_cant": "unbounded expressions, all models", "anchors": ["src/base_parser.cpp: mkExpr", "src/eval_parser.cpp: evaluate", "src/op_parser.cpp: the constructors", "src/model.cpp: Model::get"]}
{"id": "C70", "title": "Elementary functions of intervals", "statement": "For every interval whose bounds are numbers the library holds exactly (or infinite), exp, ln, lg, lb, log with a base, sqrt, safeSqrt, sin, cos, tan, their reciprocals, inverses and hyperbolic forms, pow2 and pow return an interval that contains the mathematical value at every member of the argument that is in the domain; an argument with members outside the domain of an inverse function is reported as an error; the empty interval gives the empty interval; the bounds are next to the correctly rounded values at the bounds.", "quantifier": "every interval, every member (a real number), every MPFR that rounds correctly", "why_tests_cant": "uncountably many members; all bounds; the claim is about real functions", "anchors": ["src/interval.cpp: exp, ln, lg, lb, log, sqrt, safeSqrt, sin, cos, tan, cot, sec, csc, asin, acos, atan, acot, asec, acsc, sinh, cosh, tanh, coth, sech, csch, asinh, acosh, atanh, acoth, asech, acsch, pow2, pow", "src/number.cpp: the methods of the same names, nextBelow, nextAbove, pi"]}
{"id": "C71", "title": "Signed remainder and division by zero", "statement": "Folding bvsrem of any two literals of one width gives SMT-LIB's remainder (the sign of the dividend); folding bvudiv by zero gives the vector of ones, bvurem by zero the dividend.", "quantifier": "every width and every pair of values", "why_tests_cant": "all widths", "anchors": ["src/util.cpp: bvSrem, bvUdiv, bvUrem", "src/simp_parser.cpp: simp_oper"]}
{"id": "C72", "title": "Joining, slicing, extending and repeating literals", "statement": "Folding concat, extract with indices inside the vector, zero_extend, sign_extend and repeat of literals gives the literal SMT-LIB prescribes, with its width.", "quantifier": "every width, value and index inside the vector", "why_tests_cant": "all widths and indices", "anchors": ["src/util.cpp: bvConcat, bvExtract, bvZeroExtend, bvSignExtend, bvRepeat"]}
{"id": "C73", "title": "Literals and integers", "statement": "bv2nat and the signed conversion of a literal give its unsigned and its two's complement value; int2bv of any integer gives the literal of its residue; converting an integer in range to a vector and back is the identity, signed and unsigned.", "quantifier": "every width and integer", "why_tests_cant": "all widths and integers", "anchors": ["src/util.cpp: bvToNat, bvToInt, intToBv, natToBv"]}
{"id": "C74", "title": "Integer functions on natural numbers", "statement": "On natural numbers gcd, power, factorial, parity and primality are the mathematical functions, and their loops end.", "quantifier": "all natural numbers", "why_tests_cant": "unbounded arithmetic", "anchors": ["src/util.cpp: MathUtils::gcd, pow, factorial, isEven, isOdd, isPrime"]}
{"id": "C75", "title": "Folding of string operations", "statement": "Folding str.substr with natural arguments, str.prefixof, str.suffixof, str.contains, str.indexof, str.replace, and the case and reversal functions of string literals gives SMT-LIB's result (replace: the first occurrence; indexof: the least position from the start, or -1).", "quantifier": "all strings and natural positions below 2^64", "why_tests_cant": "strings of any length", "anchors": ["src/util.cpp: strSubstr, strPrefixof, strSuffixof, strContains, strIndexof, strReplace, strToLower, strToUpper, strRev"]}
{"id": "C76", "title": "Connectives keep their meaning", "statement": "mkAnd, mkOr, mkXor, mkImplies and mkIte applied to Boolean terms return a term with the truth value of the connective of the arguments in every interpretation, whatever they drop, flatten or fold.", "quantifier": "every argument list and interpretation", "why_tests_cant": "unbounded argument lists, all interpretations", "anchors": ["src/op_parser.cpp: mkAnd, mkOr, mkXor, mkImplies, mkIte"]}
{"id": "C77", "title": "Replacement touches only the given nodes", "statement": "In the result of replaceNodes and replaceAtoms some of the given nodes are replaced by their images and the nodes above them rebuilt; nothing else is different, and a term without a given node is returned as it is.", "quantifier": "every term and map", "why_tests_cant": "unbounded terms", "anchors": ["src/conv_parser.cpp: replaceNodes, replaceAtoms"]}
{"id": "C78", "title": "Reading text ends and loses nothing", "statement": "Taking the tokens of any text ends without undefined behaviour; the tokens are consecutive pieces of the text, in order, with nothing but white space and comments between them, up to the end of the text or its first zero byte.", "quantifier": "every byte string, both modes of reading, both builds", "why_tests_cant": "all texts", "anchors": ["src/base_parser.cpp: scanToNextSymbol, getSymbol, parseLpar, parseRpar"]}
{"id": "C79", "title": "An UNSAT verdict is right", "statement": "In every history of a parser object, if checkSat answers UNSAT then one of the assertions is the constant false, so no interpretation satisfies the assertions; checkSat changes neither the assertions nor the declarations.", "quantifier": "every history of parsing, asserting and checking", "why_tests_cant": "unbounded histories", "anchors": ["src/base_parser.cpp: checkSat, assert, parseStr, parseSmtlib2File"]}
{"id": "C80", "title": "Boolean options are independent", "statement": "After any sequence of option settings each Boolean option has the value last given to it (its initial value if none was); setting one changes neither another nor the logic nor the precision.", "quantifier": "every sequence of settings", "why_tests_cant": "unbounded histories", "anchors": ["src/opt_parser.cpp: setOption", "include/options.h"]}
{"id": "C81", "title": "What a script records", "statement": "Reading a correct script records one assertion per assert, in order, each with the meaning its expression has where it stands, one soft assertion and one weight per assert-soft, one objective per maximize or minimize, and nothing else.", "quantifier": "every correct script, any length", "why_tests_cant": "unbounded scripts", "anchors": ["src/base_parser.cpp: parseCommand"]}
{"id": "C82", "title": "Intervals as sets", "statement": "isSubsetOf, isSubsetEqOf, isIntersectingWith, isEmpty, contains, intersection, negation, < and > of intervals are those of the sets of numbers they stand for (< and > of non-empty intervals: every member of one is below every member of the other).", "quantifier": "every interval whose bounds are integers of any size or infinite, or numbers of at most 128 bits", "why_tests_cant": "infinitely many bounds and members", "anchors": ["src/interval.cpp: isSubsetOf, isSubsetEqOf, isIntersectingWith, isEmpty, contains, intersection, operator-, operator<, operator>"]}
{"id": "C83", "title": "Rounding of numbers", "statement": "floor, ceil, round (half away from zero), abs and negation of any finite number are exact.", "quantifier": "every finite number", "why_tests_cant": "all numbers", "anchors": ["src/number.cpp: floor, ceil, round, abs, operator-"]}
{"id": "C84", "title": "Arrays with numeral indices", "statement": "Reading and writing array terms whose indices are numerals gives terms with the value of the read and of the written array, whatever is reordered or dropped; reading the index just written gives the value written.", "quantifier": "every chain of writes, every numeral, every interpretation with arrays, every order of addresses", "why_tests_cant": "unbounded chains, all interpretations", "anchors": ["src/op_parser.cpp: mkSelect, mkStore", "src/simp_parser.cpp: rewriteSelect, normalizeStoreChain"]}
{"id": "C85", "title": "Sort objects", "statement": "After any sequence of sort creations, asking for a sort again gives the same object and creates none, no sort object ever changes, and bit-vector and floating-point sorts have the widths asked for.", "quantifier": "every sequence of creations, every hash function", "why_tests_cant": "unbounded histories, hash collisions", "anchors": ["src/sort.cpp: SortManager::createBVSort, createFPSort, createArraySort"]}
{"id": "C86", "title": "A value keeps what it is given", "statement": "A Value holds exactly what it was constructed from or last assigned, and so does a copy; ++ and -- change an integer by one and return the old or new value; and, or, not of Booleans are the connectives.", "quantifier": "every history of assignments", "why_tests_cant": "unbounded histories, integers of any size", "anchors": ["src/value.cpp: Value::setValue, operator=, operator++, operator--, operator&&, operator||, operator!"]}
{"id": "C87", "title": "String functions of values", "statement": "concatStr, +, repeatStr, reverse, toLower, toUpper and unique of string values are the named functions of the string.", "quantifier": "every string and count", "why_tests_cant": "strings of any length", "anchors": ["src/value.cpp: concatStr, repeatStr, reverse, toLower, toUpper, unique"]}
{"id": "C88", "title": "The tables of variables", "statement": "After any sequence of declarations, temporary variables and other constructor calls: asking again for a name gives the same node, with the sort it was first declared with; isDeclaredVariable and getVariable answer exactly by what was declared; getDeclaredVariables and getVariables list every variable once and nothing else; a new temporary variable is a node no other call ever returned.", "quantifier": "every sequence of calls, every hash function", "why_tests_cant": "unbounded histories, hash collisions", "anchors": ["src/op_parser.cpp: mkVar, mkTempVar", "src/base_parser.cpp: getVariables, getDeclaredVariables, getVariable, isDeclaredVariable", "src/dag.cpp: NodeManager::getIndex, getNode"]}
{"id": "C89", "title": "Renaming and declaring by sort name", "statement": "rename gives a variable its new name: it is found under that name and no longer under the old one, no other variable is affected, and two variables never get the same name; declareVar accepts the name of every sort.", "quantifier": "every history followed by rename or declareVar", "why_tests_cant": "unbounded histories", "anchors": ["src/base_parser.cpp: rename", "src/op_parser.cpp: declareVar, mkTempVar"]}
{"id": "C90", "title": "The arity of an operator", "statement": "getArity of an operator's kind is the number of arguments and indices SMT-LIB gives it, or -1 if it takes any number; a node built for a well-sorted application has that many children, and no argument written in an application is lost.", "quantifier": "every operator of the theories, every well-sorted application", "why_tests_cant": "all operators and argument lists", "anchors": ["src/op_parser.cpp: getArity, mkOper"]}
{"id": "C91", "title": "What a recorded objective answers", "statement": "The accessors of a recorded objective give what its command said: kind, identifier, term, comparison (by default the strict order of the term's sort), whether epsilon and M were given; of a multi-objective the number of its members and each member, which is the objective defined under that name; getObjective(0) of a single objective is itself.", "quantifier": "every correct script and every objective of it", "why_tests_cant": "unbounded scripts and lists of names", "anchors": ["include/objective.h: MetaObjective, SingleObjective, Objective", "src/objective.cpp: getOptKind, getCompareOperatorForObjectiveTerm, getDefaultCompareOperator, getEqNodeKind"]}
{"id": "C92", "title": "Operators applied to intervals", "statement": "Interval::operate with an operator kind gives an interval that contains the result of the operator the kind names for all members of its arguments: the elementary functions, negation, absolute value, sums, differences, products, powers, the polar angle (atan2); and is the set of common members, or the set of members of either. An empty argument gives the empty interval (one interval) or std::invalid_argument (two), a kind that is no operation on intervals std::invalid_argument.", "quantifier": "every kind and all intervals", "why_tests_cant": "real numbers, unbounded integers", "anchors": ["src/interval.cpp: operate, pow, atan2, operAnd, operOr", "src/number.cpp: Number::atan2, HighPrecisionReal::atan2"]}
{"id": "C93", "title": "String expressions", "statement": "An expression built from string constants is folded to the constant of its SMT-LIB value, and evaluating a string expression under a model that gives its variables constants yields the constant of its SMT-LIB value: substr, at, prefixof, suffixof, contains, indexof, replace, replace_all, update, to_lower, to_upper, rev, ++, len, is_digit, from_int, to_int, to_code.", "quantifier": "every string, index and model, expressions of any depth", "why_tests_cant": "unbounded strings, positions and nesting", "anchors": ["src/simp_parser.cpp: simp_oper", "src/eval_parser.cpp: evaluate", "src/util.cpp: strSubstr, strIndexof, strReplace, strReplaceAll, strUpdate"]}
{"id": "C94", "title": "Interval accessors", "statement": "Two intervals with members compare equal exactly if they have the same members; an interval with members is a point exactly if it has one; the midpoint of bounds a real can hold lies between them and is exact for integers; the width is the difference of the bounds, -1 if empty; a bound can be replaced by any value that does not cross the other, otherwise std::invalid_argument and nothing changes.", "quantifier": "every interval without NaN", "why_tests_cant": "unbounded integers, all rationals", "anchors": ["src/interval.cpp: operator==, isPoint, midpoint, width, setLower, setUpper"]}
{"id": "C95", "title": "Checking a model against a script", "statement": "A script is parsed and then the model text a solver prints for it is read: every recorded assertion evaluates under the model that was read to the literal of its SMT-LIB value when the constants have the values written in the text, so the values satisfy the script exactly when every assertion evaluates to true.", "quantifier": "every well-sorted script, every model text that lists the values of its constants", "why_tests_cant": "unbounded scripts, all models", "anchors": ["src/base_parser.cpp: parseStr, parseModel", "src/eval_parser.cpp: evaluate"]}
{"id": "C96", "title": "Numbers in scientific notation are read as the number they denote", "statement": "A literal such as 1.5E-3, 6.02e+23 or -2E(5) (a decimal mantissa, E or e, an integer exponent that may be signed and parenthesised) is read as a real constant whose value is exactly mantissa times ten to the exponent; the constant's text is a plain decimal numeral.", "quantifier": "Every mantissa, every exponent, every parser state in which the text names nothing.", "why_tests_cant": "Mantissa and exponent range over infinitely many texts, the value is computed with three roundings to 128 bits and printed with a limited number of digits, and which of three output formats applies depends on the magnitude of the rounded value; samples do not settle that no digit is ever wrong.", "anchors": ["src/util.cpp: ConversionUtils::parseScientificNotation, TypeChecker::isScientificNotation", "src/number.cpp: HighPrecisionReal::toString, HighPrecisionReal::pow, HighPrecisionReal(const std::string&)", "src/expr_parser.cpp: parseConstFunc", "src/base_parser.cpp: getSymbol"]}
{"id": "C97", "title": "The theory a term belongs to", "statement": "isBVTerm, isFPTerm and isArithTerm hold of a term exactly when its sort is a bit-vector, floating-point or numeric (Int, Real) sort, and isAtom of an application exactly when it is Boolean; on variables and constants they go by the sort.", "quantifier": "Every well-sorted application of every operator of the theories, every variable and constant, every parser state.", "why_tests_cant": "All operators, argument lists, indices and widths.", "anchors": ["include/dag.h: isArithTerm, isBVTerm, isFPTerm, isAtom, isBVAtom, isArithAtom", "include/op_utils.h", "src/op_parser.cpp: mkOper"]}
{"id": "C98", "title": "Dispatch by node kind", "statement": "After any sequence of on (and its forms onAND, onOR, ...) and otherwise, dispatch of a node calls exactly the handler registered last for the node's kind, with this node and context, and returns its result; if there is none or the last one registered was null, the fallback set last; if there is none either, no handler runs and the context is unchanged. No null handler is ever called; has tells whether a handler is registered; every form onX registers for the kind X.", "quantifier": "Every sequence of registrations, every node and context.", "why_tests_cant": "Unbounded histories of registrations and re-registrations.", "anchors": ["include/op_dispatcher.h: OpDispatcher::on, otherwise, has, dispatch, onAND, onOR, onNOT"]}
{"id": "C99", "title": "The texts of numbers, intervals and values", "statement": "An integer written in a base from 2 to 62 is its digits in that base, without leading zeros, and the constructor reads that text, with capitals or white space in front, back as the same integer and refuses texts with other characters. toString of a number is a numeral of exactly its value, and reading it back gives the number. The text of an interval is [ or (, its bounds, ] or ); two different intervals have different texts, and so have two different values.", "quantifier": "Every integer and base, every text, every number, interval and value.", "why_tests_cant": "Unbounded integers and texts, 128-bit reals.", "anchors": ["src/number.cpp: HighPrecisionInteger::HighPrecisionInteger(const std::string&, int), HighPrecisionInteger::toString, Number::toString, HighPrecisionReal::toString, HighPrecisionReal::HighPrecisionReal(const std::string&)", "src/interval.cpp: Interval::toString", "src/value.cpp: Value::toString"]}
{"id": "C100", "title": "The integers compute as integers", "statement": "The operations of HighPrecisionInteger are those of mathematical integers: / and % truncate towards zero with the remainder of the dividend's sign; & | ^ ~ act on every bit of the two's complement, << multiplies and >> divides towards minus infinity; sqrt, safeSqrt and root give the integer part of the root with the operand's sign; pow, factorial and fibonacci are those functions; gcd and lcm are the non-negative ones; isDivisibleBy holds exactly of multiples. A conversion to int, long, unsigned long or long long gives the value itself when the type has it and throws an overflow_error otherwise; to double it rounds towards zero. Errors are thrown exactly for a zero divisor, a zeroth root and an even root of a negative number. A real converted to int or long long gives the nearest integer of the type.", "quantifier": "all integers, all exponents, shifts and root degrees, all reals and doubles including infinities and NaN", "why_tests_cant": "Integers are unbounded and bit positions, exponents and degrees are arbitrary: tests cover a few operands, and the ends of the machine types are usually missed.", "anchors": ["src/number.cpp: HighPrecisionInteger::factorial, fibonacci, gcd, lcm, operator/, operator%, operator&, operator|, operator^, operator~, operator<<, operator>>, pow, sqrt, safeSqrt, root, isDivisibleBy, toInt, toLong, toULong, toLongLong, toDouble, nextBelow, nextAbove", "src/number.cpp: HighPrecisionReal::toInt, HighPrecisionReal::toLongLong"]}
{"id": "C101", "title": "A constant made from a number is that number", "statement": "mkConstInt of an Integer or of an integer Number, and mkConstReal of an Integer, give a constant whose value, in every interpretation, is that integer, whatever its size. mkConstReal of a double, of a Real or of a Number gives a constant whose text is a decimal numeral of the number given; mkConstInt of a real Number gives the nearest integer. mkConstBv of a decimal numeral, of binary digits or of hexadecimal digits and a width gives a constant of the bit-vector sort of that width whose value is the number the text denotes, modulo two to the width.", "quantifier": "all integers, all doubles, all reals, all literals and widths, all interpretations and environments", "why_tests_cant": "The text is produced by several different conversions, each exact on a different set of numbers; tests use short literals that all of them print exactly.", "anchors": ["src/op_parser.cpp: Parser::mkConstInt(const Integer&), mkConstInt(const Number&), mkConstReal(const double&), mkConstReal(const Real&), mkConstReal(const Integer&), mkConstReal(const Number&), Parser::mkConstBv", "src/util.cpp: BitVectorUtils::natToBv, hexToBv"]}
