{"id": "C01", "title": "Published vectors never change", "statement": "Once a vector value has been produced, no later operation on it, on an editor derived from it, or on any other vector sharing storage with it changes any of its elements or its length.", "quantifier": "every finite history of creating, editing (set, append, resize), publishing and re-editing any number of vectors, of any length and with any sharing between them", "why_tests_cant": "sharing depends on the whole history of edits and publishes and on tree height; tests visit a handful of histories and heights", "anchors": ["value/persist/slice.go: Slice, TransientSlice, Transient, Persist, wleaf, wnode, Set, Append, Resize"]}
{"id": "C02", "title": "A vector editor behaves as a list", "statement": "Starting from any vector, appending, setting an element, resizing, reading an element, asking the length and iterating over a range give exactly what the same operations on a plain list give, and never fail internally for in-range indexes.", "quantifier": "every history of editor operations, every length, every index", "why_tests_cant": "tree growth happens at lengths that are powers of 16 times 16; tests cannot cover all lengths and histories", "anchors": ["value/persist/slice.go: At, All, Slice, Set, Append, Resize, Persist"]}
{"id": "C03", "title": "Concurrent element writes to one editor are safe", "statement": "When goroutines concurrently set distinct indexes of the same editor, then for every interleaving of their atomic steps the final contents are those of doing the writes one after another.", "quantifier": "every number of writers, every set of distinct indexes, every interleaving of atomic steps", "why_tests_cant": "schedules cannot be enumerated by running tests", "anchors": ["value/persist/slice.go: Set, wleaf, wnode, writeTail", "value/eval.go: pfor"]}
{"id": "C04", "title": "Variables have value semantics", "statement": "After y = x, an indexed assignment to x (or any other operation on x) is never visible through y, and vice versa.", "quantifier": "every sequence of assignments, reads and indexed assignments over any number of variables", "why_tests_cant": "copy-on-write makes the effect depend on when each variable was last read", "anchors": ["value/context.go: Var, Value, Assign, editor", "value/index.go: IndexAssign"]}
{"id": "C05", "title": "Indexed assignment changes exactly the selected elements", "statement": "x[i; j; ...] = v stores the elements of v at the selected positions, leaves every other element and the shape of x alone, and when it reports an error x is unchanged.", "quantifier": "every array, every index list with in-range or out-of-range entries, every right-hand side", "why_tests_cant": "index combinations are unbounded and errors can occur at any position", "anchors": ["value/index.go: IndexAssign, indexState.init"]}
{"id": "C06", "title": "Parallel loops are invisible", "statement": "An operation evaluated by the parallel loop visits each index exactly once and produces the same result as the sequential loop, for every processor count and every completion order; it reports an error exactly when some index fails.", "quantifier": "every length, work size, GOMAXPROCS value and completion order of the chunks", "why_tests_cant": "depends on the machine and the scheduler", "anchors": ["value/eval.go: pfor, sendRecover, safeBinary"]}
{"id": "C07", "title": "Addition, subtraction and multiplication are exact", "statement": "a+b, a-b and a*b on integers and rationals of any size, and whole expressions built from + - * / min max, unary - / abs sgn floor ceil over number literals, denote exactly the mathematical result; machine integer overflow never shows. The only errors are division by zero and, with a size limit set, exceeding the limit.", "quantifier": "all integers and rationals in any internal representation, all expression trees", "why_tests_cant": "boundaries between machine and big integers and unbounded sizes", "anchors": ["value/binary.go: + - *", "value/int.go: maybeBig", "value/bigint.go: shrink", "value/bigrat.go: shrink"]}
{"id": "C08", "title": "Division is exact and fails only on zero", "statement": "a/b on integers and rationals is the exact quotient when b is non-zero, and is an error exactly when b is zero.", "quantifier": "all pairs of exact numbers", "why_tests_cant": "unbounded domain", "anchors": ["value/binary.go: /", "value/bigrat.go"]}
{"id": "C09", "title": "Results are canonical", "statement": "Every number produced by exact arithmetic is in its smallest representation: an integer in the machine range is a small integer, a rational with denominator 1 is an integer, a complex with zero imaginary part is real.", "quantifier": "all results of arithmetic on canonical operands", "why_tests_cant": "edge of the machine range; unbounded domain", "anchors": ["value/int.go: maybeBig, shrink", "value/bigint.go: shrink", "value/bigrat.go: shrink", "value/complex.go: shrink"]}
{"id": "C10", "title": "Euclidean division", "statement": "a div b and a mod b are the integer q and the number r with a = q*b + r and 0 <= r < |b|, (div for integers, mod for integers and rationals, of any size); div fails exactly when b = 0 and a mod 0 is a.", "quantifier": "all pairs of exact real numbers", "why_tests_cant": "four sign combinations times representations times unbounded sizes", "anchors": ["value/eval.go: QuoRem", "value/binary.go: div, mod"]}
{"id": "C11", "title": "Truncated division", "statement": "a idiv b and a imod b on integers are the quotient truncated toward zero and the matching remainder (sign of a), failing exactly when b = 0.", "quantifier": "all integer pairs", "why_tests_cant": "unbounded domain", "anchors": ["value/binary.go: idiv, imod"]}
{"id": "C12", "title": "Arithmetic does not modify its operands", "statement": "Evaluating an arithmetic operator or function leaves the values of its operands (and of any variable holding them) as they were.", "quantifier": "all operators and operands", "why_tests_cant": "aliasing only shows when an operand is looked at again later", "anchors": ["value/eval.go: QuoRem", "value/binary.go", "value/sin.go: floatSin"]}
{"id": "C13", "title": "Comparisons agree with mathematics", "statement": "<, <=, ==, !=, >=, > on exact numbers return 1 exactly when the mathematical relation holds, otherwise 0, regardless of representation; exactly one of <, ==, > holds.", "quantifier": "all pairs of exact real numbers", "why_tests_cant": "unbounded domain and all representation pairs", "anchors": ["value/binary.go: comparison table", "value/eval.go: EvalCharEqual"]}
{"id": "C14", "title": "Integer powers are exact", "statement": "a ** n for an exact a and an integer n is the exact power (1/a to the -n for negative n), an error for 0 to a negative power.", "quantifier": "all exact bases and integer exponents", "why_tests_cant": "unbounded domain", "anchors": ["value/binary.go: **, bigIntExp", "value/bigrat.go"]}
{"id": "C15", "title": "Bitwise operators are two's complement on unbounded integers", "statement": "&, |, ^ and unary ^ act bit by bit on the infinite two's complement expansion; << and >> multiply and floor-divide by powers of two.", "quantifier": "all integers, all bit positions, all legal shift counts", "why_tests_cant": "unbounded domain", "anchors": ["value/binary.go: & | ^ << >>", "value/unary.go: ^"]}
{"id": "C16", "title": "Factorial is n!", "statement": "!n is the product 1*2*...*n for every non-negative small (machine) integer n, and an error for negative n.", "quantifier": "all non-negative integers", "why_tests_cant": "computed by a prime-swing algorithm whose correctness is a theorem of number theory", "anchors": ["value/fac.go: factorial, swing, product, primeGen"]}
{"id": "C17", "title": "Binary ! counts combinations", "statement": "a!b is the number of a-element subsets of a b-element set for non-negative integers a, b.", "quantifier": "all pairs of non-negative integers", "why_tests_cant": "unbounded domain", "anchors": ["value/binary.go: !"]}
{"id": "C18", "title": "Floor, ceiling, magnitude and sign", "statement": "floor x is the greatest integer <= x, ceil x the least integer >= x, abs, sgn and negation are the mathematical ones, for exact x.", "quantifier": "all exact real numbers", "why_tests_cant": "unbounded domain", "anchors": ["value/unary.go: floor, ceil, abs, sgn, -"]}
{"id": "C19", "title": "Logical operators", "statement": "and, or, xor, nand, nor and not compute the truth tables on truthiness (non-zero) of two numbers (real or complex) or two characters and return only 0 or 1.", "quantifier": "all exact scalars", "why_tests_cant": "all representation pairs", "anchors": ["value/binary.go: and or xor nand nor", "value/unary.go: not"]}
{"id": "C20", "title": "maxbits bounds every integer result", "statement": "With maxbits set to B > 0, no evaluation yields an integer that needs more than B bits; an error is reported instead.", "quantifier": "all operands and all operators that can grow integers", "why_tests_cant": "unbounded domain; each operator must remember to check", "anchors": ["value/bigint.go: mustFit", "value/binary.go: bigIntExp, <<"]}
{"id": "C21", "title": "min and max", "statement": "a min b and a max b are the lesser and greater operand of any two exact numbers.", "quantifier": "all pairs of exact real numbers", "why_tests_cant": "unbounded domain", "anchors": ["value/binary.go: min, max"]}
{"id": "C22", "title": "encode and decode are inverse", "statement": "For positive bases, bases encode n yields digits in range and bases decode (bases encode n) equals n modulo the product of the bases; decode is the mixed-radix polynomial value.", "quantifier": "all base vectors and all numbers", "why_tests_cant": "unbounded lengths and values", "anchors": ["value/binary.go: encode, decode"]}
{"id": "C23", "title": "Complex arithmetic is exact", "statement": "+, -, *, / on complex numbers with exact parts are the field operations on the Gaussian rationals; a result with zero imaginary part is the real number.", "quantifier": "all complex numbers with exact components", "why_tests_cant": "unbounded domain", "anchors": ["value/complex.go: add sub mul div inverse shrink"]}
{"id": "C24", "title": "Set ordering is a total order", "statement": "The comparison used for sorting, sets and === is reflexive, antisymmetric and transitive and compatible with numeric equality, on scalars and arbitrarily nested vectors and matrices of exact values.", "quantifier": "all triples of nested exact values", "why_tests_cant": "transitivity is a property of all triples across all type combinations", "anchors": ["value/sets.go: OrderedCompare"]}
{"id": "C25", "title": "Membership", "statement": "A in B has a 1 exactly at the positions of the elements of A that equal some element of B.", "quantifier": "all vectors of exact values", "why_tests_cant": "sort plus binary search must agree with equality on all values", "anchors": ["value/vector.go: membership, sortedCopy, contains"]}
{"id": "C26", "title": "Union, intersection and unique", "statement": "A union B is A followed by the elements of B not in A; A intersect B keeps the elements of A in B in order; unique keeps one representative of each distinct element, in order of first appearance.", "quantifier": "all vectors of exact values", "why_tests_cant": "unbounded lengths; depends on the sort's treatment of ties", "anchors": ["value/sets.go: union, intersect, unique"]}
{"id": "C27", "title": "Index-of finds the first match", "statement": "A iota B gives for each element of B the position (index origin based) of its first occurrence in A, or origin-1 when there is none.", "quantifier": "all vectors and all index origins", "why_tests_cant": "unbounded lengths and ties", "anchors": ["value/binary.go: iota"]}
{"id": "C28", "title": "Grade up and down are sorting permutations", "statement": "up x is a permutation of the indexes of x under which x is ascending, equal elements keeping their order; down x is a permutation under which x is descending.", "quantifier": "all vectors of exact values", "why_tests_cant": "unbounded lengths", "anchors": ["value/vector.go: grade", "value/unary.go: up, down"]}
{"id": "C29", "title": "=== is identity of values", "statement": "A === B is 1 exactly when A and B have the same shape and equal corresponding elements.", "quantifier": "all pairs of nested exact values", "why_tests_cant": "all shapes", "anchors": ["value/sets.go: equal, OrderedCompare"]}
{"id": "C30", "title": "Elementwise operators", "statement": "A scalar operator applied to arrays acts element by element, a scalar (or one-element array) operand is extended to the other's shape, and unequal shapes are an error.", "quantifier": "all operators, all shapes, all elements (a vector operand extends along the last axis of an array)", "why_tests_cant": "unbounded shapes", "anchors": ["value/eval.go: EvalBinary, binaryVectorOp, binaryMatrixOp, unaryVectorOp, unaryMatrixOp"]}
{"id": "C31", "title": "Reduction is right-associative", "statement": "op/ v is v1 op (v2 op (... op vn)) for every operator and vector; on an array it reduces along the last axis (op/% along the first) and the result has that axis removed.", "quantifier": "all operators (built in or user defined), all shapes", "why_tests_cant": "unbounded lengths and all operators", "anchors": ["value/eval.go: Reduce, ReduceFirst"]}
{"id": "C32", "title": "Scan elements are reductions of prefixes", "statement": "Element i of op\\ v equals op/ of the first i elements of v, for every operator.", "quantifier": "all operators including user defined ones, all vectors", "why_tests_cant": "the fast path for operators assumed associative must agree with the definition", "anchors": ["value/eval.go: Scan, ScanFirst, knownAssoc"]}
{"id": "C33", "title": "Outer product", "statement": "The element at (i..., j...) of A o.op B is A[i...] op B[j...], and the shape is the concatenation of shapes.", "quantifier": "all operators and shapes", "why_tests_cant": "unbounded shapes", "anchors": ["value/eval.go: outerProduct"]}
{"id": "C34", "title": "Inner product", "statement": "The element at (i..., j...) of A f.g B is f/ of A[i...; k] g B[k; j...] over k, and mismatched inner lengths are an error.", "quantifier": "all operators and shapes", "why_tests_cant": "unbounded shapes", "anchors": ["value/eval.go: innerProduct"]}
{"id": "C35", "title": "Reshape", "statement": "S rho B has shape S, its k-th element in ravel order is element k modulo the count of B; its size is the product of S.", "quantifier": "all non-empty shape vectors S and all data", "why_tests_cant": "unbounded shapes", "anchors": ["value/matrix.go: reshape, NewMatrix"]}
{"id": "C36", "title": "Take and drop", "statement": "n take B has |n| elements per axis, the first (last for negative n) of B, padded with zeros or blanks; n drop B removes them; (n take B),(n drop B) is B when 0 <= n <= count B.", "quantifier": "all counts and arrays of every rank", "why_tests_cant": "unbounded counts, shapes, ranks", "anchors": ["value/matrix.go: take, drop", "value/binary.go: take, drop"]}
{"id": "C37", "title": "Rotation and reversal", "statement": "n rot B moves element i+n (modulo the length) to position i along the last axis, flip along the first; rotations compose additively and unary rot/flip are involutions.", "quantifier": "all counts and shapes", "why_tests_cant": "unbounded shapes and counts", "anchors": ["value/vector.go: rotate, doRotate, reverse", "value/matrix.go: rotate, vrotate", "value/unary.go: rot, flip"]}
{"id": "C38", "title": "Transposition", "statement": "transp B reverses the axes: its element at reversed coordinates is B's element; applying it twice gives B. A transp B permutes (or takes diagonals of) axes by A.", "quantifier": "all shapes and ranks other than x by 0, all axis vectors", "why_tests_cant": "unbounded ranks", "anchors": ["value/matrix.go: transpose, binaryTranspose"]}
{"id": "C39", "title": "Catenation", "statement": "A , B joins along the last axis and A ,% B along the first: every element of A and B appears at its place and sizes add.", "quantifier": "all shapes", "why_tests_cant": "unbounded shapes", "anchors": ["value/vector.go: catenate", "value/matrix.go: catenate, catenateFirst"]}
{"id": "C40", "title": "Selection and expansion", "statement": "A sel B repeats element i of B abs A[i] times (zeros if A[i] is negative) in order; A fill B inserts zeros; shapes and counts are as documented, mismatched lengths are errors.", "quantifier": "all count vectors and vectors", "why_tests_cant": "unbounded lengths", "anchors": ["value/vector.go: sel", "value/matrix.go: sel", "value/binary.go: fill"]}
{"id": "C41", "title": "Partition", "statement": "A part B groups the elements of B under non-zero A, starting a group where A increases or after a zero; concatenating the groups gives the elements with non-zero A; on a matrix every row is partitioned.", "quantifier": "all score vectors and arrays", "why_tests_cant": "unbounded lengths and rows", "anchors": ["value/vector.go: partition, doPartition", "value/matrix.go: partition"]}
{"id": "C42", "title": "where and coordinate iota", "statement": "where B lists exactly the indexes of the non-zero (repeated) elements in order; iota of a vector is the array of all coordinates.", "quantifier": "all arrays", "why_tests_cant": "unbounded shapes", "anchors": ["value/unary.go: where, iota"]}
{"id": "C43", "title": "mix and split are inverse", "statement": "mix split B is B for every matrix; split mix V is V for every vector of equal-length vectors; shorter elements are padded.", "quantifier": "all matrices and vectors of vectors", "why_tests_cant": "unbounded shapes", "anchors": ["value/matrix.go: split, mix"]}
{"id": "C44", "title": "Indexing", "statement": "A[I; J; ...] has the concatenated shapes of the index expressions (a missing index standing for the whole axis), its elements are A at the selected coordinates, and an out-of-range index is an error.", "quantifier": "all arrays, index lists and origins", "why_tests_cant": "unbounded shapes and index lists", "anchors": ["value/index.go: Index, indexState.init"]}
{"id": "C45", "title": "A matrix inverse is an inverse", "statement": "If inv M succeeds on a square matrix of exact numbers then the product of the result with M is the identity matrix.", "quantifier": "all square matrices of exact numbers", "why_tests_cant": "Gaussian elimination over unbounded sizes", "anchors": ["value/matrix.go: inverse"]}
{"id": "C46", "title": "Array shapes never change behind the user's back", "statement": "Evaluating an expression never changes the shape of an array held in a variable that the expression does not assign.", "quantifier": "every history of array operations", "why_tests_cant": "depends on hidden spare capacity of shape slices shared between arrays", "anchors": ["value/eval.go: outerProduct, Reduce", "value/matrix.go: mix, split"]}
{"id": "C47", "title": "No input crashes the interpreter", "statement": "Evaluating any operator on any operands ends in a value or an ivy error, never in a Go runtime panic that terminates the process.", "quantifier": "all operators, all shapes including empty dimensions", "why_tests_cant": "degenerate shapes are endless", "anchors": ["value/matrix.go: rotate, vrotate, transpose", "value/index.go: Index", "value/eval.go: innerProduct", "run/run.go: Run"]}
{"id": "C48", "title": "Locals are fresh in each invocation", "statement": "A local variable of a user-defined operator that has not been assigned in this invocation is reported as undefined; values from other invocations never show.", "quantifier": "every program and call history", "why_tests_cant": "depends on which frames happened to occupy the stack before", "anchors": ["exec/context.go: push, pop, Local", "exec/function.go: EvalUnary, EvalBinary"]}
{"id": "C49", "title": "The call stack is balanced and bounded", "statement": "After any call of a user-defined operator, whether it returns or fails, the stack is as before; nesting never exceeds maxstack, and exceeding it is an error.", "quantifier": "every program, nesting depth and error position", "why_tests_cant": "errors can unwind from any depth", "anchors": ["exec/function.go: EvalUnary, EvalBinary", "exec/context.go: push, pop"]}
{"id": "C50", "title": "The operator table is consistent", "statement": "The saved order of definitions lists exactly the currently defined operators, each once; a failed definition leaves the table as before; opdelete removes exactly the named operator.", "quantifier": "every history of definitions, failed definitions, redefinitions and deletions", "why_tests_cant": "history dependent", "anchors": ["exec/context.go: Define, Undefine", "parse/function.go: functionDefn"]}
{"id": "C51", "title": "A name is never both a variable and an operator", "statement": "No sequence of assignments and operator definitions leaves a name bound both as a global variable and as a user-defined operator.", "quantifier": "every history of assignments and definitions", "why_tests_cant": "history dependent", "anchors": ["exec/context.go: noVar, noOp, AssignGlobal, Define", "parse/save.go: comment"]}
{"id": "C52", "title": "Right-to-left evaluation without precedence", "statement": "An expression of operands and operators parses with every binary operator taking everything to its right as right operand and unary operators applying to everything to the right; evaluation order is right to left.", "quantifier": "all token sequences", "why_tests_cant": "unbounded expressions", "anchors": ["parse/parse.go: expr, operand, numberOrVector", "value/expr.go: Eval"]}
{"id": "C53", "title": "save then get restores every value", "statement": "The text written by )save for a variable, when read back, evaluates to the same value.", "quantifier": "all values: nested vectors, matrices, strings, rationals, complex", "why_tests_cant": "unbounded nesting", "anchors": ["parse/save.go: put, save"]}
{"id": "C54", "title": "Numbers print and read back", "statement": "An integer, fraction or complex number printed in an output base is read back as the same number when the input base is the same; a printed line of numbers is read back as those numbers, each one token.", "quantifier": "all canonical numbers and lists of them, all bases that can be set (0, 2..16), every set of operator names that are not themselves numerals", "why_tests_cant": "unbounded domain", "anchors": ["value/value.go: Parse, parseTwo", "value/int.go: Sprint", "value/bigint.go: Sprint", "value/bigrat.go: Sprint", "value/complex.go: Sprint", "value/vector.go: oneLineSprint", "scan/scan.go: lexComplex, scanNumber"]}
{"id": "C55", "title": "String literals round-trip", "statement": "The source form printed for a character vector reads back as the same characters.", "quantifier": "all sequences of Unicode code points", "why_tests_cant": "1.1 million code points, all sequences", "anchors": ["value/expr.go: VectorExpr.ProgString", "value/char.go: ParseString, unquote"]}
{"id": "C56", "title": "The parser always terminates with a tree or an error", "statement": "On every token sequence the parser consumes tokens and stops with an expression list or an error report; it never loops or runs past the end.", "quantifier": "all token sequences", "why_tests_cant": "unbounded input", "anchors": ["parse/parse.go"]}
{"id": "C57", "title": "Printed expressions parse back to themselves", "statement": "The program text printed for a parsed operator body parses to the same tree.", "quantifier": "all expressions", "why_tests_cant": "unbounded nesting", "anchors": ["value/expr.go: ProgString, IsCompound", "exec/function.go: String"]}
{"id": "C58", "title": "Which identifiers are local is decided by first use", "statement": "Within an operator body a name is local exactly when its first use in evaluation order is an assignment (or it is an argument), and every occurrence refers to the same variable.", "quantifier": "all operator bodies", "why_tests_cant": "unbounded bodies", "anchors": ["parse/function.go: funcVars, walk"]}
{"id": "C59", "title": "Series evaluation always stops", "statement": "Every series loop stops after a number of iterations bounded by the configured precision.", "quantifier": "all terms, all precisions", "why_tests_cant": "values come from floating point and could oscillate for ever", "anchors": ["value/loop.go: done"]}
{"id": "C60", "title": "Configuration commands keep settings legal", "statement": "After any sequence of special commands the bases are 0 or 2..16, the precision is between 1 and a million and the origin is non-negative; a rejected command changes nothing.", "quantifier": "every sequence of special commands", "why_tests_cant": "history dependent", "anchors": ["parse/special.go: special", "config/config.go"]}
{"id": "C61", "title": "An error aborts only its own line", "statement": "After an error in one input line, the interpreter continues with the following lines, with all earlier assignments intact and the call stack empty.", "quantifier": "every program and error position", "why_tests_cant": "errors can occur anywhere", "anchors": ["run/run.go: Run", "parse/parse.go: Line, errorf"]}
{"id": "C62", "title": "Conditional return and sequencing in operators", "statement": "The value of an operator call is that of the right side of the first conditional whose left side is true, else of the last expression; nothing after a taken return is evaluated.", "quantifier": "all bodies and arguments", "why_tests_cant": "unbounded bodies", "anchors": ["value/eval.go: EvalFunctionBody, isTrue"]}
{"id": "C63", "title": "each applies the operator to every part", "statement": "op@ B applies op to every element of B, op@@ to every row or vector part at the next depth, and the results are collected in an array of the same outer shape.", "quantifier": "all operators, depths and shapes", "why_tests_cant": "unbounded shapes and depths", "anchors": ["value/eval.go: Each, BinaryEach"]}
{"id": "C64", "title": "A definition defines the operator its text says", "statement": "A definition is accepted exactly when it has the form op [left] name right = body with distinct names; the operator then has that name, those arguments and the statements of the body in order, parsed where the operator is known and its arguments are variables; opdelete names exactly one operator.", "quantifier": "all token sequences, on one line or several", "why_tests_cant": "unbounded lengths and nesting of arguments", "anchors": ["parse/function.go: functionDefn, funcArg", "exec/function.go: Function"]}
{"id": "C65", "title": "Matrix division solves the equations", "statement": "If B mdiv A succeeds, for a square matrix A of exact numbers and an array B with as many rows, the result X is the only solution of A +.* X = B; for vectors U and V of real numbers U mdiv V is the X for which U - X*V is orthogonal to V.", "quantifier": "all matrices, right sides and vectors of exact numbers", "why_tests_cant": "unbounded sizes", "anchors": ["value/binary.go: mdiv", "value/matrix.go: inverse"]}
{"id": "C66", "title": "sin, cos and tan return", "statement": "sin x and cos x end for every number x and every configured precision, after reducing a non-negative x to one below 2 pi.", "quantifier": "all arguments and precisions", "why_tests_cant": "the number of subtractions depends on the argument and on rounding", "anchors": ["value/sin.go: twoPiReduce, floatSin, floatCos"]}
{"id": "C67", "title": "Square roots are accurate", "statement": "sqrt x of a positive number x, when a value is returned, is a positive z with z*z equal to x within a few units in the last place of the configured precision; sqrt of a negative float is not computed by the real function.", "quantifier": "all positive numbers, all precisions of at least 8 bits", "why_tests_cant": "rounding errors depend on every bit of the argument", "anchors": ["value/sqrt.go: floatSqrt", "value/loop.go: done"]}
{"id": "C68", "title": "Logarithms of integers are exact when they are integers", "statement": "For integers b > 1 and v > 0: if v is b**n then b log v is the integer n, and if b log v is the integer n then b**n is v.", "quantifier": "all pairs of integers, small and big", "why_tests_cant": "unbounded domain; the algorithm branches on divisibility at every level", "anchors": ["value/log.go: logBaseU, intLog, uint64Log, bigIntLog"]}
{"id": "C69", "title": "Elementary functions have the right sign and range", "statement": "e**x and cosh x are positive and cos x is between -1 and 1 (up to rounding), for every number x and precision.", "quantifier": "all numbers and precisions", "why_tests_cant": "cancellation depends on the argument and the precision", "anchors": ["value/power.go: exponential", "value/sinh.go: floatCosh", "value/sin.go: floatCos"]}
{"id": "C70", "title": "Odd functions are odd", "statement": "sin -x, sinh -x and (for small x) atan -x are exactly the negations of sin x, sinh x and atan x, at every precision.", "quantifier": "all numbers and precisions", "why_tests_cant": "rounding depends on every bit", "anchors": ["value/sin.go: floatSin", "value/sinh.go: floatSinh", "value/asin.go: floatAtan"]}
{"id": "C71", "title": "Scanning loses nothing and ends", "statement": "Whatever the text, asking for the next token always ends; the tokens, the blanks between them and comments together are the text, in order and without gap or overlap, up to the end or the first error.", "quantifier": "all texts, input bases and sets of defined operators", "why_tests_cant": "texts have any length; a lost character shows only for particular neighbours", "anchors": ["scan/scan.go: Next, lexAny, lexOperator, lexComplex, lexIdentifier"]}
{"id": "C72", "title": "The final newline does not matter", "statement": "A program gives the same tokens whether or not its last line ends in a newline.", "quantifier": "all texts", "why_tests_cant": "depends on lookahead at the end of every form of token", "anchors": ["scan/scan.go: peek2, backup, lexAny"]}
{"id": "C73", "title": "Letters beyond the base are names", "statement": "A letter that is not a digit of the input base is taken as part of a name in every position.", "quantifier": "all texts and bases", "why_tests_cant": "needs every base and neighbour", "anchors": ["scan/scan.go: isNumeral, lexAny, lexOperator"]}
{"id": "C74", "title": "Lines are separate", "statement": "A token other than a raw string holds no newline, and a scanning error loses the rest of its own line only, so that following lines are read as if alone.", "quantifier": "all texts", "why_tests_cant": "depends on what is loaded when the error is found", "anchors": ["scan/scan.go: errorf, lexOperator, loadLine"]}
{"id": "C75", "title": "Tokens have the form of their kind", "statement": "A string runs to the first matching quote that is not escaped, a name consists of letters, digits and underscores (an @ only after a user-defined unary operator), punctuation tokens are the one character.", "quantifier": "all texts, bases and sets of defined operators", "why_tests_cant": "texts have any length and escapes may stand anywhere", "anchors": ["scan/scan.go: lexQuote, lexRawQuote, lexIdentifier, lexAny"]}
{"id": "C76", "title": "Decimal notation is exact", "statement": "A number written with a decimal point or an exponent denotes exactly the rational number of the notation; nothing is rounded.", "quantifier": "all digit strings, signs and exponents within the documented range, all bases", "why_tests_cant": "digit strings of any length", "anchors": ["value/value.go: Parse", "value/bigrat.go: setBigRatFromFloatString"]}
{"id": "C77", "title": "The input base applies to numbers with a point", "statement": "With an input base b the digits of 1.1 are base-b digits.", "quantifier": "all numbers with a point or exponent", "why_tests_cant": "one digit string means different numbers", "anchors": ["value/value.go: Parse", "value/bigrat.go: setBigRatFromFloatString"]}
{"id": "C78", "title": "A saved workspace comes back", "statement": "After )save in one session and )get of the file in another, the second session has the settings and the variables of the first; variables it had under other names, its operators and its files are as before.", "quantifier": "all workspaces and all sessions that read them", "why_tests_cant": "unbounded workspaces; two sessions and every setting interact", "anchors": ["parse/save.go: save, put", "parse/special.go: special, runFromFile, runUntilError"]}
{"id": "C79", "title": "Commands do not disturb variables", "statement": "A special command other than )get leaves the value of every variable and the definition of every operator as it was.", "quantifier": "all sessions and commands", "why_tests_cant": "every command in every state", "anchors": ["parse/special.go: special", "parse/parse.go: Line", "exec/context.go: SetConstants"]}
{"id": "C80", "title": ")get can be used any number of times", "statement": ")get of a file that can be read works however many )get commands, failed ones included, came before it.", "quantifier": "all histories of a session", "why_tests_cant": "depends on the whole history", "anchors": ["parse/special.go: runFromFile, runFromReader, runUntilError"]}
{"id": "C81", "title": "A numeric command sets its setting and nothing else", "statement": ")base n, )ibase n, )obase n, )maxbits n, )maxdigits n, )maxstack n, )origin n, )prec n and )seed n take n in decimal whatever the input base, set just that setting to n when it is in the documented range, and otherwise report an error and change nothing.", "quantifier": "all numbers, bases and sessions", "why_tests_cant": "every number in every base", "anchors": ["parse/special.go: special, nextDecimalNumber, nextDecimalNumber64", "config/config.go"]}
{"id": "C82", "title": "The last result is in _", "statement": "After a line of expressions is evaluated, _ holds the value of the last one that is not an assignment.", "quantifier": "all lines in all sessions", "why_tests_cant": "all programs", "anchors": ["run/run.go: Run, printValues", "parse/special.go: runUntilError"]}
{"id": "C83", "title": "Operators survive )save and )get", "statement": "After )save in one session and )get of the file in a fresh one, every operator the first session has defined is defined in the second with the same arguments and the same body, and in the same order; in between, the definitions are text that the scanner and the parser read.", "quantifier": "all workspaces: any number of operators, of one line or several, that use each other and themselves", "why_tests_cant": "unbounded sets of definitions, nesting of expressions and chains of mutual use; the printed text of each is read among the operators that precede it", "anchors": ["parse/save.go: save", "parse/function.go: references", "exec/function.go: String", "value/expr.go: ProgString", "scan/scan.go: Next"]}
{"id": "C84", "title": "A roll is one of the first n integers", "statement": "?n is one of the n integers that start at the origin, and any of them can come up; on an array each number is replaced by such a roll of its own, the shape kept. A number that is not a positive integer is an error.", "quantifier": "all numbers and arrays of numbers, all origins, all states of a random number generator that answers within its documented ranges", "why_tests_cant": "the result depends on the generator's state; tests see a few draws of one generator, and a value outside the range may come up once in 2^64 draws", "anchors": ["value/unary.go: ?", "value/unary.go: bigIntRand", "config/config.go: Random, Source"]}
{"id": "C85", "title": "A deal is a sequence of distinct integers", "statement": "a?b is a vector of a distinct integers among the b integers that start at the origin; every such sequence can be dealt; a > b, negative operands and operands that are not small integers are errors.", "quantifier": "all operands, all origins, all states of the generator", "why_tests_cant": "distinctness and range must hold for every permutation the generator may give", "anchors": ["value/binary.go: ?"]}
{"id": "C86", "title": "rand x lies in [0, x)", "statement": "rand x is a number that is at least 0 and less than x; it is zero only for the draw zero, and a negative x is an error.", "quantifier": "all numbers x, all precisions, all states of the generator", "why_tests_cant": "the endpoint comes up once in 2^256 draws and more often through rounding; no number of draws shows that it does not", "anchors": ["value/unary.go: rand", "value/unary.go: bigFloatRand"]}
{"id": "C87", "title": "The seed determines the random numbers", "statement": "After )seed n the same expressions give the same random numbers, whatever the number of processors and however their goroutines are scheduled.", "quantifier": "all seeds, generators, vector lengths, numbers of processors and schedules of goroutines", "why_tests_cant": "the result depends on a race between goroutines for the generator's lock; a test sees one schedule at a time", "anchors": ["value/eval.go: pfor, safeUnary, unaryVectorOp", "value/unary.go: ?, rand", "config/config.go: SetRandomSeed, LockRandom"]}
{"id": "C88", "title": "A vector is displayed on one line, and a vector of numbers can be told from its display", "statement": "A vector whose elements take one line each is displayed as these elements with single spaces between them, arrays among them in parentheses; a vector of characters is displayed as its characters with nothing between them. Two vectors built of numbers and of such vectors, to any depth, that have the same display are equal, and the display of a vector of numbers, typed in again, is read as those numbers.", "quantifier": "all vectors, of any length and depth of nesting; all number formats and bases", "why_tests_cant": "Ambiguity of a display shows only on the pairs of values that collide, and tests compare single values with single expected texts.", "anchors": ["value/vector.go Vector.Sprint, oneLineSprint, multiLineSprint", "value/char.go Char.Sprint"]}
{"id": "C89", "title": "A matrix is displayed as an aligned grid", "statement": "A matrix whose elements take one line each is displayed with one line for each row, all lines of the same length, the elements at the right of their columns, which are all equally wide if every element is shorter than 5 and else as wide as the longest element in the column. With three dimensions there is a grid for each plane, with the same columns, and an empty line between planes. A matrix of characters has nothing between columns. Matrices of numbers with the same display are equal.", "quantifier": "all matrices of two or three dimensions, of any size, with any elements that take one line", "why_tests_cant": "Column widths depend on all the elements at once; tests have a few literal matrices.", "anchors": ["value/matrix.go Matrix.Sprint, elemStrs, write2d, widths"]}
{"id": "C90", "title": "Every array can be displayed", "statement": "Displaying an array whose elements can be displayed gives a text, never a panic.", "quantifier": "all arrays of any shape and nesting", "why_tests_cant": "Nested layouts combine widths and heights of all the elements; panics need particular combinations that tests have not tried.", "anchors": ["value/vector.go multiLineSprint, blanks", "value/matrix.go elemStrs, write2d"]}
{"id": "C91", "title": "The rows of a nested array stand below each other", "statement": "In the display of a vector, each element that takes several lines has its rows in consecutive lines from the first on, all in the same columns, and no two elements share a column.", "quantifier": "all vectors with nested arrays", "why_tests_cant": "Misalignment depends on the heights and widths of the elements before, and tests check a few cases.", "anchors": ["value/vector.go multiLineSprint"]}
{"id": "C92", "title": "'T' encode gives the date and time in the configured zone", "statement": "For every number of seconds since 1970, 'T' encode gives the year, month, day, hour, minute and second that a clock in the configured zone shows at that moment by the Gregorian calendar, and the zone's offset at that moment.", "quantifier": "all numbers of seconds, zones and precisions", "why_tests_cant": "Leap years, months, times before 1970 and roundings of fractions are unboundedly many; tests have a handful of dates.", "anchors": ["value/sys.go encodeTime", "value/sys.go timeVec", "value/sys.go secNsec", "value/sys.go timeFromValue", "config/config.go LocationAt"]}
{"id": "C93", "title": "'T' decode undoes 'T' encode", "statement": "'T' decode 'T' encode s is s, for whole numbers s of seconds, and a time with a fraction keeps its nanoseconds.", "quantifier": "all numbers of seconds, zones, machines and moments when the zone was set", "why_tests_cant": "The outcome depends on the zone of the machine and the date on which the test runs.", "anchors": ["value/sys.go encodeTime", "value/sys.go decodeTime", "config/config.go SetLocation"]}
{"id": "C94", "title": "'T' encode undoes 'T' decode", "statement": "The vector of a date, a time of day and an offset is decoded as that moment, missing fields being the least ones; encoding the result gives the fields back.", "quantifier": "all valid dates, times of day, zones, and lengths of the vector", "why_tests_cant": "The dates and zones are unboundedly many, and the outcome depends on when the zone was set.", "anchors": ["value/sys.go decodeTime", "config/config.go Location", "config/config.go LocationAt"]}
{"id": "C95", "title": "'T' decode does not change its operand", "statement": "After 'T' decode x, the variable x is what it was.", "quantifier": "all time vectors and histories of decodes", "why_tests_cant": "A test that decodes a vector once does not see that it has changed.", "anchors": ["value/sys.go secNsec", "value/sys.go decodeTime"]}
{"id": "C96", "title": "Conversions of times do not panic", "statement": "With a left operand of characters, encode and decode give a result or an error, for every right operand.", "quantifier": "all right operands", "why_tests_cant": "Which operands panic is a question about all of them.", "anchors": ["value/binary.go encode", "value/binary.go decode", "value/sys.go encodeTime"]}
{"id": "C97", "title": "Arithmetic with floats is correctly rounded", "statement": "The sum, difference, product and quotient of two numbers of which at least one is a float, and the negation, absolute value and inverse of a float, are numbers of the configured precision that are nearest to the exact result, on the operands as floats; they are integers if they are whole and below 2**100; + and * commute and + is monotone.", "quantifier": "all real numbers, precisions and operators", "why_tests_cant": "The claim is about a distance to every number of that precision, for all operands.", "anchors": ["value/binary.go binaryBigFloatOp", "value/bigfloat.go shrink", "value/bigfloat.go inverse", "value/unary.go floatSelf"]}
{"id": "C98", "title": "Comparison is an order, with floats too", "statement": "Two numbers, floats or not, are compared as the numbers they are; in particular == is transitive, and the order that sorting and sets use is a total order.", "quantifier": "all pairs and triples of real numbers", "why_tests_cant": "Transitivity ranges over all triples of numbers.", "anchors": ["value/binary.go == != < <= > >= min max", "value/sets.go OrderedCompare", "value/sets.go sgn2"]}
{"id": "C99", "title": "Floor, ceil, sgn and not of floats", "statement": "The floor of a float is the largest integer not above it and the ceil the least integer not below it, exactly, however large or precise it is; sgn gives its sign and not tells whether it is 0.", "quantifier": "all floats of all precisions", "why_tests_cant": "Exactness has to hold for every precision and magnitude.", "anchors": ["value/unary.go floor ceil sgn not"]}
{"id": "C100", "title": "mod of floats is a remainder", "statement": "For x and y, one of them a float and y not 0, x mod y is at least 0, below the absolute value of y, and differs from x by an integer multiple of y; x and y keep their values.", "quantifier": "all pairs of real numbers one of which is a float", "why_tests_cant": "The identity is about all pairs of operands and all precisions.", "anchors": ["value/binary.go mod", "value/eval.go QuoRem"]}
{"id": "C101", "title": "text converts as its format says", "statement": "For every format, u text v converts v with the verb of the format's first directive, the one that package fmt then applies; %% is not a directive; a format made from a decimal count is well formed.", "quantifier": "all formats", "why_tests_cant": "Formats are arbitrary texts; where the verb is depends on all of it.", "anchors": ["value/format.go verbIndex", "value/format.go verbOf", "value/format.go formatString"]}
{"id": "C102", "title": "Decimals in text", "statement": "n text x, for n at least 0, shows x with n decimals, as the decimal number nearest to x as a float, with a minus sign if x is negative; w n text x shows the same in a field of w characters, at its left end if w is negative; w n s text x uses style s, one of d, e, f and so on.", "quantifier": "all numbers, decimal counts and widths", "why_tests_cant": "Rounding has to be right for all numbers and counts.", "anchors": ["value/format.go fmtText", "value/format.go formatOne", "value/format.go formatString"]}
{"id": "C103", "title": "Integers in text", "statement": "A format with a directive %wd shows every integer, however large, as its decimal digits at the right end of a field of w characters, between the rest of the format; a rational is shown as its numerator and denominator so formatted, with a slash between.", "quantifier": "all integers, widths and surrounding texts", "why_tests_cant": "Ranges over all integers and formats.", "anchors": ["value/format.go formatOne"]}
{"id": "C104", "title": "Arrays in text", "statement": "The elements of a vector are each formatted and have a space between them; those of a matrix have spaces within rows, a newline between rows, and one more between planes, and so on for every rank.", "quantifier": "all shapes and elements", "why_tests_cant": "The counters have to work for every rank and shape.", "anchors": ["value/format.go fmtText", "value/matrix.go fprintf"]}
{"id": "C105", "title": "Complex floor and ceiling", "statement": "floor of a complex number with exact parts is McDonnell's floor, as documented: a Gaussian integer less than 1 away, at the lower left corner of the unit square of the number if the fractions of its parts add to less than 1, or else at the corner nearer to it; it goes along with shifts by Gaussian integers. ceil z is the negative of floor of -z.", "quantifier": "all complex numbers with integer or rational parts, and all ways in which the parts share storage", "why_tests_cant": "Ranges over all pairs of rationals and over which operands share storage.", "anchors": ["value/complex.go floor", "value/complex.go ceil", "value/eval.go QuoRem"]}
{"id": "C106", "title": "Complex floor leaves its operand", "statement": "Evaluating floor z or ceil z does not change z or any other value.", "quantifier": "all complex numbers with exact parts, and all other values in memory", "why_tests_cant": "The effect is on storage that other values share.", "anchors": ["value/complex.go floor", "value/eval.go QuoRem"]}
{"id": "C107", "title": "Complex equality", "statement": "== of two complex or real numbers with exact parts holds exactly when both parts are equal, and != when it does not; the order comparisons with a complex number are errors.", "quantifier": "all complex numbers with exact parts", "why_tests_cant": "Ranges over all pairs of numbers of all types.", "anchors": ["value/binary.go ==", "value/binary.go !="]}
{"id": "C108", "title": "Complex construction and inverse", "statement": "A j B is the number A+Bi, j B is B multiplied by i, and / B is the inverse 1/B, an error exactly for 0.", "quantifier": "all numbers with exact parts", "why_tests_cant": "Ranges over all numbers of all types.", "anchors": ["value/binary.go j", "value/unary.go j", "value/complex.go inverse"]}
{"id": "C109", "title": "Integer powers of complex numbers are exact", "statement": "A complex number with exact parts to the power of an integer N is exactly the product of N copies of it, for a negative N the inverse of the product of -N copies, for 0 the number 1.", "quantifier": "all complex numbers with exact parts, all small integer exponents", "why_tests_cant": "Ranges over all numbers and exponents; the code squares repeatedly, so different bits of the exponent take different paths.", "anchors": ["value/power.go complexPower", "value/power.go complexIntegerPower", "value/complex.go mul", "value/complex.go inverse"]}
{"id": "C110", "title": "The phase of a number does not depend on what was evaluated before", "statement": "phase Z shows the same for the same Z at the start of a session and after any history of evaluations.", "quantifier": "all histories of evaluations, all complex numbers", "why_tests_cant": "Ranges over histories; the fault is a shared constant that an unrelated operator writes.", "anchors": ["value/complex.go phase", "value/sin.go floatSin", "value/const.go floatMinusPiBy2"]}
{"id": "C111", "title": "Floats are shown to the digits asked for, and what is shown can be read back", "statement": "A float is shown as the decimal number of n significant digits nearest to it (12 if no format is set, n for %.ng, n+1 for %.ne; n decimals for %.nf), with an exponent just when the number is under 0.0001 or has more than n digits before the point; the text is read back as that number, and a float made of it is shown the same.", "quantifier": "all floats whose binary exponent is within 10000, all precisions, all formats %.ng, %.nG, %.ne, %.nE, %.nf", "why_tests_cant": "The rounding and the choice of layout are about every float and every number of digits.", "anchors": ["value/bigfloat.go Sprint", "config/config.go SetFormat", "config/config.go FloatFormat", "value/value.go Parse"]}
{"id": "C112", "title": "Integers and fractions under a floating-point format", "statement": "Under )format '%.nf' an integer is shown exactly and a fraction to half a unit of the n-th decimal, always with n decimals. Under '%.ne' a nonzero number is shown as one digit, n digits after the point and an exponent, and those digits belong to the number. Under '%.ng' an integer of at most n digits is shown as without a format, a fraction between 0.0001 and 10**n is rounded to n digits (halves away from zero) and shown without exponent and without zeros at the end, and other numbers are shown with an exponent.", "quantifier": "every integer and fraction, every precision, the verbs e, E, f, F, g, G", "why_tests_cant": "The digits, the exponent and the trimming depend on the size of the number and on carries that only occur for particular values; tests show a few values per verb.", "anchors": ["value/int.go:floatString", "value/int.go:eFormat", "value/bigint.go:floatString", "value/bigint.go:eExponent", "value/bigint.go:trimEZeros", "value/bigrat.go:floatString", "value/bigrat.go:ratExponent", "value/bigrat.go:ratScale", "config/config.go:SetFormat"]}
{"id": "C113", "title": "The demonstration follows its user, and its pipe loses nothing", "statement": "In a demonstration the first line of the script is shown; then every empty line the user types has the next line of the script shown and run, and every other line they type is itself run; until they have no more lines, type quit (with blanks around it or not), or ask for a line when the script is over. Without a user every line is shown and every one but the first is run. A line of 65536 bytes is an error. Between the two goroutines the bytes arrive in the order they were written, none lost and none twice, under every schedule and with every size of buffer, and neither side waits for ever. A demonstration should leave nothing behind; it leaves the count of nested runs two higher, so that the sixth ends the process.", "quantifier": "every script, every text typed by the user, every interleaving of writer and reader, every sequence of buffer sizes, every number of demonstrations", "why_tests_cant": "Interleavings of a goroutine with a channel and user behaviour are unbounded; the repository tests only the script run without a user.", "anchors": ["demo/demo.go:Run", "parse/special.go:demoIO", "parse/special.go:DemoRunner", "parse/special.go:runFromReader", "parse/special.go:runUntilError"]}
{"id": "C114", "title": "Texts evaluated in pieces; Reset; escaping for HTML", "statement": "For a program that holds an interpreter: evaluating two texts one after another gives the results and the state of evaluating them as one text, if the first ends at the end of a line with no definition or string open, whatever commands and errors they hold; so a demonstration fed line by line gives each line the results it has in the whole text. Reset leaves no variable, operator, format, base, origin, prompt or seed behind, whatever was done before; the precision, the stack limit, the debugging flags and the depth of nested runs it does leave. The output has no tabs and backslashes, and the text can be told from the escaped one if it has no ampersand and no no-break space.", "quantifier": "all texts, all sessions with legal settings, all histories before a Reset, all outputs", "why_tests_cant": "Any text can be cut at any line and any history can precede a Reset; tests evaluate a few fixed expressions in a fresh interpreter.", "anchors": ["mobile/mobile.go:Eval", "mobile/mobile.go:Demo.Next", "mobile/mobile.go:Reset", "mobile/mobile.go:escaper", "run/run.go:Ivy"]}
{"id": "C115", "title": "What a session prints, where, and how the process ends", "statement": "For every line the values that are not quiet are printed on the standard output in their order, a space before each but the first (and but for texts that are empty or end in a newline), and a newline after them; a line without such values prints nothing; then, and only then, _ is the last value. With types debugging their types come first. A line that fails has its message on the error output and nothing else of it is printed but what it wrote itself or what was printed of its values before one could not be. An interactive run shows before each line the prompt in force and a newline after it, whether it failed or not. A run ends at its first error; the loops around it go on with the next line from the state the failing line left. The process runs -f, -i and then -e or the files, or else the standard input, in one context; it exits with 1 at the first error in any but the standard input and with 0 otherwise. The operator ivy prints every value but the last and returns the last.", "quantifier": "all machines of lines (states, evaluators, printers and prompts), all histories of lines with and without errors, all command lines, and in particular all sessions", "why_tests_cant": "The order of writes over unboundedly many lines, errors and settings, on two streams, is not covered by comparing a few outputs; the process around it has no tests.", "anchors": ["run/run.go:Run", "run/run.go:printValues", "run/run.go:eval", "run/run.go:IvyEval", "run/run.go:Ivy", "ivy.go:main", "ivy.go:runFile", "ivy.go:runString"]}
{"id": "C116", "title": "The inverse functions come out, in their range and with the right sign", "statement": "At every precision of 8 bits or more: atan of every number is a number between -pi/2 and pi/2, of the sign of its argument, and atan of -x is -atan x; asin and acos of every number from -1 to 1 are real, asin between -pi/2 and pi/2 with the sign of its argument, acos between 0 and pi, exact at -1, 0 and 1, and outside they are the complex functions; acosh of every number from 1 on is real, not negative, and 0 at 1, and below 1 it is the complex function; asinh of every number is real and of its sign, and asinh of -x is -asinh x; atanh of every number strictly between -1 and 1 is real and of its sign, and otherwise it is the complex function. None of them reports that a series did not converge.", "quantifier": "all precisions from 8 to a million bits and all real arguments, whatever integer, fraction or float they are", "why_tests_cant": "The functions call series, square roots and one another after splitting the line at several points; that no argument falls between the branches, leaves the range or loops without converging is a statement about every argument and precision.", "anchors": ["value/asin.go:asin", "value/asin.go:acos", "value/asin.go:atan", "value/asin.go:floatAsin", "value/asin.go:floatAcos", "value/asin.go:floatAtan", "value/asin.go:floatAtanLarge", "value/asinh.go:asinh", "value/asinh.go:acosh", "value/asinh.go:atanh", "value/asinh.go:floatAsinh", "value/asinh.go:floatAcosh", "value/asinh.go:floatAtanh"]}
{"id": "C117", "title": "Square roots and logarithms never fail to converge", "statement": "At every precision of 8 bits or more, the square root of every positive number comes out, and the square of the result is the argument but for 16 units of relative error 2**-p; the logarithm of every positive number comes out, negative below 1, 0 at 1 and positive above 1. Neither ever reports that it did not converge.", "quantifier": "all precisions from 8 to a million bits and all positive numbers of that precision", "why_tests_cant": "The code gives up after a fixed number of steps, with the comment that users should never see this but sometimes do: only a proof over all arguments and precisions, with the rounding of every step, shows that they do not.", "anchors": ["value/sqrt.go:floatSqrt", "value/log.go:floatLog", "value/loop.go:done", "value/loop.go:newLoop"]}
{"id": "C118", "title": "e**x and the hyperbolic functions come out", "statement": "At every precision of p bits, 8 or more: e**x of every number from 0 on is a number that is at least 1 and at least 1+x (rounded); sinh x is a number of the sign of x and at least as far from 0, cosh x is at least 1, and tanh x is a number of the sign of x. None of them reports that a series did not converge.", "quantifier": "all precisions from 8 to a million bits and all real arguments, whatever integer, fraction or float they are", "why_tests_cant": "The series are cut off after a fixed number of terms per bit; whether that is enough depends on the argument and the precision together, with the rounding of every power and factorial.", "anchors": ["value/power.go:exp", "value/power.go:exponential", "value/sinh.go:floatSinh", "value/sinh.go:floatCosh", "value/sinh.go:floatTanh", "value/loop.go:done"]}
{"id": "C119", "title": "Powers of floats", "statement": "For floats x >= 0 and y: x**0 and 1**y are 1, 0**y is 0 for y > 0 and an error for y < 0; x ** -y is the reciprocal of x ** y, rounded; x ** 1/2 is the square root; x ** n for an integer n below 2**63 is the exact power but for 2n factors between 1-2**-p and 1+2**-p; and x ** y is a positive number for every positive x and every y, without an error. A negative base is left to the complex power.", "quantifier": "all precisions from 8 to a million bits, all floats x and y (integers below 2**63 in the exponent)", "why_tests_cant": "Repeated squaring, logarithm and exponential series each round at every step; accuracy and success depend on the base, the exponent and the precision together.", "anchors": ["value/power.go:power", "value/power.go:floatPower", "value/power.go:integerPower", "value/power.go:exponential", "value/log.go:floatLog", "value/sqrt.go:floatSqrt"]}
{"id": "C120", "title": "The square root of a square is exact", "statement": "With 16 to 1000000 bits of precision: if a float x is the square of a float s > 0 of the same precision, sqrt x is exactly s. In particular sqrt of a perfect square n*n that fits in the precision is exactly n. x ** 0.5 gives the same, and x ** -0.5 is the float nearest to 1/s. In general the square root is not always the float nearest to the true root.", "quantifier": "every precision from 16 to 1000000 bits, every positive float whose square is a float of that precision", "why_tests_cant": "the result is the last iterate of Newton's method in rounded arithmetic; exactness must hold for every significand at every precision", "anchors": ["value/sqrt.go:floatSqrt", "value/loop.go:done", "value/power.go:floatPower"]}
{"id": "C121", "title": "Square roots of negative and complex numbers; absolute values", "statement": "sqrt of a real number always comes out: real when it is not negative, on the positive imaginary axis otherwise, and its square gives the number back to 18 units in the last place. The absolute value of a complex number with exact parts always comes out, is 0 only for 0, is accurate to 18 units, and is exact when the sum of the squares is the square of a float (abs 3j4 is 5). sqrt of a complex number a+bi always comes out, lies in the right half plane on the number's side of the real axis, and its square gives the real part back to 21 (|a|+|b|) rounding units and the square of the imaginary part to 120 (a*a+b*b) units; neither part of the root is 0 unless b*b is below 200 a*a units. A smaller imaginary part can be lost entirely. A square root of a number that is at least the rounded square of a is at least a.", "quantifier": "every precision from 16 to 1000000 bits, all real and imaginary parts", "why_tests_cant": "the parts are roots of differences that can cancel; whether a difference rounds below zero, which is an error, depends on every bit of both parts", "anchors": ["value/sqrt.go:sqrt", "value/sqrt.go:complexSqrt", "value/complex.go:abs"]}
{"id": "C122", "title": "e**x and the hyperbolic functions are accurate", "statement": "With p bits of precision, e**q for q from 0 to p/2-1 comes out and differs from the value of the exponential function at the float q, the limit of the sums of x^k/k!, by a relative error of at most (42p+52) 2^-p. sinh q and cosh q, for q from -p to p, agree with their power series to a relative error of (84p+98) 2^-p, and tanh q with the quotient of the two series to four times that. With the default 256 bits fewer than 14 bits of e**q are lost.", "quantifier": "every precision from 16 to 1000000 bits, every argument in the range, every number of further terms of the series", "why_tests_cant": "the error accumulates over a number of rounded steps that depends on the argument, and the loop stops on a difference of rounded sums; a test compares a few values with known digits", "anchors": ["value/power.go:exp", "value/power.go:exponential", "value/sinh.go:floatSinh", "value/sinh.go:floatCosh", "value/sinh.go:floatTanh", "value/loop.go:done"]}
{"id": "C123", "title": "Sine, cosine and e**x of arguments up to 1 are accurate", "statement": "With p bits, cos of a float from -1 to 1 comes out and differs from the value of the cosine, the limit of its power series, by at most (116p+314) 2^-p; sin of a float from -1 to 1 comes out, however small the argument, and differs from the limit of the sine series by no more than that. e**q for q from -1 to 1, negative ones included, comes out within (150p+174) 2^-p of the exponential series at the float q.", "quantifier": "every precision from 16 to 1000000 bits, every float from -1 to 1, every number of further terms of the series", "why_tests_cant": "terms of either sign cancel and the loop stops on a rounded difference; whether it stops too early, and how the rounding errors add up, depends on every bit of the argument", "anchors": ["value/sin.go:floatSin", "value/sin.go:floatCos", "value/sin.go:sincos", "value/power.go:exponential", "value/loop.go:done"]}
{"id": "C124", "title": "The logarithm of a float is accurate to a stated bound", "statement": "For every precision from 20 to 1000000 bits and every positive float x other than 1, log x comes out. If x is below 1 and x = m * 2**e with 1/2 <= m < 1, the result is the power series of log m plus e times the stored logarithm of 2, to within (520 p + 160 + 6 |e|) * 2**-p. If x is above 1 the result is minus that for the rounded inverse of x, to the same bound.", "quantifier": "every precision, every positive float, every stored logarithm of 2 from 0 to 1", "why_tests_cant": "The loop's bound, its stopping test and the growth of its rounding errors depend on the argument and the precision; tests compare a few printed digits.", "anchors": ["value/log.go:floatLog", "value/loop.go:done"]}
