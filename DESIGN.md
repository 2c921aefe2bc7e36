# Formal model of ivy in Rocq: design

The model lives in `rocq/theories`. Every definition cites the Go file and lines it models.
Files come in four kinds:

* `*Model.v`   executable Gallina transcription of the Go code, function by function;
* `*Spec.v`    small independent specifications (mathematical definitions only);
* `*Proofs.v`  lemmas;
* `P_*.v`      the property theorems: statement, `exact lemma`, `Print Assumptions`, plus
               an `Example` showing that a concrete, non-trivial case meets the hypotheses.

## Conventions of the model

* Go `panic(value.Error)` (`value.Errorf`) is the value `Err`, a Go runtime panic
  (index out of range, integer division by zero, nil dereference) is `Crash`; a branch the
  model does not cover (floating point) is `Unmodelled`. Theorems say which of these can occur.
* `math/big.Int` is `Z`; `math/big.Rat` is a numerator and a positive denominator in lowest
  terms. The library's own algorithms are trusted.
* Go `int` is `Z`; where overflow of 64-bit machine integers matters it is stated as a theorem
  that intermediate results stay in range.
* Slices are lists; where aliasing matters (persistent vectors, shape slices, the exec stack)
  there is an explicit heap.
* Goroutines are a step relation over interleavings.
* `sort.Sort`, `sort.Slice`, `sort.SliceStable` are represented by their documented contract:
  theorems quantify over every result satisfying it (sorted permutation; stable for SliceStable).

## Plan per property

| id | model | proof |
|----|-------|-------|
| C01, C02 | heap of nodes with owner ids, `Slice`, `TransientSlice`, all operations of value/persist/slice.go | invariant over histories; refinement to lists |
| C03 | atomic steps of `Set` (id check, clone, CAS, element store; tail mutex), any number of goroutines, any schedule | invariant over interleavings; refinement to lists; absence of data races; deadlock freedom; rank bounding the steps |
| C04, C05 | `Var` with value and pending editor; `IndexAssign` | refinement to a store of pure values |
| C06 | `pfor` chunk bounds and collection of results in arbitrary order | arithmetic on tiles; permutation argument |
| C07-C15, C17-C21 | number tower Int/Char/BigInt/BigRat with promotion and shrinking, operator tables | every operator against rational arithmetic (`Q`), `Z.div`/`Z.quot`, `Z.testbit` |
| C12, C20 | operand mutation and maxbits as the code does it | refutation with witness, and what does hold |
| C16 | prime generator, swing, product, factorial | number theory on the prime factors, standard library only |
| C22 | encode/decode loops | induction on the base vector |
| C23 | Complex over exact components | field laws over Q |
| C24-C29 | OrderedCompare on nested values; membership, iota, grade, unique, union, intersect | total order by nested induction; sorted-search lemmas |
| C30-C34 | EvalBinary promotion, vector/matrix ops, Reduce, Scan, products | index laws by induction |
| C35-C43 | each structural operator transcribed as the index arithmetic the code performs | element-at-coordinate laws |
| C44 | indexState.init and Index | element law; refutation for two missing indexes |
| C45, C65 | Gauss-Jordan loop of Matrix.inverse on values; vector inverse; mdiv | loop invariant over exact complex numbers |
| C46 | shapes as slices with capacity over a heap of arrays (AliasModel) | refutation with witness; refinement to shapes as plain lists for careful histories and for a copying append |
| C47 | CrashSpec.v: one table of the operators of the other models (arithmetic, structural, ordering, sets, encode/decode, inverse, reductions, scans, products, each), expressions over them with indexing; a Go runtime panic is the outcome Crash | a fine-outcome calculus (never Crash, result again sound) by induction on operators and on expressions; every operator in the list of fragile ones refuted by a computed witness made with rho |
| C48, C49, C62 | stack of variables with retained capacity, push/pop/Local, evaluator with fuel | stale locals refuted; balance proved by induction on evaluation |
| C50, C51 | definition tables | invariant over histories; refutations |
| C52, C56, C57 | token-level parser, ProgString | termination by fuel bound; round trip |
| C53 | SaveModel.v: `put` (save.go 158-209) as text; ReadModel.v: text to statements: the scanner of ScanModel, the token interface, the parser of ParseModel, the evaluator of ExecModel | the text of each value is scanned into a token list, that is parsed into a tree, that evaluates to the value (nested induction); then induction on the variables. Refutations for the values that do not come back. Floating-point values are outside |
| C54, C76 | Sprint of Int, BigInt, BigRat, Complex and numeric vectors; value.Parse; the number part of the scanner (TextModel, ScanModel) | induction on digits; the scanner is run on the printed text |
| C77 | value.Parse | refuted by computation; true in the bases 0 and 10 (C76) |
| C55 | StrModel.v: ProgString of characters (expr.go 95-127), strconv's %q as )save uses it, ParseString/unquote (char.go 70-129), and the scanner's quoted strings | each character's piece is read back as that character, then induction on the list; the scanner takes exactly the quoted text. strconv.IsPrint is a parameter |
| C58 | walk/funcVars | induction on expressions |
| C59 | loop.done and every series loop over rounded rationals | induction on iterations, for every rounding |
| C66, C67, C69 | twoPiReduce, floatSqrt, exponential, floatCosh with rounding to nearest | error bounds of the rounding carried through the loops; computed counterexamples |
| C70 | floatSinh, floatSin, the series of atan | rounding to nearest even is symmetric; the loops carry the sign through |
| C71, C74, C75 | the whole of scan/scan.go: line loading, lookahead, every state function | invariant of the scanner (text before, in and after the token); each state function keeps it and moves forward |
| C72 | the same | simulation between the two scanners, function by function; computed counterexample |
| C73 | the same | the scanner is run on a name, alone and after a sign; computed counterexamples |
| C68 | uint64Log, bigIntLog | induction on the squarings |
| C60, C81 | CmdModel.v: the settings (config.go), every special command but )demo and )timezone, the lines of a session and of files read with )get | the ranges are an invariant of a line, a file (induction on lines and on nesting) and a session; `)name n` is scanned as text in every base. Computed counterexample for rejected commands |
| C78, C80 | save.go as text; runFromFile, runFromReader, runUntilError with runDepth | the saved text is read line by line: each line's effect, then composition; the variables by induction. Computed counterexamples; e and pi are any values that can be saved (in the code they are floats, printed as decimals) |
| C83 | SourceModel.v: Function.String, ProgString, references, the operators part of save.go, as text; definitions and their bodies read line by line (special.go, function.go) | the printed text of each expression is scanned to its printed tokens (induction on expressions), those parse to the same tree (C57); moving a definition among other operators does not change its reading; induction on the operators of the workspace. Computed counterexamples |
| C84 | RandModel.v: ? on numbers and arrays, over an abstract generator (a state and the functions Int64N, rand.Int, Perm); RandSpec.honest is the documentation of those | induction on values; conversely a generator that gives the wanted numbers. False of big integers |
| C85 | RandModel.deal over the same generator | Perm gives a permutation, whose prefix has distinct elements; conversely a given hand is completed to a permutation |
| C86 | RandModel.rand over FloatModel.rnd at 53 bits, as big.NewFloat makes it | rounding is monotone and keeps numbers of 53 bits (FloatMono.v), so the result is at most f; half open up to 51 bits of precision; refuted at 256 |
| C87 | RandModel.Par: goroutines that take turns at one generator, on the ranges of ParModel.plan; the schedule is a list | with a single range every complete schedule gives the same run; with two or more, two schedules that differ in which goroutine draws first |
| C88 | ShowModel.show: Sprint of vectors with multiLineSprint and oneLineSprint, over bytes; ShowSpec: inside, insides, numbers | the text of one-line elements by induction over the elements; uniqueness by induction over values, each text being a prefix that ends at a space or parenthesis; reading back through printed_line_reads_back |
| C89 | ShowModel.show_mat: elemStrs, widths, write2d, the loops for three dimensions and higherDim; ShowSpec.grid_line, grid_widths | cutting the line gives the elements back; the widths kept are the maxima; induction over rows and planes |
| C90 | the same; negative blanks and slices out of bounds give Crash | invariant of the lines under construction: all have the same length; then every slice and every padding is in bounds, for every shape; four computed panics |
| C91 | the same; ShowSpec.laid_out | the same invariant, and each written row is kept by later elements; computed counterexample |
| C92 | TimeModel.v: calendar arithmetic, secNsec on p-bit floats, timeVec, encodeTime; TimeSpec.v: the calendar by its next-day relation, clocks | day number <-> date by division bounds and uniqueness; error bounds of the roundings |
| C93 | the same, decodeTime with its zone rules | the seconds' 53 bits determine the nanosecond; the 64-bit result is exact for whole seconds; computed counterexamples with the zone of London |
| C94 | the same | uniqueness of the clock reading of a moment; computed counterexample |
| C95 | decodeTime returns what its operand becomes, as secNsec works in place | case analysis; computed counterexample |
| C96 | the operators with a left operand of characters | case analysis |
| C97 | MixModel.v: numbers with p-bit floats, the float column of the operator tables, shrink; MixSpec.v: nearest number of p bits, said without the rounding function | rounding on the integers of the binade; shrink keeps the value |
| C98 | the same, with OrderedCompare | exactness on numbers of p bits; computed counterexample with 1/3 |
| C99 | the same | truncation bounds |
| C100 | QuoRem on floats, with what becomes of its operands | error bounds of four roundings, linear arithmetic; computed counterexamples |
| C101 | FmtModel.v: verbIndex, formatString, and the directives of package fmt; FmtSpec.plain_format | the two readings agree on such formats; computed counterexamples |
| C102 | %f with a precision and a width, exactly rounded | digits of the rounded multiple of 10^-n; the produced formats are plain |
| C103 | %d | the same |
| C104 | the loops of fmtText and fprintf with its counters; FmtSpec.arranged by recursion on the shape | induction on the shape from the inner side, and on the sub-blocks left |
| C105 | CplxModel.v: Complex.floor and ceil with rational parts in cells; CplxSpec.mcdonnell by the corners of the unit square | the exact operators on the parts; case analysis; computed counterexample with both parts in one cell |
| C106 | the cells afterwards | the effect of QuoRem on cells (C12) |
| C107 | the complex column of the comparisons in NumModel.v | case analysis |
| C108 | binary and unary j, unary / | case analysis; field arithmetic |
| C109 | CplxModel.complex_power: power, complexPower and complexIntegerPower for exact parts and Int exponents | repeated squaring by induction over the bits of the exponent; the spec is repeated multiplication |
| C110 | PhaseModel.v: phase, sin, tan, mod and e ** on cells, with the two constants of const.go:107-112 as cells | invariant over all histories; computed counterexample |
| C111 | FTextModel.v: SetFormat's precision, Sprint of a float, and math/big's Float.Text by its documentation | decimal digits of the rounded value; layouts by cases; reading back by the theorems of TextNum |
| C112 | EFmtModel.v: floatString of Int, BigInt and BigRat with eFormat, the exponent loops, ratScale and trimEZeros | texts with an exponent are those of C111's fmt_e on the first digits, so its value lemmas apply; the division loops by their quotient as invariant; refutations by computed witnesses |
| C113 | DemoModel.v: demo.Run as a list of events, bufio.ScanLines, demoIO as a two-sided state machine with arbitrary schedules, the count runDepth | induction over the user's lines for the loop; invariant (the bytes in their order) and a decreasing measure for the pipe; refutation of the leftover count by computation and get_stuck |
| C114 | MobileModel.v: Eval, NewDemo/Next, Reset and the escaper over the sessions of CmdModel.v | ScanMore.v: every function of the scanner commutes with appending text as long as it has not met the end; CmdMore.v: the same for lines, bodies and sessions, and a scanner at the start of a line is as good as new; induction over lines |
| C115 | OutModel.v: Run, printValues, the loops around Run, eval and main over any machine of lines, with a list of writes to the two outputs; P_Out.v makes the sessions of CmdModel.v such a machine | induction over histories of lines given by a specification that is independent of the model (OutSpec.v: layout of the texts, one step, a history, the plan of sources); refutations by computation |
| C116 | ArcModel.v: the real functions of asin.go and asinh.go over the series of FloatModel.v, and the operators' choice between the real and the complex function, on exact rational arguments. The series are shown to settle by an invariant on the size of a term against the sum (ArcProofs.v), with exact facts about rounding (ArcRound.v); the branches of atan by bounds at their ends; the rest is false for asinh and atanh. |
| C117 | SqrtConv.v: the relative error of Newton's iteration with rounding goes through three phases, by halving, squaring and a floor of a few units, so that loop.done holds within p+4 steps; LogConv.v: the terms of the series for the logarithm of a number in [1/2,1) are halved exactly, so that it is done after p steps. |
| C118 | ExpModel.v: tanh and the operators, over the series of FloatModel.v. Terms of one sign: once the terms are halved, after at most 9p steps, each is a smaller part of the sum, and p+3 steps later the loop is done (ExpProofs.v). |
| C119 | PowModel.v: power and floatPower on rationals rounded to p bits. Accuracy of repeated squaring by induction on the bits of the exponent, with the error as a power of 1+2^-p; success from C117 and C118, with a bound on the logarithm (PowProofs.v). |
| C120 | FloatModel.v float_sqrt. The last two iterates are within 19 units of the root; one exact error analysis of the step, with the rounding of the square bounded by its binade (or, at a power of two, by the nearest representable tangent value), leaves less than one grid spacing (SqrtExact.v). |
| C121 | CSqrtModel.v: sqrt, complexSqrt and complex abs over float_sqrt. Relative error of each rounding composed by hand; success from C117 (CSqrtProofs.v) and from the root of a number at least the rounded square of a being at least a: every iterate after the first is at most one unit below a, and from there the step goes up (SqrtAbove.v). |
| C122 | SeriesSpec.v: partial sums over the rationals, and being near their limit. For non-negative terms every rounded step multiplies by a factor between 1-u and 1/(1-u); these factors are counted through the loop (SeriesAcc.v, close), the stopping test bounds the last term, and a threshold in the ratio of the terms shows that the loop cannot stop while they still grow, so that the tail is at most the last term (ExpAcc.v). |
| C123 | AltAcc.v: a loop that adds rounded terms of either sign. Each term is the exact one times a factor between r^k and r^-k (fk); terms at least halve, so the errors add up to a constant per step; the stopping test bounds the last term, and the loop must stop by step p+5 when the sums stay away from 0; for small arguments of sin, the distance of the sum from the argument relative to it takes that place (SinTotal.v). AltInst.v instantiates it for exponential and sincos; P_Trig.v shows that arguments up to 1 are not reduced. |
| C124 | floatLog with its series loop over rationals rounded to p bits; the series of log (1 - y) is written down separately in LogSpec. Proved with the generic loop lemma of AltAcc (each term known to a power of 1 - 2**-p), the exactness of 1 - m, and the rounding of e * log 2. |
| C79 | SetConstants after a command | case analysis of all commands; computed counterexample |
| C82 | Run's use of printValues | case analysis; computed counterexample |
| C61 | Run loop over lines | induction on lines |
| C63 | each and its nesting, as the recursion of the code | induction on the depth |
| C64 | definition and deletion commands at the level of tokens | the parser's grammar |

Not modelled: infinities and exponent limits of big.Float (a float is a rational rounded to the
configured number of bits, to nearest even), the tables of constants, complex
functions of floats, the tables of time zones (a zone is any function from moments to offsets),
file I/O.

## What is modelled, file by file

| Go source | theory files | outside the model |
|-----------|--------------|-------------------|
| value/persist/slice.go | Persist{Model,Tree,Ops,Edit,Spec,World}, PersistConc{Model,Spec,,Run,Term}, P_Persist, P_Conc | Resize with a negative length; concurrent Append/Resize (not supported by the API) |
| value/int.go, bigint.go, bigrat.go, complex.go, char.go; scalar entries of binary.go, unary.go; QuoRem | Num*, Fac*, QuoRemHeap, QuoRemProofs, P_Num | complex floor/ceil are in Cplx* |
| value/loop.go, sqrt.go, sin.go, sinh.go, power.go, log.go, asin.go (the loops) | Float*, Log*, P_Float, SqrtConv | infinities; complex arguments; operands of other precisions |
| value/asin.go, asinh.go (real arguments) | Arc*, HypProofs, P_Arc | the complex functions (asin.go:188-210, asinh.go:84-); infinities |
| value/sinh.go floatTanh; power.go exp; sinh.go sinh, cosh, tanh (real arguments) | Exp*, P_Exp | infinities; complex arguments |
| value/power.go power, floatPower (real base and exponent) | Pow*, P_Pow | complexPower of floats; exponents from 2^63 on in the theorems; infinities |
| value/sqrt.go sqrt, complexSqrt; complex.go abs | CSqrt*, P_CSqrt | infinities; abs of float parts (their squares and sum are rounded) |
| value/power.go exponential, sinh.go (accuracy) | SeriesSpec, SeriesAcc, ExpAcc, P_ExpAcc | e** of arguments below -1; arguments above p/2-1 (e**) and p (sinh, cosh, tanh) |
| value/sin.go sincos (accuracy) | AltAcc, AltInst, SinTotal, P_Trig | arguments beyond 1 in absolute value, whose error is that of pi and of the reduction |
| value/log.go floatLog (accuracy) | LogSpec, LogAcc, P_LogAcc | error bound of the series and of the final sum; the stored log 2 is a parameter |
| value/bigfloat.go, the float column of binary.go, unary.go, QuoRem | Mix*, P_Mix | infinities; ** and log (Float*); float with complex |
| value/vector.go, matrix.go, structural entries of binary.go, unary.go | Arr*, P_Arr; displays in Show*, P_Show | formats other than the default |
| value/eval.go | Eval*, P_Eval | |
| where the operators can panic (all of the above) | Crash*, P_Crash | panics of math/big, of floating point, of the printer; stack overflow; memory exhaustion |
| the slices that hold shapes (matrix.go, eval.go, unary.go, binary.go) | Alias*, P_Alias | the elements of the matrices |
| value/complex.go floor, ceil; power.go complexPower for Int exponents | Cplx*, P_Cplx | float parts; abs and Signum; other exponents |
| value/bigfloat.go Sprint; config.go SetFormat, FloatFormat | FText*, P_FText | binary exponents beyond 10000; math/big's Float.Text is taken by its documentation |
| value/int.go floatString, eExponent, eFormat; bigint.go floatString, eExponent, trimEZeros; bigrat.go floatString, ratExponent, ratScale | EFmt*, P_EFmt | formats that are not floating-point (fmt.Sprintf); )maxdigits; big.Rat.FloatString is taken by its documentation |
| demo/demo.go; parse/special.go demoIO, DemoRunner, the counting of runDepth | Demo*, P_Demo | the interleaving of output on the terminal, write errors, )demo reading the same standard input as the interpreter |
| mobile/mobile.go; run/run.go Ivy | Mobile*, ScanMore, CmdMore, P_Mobile | the help text, SetMobile, the text of output and errors, the time zone |
| run/run.go Run, eval, IvyEval, printValues; ivy.go main, runFile, runString | Out*, P_Out | CPU times, profiling, the parsing and checking of flags |
| value/complex.go phase; which cells sin, tan, mod and e ** write | Phase*, P_Phase | the arctangent is any function |
| value/format.go, Matrix.fprintf | Fmt*, P_Fmt | the verbs other than d and f, and s and v of a string; the flags # and space; package fmt is modelled by its documentation |
| pfor and the loops that use it | Par*, EncPar, P_Par | |
| value/sets.go, grade, iota, in | Ord*, P_Set | |
| value/index.go | Idx*, P_Idx | |
| value/context.go (Var) with index assignment over the persistent slices | Var*, P_Var | |
| inverse of matrices and vectors, mdiv | Inv*, P_Inv | elements that are big.Float |
| encode, decode | Enc*, P_Enc; of times (value/sys.go) Time*, FloatSign, P_Time | times too large for int64 milliseconds (Unmod); infinite floats; package time is modelled by its documentation |
| exec/*.go, value/assign.go, value/expr.go (Eval), run/run.go | Syntax, Exec*, P_Exec | printing of results |
| parse/parse.go, parse/function.go, ProgString | Parse*, P_Parse | a line is its tokens here |
| scan/scan.go | Scan*, P_Scan | line numbers and messages of errors; the unicode tables above ASCII are parameters |
| parse/special.go, parse/save.go, config/config.go | Cmd*, Save*, Read*, P_Cmd, P_Save | )demo, )timezone, what commands print |
| the operators ? and rand, config.go's generator | Rand*, FloatMono, P_Rand | the generators of math/rand/v2 and crypto/rand themselves: any with the documented ranges; what SetRandomSeed does to the source; uniformity |
| ProgString, exec/function.go String, the operators part of save.go, definitions in files | Source*, P_Source | names left declared after a rejected definition |
| value/value.go (Parse), Sprint of numbers, char.go, ProgString of strings | Text*, Str*, P_Text, P_Str | floats |

## Trusted base

* Coq 8.16.1's kernel, and the virtual machine it uses for `vm_compute` in the examples.
* `Print Assumptions` follows every property theorem and prints "Closed under the global context"
  for each: no axiom is used. Loading std++ loads `Coq.ssr.ssrunder`, whose sealed module declares
  the seven constants `Coq.ssr.ssrunder.Under_rel.*`; they are listed by a whole-library check such
  as coqchk, and no theorem depends on them. No axiom of the standard library is used.
* The reading of the Go source that the comment of each definition cites.
* Documented behaviour of the libraries: math/big (integers and rationals are exact), sort
  (`sort.Sort` and `sort.Slice` sort in some order of ties, `sort.SliceStable` keeps it), sync.Mutex
  and sync/atomic, and the Go memory model (a program without data races runs as an interleaving of
  its steps; that the steps of C03 have no data race is a theorem).

## Findings

Properties the code does not have. Each is a theorem `..._refuted` with a computed witness, unless
marked (reading), which means it lies outside the model and was found by reading.

1. `mod` negates its negative rational operands in place; the caller's variable changes.
2. Indexing with two missing indexes exchanges the lengths of those axes in the shape of the result.
3. `===` ignores the shapes of matrices.
4. The size limit is not applied to `2**n`, `<<`, rationals and factorial; the estimate for `**` wraps.
5. `3!0` is 1.
6. Non-canonical results at -2^31, 2^31, for `max`, `1**n`, `0**n`; `|` of an out-of-range small integer.
7. Matrix partition rejects matrices with one row or with a first score of 0.
8. Local variables start with what an earlier call left in the retained stack.
9. Go runtime panics with empty dimensions: rot, transp, inner product, grade, iota, decode, index.
10. Scan's fast path folds from the left even when the user redefined the operator or set a size limit.
11. An operator redefined by the user is run from several goroutines on one context: a data race.
12. A failed operator definition stays in the order of definitions; `)save` then dereferences nil.
13. One name can be both variable and operator, by an assignment inside an operator.
14. `unique` need not keep the order of first appearance, because it uses an unstable sort.
15. Mix pads one-element arrays and elements of different rank wrongly.
16. A vector with one element rotates to a scalar; flip of a rank-1 matrix moves nothing.
17. A fraction or complex scalar next to a matrix is taken for a 1 by 1 matrix (catenate, outer, in).
18. An n by 1 column is accepted against a matrix with n columns.
19. Repeated indexes in an indexed assignment make the result depend on the schedule.
20. `x : x = 1` makes x local although it is read first.
21. `1 (3[1])`, `3 (mod)` and a declared-only operator print in a form that does not read back.
22. encode with a single base of a vector, then decode, is not the identity.
23. Reading an indexed assignment to a local that was never assigned dereferences nil (reading).
24. `inv` fails on invertible matrices with a zero pivot.
25. Names declared by a rejected definition stay declared (reading).
26. `inv` of a vector of one element is an error.
27. `2 log 12` is 3 and `10 log 1200` is 3: the splitting of the exact part divides without
    checking that the base divides (proved in P_Float).
28. At low precision sin, cos and tan never return: `)prec 6`, then `sin 992` (proved).
29. The cosine of a negative number is not reduced modulo 2 pi and can be far outside -1 .. 1;
    e to a negative power can be negative (proved at 10 bits; by the same loss of digits
    `cos -200` at the default 256 bits).
30. sin and tan change a floating-point operand in place (proved in the model).
31. A last line without a newline that ends in a sign and a one-letter name is a syntax error:
    `ivy -e '2 * -x'`. The lookahead leaves end-of-file as the last rune, and backing up does nothing.
32. With `)base 10` (or 16) the names a (or g) cannot follow a sign or a slash: the test for a
    numeral includes one letter too many.
33. An operator with a point at the end of a line takes the newline into its token, so that the next
    line is joined to it: `1 +.` followed by `2+2`.
34. Integers of 32 bits or more cannot be printed in bases other than 2, 8, 10 and 16 (`)obase 3` and
    `2**40` is an error), and so cannot be saved or shown after such an `)obase`.
35. A number with a point or an exponent is always read as decimal, whatever `)ibase` says: in base 2
    `1.1` is 11/10; in base 16 `1e1` is 481 but `1.0e1` is 10.
36. `)save` writes text that does not read back for some values: a vector of one element comes back
    as a scalar; a vector with a string in it is written with an unbalanced parenthesis, which is a
    syntax error when read; a matrix of one element that is a vector comes back as a matrix of the
    vector's elements; any matrix comes back wrong when the user has redefined binary `rho`.
    (saved_variable_refuted, saved_matrix_redefined_refuted)
37. A special command is carried out before the rest of its line is looked at: `)base 3 please` is an
    error, and the base is 3 afterwards. (rejected_command_refuted)
38. Every successful special command, even one that only shows something, sets e and pi again: after
    `e = 5`, `)vars` makes e 2.718... (commands_keep_variables_refuted). So a saved `e = 5` never
    comes back.
39. `)save` writes the bases as the last two lines of the file; `)get` restores the bases of the
    session that reads it after the file has been read, so those lines have no effect.
    (workspace_comes_back_refuted)
40. runDepth is incremented before the test for nesting, and decremented in a deferred function that
    is installed after the test; an error in the test leaves it one too high, for the rest of the
    process. After ten )gets of a file that gets itself, every )get fails. (get_again_refuted,
    get_stuck)
41. `3; x = 4` stores the value of the assignment in _, marked as not to be printed: _ alone on the
    next line prints nothing. (last_value_refuted) The documentation excludes assignments.
    In a line of a file read with )get each value is stored before the next is evaluated; at top
    level only the last one, after the line.
42. Observed while modelling, without a theorem: `)prompt` without an argument shows the format, not
    the prompt; `)var x` writes the name to standard output even when output is redirected;
    hexadecimal and octal numbers in commands, which a comment says are accepted, are not.
43. Shapes are Go slices that matrices share. Reducing a matrix keeps a prefix of the operand's shape
    with its capacity; an outer product appends to the shape of its left operand. After
    `x = 2 3 4 rho iota 24` and `y = +/x`, evaluating `y o.* 1 2 3` makes the shape of x 2 3 3.
    (shape_changed_refuted) Two outer products of one array can share the shape slice, so the second
    changes the shape of the first. (shape_shared_refuted)
44. `(1 1 rho 5) - 1 2 3` is a matrix of rank 1. It prints as the vector 4 3 2, but reducing it is an
    error. (reduce_rank1_refuted)
45. Exactly these operators can end in a Go runtime panic on an array with an axis of length 0: `rot` and
    `flip` with a count, monadic `rot` and `transp`, `,` on arrays of different rank, `sel`, `iota` as
    search, `decode`, inner products, `up`, `down`, `inv`, `mdiv`, and indexing. For example
    `1 rot 2 0 rho 1`. Monadic `rot` of a matrix without columns does not panic but loops for ever. `inv` looks only at the first two axes of an array of rank 4 or more, since the
    check in matrix.go:1083-1090 rejects rank 3 only; `inv 2 2 0 1 rho 1` reads past its elements.
    (fragile_operators_refuted) All other operators return, on all operands. (robust_operators_return)
46. `)save` declares an operator that is used before it is defined. For a binary one it writes
    `op _ f _`, two arguments of one name, which `)get` rejects; the rest of the file is not read. So
    a workspace with a recursive binary operator, such as `op a pow b = b < 1 : 1 ; a * a pow b - 1`,
    is lost from there on, without a message on the line of the `)get`. (recursive_operator_refuted)
47. An operator used only as `f/` is not counted as used: with `op a x = b/ x` saved before b, the line
    comes back as the division of two variables. (reduced_operator_refuted)
48. An operator that is only declared is saved as `op f x = `, a definition that takes the lines after
    it as its body. Everything after it is lost, and after that `)save` panics.
    (declared_operator_refuted)
49. A complex constant in a body is printed as an application of j: `x , 1j2 3` becomes
    `x , 1 j 2 3`, which is another value. (complex_constant_refuted)
50. Observed while modelling, without a theorem: a definition rejected after its header leaves its
    name declared.
51. With `)base 10` the letter a counts as a digit after a point, so that `x+.and y` does not scan as
    one operator, while it does with the default base 0; at the start of a line `+.f` and `-.f` begin a
    number. printed_text_partial excludes these.
52. `?n` for a big integer n does not add the origin, although the comment on bigIntRand says so: with
    origin 1 the result may be 0 and is never n. (roll_big_refuted)
53. `rand x` may be x: the integer drawn from [0, 2^prec], and 2^prec+1 by which it is divided, are
    rounded to the 53 bits of big.NewFloat(0). With 256 bits of precision the quotient is 1 for the
    2^202 largest draws. All results have at most 53 bits. (rand_half_open_refuted, rand_bits)
54. `rand` on 200 elements or more draws from the generator in several goroutines, since only `?` is
    excluded in safeUnary; after `)seed 1` the vector depends on the schedule. (rand_reproduced_refuted)
55. `)origin 2147483647` is accepted, and `?10` is then a small integer beyond 2^31, which arithmetic
    would have made a big one. (roll_canonical_refuted)
56. Displaying some nested arrays panics: `1 2 rho (2 2 rho iota 4) (1 2)`, `1 2 rho (2 2 2 rho iota 8) 7`,
    `1 2 rho 7 (1 (2 2 rho iota 4) 5)` (elemStrs slices a line beyond its end, matrix.go:101-117) and
    `"a\nbcd" 1 2` with a nested string (blanks of a negative number, vector.go:258-263). The panic is not a
    value.Error, so it ends the program (display_panics_refuted).
57. In `(2 2 rho iota 4) (1 2) (2 2 rho iota 4)` the second row of the last matrix is displayed one column to
    the left of its first: the padding below a one-line vector leaves out its closing parenthesis
    (laid_out_refuted).
58. In an array of four or more dimensions the width of the columns of a block depends on the blocks after it:
    higherDim passes all the data that follows to the inner matrix (matrix.go:278-297; block_width_refuted).
59. The branch of multiLineSprint for vectors of chars (vector.go:197-206) is never reached.
60. `'T' decode x` changes x: secNsec (sys.go:285-293) computes in place, and decodeTime gives it the float of
    the vector itself (254). After x = 'T' encode 5, 'T' decode x is 5 the first time and 0 the second
    (decode_preserves_refuted).
61. A time vector whose offset is the machine's own at present is decoded with the offset that the configured
    zone had when )timezone was given, not with its own (sys.go:232, config.go:421-431): in London, set in summer on a
    machine in UTC, 'T' decode 'T' encode of a winter time is an hour off (decode_encode_refuted).
62. Time vectors without an offset are decoded with the offset of the moment when )timezone was given, and encoded
    with the offset of their own moment: noon in January becomes 11 o'clock (encode_decode_refuted).
63. Fractions of seconds before 1970 are rounded up to 1.5 nanoseconds away: 0.5 is added to a negative number
    and the sum cut towards zero (fraction_encoded_refuted, encode_decode_encode_refuted).
64. `(iota 0) encode 5` and `'T' encode iota 0` panic with an index out of range: AllChars is true of the empty
    vector (times_total_refuted); decode tests for it.
65. A rational is rounded before it is compared with a float, so == is not transitive: with x = 1/3, y = float x and
    z = x + 1/10**100, x == y and y == z, but x < z (float_equality_refuted).  OrderedCompare, on which sorting and
    sets rest, is no order on such numbers (float_order_refuted).
66. mod of floats works with a quotient of 53 bits whatever the precision (eval.go:996, big.NewFloat(0)): (float 7)
    mod 3 is not 1 and (float 100000000000000001) mod 3 is 0, not 2 (float_mod_refuted); the remainder can be
    larger than the divisor (float_mod_range_refuted).
67. mod changes its operands: x.Copy(x) at eval.go:987 and 992 is x itself, so a negative float is negated where it
    is: after x = float -7.5, x mod 2 leaves 7.5 in x (float_mod_operands_refuted).
68. verbIndex (format.go:136) returns, after %%, an index into the rest of the format: '%%%d' text 7/2 is prepared for
    the verb % and not for d, so that the structure of the value is printed, and '%%T%d' for times (verb_found_refuted).
69. A negative decimal count makes the format %.-1f, which fmt reports in the result instead of an error
    (negative_decimals_refuted).
70. The style 'd' that doc.go:180 gives for three-element formats is refused, and 'E' is changed to 'e' (style_refuted).
71. x j x holds one big.Rat twice.  floor of it takes x mod 1, which negates a negative x in place (finding of C12), and
    then takes the imaginary part from the same cell: with x = -2/3, floor x j x is -1, but floor -2/3j-2/3 is -1j-1,
    which is right (complex_floor_refuted).
72. floor z changes z when a part is a negative rational: z = -1/2j3; floor z; z is then 1/2j3
    (floor_keeps_operand_refuted).  ceil, which negates into new cells, does not.
73. j1, j25 and the like cannot be names: the scanner takes a j with digits for a number, which value.Parse then refuses, so
    `j1 = 5` is an error (name_of_j_refuted).
74. phase returns the addresses of the interpreter's own constants for numbers on the imaginary axis (complex.go:135, 137),
    and sin, tan, mod and e ** of a complex number negate a negative operand in place: after sin phase 0j-1, or after
    ** log 0j-1, the phase of 0j-1 is 1.57 for the rest of the session instead of -1.57 (phase_same_refuted).
75. )format '%.3F' is accepted as a format for floats (config.go:135), but big.Float.Text does not know the verb F: every float
    is then shown as the two characters %F (float_format_refuted).  Also )format '%.f' shows six decimals, where Go means none.
76. Under )format '%.ne' and, for large numbers, '%.ng' integers and fractions are cut off after their digits instead of being
    rounded, unlike floats: 199 with %.1e is 1.9e+02 (exact_rounding_refuted; int.go:128 has it as a TODO).
77. A fraction whose scaled value rounds up to ten, such as 999999/1000 with %.1e, is shown ten times too small, 1.0e+02, and
    with more digits as a text with two points, 1.0.0e+03: bigrat.go:84 looks for the point at index 1 only.  The same happens
    to 1/10**9, 1/10**18, ..., because ratExponent compares with >= a billion but with > ten (fractions_shown_refuted,
    fractions_text_refuted).
78. )format '%.0g' is accepted, and then every integer and most fractions stop the interpreter with a slice panic, which
    run.go does not recover (int.go:135; no_digits_crash_refuted).
79. Under '%.ng' a BigInt drops the zeros at the end of its digits and an Int keeps them: 10**20 is 1e+20 but 1000000 with
    %.3g is 1.00e+06 (int.go:84 lacks bigint.go:106's trimEZeros; see exact_case).
80. )demo never gives back the two levels of runDepth that its goroutine counts, because nothing closes the pipe
    (special.go:393-425, 477-486): after five demonstrations every )get fails, and the sixth ends the whole process, since
    "nested too deep" is reported before the recovering function is in place (demos_leave_nothing_refuted).
81. In the demonstration's goroutine only value.Error is recovered; a math/big.ErrNaN, which run.Run recovers, ends the
    process (special.go:397-407, 426-436; not in the model, found by reading).
82. mobile.Reset "clears all state to the initial value", but the precision, the stack limit, the debugging flags, the time
    zone and runDepth stay (mobile.go:88-99; reset_refuted).
83. "The output is HTML-safe" (mobile.go:46): <, > and & are not escaped, a backslash and the text &#92; come out the same, and
    a tab becomes four ordinary spaces, which HTML collapses (html_safe_refuted).
84. mobile's Demo.Next evaluates each line by itself, so an operator whose body has several lines, or a raw string over
    several lines, cannot be demonstrated there (line_by_line_refuted).
85. The operator ivy "prints every value but the last, and returns the last" (run.go:104-106): if the text ends with an empty line,
    a command or a definition, the value before it is printed and an empty vector is returned (ivy_last_refuted).
86. eval prints the values of a line only after it has evaluated the next one: an error in that line loses them, a )format or )obase
    in it changes them, and what it prints itself comes before them (ivy_late_refuted, ivy_order_refuted).
87. "ivy -" reads the standard input interactively, as "ivy" does, but its first error ends the process with status 1; and
    "ivy -e ''" does not run an empty program but reads the standard input (ivy.go:100-105, 121-135; stdin_refuted).
88. asinh x is log(x + sqrt(x^2+1)), which cancels for negative x: with enough digits the sum is 0 and the operator reports the logarithm
    of a number that is not positive (at 24 bits asinh -5000, at the default 256 bits about asinh -1e40), and before that the result loses its
    digits: at 24 bits asinh -1000 is -7.62 and asinh 1000 is 7.60. For small x it is 0 (asinh.go:49-56; asinh_negative_refuted,
    asinh_odd_refuted, tiny_refuted).
89. atanh decides between the real and the complex function by the exact argument but computes with the rounded one: a fraction just below 1
    is neither, and reports "real atanh out of range (-1, 1)"; and for small x it is 0 (asinh.go:34-45, 74-82; atanh_near_one_refuted, tiny_refuted).
90. e**x, sinh x, cosh x and tanh x report that a series did not converge for large x, although the results are ordinary floats (and tanh is
    nearly 1): the number of terms is limited to 10 per bit of the precision and not by the argument. At 8 bits e**128 and tanh 256 fail; at
    the default 256 bits arguments of several thousand do (power.go:111, sinh.go:52, 83; exp_large_refuted, tanh_large_refuted).
91. x ** y for x well below 1 and y not an integer is e**(f log x), f being the fractional part of y, by a series with large alternating
    terms: the result has no correct digit and may be negative. At 16 bits 2**-40 ** 3/4 is -2851 instead of 2**-30; at the default 256 bits
    the same happens when f log x is below about -90, as for a base of 1e-200 and the exponent 3/4 (power.go:86-91; power_small_refuted).
92. The square root is not always the nearest float: sqrt 6 with the default 256 bits is one unit off (sqrt_nearest_refuted). Roots of squares are exact (sqrt_of_square).
93. sqrt of a complex number takes its imaginary part from sqrt((mag - a)/2): when b is below about 2**(-p/2) of a the difference cancels and
    the imaginary part is lost, as in sqrt 1j2**-140 with 256 bits, which is 1j0 (csqrt_lost_refuted); with a < 0 the real part is lost the same way.
