# Design

The subject is the Scheme interpreter in `/repo` (C++20 kernel plus a runtime
library written in Scheme).  The model is a set of total Gallina functions in
`rocq/theories/`, one file per area.  Each definition cites the file and lines
it models and says where it simplifies.  Property theorems live in
`Properties*.v`; those files contain only statements closed by
`exact lemma.`, a `Print Assumptions`, and non-vacuity `Example`s.

Conventions

* undefined behaviour and crashes are explicit results of the model (`UB`,
  `Crash`, `Err`, `None` as documented in each file), never a default value;
* loops become structural recursion or recursion on fuel with a distinct
  out-of-fuel result; theorems exclude or refute that result explicitly;
* `..._partial` marks a theorem that proves less than the property text (the
  comment states what is missing); `..._refuted` marks a proof that the code
  as written violates the property, with a concrete witness.

## Plan per property

| id | model | method |
|----|-------|--------|
| C01 | `NanBox.v`: 64-bit words as `N`, the masks and signatures of nan_boxing_pointer.hpp | bit-level round trip, injectivity |
| C02, C03 | `PointerSet.v`: the three-level radix set with occupancy words, min/max indices, iterators; out-of-bounds reads are `None` | refinement to a sorted finite set by induction over histories; refutation of C03 |
| C04 | `Allocator.v`: blocks + free list | invariant over histories |
| C05, C06 | `Collector.v`: cells, data with base/size, roots by address containment, worklist mark, sweep | mark set = reachable set |
| C07 | `Registry.v`: cell operations with conditional registry updates | invariant over histories |
| C08–C13 | `Number*.v`: tower small/large/ratio, each operator by representation; doubles through Flocq-free exact reasoning where the code detours through `double`; the higher-order procedures of SRFI 151 (bitwise-for-each, -unfold, generators) and its conversions to and from vectors in `PropertiesBitwiseMore.v`, with procedure arguments as Gallina functions | agreement with `Z`/`Q`; refutations where the detour loses |
| C14 | `Srfi141.v`: the Scheme definitions transcribed over the modelled primitives | defining equations; partial/refuted as needed |
| C15 | `NumberText.v` | round trip |
| C16, C17, C49 | `TextPort.v`: byte-level encoder/decoder, the state bits of std::istream, get/peek/get_line | round trip, refinement by induction over operation sequences |
| C18–C21, C50 | `Sequence.v`: strings, vectors, homogeneous vectors as lists, a store for aliasing copies | refinement to list functions; refutations |
| C22–C25, C51 | `Lists.v`: a heap of objects with car and cdr, pointers as positions; list.cpp function by function | Floyd termination by pigeonhole (`ListPredicates.v`), segments, freshness and frames (`ListsProofs.v`); refutations |
| C26, C27, C52 | `Equal.v`: eqv by class of object, the union-find forest with path compression and ranks, equal | termination by the number of unrelated pairs, soundness by bisimulation, completeness by unfolding |
| C28–C34, C53 | `Machine.v` (dynamic_environment.cpp), `Generator.v` (generator.cpp, identify), `Evaluate.v` (evaluate, ten primitives); specification `CoreSemantics.v` (big-step, stores, space) | `CompilerProofs.v`: generated code against a relational specification; `Simulation.v`, `CompilerCorrect.v`, `CompilerProgram.v`: simulation with worlds from heap addresses to source locations; `Discipline.v`: stack typing of all generated code; `MachineProofs.v`: space, addresses, continuations, globals |
| C35 | `Environment.v` (environment::import_set, import, library::import_set over a heap of cells); specification `denotes`: import sets as lists of bindings | `EnvironmentProofs.v`: induction over import sets; refutations for sharing |
| C36 | `CondExpand.v` (conditional_expand_test, conditional_expand); specification `truth` | induction over requirements; library keys are told apart by the round trip of C38 |
| C37 | `Symbols.v` | refinement |
| C38, C39, C54, C55 | `Writer.v` (operator << of each type), `Reader.v` (textual_input_port::read over the istream of `TextPort.v`); specification: the grammar of external representations in `ReaderProofs.v` | `ReaderCorrect.v`: every text of the grammar is read as its datum; `RoundTrip.v`: every written text is in the grammar; refutations |
| C40 | `LibraryCode.v`: the text of library/*.ss, read by `Reader.v`, expanded, compiled by `Generator.v`; it runs on `Machine.v`. Specification: `windup`-independent `transfer` in `WindSpec.v` | `Reach.v`: symbolic execution of machine code around an arbitrary program invariant; `Symbolic.v`: the procedures of C++ and tactics; `ContinuationProofs.v`: windup!, the escape procedure, call/cc, dynamic-wind; `TraceProgram.v`: a program to which the theorems apply |
| C56, C57 | map and apply of library/meevax.ss, the same way. Specification: `rows` (C56_rows says what a row is) and `each` in `MapProofs.v` | `MapProofs.v`: induction over the rows, on the compiled code; `ProgramText.v` runs example programs as text |
| C41 | make-parameter and dynamic-bind of library/srfi-39.ss, the same way; parameterize only rewrites its form to a call of dynamic-bind (C107). Specification: `innermost`, `unbound`, `value_of` in `PropertiesParameter.v` | `ParameterProofs.v`: the parameter procedure (a letrec closure), conversions in order, the thunks of the extent; a transfer of control ends with the bindings of its target, by induction over `windup` |
| C42 | with-exception-handler, raise, raise-continuable of library/srfi-34.ss, the same way; `Catch.v`: the catch clauses of execute and the loops around it (load and the prompt). Specification: the handlers in register 2 as a list, `handlers_of` for lists of extents | `HandlerProofs.v` on the compiled code; `TransferProofs.v`: what a transfer of control leaves in a register whose value belongs to the extent, shared with C41; refutations by running programs |
| C43 | promise, promise?, promise-update! and force of library/srfi-45.ss, the same way; delay and lazy only rewrite their form (C107). Specification: `holds`, `registry`, `keeps_done` | `SharedMemory.v`: pairs that anybody may write, hidden from the frame, for any program invariant; `PromiseProofs.v` on the compiled code; induction over the rounds of a chain |
| C44 | `Records.v`: library/srfi-9.ss as Gallina functions on a store of vectors; a program is a list of operations on types, instances and vectors | simulation with a specification in which an instance is a function from field tags to values (`PropertiesRecord.v`), by induction on the history; partial because histories that use `vector-ref`, `vector-set!` or `vector?` on records are left out, and for those disjointness and non-forgery are refuted |
| C58 | `Expander.v`: expander.cpp, identify/expand/sweep of syntactic_environment.cpp, syntactic_closure.cpp (alpha conversion included), er- and sc-macro-transformer; the generator only as far as it says what an identifier refers to. Specification: `ExpanderSpec.v`, a relation between forms, environments of formals and code that renames nothing | `ExpanderProofs.v`: an invariant between the formals of the specification and the renamed formals and dictionary of the expander (`good`), a relation `settled` for expanded forms which survives a second expansion (sweep expands the forms of a body, then body expands them again), mutual induction on the specification. Partial: the rules have premises (`careful`) where the expander is wrong, internal definitions are covered where their names are bound nowhere else (the sweep restarts from the unexpanded body for each new name, `body_definitions`), macros which stand for definitions are left out, er macros only. `C58_introduced_refuted`: a definition of a name which a macro puts in makes the expander restart for ever |
| C59 | the same; a live environment in the specification against the snapshot of the model | corollary of C58 by induction on the lambda expressions around; refutations by running the model, nontermination by induction on the fuel |
| C60 | the same | corollaries of C58, refutation by running the model |
| C61, C62 | `SyntaxRules.v`: the compiler of library/srfi-149.ss (expand-pattern with its continuations and counter, expand-template, all-vars, free-vars) and `eval`, the meaning of the text that it builds. Specification: `SyntaxRulesSpec.v`: matching, sequences of bindings, instances of templates, legal ellipses | `SyntaxRulesProofs.v`: compiler correctness by induction on the fuel (`compiled`: the text of a pattern goes on with the text of the continuation, in an environment in which the variables of the pattern are bound and no others of the program are changed), `template_correct` for templates, `pattern_total` and `template_total` for acceptance; refutations by running the model. The renamed symbols of the text (let, and, car ...) are taken to mean what they say, see C58, C59 |
| C63–C65 | `DerivedForms.v`: the er transformers of library/r4rs.ss and r7rs.ss as Gallina functions from form to form (`Ren k` is `(rename 'k)`, `same` is `compare`). Specification: `DerivedSpec.v`: an evaluation relation for the expansions over an arbitrary world (store, values, evaluation of the user's forms), relations for R7RS 4.2.1–4.2.4, and `quasi`, `builds` for 4.2.8 | `DerivedProofs.v`: each expansion has exactly the evaluations of its specification (iff), by induction on clauses, bindings and iterations. The scope of renamed identifiers is C58, C59; the expander calls the transformers again for the forms inside |
| C66 | `Rationalize.v` on `Q`, recursion with fuel | `RationalizeProofs.v`: induction on the sum of the denominators of the two ends, which decreases (`internal_spec`); refutation for every interval which has 0 inside and reaches 1 |
| C67–C70 | `Srfi1.v`: the procedures of library/srfi-1.ss that take procedures, in a state monad over the heap of `Lists.v` and an arbitrary world; procedure arguments are arbitrary functions of arguments, heap and world. Specification: `Srfi1Spec.v`: `calls`, `search`, `all_true`, `folds`, `folds_right`, `unfolds` are relations on lists of Gallina which give the calls in order; `steady`: a procedure that leaves pairs alone, with any effect on the world | `Srfi1Proofs.v` (lists of any number), `Srfi1Walks.v`, `Srfi1Writes.v` (procedures with !; `touched`: only the pairs of the argument), `Srfi1Sets.v` (membership, distinctness), `Srfi1Rest.v` (list of remaining arguments in the heap): inductions on the list or on the length of the shortest |
| C71 | `Ports.v`: bytevector, string and file ports as objects in a numbered store, std::ifstream by its state bits, std::ofstream by offset and buffer, a file system; the procedures of boot.cpp and library/r7rs.ss on them; a program is a list of operations. Specification: `PortsSpec.v`: an input port is a sequence and a number of bytes taken, an output port the sequence written | `PortsProofs.v`: simulation, one operation at a time; an invariant that a file has at most one open output port. Partial because the places where the program departs from R7RS are premises; each is refuted by running the model |
| C72–C74 | `LibraryCode.v`: the texts of values and call-with-values (r5rs.ss), exit (meevax.ss) and for-each (r4rs.ss) are read, expanded and compiled with the rest of the library and run on `Machine.v`. Specification: values are represented by a value that stands for them (`stands_for`); the after thunks of the chain of extents, innermost first; the rows of the lists | `ValuesProofs.v`: symbolic execution of the compiled code with the lemmas of C40 and C56. C72 partial: continuations that take several values are refuted by running a program. C73: `ExitLibrary.v` defines exit with the names that (meevax continuation) imports; letrec is not among them, and C73_exit_refuted proves for all states that exit then calls emergency-exit at once, without the after thunks. C73_if_letrec_partial is about the same text with letrec as the keyword |
| C75, C76 | `Configuration.v`: the regular expression for options as a matcher, the table of options, the loop of configure, main with its catch clauses, and format (configuration.cpp, main.cpp). Reading a datum is `Reader.v`; what an action does to the world, and the external representation of the other data, are parameters. Specification: `CommandLineSpec.v`: the documented names and operands, the ways to spell requests and what they mean; filled paragraphs | `CommandLineProofs.v`: induction on the spelling of the command line; induction on the words of the text. C75 partial: operands that are not read as documented, --help and --version are refuted by running the model |
| C77–C85 | `Flonum.v`: the instances of the templates of number.hpp, number.cpp, power.cpp and nearest_integer.cpp at double; doubles are `spec_float` of the standard library (`Floats.SpecFloat`, no axioms), conversions truncate as GMP does, std::pow is a parameter. Not modelled: float, complex numbers (except that sqrt makes them), number->string of doubles, exp, log and the trigonometric procedures. Specification: `FlonumSpec.v`: rational numbers with infinities and NaN, representable numbers, rounding to even, truncated remainders | `FlonumProofs.v` (powers of two, the shape and exactness of the truncating conversion, `SFcompare` is comparison of values), `FlonumProofs2.v` (comparison with exact numbers, uniqueness), `FlonumProofs3.v` (nearest integers, exactness of fmod, of `SFsqrt` on squares, numerators). Each departure from R7RS is refuted by a concrete number |
| C86–C88 | `Complex.v`: the templates at complex, with real parts as in `Flonum.v`; max and min on real numbers. std::atan2 is a parameter; functions on std::complex<double> and parts that are not real numbers (make-rectangular does not check) are left out. Specification: `ComplexSpec.v`, pairs of rational numbers | component by component from the lemmas of C08/C09; for max and min the truncating conversion is monotone (`of_q_mono`), so comparing rounded fractions still selects a number with the right inexact value |
| C89–C93 | `Include.v`: paths as byte texts with the operations of std::filesystem on POSIX; locate, the table of source files, the constructor of input_file_port, include, environment::evaluate and load at the outermost level, expander::include, library::evaluate and import_set up to the export specs. The file system is given by its answers (accepted, canonical, opens, contents) and does not change; compiling and executing, define-library, import and cond-expand are parameters. One source file is kept per datum read instead of one per pair; the reuse of addresses in the never cleaned table is left out. Specification: `IncludeSpec.v`, the list of places to look in, data in order. Nested inclusion needs fuel; more fuel changes nothing (`evaluate_more`, `declare_more`). |
| C94–C97 | `UnicodeTables.v`: the categories, digit values and case mappings of configure/UnicodeData.txt, written by a script (trusted transcription; runs of one category are put together). `Unicode.v`: the sed and grep commands of CMakeLists.txt, the four switch statements, the predicates, conversions and comparisons of boot.cpp. `UnicodeProofs.v`: a switch in order is a balanced search tree, so that the kernel checks facts about whole tables quickly; what holds of each case holds of each code point. Arguments that are not characters are left out (as<character> throws). |
| C98–C101 | Labels.v, LabelsSpec.v, LabelsProofs.v, LabelsShared.v, LabelsEvery.v, LabelsRead.v, PropertiesLabels.v | `write` of pairs and vectors with the table of labels in the stream (pair.cpp), `write-simple`, `write-with-shared-structure` (scan, write-obj and its association list), `circulate` and the reader's labels. Texts are lists of tokens (atoms are opaque, blanks and digits of labels left out). The specification is the relation `shows` between a text and an object of a heap. Runs of write that end are an inductive relation equal to the fuelled function; the text theorem is an induction over it, termination is an induction over the number of objects without a label and the accessibility of the parts, and the converse collects the set of objects a run has seen. write-shared: scan marks every part it meets again, so that a part marked once is younger than the part that refers to it; write-obj decreases (parts without a number, age). Reading: footprints of freshly allocated trees. Not modelled: `display`, colours, blanks. That every shared part gets a label (LabelsEvery.v): all references among the parts are followed by scan, so two of them leave the mark, and the objects written are closed under taking parts, so every marked one has been written with its label |
| C102 | `Macros.v`, `MacrosSpec.v`, `MacrosProofs.v`, `MacrosEval.v`, `PropertiesMacros.v` | The text of the rules of `let-values`, `let*-values`, `receive` and `rec`, read by the model of the reader (Reader.v) and compiled and run by the model of syntax-rules (SyntaxRules.v). Which rule applies and what it makes of a use is computed by C61; the meaning of an expansion is a relation over the few forms that occur in it (MacrosSpec.v: lambda, let, letrec, call-with-values, begin, a use of another macro) with any meaning of the program's own expressions. Proved by induction over clauses and formals that it agrees with R7RS. Simplified: identifiers are numbers and an alias is an odd number made of the use and the identifier (hygiene is C58, C59); temporaries of macros are kept apart from the program's variables; inits are evaluated from left to right, which is one of the orders R7RS allows. |
| C103 | `RecordMacros.v`, `RecordMacrosProofs.v`, `PropertiesRecordMacros.v` | The text of the rules of `define-record-type` (srfi-9.ss:129-142) run by the model of syntax-rules as for C102. The definitions in the expansion are given a meaning with the functions of Records.v (make-record-type and the makers of the procedures). Proved by induction over the fields, with the inner uses of `define-record-field`. |
| C104 | `DefineValues.v`, `DefineValuesProofs.v`, `PropertiesDefineValues.v` | The text of the rules of `define-values` (r7rs.ss:127-158) run by the model of syntax-rules as for C102. The definitions of the expansion take the values one by one off the list in the first variable with `set-cdr!`; their meaning is a relation over variables and a heap of pairs, any meaning of the program's expression. Proved by induction over the variables with an invariant on the list being taken apart. |
| C105 | `Guard.v`, `GuardProofs.v`, `GuardMeaning.v`, `PropertiesGuard.v` | The text of the rules of `guard` and `guard-aux` (srfi-34.ss:71-123) run by the model of syntax-rules, with the literals `else` and `=>` compared through the aliases (`compare`). An expansion means a function of dynamic environment, continuation and state; the rules of the relation `means` cover the core forms and procedures that occur in the expansion. The specification follows R7RS 4.2.7 and does not mention expansions. Proved by induction over the clauses; `C105_one_meaning` shows that the rules do not overlap (uses functional extensionality). |
| C106 | `CaseLambda.v`, `CaseLambdaProofs.v`, `CaseLambdaRuns.v`, `PropertiesCaseLambda.v` | The text of the rule of `case-lambda` (srfi-16.ss:5-25) run by the model of syntax-rules. The local macro of the expansion, with its renamed ellipsis, is compiled and run by the same model (C61 and C62 applied to rules that contain aliases); identifiers are compared by the symbols they stand for, and aliases look up what the identifier renamed is bound to. The list of the arguments is not part of the state, since the program cannot reach it. Proved by induction over the clauses, in both directions. |
| C107 | `ErMacros.v`, `PropertiesErMacros.v`: The transformers of delay, lazy, parameterize, letrec* and let as procedures that make templates for the expander of Expander.v. Specification: `lazy_code`, `delay_code`, `parameterize_code`, `letrec_star_code` over the code of the parts. What promise, force and dynamic-bind do is C43 and C41 | By the rules of `means` (ExpanderSpec.v); aliases are new in every scope, so they refer to the environment of the library. Compilation by C58. Refutation: `(letrec* ((z y)) (define y 5) z)` run through the model of the expander |
| C108 | `FlonumArith.v`: operators + - * / on reals of which some are doubles (number.cpp) and the procedures, which fold from exact 0 or 1 (boot.cpp). Specification: `RoundingSpec.v`: roundTiesToEven over the rational numbers (nearest representable number, ties to the even one, overflow limit), sums, products and quotients with infinities and NaN | `FlonumRound.v`: shifting right keeps the location of the number between two integers (`shr_1_ok`, `iter_ok`), the rounded integer is the nearest, ties to even (`round_int`), the nearest multiple of the unit is the nearest representable number (`nearest_multiple`), `round_aux_ok` puts them together for any sign, mantissa, exponent and location; `normalize_ok`, `mul_finite`, `div_finite` reduce the operations to it. Uniqueness of rounding: between two even numbers there is a representable one. Refuted parts by witnesses |
| C109 | `Srfi144.v`: the first half of (srfi 144) and the procedures of (meevax binary64): modf, logb, ilogb, frexp, signbit, fpclassify, ldexp, nextafter as functions of the doubles of `Flonum.v`; the C library functions themselves are modelled after IEEE 754. Specification: the rational value of a flonum, `rounds_to` (`RoundingSpec.v`) and, for fladjacent, "no flonum lies between" | `top_bounds` from the binary logarithm of the mantissa; `sub_representable`: x minus its integer part is representable; `away_ok`, `towards_ok`: a representable number above (m, e) is a multiple of 2^e (`multiple`), negative flonums by symmetry (`next_opposite`); `binary_round_ok` for make-flonum. fl-least refuted by 2^-1074 |
| C110 | `Srfi144.v`: fmax, fmin, remquo, and the procedures of srfi-144.ss defined by the arithmetic of C108 and by sqrt and expt of C82 and C83; std::pow is a parameter | induction over the list with the greatest argument so far; `double_sub` and `double_div` of C108; `nearest_even_ok` and `rest_representable`: the remainder is not larger than either argument and therefore representable. Refuted parts by witnesses, flcbrt for every pow that is NaN for a negative base and a fraction as exponent |
| C111 | sqrt of flonums and exact numbers that are not squares (power.cpp:75-120): the model of C82, Flonum.v. std::sqrt is SFsqrt of the standard library, which takes the integer root of a shifted significand and rounds by its remainder. Specification: RootSpec.v, by comparing the square of the middle of two representable numbers with the radicand, without real numbers | FlonumSqrt.v: the integer root and its remainder are a surrogate of the root that lies on the same side of every number on the grid and of every middle of two, so what is proved of rounding in FlonumRound.v carries over. PropertiesSqrt.v: every kind of flonum, small integers, ratios that are flonums; uniqueness; a witness for 1/7 |
| C112, C113 | make_real of number.cpp:405-470 from text to flonum, number->string and write of flonums (number.cpp:905-920, nan_boxing_pointer.hpp:271-285): Decimal.v. Reading scans the text as std::stod does, exponents without bounds, and rounds the rational number with the division of the standard library's SpecFloat; numbers that are tiny and inexact, or too large, raise std::out_of_range as with glibc. Writing searches the shortest digits that are read as the flonum, at most 17, and lays them out as std::to_chars does in the general format. Specification: DecimalSpec.v (the grammar <decimal 10> and what it denotes), RoundingSpec.v | DecimalProofs.v: the quotient rounded with a sticky bit is the nearest flonum (FlonumRound.v); the scanner follows the grammar. DecimalWrite.v: 17 digits always suffice, for the gap between decimals of 17 digits is less than half of the gap between flonums; the texts laid out are literals of the grammar. The numbers that are rounded to a flonum are convex, so that the two neighbours of n digits decide whether n digits suffice. That subnormal numbers cannot be read again: 5^-k would divide the digits |
| C114, C14 (wide) | the arithmetic of library/srfi-143.ss: Srfi143.v, on the model of SRFI 141 (Srfi141.v) and of expt (Flonum.v; std::pow is a parameter) | Srfi143Proofs.v: floor and ceiling of a ratio go through a truncated double and may be one off; the remainder is then between -d/2 and 0, which is what balanced/ would return |
| C115 | is<T>, is_also<T> and as<T> of objects, and the type predicates: Types.v, with the words of NanBox.v (C01), the classes of which make<T> makes objects and the bases of their declarations; a heap gives the class of the object at an address | by cases on the type, with a specification that says for every class which predicate must hold of its objects. That no base class is ambiguous (all are virtual or occur once) is read off the declarations; std::exception and the contents of the objects are left out |
| C116 | read/ss of SRFI 38 from the tokens on: ReadShared.v (read-token is left out); the specification of texts is that of C101 (LabelsSpec.v), with chains of labels and alikeness in ReadSharedSpec.v | reading a text gives an object with thunks in the places of the uses of labels (ReadSharedProofs.v, by induction on the description of the text); a second induction follows fill-in-parts over the addresses the text has taken. A text can be taken apart in one way only, so two objects with the same text are related part by part (ReadSharedAlike.v). For sharing the descriptions carry the list of the pairs and vectors described (Tells.v): read/ss takes a new address for each, and write/ss follows no reference twice, so that nothing that is not marked is described twice (LabelsOnce.v); with both lists free of repetitions the relation of the parts is one-to-one |
| C117 | display: Display.v, on the data and with the write of Writer.v (C38), as the bytes put to the port | the specification is a relation between data and texts, with write for numbers, booleans and the like (R7RS defines display by how it differs from write); by induction on the depth of the datum, refutations by witnesses |
| C118 | (beyond C56 and C74, which are about the compiled code and proper lists) map, for-each and their companions for strings and vectors: Mapping.v, on the heap, world and procedures of Srfi1.v | MappingSpec.v says which calls are made, with a relation that lets the heap grow between and in the calls, and rows of elements; by induction on the number of rows, arguments that go on behind it (longer, dotted, circular) are covered as any start of a list |
| C119 | error objects: ErrorObject.v, with error.cpp, the catch clauses of execute and a choice of the places that signal errors; how an object is written is an argument | by cases; refutations by witnesses: (1 2) for irritants that are not a list, (raise 42) for a report without the object |
| C120 | SRFI 78: Srfi78.v, programs as trees of uses of the library, run with its variables and its output | Srfi78Spec.v has histories of completed checks instead of the counter and the list of the library; by induction on programs, with the invariant that the variables agree with the history; the relation is shown to be deterministic |
| C121 | default ports and ports opened for a procedure: `Redirect.v`, programs as trees of uses of the library; the bindings, the dynamic extents and windup! as state of the machine, the world of files as functions of the history | `RedirectSpec.v` gives the default ports to a program as arguments, so nothing is restored there; a simulation by induction on the program, with the invariant that the bindings are those of the innermost extent; windup! by induction, also where it leaves and enters common extents again |
| C122 | texts of complex numbers: `ComplexText.v`, on the numbers of `Complex.v`, the reading of reals of `Decimal.v` and the patterns of `Reader.v` | the last sign of a text that ends in i divides it; a text that ends in i is no real number, and one that begins with + no exact number, both for every text; then the texts of exact numbers of C15 and C47 |
| C123 | the standard libraries as tables of their imports, exports and definitions, and import with the identity of bindings: `StandardLibraries.v`; appendix A of R7RS: `StandardLibrariesSpec.v` | the tables are checked by computation, pair by pair; that libraries which agree in pairs can be imported in any sequence is proved by induction for any table |
| C124 | `FreeVariables.v`: per definition of the libraries of C123 the names that are free in it (a table extracted from the Scheme text), looked up in the environment of its library as `StandardLibraries.v` computes it | The table is checked once by computation, undefined_spec and defined_spec turn the check into the statement. Partial: seven uses of unbound names, each refuted |
| C125 | `PairAccess.v`: the compositions of pair.hpp, list and cons* of boot.cpp on the heap of `Lists.v`; apply on `Machine.v`. Specification: `leads` (where the letters of a name lead), `spine` (the pairs of a list with their addresses) | Each accessor is by computation the walk along its letters, the names by enumeration of the letters; cons* by induction on the spine; the sharing through apply by the symbolic execution of C57 and by running programs. Partial: the lists are not newly allocated, refuted |
| C126 | EnvVars.v: get-environment-variable(s) over the list of the byte strings of `environ`; std::getenv after glibc (trusted, not in /repo), UTF-8 conversion left out | PropertiesEnvVars.v: contents of the list, first entry returned, agreement for unambiguous names; refuted for repeated names, zero bytes and equals signs; all closed under the global context |
| C127 | `MoreLibraries.v`: the declarations of library/ that `StandardLibraries.v` leaves out (imports, exports, top-level names; bodies left out), evaluated by its functions, and the imports of main.cpp in the interaction environment. Specification: `srfi_index`, the names listed by SRFI 1, 141, 143 and 151 | Boolean checks of the tables by vm_compute with soundness lemmas for any table. Partial: (scheme division) leaves out six names, refuted; SRFI 144 is not compared |

## Trusted base

* the Coq 8.16.1 kernel (including `vm_compute`), the Coq standard library;
* what `Print Assumptions` lists under each theorem (printed by the build);
  "Closed under the global context" everywhere but in `C105_one_meaning`, which uses
  `functional_extensionality_dep` of the standard library;
* the reading of `/repo` recorded in the comments: nothing was executed.

Assumed of libraries, from their documentation: GMP (exact arithmetic, the syntax
accepted by `mpz_set_str` and `mpq_set_str`), `std::from_chars`/`to_chars`,
`std::istream` state bits and `putback`, `<cctype>` in the "C" locale (undefined
outside 0..255 and EOF), `std::regex_match` (each pattern is replaced by an
equivalent recogniser), `std::unordered_map`, `std::stod` (correct rounding, and
`ERANGE` for overflow and for tiny inexact results, as in glibc) and `std::to_chars`
of doubles (the shortest digits, general format).  The value and the text of inexact
numbers are parameters of the reader and writer of C36–C60; Decimal.v gives them
(C112, C113).

Not modelled: `#!fold-case`, SRFI 10 and homogeneous vector syntax
in the reader; the C++ memory model, allocation failure, GMP internals (taken as
exact `Z`/`Q` arithmetic), floating point beyond what is stated in each file,
dynamic linking, the operating system, the command line front end.  The expander
of `Expander.v` has Gallina functions in the place of macro procedures, and leaves
out letrec-syntax, internal syntax definitions and include; the other files do
not run it: there the generator works on expanded forms, and `LibraryCode.v`
expands the core forms of the library text, with its macros written out.
