{"id": "C01", "title": "A value stored in an object cell is read back with the same type and the same bits", "statement": "Storing a boolean, 32-bit integer, single float, character, instruction, heap pointer, the empty list or a double in an object and asking for its type and value gives back exactly what was stored; two cells compare equal (eq?) iff they hold the same type and the same value, doubles up to NaN payload.", "quantifier": "all booleans, all 2^32 integers, all floats/doubles by bit pattern, all 32-bit code points, all 48-bit addresses", "why_tests_cant": "the payload space has 2^64 points and the classes are separated by bit masks; a collision between two classes at one pattern is invisible to sampling", "anchors": ["include/meevax/memory/nan_boxing_pointer.hpp: nan_boxing_pointer", "src/memory/model.cpp"]}
{"id": "C02", "title": "The pointer set used by the collector is a finite ordered set", "statement": "After any history of insertions and erasures of addresses, membership is exactly 'inserted and not erased since', iterating from begin to end visits each member exactly once in increasing address order, lower_bound(p) is the least member >= p, and stepping backwards visits the predecessor.", "quantifier": "every sequence of insert/erase operations and every query address", "why_tests_cant": "state is a three-level radix tree whose index ranges only ever widen; errors appear only for particular histories and address distances", "anchors": ["include/meevax/memory/pointer_set.hpp: pointer_set::insert, erase, lower_bound, iterator"]}
{"id": "C03", "title": "The pointer set never reads outside its own arrays", "statement": "No call sequence of insert, erase, begin, end, lower_bound, ++ and -- that respects iterator validity reads an occupancy word or a subset slot outside the array bounds.", "quantifier": "every history and every iterator position", "why_tests_cant": "an out-of-bounds read of one word usually has no visible effect when tested", "anchors": ["include/meevax/memory/pointer_set.hpp: seek, increment_unless_truthy, decrement_unless_truthy"]}
{"id": "C04", "title": "The block allocator never hands out a live chunk twice", "statement": "For every history of allocations and deallocations of one size class, the chunk returned by an allocation is not one of the currently allocated chunks, it lies inside an allocated block, chunks do not overlap, and freed chunks are reused last-in first-out.", "quantifier": "every allocate/deallocate history", "why_tests_cant": "aliasing appears only after particular histories across block boundaries", "anchors": ["include/meevax/memory/allocator.hpp: allocator::allocate, deallocate"]}
{"id": "C05", "title": "Garbage collection never destroys an object the program can still reach", "statement": "After a collection every heap object reachable from a cell that is not itself inside a heap object (a root) is still allocated and has the same contents.", "quantifier": "every heap graph, including cyclic ones, and every set of root cells", "why_tests_cant": "depends on every possible object graph and root placement; a premature free shows up much later", "anchors": ["src/kernel/collector.cpp: collector::collect, mark, sweep", "include/meevax/kernel/collector.hpp: collector::is_root"]}
{"id": "C06", "title": "Garbage collection frees everything unreachable, cycles included", "statement": "After a collection the set of allocated heap objects is exactly the set reachable from the roots; unreachable cyclic structures are freed, and a second collection with no mutator step in between frees nothing.", "quantifier": "every heap graph and root set", "why_tests_cant": "leaks of particular graph shapes are not observable from test output", "anchors": ["src/kernel/collector.cpp: collector::collect, sweep"]}
{"id": "C07", "title": "The collector's registry of cells is exact", "statement": "At every moment the registry consulted for roots contains exactly the live object cells which currently hold a heap pointer, whatever sequence of construction, copy, assignment, reset and destruction happened.", "quantifier": "every sequence of cell operations", "why_tests_cant": "the update is conditional on the cell's old and new contents; a missed transition only matters when a collection later happens", "anchors": ["include/meevax/kernel/object.hpp: object::reset, insert, erase", "src/kernel/object.cpp"]}
{"id": "C08", "title": "Exact addition, subtraction and multiplication never lose precision", "statement": "For exact operands of any representation (32-bit, big integer, ratio) +, - and * return an exact number whose value is the mathematical result; no wrap-around occurs at any magnitude.", "quantifier": "all pairs of exact numbers", "why_tests_cant": "the interesting cases are at representation borders over an infinite domain", "anchors": ["src/kernel/number.cpp: operator +, -, *", "src/kernel/boot.cpp: + - *"]}
{"id": "C09", "title": "Exact division yields the exact quotient in canonical form", "statement": "(/ x y) for exact x and non-zero exact y is the exact rational x/y; when y divides x the result is an exact integer object (eqv? to that integer, accepted by exact-integer?).", "quantifier": "all exact x and non-zero exact y", "why_tests_cant": "infinitely many operand pairs over three representations", "anchors": ["src/kernel/number.cpp: operator /", "src/kernel/boot.cpp: /", "src/kernel/ratio.cpp"]}
{"id": "C10", "title": "quotient, remainder and modulo satisfy the integer division laws", "statement": "For exact integers n and non-zero d: n = d*quotient + remainder, |remainder| < |d|, remainder has the sign of n, modulo has the sign of d and is congruent to n.", "quantifier": "all exact integers n and non-zero d, small and large", "why_tests_cant": "quotient takes a route through rationals and floating truncation, so it depends on magnitude", "anchors": ["src/kernel/boot.cpp: quotient, remainder, modulo", "src/kernel/number.cpp: operator %, truncate"]}
{"id": "C11", "title": "floor, ceiling, truncate and round of exact rationals are exact", "statement": "For every exact rational q the four rounding procedures return the integer prescribed by R7RS (round to even on ties).", "quantifier": "all exact rationals", "why_tests_cant": "ties and magnitudes above 2^53 are a measure-zero subset of any sample", "anchors": ["src/kernel/number.cpp: floor, ceil, trunc, round"]}
{"id": "C12", "title": "Bitwise procedures implement two's complement on unbounded integers", "statement": "bitwise-and/or/xor/not, bit-count and arithmetic-shift agree with the infinite two's complement reading of their exact integer arguments for every mix of small and large integers.", "quantifier": "all exact integers, all shift counts", "why_tests_cant": "sign extension across the small/large border depends on every bit position", "anchors": ["src/kernel/number.cpp: operator &, |, ^, ~, bit_shift, bit_count", "library/srfi-151.ss"]}
{"id": "C13", "title": "Numeric comparison of exact numbers is the mathematical total order", "statement": "=, <, >, <=, >= on exact numbers of any representation agree with the order of the rationals they denote.", "quantifier": "all pairs of exact numbers", "why_tests_cant": "cross-representation comparisons are infinite in number", "anchors": ["src/kernel/number.cpp: operator ==, <, >, <=, >="]}
{"id": "C14", "title": "SRFI 141 division operators satisfy their defining equations", "statement": "floor/, truncate/, ceiling/, euclidean/, round/ and balanced/ return q and r with n = d*q + r and r in the range which defines the operator.", "quantifier": "all exact integers n and non-zero d", "why_tests_cant": "six operators by four sign combinations by unbounded magnitudes", "anchors": ["library/srfi-141.ss"]}
{"id": "C15", "title": "Integers print and read back in every radix", "statement": "For every exact integer n and radix r in {2,8,10,16}, (string->number (number->string n r) r) is an exact integer = n.", "quantifier": "all exact integers and radices 2..36", "why_tests_cant": "infinite domain and border representations", "anchors": ["src/kernel/number.cpp: number->string", "src/kernel/textual_input_port.cpp: read, make_number", "src/kernel/number/*"]}
{"id": "C16", "title": "UTF-8 output followed by UTF-8 input is the identity", "statement": "Writing any sequence of Unicode scalar values to a textual port and reading characters back from the produced bytes gives the same sequence and consumes exactly those bytes; peek-char then read-char agree and peeking does not change the sequence.", "quantifier": "all finite sequences of scalar values (0..D7FF, E000..10FFFF)", "why_tests_cant": "1.1 million code points and every concatenation of them", "anchors": ["src/kernel/character.cpp: character::operator std::string (utf8)", "src/kernel/textual_input_port.cpp: take_character, peek_character"]}
{"id": "C17", "title": "read-line, read-string and read-char deliver the port's characters in order without loss", "statement": "Reading a port to the end by any mixture of read-char, peek-char, read-string k and read-line returns, concatenated (with newlines put back), exactly the characters of the port.", "quantifier": "every character sequence and every sequence of read operations", "why_tests_cant": "interaction of chunk boundaries, newlines, end of file and multi-byte characters", "anchors": ["src/kernel/textual_input_port.cpp: get, get_line, peek", "include/meevax/kernel/textual_input_port.hpp"]}
{"id": "C18", "title": "String comparison procedures are the lexicographic order", "statement": "string=?, string<?, string>?, string<=?, string>=? and their -ci versions are the lexicographic order on (folded) code points: trichotomous, transitive, and <= is < or =.", "quantifier": "all pairs of strings", "why_tests_cant": "infinite; the -ci predicates are each written separately", "anchors": ["src/kernel/boot.cpp: string=? ... string-ci>=?"]}
{"id": "C19", "title": "substring, string-copy, string-append, list->string and string->list agree with list operations on the characters", "statement": "Each string procedure returns a fresh string whose characters are given by the corresponding list operation on the argument's characters for every valid index range, and signals an error for an invalid one.", "quantifier": "all strings and all index pairs", "why_tests_cant": "every index combination matters", "anchors": ["src/kernel/boot.cpp: string-*, list->string, string->vector"]}
{"id": "C20", "title": "string-copy! and vector-copy! copy as if through a temporary", "statement": "After (string-copy! to at from start end) the destination range holds the old source range, even when source and destination are the same object and the ranges overlap; nothing else changes.", "quantifier": "all objects, offsets, ranges, overlapping or not", "why_tests_cant": "overlap direction bugs only appear for particular index relations", "anchors": ["src/kernel/boot.cpp: string-copy!, vector-copy!"]}
{"id": "C21", "title": "Vector and bytevector accessors are total on valid indices and reject invalid ones", "statement": "vector-ref/vector-set!/u8vector-ref/u8vector-set! with an index below the length read/write exactly that element; any other index signals an error rather than touching other memory; storing a byte outside 0..255 is an error.", "quantifier": "all vectors and all integer indices", "why_tests_cant": "unchecked access has no reliable visible effect", "anchors": ["src/kernel/boot.cpp: vector-ref, vector-set!, u8vector-ref", "include/meevax/kernel/homogeneous_vector.hpp"]}
{"id": "C22", "title": "Every object is exactly one of proper list, dotted list, circular list, and the predicates terminate", "statement": "On every heap, for every object, list?, circular-list? and dotted-list? all return, exactly one returns true, and it is the one prescribed by following the cdr chain.", "quantifier": "all heaps (arbitrary sharing and cycles) and all objects", "why_tests_cant": "termination on every graph shape cannot be tested", "anchors": ["src/kernel/list.cpp: is_proper_list, is_circular_list, is_dotted_list"]}
{"id": "C23", "title": "Non-destructive list procedures leave their arguments alone and compute the list function", "statement": "length, append, reverse, list-copy, take, drop, take-right, drop-right, list-tail, list-ref, append-reverse, last, iota, make-list return the value prescribed by the list function on the element sequence, allocate fresh pairs where required and change no existing pair.", "quantifier": "all heaps and all proper lists in them, including ones that share structure", "why_tests_cant": "sharing patterns and lengths are unbounded", "anchors": ["src/kernel/list.cpp"]}
{"id": "C24", "title": "Destructive list procedures produce the right list and only touch the spines they own", "statement": "append!, reverse!, append-reverse!, take!, drop-right! and circulate produce the prescribed element sequence, mutating only pairs of the argument's spine.", "quantifier": "all heaps in which the arguments are proper lists with disjoint spines", "why_tests_cant": "depends on heap shape; wrong link order loses elements only in some lengths", "anchors": ["src/kernel/list.cpp: append, reverse, append_reverse, take, drop_right"]}
{"id": "C25", "title": "memq, memv, assq, assv return the first match", "statement": "Each returns the longest tail (or first entry) whose key matches, #f iff none matches.", "quantifier": "all lists and keys", "why_tests_cant": "unbounded lists", "anchors": ["src/kernel/list.cpp: memq, memv, assq, assv"]}
{"id": "C26", "title": "equal? terminates on cyclic pairs and decides structural equality", "statement": "equal? returns on all pair graphs, cyclic or shared, and returns #t iff the (possibly infinite) unfoldings of the two arguments into trees are equal.", "quantifier": "all finite heaps of pairs over atoms and all pairs of objects", "why_tests_cant": "the union-find cut-off must be right for every pair of graphs", "anchors": ["src/kernel/comparator.cpp: equal, union_find, find"]}
{"id": "C27", "title": "eq?, eqv? and equal? are equivalence relations, each finer than the next", "statement": "eq? implies eqv? implies equal?; each is reflexive, symmetric and transitive; eqv? distinguishes separately allocated mutable objects.", "quantifier": "all triples of objects", "why_tests_cant": "transitivity quantifies over triples from an infinite domain", "anchors": ["include/meevax/kernel/identity.hpp: eq, eqv", "src/kernel/comparator.cpp: equal", "src/kernel/vector.cpp", "src/kernel/pair.cpp"]}
{"id": "C28", "title": "Compiled code computes the value prescribed by the language semantics", "statement": "For every core expression (constants, variables, lambda with any formals, calls, if, set!, letrec, begin, define) in every environment, if evaluation by the source-level semantics yields a value and a store, running the compiled code yields the same value and the same store.", "quantifier": "all expressions, all environments, all stores", "why_tests_cant": "a compiler theorem ranges over all programs", "anchors": ["src/kernel/generator.cpp", "src/kernel/dynamic_environment.cpp: execute", "src/kernel/syntactic_environment.cpp: identify, generate"]}
{"id": "C29", "title": "The machine's stack discipline is never broken", "statement": "Running compiled code never underflows the value stack or the dump, always returns with exactly one value to the exact continuation of the call, and leaves the caller's stack and environment unchanged.", "quantifier": "all compiled programs and all run lengths", "why_tests_cant": "quantifies over all programs", "anchors": ["src/kernel/dynamic_environment.cpp: execute", "src/kernel/generator.cpp"]}
{"id": "C30", "title": "Tail calls do not grow the dump", "statement": "A call in tail position leaves the dump exactly as it was, so an unbounded chain of tail calls runs in bounded dump space.", "quantifier": "all programs, all chain lengths", "why_tests_cant": "tests can only run a finite number of iterations", "anchors": ["src/kernel/generator.cpp: body, conditional, call, letrec", "src/kernel/dynamic_environment.cpp: secd_tail_call, secd_tail_select"]}
{"id": "C31", "title": "Lexical addressing finds the innermost binding", "statement": "The address compiled for a variable under any nesting of formals (proper, dotted, or a single rest variable) selects at run time the value bound by the innermost enclosing binder of that name, and a rest variable denotes the list of remaining arguments.", "quantifier": "all scope stacks and all argument lists accepted by them", "why_tests_cant": "nesting depth and formals shapes are unbounded", "anchors": ["src/kernel/syntactic_environment.cpp: identify", "src/kernel/dynamic_environment.cpp: secd_load_relative, secd_load_variadic"]}
{"id": "C32", "title": "Assignment changes exactly the named variable", "statement": "set! on a local, rest or global variable changes the value seen by every later reference to that binding (through any closure sharing it) and no other binding.", "quantifier": "all environments and all bindings", "why_tests_cant": "aliasing through shared frames is unbounded", "anchors": ["src/kernel/dynamic_environment.cpp: secd_store_absolute, secd_store_relative, secd_store_variadic", "src/kernel/generator.cpp: set"]}
{"id": "C33", "title": "Invoking a captured continuation resumes exactly at the capture point", "statement": "Calling a continuation with a value discards the current computation and continues as if the capturing expression had returned that value, any number of times, from anywhere.", "quantifier": "all machine states at capture and at invocation", "why_tests_cant": "multi-shot re-entry from every context", "anchors": ["src/kernel/dynamic_environment.cpp: secd_load_continuation, secd_call", "src/kernel/generator.cpp: call_with_current_continuation"]}
{"id": "C34", "title": "Global definitions behave as a finite map", "statement": "Looking up a global after any sequence of define and set! gives the last value stored; a never-defined identifier is reported as unbound when evaluated; references compiled before a definition see it.", "quantifier": "all sequences of definitions and references", "why_tests_cant": "orders of forward references are unbounded", "anchors": ["src/kernel/syntactic_environment.cpp: define, identify", "src/kernel/generator.cpp: define"]}
{"id": "C35", "title": "Import sets compose as renamings", "statement": "For every nesting of only, except, prefix and rename over a library, the imported names and the bindings they denote are those prescribed by R7RS; the denoted bindings are shared with the exporting library.", "quantifier": "all nestings of import modifiers over all export lists", "why_tests_cant": "composition depth and name overlaps are unbounded", "anchors": ["src/kernel/environment.cpp: import_set, import", "src/kernel/library.cpp"]}
{"id": "C36", "title": "cond-expand selects the first clause whose requirement holds", "statement": "Requirement expressions built from and, or, not, library, else and feature names have their Boolean meaning and the first satisfied clause's body is the expansion.", "quantifier": "all requirement expressions and all clause lists", "why_tests_cant": "arbitrary nesting", "anchors": ["src/kernel/conditional_expand.cpp"]}
{"id": "C37", "title": "Symbols are interned: same name iff same object", "statement": "string->symbol called any number of times returns eq? objects exactly when the names are equal; symbol->string inverts it.", "quantifier": "every sequence of interning requests", "why_tests_cant": "history dependent", "anchors": ["src/kernel/symbol.cpp: make_symbol, symbol::symbol"]}
{"id": "C38", "title": "Written data reads back as an equal datum", "statement": "For every datum built from booleans, integers, characters, strings, symbols, the empty list, pairs and vectors, reading the text produced by write yields a datum equal? to the original.", "quantifier": "all finite acyclic data", "why_tests_cant": "escaping and delimiters interact for every content", "anchors": ["src/kernel/textual_input_port.cpp: read", "src/kernel/pair.cpp: write", "src/kernel/string.cpp", "src/kernel/symbol.cpp", "src/kernel/character.cpp"]}
{"id": "C39", "title": "Comments and whitespace do not affect what is read", "statement": "Inserting line comments, arbitrarily nested block comments, datum comments or whitespace between tokens does not change the datum read.", "quantifier": "all comment contents and nesting depths", "why_tests_cant": "nesting depth is unbounded", "anchors": ["src/kernel/textual_input_port.cpp: read"]}
{"id": "C40", "title": "dynamic-wind: every transfer of control runs exactly the after thunks of left extents and the before thunks of entered extents", "statement": "When a continuation captured in extent list T is invoked in extent list F, the after thunks of the extents of F not in T run innermost first, then the before thunks of extents of T not in F outermost first, and nothing else.", "quantifier": "all pairs of extent lists that share a tail", "why_tests_cant": "depends on every pair of depths and shared tails", "anchors": ["library/meevax.ss: dynamic-wind, call-with-current-continuation, windup!"]}
{"id": "C41", "title": "parameterize binds dynamically and restores on exit", "statement": "Inside parameterize the parameter returns the converted value, outside it returns the previous value, on normal exit and on escape; the converter is applied once per binding.", "quantifier": "all nestings of parameterize over any parameters", "why_tests_cant": "nesting and escapes are unbounded", "anchors": ["library/srfi-39.ss"]}
{"id": "C42", "title": "Exception handlers nest: a handler runs in the context of its installer minus itself", "statement": "raise and raise-continuable call the innermost handler with the outer handlers current; a returning handler for raise is a secondary error; handler stack is restored on exit.", "quantifier": "all nestings of handlers and raises", "why_tests_cant": "arbitrary nesting", "anchors": ["library/srfi-34.ss", "library/r7rs.ss", "src/kernel/dynamic_environment.cpp: execute"]}
{"id": "C43", "title": "A promise is forced at most once and delay-force chains share the result", "statement": "force returns the same value however often it is called, the body runs at most once, and iterating delay-force runs in bounded space.", "quantifier": "all promise graphs and all force orders", "why_tests_cant": "chains of unbounded length and re-entrancy", "anchors": ["library/srfi-45.ss"]}
{"id": "C44", "title": "Record types are disjoint and accessors see the last modification", "statement": "For records made by define-record-type, the predicate holds exactly for instances of that type, accessors return the constructor argument or last modifier value of that field of that instance.", "quantifier": "all record types, instances and modification sequences", "why_tests_cant": "histories", "anchors": ["library/srfi-9.ss"]}
{"id": "C45", "title": "gcd, lcm, max, min, parity, abs and exact-integer-sqrt are exact", "statement": "For exact integers of every representation gcd and lcm are the non-negative greatest common divisor and least common multiple, even?/odd? the parity, max/min an extremal argument, abs the magnitude, and exact-integer-sqrt returns s, r with s*s + r = n, s*s <= n < (s+1)*(s+1).", "quantifier": "all exact numbers of every representation", "why_tests_cant": "unbounded domain over three representations", "anchors": ["src/kernel/number.cpp: gcd, lcm, abs, is_even", "src/kernel/boot.cpp: gcd, lcm, max, min, exact-integer-square-root"]}
{"id": "C46", "title": "Dividing by an exact zero is an error the program can handle", "statement": "/, quotient, remainder and modulo with an exact zero divisor raise an error object.", "quantifier": "all dividends", "why_tests_cant": "every representation pair takes a different code path", "anchors": ["src/kernel/number.cpp: operator /, operator %"]}
{"id": "C47", "title": "Exact rationals print and read back, and ratio literals are canonical", "statement": "number->string of an exact ratio is a literal that reads back as that ratio; a literal n/d denotes the quotient in canonical form; +n denotes the exact integer n; malformed literals are rejected without ending the process.", "quantifier": "all exact ratios, all literals, radices 2..36", "why_tests_cant": "infinite domain of texts", "anchors": ["src/kernel/number.cpp: make_rational, number_to_string", "src/kernel/ratio.cpp", "src/kernel/large_integer.cpp"]}
{"id": "C48", "title": "SRFI 143 fixnum shifts shift in their own direction", "statement": "fxarithmetic-shift-left multiplies by 2^k and fxarithmetic-shift-right divides by 2^k rounding down.", "quantifier": "all fixnums and counts below the width", "why_tests_cant": "every operand and count", "anchors": ["library/srfi-143.ss: fxarithmetic-shift-left, fxarithmetic-shift-right"]}
{"id": "C49", "title": "Reading terminates on every byte sequence and rejects malformed UTF-8", "statement": "Every character-level read of a textual port returns whatever bytes the port holds; each consumes at least one byte, reaches the end, or signals a read error; a byte sequence that is not the UTF-8 form of a code point is an error.", "quantifier": "all byte sequences and all stream states", "why_tests_cant": "arbitrary bytes", "anchors": ["src/kernel/textual_input_port.cpp: take_character, get, get_line"]}
{"id": "C50", "title": "utf8->string undoes string->utf8", "statement": "(utf8->string (string->utf8 s)) is equal to s.", "quantifier": "all strings", "why_tests_cant": "all strings of all lengths", "anchors": ["src/kernel/boot.cpp: u8vector->string, string->u8vector"]}
{"id": "C51", "title": "car and cdr signal an error for a non-pair", "statement": "car and cdr return the fields of a pair and signal an error for every other object.", "quantifier": "all heaps and all objects", "why_tests_cant": "every kind of object", "anchors": ["src/kernel/boot.cpp: car, cdr", "include/meevax/kernel/pair.hpp: car, cdr"]}
{"id": "C52", "title": "equal? terminates on all data", "statement": "equal? returns for all arguments, including data with cycles through vectors, as R7RS 6.1 requires.", "quantifier": "all finite heaps of pairs and vectors", "why_tests_cant": "all graphs", "anchors": ["src/kernel/vector.cpp: operator ==", "src/kernel/comparator.cpp: equal"]}
{"id": "C53", "title": "Calls check the number of arguments", "statement": "A closure called with fewer arguments than it has required formals, or with more than it accepts, signals an error; the body is not run with a missing or surplus argument.", "quantifier": "all closures, all argument lists", "why_tests_cant": "quantifies over all formals shapes and argument counts", "anchors": ["src/kernel/dynamic_environment.cpp: secd_call, secd_tail_call, secd_load_relative", "src/kernel/generator.cpp: lambda"]}
{"id": "C54", "title": "Successive reads return the data in order, then the end-of-file object", "statement": "Reading again and again from a port on a text of data returns the data in order, and then the end-of-file object however often it is asked for.", "quantifier": "all texts of data with any comments and white space", "why_tests_cant": "quantifies over all texts and numbers of data", "anchors": ["src/kernel/textual_input_port.cpp: read"]}
{"id": "C55", "title": "Integer literals are exact", "statement": "A sequence of decimal digits with or without a sign reads as the exact integer it denotes.", "quantifier": "all integers", "why_tests_cant": "the magnitude is unbounded", "anchors": ["src/kernel/number.cpp: make_integer, make_rational, make_real"]}
{"id": "C56", "title": "map calls its procedure on the rows of its lists in order and returns the values in order", "statement": "(map f l1 ... ln) calls f once for each index below the length of the shortest list, in increasing order, with the n elements at that index, and returns the list of the n-ary calls' values in the same order.", "quantifier": "all procedures, all numbers of lists, all lengths, all programs around it that keep an invariant", "why_tests_cant": "the number of lists and their lengths are unbounded, and the procedure may change the program's state", "anchors": ["library/meevax.ss: map"]}
{"id": "C57", "title": "apply spreads its last argument after the other arguments", "statement": "(apply f a1 ... an l) calls f in tail position with a1 ... an followed by the elements of l.", "quantifier": "all procedures, all numbers of arguments, all lists", "why_tests_cant": "the number of arguments and the length of the list are unbounded", "anchors": ["library/meevax.ss: apply"]}
{"id": "C58", "title": "Expansion keeps lexical scope and macros are hygienic", "statement": "The code that a form of a program is compiled to is the code in which every identifier of the program refers to the innermost variable with its name and every symbol that a macro puts in refers to the innermost variable that the same use of the macro puts in, or to a global variable of the environment of the macro.", "quantifier": "all forms, all environments, all er-macro-transformers that build their result from parts of the form, renamed symbols and constants", "why_tests_cant": "macros can be nested to any depth, bound variables can shadow each other in any combination; tests cover a few nestings", "anchors": ["src/kernel/expander.cpp:33-327", "src/kernel/syntactic_environment.cpp:31-331", "src/kernel/syntactic_closure.cpp:27-144", "library/meevax.ss:28-41"]}
{"id": "C59", "title": "Symbols put in by a macro refer to the environment of its definition", "statement": "A symbol that a macro puts in and that none of its own binding forms binds refers to the variable of the environment in which the macro was defined, whatever the variables at the place of the use are called and whenever the variable was defined.", "quantifier": "all macros, all nestings of lambda expressions around the use, all names of their variables", "why_tests_cant": "capture depends on which name is bound where around the use, unboundedly many combinations", "anchors": ["src/kernel/expander.cpp:33-327", "src/kernel/syntactic_environment.cpp:31-331", "src/kernel/syntactic_closure.cpp:27-144", "library/meevax.ss:28-41", "src/kernel/generator.cpp:241-254"]}
{"id": "C60", "title": "Quoted data are free of syntactic closures", "statement": "(quote datum) compiles to the datum itself; if a macro has put in parts of the datum, the symbols are in it, not their aliases.", "quantifier": "all data, all macros", "why_tests_cant": "data can be nested to any depth", "anchors": ["src/kernel/expander.cpp:33-36", "src/kernel/generator.cpp:32-37", "library/srfi-149.ss:55"]}
{"id": "C61", "title": "syntax-rules uses the first rule whose pattern matches", "statement": "The procedure that syntax-rules compiles rules to answers, for a use of the macro, the template of the first rule whose pattern matches the use, with the pattern variables filled in (sequences copied once for each element, nested ellipses included) and every other identifier renamed; a use that matches no rule is the error \"no expansion for\".", "quantifier": "all lists of rules, all uses, all renaming and comparing procedures", "why_tests_cant": "patterns and templates nest ellipses to any depth; tests cover a handful of macros", "anchors": ["library/srfi-149.ss:36-68", "library/srfi-149.ss:70-300", "library/meevax.ss:24-41"]}
{"id": "C62", "title": "syntax-rules accepts exactly the rules with the right ellipses", "statement": "A list of rules is accepted if and only if no list of a pattern has two ellipses and each pattern variable of a template is followed by enough ellipses, and each ellipsis follows a variable that is repeated that often; the compiler ends for all rules that are accepted.", "quantifier": "all lists of rules", "why_tests_cant": "rules are trees of any size", "anchors": ["library/srfi-149.ss:36-68", "library/srfi-149.ss:70-300", "library/meevax.ss:24-41"]}
{"id": "C63", "title": "quasiquote builds the structure of its template", "statement": "The expression that quasiquote expands to builds, from the values of its unquoted expressions, the structure that R7RS 4.2.8 gives: unquotes at level one are replaced by values, spliced lists by their elements, nested quasiquotes raise the level and unquotes inside them lower it, and everything else is copied, vectors included.", "quantifier": "all templates, any depth of nesting and of levels, all values of the unquoted expressions", "why_tests_cant": "templates are trees with any nesting of levels", "anchors": ["library/r4rs.ss:126-177"]}
{"id": "C64", "title": "cond, case, and, or, when and unless evaluate what R7RS says", "statement": "An expression made with one of these macros has a value, with given effects on the store, if and only if R7RS gives it that: the tests in order, the first true one decides, => passes its value on, else is last; the keys of case are compared in order; nothing else is evaluated.", "quantifier": "all clauses, all stores, all evaluations of the parts", "why_tests_cant": "the number of clauses, the shapes of clauses and the order of effects are unbounded", "anchors": ["library/r4rs.ss:91-251", "library/r7rs.ss:102-112"]}
{"id": "C65", "title": "let, let*, named let and do bind and iterate as R7RS says", "statement": "An expression made with one of these macros has a value, with given effects on the store, if and only if R7RS gives it that: inits of let in the outer scope, inits of let* each in the scope of those before, the steps of do computed together before the variables are rebound, the loop ends with the first true test.", "quantifier": "all bindings, bodies, stores, any number of iterations", "why_tests_cant": "iterations and lists of bindings are unbounded", "anchors": ["library/r4rs.ss:91-251", "library/r7rs.ss:102-112"]}
{"id": "C66", "title": "rationalize gives the simplest rational of the interval", "statement": "(rationalize x e) is, for exact x and e, the rational that differs from x by no more than e and whose numerator and denominator in lowest terms are both least; the recursion ends.", "quantifier": "all rational x and e", "why_tests_cant": "the recursion follows the continued fractions of both ends, of any length", "anchors": ["library/r4rs.ss:268-292"]}
{"id": "C67", "title": "filter, partition, delete, delete-duplicates, take-while, span and split-at of SRFI 1 keep the right elements", "statement": "Each of these procedures asks its predicate once for each element, in the order it documents, keeps exactly the elements that the answers select, in their order, and changes no existing pair; the versions with ! use the pairs of their argument and alter no others. delete-duplicates leaves no element that the predicate relates to an earlier one.", "quantifier": "all proper lists, all predicates (with any effect besides on pairs), all heaps", "why_tests_cant": "lists, answers and orders of effects are unbounded", "anchors": ["library/srfi-1.ss:400-485", "library/srfi-1.ss:556-679", "library/srfi-1.ss:134-149"]}
{"id": "C68", "title": "find, find-tail, any, every, list-index, count, member and assoc ask in order and stop at the right place", "statement": "The predicate is called on the elements (or, for several lists, on the rows up to the end of the shortest list) from the first on, and on none after the one that decides; the result is the element, tail, answer, index or number that SRFI 1 and R7RS give.", "quantifier": "all lists, any number of lists, all predicates (with any effect besides on pairs)", "why_tests_cant": "the place of the deciding row is unbounded", "anchors": ["library/srfi-1.ss:199-220", "library/srfi-1.ss:487-554", "library/r4rs.ss:253-266"]}
{"id": "C69", "title": "folds, unfolds and maps of SRFI 1 call in order and build the right list", "statement": "fold, fold-right, pair-fold, pair-fold-right, reduce, reduce-right, unfold, unfold-right, list-tabulate, append-map, filter-map, map-in-order, map!, for-each, pair-for-each and unzip2 make the calls that SRFI 1 gives, with the state threaded from the first or the last row, and build the list of the results; none but map! alters its arguments.", "quantifier": "all lists, any number of lists, all procedures (with any effect besides on pairs)", "why_tests_cant": "the number of rows and the threading of effects are unbounded", "anchors": ["library/srfi-1.ss:101-106", "library/srfi-1.ss:157-164", "library/srfi-1.ss:222-398", "library/r4rs.ss:294-302"]}
{"id": "C70", "title": "The lset procedures and list= of SRFI 1 compute with lists as sets", "statement": "For an equivalence, lset<=, lset=, lset-adjoin, lset-union, lset-intersection, lset-difference, lset-xor and lset-diff+intersection give lists with the right members, made of the elements of the arguments, without duplicates if the arguments have none (adjoin, union); list= compares element by element; any number of arguments.", "quantifier": "all equivalences, all lists, any number of lists", "why_tests_cant": "sets and numbers of sets are unbounded", "anchors": ["library/srfi-1.ss:110-128", "library/srfi-1.ss:681-726", "library/srfi-1.ss:746-754", "library/srfi-1.ss:766-774", "library/srfi-1.ss:786-798", "library/srfi-1.ss:815-824", "library/srfi-1.ss:899-902"]}
{"id": "C71", "title": "Bytes and characters written to a port arrive, and bytes read from a port are those of its source, in order", "statement": "For every history of opening, reading (read-u8, peek-u8, u8-ready?, read-bytevector, read-bytevector!), writing (write-u8, write-bytevector, write-char, write-string), flushing and closing bytevector, string and file ports, each reply is the one R7RS 6.13 prescribes, each file holds what was written to it when it was flushed or closed, and get-output-bytevector and get-output-string give all that was written.", "quantifier": "all histories of operations on any number of ports and files", "why_tests_cant": "histories, contents and interleavings of ports are unbounded", "anchors": ["include/meevax/kernel/input_homogeneous_vector_port.hpp:29-90", "include/meevax/kernel/output_homogeneous_vector_port.hpp:26-52", "src/kernel/binary_input_file_port.cpp:23-73", "src/kernel/binary_output_file_port.cpp:21-47", "src/kernel/boot.cpp:313-346", "library/r7rs.ss:233-348"]}
{"id": "C72", "title": "call-with-values passes to the consumer exactly the values given by the producer", "statement": "For every producer and consumer: if the producer's last action is a call of values with the objects u1 ... un (n of any size, 0 and 1 included), call-with-values calls the consumer, in tail position, with exactly u1 ... un, and does nothing else.", "quantifier": "all producers, consumers, numbers of values, and all states of the machine", "why_tests_cant": "the number of values and what the procedures do are unbounded", "anchors": ["library/r5rs.ss:84-99"]}
{"id": "C73", "title": "exit runs the after thunks of all active extents, the innermost first, and then ends the program", "statement": "For every chain of dynamic-wind extents that is active, exit calls each of their after thunks once, the innermost first, each after the one before has returned, and then emergency-exit with the arguments of exit.", "quantifier": "all chains of extents, all after thunks that return, all arguments", "why_tests_cant": "the depth of nesting and the effects of the thunks are unbounded", "anchors": ["library/meevax.ss:92-100"]}
{"id": "C74", "title": "for-each calls the procedure once per row of the lists, in order", "statement": "For every procedure and every non-empty sequence of lists, for-each calls the procedure with the first elements, then with the second elements, and so on until a list ends, each call after the one before has returned.", "quantifier": "all procedures, all numbers and lengths of lists, all states of the machine", "why_tests_cant": "lengths, numbers of lists and the effects of the procedure are unbounded", "anchors": ["library/r4rs.ss:294-302"]}
{"id": "C75", "title": "The command line is read as documented: options with their arguments, combined short options, files, and the status of the process", "statement": "For every list of arguments: short options may be combined, an option takes its argument from the same word or the next, the actions (evaluate an expression, load or start interaction, write a value, add a directory) are those of the options in order, an unknown option and a missing argument are errors, and the status of the process tells whether the run succeeded. --help and --version end the run, --name=value gives exactly value, and a directory is exactly the argument.", "quantifier": "all argument lists", "why_tests_cant": "argument lists and their strings are unbounded", "anchors": ["src/kernel/configuration.cpp:27-298", "src/main.cpp:23-92"]}
{"id": "C76", "title": "The help text is filled: no word is lost, and no line exceeds the width unless one word alone does", "statement": "For every description and every width, format gives lines that consist of the words of the description in order, none of which is wider than allowed unless it is a single word, and no word would have fitted on the line before.", "quantifier": "all texts and widths", "why_tests_cant": "texts are unbounded", "anchors": ["src/kernel/configuration.cpp:53-84"]}
{"id": "C77", "title": "=, <, >, <= and >= compare exact and inexact real numbers by the numbers they stand for", "statement": "For all real numbers x and y, exact or inexact, infinities included: (< x y), (> x y), (<= x y), (>= x y) and (= x y) tell how the numbers they stand for are related, without rounding, and NaN is related to nothing.", "quantifier": "all exact numbers and all doubles", "why_tests_cant": "doubles are too many to test, and integers and fractions unbounded", "anchors": ["src/kernel/number.cpp:111-250", "src/kernel/number.cpp:497-532", "include/meevax/kernel/number.hpp:315-338", "src/kernel/boot.cpp:196-200"]}
{"id": "C78", "title": "exact gives the number a double stands for, and inexact the closest double", "statement": "For every finite double, exact gives an exact number of the same value, and inexact gives the double back. For every exact number, inexact gives the double numerically closest to it. exact of an infinity or a NaN reports an error.", "quantifier": "all doubles, all exact numbers", "why_tests_cant": "doubles are too many to test, and integers and fractions unbounded", "anchors": ["src/kernel/number.cpp:534-572", "src/kernel/ratio.cpp:62-66", "include/meevax/kernel/ratio.hpp:50-54", "include/meevax/kernel/large_integer.hpp:69-84"]}
{"id": "C79", "title": "The predicates on real numbers classify the numbers they stand for", "statement": "For every real number, exact or inexact: rational?, finite?, infinite?, nan?, integer?, zero?, positive? and negative? tell what their names say, and even? and odd? the parity of every inexact integer.", "quantifier": "all exact numbers and all doubles", "why_tests_cant": "doubles are too many to test, and integers and fractions unbounded", "anchors": ["src/kernel/number.cpp:601-751"]}
{"id": "C80", "title": "floor, ceiling, truncate and round of a double are the integers R7RS names", "statement": "For every finite double, floor is the largest integer not larger, ceiling the smallest integer not smaller, truncate the integer closest to it that is not larger in magnitude, and round the nearest integer, the even one of two, each as a double; infinities and NaN are kept.", "quantifier": "all doubles", "why_tests_cant": "doubles are too many to test, and integers and fractions unbounded", "anchors": ["src/kernel/number/nearest_integer.cpp:21-52"]}
{"id": "C81", "title": "remainder and modulo of inexact numbers are exact", "statement": "For all inexact numbers and integers x and y, y not zero: remainder gives r with x = n y + r for an integer n, less than y in magnitude and with the sign of x, and modulo one with the sign of y.", "quantifier": "all doubles, all exact integers", "why_tests_cant": "doubles are too many to test, and integers and fractions unbounded", "anchors": ["src/kernel/number.cpp:340-358", "src/kernel/number.cpp:789-797"]}
{"id": "C82", "title": "sqrt of an exact square is exact, and of a negative number imaginary", "statement": "For every exact integer that is a square, sqrt gives the exact root; for one that is not, an inexact number; for a negative one, an imaginary number with that root.", "quantifier": "all exact integers", "why_tests_cant": "doubles are too many to test, and integers and fractions unbounded", "anchors": ["src/kernel/number/power.cpp:75-120"]}
{"id": "C83", "title": "expt of exact integers is the exact power", "statement": "For all exact integers a and b, expt gives the exact number a^b, whatever std::pow does with inexact numbers.", "quantifier": "all exact integers, all implementations of std::pow", "why_tests_cant": "doubles are too many to test, and integers and fractions unbounded", "anchors": ["src/kernel/number/power.cpp:21-73"]}
{"id": "C84", "title": "abs and magnitude give the absolute value", "statement": "For every real number, exact or inexact, abs and magnitude give its absolute value, with the same exactness.", "quantifier": "all exact numbers and all doubles", "why_tests_cant": "doubles are too many to test, and integers and fractions unbounded", "anchors": ["src/kernel/number.cpp:753-782", "src/kernel/number.cpp:843-858"]}
{"id": "C85", "title": "numerator and denominator of a double are those of the fraction it stands for", "statement": "For every finite double, numerator and denominator give the numerator and the denominator of the fraction in lowest terms that it stands for, as doubles.", "quantifier": "all doubles", "why_tests_cant": "doubles are too many to test, and integers and fractions unbounded", "anchors": ["src/kernel/number.cpp:865-899"]}
{"id": "C86", "title": "Arithmetic of exact complex numbers is exact", "statement": "For all exact complex numbers, +, - and * of any number of arguments, / by a number other than 0, and = are those of the complex numbers; a result whose imaginary part is 0 is a real number object.", "quantifier": "all exact complex numbers, all argument lists", "why_tests_cant": "complex numbers have unbounded parts", "anchors": ["src/kernel/number.cpp:56-61", "src/kernel/number.cpp:123-128", "src/kernel/number.cpp:190-195", "src/kernel/number.cpp:259-338", "include/meevax/kernel/number.hpp:444-454", "src/kernel/boot.cpp:208-211"]}
{"id": "C87", "title": "Parts, classes, magnitude and angle of complex numbers", "statement": "For every complex number: real-part and imag-part give back what make-rectangular was given; exact?, nan? and infinite? follow from the parts; real? holds if the imaginary part is 0; every integer is rational and every rational number is real; exact-integer? holds of the exact integers; magnitude of an exact number is exact if it is an integer; angle is the angle of the number.", "quantifier": "all complex numbers, all implementations of std::atan2", "why_tests_cant": "complex numbers have unbounded parts", "anchors": ["src/kernel/number.cpp:584-731", "src/kernel/number.cpp:809-863", "src/kernel/boot.cpp:241-246"]}
{"id": "C88", "title": "max and min give the greatest and the least number, inexact if an argument is", "statement": "For every list of real numbers, exact and inexact ones: max gives the greatest and min the least of them; the result is inexact if one of them is, and exact otherwise.", "quantifier": "all non-empty lists of real numbers", "why_tests_cant": "complex numbers have unbounded parts", "anchors": ["src/kernel/boot.cpp:206-207", "src/kernel/number.cpp:514-517"]}
{"id": "C89", "title": "locate tries the name itself, then each directory, then each extension", "statement": "For every file system, source file and file name: locate gives the canonical path of the name if the name is that of a file; otherwise the first file among the name seen from the directory of the source file, from the current directory and from each library directory, in each of them first as it is and then, if the name has no extension, with ss, sld and scm; if there is none it is an error.", "quantifier": "all file systems, source files, names with a file name part, library directories", "why_tests_cant": "file systems, names and nestings of files are unbounded", "anchors": ["src/kernel/textual_context.cpp:23-104", "configure/system.cpp:27-31"]}
{"id": "C90", "title": "include at the outermost level evaluates the data of the files in order, after all have been read", "statement": "For every list of file names and every evaluator: (include <name> ...) and include-ci evaluate all data of all files in the order of the names, stopping at the first failure; if a file is not found or cannot be read to its end, nothing at all is evaluated.", "quantifier": "all file systems, lists of names, evaluators and states", "why_tests_cant": "file systems, names and nestings of files are unbounded", "anchors": ["include/meevax/kernel/include.hpp:25-58", "src/kernel/environment.cpp:29-69"]}
{"id": "C91", "title": "A file included is looked for beside the file that includes it", "statement": "For every file that includes another by a name relative to its own directory, the other is found there, however the first was opened.", "quantifier": "all file systems, paths and histories of opened paths", "why_tests_cant": "file systems, names and nestings of files are unbounded", "anchors": ["include/meevax/kernel/input_file_port.hpp:26-37", "src/kernel/input_file_port.cpp:27-30", "src/kernel/textual_context.cpp:27-39", "src/kernel/textual_context.cpp:80-99", "src/kernel/environment.cpp:187-201"]}
{"id": "C92", "title": "include inside a body stands for the data of the files", "statement": "For every list of file names, (include <name> ...) in a body expands to begin with the data of the files in order.", "quantifier": "all file systems, lists of names and source files", "why_tests_cant": "file systems, names and nestings of files are unbounded", "anchors": ["src/kernel/expander.cpp:166-180", "include/meevax/kernel/include.hpp:29-57"]}
{"id": "C93", "title": "The declarations of a library are evaluated once, in order, at its first import", "statement": "For every library and evaluator: the first import evaluates the begin bodies and other forms in order and collects the export specs; include-library-declarations and cond-expand stand for the declarations they bring; later imports evaluate nothing and find the same exports; a library that failed is not imported.", "quantifier": "all libraries, evaluators, file systems and states", "why_tests_cant": "file systems, names and nestings of files are unbounded", "anchors": ["src/kernel/library.cpp:26-82"]}
{"id": "C94", "title": "The character predicates follow the categories of Unicode", "statement": "For every code point: the classes alphabetic, numeric and whitespace are disjoint and contain only scalar values, upper and lower case are disjoint parts of alphabetic, and each predicate holds if and only if UnicodeData.txt gives the code point a category of the class; the tables are generated from the lines of the file without loss.", "quantifier": "all code points, all texts of UnicodeData.txt for the generation", "why_tests_cant": "there are 2^32 code points and lists of characters are unbounded", "anchors": ["include/meevax/kernel/character.hpp:40-117", "CMakeLists.txt:42-64", "configure/UnicodeData.txt:1-34931", "src/kernel/boot.cpp:101-105"]}
{"id": "C95", "title": "Case conversion and comparison of characters", "statement": "For every character: char-upcase, char-downcase and char-foldcase are idempotent, keep scalar values and leave the other case; converting there and back gives the same lower-case (upper-case) form; the comparisons of any number of characters hold if and only if they hold for each pair, and the -ci comparisons ignore case.", "quantifier": "all code points and all lists of characters", "why_tests_cant": "there are 2^32 code points and lists of characters are unbounded", "anchors": ["include/meevax/kernel/character.hpp:152-192", "src/kernel/boot.cpp:91-100", "src/kernel/boot.cpp:109-110", "library/r7rs.ss:381"]}
{"id": "C96", "title": "digit-value gives the value of decimal digits and of nothing else", "statement": "For every character: if it is numeric, digit-value is its value among the ten digits that stand in a row with it; if not, digit-value is #f.", "quantifier": "all code points", "why_tests_cant": "there are 2^32 code points and lists of characters are unbounded", "anchors": ["include/meevax/kernel/character.hpp:141-150", "src/kernel/boot.cpp:106"]}
{"id": "C97", "title": "integer->char and char->integer are inverse to each other", "statement": "For every Unicode scalar value the two conversions are inverse to each other; every other integer is an error.", "quantifier": "all integers", "why_tests_cant": "there are 2^32 code points and lists of characters are unbounded", "anchors": ["src/kernel/boot.cpp:107-108", "include/meevax/kernel/number.hpp:339-358"]}
{"id": "C98", "title": "write describes circular data with labels", "statement": "For every heap and object: write ends if and only if every circular list met is met on its ring and no cycle avoids circular lists; what it puts out then describes the object: every part is where the text says, labels are declared once and stand for the object whose text they begin.", "quantifier": "all heaps, all objects", "why_tests_cant": "heaps, rings and shared structures have no bound in size, and texts none in length", "anchors": ["src/kernel/pair.cpp:33-111", "src/kernel/vector.cpp:29-41", "include/meevax/kernel/iterator.hpp:31-106", "src/kernel/list.cpp:74-99", "src/kernel/textual_output_port.cpp:37-40"]}
{"id": "C99", "title": "Data with labels are read as what they describe", "statement": "For every text with datum labels: reading gives an object of the form the text says with the labelled object in the places of its label, changes no other object and leaves no label on the port.", "quantifier": "all texts of the class, all ports", "why_tests_cant": "heaps, rings and shared structures have no bound in size, and texts none in length", "anchors": ["src/kernel/textual_input_port.cpp:79-105", "src/kernel/textual_input_port.cpp:312-360", "src/kernel/textual_input_port.cpp:468-469", "src/kernel/textual_input_port.cpp:553-572"]}
{"id": "C100", "title": "write-simple writes finite data without labels", "statement": "For every object of finite size: write-simple ends with a text without labels that describes the object.", "quantifier": "all heaps, all objects of finite size", "why_tests_cant": "heaps, rings and shared structures have no bound in size, and texts none in length", "anchors": ["src/kernel/textual_output_port.cpp:42-73"]}
{"id": "C101", "title": "write-shared ends for every object and labels exactly what is shared", "statement": "For every heap and object: write-shared (write-with-shared-structure of SRFI 38) ends, its text describes the object, only parts to which two references lead get a label, and every pair, vector and string (but the empty ones) to which two references lead gets one.", "quantifier": "all heaps, all objects", "why_tests_cant": "heaps, rings and shared structures have no bound in size, and texts none in length", "anchors": ["library/srfi-38.ss:36-127", "library/r7rs.ss:546-549"]}
{"id": "C102", "title": "let-values, let*-values, receive and rec bind what they should", "statement": "For every use of these macros: it has exactly one expansion, and the expansion computes what R7RS 4.2.2 and the SRFIs 8 and 31 say: the inits of let-values in the outer environment and those of let*-values in the environment of the clauses before, the values distributed over the variables and the rest list, then the body; rec gives an object that its name stands for. The variables the macros put in never meet those of the program.", "quantifier": "all clauses, formals, bodies, environments and meanings of the expressions inside", "why_tests_cant": "macro uses nest without bound, and clauses, variables and values are as many as one likes", "anchors": ["library/srfi-11.ss:6-31", "library/srfi-8.ss:26-30", "library/srfi-31.ss:26-31", "library/srfi-149.ss:280-300"]}
{"id": "C103", "title": "define-record-type defines the procedures of one new record type", "statement": "For every define-record-type form that defines different names: it has exactly one expansion; running it makes a new type with the fields of the form and defines the type, the constructor, the predicate, every accessor and every modifier as the procedures of this type and these fields (whose histories are C44), and nothing else; a constructor with a field that the type does not have is an error.", "quantifier": "all forms, and all variables and records there are", "why_tests_cant": "forms have as many fields, variables and values as one likes, and are used in any state", "anchors": ["library/srfi-9.ss:129-142", "library/srfi-9.ss:79-119", "library/srfi-149.ss:280-300"]}
{"id": "C104", "title": "define-values gives every variable its value", "statement": "For every define-values form with different variables: it has exactly one expansion; if the expression gives as many values as there are variables, or at least as many as are required with a rest variable, running it gives each variable its value, the rest variable a list of the others, and leaves all other variables and old pairs as the expression left them; with too few values it does not run; with too many, several variables (or none) get the first ones and the form runs, although R7RS calls that an error.", "quantifier": "all formals, expressions and what they compute, variables and pairs", "why_tests_cant": "forms have as many fields, variables and values as one likes, and are used in any state", "anchors": ["library/r7rs.ss:127-158", "library/srfi-149.ss:280-300"]}
{"id": "C105", "title": "guard means what R7RS 4.2.7 says", "statement": "For every guard expression with at least one clause and one expression in its body: it has exactly one expansion, and exactly one meaning: the body runs in a new dynamic extent with a handler that returns to the dynamic environment and the continuation of the guard expression, binds the variable there and evaluates the clauses as cond does; if no clause applies, it goes back to the place of the handler and raises the object again there with raise-continuable; otherwise the values of the body are those of the guard expression.", "quantifier": "all guard forms, and all meanings of the expressions in them, of dynamic environments, and of passing from one to another", "why_tests_cant": "the expressions inside are given any meaning, so that they may raise, return and escape in any order, any number of times", "anchors": ["library/srfi-34.ss:71-123", "library/srfi-149.ss:280-300"]}
{"id": "C106", "title": "case-lambda selects the first clause that accepts the arguments", "statement": "For every case-lambda expression: it has exactly one expansion, and its value is a procedure that, called with any arguments in any state, evaluates the body of the first clause whose formals accept that number of arguments, in new locations that hold the arguments (a rest variable: a list of the others), and calls error if there is none.", "quantifier": "all clauses, arguments, states, and all meanings of the bodies", "why_tests_cant": "clauses and arguments are as many as one likes, and bodies may do anything", "anchors": ["library/srfi-16.ss:5-25", "library/srfi-149.ss:280-300"]}
{"id": "C107", "title": "delay, delay-force, parameterize, let and letrec* stand for the calls that their semantics needs", "statement": "In every scope and for all expressions in it: (delay e) is compiled to a call of promise with #f and a thunk that calls promise with #t and e; (delay-force e) to one with #f and a thunk for e; (parameterize ((p v) ...) body ...) to a call of dynamic-bind with the list of the parameters, the list of the values and a thunk for the body; (letrec* ((x e) ...) body ...) to code that makes the variables, assigns the inits to them in order, each in the scope of all of them, and evaluates the body; (let ((x e) ...) body ...) to a call of the procedure of the variables and the body with the inits, which are in the scope outside; a named let to a local procedure and a call of it. In none of them is a name of the user captured.", "quantifier": "all scopes, expressions, bodies, numbers of parameters and variables, and environments of the libraries and of the program", "why_tests_cant": "the forms are in arbitrary scopes, with arbitrary expressions inside, and the names around them may be anything", "anchors": ["library/srfi-45.ss:39-47", "library/srfi-39.ss:74-84", "library/r7rs.ss:114-120", "library/r4rs.ss:187-195", "src/kernel/expander.cpp:72-146"]}
{"id": "C108", "title": "+, -, * and / of inexact numbers give the exact result rounded to the nearest double", "statement": "For real numbers x and y of which at least one is inexact, and where an exact one has a value that a double can stand for, (+ x y), (- x y), (* x y) and (/ x y) are the double nearest to the exact result, the one with an even last digit if two are equally near, an infinity if the result is at least half a unit above the greatest double; infinities and NaN follow IEEE 754. With more arguments each step is rounded, from left to right. (- x) is the opposite of x and (/ x) the rounded reciprocal.", "quantifier": "all pairs of real numbers and all lists of doubles", "why_tests_cant": "an operation has 2^128 pairs of arguments; tests compare a few results with ones that the same hardware printed, and = tolerates an error of 2^-52", "anchors": ["src/kernel/number.cpp:111-114", "src/kernel/number.cpp:178-181", "src/kernel/number.cpp:228-231", "src/kernel/number.cpp:240-243", "src/kernel/number.cpp:301-338", "src/kernel/boot.cpp:208-211"]}
{"id": "C109", "title": "SRFI 144 takes flonums apart and makes them exactly", "statement": "flinteger-fraction gives an integer and a fraction below 1 with the sign of x whose sum is x; flexponent and flinteger-exponent the k with 2^k <= |x| < 2^(k+1); flnormalized-fraction-exponent f and k with x = f 2^k and 1/2 <= |f| < 1; flsign-bit, flcopysign and flsgn are about the sign, also of zeros; flnormalized? and fldenormalized? say whether |x| is at least 2^-1022; make-flonum is x 2^n rounded to the nearest flonum; fladjacent is the next flonum in the direction of the second argument; fl-greatest, fl-least and fl-epsilon are the greatest and the smallest positive flonum and the distance from 1.0 to the next.", "quantifier": "all flonums, all pairs of them and all integers", "why_tests_cant": "there are 2^64 flonums; the tests try some dozen of them, and compare with =, which tolerates an error of 2^-52", "anchors": ["library/srfi-144.ss:150-186", "src/kernel/boot.cpp:67-76", "src/kernel/boot.cpp:451-453", "src/kernel/number/floating_point_manipulation.cpp:21-32"]}
{"id": "C110", "title": "SRFI 144 compares flonums and takes differences, remainders, quotients and roots as specified", "statement": "flmax and flmin are the greatest and least argument that is not NaN; flunordered? holds if neither argument is less than, equal to or greater than the other; flabsdiff and flposdiff are the magnitude of the rounded difference, and that difference or 0; flremquo gives x - n y exactly, for the integer n nearest to x / y, the even one of two, and the sign and last three binary digits of n; flquotient is the integer part of x / y; flhypot, flsqrt and flcbrt are flonums near to the root.", "quantifier": "all flonums and all lists of them", "why_tests_cant": "there are 2^64 flonums; the tests try some dozen of them, and compare with =, which tolerates an error of 2^-52", "anchors": ["library/srfi-144.ss:200-202", "library/srfi-144.ss:244-281", "library/srfi-144.ss:327-330", "src/kernel/boot.cpp:77-80", "src/kernel/number.cpp:784-787"]}
{"id": "C111", "title": "sqrt of a number that is not an exact square is the flonum nearest to the root", "statement": "For a positive flonum sqrt gives the flonum nearest to its root; for a negative one the imaginary number whose part is the flonum nearest to the root of its opposite. Zeros keep their sign, the root of an infinity is infinite, that of NaN is NaN. For exact integers that are not squares, and for ratios, it gives the flonum nearest to the root as well.", "quantifier": "all flonums, all small integers that are not squares, all ratios that are flonums", "why_tests_cant": "there are 2^64 flonums and 2^32 small integers; the tests try a handful, most of them squares", "anchors": ["src/kernel/number/power.cpp:75-120"]}
{"id": "C112", "title": "A decimal literal is read as the flonum nearest to it", "statement": "A decimal literal with a point or an exponent is read as the flonum nearest to the number that it denotes, the even one of two that are equally near, with its sign, and as a range error only if the number is beyond the flonums.", "quantifier": "all literals of R7RS <decimal 10> with the markers e and E, of any length", "why_tests_cant": "there are 2^64 flonums and endlessly many literals; the tests try a handful, all of them short", "anchors": ["src/kernel/number.cpp:405-470"]}
{"id": "C113", "title": "A flonum is read as it was written", "statement": "What is written for a flonum, and what number->string gives for it, is read as the same flonum, and it has as few digits as possible.", "quantifier": "all flonums", "why_tests_cant": "there are 2^64 flonums and endlessly many literals; the tests try a handful, all of them short", "anchors": ["src/kernel/number.cpp:905-920", "include/meevax/memory/nan_boxing_pointer.hpp:271-285"]}
{"id": "C114", "title": "SRFI 143: arithmetic with carry", "statement": "fx+/carry, fx-/carry and fx*/carry return two fixnums r and c: i + j + k, i - j - k or i j + k is c 2^32 + r, with r from -2^31 to 2^31 - 1. fxneg, fxabs and fxsquare negate, take the absolute value and the square; fxsqrt returns the exact root and the rest.", "quantifier": "all fixnums i, j, k", "why_tests_cant": "there are 2^96 triples of fixnums", "anchors": ["library/srfi-143.ss:65-122", "library/srfi-141.ss:81-95"]}
{"id": "C115", "title": "The types of objects are disjoint", "statement": "No object satisfies more than one of boolean?, bytevector?, char?, eof-object?, null?, number?, pair?, port?, procedure?, string?, symbol? and vector?, and each object satisfies the one that its constructor promises. Each port is either for input or for output, and either binary or textual; file errors and read errors are error objects; a conversion to a type gives the object or is refused; boolean=? and symbol=? compare all their arguments.", "quantifier": "all heaps and all words in cells", "why_tests_cant": "the objects of a program are of unboundedly many kinds of heaps", "anchors": ["include/meevax/kernel/object.hpp:114-156", "src/kernel/collector.cpp:98-101", "include/meevax/kernel/collector.hpp:76-148", "src/kernel/boot.cpp:82-404", "library/r7rs.ss:173-180"]}
{"id": "C116", "title": "read/ss reads every text with labels as what it describes", "statement": "For every text of tokens that describes an object with datum labels and every heap: read-with-shared-structure of SRFI 38 reads the text to its end and gives a new object that has the parts the text says, where #n# is the object whose text began with #n=; nothing on the heap before is changed. Objects that the same text describes are alike, and the object read shares nothing but what the text says. What write/ss writes, read/ss reads as a copy with the same sharing: two parts are the same pair or vector (but not an empty one) if and only if they are in the copy. A label that is used but not declared, declared twice, or at the end of its own chain is an error. So is every text that does not have the wording of a datum: nothing else is read (except for a dot in a vector, as in #(1 . (2))).", "quantifier": "all texts, all heaps, all objects", "why_tests_cant": "texts have no bound in length and in the nesting of labels, lists and vectors; the thunks for labels can be replaced wrongly only in some orders of uses and declarations", "anchors": ["library/srfi-38.ss:129-352"]}
{"id": "C117", "title": "display writes strings, characters and symbols as they are", "statement": "For every datum: display writes what R7RS says, lists and vectors with parentheses and, at any depth, the characters of strings and symbols and characters themselves without quotes and escapes.", "quantifier": "all data, all strings and characters", "why_tests_cant": "data have no bound in size and depth; a test prints a few values and the nested case looks like output of write", "anchors": ["library/r7rs.ss:556-561", "library/r4rs.ss:370-377", "src/kernel/textual_output_port.cpp:26-39"]}
{"id": "C118", "title": "map, for-each and their companions for strings and vectors on longer, dotted and circular arguments, and when a call does not return", "statement": "(map f l1 l2 ...) and (for-each f l1 l2 ...) call f with the first elements of all lists, then with the second ones, and so on, until the shortest list is used up; nothing else is called, and in between only pairs are allocated. The other lists may be longer, dotted or circular. map returns a list of the values in the order of the elements. If a call does not return, no later call is made and map or for-each does not return. for-each of one dotted list visits its elements. string-map, vector-map, string-for-each and vector-for-each do the same with the elements of strings and vectors. (C56 and C74 say on the compiled code what map and for-each do with proper lists.)", "quantifier": "all heaps, worlds, numbers and lengths of arguments, and all procedures that only add objects to the heap, with any effect on the rest of the world, also those that do not return", "why_tests_cant": "the order of effects, shared and circular arguments and escapes in the middle make an unbounded number of combinations; a test uses a few lists", "anchors": ["library/meevax.ss:119-142", "library/r4rs.ss:294-302", "library/r7rs.ss:202-220"]}
{"id": "C119", "title": "Error objects keep message and irritants, and unhandled errors are reported", "statement": "For all messages and irritants: (error m i ...) makes an error object, neither a file error nor a read error nor a pair, whose message is m and whose irritants are the list (i ...). Errors that the implementation signals reach the handler as error objects of their kind with their message and irritants, and their irritants are a list. An error object or another object that nobody handles is reported with message and irritants, or the object itself.", "quantifier": "all messages and irritants, all kinds of errors, all raised objects", "why_tests_cant": "any object can be raised and be an irritant; a test raises a few and looks at the message", "anchors": ["src/kernel/error.cpp", "include/meevax/kernel/error.hpp", "src/kernel/boot.cpp:125-133", "src/kernel/dynamic_environment.cpp:461-495", "library/srfi-23.ss:6-7", "library/r7rs.ss:224-226"]}
{"id": "C120", "title": "SRFI 78 counts the checks completed since the last reset", "statement": "For every program with checks, nested in any way and mixed with resets, changes of the mode, errors and escapes: check-passed? n answers #t if and only if exactly n checks were completed since the last reset and all of them were correct; check-report writes how many were correct and how many failed since then, and the first one that failed. A check that does not complete does not count; in the mode off nothing of a check is evaluated. In the mode report the expression is written before it is evaluated; a failed check is written with the actual and the expected value in the modes report and report-failed, a correct one in the mode report only.", "quantifier": "all programs over the library, all values and equalities, all modes", "why_tests_cant": "the library is what the tests are written with; a test that says it passed when it did not is not noticed by a test", "anchors": ["library/srfi-78.ss:28-150"]}
{"id": "C121", "title": "Redirected input and output: default ports follow the dynamic extent, and a port opened for a procedure is closed", "statement": "Reading and writing without a port go to the port that the innermost with-input-from-file, with-output-to-file or parameterize around them has set, and to the standard port without one; after the body has returned, or was left by a continuation or an error, the port before is the default again. with-input-from-file, with-output-to-file, call-with-input-file and call-with-output-file open the file first, close that port when the procedure returns, and return all its values; so does call-with-port. A file that cannot be opened gives an error that satisfies file-error?.", "quantifier": "all programs over these procedures, nested in any way, with escapes and errors, and all files", "why_tests_cant": "the nesting of redirections, escapes and errors is unbounded, and a test looks at the output of a few programs", "anchors": ["library/r4rs.ss:304-377", "library/r7rs.ss:228-243", "library/srfi-39.ss:34-72", "library/meevax.ss:52-90", "include/meevax/kernel/output_file_port.hpp:32-35", "include/meevax/kernel/input_file_port.hpp:32-37"]}
{"id": "C122", "title": "Complex numbers are read as they were written, and their literals stand for their parts", "statement": "A literal a+bi or a-bi with real literals a and b stands for the complex number with these parts, exact if both are; without a the real part is 0, without b the imaginary part is 1 or -1. A complex number with exact parts is written as a text that is read as the same number; if the imaginary part is 0 it is written as its real part.", "quantifier": "all exact parts, all texts of literals", "why_tests_cant": "the parts are unbounded, and it is the positive imaginary parts, ratios and exponents that are not tried by tests with a few literals", "anchors": ["src/kernel/complex.cpp:26-49", "src/kernel/complex.cpp:92-115", "src/kernel/number.cpp:472-495"]}
{"id": "C123", "title": "The standard libraries export the names of R7RS, bound, and can be imported together", "statement": "Each library of R7RS, appendix A, exports exactly the names listed there, and each name (except auxiliary syntax) stands for a definition. A library may import any of them, in any order and number, and each name is then bound as in the library that exports it. Loading a library does not change the definitions of another library.", "quantifier": "all libraries and names of appendix A, all sequences of imports", "why_tests_cant": "the sequences of imports are unbounded, and the tests import few combinations, at the outermost level, where the check for conflicts is switched off", "anchors": ["library/r4rs.ss", "library/r5rs.ss", "library/r7rs.ss", "src/kernel/boot.cpp:440-928", "src/kernel/environment.cpp:71-185", "src/kernel/library.cpp:71-102"]}
{"id": "C124", "title": "The definitions of the standard libraries use only names that are bound", "statement": "Every variable or keyword that occurs free in a definition of one of the libraries that R7RS small is made of is bound in that library, to a definition of this or of another library.", "quantifier": "all definitions of these libraries, all names free in them", "why_tests_cant": "an unbound name is noticed only when the code that uses it is run, on paths that no test takes", "anchors": ["library/meevax.ss:43-100", "library/r4rs.ss:382-386", "library/srfi-9.ss:23-142", "library/srfi-149.ss:26-300", "src/kernel/syntactic_environment.cpp:131-200"]}
{"id": "C125", "title": "The compositions of car and cdr go where their letters say; list, cons* and rest parameters make new lists", "statement": "Each of the thirty procedures car to cddddr returns the object its letters lead to, the last letter first. cons* of x1 ... xn is the list of x1 to x(n-1) ending in xn. xcons x y is a new pair of y and x. The lists made by list, by cons* and for a rest parameter are newly allocated, so that no list of the program changes with them.", "quantifier": "all heaps, all objects, all argument lists, all states of the machine", "why_tests_cant": "thirty hand-written compositions and all shapes of data; sharing shows only when a list is changed afterwards", "anchors": ["include/meevax/kernel/pair.hpp:76-114", "src/kernel/boot.cpp:140", "src/kernel/boot.cpp:270-307", "library/meevax.ss:102-117"]}
{"id": "C126", "title": "get-environment-variable and get-environment-variables tell the same about the environment", "statement": "get-environment-variables lists exactly the entries of the environment that have an equals sign, cut at the first one. get-environment-variable returns the value of the first entry for the name, and #f when there is none. The two agree: the value returned for a name is the one assoc finds in the list.", "quantifier": "all environments (lists of byte strings), all names", "why_tests_cant": "the environment of a test run has no repeated names and no names with zero bytes or equals signs", "anchors": ["src/kernel/boot.cpp:381-382", "src/kernel/list.cpp:416-419"]}
{"id": "C127", "title": "The libraries of R7RS-large export what their SRFIs list, and an interactive session gets all its libraries with their own bindings", "statement": "(scheme list), (scheme division), (scheme fixnum) and (scheme bitwise) export exactly the names of SRFI 1, 141, 143 and 151. Every name exported by these libraries, by (scheme flonum) and by the SRFI libraries beneath them is bound. The imports that main makes for an interactive session all succeed, in a program the same imports are no error, and each name has the binding of every library that exports it. No library assigns a binding of another one. The names that a declaration picks out with only are exported by the library it names. In the interaction environment an import hides the bindings of the same names and keeps the others.", "quantifier": "all libraries of library/ beyond R7RS-small, all names they export, all pairs of the libraries of the session", "why_tests_cant": "an import that hides a binding shows only when the hidden binding is used; a missing export only when the name is used", "anchors": ["src/main.cpp:28-54", "src/kernel/environment.cpp:170-185", "configure/system.cpp:111-148", "library/r7rs.ss:350-497", "library/srfi-1.ss:9-902", "library/srfi-143.ss:1-154", "library/srfi-144.ss:1-344", "library/srfi-151.ss:1-267"]}
