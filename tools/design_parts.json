{
 "head": "# DESIGN \u2014 a Rocq (Coq 8.16.1) model of CoffeeTableEspresso/YASL\n\nThis file is generated by `tools/mkdesign.py` (text in `tools/design_parts.json`); `properties.jsonl` holds the English\nproperties, `MANIFEST.json` the status of each, `seeded/LOG.jsonl` the mutation experiments.\n\n## Method\n\n* Model files (`Varint.v`, `Table.v`, `VM.v`, `Compiler.v`, \u2026) hold total, computable Gallina functions that transcribe the C functions one by\n  one; each definition cites the file and lines it models and says what it simplifies. C's undefined behaviour (out-of-bounds access, signed\n  overflow, `size_t` underflow feeding `memcpy`, use of freed memory, uninitialised read) is a separate outcome `UB`, errors that the C code\n  raises are `Err`, and loops that C does not bound run on fuel and answer `NoFuel` when it is used up; theorems either exclude `NoFuel` with an\n  explicit bound, hold for every fuel, or (refutations) show it for every fuel.\n* Specifications are small separate files (`*Spec.v`, `Ast.eval`, `Stmt.exec`, `MatchSpec.pmatch`, `ApiSpec.v`, \u2026) written without reference to\n  the implementation: finite maps, sequences, mathematical sets, big-step meaning of statements, a grammar for texts.\n* `Prop*.v` hold the final theorems `Cnn_\u2026`, `Print Assumptions` after each, and `Example`s showing that concrete non-trivial cases meet the\n  hypotheses.\n* Where the code violates the English property there is a theorem `Cnn_\u2026_refuted` that exhibits a concrete run of the model contradicting it,\n  next to the strongest positive theorem under a guard (`_partial`, or proved under the guard that is part of the property's own statement).\n\n## Trusted base\n\n* The kernel of Coq 8.16.1 (`coqc`, re-checked with `coqchk`), including its bytecode conversion (`vm_compute` is used for concrete examples\n  and refutations, and in a few finite case analyses). No `native_compute`, no plugins, no unsafe flags, no functors, no axioms of our own.\n* `Print Assumptions` of every `Cnn_` theorem answers \"Closed under the global context\": no theorem uses any axiom. (The proofs use only the\n  standard library: Lists, ZArith, Floats.SpecFloat as pure functions, Permutation, Znumtheory.) `coqchk -o` additionally lists, for the loaded\n  library as a whole, the opaque abstract-type fields of the standard library file `Coq.ssr.ssrunder` (`Under_rel.Under_rel`, `.under_rel_done`,\n  `.Under_rel_from_rel`, `.Under_relE`, `.Over_rel`, `.over_rel`, `.over_rel_done`), which no theorem here depends on.\n* The faithfulness of the hand-written model to the C code: the transcription is by reading; nothing was extracted or executed against the C\n  program (the sandbox has no dependencies of the project). The seeded-bug experiments test the theorems, not the transcription.\n* C-level assumptions: LP64 little-endian two's complement, `int` 32 bits, IEEE-754 binary64 doubles with round-to-nearest-even, `char` signed\n  (as on x86-64), `malloc`/`realloc` never fail, conversions of out-of-range integers as on gcc/x86-64 where the C standard leaves them\n  implementation-defined. Library functions (`strtoll`, `printf(\"%ld\")`, `isalnum`, \u2026) follow the C standard; `printf(\"%f\")` is exact\n  rounding to six decimals, ties to even (C63; elsewhere the text of a float is an oracle); `pow`, `rand`, user `__` methods and host functions are oracles: the theorems hold for every behaviour of them.\n\n## What is modelled\n\n| C source | model |\n|---|---|\n| util/varint.c, util/prime.c, util/hash_function.c | Varint.v, Prime.v, Hash.v |\n| data-structures/YASL_Table.c, interpreter/table_methods.c | Table.v (slots, probing, tombstones, resizing) |\n| data-structures/YASL_Set.c, std/yasl-std-collections.c | Sets.v |\n| data-structures/YASL_List.c, interpreter/list_methods.c, list slicing and literals of VM.c | Lists.v, Sort.v |\n| data-structures/YASL_String.c, interpreter/str_methods.c, string slicing and iteration | Strings.v |\n| data-structures/YASL_ByteBuffer.c | ByteBuffer.v, Bytes.v |\n| interpreter/YASL_Object.c, operators of VM.c:346-560 | Value.v, Ops.v |\n| std/yasl-std-math.c (integer functions) | MathLib.v |\n| compiler/lexer.c | Lexer.v (over a list of bytes), Text.v |\n| compiler/lexinput.c (in-memory input), compiler/lexer.c with positions, steps back and the end-of-input flag | LexInput.v |\n| compiler/parser.c: parse_string; compiler/lexer.c: lex_eatinterpstringbody, lex_eatinterpstring_fill | Interp.v |\n| compiler/parser.c (expressions, statements; not calls, containers, functions, match) | Parser.v |\n| compiler/parser.c with calls, methods, indices, slices, lists, tables, functions, return; compiler/ast.h; middleend.c on that tree | Tree.v, TreeParser.v |\n| compiler/middleend.c | Fold.v |\n| compiler/compiler.c, compiler/env.c: expressions, statements, scopes, constant pool, line table, header; patterns and match | Compiler.v, Constants.v, Lines.v, Match.v, Program.v, Source.v |\n| compiler/compiler.c, compiler/env.c: functions, calls, returns, captured variables | FnCompiler.v (meaning: Fn.v, fragment: FnSpec.v), FnSource.v (from text) |\n| compiler/compiler.c: list and table literals, indexing, storing, method calls | ObjCompiler.v (meaning: Obj.v), ObjSource.v (from text) |\n| interpreter/VM.c: decoding, stack, jumps, operators, globals, loops, calls, frames, closures, match, echo/assert | VM.v, Calls.v, Closures.v, Match.v, Globals.v |\n| interpreter/VM.c: metatables, method lookup, GET/SET/LEN/NEWLIST/NEWTABLE/INIT_MC, equality and text of containers; interpreter/builtins.c; list and table methods as called from programs | Heap.v, Names.v |\n| interpreter/refcount.c and the reference traffic of stack, lists, tables, globals, loops | Refs.v |\n| util/yasl_float.c, interpreter/float_methods.c, interpreter/int_methods.c | FloatText.v, Text.v |\n| compiler/compiler.c: `compile_REPL`; yasl.c: `YASL_execute_REPL` | Repl.v (meaning: ReplSpec.v) |\n| interpreter/closure.c, upvalue.c and the reference traffic of captures, closing returns, upvalue reads and writes | RefClosure.v |\n| std/yasl-std-io.c (files), with a model of the C library's streams | Io.v |\n| yasl_aux.c: YASLX_checkn\u2026, the message of a wrong argument | ArgCheck.v |\n| util/IO.c: print functions; yasl.c: capturing and loading of output and errors | Capture.v |\n| std/yasl-std-mt.c: mt.get, mt.set; VM.c: vm_get_metatable | Mt.v |\n| std/yasl-std-require.c: the search on a path (open_on_path, search_on_path) | Require.v |\n| yasl.c, the embedding API (stack, containers, globals, metatables, pops/peeks) | Api.v |\n\n## What is not modelled\n\nThe standard streams and several open files on one name (`std/yasl-std-io.c`), device errors, modules (`require` beyond the search for the file, the loop and option handling of `main.c`, file input of the lexer); user data and\nuser pointers beyond being opaque values; user-defined metamethods beyond an oracle; float parsing (`strtod`); comprehensions; functions and\ncontainers in one program; the `-O`/debug printing code; concurrency (the code has none; states are independent).\nInterplay between separate models is proved where it is used (lexer\u2192parser\u2192folder\u2192compiler\u2192loader\u2192machine: C49, with lists and tables C57, with functions C58; hash-table globals under\nthe machine: C50; echo's NUL stripping: C42); the reference-count model and the value-level models are separate.\n\n",
 "how": {
  "C01": "`Varint.v` transcribes vint_encode/vint_decode/vint_len on byte lists. Induction on 7-bit digits.",
  "C02": "`Table.v`: the slot array with keys, tombstones, double hashing and resizing. Invariant (prime capacity, no duplicate live key, every live key reachable on its probe path) preserved by every operation; refinement to a finite map over arbitrary histories (TableSpec.v).",
  "C03": "Same model and invariant; the refutation is a computed history.",
  "C04": "Same invariant: the counter equals the number of live slots.",
  "C05": "table_iterate/keys/values over the slot array; enumeration shown to be a duplicate-free list of exactly the live entries.",
  "C06": "Double hashing with a prime capacity covers all slots (number theory in HashProofs.v), so a probe ends while a never-used slot remains; refutations compute histories whose probe loops use up any fuel.",
  "C07": "`Prime.v`, with the C square root as any function within its error range; divisibility lemmas; the hard-coded table by computation.",
  "C08": "`Sets.v` on the same slot structure; refinement to mathematical sets over histories.",
  "C09": "`Value.v` isequal, `Ops.v` operators on IEEE doubles (SpecFloat); case analysis, rounding lemmas in FloatFacts.v.",
  "C10": "`C10_truthiness` on the value model; `C10_short_circuit` on compiled code run by the machine model, through C25.",
  "C11": "`Lists.v` list_get/set with C index arithmetic; sequences as specification.",
  "C12": "Histories of push/insert/extend/reverse/copy/remove/clear with explicit capacity; simulation by sequences.",
  "C13": "`Sort.v`: the quicksort with the pivot as an oracle; permutation and order by induction on fuel.",
  "C14": "Loops of list_methods.c transcribed; induction.",
  "C15": "C index normalisation in VM.c:622-667; arithmetic.",
  "C16": "`Strings.v` keeps parent/offset of substrings, so reading outside is visible as `UB`.",
  "C17": "Loops transcribed with size_t arithmetic; induction on the number of needle copies.",
  "C18": "str_split and list_join transcribed; `joined` as specification.",
  "C19": "str_find_index and str_count transcribed; least-occurrence specification.",
  "C20": "str_replace with the limit counter; greedy leftmost specification.",
  "C21": "str_cmp_ transcribed; lexicographic order as an inductive specification.",
  "C22": "ctype functions per byte; induction.",
  "C23": "ITER on strings as in VM.c:898-918.",
  "C24": "`Fold.v` transcribes middleend.c; `Ast.eval` is the meaning; induction on expressions.",
  "C25": "`Compiler.v` emits into a buffer with patched jumps; `Gen.v` gives the code as a function (GenProofs.v), Sim.v simulates `Ast.eval` on the machine of VM.v.",
  "C26": "Same, statements; `Stmt.exec` is the meaning; simulation with an environment/stack relation.",
  "C27": "`CompSpec.legal_program` in terms of names only; equivalence with acceptance by the compiler.",
  "C28": "The operand byte is sign-extended as in VM.c; simulation up to 128 variables, computed refutation beyond.",
  "C29": "`Closures.v`: open upvalue list, capture, close; histories of operations against a store of shared variables.",
  "C30": "`VM.v`/`Calls.v` call protocol; `CallSpec.v` says which arguments and results; arbitrary stacks.",
  "C31": "`Refs.v`: explicit memory with counts, freeing and use-after-free as `UB`; invariant count = number of references; induction over instruction sequences and over the release recursion.",
  "C32": "`Match.v`: pattern bytecode generator, matcher with its skipping functions, clause jumps; `MatchSpec.pmatch` is the meaning; induction on patterns and clause lists.",
  "C33": "`MathLib.v`; Euclid by well-founded induction; overflow explicit.",
  "C34": "`Ops.v` integer operators; Z arithmetic and bit lemmas.",
  "C35": "`Constants.v`: interning in the hash table of C02, the header bytes, vm_setupconstants; round trip.",
  "C36": "`Lines.v`: the line bytes appended while visiting, vm_getcurrline; induction over the events.",
  "C37": "`Parser.v` on tokens; `ParseSpec.v` is a grammar with levels and a printer; induction on derivations.",
  "C38": "`Api.v`; every state, per function.",
  "C39": "`Api.v` against the abstract host machine of `ApiSpec.v`; simulation over arbitrary call sequences.",
  "C40": "`ByteBuffer.v` with capacity and explicit writes; induction over operations.",
  "C41": "`Text.v`: printf %ld and strtoll as digit functions; induction on digits.",
  "C42": "vm_ECHO/strip loop on scratch memory; induction.",
  "C43": "Invariant of every machine step; refutation by a computed program.",
  "C44": "Composition of C25\u2013C28 with pool, header and loader: compile, load, run.",
  "C45": "Histories of executions on one state (`served`).",
  "C46": "vm_CNCT and vm_stringify_top on primitive texts.",
  "C47": "`Lexer.v` against the writer of `LexSpec.v`; induction over the token list.",
  "C48": "Termination measure: the bytes not read yet; capacity invariant of the token buffer.",
  "C49": "Composition of C47, C37, C24 and C44 (Source.v).",
  "C51": "`FnCompiler.v`: the code generator with functions and captured variables; `Fn.v`: meaning of programs with functions, knowing nothing of bytecode; `FnCode.v`: relational form of the code, proved to describe what the generator emits (`FnGen*.v`); `FnSim*.v`: simulation, mutual induction on expressions, arguments and statements inside an induction on the number of active calls.",
  "C52": "`Heap.v`: objects, metatables, built-in methods, and the instructions that find and call them, on the machine of VM.v; `HeapSpec.v`: memory as sequences and finite maps by identity; `shows` relates them (tables through the invariant of C02); one lemma per method body, one per instruction.",
  "C53": "`HeapSpec2.v`: a relation between value and text (order of entries open); induction on the free stack for safety, on the nesting depth for success; a pigeonhole argument bounds the depth by the number of objects.",
  "C54": "`HeapSpec2.equals`: structural equality to a depth; induction on the depth, with entries of tables up to permutation.",
  "C56": "`Tree.v`: the syntax tree; `TreeParser.v`: the parser on tokens; `TreeSpec.v`: a grammar as mutually inductive predicates; `TreeProofs*.v`: by induction on derivations, for expressions in the two forms (read up to the end, or read as the left part of a longer one); `TreeFuel.v`: more fuel changes nothing.",
  "C57": "`ObjSource.v`: the chain from text to machine, and the programs of Obj.v as syntax trees; `ObjFold.v`: a folded program has only results the written program has (a relation between expressions preserved by evaluation in every memory); `ObjWritten.v`: what the grammar writes satisfies the shape conditions of C55; then C56 and C55.",
  "C58": "`FnSource.v`: the chain from text to machine, and the programs of Fn.v as syntax trees; `FnFold.v`: running a folded program relates to running the written one, the functions in memory having folded bodies (induction on expressions, arguments and statements inside an induction on active calls); `FnWritten.v`: folding the trees gives such a program, and the compiler does not look at labels; then C56 and C51.",
  "C59": "`FnLegal.v`: legality in terms of names only; `FnTotal.v`: the scopes of all functions being compiled, innermost first, are related to the names in scope; one mutual induction gives both directions: a legal part compiles and leaves related scopes, an illegal one is a syntax error (so nothing after it matters).",
  "C60": "`ObjLegal.v`: legality in terms of names and loops only; `ObjTotal.v`: the compiler's scopes are related to the names in scope, the stack of loop checkpoints is empty or has two entries per loop; one induction gives both directions, as for C59.",
  "C61": "`RefClosure.v`: the memory of `Refs.v` with closures and upvalues (open ones name a stack slot); the release of an open upvalue is marked as a watchpoint, so that the restriction can be stated about the run itself. The memory is encoded in that of `Refs.v` (closures and closed upvalues as lists of what they hold), the release recursion is shown to agree with that of C31 under the encoding, and count = number of references is again an invariant of every instruction.",
  "C62": "`Repl.v`: `compile_REPL` and `YASL_execute_REPL` on the compiler and machine of Compiler.v and VM.v; `ReplSpec.v`: what a session means (names, values, output). An empty outermost scope is shown to change nothing for statements that declare only inside blocks (`ReplProofs.v`), so the simulation of Sim.v applies to them; top-level declarations are followed separately (`ReplProofs2.v`, `ReplProofs3.v`); `ReplLegal.v`: the names of the session as one more scope, and totality. The history is an induction over the lines typed.",
  "C63": "`FloatText.v`: `float64_to_str` with its buffer and its loop over `%f`, on SpecFloat doubles; `FloatTextSpec.v`: what a decimal text denotes and which is nearest. Euclidean division for the rounding, induction on the decimals for the loop.",
  "C64": "`LexInput.v`: the reader with position and flag, and the lexer reading through it; invariant: position and character stand for a remaining list of bytes; each lexer function is related to its counterpart over lists in Lexer.v.",
  "C65": "`Interp.v`: parse_string with the lexer of LexInput.v and the expression parser of TreeParser.v. The lexer is related token by token to the lexer over lists (C64), the expression is read by C56, and induction over the interpolations carries position, flag and accumulated concatenation.",
  "C66": "`Io.v`: a C stream as content, position, modes and the kind of the last operation (so that what ISO C leaves undefined is UB); the library functions on it; induction over lines, bytes and writes.",
  "C67": "`ArgCheck.v`: the checks on the state of Api.v, with the bytes of the message; by cases on the value.",
  "C68": "`Capture.v`: the three streams of a state with the memory of their strings (uninitialised cells, bounds); invariant: memory holds the text so far and at most one byte more; induction over histories.",
  "C69": "`Mt.v`: the two functions on the memory of Heap.v; by cases on the value, then the hash table lemmas of C05 for what is found.",
  "C70": "`Require.v`: C strings as lists with their zero byte, a buffer of cells that may be uninitialised with bounds, size_t differences that wrap are UB; the pass of the loop is computed on a template, induction over the path.",
  "C55": "`ObjCompiler.v`: the code generator with containers; `Obj.v`: a nondeterministic meaning over memories of sequences and finite maps; `ObjGen*.v`: the code as a function; `ObjSim.v`: simulation: the machine takes one of the allowed results, by induction on expressions and statements with the instruction lemmas of C52-C54; `ObjProg.v`: whole programs.",
  "C50": "`Globals.v`: the machine with the hash table of Table.v as globals; simulation with the map machine."
 },
 "tail": "## Findings (each is a theorem `\u2026_refuted` about the model, named in MANIFEST.json)\n\n* Tables and sets: removing an absent key still decrements the length; tombstones can fill a table so that a lookup of an absent key\n  never returns; `clear` makes the capacity composite.\n* Strings: slices with reversed bounds and slices of slices read outside the string; `trim` of an all-needle string underflows; `split` with a\n  multi-byte separator loses trailing bytes; `count(\"\")` does not return; `replace` with a limit counts skipped bytes; iteration over a substring\n  visits the parent's bytes; character predicates pass negative values to `isalnum`.\n* Compiler: `break`/`continue` past a declaration leave the variable on the stack; more than 128 locals read at negative offsets; a legal\n  `break` in a `while false` loop is rejected; parse errors leave scopes behind; a second program on a state with top-level locals misreads its\n  variables.\n* Compiler: constant folding can switch a loop off, and then its `break` is reported as being outside a loop: `while 1 == 2 { break; }` is a syntax error (C60_folded_loop_refuted).\n* Compiler: repeated parameter names are accepted and make the function's variables overlap (C59_same_params_refuted).\n* Machine: nested `for` loops beyond 16 write past the loop array; captured variables are closed only if captured in the right order, and not at\n  all when a block (rather than the function) is left; variadic host functions called with too few arguments misread the stack.\n* Match: table patterns inside `|` and guards with bindings misbehave.\n* Reference counts: `list.pop` leaks, `mt.get` on a temporary and failed comparisons use freed or leak objects; cycles leak.\n* Closures: dropping the last closure over a variable that is still in use takes its value away (`let x = 'a' ~ 'b'; let g = fn() { return x; }; g = undef; echo x` prints undef), leaves a freed entry in the list of open\n  variables, and undercounts values held elsewhere; a variable left open by a return can be freed before it is counted (C61_\u2026_refuted).\n* Interactive mode: after a line that failed, local variables of later lines are read from the wrong stack slots: `echo 1 + (2 + undef)` and then `{ let a = 5; echo a; }` prints 1 (C62_after_error_refuted).\n* Floats: only six decimals are written, so different floats look equal; `toint` of a large float, an infinity or a NaN is an undefined C conversion (C63_\u2026_refuted).\n* Lexer: a program of 2 GiB or more is read as an empty one, without an error (C64_long_refuted).\n* Interpolation: `\"#{x y}\"` is accepted and means `x ~ '}'`, y is lost; `\"#{\"a#{b}\"}\"` is rejected (C65_\u2026_refuted).\n* Files: `f->close()` followed by the release of f closes the stream twice; write stops at a zero byte; read('a') on a file opened with w or a returns uninitialised memory (C66_\u2026_refuted).\n* API: YASLX_checknint, checknfloat and checknbool report the type of the top of the stack instead of the argument's (C67_message_refuted).\n* API: after YASL_resetstate the compiler's messages are no longer captured (C68_reset_refuted).\n* Metatables: mt.get of a function reads an array entry that was never written (C69_function_refuted).\n* Packages: a zero byte ends the name (C70_zero_byte_refuted); a configured path with a template without ? is undefined behaviour (C70_unmarked_refuted).\n* API: popping a wrong type leaves the value; undef globals; error reporting outside execution.\n"
}