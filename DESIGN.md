# DESIGN — a Rocq (Coq 8.16.1) model of CoffeeTableEspresso/YASL

This file is generated by `tools/mkdesign.py` (text in `tools/design_parts.json`); `properties.jsonl` holds the English
properties, `MANIFEST.json` the status of each, `seeded/LOG.jsonl` the mutation experiments.

## Method

* Model files (`Varint.v`, `Table.v`, `VM.v`, `Compiler.v`, …) hold total, computable Gallina functions that transcribe the C functions one by
  one; each definition cites the file and lines it models and says what it simplifies. C's undefined behaviour (out-of-bounds access, signed
  overflow, `size_t` underflow feeding `memcpy`, use of freed memory, uninitialised read) is a separate outcome `UB`, errors that the C code
  raises are `Err`, and loops that C does not bound run on fuel and answer `NoFuel` when it is used up; theorems either exclude `NoFuel` with an
  explicit bound, hold for every fuel, or (refutations) show it for every fuel.
* Specifications are small separate files (`*Spec.v`, `Ast.eval`, `Stmt.exec`, `MatchSpec.pmatch`, `ApiSpec.v`, …) written without reference to
  the implementation: finite maps, sequences, mathematical sets, big-step meaning of statements, a grammar for texts.
* `Prop*.v` hold the final theorems `Cnn_…`, `Print Assumptions` after each, and `Example`s showing that concrete non-trivial cases meet the
  hypotheses.
* Where the code violates the English property there is a theorem `Cnn_…_refuted` that exhibits a concrete run of the model contradicting it,
  next to the strongest positive theorem under a guard (`_partial`, or proved under the guard that is part of the property's own statement).

## Trusted base

* The kernel of Coq 8.16.1 (`coqc`, re-checked with `coqchk`), including its bytecode conversion (`vm_compute` is used for concrete examples
  and refutations, and in a few finite case analyses). No `native_compute`, no plugins, no unsafe flags, no functors, no axioms of our own.
* `Print Assumptions` of every `Cnn_` theorem answers "Closed under the global context": no theorem uses any axiom. (The proofs use only the
  standard library: Lists, ZArith, Floats.SpecFloat as pure functions, Permutation, Znumtheory.) `coqchk -o` additionally lists, for the loaded
  library as a whole, the opaque abstract-type fields of the standard library file `Coq.ssr.ssrunder` (`Under_rel.Under_rel`, `.under_rel_done`,
  `.Under_rel_from_rel`, `.Under_relE`, `.Over_rel`, `.over_rel`, `.over_rel_done`), which no theorem here depends on.
* The faithfulness of the hand-written model to the C code: the transcription is by reading; nothing was extracted or executed against the C
  program (the sandbox has no dependencies of the project). The seeded-bug experiments test the theorems, not the transcription.
* C-level assumptions: LP64 little-endian two's complement, `int` 32 bits, IEEE-754 binary64 doubles with round-to-nearest-even, `char` signed
  (as on x86-64), `malloc`/`realloc` never fail, conversions of out-of-range integers as on gcc/x86-64 where the C standard leaves them
  implementation-defined. Library functions (`strtoll`, `printf("%ld")`, `isalnum`, …) follow the C standard; `printf("%f")` is exact
  rounding to six decimals, ties to even (C63; elsewhere the text of a float is an oracle); `pow`, `rand`, user `__` methods and host functions are oracles: the theorems hold for every behaviour of them.

## What is modelled

| C source | model |
|---|---|
| util/varint.c, util/prime.c, util/hash_function.c | Varint.v, Prime.v, Hash.v |
| data-structures/YASL_Table.c, interpreter/table_methods.c | Table.v (slots, probing, tombstones, resizing) |
| data-structures/YASL_Set.c, std/yasl-std-collections.c | Sets.v |
| data-structures/YASL_List.c, interpreter/list_methods.c, list slicing and literals of VM.c | Lists.v, Sort.v |
| data-structures/YASL_String.c, interpreter/str_methods.c, string slicing and iteration | Strings.v |
| data-structures/YASL_ByteBuffer.c | ByteBuffer.v, Bytes.v |
| interpreter/YASL_Object.c, operators of VM.c:346-560 | Value.v, Ops.v |
| std/yasl-std-math.c (integer functions) | MathLib.v |
| compiler/lexer.c | Lexer.v (over a list of bytes), Text.v |
| compiler/lexinput.c (in-memory input), compiler/lexer.c with positions, steps back and the end-of-input flag | LexInput.v |
| compiler/parser.c: parse_string; compiler/lexer.c: lex_eatinterpstringbody, lex_eatinterpstring_fill | Interp.v |
| compiler/parser.c (expressions, statements; not calls, containers, functions, match) | Parser.v |
| compiler/parser.c with calls, methods, indices, slices, lists, tables, functions, return; compiler/ast.h; middleend.c on that tree | Tree.v, TreeParser.v |
| compiler/middleend.c | Fold.v |
| compiler/compiler.c, compiler/env.c: expressions, statements, scopes, constant pool, line table, header; patterns and match | Compiler.v, Constants.v, Lines.v, Match.v, Program.v, Source.v |
| compiler/compiler.c, compiler/env.c: functions, calls, returns, captured variables | FnCompiler.v (meaning: Fn.v, fragment: FnSpec.v), FnSource.v (from text) |
| compiler/compiler.c: list and table literals, indexing, storing, method calls | ObjCompiler.v (meaning: Obj.v), ObjSource.v (from text) |
| interpreter/VM.c: decoding, stack, jumps, operators, globals, loops, calls, frames, closures, match, echo/assert | VM.v, Calls.v, Closures.v, Match.v, Globals.v |
| interpreter/VM.c: metatables, method lookup, GET/SET/LEN/NEWLIST/NEWTABLE/INIT_MC, equality and text of containers; interpreter/builtins.c; list and table methods as called from programs | Heap.v, Names.v |
| interpreter/refcount.c and the reference traffic of stack, lists, tables, globals, loops | Refs.v |
| util/yasl_float.c, interpreter/float_methods.c, interpreter/int_methods.c | FloatText.v, Text.v |
| compiler/compiler.c: `compile_REPL`; yasl.c: `YASL_execute_REPL` | Repl.v (meaning: ReplSpec.v) |
| interpreter/closure.c, upvalue.c and the reference traffic of captures, closing returns, upvalue reads and writes | RefClosure.v |
| std/yasl-std-io.c (files), with a model of the C library's streams | Io.v |
| yasl_aux.c: YASLX_checkn…, the message of a wrong argument | ArgCheck.v |
| util/IO.c: print functions; yasl.c: capturing and loading of output and errors | Capture.v |
| std/yasl-std-mt.c: mt.get, mt.set; VM.c: vm_get_metatable | Mt.v |
| std/yasl-std-require.c: the search on a path (open_on_path, search_on_path) | Require.v |
| yasl.c, the embedding API (stack, containers, globals, metatables, pops/peeks) | Api.v |

## What is not modelled

The standard streams and several open files on one name (`std/yasl-std-io.c`), device errors, modules (`require` beyond the search for the file, the loop and option handling of `main.c`, file input of the lexer); user data and
user pointers beyond being opaque values; user-defined metamethods beyond an oracle; float parsing (`strtod`); comprehensions; functions and
containers in one program; the `-O`/debug printing code; concurrency (the code has none; states are independent).
Interplay between separate models is proved where it is used (lexer→parser→folder→compiler→loader→machine: C49, with lists and tables C57, with functions C58; hash-table globals under
the machine: C50; echo's NUL stripping: C42); the reference-count model and the value-level models are separate.


## Properties: what is modelled, how it is proved

### C01 — Variable-length integers round-trip (proved)

Every unsigned 64-bit value written to the bytecode's line table in the variable-length encoding is read back unchanged, the decoder consumes exactly the bytes the encoder produced whatever follows them, the encoding never needs more than 10 bytes (so the 12-byte scratch buffer never overflows), and it is never longer than necessary.

*Model and proof.* `Varint.v` transcribes vint_encode/vint_decode/vint_len on byte lists. Induction on 7-bit digits.

*Scope.* round trip, exact consumption, minimal length, never more than 10 bytes

*Theorems.* `C01_varint_roundtrip`

### C02 — Table set/get behaves as a finite map (proved)

For a table used only with well-behaved keys (not undef, NaN or mixed -0.0/0.0) and non-undef values, after any sequence of insertions and assignments, reading a key yields the value most recently stored under an equal key of the same type, and an absent result when the key was never stored; an int key and a float key are different keys.

*Model and proof.* `Table.v`: the slot array with keys, tombstones, double hashing and resizing. Invariant (prime capacity, no duplicate live key, every live key reachable on its probe path) preserved by every operation; refinement to a finite map over arbitrary histories (TableSpec.v).

*Scope.* refinement to a finite map for every history (partial correctness for any fuel) and totality for insertion-only histories; ill-behaved keys (-0.0, NaN, undef) refuted

*Theorems.* `C02_table_history`, `C02_insertions_total`, `C02_table_union`, `C02_table_copy`, `C02_all_hashable_keys_refuted`

### C03 — Table removal (partial)

Removing a key from a table makes that key (and only that key) absent, and removing a key that is not present leaves the table unchanged, including its length.

*Model and proof.* Same model and invariant; the refutation is a computed history.

*Scope.* present keys proved; removal of an absent key changes the length: refuted by the code

*Theorems.* `C03_remove_only_that_key`, `C03_remove_absent_refuted`

### C04 — Table length is the number of stored keys (proved)

len of a table equals the number of distinct keys currently stored, after any history of insertions, overwrites and removals of present keys.

*Model and proof.* Same invariant: the counter equals the number of live slots.

*Scope.* under the property's own guard that only present keys are removed

*Theorems.* `C04_length_counts_keys`

### C05 — Table iteration enumerates each entry exactly once (proved)

Iterating a table with a for loop, with keys()/values(), or with YASL_tablenext visits every stored key exactly once, paired with its stored value, never visits removed entries, and stops.

*Model and proof.* table_iterate/keys/values over the slot array; enumeration shown to be a duplicate-free list of exactly the live entries.

*Theorems.* `C05_enumeration`

### C06 — Table operations terminate (partial)

Every table lookup, insertion and removal terminates after at most as many probes as the table has slots.

*Model and proof.* Double hashing with a prime capacity covers all slots (number theory in HashProofs.v), so a probe ends while a never-used slot remains; refutations compute histories whose probe loops use up any fuel.

*Scope.* false in general (tombstones fill the table; t.clear() makes the capacity composite): refuted; proved while a never-used slot remains, and for insertion-only histories in C02_insertions_total

*Theorems.* `C06_terminates_partial`, `C06_tombstones_refuted`, `C06_clear_refuted`

### C07 — Capacity is always a sufficient prime (proved)

The capacity chosen for hash tables and sets is the least prime not below the requested base size; math.isprime answers exactly primality for non-negative arguments (below the float-exact range).

*Model and proof.* `Prime.v`, with the C square root as any function within its error range; divisibility lemmas; the hard-coded table by computation.

*Scope.* for any floor-sqrt within [isqrt x, x)

*Theorems.* `C07_is_prime_correct`, `C07_is_prime_total`, `C07_next_prime_correct`, `C07_next_prime_total`, `C07_table_capacity`

### C08 — Set operations are the mathematical ones (proved)

For sets of hashable values (no NaN or -0.0, and no int together with a numerically equal float), | & &^ ^ compute union, intersection, difference and symmetric difference, len is the number of distinct members, adding is idempotent, and <= < >= > == are (proper) inclusion and equality.

*Model and proof.* `Sets.v` on the same slot structure; refinement to mathematical sets over histories.

*Scope.* refinement to mathematical sets for every history of additions and removals, operators, constructors, comparisons (lengths guarded by: only members removed), totality for insertion-built sets; refuted by the code outside the guards: 1 with 1.0, removal of non-members, clear() of large sets, tombstone loops

*Theorems.* `C08_membership`, `C08_members_and_length`, `C08_operators`, `C08_constructors`, `C08_comparisons`, `C08_add_idempotent`, `C08_total`, `C08_mixed_numbers_refuted`, `C08_remove_absent_refuted`, `C08_clear_refuted`, `C08_tombstones_refuted`, `C08_unhashable`

### C09 — Equality of values (partial)

== on primitive values is symmetric, reflexive except for NaN, compares ints with floats numerically, strings by content, undef only with undef; two values of unrelated types are never equal; === additionally requires the same type; != and !== are the negations.

*Model and proof.* `Value.v` isequal, `Ops.v` operators on IEEE doubles (SpecFloat); case analysis, rounding lemmas in FloatFacts.v.

*Scope.* == on primitive values proved equal to the specification; transitivity of == and identity of === on floats refuted by the code (double rounding, 0.0/-0.0)

*Theorems.* `C09_eq_spec`, `C09_eq_reflexive`, `C09_int_float_numeric`, `C09_identity`, `C09_identity_refuted`, `C09_transitive_refuted`

### C10 — Truthiness (proved)

A value is false in a condition exactly when it is undef, false, the empty string or NaN; ! returns the negation of truthiness as a bool; && and || evaluate their right operand exactly when the left does not decide, and yield one of the operands unchanged.

*Model and proof.* `C10_truthiness` on the value model; `C10_short_circuit` on compiled code run by the machine model, through C25.

*Scope.* truthiness and ! on every value; short-circuit on compiled code: the right operand is evaluated exactly when the left one does not decide, the result is one of the operands

*Theorems.* `C10_short_circuit`, `C10_truthiness`

### C11 — List element access (proved)

For a list of length n and an int index i, reading succeeds exactly when -n <= i < n and yields the element at i (or n+i), writing replaces exactly that element and nothing else, and every other index raises an error and leaves the list unchanged.

*Model and proof.* `Lists.v` list_get/set with C index arithmetic; sequences as specification.

*Theorems.* `C11_get`, `C11_set`

### C12 — List growth operations (proved)

push appends at the end; insert(i,x) places x before position i for -n <= i <= n... and shifts the rest; extend appends all elements in order; reverse reverses; copy is independent of the original; length is the number of elements; capacity is never exceeded.

*Model and proof.* Histories of push/insert/extend/reverse/copy/remove/clear with explicit capacity; simulation by sequences.

*Scope.* every history of list operations refines the mathematical sequence; capacity bookkeeping included

*Theorems.* `C12_list_history`, `C12_copy`, `C12_concat`, `C12_capacity`, `C12_equality`

### C13 — List sort (partial)

sort on a list of only numbers (no NaN) or only strings leaves a permutation of the original elements in non-decreasing order, for whatever pivots the random generator picks; a list mixing them raises an error and is left unchanged.

*Model and proof.* `Sort.v`: the quicksort with the pivot as an oracle; permutation and order by induction on fuel.

*Scope.* permutation + order proved for numbers (w.r.t. the double comparison the code uses) and strings, for every pivot oracle that terminates; refuted: ints beyond 2^53 mixed with floats are not ordered exactly, NaN, a perpetually adversarial pivot oracle makes the loop diverge

*Theorems.* `C13_sort_numbers`, `C13_sort_strings`, `C13_sort_safe`, `C13_sort_terminates`, `C13_sort_mixed`, `C13_large_ints_refuted`, `C13_nan_refuted`, `C13_unfair_pivots_refuted`

### C14 — List search and count (proved)

search returns the index of an element equal to the argument or undef if none; count returns the number of equal elements.

*Model and proof.* Loops of list_methods.c transcribed; induction.

*Scope.* search returns the index of an equal element; it is not the first one: refuted (C14_search_first_refuted)

*Theorems.* `C14_search`, `C14_count`, `C14_search_first_refuted`

### C15 — List slicing (proved)

xs[a:b] yields exactly the elements from a up to but excluding b, negative bounds counting from the end and out-of-range bounds clamped, never reading outside the list.

*Model and proof.* C index normalisation in VM.c:622-667; arithmetic.

*Theorems.* `C15_slice`, `C15_slice_elements`

### C16 — String slicing (partial)

s[a:b] yields exactly the bytes from a up to but excluding b under the same conventions as list slicing, never reading outside the string.

*Model and proof.* `Strings.v` keeps parent/offset of substrings, so reading outside is visible as `UB`.

*Scope.* in-range bounds proved; reversed bounds and substrings of substrings read outside the string: refuted by the code

*Theorems.* `C16_index`, `C16_slice_partial`, `C16_order_refuted`, `C16_substring_refuted`

### C17 — String trimming (partial)

trim/ltrim/rtrim with a non-empty needle (or whitespace by default) remove exactly the maximal run of needle copies at the respective end(s), terminate, and never read outside the string.

*Model and proof.* Loops transcribed with size_t arithmetic; induction on the number of needle copies.

*Scope.* ltrim/rtrim proved; trim proved when the string is not entirely consumed; the all-needle string underflows: refuted

*Theorems.* `C17_ltrim`, `C17_rtrim`, `C17_trim_partial`, `C17_ltrim_space`, `C17_rtrim_space`, `C17_trim_space_partial`, `C17_trim_refuted`

### C18 — Split and join are inverse (partial)

For every string s and non-empty separator d, s.split(d) contains no piece in which d occurs and joining the pieces with d gives back s.

*Model and proof.* str_split and list_join transcribed; `joined` as specification.

*Scope.* one-byte separators: proved in full; longer separators: proved up to the loss of at most length-1 trailing bytes, which does happen (C18_split_refuted)

*Theorems.* `C18_split_join_byte`, `C18_split_join_partial`, `C18_split_refuted`, `C18_split_words`, `C18_join`, `C18_join_safe`

### C19 — String search, prefix, suffix and count (partial)

search returns the least index at which the needle occurs (undef if none), startswith/endswith decide prefix/suffix, count is the number of non-overlapping occurrences found left to right.

*Model and proof.* str_find_index and str_count transcribed; least-occurrence specification.

*Scope.* counting the empty needle never returns: refuted; everything else proved

*Theorems.* `C19_search`, `C19_startswith`, `C19_endswith`, `C19_count_partial`, `C19_count_empty_refuted`

### C20 — String replacement (partial)

replace(a,b) substitutes every non-overlapping occurrence of non-empty a, left to right, and leaves all other bytes unchanged; with a limit n at most n occurrences, the leftmost ones, are substituted.

*Model and proof.* str_replace with the limit counter; greedy leftmost specification.

*Scope.* without a limit: proved; with a limit: proved when the limit is non-positive or at least the length; in between refuted (skipped bytes count against the limit)

*Theorems.* `C20_replace`, `C20_replace_limit_partial`, `C20_replace_limit_refuted`

### C21 — String comparison (proved)

< <= > >= on strings are the (bytewise, unsigned) lexicographic order, a total order consistent with ==.

*Model and proof.* str_cmp_ transcribed; lexicographic order as an inductive specification.

*Theorems.* `C21_string_order`, `C21_total_order`

### C22 — String case conversion, predicates, repetition (partial)

toupper/tolower change exactly the ASCII letters of the other case and preserve length; isalnum/isal/isnum/isspace hold exactly when all bytes of the string are in the class (so they hold of the empty string); rep(n) is n copies.

*Model and proof.* ctype functions per byte; induction.

*Scope.* ASCII strings; bytes >= 128 reach isalnum etc. as negative char (undefined): refuted

*Theorems.* `C22_toupper`, `C22_tolower`, `C22_classes_partial`, `C22_isspace`, `C22_non_ascii_refuted`, `C22_rep`

### C23 — Iterating a string visits its bytes (partial)

for c <- s binds c to each one-byte substring of s in order, exactly len(s) times, whatever way s was obtained.

*Model and proof.* ITER on strings as in VM.c:898-918.

*Scope.* strings that own their bytes; substrings iterate over the parent's bytes: refuted

*Theorems.* `C23_iterate_partial`, `C23_substring_refuted`

### C24 — Constant folding preserves meaning (partial)

Replacing an operator applied to literals by its compile-time result gives the same value (type and bits) as executing the operator at run time, and never folds an expression that would raise an error.

*Model and proof.* `Fold.v` transcribes middleend.c; `Ast.eval` is the meaning; induction on expressions.

*Scope.* folding preserves the value of every expression under a guard on the folded operators; the unguarded statement is refuted (=== on int/float literals, ! on a NaN literal, errors in dead code)

*Theorems.* `C24_fold_correct_partial`, `C24_fold_total`, `C24_fold_ub_has_cause`, `C24_dead_code_refuted`, `C24_identity_refuted`, `C24_not_nan_refuted`

### C25 — Expression evaluation is compiled correctly (proved)

Running the compiled code of any expression pushes exactly one value, the value of the expression evaluated left to right, leaves the rest of the stack unchanged and ends just past its own code; short-circuit, ternary and ?? jumps land exactly on the intended instruction.

*Model and proof.* `Compiler.v` emits into a buffer with patched jumps; `Gen.v` gives the code as a function (GenProofs.v), Sim.v simulates `Ast.eval` on the machine of VM.v.

*Scope.* literals, variables, unary, binary, short-circuit, ??, ternary; function calls and collection literals are not in the expression language of the model. Globals are a map in this model; C50 relates it to the hash table (no undef globals).

*Theorems.* `C25_expression`, `C25_compiles`

### C26 — Statements leave the stack balanced (partial)

Executing any statement (blocks, if, while, for, break, continue, let) leaves the value stack at the height it had, so that every local variable keeps denoting its own slot.

*Model and proof.* Same, statements; `Stmt.exec` is the meaning; simulation with an environment/stack relation.

*Scope.* proved when no break/continue leaves the scope of a variable declared inside the loop; otherwise refuted (break, continue, the post clause, surplus values). Globals are a map in this model; C50 relates it to the hash table (no undef globals).

*Theorems.* `C26_balance_partial`, `C26_height_partial`, `C26_break_refuted`, `C26_continue_refuted`, `C26_post_refuted`, `C26_extra_value_refuted`

### C27 — Lexical scoping (proved)

A name denotes the innermost enclosing declaration; two simultaneously live locals of a function never share a slot; re-declaring a name in the same scope and assigning to a const are rejected; leaving a block restores the outer meaning of every name.

*Model and proof.* `CompSpec.legal_program` in terms of names only; equivalence with acceptance by the compiler.

*Scope.* within one function; a legal break in a loop with a literally false condition is rejected and a parse error leaves scopes behind: refuted. Globals are a map in this model; C50 relates it to the hash table (no undef globals).

*Theorems.* `C27_rejects`, `C27_accepts`, `C27_slots`, `C27_block_slots`, `C27_false_loop_refuted`, `C27_parse_error_refuted`

### C28 — Locals beyond 127 (partial)

A function with up to 255 locals reads and writes each local correctly.

*Model and proof.* The operand byte is sign-extended as in VM.c; simulation up to 128 variables, computed refutation beyond.

*Scope.* proved up to 128 locals; the 129th is read at a negative offset: refuted. Globals are a map in this model; C50 relates it to the hash table (no undef globals).

*Theorems.* `C28_read_partial`, `C28_write_partial`, `C28_locals_refuted`

### C29 — Closures capture variables (partial)

A closure's captured variable and the enclosing function's local are the same variable while the enclosing call is active, closures created in the same call share it, and after the call returns the closure keeps the last value.

*Model and proof.* `Closures.v`: open upvalue list, capture, close; histories of operations against a store of shared variables.

*Scope.* Proved for every history of captures, writes, drops and closing returns in which a newly captured variable lies below those captured already and captured variables are dropped only by a closing return. The restrictions are necessary: three refutations (lost sharing, variable left open by a return, variable left open by leaving a block) are proved of the code.

*Theorems.* `C29_history_partial`, `C29_nonvacuous`, `C29_sharing_refuted`, `C29_return_refuted`, `C29_block_refuted`

### C30 — Calls deliver arguments and results (partial)

A YASL function called with k arguments sees exactly its declared parameters (missing ones undef, extra ones dropped unless variadic, in which case all extras are delivered in order), and the caller receives exactly the number of results it asked for (padded with undef or truncated), with the rest of its stack unchanged.

*Model and proof.* `VM.v`/`Calls.v` call protocol; `CallSpec.v` says which arguments and results; arbitrary stacks.

*Scope.* Calls of YASL functions and of fixed-arity host functions proved for all arities, counts and stacks at the level of the call protocol; variadic host functions proved when at least the fixed arguments are passed, and refuted when fewer are passed.

*Theorems.* `C30_call`, `C30_host_fixed`, `C30_host_variadic_partial`, `C30_host_variadic_refuted`

### C31 — Reference counts are exact on the stack (partial)

Pushing, popping, duplicating, swapping and bulk-removing stack values keeps each heap object's reference count equal to the number of references to it, so objects are freed exactly when the last reference goes.

*Model and proof.* `Refs.v`: explicit memory with counts, freeing and use-after-free as `UB`; invariant count = number of references; induction over instruction sequences and over the release recursion.

*Scope.* any instruction sequence of Refs.v (stack operations, constants, globals, loops, lists, tables, metatables, frame exit) whose operands exist: no use after free, counts equal references, objects alive iff referenced; interpreter destruction safe and complete without cycles. Excluded and refuted on concrete runs: list.pop, mt.get on a temporary, failed comparisons; cycles leak; a new object pushed on a full stack leaks. Closures/upvalues and user-defined C functions are not in this model.

*Theorems.* `C31_counts_are_exact`, `C31_cleanup_is_safe`, `C31_cleanup_frees_everything`, `C31_list_pop_leaks_refuted`, `C31_get_metatable_uses_freed_memory_refuted`, `C31_failed_comparison_leaks_refuted`, `C31_cycles_leak_refuted`, `C31_pop_does_not_release`, `C31_overflow_leaks_refuted`

### C32 — Pattern matching (partial)

match selects the first clause whose pattern matches the value: literals by equality, lists element-wise with exact (or at least, with ...) length, tables by presence of keys with matching values, alternatives left to right, bindings bind the corresponding sub-value; matching reads exactly the pattern's own code.

*Model and proof.* `Match.v`: pattern bytecode generator, matcher with its skipping functions, clause jumps; `MatchSpec.pmatch` is the meaning; induction on patterns and clause lists.

*Scope.* match statements compiled to the P_* bytecode and run by the matcher agree with an independent match relation for every value, heap, pattern and clause list, under: no table pattern with entries to the left of | (alts_ok), literal keys, legal patterns, a guarded clause binds nothing or is a non-last single variable (guards_safe), and the encoding limits (128 variables, 1024 stack slots, 16 loops). When no clause applies the matched value stays on the stack (part of the statement). Each restriction is shown necessary by a _refuted theorem on a concrete program: the code misbehaves there.

*Theorems.* `C32_match_partial`, `C32_pattern_partial`, `C32_no_clause_refuted`, `C32_guard_refuted`, `C32_last_guard_refuted`, `C32_missing_key_refuted`, `C32_key_refuted`, `C32_alternatives_refuted`

### C33 — math.gcd and math.lcm (partial)

gcd(a,b) for positive ints is the greatest common divisor and lcm(a,b) the least common multiple whenever it fits; both are undef for non-positive arguments.

*Model and proof.* `MathLib.v`; Euclid by well-founded induction; overflow explicit.

*Scope.* gcd, max, min, abs, isprime proved; lcm only when a*b does not overflow, refuted otherwise

*Theorems.* `C33_gcd`, `C33_gcd_total`, `C33_lcm_partial`, `C33_lcm_refuted`, `C33_max`, `C33_min`, `C33_abs`, `C33_isprime`, `C33_type_errors`

### C34 — Integer arithmetic (proved)

On ints + - * are two's complement (undefined on overflow in C), // truncates toward zero and % has the sign of the dividend with a == (a//b)*b + a%b, division and modulo by zero raise an error, shifts and bit operators act on two's complement bits, mixed int/float arithmetic converts the int to float.

*Model and proof.* `Ops.v` integer operators; Z arithmetic and bit lemmas.

*Scope.* overflow is a distinct UB outcome

*Theorems.* `C34_add_sub_mul`, `C34_division`, `C34_bits`, `C34_closed`, `C34_mixed`, `C34_int_comparison`, `C34_floats`, `C34_int_quotient`, `C34_methods`

### C35 — Constants survive the bytecode (proved)

Each int, float and string literal of a program is loaded at run time with exactly its value; equal literals share an entry, and different literals never do.

*Model and proof.* `Constants.v`: interning in the hash table of C02, the header bytes, vm_setupconstants; round trip.

*Scope.* for literals other than -0.0 (a folded literal) and NaN; -0.0 refuted. Loading a constant by index is part of C25

*Theorems.* `C35_constants_roundtrip`, `C35_entry_point`, `C35_float_bits`, `C35_negative_zero_refuted`

### C36 — Error messages name the right line (proved)

The line number reported for a failing instruction is the source line whose code range contains the instruction.

*Model and proof.* `Lines.v`: the line bytes appended while visiting, vm_getcurrline; induction over the events.

*Scope.* line = the line the compiler was on when it emitted the instruction; reused states (YASL_resetstate) refuted

*Theorems.* `C36_line_of_instruction`, `C36_total`, `C36_reset_refuted`

### C37 — Operator precedence and associativity (proved)

The parser groups binary operators by the documented precedence and associativity: printing any operator tree with only the necessary parentheses and parsing it back gives the same tree; compound assignment x op= e means x = x op e.

*Model and proof.* `Parser.v` on tokens; `ParseSpec.v` is a grammar with levels and a printer; induction on derivations.

*Scope.* Grammar and printer in ParseSpec.v (operators, prefix operators, ternary, parentheses, all statements of the modelled fragment); results are stated up to constant folding (C24), exactly the same tree when no number or bool literal occurs. Calls, indexing, containers and functions: C56.

*Theorems.* `C37_expression`, `C37_round_trip`, `C37_same_tree`, `C37_unambiguous`, `C37_compound`, `C37_compound_forms`, `C37_program`, `C37_text`, `C37_deterministic`, `C37_last_statement_refuted`, `C37_extra_value_refuted`

### C38 — Host API pop functions (partial)

YASL_popint/popfloat/popbool/popcstr remove exactly the top value of the stack and return it when it has the type, and the corresponding peek/is functions never change the stack.

*Model and proof.* `Api.v`; every state, per function.

*Scope.* is/peek functions change nothing (every state); pops of a value of the right type remove exactly it; on another type popint/popfloat/popbool remove nothing although yasl.h says they do: refuted

*Theorems.* `C38_reads_change_nothing`, `C38_pops_remove_the_top`, `C38_pop_mismatch_refuted`

### C39 — Host API container functions (partial)

YASL_listpush/listget/tableset/setglobal/loadglobal/duptop have exactly the documented effect on stack, container and globals, and report type errors without changing any container or global.

*Model and proof.* `Api.v` against the abstract host machine of `ApiSpec.v`; simulation over arbitrary call sequences.

*Scope.* every sequence of API calls refines the abstract machine of ApiSpec.v (stack, lists, tables, globals, metatables), tablenext enumerates; refuted by the code: undef in globals and tableset, setmt with undef, stack effect of failing setglobal and of registermt, errors raised outside execution. Not modelled: functioncall (C29), userdata functions

*Theorems.* `C39_host_history`, `C39_tablenext_enumerates`, `C39_global_undef_refuted`, `C39_tableset_undef_refuted`, `C39_setmt_undef_refuted`, `C39_stack_effects_refuted`, `C39_errors_outside_execution_refuted`

### C40 — Growing byte buffers (proved)

A byte buffer's contents are exactly the concatenation of everything appended, in order, and appending never writes outside the allocated block.

*Model and proof.* `ByteBuffer.v` with capacity and explicit writes; induction over operations.

*Scope.* for buffers created with a positive size (as every caller does)

*Theorems.* `C40_history`, `C40_int_roundtrip`, `C40_size_zero_refuted`

### C41 — Integer text round trip (proved)

Converting any int to a string and parsing it back gives the same int; decimal, hex and binary literals denote their value when it fits.

*Model and proof.* `Text.v`: printf %ld and strtoll as digit functions; induction on digits.

*Scope.* Canonical text, injectivity, round trip, parsing of decimal/hex/binary texts with separators, literals. Refuted detail: underscores in texts of at most two characters. strtoll and printf are modelled after the C standard.

*Theorems.* `C41_text`, `C41_text_injective`, `C41_roundtrip`, `C41_parse_decimal`, `C41_parse_prefixed`, `C41_literal`, `C41_nonvacuous`, `C41_short_refuted`

### C42 — Echo writes the bytes of the string (proved)

echo writes the string's bytes followed by a newline, in order and without loss, to the configured output; NUL bytes are dropped and nothing else.

*Model and proof.* vm_ECHO/strip loop on scratch memory; induction.

*Scope.* For every string below 2^31 bytes, any scratch contents; linked to the echo instruction of the machine model.

*Theorems.* `C42_echo`, `C42_exact`, `C42_instruction`, `C42_nonvacuous`

### C43 — Stack limits are reported (partial)

Pushing beyond the value stack or calling beyond the frame limit raises a stack-overflow error instead of corrupting memory; nested or recursive for loops are safe at any depth.

*Model and proof.* Invariant of every machine step; refutation by a computed program.

*Scope.* Value stack and frame array proved bounded with the overflow reported, for every program and every run; the loop array has no check: refuted, also by a compiled program with nested for loops.

*Theorems.* `C43_bounded`, `C43_push_reported`, `C43_call_reported`, `C43_loops_refuted`, `C43_nested_for_refuted`

### C44 — A compiled program does what its source says (partial)

Compiling a program and running the bytecode produces exactly the output, the final global variables and the error (or normal end) that the source text prescribes: statements in order, the i-th value of a multiple declaration to the i-th target, loops with break and continue, for-in over strings, lists and tables.

*Model and proof.* Composition of C25–C28 with pool, header and loader: compile, load, run.

*Scope.* programs without functions, under the guards of C26 and C28, and at most 16 nested for-in loops. Globals are a map in this model; C50 relates it to the hash table (no undef globals).

*Theorems.* `C44_program_partial`

### C45 — Programs executed on one state (partial)

Several programs executed one after another on the same state each behave as their source says, with the globals left by the previous ones.

*Model and proof.* Histories of executions on one state (`served`).

*Scope.* when the earlier programs declare no top-level locals; refuted otherwise. Globals are a map in this model; C50 relates it to the hash table (no undef globals).

*Theorems.* `C45_next_program_partial`, `C45_second_program_refuted`

### C46 — Concatenation (proved)

a ~ b is the text of a followed by the text of b (undef, true/false, decimal ints, strings as they are); on strings it is associative; if a conversion fails the error of the right operand's conversion, else of the left one's, is raised.

*Model and proof.* vm_CNCT and vm_stringify_top on primitive texts.

*Scope.* For all values with a primitive text (not floats, whose text comes from printf).

*Theorems.* `C46_concat`, `C46_strings`, `C46_errors`, `C46_nonvacuous`

### C47 — The lexer reads back what was written (proved)

For every sequence of tokens, writing them out separated by blanks (ints, identifiers, keywords, operators, string literals with escapes) and lexing the text gives back exactly those tokens with their values, then end of file; comments and blanks between tokens change nothing; line numbers count the newlines passed.

*Model and proof.* `Lexer.v` against the writer of `LexSpec.v`; induction over the token list.

*Scope.* All lexeme kinds except float exponents, digit separators and interpolated strings (the model has them; the theorem's writer does not produce them). C47_exponent_refuted shows what exponents do. Line numbers are included.

*Theorems.* `C47_read_back`, `C47_blanks_irrelevant`, `C47_strings`, `C47_escapes`, `C47_double_quoted`, `C47_interpolation_starts`, `C47_exponent_refuted`

### C48 — The lexer always terminates and reports bad input (proved)

For every input text repeated token requests reach end of file or a syntax error, and no sequence of appends makes the lexer write outside its token-text buffer.

*Model and proof.* Termination measure: the bytes not read yet; capacity invariant of the token buffer.

*Scope.* Termination and final token for all byte strings; the text buffer's capacity logic for all operation sequences.

*Theorems.* `C48_terminates`, `C48_buffer`

### C49 — A program text does what it says (partial)

Executing the text of a program (any layout, blanks and comments; expressions with any legal parentheses) produces the output, final globals and error that its statements prescribe: lexer, parser, constant folder, code generator, constant pool, loader and virtual machine together.

*Model and proof.* Composition of C47, C37, C24 and C44 (Source.v).

*Scope.* Composition of C47, C37, C24 and C44. Missing: what C44 and C24 leave out (break/continue after a declaration in the loop body, constant ===/!==/! on floats, fixed limits) and syntax outside this chain (containers and methods: C57; functions: C58; match: C32). Globals are a map in this model; C50 relates it to the hash table (no undef globals).

*Theorems.* `C49_source_text_partial`, `C49_accepted_partial`

### C50 — Globals are variables (partial)

A global declared by the host keeps the value last assigned to it, by the host or by a program, whatever the other globals are called and however many there are.

*Model and proof.* `Globals.v`: the machine with the hash table of Table.v as globals; simulation with the map machine.

*Scope.* hash-table machine simulates the map machine for every program while no global is undef (up to 2^29 steps); with an undef global the claim is refuted on a program text

*Theorems.* `C50_globals_are_variables`, `C50_undef_global_refuted`

### C51 — Functions mean what they say (partial)

Compiling a program with functions and running it gives the output, final globals and error (or normal end) that the text prescribes: a call evaluates the function, then the arguments from left to right, binds parameters in order (missing ones undef, surplus ones dropped), runs the body with variables of its own, delivers the returned value (undef without a return) and continues after the call with the caller's variables unchanged; functions are values, may be recursive and may read and assign the variables of the file that were declared before them.

*Model and proof.* `FnCompiler.v`: the code generator with functions and captured variables; `Fn.v`: meaning of programs with functions, knowing nothing of bytecode; `FnCode.v`: relational form of the code, proved to describe what the generator emits (`FnGen*.v`); `FnSim*.v`: simulation, mutual induction on expressions, arguments and statements inside an induction on the number of active calls.

*Scope.* programs with named functions, function literals, recursion, functions as values and captured file variables: compiled program and meaning agree for every n (loop iterations), every bound d on active calls and all globals. Restrictions (plain_s): functions do not use variables of enclosing functions or blocks, parameters have different names, one returned value, a const fn does not assign itself; at most 128 variables per frame and 1000 stack slots. Calling a value that is not a function of the program and more than d active calls are not covered. Outside these restrictions five claims are refuted on concrete programs.

*Theorems.* `C51_functions_partial`, `C51_const_fn_refuted`, `C51_params_refuted`, `C51_returned_call_refuted`, `C51_block_capture_refuted`, `C51_early_return_refuted`

### C52 — Lists and tables are objects with contents (partial)

c[k], c[k] = v, len c, list + list, table | table, list and table literals and the methods push, pop, copy, reverse, clear, insert, count, search, keys and values do to the objects exactly what is said of sequences and finite maps (negative positions count from the end; missing keys read as undef; missing arguments are undef): the object named changes and no other, new objects are distinct from all others, and every other use is the documented value or type error with nothing printed or changed; other operators with a container on the left are type errors; a loop over a list sees the list as it is, position by position, and a loop over an unchanged table visits every key once.

*Model and proof.* `Heap.v`: objects, metatables, built-in methods, and the instructions that find and call them, on the machine of VM.v; `HeapSpec.v`: memory as sequences and finite maps by identity; `shows` relates them (tables through the invariant of C02); one lemma per method body, one per instruction.

*Scope.* proved for the machine instructions that evaluate these expressions, over every memory related to the heap by `shows` (which a new state satisfies and every instruction preserves). Not said: keys that are names of methods (refuted: a stored entry under such a name reads as the method), copies of tables (refuted: no metatable), NaN and -0.0 keys, storing undef (C03, C06), indexing functions (refuted: undefined behaviour), the methods join, sort, spread, remove, table copy and clear, and tables of 2^29 entries or more.

*Theorems.* `C52_start`, `C52_get`, `C52_set`, `C52_len`, `C52_concat`, `C52_union`, `C52_list_literal`, `C52_table_literal`, `C52_method`, `C52_no_such_method`, `C52_keys`, `C52_method_key_refuted`, `C52_copy_refuted`, `C52_function_refuted`, `C52_operator`, `C52_type_error`, `C52_unary`, `C52_iterate_list`, `C52_iterate_table`, `C52_not_iterable`

### C53 — Text of lists and tables (partial)

The text of a list or table shows its elements or entries in brackets, separated by commas, recursively; a container inside itself is shown as [...] or {...}; printing always ends, with the text or (when the nesting exceeds the value stack) a stack overflow error, never undefined behaviour; with room for as many values as there are objects it always succeeds.

*Model and proof.* `HeapSpec2.v`: a relation between value and text (order of entries open); induction on the free stack for safety, on the nesting depth for success; a pigeonhole argument bounds the depth by the number of objects.

*Scope.* the text of floats comes from the C library (oracle); functions and user data inside containers are not covered. Refuted: after removing an absent key from an empty table its text is undefined behaviour.

*Theorems.* `C53_echo`, `C53_nesting`, `C53_safe`, `C53_removed_refuted`

### C54 — Equality of lists and tables (partial)

a == b on lists compares lengths and elements in order, on tables the sets of keys and the values under them, recursively to any depth that fits the stack; a list never equals a table; the order in which a table was filled does not matter.

*Model and proof.* `HeapSpec2.equals`: structural equality to a depth; induction on the depth, with entries of tables up to permutation.

*Scope.* equality to every depth n with 3n stack slots and n frames free. Refuted: a list that contains itself does not equal itself (stack overflow error). User data and user-defined __eq are not covered.

*Theorems.* `C54_equal`, `C54_depth`, `C54_cyclic_refuted`

### C55 — Programs with lists and tables mean what they say (partial)

Compiling a program that builds, indexes, changes, compares, iterates over and prints lists and tables (with methods, operators, variables, conditions and loops) and running it gives an output, final globals, final contents of the objects and error (or normal end) that the text allows: expressions are evaluated from left to right, an object is changed wherever it is reachable from, a loop over a list sees it as it is, and the only freedom is the order in which the entries of a table come.

*Model and proof.* `ObjCompiler.v`: the code generator with containers; `Obj.v`: a nondeterministic meaning over memories of sequences and finite maps; `ObjGen*.v`: the code as a function; `ObjSim.v`: simulation: the machine takes one of the allowed results, by induction on expressions and statements with the instruction lemmas of C52-C54; `ObjProg.v`: whole programs.

*Scope.* proved from syntax tree to machine, for every program without functions whose memory stays within the specifications of C52-C54; where those say nothing (method names as keys, unhashable keys, removed entries, too deep a nesting to compare or show, storing into a table during a loop over it) nothing is said from there on. All loops (while, for, for-in) are covered. Not covered: a method call as the last argument of a method call (its values are spread), slices, comprehensions, match, functions. Limits: 128 variables, 16 nested for loops, the value stack.

*Theorems.* `C55_objects_partial`

### C56 — Programs are read as they are written (proved)

The parser reads exactly the program that the text spells, for the whole syntax except match, comprehensions, interpolated strings and modules: calls, methods, fields, indices and slices chain to the left and bind tighter than any operator; every argument, element, entry, bound and parameter ends up where it was written; the last call of an argument, return or declaration list keeps as many values as it should; line ends are allowed where documented; and no text has two readings.

*Model and proof.* `Tree.v`: the syntax tree; `TreeParser.v`: the parser on tokens; `TreeSpec.v`: a grammar as mutually inductive predicates; `TreeProofs*.v`: by induction on derivations, for expressions in the two forms (read up to the end, or read as the left part of a longer one); `TreeFuel.v`: more fuel changes nothing.

*Scope.* Grammar in TreeSpec.v; results are stated with the constants folded (C24), with any amount of fuel of the model from some point on. Refuted details: a line may end before a comma after the first element or entry of a list or table but not after later ones (C56_layout_refuted); an expression as the step of a for is wrapped twice and pops one value too many (C56_step_refuted); let a = 1, 2 is read with two values (C56_extra_value_refuted). Outside the parser model: match, comprehensions, interpolated strings, export, assignments to several places one of which is c[k], statements that start with a function literal.

*Theorems.* `C56_expression`, `C56_program`, `C56_text`, `C56_unambiguous`, `C56_deterministic`, `C56_layout_refuted`, `C56_step_refuted`, `C56_extra_value_refuted`

### C57 — A program text with lists and tables does what it says (partial)

Giving a text to the interpreter that spells, with any layout and comments, a program with lists, tables, methods, indices, assignments to elements, conditions and all kinds of loops, and running it, gives an output, final globals, final contents of the objects and error (or normal end) that the program as written prescribes; the constant folding done on the way cannot be seen.

*Model and proof.* `ObjSource.v`: the chain from text to machine, and the programs of Obj.v as syntax trees; `ObjFold.v`: a folded program has only results the written program has (a relation between expressions preserved by evaluation in every memory); `ObjWritten.v`: what the grammar writes satisfies the shape conditions of C55; then C56 and C55.

*Scope.* Composition of C47, C56, C24 (on this syntax) and C55; the shape the parser gives its trees is derived from the grammar, not assumed. Missing: what C55 leaves open or does not cover (functions, slices, several variables in one declaration, a method call as last argument), constant === / !== on floats and ! of a constant NaN (C24), programs beyond the fixed limits. Which texts are accepted: C57_accepted_partial, C57_rejected_partial (by C60, for the program with its constants folded; the size of the bytecode remains a hypothesis).

*Theorems.* `C57_accepted_partial`, `C57_rejected_partial`, `C57_source_text_partial`

### C58 — A program text with functions does what it says (partial)

Giving a text to the interpreter that spells, with any layout and comments, a program with named functions, function literals, recursion, functions passed and returned as values, variables of the file read and changed by functions, conditions and loops, and running it, gives the output, final globals and error (or normal end) that the program as written prescribes; neither the constant folding nor the way functions are laid out in the code can be seen.

*Model and proof.* `FnSource.v`: the chain from text to machine, and the programs of Fn.v as syntax trees; `FnFold.v`: running a folded program relates to running the written one, the functions in memory having folded bodies (induction on expressions, arguments and statements inside an induction on active calls); `FnWritten.v`: folding the trees gives such a program, and the compiler does not look at labels; then C56 and C51.

*Scope.* Composition of C47, C56, C24 (on this syntax) and C51. Folding is shown to be invisible although it changes the bodies that functions are created with: states are related, not equal. That the compiler ignores the labels that tell the function literals apart is proved. Missing: what C51 leaves out (variables of enclosing functions, several results, break and continue), constant === / !== on floats and ! of a constant NaN (C24), programs beyond the fixed limits. That legal texts are accepted: C58_accepted_partial (the size of the bytecode remains a hypothesis).

*Theorems.* `C58_accepted_partial`, `C58_source_functions_partial`

### C59 — Programs with functions are accepted exactly when their names are used as declared (proved)

Within the fixed limits, the compiler accepts a program with functions, closures and constants if and only if every name used is declared where it is used (in the function, in a function around it, in the file, or as a global), no constant is assigned wherever it was declared, nothing is declared twice in one scope, and return occurs only in functions; any other program is reported as a syntax error. The compiler neither crashes nor reports anything else.

*Model and proof.* `FnLegal.v`: legality in terms of names only; `FnTotal.v`: the scopes of all functions being compiled, innermost first, are related to the names in scope; one mutual induction gives both directions: a legal part compiles and leaves related scopes, an illegal one is a syntax error (so nothing after it matters).

*Scope.* A decision theorem: legal programs compile, the others give ESyntax, for every nesting of functions (C59_accepts, C59_rejects); the specification (FnLegal.v) only speaks of names. The limit of 255 variables is exact (C59_limit). Repeated parameter names are accepted and make variables overlap: C59_same_params_refuted (not part of the claim).

*Theorems.* `C59_accepts`, `C59_rejects`, `C59_limit`, `C59_same_params_refuted`

### C60 — Programs with lists and tables are accepted exactly when their names are used as declared (proved)

Within the fixed limits, the compiler accepts a program with lists, tables, method calls, element assignments, conditions and all kinds of loops if and only if every name used is declared where it is used, no constant is assigned, nothing is declared twice in one scope, the variable of a for loop is used only in its body, and break and continue occur only inside a loop that is not switched off by a literal false or undef condition; any other program is reported as a syntax error. The compiler neither crashes nor reports anything else.

*Model and proof.* `ObjLegal.v`: legality in terms of names and loops only; `ObjTotal.v`: the compiler's scopes are related to the names in scope, the stack of loop checkpoints is empty or has two entries per loop; one induction gives both directions, as for C59.

*Scope.* A decision theorem: legal programs compile, the others give ESyntax (C60_accepts, C60_rejects); the specification (ObjLegal.v) only speaks of names and loops. The shape condition parsed_o is what the parser produces (proved in ObjWritten.v). The limit of 255 variables is exact (C60_limit). Constant folding comes before the compiler and can switch a loop off, so that `while 1 == 2 { break; }` is rejected although it is legal as written: C60_folded_loop_refuted (not part of the claim, which is about the program the compiler is given).

*Theorems.* `C60_accepts`, `C60_rejects`, `C60_limit`, `C60_folded_loop_refuted`

### C61 — Closures and captured variables are released exactly when nothing refers to them (partial)

Whatever closures a program makes, however they share variables with each other and with the functions around them, and however they are stored, returned, called and dropped: a captured variable and its value live as long as the variable itself or some closure over it, nothing freed is ever read or written, nothing is freed while something refers to it, and destroying the interpreter frees every closure and captured variable that is not part of a cycle.

*Model and proof.* `RefClosure.v`: the memory of `Refs.v` with closures and upvalues (open ones name a stack slot); the release of an open upvalue is marked as a watchpoint, so that the restriction can be stated about the run itself. The memory is encoded in that of `Refs.v` (closures and closed upvalues as lists of what they hold), the release recursion is shown to agree with that of C31 under the encoding, and count = number of references is again an invariant of every instruction.

*Scope.* Proved for every instruction sequence of RefClosure.v whose operands exist, provided the last closure over a variable that is still on the stack is never dropped: nothing freed is touched, counts equal references, exactly the referenced objects are alive, and destruction is safe and, without cycles, complete. The restriction is necessary: dropping such a closure takes the value away from the variable, leaves a dangling list entry and undercounts the value (three refutations proved of the code); a variable left open by a return can be freed before it is counted (a fourth). Missing from the model: tables, metatables and loops together with closures (they are in Refs.v, C31), user C functions.

*Theorems.* `C61_counts_are_exact_partial`, `C61_cleanup_is_safe_partial`, `C61_cleanup_frees_everything_partial`, `C61_demo`, `C61_variable_lost_refuted`, `C61_capture_after_drop_refuted`, `C61_double_release_refuted`, `C61_stale_read_refuted`, `C61_recursive_closure_leaks_refuted`

### C62 — An interactive session remembers what was typed before (partial)

Each line typed in the interactive mode is compiled and run with everything the earlier lines declared: a variable or constant declared at the top level of a line can be used in every later line with the value it then has, a constant cannot be assigned later, and no name can be declared twice in a session; blocks, conditions and loops inside a line work as in a file; the last expression of a line is printed and the others are not; a line is accepted if and only if it is legal given the names declared so far; and after each line the machine holds nothing but the values of those names.

*Model and proof.* `Repl.v`: `compile_REPL` and `YASL_execute_REPL` on the compiler and machine of Compiler.v and VM.v; `ReplSpec.v`: what a session means (names, values, output). An empty outermost scope is shown to change nothing for statements that declare only inside blocks (`ReplProofs.v`), so the simulation of Sim.v applies to them; top-level declarations are followed separately (`ReplProofs2.v`, `ReplProofs3.v`); `ReplLegal.v`: the names of the session as one more scope, and totality. The history is an induction over the lines typed.

*Scope.* Proved for every session whose lines so far ended normally: the machine shows the session the lines mean (values, output, empty stack), the next line does what it means in it, and a line is accepted exactly when it is legal with the names of the session as outermost scope (within the limits of item_ok, no break or continue belonging to a loop switched off by a literal, and 2^29 constants per session). Lines of the statement fragment of Stmt.v. A line after one that failed at run time is left out because the statement is then false: the stack is not emptied, and local variables of later lines are read from the wrong slots (C62_after_error_refuted). Missing: lines after a rejected line (the code keeps the names such a line declared before the error).

*Theorems.* `C62_line_partial`, `C62_rejects`, `C62_accepts`, `C62_after_error_refuted`

### C63 — The text of a float and conversions between ints and floats (partial)

tostr of a float is its decimal text: sign, digits without superfluous zeros, a dot and one to six decimals, the nearest such number to the exact value (ties to even), or inf, -inf, nan; a float that is a whole number of millionths is written exactly and different floats are written differently; tofloat of an int below 2^53 in magnitude is written as the int followed by .0, and toint turns it back; toint of any float drops the decimals; tobool of a float is true unless it is NaN.

*Model and proof.* `FloatText.v`: `float64_to_str` with its buffer and its loop over `%f`, on SpecFloat doubles; `FloatTextSpec.v`: what a decimal text denotes and which is nearest. Euclidean division for the rounding, induction on the decimals for the loop.

*Scope.* Proved: every float has the nearest text in millionths, in normal form, without undefined behaviour (the C library's %f is modelled as exact rounding to six decimals, ties to even); whole millionths are written exactly; ints below 2^53 round-trip; toint truncates whenever the result is an int. Refuted by the code: different floats are written differently (only six decimals are kept); toint of floats outside the range of ints, infinities and NaN is undefined behaviour.

*Theorems.* `C63_text`, `C63_exact`, `C63_of_int`, `C63_toint`, `C63_toint_defined`, `C63_distinct_refuted`, `C63_tobool`, `C63_toint_refuted`

### C64 — The program text is read byte for byte (partial)

A program handed over in memory is read byte for byte: reading gives its bytes in order, and past the end reports the end, each time; going back to a position read before replays the same bytes, whatever was read in between; so the tokens, values and line numbers of the program are those of its byte sequence, although the lexer keeps stepping back in the text, and nothing outside the text is read; and this for every text, however long.

*Model and proof.* `LexInput.v`: the reader with position and flag, and the lexer reading through it; invariant: position and character stand for a remaining list of bytes; each lexer function is related to its counterpart over lists in Lexer.v.

*Scope.* Proved for every text of fewer than 2^31 bytes, for the reader and for the whole lexer on it: the tokens agree with those of the lexer over lists of bytes that C47, C48, C49, C56-C58 use (where the lexer reports an error, only the fact is compared), and no read is outside the text. Refuted by the code for texts of 2^31 bytes or more: the reader compares its position with the length converted to int, so such a text is taken to be empty, without any error (C64_long_refuted, up to 2^32 bytes). Files read with fgetc/fseek are not modelled.

*Theorems.* `C64_reads`, `C64_replay`, `C64_tokens`, `C64_read_back`, `C64_long_refuted`

### C65 — String interpolation (partial)

A string in double quotes with expressions in #{ and } means its parts joined with ~ in the order written: text, expression, text, and so on, where each expression may be any expression in any layout, comments and newlines included, the texts keep their escapes, and what follows the string is read as if a plain string stood there; a string whose interpolation is not closed, or that contains anything other than one expression between the braces, is rejected.

*Model and proof.* `Interp.v`: parse_string with the lexer of LexInput.v and the expression parser of TreeParser.v. The lexer is related token by token to the lexer over lists (C64), the expression is read by C56, and induction over the interpolations carries position, flag and accumulated concatenation.

*Scope.* Proved for every text below 2^31 bytes, every position in it and every expression of the grammar of TreeSpec.v (so without interpolated strings inside the braces): the parser yields the concatenation with folded constants, reads on directly after the closing quote, and line numbers are right; that concatenation is the very tree the parser reads from the text with ~ and parentheses written out (C65_written_out). Refuted by the code: the closing brace may be missing after a name or number ("#{x y}" means "" ~ x ~ "}", and y is lost, C65_missing_brace_refuted); a string with an interpolation cannot stand first in an interpolation (C65_nested_refuted). Not modelled: interpolated strings nested further inside. parse_string is proved on its own; the whole-program parser (C56-C58) still treats an interpolated string as outside.

*Theorems.* `C65_interpolation`, `C65_written_out`, `C65_missing_brace_refuted`, `C65_nested_refuted`

### C66 — Files (partial)

io.open accepts exactly the modes r, w, a, each with or without +, and opens a file for reading and writing as they say; read gives the lines of a file one after another, of any length and without their newlines, and with 'a' the whole content from any position; write puts exactly the bytes of the string at the position, or at the end in append mode, gives their number and changes nothing else; seek moves to a position if it is a possible one and otherwise returns false and changes nothing; reading, positioning and flushing never change a content; wrong arguments are type errors and unknown modes value errors; what was written and closed is what is read later; files can be closed, and reading and writing can be mixed.

*Model and proof.* `Io.v`: a C stream as content, position, modes and the kind of the last operation (so that what ISO C leaves undefined is UB); the library functions on it; induction over lines, bytes and writes.

*Scope.* On a model of the C library's streams for one regular file at a time, without device errors. Proved: modes, opening, reading by lines and whole, the exact effect of write on every byte, seek, and the round trip write-close-open-read for w and a. Refuted by the code: a string is written only up to its first zero byte (C66_zero_byte_refuted); a closed file is closed a second time when the value is released, which is undefined (C66_close_refuted); a line read directly after a write or a write directly after reading a line, and read 'a' on a file opened for writing only, are undefined (C66_mixing_refuted); the end of the file looks like an empty line (C66_end_refuted). Not modelled: stdin, stdout, stderr, several open files on the same name, the order of evaluation of messages.

*Theorems.* `C66_modes`, `C66_open`, `C66_lines`, `C66_read_all`, `C66_write`, `C66_seek`, `C66_round_trip`, `C66_reads_keep`, `C66_arguments`, `C66_zero_byte_refuted`, `C66_close_refuted`, `C66_mixing_refuted`, `C66_end_refuted`

### C67 — Argument checks of C functions (partial)

A C function that checks an argument as int, float, bool, undef or userdata with a given tag gets the value of exactly that argument if it is of that type, and nothing changes; otherwise the check ends in a type error whose message names the function, the position, the type that is expected and the type the argument has.

*Model and proof.* `ArgCheck.v`: the checks on the state of Api.v, with the bytes of the message; by cases on the value.

*Scope.* Proved: right arguments pass with their value; wrong ones give a type error with the whole message, for undef and userdata always and for int, float and bool for the last argument. Refuted by the code: for int, float and bool the message names the type of the value on top of the stack instead of that of the argument (C67_message_refuted): f('a', 1) can complain that it expected an int and got an int. The line number and call trace after the message are not modelled.

*Theorems.* `C67_passes`, `C67_fails`, `C67_message_refuted`

### C68 — Captured output and error messages (partial)

A host that asks for the program's output gets, whenever it asks, exactly what was printed since it turned capturing on, in order, over any number of programs, and nothing of it goes to stdout, while everything printed before went there; the same holds for error messages, those of the compiler if compiling the current program failed and those of the machine otherwise.

*Model and proof.* `Capture.v`: the three streams of a state with the memory of their strings (uninitialised cells, bounds); invariant: memory holds the text so far and at most one byte more; induction over histories.

*Scope.* Proved for every history: the program's output (with resets), memory safety of the growing buffer, and error messages as long as the state is not reset. Refuted by the code: resetting the state makes a new lexer with a new stream, so the compiler's messages of the next program go to stderr although the host has asked for them, and it gets an empty string (C68_reset_refuted). Formatting (vsnprintf) is not modelled: texts are its results; a null buffer of length zero is taken to be the empty string.

*Theorems.* `C68_output`, `C68_no_capture`, `C68_errors`, `C68_reset_refuted`

### C69 — Metatables (partial)

mt.set accepts user data, a list or a table together with a table and nothing else (a type error otherwise), returns the value and changes nothing but its metatable; mt.get then gives that table. What is indexed in the value afterwards is found in the metatable first and then in the value if it is a table; its methods and metamethods are those of the metatable and no others (the built-in ones included), and the metatable's own metatable is not asked. Undef, booleans, numbers and strings share one metatable per type. Getting never fails.

*Model and proof.* `Mt.v`: the two functions on the memory of Heap.v; by cases on the value, then the hash table lemmas of C05 for what is found.

*Scope.* Proved for every memory: what mt.set accepts and changes, mt.get after it, what indexing and method lookup find (C69_index for metatables without __get; a __get in YASL code is outside Heap.v), no chain of metatables, sharing. Refuted by the code: mt.get of a function reads an entry of builtins_htable that is never initialised (C69_function_refuted). Reference counts of the popped values are not modelled.

*Theorems.* `C69_set`, `C69_get_set`, `C69_set_frame`, `C69_get_new`, `C69_get_type`, `C69_set_again`, `C69_shared`, `C69_method`, `C69_no_chain`, `C69_index`, `C69_function_refuted`, `C69_empty`

### C70 — Finding packages (proved)

Requiring a package tries exactly the file names that result from putting the name for the mark in each template of the search path, in the order of the path, and then the name itself, and stops at the first that can be opened; whatever the name and its length, building the file names reads and writes only its own memory. With the built-in paths, require(s) tries /usr/local/lib/yasl/s.yasl, ./s.yasl and s.

*Model and proof.* `Require.v`: C strings as lists with their zero byte, a buffer of cells that may be uninitialised with bounds, size_t differences that wrap are UB; the pass of the loop is computed on a template, induction over the path.

*Scope.* For every path of well-formed templates and every string; what is after the last semicolon is ignored. The name is cut at its first zero byte (C70_zero_byte_refuted), and a path that has a template without a mark, which only a changed configuration can have, is undefined (C70_unmarked_refuted, C70_unmarked2_refuted). search_on_path is modelled as on Unix (on Windows the last attempt opens the path instead of the name). Running the module is not modelled.

*Theorems.* `C70_search`, `C70_require`, `C70_require_c`, `C70_first`, `C70_zero_byte_refuted`, `C70_unmarked_refuted`, `C70_unmarked2_refuted`

## Findings (each is a theorem `…_refuted` about the model, named in MANIFEST.json)

* Tables and sets: removing an absent key still decrements the length; tombstones can fill a table so that a lookup of an absent key
  never returns; `clear` makes the capacity composite.
* Strings: slices with reversed bounds and slices of slices read outside the string; `trim` of an all-needle string underflows; `split` with a
  multi-byte separator loses trailing bytes; `count("")` does not return; `replace` with a limit counts skipped bytes; iteration over a substring
  visits the parent's bytes; character predicates pass negative values to `isalnum`.
* Compiler: `break`/`continue` past a declaration leave the variable on the stack; more than 128 locals read at negative offsets; a legal
  `break` in a `while false` loop is rejected; parse errors leave scopes behind; a second program on a state with top-level locals misreads its
  variables.
* Compiler: constant folding can switch a loop off, and then its `break` is reported as being outside a loop: `while 1 == 2 { break; }` is a syntax error (C60_folded_loop_refuted).
* Compiler: repeated parameter names are accepted and make the function's variables overlap (C59_same_params_refuted).
* Machine: nested `for` loops beyond 16 write past the loop array; captured variables are closed only if captured in the right order, and not at
  all when a block (rather than the function) is left; variadic host functions called with too few arguments misread the stack.
* Match: table patterns inside `|` and guards with bindings misbehave.
* Reference counts: `list.pop` leaks, `mt.get` on a temporary and failed comparisons use freed or leak objects; cycles leak.
* Closures: dropping the last closure over a variable that is still in use takes its value away (`let x = 'a' ~ 'b'; let g = fn() { return x; }; g = undef; echo x` prints undef), leaves a freed entry in the list of open
  variables, and undercounts values held elsewhere; a variable left open by a return can be freed before it is counted (C61_…_refuted).
* Interactive mode: after a line that failed, local variables of later lines are read from the wrong stack slots: `echo 1 + (2 + undef)` and then `{ let a = 5; echo a; }` prints 1 (C62_after_error_refuted).
* Floats: only six decimals are written, so different floats look equal; `toint` of a large float, an infinity or a NaN is an undefined C conversion (C63_…_refuted).
* Lexer: a program of 2 GiB or more is read as an empty one, without an error (C64_long_refuted).
* Interpolation: `"#{x y}"` is accepted and means `x ~ '}'`, y is lost; `"#{"a#{b}"}"` is rejected (C65_…_refuted).
* Files: `f->close()` followed by the release of f closes the stream twice; write stops at a zero byte; read('a') on a file opened with w or a returns uninitialised memory (C66_…_refuted).
* API: YASLX_checknint, checknfloat and checknbool report the type of the top of the stack instead of the argument's (C67_message_refuted).
* API: after YASL_resetstate the compiler's messages are no longer captured (C68_reset_refuted).
* Metatables: mt.get of a function reads an array entry that was never written (C69_function_refuted).
* Packages: a zero byte ends the name (C70_zero_byte_refuted); a configured path with a template without ? is undefined behaviour (C70_unmarked_refuted).
* API: popping a wrong type leaves the value; undef globals; error reporting outside execution.
