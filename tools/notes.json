{
 "C01": {
  "status": "proved",
  "note": "round trip, exact consumption, minimal length, never more than 10 bytes"
 },
 "C02": {
  "status": "proved",
  "note": "refinement to a finite map for every history (partial correctness for any fuel) and totality for insertion-only histories; ill-behaved keys (-0.0, NaN, undef) refuted"
 },
 "C03": {
  "status": "partial",
  "note": "present keys proved; removal of an absent key changes the length: refuted by the code"
 },
 "C04": {
  "status": "proved",
  "note": "under the property's own guard that only present keys are removed"
 },
 "C05": {
  "status": "proved",
  "note": ""
 },
 "C06": {
  "status": "partial",
  "note": "false in general (tombstones fill the table; t.clear() makes the capacity composite): refuted; proved while a never-used slot remains, and for insertion-only histories in C02_insertions_total"
 },
 "C07": {
  "status": "proved",
  "note": "for any floor-sqrt within [isqrt x, x)"
 },
 "C09": {
  "status": "partial",
  "note": "== on primitive values proved equal to the specification; transitivity of == and identity of === on floats refuted by the code (double rounding, 0.0/-0.0)"
 },
 "C10": {
  "status": "proved",
  "note": "truthiness and ! on every value; short-circuit on compiled code: the right operand is evaluated exactly when the left one does not decide, the result is one of the operands"
 },
 "C21": {
  "status": "proved",
  "note": ""
 },
 "C34": {
  "status": "proved",
  "note": "overflow is a distinct UB outcome"
 },
 "C24": {
  "status": "partial",
  "note": "folding preserves the value of every expression under a guard on the folded operators; the unguarded statement is refuted (=== on int/float literals, ! on a NaN literal, errors in dead code)"
 },
 "C33": {
  "status": "partial",
  "note": "gcd, max, min, abs, isprime proved; lcm only when a*b does not overflow, refuted otherwise"
 },
 "C40": {
  "status": "proved",
  "note": "for buffers created with a positive size (as every caller does)"
 },
 "C35": {
  "status": "proved",
  "note": "for literals other than -0.0 (a folded literal) and NaN; -0.0 refuted. Loading a constant by index is part of C25"
 },
 "C36": {
  "status": "proved",
  "note": "line = the line the compiler was on when it emitted the instruction; reused states (YASL_resetstate) refuted"
 },
 "C11": {
  "status": "proved",
  "note": ""
 },
 "C12": {
  "status": "proved",
  "note": "every history of list operations refines the mathematical sequence; capacity bookkeeping included"
 },
 "C13": {
  "status": "partial",
  "note": "permutation + order proved for numbers (w.r.t. the double comparison the code uses) and strings, for every pivot oracle that terminates; refuted: ints beyond 2^53 mixed with floats are not ordered exactly, NaN, a perpetually adversarial pivot oracle makes the loop diverge"
 },
 "C14": {
  "status": "proved",
  "note": "search returns the index of an equal element; it is not the first one: refuted (C14_search_first_refuted)"
 },
 "C15": {
  "status": "proved",
  "note": ""
 },
 "C16": {
  "status": "partial",
  "note": "in-range bounds proved; reversed bounds and substrings of substrings read outside the string: refuted by the code"
 },
 "C17": {
  "status": "partial",
  "note": "ltrim/rtrim proved; trim proved when the string is not entirely consumed; the all-needle string underflows: refuted"
 },
 "C18": {
  "status": "partial",
  "note": "one-byte separators: proved in full; longer separators: proved up to the loss of at most length-1 trailing bytes, which does happen (C18_split_refuted)"
 },
 "C19": {
  "status": "partial",
  "note": "counting the empty needle never returns: refuted; everything else proved"
 },
 "C20": {
  "status": "partial",
  "note": "without a limit: proved; with a limit: proved when the limit is non-positive or at least the length; in between refuted (skipped bytes count against the limit)"
 },
 "C22": {
  "status": "partial",
  "note": "ASCII strings; bytes >= 128 reach isalnum etc. as negative char (undefined): refuted"
 },
 "C23": {
  "status": "partial",
  "note": "strings that own their bytes; substrings iterate over the parent's bytes: refuted"
 },
 "C25": {
  "status": "proved",
  "note": "literals, variables, unary, binary, short-circuit, ??, ternary; function calls and collection literals are not in the expression language of the model. Globals are a map in this model; C50 relates it to the hash table (no undef globals)."
 },
 "C26": {
  "status": "partial",
  "note": "proved when no break/continue leaves the scope of a variable declared inside the loop; otherwise refuted (break, continue, the post clause, surplus values). Globals are a map in this model; C50 relates it to the hash table (no undef globals)."
 },
 "C27": {
  "status": "proved",
  "note": "within one function; a legal break in a loop with a literally false condition is rejected and a parse error leaves scopes behind: refuted. Globals are a map in this model; C50 relates it to the hash table (no undef globals)."
 },
 "C28": {
  "status": "partial",
  "note": "proved up to 128 locals; the 129th is read at a negative offset: refuted. Globals are a map in this model; C50 relates it to the hash table (no undef globals)."
 },
 "C44": {
  "status": "partial",
  "note": "programs without functions, under the guards of C26 and C28, and at most 16 nested for-in loops. Globals are a map in this model; C50 relates it to the hash table (no undef globals)."
 },
 "C45": {
  "status": "partial",
  "note": "when the earlier programs declare no top-level locals; refuted otherwise. Globals are a map in this model; C50 relates it to the hash table (no undef globals)."
 },
 "C29": {
  "status": "partial",
  "note": "Proved for every history of captures, writes, drops and closing returns in which a newly captured variable lies below those captured already and captured variables are dropped only by a closing return. The restrictions are necessary: three refutations (lost sharing, variable left open by a return, variable left open by leaving a block) are proved of the code."
 },
 "C30": {
  "status": "partial",
  "note": "Calls of YASL functions and of fixed-arity host functions proved for all arities, counts and stacks at the level of the call protocol; variadic host functions proved when at least the fixed arguments are passed, and refuted when fewer are passed."
 },
 "C43": {
  "status": "partial",
  "note": "Value stack and frame array proved bounded with the overflow reported, for every program and every run; the loop array has no check: refuted, also by a compiled program with nested for loops."
 },
 "C41": {
  "status": "proved",
  "note": "Canonical text, injectivity, round trip, parsing of decimal/hex/binary texts with separators, literals. Refuted detail: underscores in texts of at most two characters. strtoll and printf are modelled after the C standard."
 },
 "C42": {
  "status": "proved",
  "note": "For every string below 2^31 bytes, any scratch contents; linked to the echo instruction of the machine model."
 },
 "C46": {
  "status": "proved",
  "note": "For all values with a primitive text (not floats, whose text comes from printf)."
 },
 "C47": {
  "status": "proved",
  "note": "All lexeme kinds except float exponents, digit separators and interpolated strings (the model has them; the theorem's writer does not produce them). C47_exponent_refuted shows what exponents do. Line numbers are included."
 },
 "C48": {
  "status": "proved",
  "note": "Termination and final token for all byte strings; the text buffer's capacity logic for all operation sequences."
 },
 "C37": {
  "status": "proved",
  "note": "Grammar and printer in ParseSpec.v (operators, prefix operators, ternary, parentheses, all statements of the modelled fragment); results are stated up to constant folding (C24), exactly the same tree when no number or bool literal occurs. Calls, indexing, containers and functions: C56."
 },
 "C49": {
  "status": "partial",
  "note": "Composition of C47, C37, C24 and C44. Missing: what C44 and C24 leave out (break/continue after a declaration in the loop body, constant ===/!==/! on floats, fixed limits) and syntax outside this chain (containers and methods: C57; functions: C58; match: C32). Globals are a map in this model; C50 relates it to the hash table (no undef globals)."
 },
 "C08": {
  "status": "proved",
  "note": "refinement to mathematical sets for every history of additions and removals, operators, constructors, comparisons (lengths guarded by: only members removed), totality for insertion-built sets; refuted by the code outside the guards: 1 with 1.0, removal of non-members, clear() of large sets, tombstone loops"
 },
 "C38": {
  "status": "partial",
  "note": "is/peek functions change nothing (every state); pops of a value of the right type remove exactly it; on another type popint/popfloat/popbool remove nothing although yasl.h says they do: refuted"
 },
 "C39": {
  "status": "partial",
  "note": "every sequence of API calls refines the abstract machine of ApiSpec.v (stack, lists, tables, globals, metatables), tablenext enumerates; refuted by the code: undef in globals and tableset, setmt with undef, stack effect of failing setglobal and of registermt, errors raised outside execution. Not modelled: functioncall (C29), userdata functions"
 },
 "C50": {
  "status": "partial",
  "note": "hash-table machine simulates the map machine for every program while no global is undef (up to 2^29 steps); with an undef global the claim is refuted on a program text"
 },
 "C32": {
  "status": "partial",
  "note": "match statements compiled to the P_* bytecode and run by the matcher agree with an independent match relation for every value, heap, pattern and clause list, under: no table pattern with entries to the left of | (alts_ok), literal keys, legal patterns, a guarded clause binds nothing or is a non-last single variable (guards_safe), and the encoding limits (128 variables, 1024 stack slots, 16 loops). When no clause applies the matched value stays on the stack (part of the statement). Each restriction is shown necessary by a _refuted theorem on a concrete program: the code misbehaves there."
 },
 "C31": {
  "status": "partial",
  "note": "any instruction sequence of Refs.v (stack operations, constants, globals, loops, lists, tables, metatables, frame exit) whose operands exist: no use after free, counts equal references, objects alive iff referenced; interpreter destruction safe and complete without cycles. Excluded and refuted on concrete runs: list.pop, mt.get on a temporary, failed comparisons; cycles leak; a new object pushed on a full stack leaks. Closures/upvalues and user-defined C functions are not in this model."
 },
 "C51": {
  "status": "partial",
  "note": "programs with named functions, function literals, recursion, functions as values and captured file variables: compiled program and meaning agree for every n (loop iterations), every bound d on active calls and all globals. Restrictions (plain_s): functions do not use variables of enclosing functions or blocks, parameters have different names, one returned value, a const fn does not assign itself; at most 128 variables per frame and 1000 stack slots. Calling a value that is not a function of the program and more than d active calls are not covered. Outside these restrictions five claims are refuted on concrete programs."
 },
 "C52": {
  "status": "partial",
  "note": "proved for the machine instructions that evaluate these expressions, over every memory related to the heap by `shows` (which a new state satisfies and every instruction preserves). Not said: keys that are names of methods (refuted: a stored entry under such a name reads as the method), copies of tables (refuted: no metatable), NaN and -0.0 keys, storing undef (C03, C06), indexing functions (refuted: undefined behaviour), the methods join, sort, spread, remove, table copy and clear, and tables of 2^29 entries or more."
 },
 "C53": {
  "status": "partial",
  "note": "the text of floats comes from the C library (oracle); functions and user data inside containers are not covered. Refuted: after removing an absent key from an empty table its text is undefined behaviour."
 },
 "C54": {
  "status": "partial",
  "note": "equality to every depth n with 3n stack slots and n frames free. Refuted: a list that contains itself does not equal itself (stack overflow error). User data and user-defined __eq are not covered."
 },
 "C55": {
  "status": "partial",
  "note": "proved from syntax tree to machine, for every program without functions whose memory stays within the specifications of C52-C54; where those say nothing (method names as keys, unhashable keys, removed entries, too deep a nesting to compare or show, storing into a table during a loop over it) nothing is said from there on. All loops (while, for, for-in) are covered. Not covered: a method call as the last argument of a method call (its values are spread), slices, comprehensions, match, functions. Limits: 128 variables, 16 nested for loops, the value stack."
 },
 "C56": {
  "status": "proved",
  "note": "Grammar in TreeSpec.v; results are stated with the constants folded (C24), with any amount of fuel of the model from some point on. Refuted details: a line may end before a comma after the first element or entry of a list or table but not after later ones (C56_layout_refuted); an expression as the step of a for is wrapped twice and pops one value too many (C56_step_refuted); let a = 1, 2 is read with two values (C56_extra_value_refuted). Outside the parser model: match, comprehensions, interpolated strings, export, assignments to several places one of which is c[k], statements that start with a function literal."
 },
 "C57": {
  "status": "partial",
  "note": "Composition of C47, C56, C24 (on this syntax) and C55; the shape the parser gives its trees is derived from the grammar, not assumed. Missing: what C55 leaves open or does not cover (functions, slices, several variables in one declaration, a method call as last argument), constant === / !== on floats and ! of a constant NaN (C24), programs beyond the fixed limits. Which texts are accepted: C57_accepted_partial, C57_rejected_partial (by C60, for the program with its constants folded; the size of the bytecode remains a hypothesis)."
 },
 "C58": {
  "status": "partial",
  "note": "Composition of C47, C56, C24 (on this syntax) and C51. Folding is shown to be invisible although it changes the bodies that functions are created with: states are related, not equal. That the compiler ignores the labels that tell the function literals apart is proved. Missing: what C51 leaves out (variables of enclosing functions, several results, break and continue), constant === / !== on floats and ! of a constant NaN (C24), programs beyond the fixed limits. That legal texts are accepted: C58_accepted_partial (the size of the bytecode remains a hypothesis)."
 },
 "C59": {
  "status": "proved",
  "note": "A decision theorem: legal programs compile, the others give ESyntax, for every nesting of functions (C59_accepts, C59_rejects); the specification (FnLegal.v) only speaks of names. The limit of 255 variables is exact (C59_limit). Repeated parameter names are accepted and make variables overlap: C59_same_params_refuted (not part of the claim)."
 },
 "C60": {
  "status": "proved",
  "note": "A decision theorem: legal programs compile, the others give ESyntax (C60_accepts, C60_rejects); the specification (ObjLegal.v) only speaks of names and loops. The shape condition parsed_o is what the parser produces (proved in ObjWritten.v). The limit of 255 variables is exact (C60_limit). Constant folding comes before the compiler and can switch a loop off, so that `while 1 == 2 { break; }` is rejected although it is legal as written: C60_folded_loop_refuted (not part of the claim, which is about the program the compiler is given)."
 },
 "C61": {
  "status": "partial",
  "note": "Proved for every instruction sequence of RefClosure.v whose operands exist, provided the last closure over a variable that is still on the stack is never dropped: nothing freed is touched, counts equal references, exactly the referenced objects are alive, and destruction is safe and, without cycles, complete. The restriction is necessary: dropping such a closure takes the value away from the variable, leaves a dangling list entry and undercounts the value (three refutations proved of the code); a variable left open by a return can be freed before it is counted (a fourth). Missing from the model: tables, metatables and loops together with closures (they are in Refs.v, C31), user C functions."
 },
 "C62": {
  "status": "partial",
  "note": "Proved for every session whose lines so far ended normally: the machine shows the session the lines mean (values, output, empty stack), the next line does what it means in it, and a line is accepted exactly when it is legal with the names of the session as outermost scope (within the limits of item_ok, no break or continue belonging to a loop switched off by a literal, and 2^29 constants per session). Lines of the statement fragment of Stmt.v. A line after one that failed at run time is left out because the statement is then false: the stack is not emptied, and local variables of later lines are read from the wrong slots (C62_after_error_refuted). Missing: lines after a rejected line (the code keeps the names such a line declared before the error)."
 },
 "C63": {
  "status": "partial",
  "note": "Proved: every float has the nearest text in millionths, in normal form, without undefined behaviour (the C library's %f is modelled as exact rounding to six decimals, ties to even); whole millionths are written exactly; ints below 2^53 round-trip; toint truncates whenever the result is an int. Refuted by the code: different floats are written differently (only six decimals are kept); toint of floats outside the range of ints, infinities and NaN is undefined behaviour."
 },
 "C64": {
  "status": "partial",
  "note": "Proved for every text of fewer than 2^31 bytes, for the reader and for the whole lexer on it: the tokens agree with those of the lexer over lists of bytes that C47, C48, C49, C56-C58 use (where the lexer reports an error, only the fact is compared), and no read is outside the text. Refuted by the code for texts of 2^31 bytes or more: the reader compares its position with the length converted to int, so such a text is taken to be empty, without any error (C64_long_refuted, up to 2^32 bytes). Files read with fgetc/fseek are not modelled."
 },
 "C65": {
  "status": "partial",
  "note": "Proved for every text below 2^31 bytes, every position in it and every expression of the grammar of TreeSpec.v (so without interpolated strings inside the braces): the parser yields the concatenation with folded constants, reads on directly after the closing quote, and line numbers are right; that concatenation is the very tree the parser reads from the text with ~ and parentheses written out (C65_written_out). Refuted by the code: the closing brace may be missing after a name or number (\"#{x y}\" means \"\" ~ x ~ \"}\", and y is lost, C65_missing_brace_refuted); a string with an interpolation cannot stand first in an interpolation (C65_nested_refuted). Not modelled: interpolated strings nested further inside. parse_string is proved on its own; the whole-program parser (C56-C58) still treats an interpolated string as outside."
 },
 "C66": {
  "status": "partial",
  "note": "On a model of the C library's streams for one regular file at a time, without device errors. Proved: modes, opening, reading by lines and whole, the exact effect of write on every byte, seek, and the round trip write-close-open-read for w and a. Refuted by the code: a string is written only up to its first zero byte (C66_zero_byte_refuted); a closed file is closed a second time when the value is released, which is undefined (C66_close_refuted); a line read directly after a write or a write directly after reading a line, and read 'a' on a file opened for writing only, are undefined (C66_mixing_refuted); the end of the file looks like an empty line (C66_end_refuted). Not modelled: stdin, stdout, stderr, several open files on the same name, the order of evaluation of messages."
 },
 "C67": {
  "status": "partial",
  "note": "Proved: right arguments pass with their value; wrong ones give a type error with the whole message, for undef and userdata always and for int, float and bool for the last argument. Refuted by the code: for int, float and bool the message names the type of the value on top of the stack instead of that of the argument (C67_message_refuted): f('a', 1) can complain that it expected an int and got an int. The line number and call trace after the message are not modelled."
 },
 "C68": {
  "status": "partial",
  "note": "Proved for every history: the program's output (with resets), memory safety of the growing buffer, and error messages as long as the state is not reset. Refuted by the code: resetting the state makes a new lexer with a new stream, so the compiler's messages of the next program go to stderr although the host has asked for them, and it gets an empty string (C68_reset_refuted). Formatting (vsnprintf) is not modelled: texts are its results; a null buffer of length zero is taken to be the empty string."
 },
 "C69": {
  "status": "partial",
  "note": "Proved for every memory: what mt.set accepts and changes, mt.get after it, what indexing and method lookup find (C69_index for metatables without __get; a __get in YASL code is outside Heap.v), no chain of metatables, sharing. Refuted by the code: mt.get of a function reads an entry of builtins_htable that is never initialised (C69_function_refuted). Reference counts of the popped values are not modelled."
 },
 "C70": {
  "status": "proved",
  "note": "For every path of well-formed templates and every string; what is after the last semicolon is ignored. The name is cut at its first zero byte (C70_zero_byte_refuted), and a path that has a template without a mark, which only a changed configuration can have, is undefined (C70_unmarked_refuted, C70_unmarked2_refuted). search_on_path is modelled as on Unix (on Windows the last attempt opens the path instead of the name). Running the module is not modelled."
 }
}