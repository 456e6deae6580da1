import json
P=[]
def p(id,title,statement,quant,why,anchors): P.append(dict(id=id,title=title,statement=statement,quantifier=quant,why_tests_cant=why,anchors=anchors))

p("C01","Variable-length integers round-trip",
 "Every unsigned 64-bit value written to the bytecode's line table in the variable-length encoding is read back unchanged, the decoder consumes exactly the bytes the encoder produced whatever follows them, the encoding never needs more than 10 bytes (so the 12-byte scratch buffer never overflows), and it is never longer than necessary.",
 "all unsigned 64-bit values and all trailing byte sequences","2^64 inputs and arbitrary suffixes; a test samples a few boundaries",
 ["util/varint.c:vint_encode","util/varint.c:vint_decode","util/varint.c:vint_next"])
p("C02","Table set/get behaves as a finite map",
 "For a table used only with well-behaved keys (not undef, NaN or mixed -0.0/0.0) and non-undef values, after any sequence of insertions and assignments, reading a key yields the value most recently stored under an equal key of the same type, and an absent result when the key was never stored; an int key and a float key are different keys.",
 "all finite sequences of set operations and all query keys, for every hash collision pattern and every resize point","the number of histories, collisions and resize points is unbounded",
 ["data-structures/YASL_Table.c:YASL_Table_insert_fast","data-structures/YASL_Table.c:YASL_Table_search","util/hash_function.c:get_hash"])
p("C03","Table removal",
 "Removing a key from a table makes that key (and only that key) absent, and removing a key that is not present leaves the table unchanged, including its length.",
 "all tables reachable by any history of insertions and removals, all keys","unbounded histories; only long insert/remove cycles expose the accumulation of tombstones, only absent keys expose the count",
 ["data-structures/YASL_Table.c:YASL_Table_rm","interpreter/table_methods.c:table_remove"])
p("C04","Table length is the number of stored keys",
 "len of a table equals the number of distinct keys currently stored, after any history of insertions, overwrites and removals of present keys.",
 "all histories of set/remove-present","unbounded histories and collision patterns",
 ["data-structures/YASL_Table.c:YASL_Table_insert_fast","data-structures/YASL_Table.c:YASL_Table_rm","interpreter/VM.c:O_LEN"])
p("C05","Table iteration enumerates each entry exactly once",
 "Iterating a table with a for loop, with keys()/values(), or with YASL_tablenext visits every stored key exactly once, paired with its stored value, never visits removed entries, and stops.",
 "all reachable tables","depends on slot layout, tombstones and size; unbounded",
 ["interpreter/VM.c:vm_ITER_1","yasl.c:YASL_tablenext","interpreter/table_methods.c:table_keys","data-structures/YASL_Table.h:FOR_TABLE"])
p("C06","Table operations terminate",
 "Every table lookup, insertion and removal terminates after at most as many probes as the table has slots.",
 "all reachable tables, all keys, all hash values","a non-terminating probe sequence occurs only for specific fill patterns; the argument needs primality of the capacity",
 ["util/hash_function.c:get_hash","data-structures/YASL_Table.c:YASL_Table_search","util/prime.c:next_prime"])
p("C07","Capacity is always a sufficient prime",
 "The capacity chosen for hash tables and sets is the least prime not below the requested base size; math.isprime answers exactly primality for non-negative arguments (below the float-exact range).",
 "all natural numbers in range","primality for all numbers cannot be enumerated",
 ["util/prime.c:is_prime","util/prime.c:next_prime","std/yasl-std-math.c:math_isprime"])
p("C08","Set operations are the mathematical ones",
 "For sets of hashable values (no NaN or -0.0, and no int together with a numerically equal float), | & &^ ^ compute union, intersection, difference and symmetric difference, len is the number of distinct members, adding is idempotent, and <= < >= > == are (proper) inclusion and equality.",
 "all pairs of sets built by any sequence of insertions","all pairs of sets and collision patterns",
 ["data-structures/YASL_Set.c","std/yasl-std-collections.c"])
p("C09","Equality of values",
 "== on primitive values is symmetric, reflexive except for NaN, compares ints with floats numerically, strings by content, undef only with undef; two values of unrelated types are never equal; === additionally requires the same type; != and !== are the negations.",
 "all pairs of values","the value space is unbounded",
 ["interpreter/YASL_Object.c:isequal","interpreter/YASL_Object.c:isequal_typed","interpreter/VM.c:vm_EQ"])
p("C10","Truthiness",
 "A value is false in a condition exactly when it is undef, false, the empty string or NaN; ! returns the negation of truthiness as a bool; && and || evaluate their right operand exactly when the left does not decide, and yield one of the operands unchanged.",
 "all values and all operand expressions","all values and nested expressions",
 ["interpreter/YASL_Object.c:isfalsey","compiler/compiler.c:visit_BinOp","interpreter/VM.c:O_BRF_4"])
p("C11","List element access",
 "For a list of length n and an int index i, reading succeeds exactly when -n <= i < n and yields the element at i (or n+i), writing replaces exactly that element and nothing else, and every other index raises an error and leaves the list unchanged.",
 "all lists and all 64-bit indices","unbounded lists and indices",
 ["interpreter/list_methods.c:list___get","interpreter/list_methods.c:list___set"])
p("C12","List growth operations",
 "push appends at the end; insert(i,x) places x before position i for -n <= i <= n... and shifts the rest; extend appends all elements in order; reverse reverses; copy is independent of the original; length is the number of elements; capacity is never exceeded.",
 "all lists, all histories of operations","reallocation points and histories unbounded",
 ["data-structures/YASL_List.c","interpreter/list_methods.c"])
p("C13","List sort",
 "sort on a list of only numbers (no NaN) or only strings leaves a permutation of the original elements in non-decreasing order, for whatever pivots the random generator picks; a list mixing them raises an error and is left unchanged.",
 "all lists and all pivot choices (oracle)","n! orders times all pivot sequences",
 ["interpreter/list_methods.c:sort","interpreter/list_methods.c:list_sort"])
p("C14","List search and count",
 "search returns the index of an element equal to the argument or undef if none; count returns the number of equal elements.",
 "all lists and needles","unbounded lists",
 ["interpreter/list_methods.c:list_search","interpreter/list_methods.c:list_count"])
p("C15","List slicing",
 "xs[a:b] yields exactly the elements from a up to but excluding b, negative bounds counting from the end and out-of-range bounds clamped, never reading outside the list.",
 "all lists and all 64-bit bounds","unbounded lists and bounds",
 ["interpreter/VM.c:vm_SLICE"])
p("C16","String slicing",
 "s[a:b] yields exactly the bytes from a up to but excluding b under the same conventions as list slicing, never reading outside the string.",
 "all strings and all 64-bit bounds","unbounded strings and bounds; the unsigned underflow appears only for reversed or far bounds",
 ["interpreter/VM.c:vm_slice_str","data-structures/YASL_String.c:YASL_String_new_substring"])
p("C17","String trimming",
 "trim/ltrim/rtrim with a non-empty needle (or whitespace by default) remove exactly the maximal run of needle copies at the respective end(s), terminate, and never read outside the string.",
 "all strings and needles","unbounded strings; all-whitespace and overlapping needles are corner cases",
 ["data-structures/YASL_String.c:YASL_String_trim_default","data-structures/YASL_String.c:YASL_String_trim","data-structures/YASL_String.c:YASL_String_ltrim","data-structures/YASL_String.c:YASL_String_rtrim"])
p("C18","Split and join are inverse",
 "For every string s and non-empty separator d, s.split(d) contains no piece in which d occurs and joining the pieces with d gives back s.",
 "all strings and separators","unbounded strings and separators",
 ["data-structures/YASL_String.c:YASL_String_split_fast","interpreter/str_methods.c:str_split","interpreter/list_methods.c:list_join"])
p("C19","String search, prefix, suffix and count",
 "search returns the least index at which the needle occurs (undef if none), startswith/endswith decide prefix/suffix, count is the number of non-overlapping occurrences found left to right.",
 "all pairs of strings","unbounded strings",
 ["data-structures/YASL_String.c:str_find_index","data-structures/YASL_String.c:YASL_String_count","data-structures/YASL_String.c:YASL_String_startswith","data-structures/YASL_String.c:YASL_String_endswith"])
p("C20","String replacement",
 "replace(a,b) substitutes every non-overlapping occurrence of non-empty a, left to right, and leaves all other bytes unchanged; with a limit n at most n occurrences, the leftmost ones, are substituted.",
 "all strings, needles, replacements and limits","unbounded strings",
 ["data-structures/YASL_String.c:YASL_String_replace_fast","data-structures/YASL_String.c:YASL_String_replace_fast_default"])
p("C21","String comparison",
 "< <= > >= on strings are the (bytewise, unsigned) lexicographic order, a total order consistent with ==.",
 "all pairs/triples of strings","unbounded strings",
 ["data-structures/YASL_String.c:YASL_String_cmp","interpreter/VM.c:COMP"])
p("C22","String case conversion, predicates, repetition",
 "toupper/tolower change exactly the ASCII letters of the other case and preserve length; isalnum/isal/isnum/isspace hold exactly when all bytes of the string are in the class (so they hold of the empty string); rep(n) is n copies.",
 "all strings","unbounded strings",
 ["data-structures/YASL_String.c","interpreter/str_methods.c"])
p("C23","Iterating a string visits its bytes",
 "for c <- s binds c to each one-byte substring of s in order, exactly len(s) times, whatever way s was obtained.",
 "all strings, including substrings of other strings","unbounded strings, representation dependent",
 ["interpreter/VM.c:vm_ITER_1"])
p("C24","Constant folding preserves meaning",
 "Replacing an operator applied to literals by its compile-time result gives the same value (type and bits) as executing the operator at run time, and never folds an expression that would raise an error.",
 "all operators and all literal operands","2^128 operand pairs per operator",
 ["compiler/middleend.c","interpreter/VM.c"])
p("C25","Expression evaluation is compiled correctly",
 "Running the compiled code of any expression pushes exactly one value, the value of the expression evaluated left to right, leaves the rest of the stack unchanged and ends just past its own code; short-circuit, ternary and ?? jumps land exactly on the intended instruction.",
 "all expressions of any depth, all environments","unbounded program space",
 ["compiler/compiler.c:visit_BinOp","compiler/compiler.c:visit_TriOp","interpreter/VM.c:vm_executenext"])
p("C26","Statements leave the stack balanced",
 "Executing any statement (blocks, if, while, for, break, continue, let) leaves the value stack at the height it had, so that every local variable keeps denoting its own slot.",
 "all nestings of statements, all iteration counts, every point where break or continue is taken","unbounded program space",
 ["compiler/compiler.c:visit_While","compiler/compiler.c:visit_Break","compiler/compiler.c:visit_Block"])
p("C27","Lexical scoping",
 "A name denotes the innermost enclosing declaration; two simultaneously live locals of a function never share a slot; re-declaring a name in the same scope and assigning to a const are rejected; leaving a block restores the outer meaning of every name.",
 "all nestings of scopes and declarations","unbounded program space",
 ["compiler/env.c:scope_decl_var","compiler/env.c:scope_get","compiler/env.c:env_resolve_upval_index","compiler/compiler.c:handle_variable"])
p("C28","Locals beyond 127",
 "A function with up to 255 locals reads and writes each local correctly.",
 "all slot indices accepted by the compiler","tests rarely use >127 locals",
 ["interpreter/VM.c:O_LLOAD_1","interpreter/VM.c:O_LSTORE_1","compiler/compiler.c:load_var_local"])
p("C29","Closures capture variables",
 "A closure's captured variable and the enclosing function's local are the same variable while the enclosing call is active, closures created in the same call share it, and after the call returns the closure keeps the last value.",
 "all sequences of captures, writes and returns","unbounded interleavings of captures, writes and frame exits",
 ["interpreter/VM.c:add_upvalue","interpreter/VM.c:vm_close_all_helper","interpreter/upvalue.c"])
p("C30","Calls deliver arguments and results",
 "A YASL function called with k arguments sees exactly its declared parameters (missing ones undef, extra ones dropped unless variadic, in which case all extras are delivered in order), and the caller receives exactly the number of results it asked for (padded with undef or truncated), with the rest of its stack unchanged.",
 "all arities, argument counts, result counts, stack contents","unbounded combinations",
 ["interpreter/VM.c:vm_fill_args","interpreter/VM.c:vm_exitframe_multi","interpreter/VM.c:vm_CALL_now"])
p("C31","Reference counts are exact on the stack",
 "Pushing, popping, duplicating, swapping and bulk-removing stack values keeps each heap object's reference count equal to the number of references to it, so objects are freed exactly when the last reference goes.",
 "all sequences of stack operations","unbounded histories",
 ["interpreter/VM.c:vm_push","interpreter/VM.c:vm_pop","interpreter/VM.c:vm_rm_range","interpreter/refcount.c"])
p("C32","Pattern matching",
 "match selects the first clause whose pattern matches the value: literals by equality, lists element-wise with exact (or at least, with ...) length, tables by presence of keys with matching values, alternatives left to right, bindings bind the corresponding sub-value; matching reads exactly the pattern's own code.",
 "all patterns of any depth and all values","unbounded pattern and value space",
 ["interpreter/VM.c:vm_MATCH","compiler/compiler.c:visit_Match"])
p("C33","math.gcd and math.lcm",
 "gcd(a,b) for positive ints is the greatest common divisor and lcm(a,b) the least common multiple whenever it fits; both are undef for non-positive arguments.",
 "all pairs of 64-bit ints","2^128 pairs",
 ["std/yasl-std-math.c:math_gcd","std/yasl-std-math.c:math_lcm"])
p("C34","Integer arithmetic",
 "On ints + - * are two's complement (undefined on overflow in C), // truncates toward zero and % has the sign of the dividend with a == (a//b)*b + a%b, division and modulo by zero raise an error, shifts and bit operators act on two's complement bits, mixed int/float arithmetic converts the int to float.",
 "all pairs of operands","2^128 pairs",
 ["interpreter/VM.c:vm_int_binop","interpreter/VM.c:vm_num_binop"])
p("C35","Constants survive the bytecode",
 "Each int, float and string literal of a program is loaded at run time with exactly its value; equal literals share an entry, and different literals never do.",
 "all literals and all constant tables","unbounded tables; encodings change at 1-byte/8-byte boundaries",
 ["compiler/compiler.c:compiler_intern_int","compiler/compiler.c:compiler_intern_string","interpreter/VM.c:vm_setupconstants"])
p("C36","Error messages name the right line",
 "The line number reported for a failing instruction is the source line whose code range contains the instruction.",
 "all programs and all instruction positions","unbounded programs",
 ["interpreter/VM.c:vm_getcurrline","compiler/compiler.c:YASL_ByteBuffer_add_vint"])
p("C37","Operator precedence and associativity",
 "The parser groups binary operators by the documented precedence and associativity: printing any operator tree with only the necessary parentheses and parsing it back gives the same tree; compound assignment x op= e means x = x op e.",
 "all operator expressions","unbounded expressions",
 ["compiler/parser.c:parse_expr","compiler/parser.c:parse_assign","compiler/tokentype.x"])
p("C38","Host API pop functions",
 "YASL_popint/popfloat/popbool/popcstr remove exactly the top value of the stack and return it when it has the type, and the corresponding peek/is functions never change the stack.",
 "all stacks","all stack contents and types",
 ["yasl.c:YASL_popint","yasl.c:YASL_popbool","yasl.h"])
p("C39","Host API container functions",
 "YASL_listpush/listget/tableset/setglobal/loadglobal/duptop have exactly the documented effect on stack, container and globals, and report type errors without changing any container or global.",
 "all stacks and containers","unbounded states",
 ["yasl.c:YASL_listget","yasl.c:YASL_tableset","yasl.c:YASL_setglobal","yasl.c:YASL_duptop"])
p("C40","Growing byte buffers",
 "A byte buffer's contents are exactly the concatenation of everything appended, in order, and appending never writes outside the allocated block.",
 "all append sequences","reallocation boundaries at every size",
 ["data-structures/YASL_ByteBuffer.c"])
p("C41","Integer text round trip",
 "Converting any int to a string and parsing it back gives the same int; decimal, hex and binary literals denote their value when it fits.",
 "all 64-bit ints","2^64 ints",
 ["interpreter/YASL_Object.c:YASL_Int","util/yasl_float.c","data-structures/YASL_String.c:YASL_String_toint"])
p("C42","Echo writes the bytes of the string",
 "echo writes the string's bytes followed by a newline, in order and without loss, to the configured output; NUL bytes are dropped and nothing else.",
 "all strings","all byte strings",
 ["util/IO.c:io_str_strip_char","interpreter/VM.c:O_ECHO"])
p("C43","Stack limits are reported",
 "Pushing beyond the value stack or calling beyond the frame limit raises a stack-overflow error instead of corrupting memory; nested or recursive for loops are safe at any depth.",
 "all depths","unbounded recursion depth",
 ["interpreter/VM.c:vm_push","interpreter/VM.c:vm_enterframe_offset","interpreter/VM.c:O_INITFOR"])
p("C44","A compiled program does what its source says",
 "Compiling a program and running the bytecode produces exactly the output, the final global variables and the error (or normal end) that the source text prescribes: statements in order, the i-th value of a multiple declaration to the i-th target, loops with break and continue, for-in over strings, lists and tables.",
 "all programs, all initial globals, all numbers of iterations","unbounded program space; compiler, bytecode format, constant pool and interpreter must agree on every offset",
 ["compiler/compiler.c:compile","interpreter/VM.c:vm_executenext","interpreter/VM.c:vm_init"])
p("C45","Programs executed on one state",
 "Several programs executed one after another on the same state each behave as their source says, with the globals left by the previous ones.",
 "all sequences of programs","unbounded histories of one state",
 ["yasl.c:YASL_execute","yasl.c:YASL_resetstate_bb","interpreter/VM.c:vm_run"])
p("C46","Concatenation",
 "a ~ b is the text of a followed by the text of b (undef, true/false, decimal ints, strings as they are); on strings it is associative; if a conversion fails the error of the right operand's conversion, else of the left one's, is raised.",
 "all operand values, all string contents","unbounded strings",
 ["interpreter/VM.c:vm_CNCT","interpreter/VM.c:vm_stringify_top"])
p("C47","The lexer reads back what was written",
 "For every sequence of tokens, writing them out separated by blanks (ints, identifiers, keywords, operators, string literals with escapes) and lexing the text gives back exactly those tokens with their values, then end of file; comments and blanks between tokens change nothing; line numbers count the newlines passed.",
 "all token sequences, all string contents, all texts","unbounded token sequences; maximal munch must be right for every adjacent pair",
 ["compiler/lexer.c:gettok","compiler/lexer.c:lex_eatop","compiler/lexer.c:lex_eatnumber","compiler/lexer.c:lex_eatstring","compiler/lexinput.c"])
p("C48","The lexer always terminates and reports bad input",
 "For every input text repeated token requests reach end of file or a syntax error, and no sequence of appends makes the lexer write outside its token-text buffer.",
 "all byte strings","unbounded inputs",
 ["compiler/lexer.c:gettok","compiler/lexinput.c:lexinput_bb_getc"])
p("C49","A program text does what it says",
 "Executing the text of a program (any layout, blanks and comments; expressions with any legal parentheses) produces the output, final globals and error that its statements prescribe: lexer, parser, constant folder, code generator, constant pool, loader and virtual machine together.",
 "all program texts of the modelled syntax, all initial globals, all numbers of loop iterations","unbounded program space; seven stages must agree",
 ["yasl.c:YASL_execute","compiler/lexer.c","compiler/parser.c","compiler/middleend.c","compiler/compiler.c","interpreter/VM.c"])
p("C50","Globals are variables",
 "A global declared by the host keeps the value last assigned to it, by the host or by a program, whatever the other globals are called and however many there are.",
 "all programs, all sets of global names, all initial values","name collisions in the hash table of globals depend on the names; unbounded histories",
 ["interpreter/VM.c:vm_GSTORE_8","interpreter/VM.c:vm_GLOAD_8","data-structures/YASL_Table.c:YASL_Table_insert_fast"])
p("C51","Functions mean what they say",
 "Compiling a program with functions and running it gives the output, final globals and error (or normal end) that the text prescribes: a call evaluates the function, then the arguments from left to right, binds parameters in order (missing ones undef, surplus ones dropped), runs the body with variables of its own, delivers the returned value (undef without a return) and continues after the call with the caller's variables unchanged; functions are values, may be recursive and may read and assign the variables of the file that were declared before them.",
 "all programs with functions, all call depths, all argument counts, all initial globals","unbounded program space and recursion depth; slots, frames, captured variables and return sequences must agree for every nesting",
 ["compiler/compiler.c:visit_FnDecl","compiler/compiler.c:visit_Call","compiler/compiler.c:visit_Return","compiler/env.c:env_resolve_upval_index","interpreter/VM.c:vm_CALL","interpreter/VM.c:vm_CCONST","interpreter/VM.c:vm_exitframe_multi"])
p("C52","Lists and tables are objects with contents",
 "c[k], c[k] = v, len c, list + list, table | table, list and table literals and the methods push, pop, copy, reverse, clear, insert, count, search, keys and values do to the objects exactly what is said of sequences and finite maps (negative positions count from the end; missing keys read as undef; missing arguments are undef): the object named changes and no other, new objects are distinct from all others, and every other use is the documented value or type error with nothing printed or changed; other operators with a container on the left are type errors; a loop over a list sees the list as it is, position by position, and a loop over an unchanged table visits every key once.",
 "all memories of lists and tables (shared and cyclic ones included), all keys, values, argument lists and stacks","unbounded memories; every lookup goes through metatables, hash tables and call frames",
 ["interpreter/VM.c:vm_GET_helper2","interpreter/VM.c:vm_SET","interpreter/VM.c:vm_len_unop","interpreter/VM.c:vm_INIT_MC","interpreter/VM.c:vm_CALL_cfn","interpreter/builtins.c","interpreter/list_methods.c","interpreter/table_methods.c"])
p("C53","Text of lists and tables",
 "The text of a list or table shows its elements or entries in brackets, separated by commas, recursively; a container inside itself is shown as [...] or {...}; printing always ends, with the text or (when the nesting exceeds the value stack) a stack overflow error, never undefined behaviour; with room for as many values as there are objects it always succeeds.",
 "all memories, all shapes of sharing and cycles, all nesting depths","unbounded graphs of objects",
 ["interpreter/list_methods.c:list_tostr_helper","interpreter/table_methods.c:table_tostr_helper","interpreter/table_methods.c:rec_call","interpreter/VM.c:vm_stringify_top"])
p("C54","Equality of lists and tables",
 "a == b on lists compares lengths and elements in order, on tables the sets of keys and the values under them, recursively to any depth that fits the stack; a list never equals a table; the order in which a table was filled does not matter.",
 "all memories, all depths","unbounded nesting; iteration order of tables depends on their history",
 ["interpreter/VM.c:vm_EQ","interpreter/list_methods.c:list___eq","interpreter/table_methods.c:table___eq"])
p("C55","Programs with lists and tables mean what they say",
 "Compiling a program that builds, indexes, changes, compares, iterates over and prints lists and tables (with methods, operators, variables, conditions and loops) and running it gives an output, final globals, final contents of the objects and error (or normal end) that the text allows: expressions are evaluated from left to right, an object is changed wherever it is reachable from, a loop over a list sees it as it is, and the only freedom is the order in which the entries of a table come.",
 "all programs of the fragment, all nestings of containers, all sharing and cycles the program builds, all numbers of iterations, all initial globals","unbounded program space and object graphs; temporaries, variables, loop records and call frames share one stack",
 ["compiler/compiler.c:visit_Table","compiler/compiler.c:visit_List","compiler/compiler.c:visit_Get","compiler/compiler.c:visit_Set","compiler/compiler.c:visit_MethodCall","compiler/compiler.c:visit_ForIter","interpreter/VM.c:vm_run","interpreter/builtins.c"])
p("C56","Programs are read as they are written",
 "The parser reads exactly the program that the text spells, for the whole syntax except match, comprehensions, interpolated strings and modules: calls, methods, fields, indices and slices chain to the left and bind tighter than any operator; every argument, element, entry, bound and parameter ends up where it was written; the last call of an argument, return or declaration list keeps as many values as it should; line ends are allowed where documented; and no text has two readings.",
 "all program texts of the grammar, any nesting, layout and comments","unbounded texts and nestings",
 ["compiler/parser.c:parse_call","compiler/parser.c:parse_list","compiler/parser.c:parse_table","compiler/parser.c:parse_lambda","compiler/parser.c:parse_fn","compiler/parser.c:parse_return","compiler/parser.c:parse_var_pack","compiler/parser.c:parse_assign","compiler/parser.c:parse_program"])
p("C57","A program text with lists and tables does what it says",
 "Giving a text to the interpreter that spells, with any layout and comments, a program with lists, tables, methods, indices, assignments to elements, conditions and all kinds of loops, and running it, gives an output, final globals, final contents of the objects and error (or normal end) that the program as written prescribes; the constant folding done on the way cannot be seen.",
 "all texts of such programs, any layout, all sharing and cycles they build, all numbers of iterations, all initial globals","unbounded text and program space; every stage from lexer to machine must agree with the next",
 ["compiler/compiler.c:compile","compiler/parser.c:parse_program","compiler/middleend.c:fold","compiler/compiler.c:visit_While","compiler/compiler.c:visit_MethodCall","interpreter/VM.c:vm_run","yasl.c:YASL_execute"])
p("C58","A program text with functions does what it says",
 "Giving a text to the interpreter that spells, with any layout and comments, a program with named functions, function literals, recursion, functions passed and returned as values, variables of the file read and changed by functions, conditions and loops, and running it, gives the output, final globals and error (or normal end) that the program as written prescribes; neither the constant folding nor the way functions are laid out in the code can be seen.",
 "all texts of such programs, any layout, any depth of recursion within the limits, all numbers of iterations, all initial globals","unbounded text and program space, unbounded call histories; every stage from lexer to machine must agree with the next",
 ["compiler/compiler.c:compile","compiler/parser.c:parse_fn","compiler/parser.c:parse_lambda","compiler/parser.c:parse_return","compiler/middleend.c:fold","compiler/compiler.c:visit_FnDecl","compiler/compiler.c:visit_Call","interpreter/VM.c:vm_CALL","yasl.c:YASL_execute"])
p("C59","Programs with functions are accepted exactly when their names are used as declared",
 "Within the fixed limits, the compiler accepts a program with functions, closures and constants if and only if every name used is declared where it is used (in the function, in a function around it, in the file, or as a global), no constant is assigned wherever it was declared, nothing is declared twice in one scope, and return occurs only in functions; any other program is reported as a syntax error. The compiler neither crashes nor reports anything else.",
 "all programs of the fragment, any nesting of functions, blocks and loops, any set of globals","unbounded program space and nesting of functions; captured variables are resolved through a chain of environments that grows with the nesting",
 ["compiler/compiler.c:load_var","compiler/compiler.c:store_var","compiler/compiler.c:visit_FnDecl","compiler/compiler.c:visit_Return","compiler/env.c:env_add_upval","compiler/env.c:env_resolve_upval_index","compiler/env.c:scope_decl_var"])
p("C60","Programs with lists and tables are accepted exactly when their names are used as declared",
 "Within the fixed limits, the compiler accepts a program with lists, tables, method calls, element assignments, conditions and all kinds of loops if and only if every name used is declared where it is used, no constant is assigned, nothing is declared twice in one scope, the variable of a for loop is used only in its body, and break and continue occur only inside a loop that is not switched off by a literal false or undef condition; any other program is reported as a syntax error. The compiler neither crashes nor reports anything else.",
 "all programs of the fragment, any nesting of blocks and loops, any set of globals","unbounded program space and nesting; the scopes, loop checkpoints and constants the compiler tracks grow with the program",
 ["compiler/compiler.c:visit_ForIter","compiler/compiler.c:visit_While","compiler/compiler.c:visit_Break","compiler/compiler.c:visit_Continue","compiler/compiler.c:visit_Decl","compiler/compiler.c:visit_MethodCall","compiler/compiler.c:validate"])
p("C61","Closures and captured variables are released exactly when nothing refers to them",
 "Whatever closures a program makes, however they share variables with each other and with the functions around them, and however they are stored, returned, called and dropped: a captured variable and its value live as long as the variable itself or some closure over it, nothing freed is ever read or written, nothing is freed while something refers to it, and destroying the interpreter frees every closure and captured variable that is not part of a cycle.",
 "all sequences of captures, reads and writes of captured variables, returns, and stack, list and variable operations; all nestings of closures and patterns of sharing","unbounded histories; the moment of release depends on every capture, copy and return before it",
 ["interpreter/closure.c:closure_del_data","interpreter/upvalue.c","interpreter/VM.c:add_upvalue","interpreter/VM.c:vm_CCONST","interpreter/VM.c:vm_close_all","interpreter/VM.c:vm_cleanup","interpreter/refcount.c:dec_ref"])
p("C62","An interactive session remembers what was typed before",
 "Each line typed in the interactive mode is compiled and run with everything the earlier lines declared: a variable or constant declared at the top level of a line can be used in every later line with the value it then has, a constant cannot be assigned later, and no name can be declared twice in a session; blocks, conditions and loops inside a line work as in a file; the last expression of a line is printed and the others are not; a line is accepted if and only if it is legal given the names declared so far; and after each line the machine holds nothing but the values of those names.",
 "all sequences of lines that end normally, all lines, all numbers of iterations, all initial globals","unbounded histories and lines; compiler, constant pool and machine are all carried over from line to line",
 ["compiler/compiler.c:compile_REPL","compiler/compiler.c:decl_var","compiler/compiler.c:visit_Decl","yasl.c:YASL_execute_REPL","yasl.c:YASL_resetstate_bb","main.c:main_REPL"])
p("C63","The text of a float and conversions between ints and floats",
 "tostr of a float is its decimal text: sign, digits without superfluous zeros, a dot and one to six decimals, the nearest such number to the exact value (ties to even), or inf, -inf, nan; a float that is a whole number of millionths is written exactly and different floats are written differently; tofloat of an int below 2^53 in magnitude is written as the int followed by .0, and toint turns it back; toint of any float drops the decimals; tobool of a float is true unless it is NaN.",
 "all doubles including subnormals, zeros of both signs, infinities and NaN; all ints","2^64 doubles; the digits are produced and cut in a buffer whose length depends on the value",
 ["util/yasl_float.c:float64_to_str","interpreter/float_methods.c:float_tostr","interpreter/float_methods.c:float_toint","interpreter/float_methods.c:float_tobool","interpreter/int_methods.c:int_tofloat"])
p("C64","The program text is read byte for byte",
 "A program handed over in memory is read byte for byte: reading gives its bytes in order, and past the end reports the end, each time; going back to a position read before replays the same bytes, whatever was read in between; so the tokens, values and line numbers of the program are those of its byte sequence, although the lexer keeps stepping back in the text, and nothing outside the text is read; and this for every text, however long.",
 "all texts, all sequences of reads and of steps back","unbounded texts; the position, the end-of-input flag and the current character must agree after every step back, at the end of the text too",
 ["compiler/lexinput.c:lexinput_bb_getc","compiler/lexinput.c:lexinput_bb_seek","compiler/lexinput.c:lexinput_bb_eof","compiler/lexer.c:gettok","compiler/lexer.c:lex_eatop","compiler/lexer.c:lex_eatnumber","yasl.c:YASL_newstate_bb"])
p("C65","String interpolation",
 "A string in double quotes with expressions in #{ and } means its parts joined with ~ in the order written: text, expression, text, and so on, where each expression may be any expression in any layout, comments and newlines included, the texts keep their escapes, and what follows the string is read as if a plain string stood there; a string whose interpolation is not closed, or that contains anything other than one expression between the braces, is rejected.",
 "all texts, all positions in them, all numbers of interpolations, all expressions in them","unbounded texts and expressions; the lexer must change between reading code and reading text at the right character, for every last token of the expression",
 ["compiler/parser.c:parse_string","compiler/lexer.c:lex_eatinterpstringbody","compiler/lexer.c:lex_eatinterpstring_fill","compiler/lexer.c:lex_eatinterpstring"])
p("C66","Files",
 "io.open accepts exactly the modes r, w, a, each with or without +, and opens a file for reading and writing as they say; read gives the lines of a file one after another, of any length and without their newlines, and with 'a' the whole content from any position; write puts exactly the bytes of the string at the position, or at the end in append mode, gives their number and changes nothing else; seek moves to a position if it is a possible one and otherwise returns false and changes nothing; reading, positioning and flushing never change a content; wrong arguments are type errors and unknown modes value errors; what was written and closed is what is read later; files can be closed, and reading and writing can be mixed.",
 "all contents, positions, lengths of lines, strings, sequences of writes, offsets, modes","unbounded contents; the buffer for a line grows while it is read, and positions, append mode, gaps and the end of the file interact",
 ["std/yasl-std-io.c:YASL_io_open","std/yasl-std-io.c:YASL_io_read","std/yasl-std-io.c:YASL_io_write","std/yasl-std-io.c:YASL_io_seek","std/yasl-std-io.c:YASL_io_close","std/yasl-std-io.c:close_file","interpreter/userdata.c:ud_del_data"])
p("C67","Argument checks of C functions",
 "A C function that checks an argument as int, float, bool, undef or userdata with a given tag gets the value of exactly that argument if it is of that type, and nothing changes; otherwise the check ends in a type error whose message names the function, the position, the type that is expected and the type the argument has.",
 "all stacks, all positions, all values, all function names and tags","unbounded stacks and values; the type in the message depends on the argument and not on its neighbours",
 ["yasl_aux.c:YASLX_checknint","yasl_aux.c:YASLX_checknfloat","yasl_aux.c:YASLX_checknbool","yasl_aux.c:YASLX_checknundef","yasl_aux.c:YASLX_checknuserdata","yasl_aux.c:YASLX_print_err_bad_arg_type","yasl.c:YASL_peektypename","interpreter/YASL_Object.c:obj_typename"])
p("C68","Captured output and error messages",
 "A host that asks for the program's output gets, whenever it asks, exactly what was printed since it turned capturing on, in order, over any number of programs, and nothing of it goes to stdout, while everything printed before went there; the same holds for error messages, those of the compiler if compiling the current program failed and those of the machine otherwise.",
 "all histories of prints, errors, resets and requests, all texts","unbounded histories; a buffer is grown and appended to at each print, and three streams are switched by one setting",
 ["util/IO.c:io_print_string","util/IO.c:io_print_file","util/IO.h:NEW_IO","yasl.c:YASL_setprintout_tostr","yasl.c:YASL_setprinterr_tostr","yasl.c:YASL_loadprintout","yasl.c:YASL_loadprinterr","yasl.c:YASL_resetstate_bb","compiler/lexer.h:NEW_LEXER"])
p("C69","Metatables",
 "mt.set accepts user data, a list or a table together with a table and nothing else (a type error otherwise), returns the value and changes nothing but its metatable; mt.get then gives that table. What is indexed in the value afterwards is found in the metatable first and then in the value if it is a table; its methods and metamethods are those of the metatable and no others (the built-in ones included), and the metatable's own metatable is not asked. Undef, booleans, numbers and strings share one metatable per type. Getting never fails.",
 "all memories, values, metatables, names and histories of settings","needs arbitrary memories and aliasing: a value may be its own metatable or be shared as one",
 ["std/yasl-std-mt.c:YASL_mt_getmt","std/yasl-std-mt.c:YASL_mt_setmt","interpreter/VM.c:obj_get_metatable","interpreter/VM.c:vm_get_metatable","interpreter/VM.c:lookup2","interpreter/VM.c:vm_lookup_method_throwing"])
p("C70","Finding packages",
 "Requiring a package tries exactly the file names that result from putting the name for the mark in each template of the search path, in the order of the path, and then the name itself, and stops at the first that can be opened; whatever the name and its length, building the file names reads and writes only its own memory. With the built-in paths, require(s) tries /usr/local/lib/yasl/s.yasl, ./s.yasl and s.",
 "all names, all paths of templates, all sets of existing files","pointer arithmetic over unbounded names and paths; an off-by-one writes outside the buffer only for some lengths",
 ["std/yasl-std-require.c:open_on_path","std/yasl-std-require.c:search_on_path","std/yasl-std-require.c:YASL_require","std/yasl-std-require.c:YASL_require_c","yasl_conf.h:YASL_DEFAULT_PATH","yasl_conf.h:YASL_DEFAULT_CPATH","yasl.c:YASL_peekcstr"])
with open('/verif/properties.jsonl','w') as f:
    for x in P: f.write(json.dumps(x)+"\n")
print(len(P))
