(** * Whole programs: compiling a list of top-level statements and loading the result. *)
From Verif Require Import Base Bytes Value Table Ops Ast Stmt Constants VM Compiler.

(** The host declares its globals ([YASL_declglobal], /repo/yasl.c:168-172), then [compile] and [return_bytes] run
    (/repo/compiler/compiler.c:269-335, called from [YASL_execute], yasl.c:147-150). [lines] is the line table (Lines.v).
    In the code a statement with an error does not stop the loop, but [return_bytes] then returns NULL; here the
    first error is the result. *)
Fixpoint declglobals (fuel : nat) (gs : list name) (c : cst) : outcome cst :=
  match gs with [] => Ok c | x :: r => do c <- declglobal fuel c x; declglobals fuel r c end.
Definition compile_program (fuel : nat) (gs : list name) (prog : list stmt) (lines : list Z) : outcome (list Z) :=
  do c <- compiler_new;
  do c <- declglobals fuel gs c;
  do r <- compile fuel prog c;
  Ok (return_bytes (c_pool (snd r)) (fst r) lines).

(** [YASL_execute], yasl.c:147-161, and [vm_setupconstants] (called by [vm_run], VM.c:1652-1657): the program counter
    starts at the entry point; positions in the model are counted from there. *)
Definition load (bc : list Z) (w : world) (ls ks : Z -> list value) : outcome prog :=
  do e <- entry_point bc;
  do K <- setup_constants bc;
  Ok (Prog (skipn (Z.to_nat e) bc) K w ls ks).

(** The statements of a program, one after the other (the parser's list, as one statement). *)
Definition body (prog : list stmt) : stmt := fold_right SSeq SSkip prog.
(** A host with the given declared globals, none of them constant. *)
Definition host_of (w : world) (ls ks : Z -> list value) (gs : list name) : host :=
  Host w ls ks (fun x => if existsb (fun y => name_eqb y x) gs then Some false else None).

(** A parse error after the statements [prog] of a source: [compile] returns NULL from inside its loop, with the scope
    it entered still open (/repo/compiler/compiler.c:318-327); [YASL_resetstate_bb] (/repo/yasl.c:108-119) empties
    code and buffer and changes nothing else in the compiler. *)
Definition compile_parse_error (fuel : nat) (prog : list stmt) (c : cst) : outcome cst :=
  do r <- compile_stmts fuel prog [] (enter_scope c); Ok (set_buf (snd r) []).
(** [YASL_execute] on a state that has been used before: the compiler keeps scopes, globals and constants, the machine
    keeps its stack, globals, frames and loops (/repo/yasl.c:108-119, 147-161; [vm_run] resets nothing but the program
    counter, /repo/interpreter/VM.c:1657-1667). *)
Definition execute (fuel k : nat) (prog : list stmt) (lines : list Z) (w : world) (ls ks : Z -> list value) (c : cst) (s : vstate) : outcome (sres * cst) :=
  do r <- compile fuel prog c;
  do P <- load (return_bytes (c_pool (snd r)) (fst r) lines) w ls ks;
  Ok (run k P (set_pc s 0), set_buf (snd r) []).
