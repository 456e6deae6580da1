(** * The interactive mode: [YASL_execute_REPL], /repo/yasl.c:133-146, called once per line typed (/repo/main.c:132-160). *)
From Verif Require Import Base Bytes Value Table Ops Ast Stmt Constants VM Compiler Program.

(** [compile_REPL], /repo/compiler/compiler.c:337-356. Unlike [compile] it enters no scope, so a declaration at the top
    level of a line is a global ([decl_var], [declare_with_let_or_const] with [c_scopes = []]), and the last statement
    of the line, if it is an expression, becomes an echo (the node type is overwritten, :345-347). As in [compile] the
    loop goes on after an error and [return_bytes] then returns NULL; here the first error is the result. *)
Definition repl_node (last : bool) (s : stmt) : stmt :=
  match s with SExpr e => if last then SEcho e else s | _ => s end.
Fixpoint repl_stmts (fuel : nat) (ss : list stmt) (code : list Z) (c : cst) : outcome (list Z * cst) :=
  match ss with
  | [] => Ok (code, c)
  | s :: r => do c' <- visit_s fuel (repl_node (match r with [] => true | _ => false end) s) c;
              repl_stmts fuel r (code ++ c_buf c') (set_buf c' [])
  end.
Definition compile_repl (fuel : nat) (ss : list stmt) (c : cst) : outcome (list Z * cst) := repl_stmts fuel ss [] c.

(** [YASL_execute_REPL], after [YASL_resetstate_bb] has emptied code and buffer (yasl.c:108-119): compile the line with
    the compiler of the lines before, then [vm_run] on the machine as the lines before left it. *)
Definition execute_repl (fuel k : nat) (line : list stmt) (lines : list Z) (w : world) (ls ks : Z -> list value) (c : cst) (s : vstate) : outcome (sres * cst) :=
  do r <- compile_repl fuel line c;
  do P <- load (return_bytes (c_pool (snd r)) (fst r) lines) w ls ks;
  Ok (run k P (set_pc s 0), set_buf (snd r) []).
