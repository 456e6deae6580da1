(** * From the source text to the loaded program: [YASL_execute], /repo/yasl.c:147-161, with [compile], compiler.c:269-335. *)
From Verif Require Import Base Value Ops Ast Stmt VM Compiler Program Lexer Parser.

(** [None]: a syntax error, a program outside the modelled syntax, or not enough fuel. [lines] is the line table. *)
Definition build (strtod : list Z -> float) (fuel : nat) (gs : list name) (text : list Z) (lines : list Z) (w : world) (ls ks : Z -> list value) : option prog :=
  match parse_text strtod fuel text with
  | POk pr => match compile_program fuel gs pr lines with
              | Ok bytes => match load bytes w ls ks with Ok P => Some P | _ => None end
              | _ => None end
  | _ => None
  end.
