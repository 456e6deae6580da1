(** * Captured output: model of /repo/util/IO.c:15-29 and IO.h:6-18, yasl.c:58-77 and the resetting of yasl.c:79-96 and 111-121. Texts are the result of
    formatting. *)
From Verif Require Import Base.
Local Open Scope list_scope.

(** [struct IO]: whether it prints to its string, the string's memory ([None]: not initialised), and its length. *)
Record io : Type := IO { to_string : bool; memory : list (option Z); len : nat }.
Definition new_io : io := IO false [] 0.
(** Storing bytes from an index on; outside the memory it is undefined. *)
Fixpoint store (m : list (option Z)) (i : nat) (x : list Z) : outcome (list (option Z)) :=
  match x with [] => Ok m | c :: r => if (i <? length m)%nat then store (firstn i m ++ Some c :: skipn (S i) m) (S i) r else UB end.
(** [realloc] to [n] bytes keeps the bytes there were. *)
Definition c_realloc (m : list (option Z)) (n : nat) : list (option Z) := firstn n m ++ repeat None (n - length m).
(** [io_print_string], IO.c:20-29; [vsprintf] ends its text with a zero byte. *)
Definition io_print_string (o : io) (text : list Z) : outcome io :=
  let l := length text in
  let n := (len o + l)%nat in
  do m <- store (c_realloc (memory o) (n + 1)) (n - l) (text ++ [0]);
  Ok (IO (to_string o) m n).
(** [o.print(&o, ...)]: the stream and what goes to the file ([io_print_file], IO.c:15-18). *)
Definition print (o : io) (text : list Z) : outcome (io * list Z) :=
  if to_string o then do o' <- io_print_string o text; Ok (o', []) else Ok (o, text).
(** [YASL_pushlstr(S, o.string, o.len)]: the bytes that are read; reading outside or what was not initialised is undefined. *)
Fixpoint bytes_at (m : list (option Z)) (n : nat) {struct n} : outcome (list Z) :=
  match n with O => Ok [] | S n' => match m with Some c :: r => do x <- bytes_at r n'; Ok (c :: x) | _ => UB end end.
Definition io_load (o : io) : outcome (list Z) := bytes_at (memory o) (len o).

(** [vm.out], [vm.err], [compiler.parser.lex.err], [compiler.status != YASL_SUCCESS], and what the process has written to stdout and stderr. *)
Record host : Type := Host { out : io; err : io; lex_err : io; failed : bool; stdout : list Z; stderr : list Z }.
Definition new_host : host := Host new_io new_io new_io false [] [].
Definition capturing (o : io) : io := IO true (memory o) (len o).
(** What happens: the host asks for capturing, the program prints, an error message is printed by the machine or by the compiler (which then has
    failed), the state is reset with the next program. *)
Inductive event : Type := CaptureOut | CaptureErr | Print (text : list Z) | RunError (text : list Z) | CompileError (text : list Z) | Reset.
Definition happen (h : host) (e : event) : outcome host :=
  match e with
  | CaptureOut => Ok (Host (capturing (out h)) (err h) (lex_err h) (failed h) (stdout h) (stderr h))
  | CaptureErr => Ok (Host (out h) (capturing (err h)) (capturing (lex_err h)) (failed h) (stdout h) (stderr h))
  | Print x => do r <- print (out h) x; Ok (Host (fst r) (err h) (lex_err h) (failed h) (stdout h ++ snd r) (stderr h))
  | RunError x => do r <- print (err h) x; Ok (Host (out h) (fst r) (lex_err h) (failed h) (stdout h) (stderr h ++ snd r))
  | CompileError x => do r <- print (lex_err h) x; Ok (Host (out h) (err h) (fst r) true (stdout h) (stderr h ++ snd r))
  | Reset => Ok (Host (out h) (err h) new_io false (stdout h) (stderr h))     (* NEW_LEXER, lexer.h:14-25, has a new IO *)
  end.
Fixpoint history (h : host) (l : list event) : outcome host := match l with [] => Ok h | e :: r => do h' <- happen h e; history h' r end.
(** [YASL_loadprintout], [YASL_loadprinterr], yasl.c:67-77: the string that is pushed. *)
Definition YASL_loadprintout (h : host) : outcome (list Z) := io_load (out h).
Definition YASL_loadprinterr (h : host) : outcome (list Z) := if failed h then io_load (lex_err h) else io_load (err h).
