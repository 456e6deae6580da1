(** * Finding packages: model of /repo/std/yasl-std-require.c:15-36 (open_on_path) and 111-142 (search_on_path, with dlopen), yasl.c:580-590
    (YASL_peekcstr) and the macros of yasl_conf.h:50-60. A C string is a list of bytes with its zero byte; a pointer into one is the
    rest of the list, a difference of pointers a number. What can be opened is a parameter. *)
From Coq Require Import String.
From Verif Require Import Base Names Capture.
Local Open Scope list_scope.
Local Open Scope Z_scope.

Definition PATH_SEP : Z := 59.   (* ; *)
Definition PATH_MARK : Z := 63.  (* ? *)
Definition DEFAULT_PATH : list Z := Eval compute in bytes_of "/usr/local/lib/yasl/?.yasl;./?.yasl;".
Definition DEFAULT_CPATH : list Z := Eval compute in bytes_of "/usr/local/lib/yasl/lib?.so;/usr/local/lib/yasl/?.so;./lib?.so;./?.so;".

(** [strchr] and [strlen]; reading after the end is undefined. *)
Fixpoint strchr (s : list Z) (c : Z) : outcome (option nat) :=
  match s with
  | [] => UB
  | x :: r => if x =? c then Ok (Some O) else if x =? 0 then Ok None else do n <- strchr r c; Ok (option_map S n)
  end.
Fixpoint strlen (s : list Z) : outcome nat := match s with [] => UB | x :: r => if x =? 0 then Ok O else do n <- strlen r; Ok (S n) end.
(** [n] bytes from a pointer, for [memcpy] *)
Definition bytes_from (s : list Z) (n : nat) : outcome (list Z) := if (n <=? length s)%nat then Ok (firstn n s) else UB.
(** the text that [fopen] and [dlopen] read from a buffer *)
Fixpoint c_text (m : list (option Z)) : outcome (list Z) :=
  match m with Some c :: r => if c =? 0 then Ok [] else do x <- c_text r; Ok (c :: x) | _ => UB end.

(** the buffer of one pass of the loop, yasl-std-require.c:19-24 and 115-120 *)
Definition fill (start name : list Z) (end_ : nat) : outcome (list (option Z)) :=
  do l <- strlen name;
  let buffer := repeat None (end_ + l + 1) in
  do split <- strchr start PATH_MARK;
  match split with
  | None => UB
  | Some split =>
    do a <- bytes_from start split;
    do b1 <- store buffer 0 a;
    do n <- bytes_from name l;
    do b2 <- store b1 split n;
    if (end_ <? split + 1)%nat then UB                  (* end - split - 1 wraps around *)
    else do z <- bytes_from (skipn (split + 1) start) (end_ - split - 1);
         do b3 <- store b2 (split + l) z;
         if (end_ + l <? 1)%nat then UB else store b3 (end_ + l - 1) [0]
  end.
(** The names that are opened, in order, and whether the last of them could be. *)
Section Files.
Variable opens : list Z -> bool.
Fixpoint search_loop (fuel : nat) (start name : list Z) : outcome (list (list Z) * bool) :=
  match fuel with
  | O => NoFuel
  | S fuel =>
    do e <- strchr start PATH_SEP;
    match e with
    | None => do n <- strlen name; do x <- bytes_from name n; Ok ([x], opens x)
    | Some e =>
      do b <- fill start name e;
      do x <- c_text b;
      if opens x then Ok ([x], true) else do r <- search_loop fuel (skipn (e + 1) start) name; Ok (x :: fst r, snd r)
    end
  end.
Definition search_on (path name : list Z) : outcome (list (list Z) * bool) := search_loop (length path + 1) (path ++ [0]) name.
(** [require(s)], yasl-std-require.c:38-46, and [YASL_require_c], :144-160: the bytes of the string with a zero byte. *)
Definition require_search (s : list Z) : outcome (list (list Z) * bool) := search_on DEFAULT_PATH (s ++ [0]).
Definition require_c_search (s : list Z) : outcome (list (list Z) * bool) := search_on DEFAULT_CPATH (s ++ [0]).
End Files.
