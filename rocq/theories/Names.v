(** * The names of methods and metamethods: /repo/interpreter/specialstrings.x and operator_names.h, as byte lists. *)
From Coq Require Import ZArith List String Ascii.
Import ListNotations.
Definition bytes_of (s : string) : list Z := map (fun c => Z.of_N (N_of_ascii c)) (list_ascii_of_string s).
Definition n_get : list Z := Eval compute in bytes_of "__get".
Definition n_set : list Z := Eval compute in bytes_of "__set".
Definition n_len : list Z := Eval compute in bytes_of "__len".
Definition n_eq : list Z := Eval compute in bytes_of "__eq".
Definition n_add : list Z := Eval compute in bytes_of "__add".
Definition n_bor : list Z := Eval compute in bytes_of "__bor".
Definition n_call : list Z := Eval compute in bytes_of "__call".
Definition n_tostr : list Z := Eval compute in bytes_of "tostr".
(** The metamethods of the binary operators, in the order of [binop_code] in Ops.v (equality and identity have none here), and of
    the unary ones, in the order of [unop_code]; /repo/interpreter/operator_names.h:5-27. *)
Definition op_names2 : list (list Z) := Eval compute in map bytes_of
  ["__bor"; "__bxor"; "__band"; "__bandnot"; "__bshl"; "__bshr"; "__add"; "__sub"; "__mul"; "__div"; "__idiv"; "__mod"; "__pow"; "__concat"; "__gt"; "__ge"; "__lt"; "__le"]%string.
Definition op_names1 : list (list Z) := Eval compute in map bytes_of ["__neg"; "__pos"; ""; "__bnot"; "__len"]%string.
(** The names and numbers of arguments of the methods of each type, /repo/interpreter/builtins.c:27-122. *)
Definition undef_names : list (list Z * Z) := Eval compute in
  map (fun p => (bytes_of (fst p), snd p)) [("tostr"%string, 1%Z); ("tobool"%string, 1%Z)].
Definition float_names : list (list Z * Z) := Eval compute in
  map (fun p => (bytes_of (fst p), snd p)) [("toint"%string, 1%Z); ("tobool"%string, 1%Z); ("tofloat"%string, 1%Z); ("tostr"%string, 1%Z)].
Definition int_names : list (list Z * Z) := Eval compute in
  map (fun p => (bytes_of (fst p), snd p)) [("toint"%string, 1%Z); ("tobool"%string, 1%Z); ("tofloat"%string, 1%Z); ("tostr"%string, 1%Z)].
Definition bool_names : list (list Z * Z) := Eval compute in
  map (fun p => (bytes_of (fst p), snd p)) [("tostr"%string, 1%Z); ("tobool"%string, 1%Z)].
Definition str_names : list (list Z * Z) := Eval compute in
  map (fun p => (bytes_of (fst p), snd p)) [("__len"%string, 1%Z); ("tofloat"%string, 1%Z); ("toint"%string, 1%Z); ("isalnum"%string, 1%Z);
    ("isal"%string, 1%Z); ("isnum"%string, 1%Z); ("isspace"%string, 1%Z); ("tobool"%string, 1%Z); ("tostr"%string, 1%Z);
    ("toupper"%string, 1%Z); ("tolower"%string, 1%Z); ("startswith"%string, 2%Z); ("endswith"%string, 2%Z); ("replace"%string, 4%Z);
    ("search"%string, 2%Z); ("count"%string, 2%Z); ("split"%string, 2%Z); ("ltrim"%string, 2%Z); ("rtrim"%string, 2%Z);
    ("trim"%string, 2%Z); ("__get"%string, 2%Z); ("rep"%string, 2%Z)].
Definition list_names : list (list Z * Z) := Eval compute in
  map (fun p => (bytes_of (fst p), snd p)) [("__len"%string, 1%Z); ("push"%string, 2%Z); ("copy"%string, 1%Z); ("__add"%string, 2%Z);
    ("__eq"%string, 2%Z); ("pop"%string, 1%Z); ("__get"%string, 2%Z); ("__set"%string, 3%Z); ("tostr"%string, 1%Z);
    ("search"%string, 2%Z); ("reverse"%string, 1%Z); ("clear"%string, 1%Z); ("join"%string, 2%Z); ("sort"%string, 1%Z);
    ("spread"%string, 1%Z); ("count"%string, 2%Z); ("insert"%string, 3%Z)].
Definition table_names : list (list Z * Z) := Eval compute in
  map (fun p => (bytes_of (fst p), snd p)) [("__len"%string, 1%Z); ("remove"%string, 2%Z); ("keys"%string, 1%Z); ("values"%string, 1%Z);
    ("copy"%string, 1%Z); ("tostr"%string, 1%Z); ("__get"%string, 2%Z); ("__set"%string, 3%Z); ("__bor"%string, 2%Z);
    ("__eq"%string, 2%Z); ("clear"%string, 1%Z)].
