(** * Argument checks for C functions: model of /repo/yasl_aux.c:20-66 on the state of Api.v. *)
From Coq Require Import String.
From Verif Require Import Base Value Text Names Api.
Local Open Scope list_scope.

(** A check passes with a value, or prints a message and throws. (The line number and the trace that follow a message are left out.) *)
Inductive checked (A : Type) : Type := Passed (x : A) | Raised (message : list Z) (e : yerr).
Arguments Passed {A} x. Arguments Raised {A} message e.
Section Userdata.
(** For the address of a userdata: the pointer that is its tag and the pointer it holds; for a tag, its text. *)
Variable tag data : Z -> Z.
Variable tag_text : Z -> list Z.
(** [obj_typename], interpreter/YASL_Object.c:15-31 and 138-144. *)
Definition typename (v : value) : list Z :=
  match v with
  | VUserData p => tag_text (tag p)
  | _ => bytes_of (match vtype v with
         | TUndef => "undef" | TFloat => "float" | TInt => "int" | TBool => "bool" | TStr => "str" | TList => "list" | TTable => "table"
         | TFn | TClosure | TCfn => "fn" | TUserPtr => "userptr" | TUserData => "userdata"
         | TEnd => "" (* the end marker is never an argument *) end)
  end.
(** [YASLX_print_err_bad_arg_type], yasl_aux.c:20-26, with MSG_TYPE_ERROR, yasl_include.h:50. *)
Definition bad_arg (fn : list Z) (position : Z) (expected actual : list Z) : list Z :=
  bytes_of "TypeError: " ++ fn ++ bytes_of " expected arg in position " ++ print_i64 position ++ bytes_of " to be of type " ++ expected ++ bytes_of ", got arg of type " ++ actual ++ bytes_of ".".
(** the message, then [YASL_throw_err] *)
Definition refuse {A} (s : api) (fn : list Z) (n : Z) (expected : list Z) (v : value) : outcome (checked A) :=
  if a_run s then Ok (Raised (bad_arg fn n expected (typename v)) EType) else UB.
(** [YASLX_checknint], :28-34: the type in the message is [YASL_peektypename(S)], that of the top of the stack. *)
Definition YASLX_checknint (s : api) (fn : list Z) (n : Z) : outcome (checked Z) :=
  do (s, b) <- YASL_isnint s n;
  if b then do r <- YASL_peeknint s n; Ok (Passed (snd r)) else do t <- a_peek s; refuse s fn n (bytes_of "int") t.
(** [YASLX_checknfloat], :36-42. *)
Definition YASLX_checknfloat (s : api) (fn : list Z) (n : Z) : outcome (checked float) :=
  do (s, b) <- YASL_isnfloat s n;
  if b then do r <- YASL_peeknfloat s n; Ok (Passed (snd r)) else do t <- a_peek s; refuse s fn n (bytes_of "float") t.
(** [YASLX_checknbool], :44-50. *)
Definition YASLX_checknbool (s : api) (fn : list Z) (n : Z) : outcome (checked bool) :=
  do (s, b) <- YASL_isnbool s n;
  if b then do r <- YASL_peeknbool s n; Ok (Passed (snd r)) else do t <- a_peek s; refuse s fn n (bytes_of "bool") t.
(** [YASLX_checknundef], :52-57: here it is [YASL_peekntypename(S, n)]. *)
Definition YASLX_checknundef (s : api) (fn : list Z) (n : Z) : outcome (checked unit) :=
  do (s, b) <- YASL_isnundef s n;
  if b then Ok (Passed tt) else do v <- a_slot s (a_fp s + 1 + n); refuse s fn n (bytes_of "undef") v.
(** [YASL_isnuserdata], yasl.c:481-484: the tags are compared as pointers; [YASLX_checknuserdata], yasl_aux.c:59-66. *)
Definition YASL_isnuserdata (t : Z) : api -> Z -> outcome (api * bool) := a_testn (fun v => match v with VUserData p => tag p =? t | _ => false end).
Definition YASLX_checknuserdata (s : api) (t : Z) (fn : list Z) (n : Z) : outcome (checked Z) :=
  do (s, b) <- YASL_isnuserdata t s n;
  do v <- a_slot s (a_fp s + 1 + n);
  if b then Ok (Passed (match v with VUserData p => data p | _ => 0 end)) else refuse s fn n (tag_text t) v.
End Userdata.
