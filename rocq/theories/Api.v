(** * The embedding API: model of /repo/yasl.c (stack, container and global functions declared in /repo/yasl.h).
    The value stack is the array the C code uses, with stale values above [sp]. Reference counts are not part of
    this model (Refs.v). [YASL_ASSERT]s are compiled out, as in a release build: reading below the stack is UB.
    [vm_throw_err] is a [longjmp] to the [setjmp] of [vm_run]: [Err], and UB when no program is being executed. *)
From Verif Require Import Base Value Hash Table Lists.

(** STACK_SIZE, /repo/interpreter/VM.h. *)
Definition API_STACK_SIZE : Z := 1024.
Definition aname := list Z.

(** The parts of [struct YASL_State] the functions below touch: [vm.stack], [vm.sp], [vm.fp], the lists and tables reachable
    (by address), the metatable of each container, [vm.globals], [vm.metatables], and the compiler's global scope: the
    declared names, with the constness bit of their index (/repo/compiler/env.c; a list stands for that hash table, whose
    values are ints, so C02 applies). [a_next] is an address not in use;
    [a_run]: a program is being executed, so that [vm.buf] has been set by [setjmp] in [vm_run]. *)
Record api : Type := Api {
  a_slots : list value; a_sp : Z; a_fp : Z;
  a_lists : Z -> option ylist; a_tables : Z -> option table; a_mt : Z -> option Z;
  a_globals : table; a_mts : table; a_decl : list (aname * bool);
  a_next : Z; a_run : bool }.

Definition set_stack (s : api) (slots : list value) (sp : Z) : api :=
  Api slots sp (a_fp s) (a_lists s) (a_tables s) (a_mt s) (a_globals s) (a_mts s) (a_decl s) (a_next s) (a_run s).
Definition set_lists (s : api) (l : Z -> option ylist) : api :=
  Api (a_slots s) (a_sp s) (a_fp s) l (a_tables s) (a_mt s) (a_globals s) (a_mts s) (a_decl s) (a_next s) (a_run s).
Definition set_tables (s : api) (t : Z -> option table) : api :=
  Api (a_slots s) (a_sp s) (a_fp s) (a_lists s) t (a_mt s) (a_globals s) (a_mts s) (a_decl s) (a_next s) (a_run s).
Definition set_mt (s : api) (m : Z -> option Z) : api :=
  Api (a_slots s) (a_sp s) (a_fp s) (a_lists s) (a_tables s) m (a_globals s) (a_mts s) (a_decl s) (a_next s) (a_run s).
Definition set_globals (s : api) (g : table) : api :=
  Api (a_slots s) (a_sp s) (a_fp s) (a_lists s) (a_tables s) (a_mt s) g (a_mts s) (a_decl s) (a_next s) (a_run s).
Definition set_mts (s : api) (g : table) : api :=
  Api (a_slots s) (a_sp s) (a_fp s) (a_lists s) (a_tables s) (a_mt s) (a_globals s) g (a_decl s) (a_next s) (a_run s).
Definition set_decl (s : api) (d : list (aname * bool)) : api :=
  Api (a_slots s) (a_sp s) (a_fp s) (a_lists s) (a_tables s) (a_mt s) (a_globals s) (a_mts s) d (a_next s) (a_run s).
Definition set_next (s : api) (n : Z) : api :=
  Api (a_slots s) (a_sp s) (a_fp s) (a_lists s) (a_tables s) (a_mt s) (a_globals s) (a_mts s) (a_decl s) n (a_run s).

Definition at_addr {A} (f : Z -> option A) (p : Z) (x : A) : Z -> option A := fun q => if q =? p then Some x else f q.

(** Status codes: YASL_SUCCESS or an error code, /repo/yasl_error.h. *)
Inductive status : Set := Success | Failure (e : yerr).

(** [vm_throw_err], VM.c:183-186. *)
Definition throw {A} (s : api) (e : yerr) : outcome A := if a_run s then Err e else UB.
Definition throwing {A} (s : api) (x : outcome A) : outcome A := match x with Err e => throw s e | _ => x end.

(** ** The stack (/repo/interpreter/VM.c) *)
(** [vm_peek(vm, i)], VM.h: [vm->stack[i]]. *)
Definition a_slot (s : api) (i : Z) : outcome value :=
  match nthZ (a_slots s) i with Some v => Ok v | None => UB end.
Definition a_peek (s : api) : outcome value := a_slot s (a_sp s).
(** [vm_push], VM.c:188-199. *)
Definition a_push (s : api) (v : value) : outcome api :=
  if a_sp s + 1 >=? API_STACK_SIZE then throw s EStackOverflow
  else match nthZ (a_slots s) (a_sp s + 1) with
       | Some _ => Ok (set_stack s (upd (a_slots s) (Z.to_nat (a_sp s + 1)) v) (a_sp s + 1))
       | None => UB
       end.
(** [vm_pop], VM.c:226-229. *)
Definition a_pop (s : api) : outcome (api * value) :=
  do v <- a_peek s; Ok (set_stack s (a_slots s) (a_sp s - 1), v).

(** [YASL_pop], yasl.c:359-362. *)
Definition YASL_pop (s : api) : outcome api := do (s1, _) <- a_pop s; Ok s1.
(** [YASL_duptop], yasl.c:364-368. *)
Definition YASL_duptop (s : api) : outcome (api * status) :=
  do v <- a_peek s; do s1 <- a_push s v; Ok (s1, Success).
(** The push functions: [YASL_pushundef] yasl.c:272-274, [YASL_pushfloat] :276-278, [YASL_pushint] :280-282,
    [YASL_pushbool] :284-286, [YASL_pushlit]/[YASL_pushzstr]/[YASL_pushlstr] :312-326 (strings by contents),
    [YASL_pushuserptr] :300-302. *)
Definition YASL_pushundef (s : api) : outcome api := a_push s VUndef.
Definition YASL_pushfloat (s : api) (f : float) : outcome api := a_push s (VFloat f).
Definition YASL_pushint (s : api) (i : Z) : outcome api := a_push s (VInt i).
Definition YASL_pushbool (s : api) (b : bool) : outcome api := a_push s (VBool b).
Definition YASL_pushstr (s : api) (x : list Z) : outcome api := a_push s (VStr x).
Definition YASL_pushuserptr (s : api) (p : Z) : outcome api := a_push s (VUserPtr p).
(** [YASL_pushtable], yasl.c:340-344, and [YASL_pushlist], :346-350, with [rcht_new]/[rcls_new]; the builtin metatables
    are not modelled ([a_mt] starts empty). The container exists even if the push overflows. *)
Definition YASL_pushtable (s : api) : outcome api :=
  do t <- table_new;
  let p := a_next s in
  a_push (set_next (set_tables s (at_addr (a_tables s) p t)) (p + 1)) (VTable p).
Definition YASL_pushlist (s : api) : outcome api :=
  let p := a_next s in
  a_push (set_next (set_lists s (at_addr (a_lists s) p (list_new LIST_BASESIZE))) (p + 1)) (VList p).

(** ** Type tests and reads of the top: yasl.c:451-560. [vm_isundef(vm)] etc. test [vm_peek(vm).type]. *)
Definition a_test (f : value -> bool) (s : api) : outcome (api * bool) := do v <- a_peek s; Ok (s, f v).
Definition v_isundef (v : value) : bool := match v with VUndef => true | _ => false end.
Definition v_isbool (v : value) : bool := match v with VBool _ => true | _ => false end.
Definition v_isfloat (v : value) : bool := match v with VFloat _ => true | _ => false end.
Definition v_isint (v : value) : bool := match v with VInt _ => true | _ => false end.
Definition v_isstr (v : value) : bool := match v with VStr _ => true | _ => false end.
Definition v_islist (v : value) : bool := match v with VList _ => true | _ => false end.
Definition v_istable (v : value) : bool := match v with VTable _ => true | _ => false end.
(** [YASL_isundef] yasl.c:447, [YASL_isbool] :455, [YASL_isfloat] :463, [YASL_isint] :471, [YASL_isstr] :484,
    [YASL_islist] :492, [YASL_istable] :500. *)
Definition YASL_isundef := a_test v_isundef.
Definition YASL_isbool := a_test v_isbool.
Definition YASL_isfloat := a_test v_isfloat.
Definition YASL_isint := a_test v_isint.
Definition YASL_isstr := a_test v_isstr.
Definition YASL_islist := a_test v_islist.
Definition YASL_istable := a_test v_istable.
(** The [isn]/[peekn] variants read slot [fp + 1 + n]: yasl.c:451-453 etc. *)
Definition a_testn (f : value -> bool) (s : api) (n : Z) : outcome (api * bool) :=
  do v <- a_slot s (a_fp s + 1 + n); Ok (s, f v).
Definition YASL_isnundef := a_testn v_isundef.
Definition YASL_isnbool := a_testn v_isbool.
Definition YASL_isnfloat := a_testn v_isfloat.
Definition YASL_isnint := a_testn v_isint.
Definition YASL_isnstr := a_testn v_isstr.
Definition YASL_isnlist := a_testn v_islist.
Definition YASL_isntable := a_testn v_istable.

(** The union members, read after the type test. *)
Definition as_bool (v : value) : bool := match v with VBool b => b | _ => false end.
Definition as_int (v : value) : Z := match v with VInt i => i | _ => 0 end.
Definition as_float (v : value) : float := match v with VFloat f => f | _ => S754_zero false end.

(** [YASL_peekbool] yasl.c:512-517, [YASL_peekfloat] :534-539, [YASL_peekint] :556-561 and the [n] variants. *)
Definition YASL_peekbool (s : api) : outcome (api * bool) :=
  do (s, b) <- YASL_isbool s; if b then do v <- a_peek s; Ok (s, as_bool v) else Ok (s, false).
Definition YASL_peekfloat (s : api) : outcome (api * float) :=
  do (s, b) <- YASL_isfloat s; if b then do v <- a_peek s; Ok (s, as_float v) else Ok (s, S754_zero false).
Definition YASL_peekint (s : api) : outcome (api * Z) :=
  do (s, b) <- YASL_isint s; if b then do v <- a_peek s; Ok (s, as_int v) else Ok (s, 0).
Definition YASL_peeknbool (s : api) (n : Z) : outcome (api * bool) :=
  do (s, b) <- YASL_isnbool s n; if b then do v <- a_slot s (a_fp s + 1 + n); Ok (s, as_bool v) else Ok (s, false).
Definition YASL_peeknfloat (s : api) (n : Z) : outcome (api * float) :=
  do (s, b) <- YASL_isnfloat s n; if b then do v <- a_slot s (a_fp s + 1 + n); Ok (s, as_float v) else Ok (s, S754_zero false).
Definition YASL_peeknint (s : api) (n : Z) : outcome (api * Z) :=
  do (s, b) <- YASL_isnint s n; if b then do v <- a_slot s (a_fp s + 1 + n); Ok (s, as_int v) else Ok (s, 0).
(** [YASL_popbool] yasl.c:527-532, [YASL_popfloat] :549-554, [YASL_popint] :571-576. *)
Definition YASL_popbool (s : api) : outcome (api * bool) :=
  do (s, b) <- YASL_isbool s; if b then do (s, v) <- a_pop s; Ok (s, as_bool v) else Ok (s, false).
Definition YASL_popfloat (s : api) : outcome (api * float) :=
  do (s, b) <- YASL_isfloat s; if b then do (s, v) <- a_pop s; Ok (s, as_float v) else Ok (s, S754_zero false).
Definition YASL_popint (s : api) : outcome (api * Z) :=
  do (s, b) <- YASL_isint s; if b then do (s, v) <- a_pop s; Ok (s, as_int v) else Ok (s, 0).
(** [YASL_peekcstr] yasl.c:578-588: a NUL-terminated copy, [None] for NULL. [YASL_popcstr] :590-594. *)
Definition YASL_peekcstr (s : api) : outcome (api * option (list Z)) :=
  do (s, b) <- YASL_isstr s;
  if b then do v <- a_peek s; Ok (s, match v with VStr x => Some (x ++ [0]) | _ => None end) else Ok (s, None).
Definition YASL_popcstr (s : api) : outcome (api * option (list Z)) :=
  do (s, r) <- YASL_peekcstr s; do s <- YASL_pop s; Ok (s, r).

(** ** Containers *)
Definition list_at (s : api) (p : Z) : outcome ylist := match a_lists s p with Some l => Ok l | None => UB end.
Definition table_at (s : api) (p : Z) : outcome table := match a_tables s p with Some t => Ok t | None => UB end.

(** [YASL_listpush], yasl.c:425-435. *)
Definition YASL_listpush (s : api) : outcome (api * status) :=
  do (s, v) <- a_pop s;
  do top <- a_peek s;
  match top with
  | VList p => do l <- list_at s p; do l' <- list_append l v; Ok (set_lists s (at_addr (a_lists s) p l'), Success)
  | _ => Ok (s, Failure EType)
  end.
(** [YASL_listget], yasl.c:414-423, with [list___get_helper] (list_methods.c:24-35). *)
Definition YASL_listget (s : api) (n : Z) : outcome (api * status) :=
  do top <- a_peek s;
  match top with
  | VList p => do l <- list_at s p; do v <- throwing s (list_get l n); do s <- a_push s v; Ok (s, Success)
  | _ => Ok (s, Failure EType)
  end.
(** [YASL_tableset], yasl.c:394-406. *)
Definition YASL_tableset (fuel : nat) (s : api) : outcome (api * status) :=
  do (s, v) <- a_pop s;
  do (s, k) <- a_pop s;
  do top <- a_peek s;
  match top with
  | VTable p =>
      do t <- table_at s p;
      do r <- table_insert fuel t k v;
      match r with
      | Some t' => Ok (set_tables s (at_addr (a_tables s) p t'), Success)
      | None => Ok (s, Failure EType)
      end
  | _ => Ok (s, Failure EType)
  end.
(** [YASL_tablenext], yasl.c:370-392. *)
Definition YASL_tablenext (fuel : nat) (s : api) : outcome (api * bool) :=
  do (s, k) <- a_pop s;
  do top <- a_peek s;
  match top with
  | VTable p =>
      do t <- table_at s p;
      do r <- table_next fuel t k;
      match r with
      | Some (k', v') => do s <- a_push s k'; do s <- a_push s v'; Ok (s, true)
      | None => Ok (s, false)
      end
  | _ => Ok (s, false)
  end.
(** [YASL_len], yasl.c:410-412, with [vm_len_unop] (VM.c:481-487) and the builtin [__len] of lists and tables
    (list_methods.c, table_methods.c). Other operands: the type error of a missing [__len]. Not modelled: a
    user-supplied [__len] (metatable replaced), and the stack and call frame the call of [__len] needs for a moment. *)
Definition YASL_len (s : api) : outcome api :=
  do (s1, v) <- a_pop s;
  match v with
  | VStr x => a_push s1 (VInt (Z.of_nat (length x)))
  | VList p => do l <- list_at s p; a_push s1 (VInt (list_length l))
  | VTable p => do t <- table_at s p; a_push s1 (VInt (table_length t))
  | _ => throw s EType
  end.

(** ** Globals and metatables *)
Definition aname_eqb (x y : aname) : bool := if list_eq_dec Z.eq_dec x y then true else false.
Fixpoint decl_of (d : list (aname * bool)) (x : aname) : option bool :=
  match d with [] => None | (y, k) :: r => if aname_eqb y x then Some k else decl_of r x end.
(** [YASL_declglobal], yasl.c:175-179: an existing entry is overwritten by a non-constant one. *)
Definition YASL_declglobal (s : api) (x : aname) : outcome (api * status) :=
  Ok (set_decl s ((x, false) :: a_decl s), Success).
(** [YASL_setglobal], yasl.c:186-198. *)
Definition YASL_setglobal (fuel : nat) (s : api) (x : aname) : outcome (api * status) :=
  match decl_of (a_decl s) x with
  | None => Ok (s, Failure EError)
  | Some true => Ok (s, Failure EError)
  | Some false =>
      do v <- a_peek s;
      do g <- insert_fast fuel (a_globals s) (VStr x) v;
      do s <- YASL_pop (set_globals s g);
      Ok (s, Success)
  end.
(** [YASL_loadglobal], yasl.c:200-209. *)
Definition YASL_loadglobal (fuel : nat) (s : api) (x : aname) : outcome (api * status) :=
  do v <- table_search fuel (a_globals s) (VStr x);
  if is_end v then Ok (s, Failure EError)
  else do s <- a_push s v; Ok (s, Success).
(** [YASL_registermt], yasl.c:211-217, and [YASL_loadmt], :219-228. *)
Definition YASL_registermt (fuel : nat) (s : api) (x : aname) : outcome (api * status) :=
  do v <- a_peek s;
  do g <- insert_fast fuel (a_mts s) (VStr x) v;
  do s <- YASL_pop (set_mts s g);
  Ok (s, Success).
Definition YASL_loadmt (fuel : nat) (s : api) (x : aname) : outcome (api * status) :=
  do v <- table_search fuel (a_mts s) (VStr x);
  if is_end v then Ok (s, Failure EError)
  else do s <- a_push s v; Ok (s, Success).
(** [YASL_setmt], yasl.c:230-244. [None] for a NULL metatable. Userdata carry a metatable like containers. *)
Definition YASL_setmt (s : api) : outcome (api * status) :=
  do top <- a_peek s;
  if negb (v_istable top) && negb (v_isundef top) then Ok (s, Failure EType)
  else
    do (s, mt) <- (match top with VTable p => do (s1, _) <- a_pop s; Ok (s1, Some p) | _ => Ok (s, None) end);
    do v <- a_peek s;
    match v with
    | VUserData p | VTable p | VList p =>
        Ok (set_mt s (fun q => if q =? p then mt else a_mt s q), Success)
    | _ => Ok (s, Failure EType)
    end.

(** ** Host programs: sequences of API calls, with what each call returns. *)
Inductive kind : Set := KUndef | KBool | KFloat | KInt | KStr | KList | KTable.
(** [HPush v] stands for the push functions of scalars and strings; [HFrame n] for the entry into a C function called
    with [n] arguments ([vm_CALL_cfn], VM.c:1250-1264, where [fp] is the slot below them). *)
Inductive hop : Type :=
| HPush (v : value) | HPushList | HPushTable | HPop | HDup | HIs (k : kind) | HIsN (k : kind) (n : Z)
| HPeekBool | HPeekFloat | HPeekInt | HPeekNBool (n : Z) | HPeekNFloat (n : Z) | HPeekNInt (n : Z) | HPeekCstr
| HPopBool | HPopFloat | HPopInt | HPopCstr
| HListPush | HListGet (n : Z) | HTableSet | HLen
| HDecl (x : aname) | HSetGlobal (x : aname) | HLoadGlobal (x : aname)
| HRegisterMt (x : aname) | HLoadMt (x : aname) | HSetMt | HFrame (n : Z).
Inductive hres : Type :=
| RUnit | RStatus (r : status) | RBool (b : bool) | RInt (z : Z) | RFloat (f : float) | RCstr (s : option (list Z)).
Definition ret {A} (f : A -> hres) (x : outcome (api * A)) : outcome (api * hres) := do (s, r) <- x; Ok (s, f r).
Definition push_value (s : api) (v : value) : outcome api :=
  match v with
  | VUndef => YASL_pushundef s
  | VBool b => YASL_pushbool s b
  | VInt i => YASL_pushint s i
  | VFloat f => YASL_pushfloat s f
  | VStr x => YASL_pushstr s x
  | VUserPtr p => YASL_pushuserptr s p
  | _ => a_push s v
  end.
Definition set_fp (s : api) (fp : Z) : api :=
  Api (a_slots s) (a_sp s) fp (a_lists s) (a_tables s) (a_mt s) (a_globals s) (a_mts s) (a_decl s) (a_next s) (a_run s).
Definition hstep (fuel : nat) (s : api) (o : hop) : outcome (api * hres) :=
  match o with
  | HPush v => do s <- push_value s v; Ok (s, RUnit)
  | HPushList => do s <- YASL_pushlist s; Ok (s, RUnit)
  | HPushTable => do s <- YASL_pushtable s; Ok (s, RUnit)
  | HPop => do s <- YASL_pop s; Ok (s, RUnit)
  | HDup => ret RStatus (YASL_duptop s)
  | HIs k => ret RBool (match k with KUndef => YASL_isundef | KBool => YASL_isbool | KFloat => YASL_isfloat | KInt => YASL_isint
                        | KStr => YASL_isstr | KList => YASL_islist | KTable => YASL_istable end s)
  | HIsN k n => ret RBool (match k with KUndef => YASL_isnundef | KBool => YASL_isnbool | KFloat => YASL_isnfloat
                        | KInt => YASL_isnint | KStr => YASL_isnstr | KList => YASL_isnlist | KTable => YASL_isntable end s n)
  | HPeekBool => ret RBool (YASL_peekbool s)
  | HPeekFloat => ret RFloat (YASL_peekfloat s)
  | HPeekInt => ret RInt (YASL_peekint s)
  | HPeekNBool n => ret RBool (YASL_peeknbool s n)
  | HPeekNFloat n => ret RFloat (YASL_peeknfloat s n)
  | HPeekNInt n => ret RInt (YASL_peeknint s n)
  | HPeekCstr => ret RCstr (YASL_peekcstr s)
  | HPopBool => ret RBool (YASL_popbool s)
  | HPopFloat => ret RFloat (YASL_popfloat s)
  | HPopInt => ret RInt (YASL_popint s)
  | HPopCstr => ret RCstr (YASL_popcstr s)
  | HListPush => ret RStatus (YASL_listpush s)
  | HListGet n => ret RStatus (YASL_listget s n)
  | HTableSet => ret RStatus (YASL_tableset fuel s)
  | HLen => do s <- YASL_len s; Ok (s, RUnit)
  | HDecl x => ret RStatus (YASL_declglobal s x)
  | HSetGlobal x => ret RStatus (YASL_setglobal fuel s x)
  | HLoadGlobal x => ret RStatus (YASL_loadglobal fuel s x)
  | HRegisterMt x => ret RStatus (YASL_registermt fuel s x)
  | HLoadMt x => ret RStatus (YASL_loadmt fuel s x)
  | HSetMt => ret RStatus (YASL_setmt s)
  | HFrame n => Ok (set_fp s (a_sp s - n), RUnit)
  end.
Fixpoint hruns (fuel : nat) (s : api) (ops : list hop) : outcome (api * list hres) :=
  match ops with
  | [] => Ok (s, [])
  | o :: ops' => do (s, r) <- hstep fuel s o; do (s, rs) <- hruns fuel s ops'; Ok (s, r :: rs)
  end.
(** The loop a host writes around [YASL_tablenext]: take the value off, leave the key for the next call. *)
Fixpoint next_loop (fuel steps : nat) (s : api) : outcome (api * list (value * value)) :=
  match steps with
  | O => NoFuel
  | S steps' =>
      do (s, more) <- YASL_tablenext fuel s;
      if more then
        do (s, v) <- a_pop s; do k <- a_peek s; do (s, l) <- next_loop fuel steps' s; Ok (s, (k, v) :: l)
      else Ok (s, [])
  end.
(** [YASL_newstate_bb] with [vm_init], VM.c:45-100: an empty stack (all slots undef), nothing declared. [run]: the host
    program is a C function called during [YASL_execute]. *)
Definition api_new (run : bool) : outcome api :=
  do g <- table_new;
  Ok (Api (repeat VUndef (Z.to_nat API_STACK_SIZE)) (-1) (-1) (fun _ => None) (fun _ => None) (fun _ => None) g g [] 1 run).
