(** * Refs: reference counting: refcount.c, the stack operations of VM.c, and the instructions and methods that move references
    between the stack, lists, tables, globals and loops. Memory is explicit: an object that was freed stays freed, and touching it is [UB].
    Left out of this file: weak references (nothing in /repo creates one), userdata other than lists and tables, closures and C functions
    (see RefClosure.v for closures), and [malloc] failure. A count is at most the number of references in memory, so [refs++] cannot wrap. *)
From Verif Require Import Base.

(** struct YASL_Object (interpreter/YASL_Object.h:25-45) as far as reference counting can see it: undef, the internal END mark,
    any other value that is not counted (bool, int, float, fn, userptr), or a pointer to a counted object. *)
Inductive rv : Set := RU | RE | RI (z : Z) | RP (a : nat).

(** struct YASL_String, YASL_List, YASL_Table; [mt] is RC_UserData.mt (interpreter/userdata.h:8-14). The entries of a table are
    listed in some order; that they form a finite map is C02. *)
Inductive obj : Set :=
| OStr (s : list Z)
| OList (items : list rv) (mt : option nat)
| OTab (ents : list (rv * rv)) (mt : option nat).
(** A memory cell: struct RC (interpreter/refcount.h:8-11) and the object; [None] once it has been freed. *)
Record cell : Set := Cell { refs : Z; body : option obj }.
Definition heap := list cell.

Fixpoint upd {A} (l : list A) (i : nat) (x : A) : list A :=
  match l, i with [], _ => [] | _ :: r, O => x :: r | y :: r, S j => y :: upd r j x end.

Definition hget (h : heap) (a : nat) : option obj := match nth_error h a with Some c => body c | None => None end.

(** The values a dying object lets go of, in order: ud_del_data (userdata.c:17-23) first the metatable, then the destructor
    YASL_List_del_data (YASL_List.c:33-37) or DEL_TABLE (YASL_Table.h:21-26) with del_item (YASL_Table.c:24-27); str_del_data nothing. *)
Definition of_mt (mt : option nat) : list rv := match mt with Some a => [RP a] | None => [] end.
Definition flat (es : list (rv * rv)) : list rv := flat_map (fun e => [fst e; snd e]) es.
Definition kids (o : obj) : list rv :=
  match o with OStr _ => [] | OList l mt => of_mt mt ++ l | OTab es mt => of_mt mt ++ flat es end.

(** inc_ref, refcount.c:46-66. *)
Definition inc (h : heap) (v : rv) : outcome heap :=
  match v with
  | RP a => match nth_error h a with
            | Some (Cell r (Some o)) => Ok (upd h a (Cell (r + 1) (Some o)))
            | _ => UB end
  | _ => Ok h end.

Fixpoint mfold {A B} (f : A -> B -> outcome A) (l : list B) (a : A) : outcome A :=
  match l with [] => Ok a | x :: r => do b <- f a x; mfold f r b end.

(** dec_ref and dec_strong_ref, refcount.c:94-149: [--refs] (a size_t: 0 wraps round); when it reaches 0 the contents are released one by one
    and then the object is freed. [fuel] bounds the depth of the recursion. *)
Fixpoint decf (fuel : nat) (h : heap) (v : rv) : outcome heap :=
  match v with
  | RP a =>
      match nth_error h a with
      | Some (Cell r (Some o)) =>
          let r' := if r =? 0 then two64 - 1 else r - 1 in
          let h1 := upd h a (Cell r' (Some o)) in
          if r' =? 0 then
            match fuel with
            | O => NoFuel
            | S f => do h2 <- mfold (decf f) (kids o) h1;
                     match nth_error h2 a with
                     | Some (Cell r2 (Some _)) => Ok (upd h2 a (Cell r2 None))
                     | _ => UB end
            end
          else Ok h1
      | _ => UB end
  | _ => Ok h end.
Definition dec (h : heap) (v : rv) : outcome heap := decf (length h) h v.

(** The part of struct VM (VM.h:95-137) that holds references. [sz] is [sp + 1]; all 1024 slots of the stack exist from the start and
    those above [sp] still hold what was there. [loops] are the active loopframes, innermost first. [mts] are the built-in metatables. *)
Record st : Set := St {
  hp : heap; stk : list rv; sz : nat; loops : list (rv * nat); cons_ : list rv; globs : list (rv * rv); mts : list rv }.
Definition with_hp (s : st) (h : heap) : st := St h (stk s) (sz s) (loops s) (cons_ s) (globs s) (mts s).
Definition with_stk (s : st) (l : list rv) (n : nat) : st := St (hp s) l n (loops s) (cons_ s) (globs s) (mts s).
Definition with_loops (s : st) (l : list (rv * nat)) : st := St (hp s) (stk s) (sz s) l (cons_ s) (globs s) (mts s).
Definition with_globs (s : st) (g : list (rv * rv)) : st := St (hp s) (stk s) (sz s) (loops s) (cons_ s) g (mts s).

(** What an operation does: [Ok (s, None)] it finished in [s]; [Ok (s, Some e)] it raised error [e] and left [s] behind (vm_throw_err,
    VM.c:184-187; unwinding the call frames while printing the error, VM.c:150-162, is a sequence of [IExit]). *)
Definition res := outcome (st * option yerr).
Definition fine (s : st) : res := Ok (s, None).
Definition fail (s : st) (e : yerr) : res := Ok (s, Some e).
Definition andthen (r : res) (f : st -> res) : res := do (s, e) <- r; match e with None => f s | Some e => fail s e end.

Definition slot (s : st) (i : nat) : outcome rv := match nth_error (stk s) i with Some v => Ok v | None => UB end.
(** vm_peek(vm, vm->sp - k), VM.h:22-26. *)
Definition peek (s : st) (k : nat) : outcome rv := if (k <? sz s)%nat then slot s (sz s - 1 - k) else UB.
(** vm_pop, VM.c:225-233: only [sp] moves. *)
Definition popn (s : st) (k : nat) : outcome st := if (k <=? sz s)%nat then Ok (with_stk s (stk s) (sz s - k)) else UB.

(** vm_push, VM.c:189-199. STACK_SIZE is 1024 (VM.h:18). *)
Definition STACK_SIZE : nat := Pos.to_nat 1024.
Definition push (s : st) (v : rv) : res :=
  if (STACK_SIZE <=? sz s)%nat then fail s EStackOverflow else
  do old <- slot s (sz s);
  do h1 <- dec (hp s) old;
  do h2 <- inc h1 v;
  fine (with_stk (with_hp s h2) (upd (stk s) (sz s) v) (S (sz s))).

Definition seg {A} (l : list A) (i n : nat) : list A := firstn n (skipn i l).
(** memmove of [n] objects from [src] to [dst] within the stack. *)
Definition memmove (l : list rv) (dst src n : nat) : outcome (list rv) :=
  if ((dst + n <=? length l) && (src + n <=? length l))%nat then Ok (firstn dst l ++ seg l src n ++ skipn (dst + n) l) else UB.

(** vm_insert, VM.c:255-265. The index and the value: the value is not counted. *)
Definition insert (s : st) (i : nat) (v : rv) : res :=
  if (STACK_SIZE <=? sz s)%nat then fail s EStackOverflow else
  if (sz s <? i)%nat then UB else
  do old <- slot s (sz s);
  do h1 <- dec (hp s) old;
  do l1 <- memmove (stk s) (i + 1) i (sz s - i);
  fine (with_stk (with_hp s h1) (upd l1 i v) (S (sz s))).
(** vm_rm, VM.c:267-273. *)
Definition rm (s : st) (i : nat) : res :=
  if (sz s <=? i)%nat then UB else
  do old <- slot s i;
  do h1 <- dec (hp s) old;
  do l1 <- memmove (stk s) i (i + 1) (sz s - 1 - i);
  fine (with_stk (with_hp s h1) (upd l1 (sz s - 1) RE) (sz s - 1)).
(** vm_rm_range, VM.c:275-287: the slots from [start] up to but not including [end_]. *)
Definition rm_range (s : st) (start end_ : nat) : res :=
  if ((sz s <? end_) || (end_ <? start))%nat then UB else
  let after := (sz s - end_)%nat in
  let len := (end_ - start)%nat in
  let m := Nat.min after len in
  do h1 <- mfold dec (seg (stk s) start m) (hp s);
  do h2 <- mfold inc (rev (seg (stk s) (sz s - m) m)) h1;
  do l1 <- memmove (stk s) start end_ after;
  fine (with_stk (with_hp s h2) l1 (sz s - len)).
(** vm_shifttopdown, VM.c:362-370. *)
Definition shift (s : st) (depth : nat) : res :=
  if (sz s <=? depth)%nat then UB else
  do top <- peek s 0;
  do h1 <- inc (hp s) top;
  do l1 <- memmove (stk s) (sz s - depth) (sz s - 1 - depth) depth;
  do h2 <- dec h1 top;
  fine (with_stk (with_hp s h2) (upd l1 (sz s - 1 - depth) top) (sz s)).
(** vm_swaptop, VM.c:1209-1213, and O_SWAP, VM.c:1543-1547. *)
Definition swap (s : st) : res :=
  do a <- peek s 0; do b <- peek s 1;
  fine (with_stk s (upd (upd (stk s) (sz s - 1) b) (sz s - 2) a) (sz s)).
(** O_MOVEUP_FP, VM.c:1552-1557: slot [i] to the top. *)
Definition moveup (s : st) (i : nat) : res :=
  if (sz s <=? i)%nat then UB else
  do a <- slot s i;
  do l1 <- memmove (stk s) i (i + 1) (sz s - 1 - i);
  fine (with_stk s (upd l1 (sz s - 1) a) (sz s)).

(** The end of loops: O_ENDFOR, VM.c:1526-1529. *)
Definition endfor (s : st) : res :=
  match loops s with
  | (v, _) :: r => do h <- dec (hp s) v; fine (with_loops (with_hp s h) r)
  | [] => UB end.
Fixpoint nth_res (n : nat) (f : st -> res) (s : st) : res :=
  match n with O => fine s | S m => andthen (f s) (nth_res m f) end.
(** vm_exitframe_multi, VM.c:1133-1159: [fp] and [lp] come from the frame, [len] is the operand, [nret] the expected number of results
    ([None] for -1); [lp] counts the loops that were active at the call. vm_exitframe (VM.c:1161-1174) is [len = sp - fp - 1], [nret = None]. *)
Definition exitframe (s : st) (fp len : nat) (nret : option nat) (lp : nat) : res :=
  andthen (rm_range s fp (fp + len + 1)) (fun s1 =>
  andthen (match nret with
           | None => fine s1
           | Some k => if (sz s1 <? fp + k)%nat then nth_res (fp + k - sz s1) (fun s => push s RU) s1
                       else do s2 <- popn s1 (sz s1 - (fp + k)); fine s2 end) (fun s2 =>
  nth_res (length (loops s2) - lp) endfor s2)).

(** isequal_typed (YASL_Table.c:95-97) on the keys modelled here: numbers by value, strings by their bytes. *)
Definition keq (h : heap) (a b : rv) : bool :=
  match a, b with
  | RI x, RI y => x =? y
  | RP x, RP y => match hget h x, hget h y with Some (OStr s), Some (OStr t) => if list_eq_dec Z.eq_dec s t then true else false | _, _ => false end
  | _, _ => false end.
(** ishashable (YASL_Object.c): mutable objects are refused; undef and END as keys are left out (C02). *)
Definition hashable (h : heap) (k : rv) : bool :=
  match k with RI _ => true | RP a => match hget h a with Some (OStr _) => true | _ => false end | _ => false end.
Fixpoint tfind (h : heap) (es : list (rv * rv)) (k : rv) : option (rv * rv) :=
  match es with [] => None | e :: r => if keq h (fst e) k then Some e else tfind h r k end.
Fixpoint tput (h : heap) (es : list (rv * rv)) (k : rv) (n : list (rv * rv)) : list (rv * rv) :=
  match es with [] => n | e :: r => if keq h (fst e) k then n ++ r else e :: tput h r k n end.
(** YASL_Table_insert_fast, YASL_Table.c:113-131: new_item counts the value and the key, then an old entry is released. Resizing (67-83)
    counts every entry once more and then once less; it is left out. *)
Definition tinsert (h : heap) (es : list (rv * rv)) (k v : rv) : outcome (heap * list (rv * rv)) :=
  do h1 <- inc h v; do h2 <- inc h1 k;
  let es' := tput h es k [(k, v)] in
  match tfind h es k with
  | Some (k0, v0) => do h3 <- dec h2 k0; do h4 <- dec h3 v0; Ok (h4, es')
  | None => Ok (h2, es') end.
(** YASL_Table_rm, YASL_Table.c:177-199. *)
Definition tremove (h : heap) (es : list (rv * rv)) (k : rv) : outcome (heap * list (rv * rv)) :=
  match tfind h es k with
  | Some (k0, v0) => do h1 <- dec h k0; do h2 <- dec h1 v0; Ok (h2, tput h es k [])
  | None => Ok (h, es) end.

(** Allocation: NEW_RC() gives a count of 0 (refcount.h:13). *)
Definition alloc (s : st) (o : obj) : st * rv := (with_hp s (hp s ++ [Cell 0 (Some o)]), RP (length (hp s))).
(** Storing new contents in a live list or table. *)
Definition set_body (h : heap) (a : nat) (o : obj) : outcome heap :=
  match nth_error h a with Some (Cell r (Some _)) => Ok (upd h a (Cell r (Some o))) | _ => UB end.
Definition as_list (s : st) (v : rv) : option (nat * list rv * option nat) :=
  match v with RP a => match hget (hp s) a with Some (OList l m) => Some (a, l, m) | _ => None end | _ => None end.
Definition as_tab (s : st) (v : rv) : option (nat * list (rv * rv) * option nat) :=
  match v with RP a => match hget (hp s) a with Some (OTab l m) => Some (a, l, m) | _ => None end | _ => None end.
Definition as_str (s : st) (v : rv) : option (list Z) :=
  match v with RP a => match hget (hp s) a with Some (OStr l) => Some l | _ => None end | _ => None end.

(** ud_setmt, userdata.c:34-41: count the new metatable, release the old one, store. *)
Definition setmt_obj (o : obj) (m : option nat) : obj :=
  match o with OStr s => OStr s | OList l _ => OList l m | OTab l _ => OTab l m end.
Definition mt_of (o : obj) : option nat := match o with OStr _ => None | OList _ m => m | OTab _ m => m end.
Definition setmt (s : st) (a : nat) (m : option nat) : outcome st :=
  match hget (hp s) a with
  | None => UB
  | Some o =>
      do h1 <- mfold inc (of_mt m) (hp s);
      do h2 <- mfold dec (of_mt (mt_of o)) h1;
      do h3 <- set_body h2 a (setmt_obj o m); Ok (with_hp s h3) end.
(** The built-in metatables of lists and tables: builtins_htable_new, VM.c:22-42; as in [init] they are objects 0 and 1. *)
Definition LIST_MT : nat := 0.
Definition TABLE_MT : nat := 1.
(** YASL_List_append, YASL_List.c:53-57: store, then count. *)
Definition append (s : st) (a : nat) (v : rv) : outcome st :=
  match hget (hp s) a with
  | Some (OList l m) => do h1 <- set_body (hp s) a (OList (l ++ [v]) m); do h2 <- inc h1 v; Ok (with_hp s h2)
  | _ => UB end.
(** A new list with the built-in metatable and the given items appended (list_copy, list_concat, SLICE_list, O_NEWLIST). *)
Definition newlist (s : st) (items : list rv) : outcome (st * rv) :=
  let (s1, v) := alloc s (OList [] None) in
  do s2 <- setmt s1 (length (hp s)) (Some LIST_MT);
  do s3 <- mfold (fun s x => append s (length (hp s1) - 1) x) items s2; Ok (s3, v).

(** O_NEWLIST, VM.c:1503-1519. [above_end]: the values above the topmost END. *)
Fixpoint above_end (rl : list rv) : option (list rv) :=
  match rl with [] => None | RE :: _ => Some [] | v :: r => match above_end r with Some l => Some (l ++ [v]) | None => None end end.
Definition new_list (s : st) : res :=
  match above_end (rev (firstn (sz s) (stk s))) with
  | None => UB
  | Some items => do (s1, v) <- newlist s items; do s2 <- popn s1 (length items + 1); push s2 v end.

(** O_NEWTABLE, VM.c:1480-1502: pairs are popped and inserted until the END mark is on top; an unhashable key releases the table. *)
Fixpoint table_loop (fuel : nat) (s : st) (a : nat) : res :=
  match fuel with
  | O => NoFuel
  | S f =>
      do top <- peek s 0;
      match top with
      | RE => fine s
      | val =>
          do s1 <- popn s 1; do key <- peek s1 0; do s2 <- popn s1 1;
          match val with
          | RU => table_loop f s2 a
          | _ =>
              match hget (hp s2) a with
              | Some (OTab es m) =>
                  if hashable (hp s2) key then
                    do (h1, es1) <- tinsert (hp s2) es key val;
                    do h2 <- set_body h1 a (OTab es1 m);
                    table_loop f (with_hp s2 h2) a
                  else
                    (* rcht_del, YASL_Table.c:59-62: the entries go, then the table, whatever its count *)
                    do h1 <- mfold dec (flat es) (hp s2);
                    match nth_error h1 a with
                    | Some (Cell r (Some _)) => fail (with_hp s2 (upd h1 a (Cell r None))) EType
                    | _ => UB end
              | _ => UB end
          end
      end
  end.
Definition new_table (s : st) : res :=
  let (s1, v) := alloc s (OTab [] None) in
  andthen (table_loop (S (sz s)) s1 (length (hp s))) (fun s2 =>
  do s3 <- setmt s2 (length (hp s)) (Some TABLE_MT);
  do s4 <- popn s3 1; push s4 v).

(** vm_ITER_1, VM.c:877-917. For a table the loop position counts entries instead of slots. *)
Definition iter_push (s : st) (r : list (rv * nat)) (it : rv) (i : nat) (x : option rv) : res :=
  match x with
  | None => push s (RI 0)
  | Some v => andthen (push (with_loops s ((it, S i) :: r)) v) (fun s1 => push s1 (RI 1)) end.
Definition iter1 (s : st) : res :=
  match loops s with
  | [] => UB
  | (it, i) :: r =>
      match it with
      | RP a =>
          match hget (hp s) a with
          | Some (OList l _) => iter_push s r it i (nth_error l i)
          | Some (OTab es _) => iter_push s r it i (option_map fst (nth_error es i))
          | Some (OStr t) => match nth_error t i with
                             | None => push s (RI 0)
                             | Some b => let (s1, v) := alloc s (OStr [b]) in iter_push s1 r it i (Some v) end
          | None => UB end
      | _ => fail s EType end
  end.

(** A list index as in list___get and list___set, list_methods.c:25-36, 46-56. *)
Definition lindex {A} (l : list A) (z : Z) : option nat :=
  let n := Z.of_nat (length l) in
  if (z <? - n) || (n <=? z) then None else Some (Z.to_nat (if z <? 0 then z + n else z)).

Inductive ins : Set :=
| IPush (v : rv)                (* a value that is not counted: vm_pushbool, vm_pushint, vm_pushundef, vm_pushend … VM.c:201-219 *)
| ILit (i : nat)                (* O_LIT, O_LIT8, VM.c:866-874 *)
| IFresh (k : nat) (t : list Z) (* pop k operands and push a new string: O_CNCT, string slices, tostr *)
| IUnb (k : nat) (z : Z)        (* pop k operands and push a value that is not counted: arithmetic, comparisons, !, len *)
| IPop | IDup | ISwap | IShift (d : nat) | IMoveup (i : nat)
| IDel (i : nat)                (* O_DEL_FP, VM.c:1633-1636 *)
| IInsert (i : nat) (v : rv)    (* vm_insert as used by vm_CALL_cfn, VM.c:1257 *)
| IRmRange (a b : nat)
| IExit (fp len : nat) (nret : option nat) (lp : nat)
| ILoad (i : nat)               (* O_LLOAD, VM.c:1581-1584 *)
| IStore (i : nat)              (* O_LSTORE, VM.c:1585-1591 *)
| IBind (i : nat)               (* P_BIND, VM.c:1082-1092: the matched value, on top, into a slot *)
| IDecsp (k : nat) | IIncsp (k : nat) (* VM.c:1637-1642 *)
| IGload (i : nat) | IGstore (i : nat) (* VM.c:1103-1115; the constant holding the name *)
| INewList | INewTable
| IInitFor | IIter | IEndFor | IEndComp
| IListGet | IListSet | IListPush | IListConcat | IListClear | IListPop (* bodies of list_methods.c *)
| ISliceList (a b : nat)        (* SLICE_list, VM.c:611-656, with the bounds already clipped *)
| ITabGet | ITabSet | ITabClear (* bodies of table_methods.c *)
| ISetMt                        (* YASL_setmt, yasl.c:223-237 *)
| IGetMt                        (* vm_get_metatable, VM.c:744-747 *)
| ICompare.                     (* DEFINE_COMP on operands that are neither two strings nor two numbers, VM.c:525-546 *)

Definition step (s : st) (i : ins) : res :=
  match i with
  | IPush v => push s v
  | ILit i => match nth_error (cons_ s) i with Some v => push s v | None => UB end
  | IFresh k t => do s1 <- popn s k; let (s2, v) := alloc s1 (OStr t) in push s2 v
  | IUnb k z => do s1 <- popn s k; push s1 (RI z)
  | IPop => do s1 <- popn s 1; fine s1
  | IDup => do v <- peek s 0; push s v
  | ISwap => swap s
  | IShift d => shift s d
  | IMoveup i => moveup s i
  | IDel i => rm s i
  | IInsert i v => insert s i v
  | IRmRange a b => rm_range s a b
  | IExit fp len n lp => exitframe s fp len n lp
  | ILoad i => do v <- slot s i; push s v
  | IStore i =>
      do old <- slot s i; do h1 <- dec (hp s) old;
      do v <- peek s 0; do h2 <- inc h1 v;
      do s1 <- popn s 1; fine (with_stk (with_hp s1 h2) (upd (stk s) i v) (sz s1))
  | IBind i =>
      do v <- peek s 0; do old <- slot s i; do h1 <- dec (hp s) old; do h2 <- inc h1 v;
      fine (with_stk (with_hp s h2) (upd (stk s) i v) (sz s))
  | IDecsp k => do s1 <- popn s k; fine s1
  | IIncsp k => if (sz s + k <=? STACK_SIZE)%nat then fine (with_stk s (stk s) (sz s + k)) else UB
  | IGload i =>
      match nth_error (cons_ s) i with
      | Some k => push s (match tfind (hp s) (globs s) k with Some e => snd e | None => RE end)
      | None => UB end
  | IGstore i =>
      match nth_error (cons_ s) i with
      | Some k => do v <- peek s 0; do s1 <- popn s 1; do (h1, g1) <- tinsert (hp s1) (globs s1) k v; fine (with_globs (with_hp s1 h1) g1)
      | None => UB end
  | INewList => new_list s
  | INewTable => new_table s
  | IInitFor => do v <- peek s 0; do h1 <- inc (hp s) v; do s1 <- popn s 1; fine (with_loops (with_hp s1 h1) ((v, O) :: loops s))
  | IIter => iter1 s
  | IEndFor => endfor s
  | IEndComp => do a <- peek s 0; do s1 <- popn s 2; andthen (push s1 a) endfor
  | IListGet => (* list___get, list_methods.c:25-44 *)
      do x <- peek s 1; do y <- peek s 0;
      match as_list s x, y with
      | Some (_, l, _), RI z => match lindex l z with
                                | Some n => match nth_error l n with Some v => push s v | None => UB end
                                | None => fail s EValue end
      | _, _ => fail s EType end
  | IListSet => (* list___set, list_methods.c:46-61 *)
      do v <- peek s 0; do s1 <- popn s 1; do x <- peek s1 1; do y <- peek s1 0;
      match as_list s1 x, y with
      | Some (a, l, m), RI z => match lindex l z with
                                | Some n => do h1 <- inc (hp s1) v;
                                            do old <- match nth_error l n with Some w => Ok w | None => UB end;
                                            do h2 <- dec h1 old; do h3 <- set_body h2 a (OList (upd l n v) m); fine (with_hp s1 h3)
                                | None => fail s1 EValue end
      | _, _ => fail s1 EType end
  | IListPush => (* list_push, list_methods.c:134-140 *)
      do x <- peek s 1;
      match as_list s x with
      | Some (a, _, _) => do v <- peek s 0; do s1 <- popn s 1; do s2 <- append s1 a v; fine s2
      | None => fail s EType end
  | IListConcat => (* list___add and list_concat, list_methods.c:174-195 *)
      do x <- peek s 1; do y <- peek s 0;
      match as_list s x, as_list s y with
      | Some (_, l, _), Some (_, r, _) => do (s1, v) <- newlist s (l ++ r); push s1 v
      | _, _ => fail s EType end
  | IListClear => (* list_clear, list_methods.c:250-258 *)
      do x <- peek s 0;
      match as_list s x with
      | Some (a, l, m) => do h1 <- mfold dec l (hp s); do h2 <- set_body h1 a (OList [] m); fine (with_hp s h2)
      | None => fail s EType end
  | IListPop => (* list_pop, list_methods.c:220-228 *)
      do x <- peek s 0;
      match as_list s x with
      | Some (a, l, m) => match rev l with
                          | v :: _ => do h1 <- set_body (hp s) a (OList (removelast l) m); push (with_hp s h1) v
                          | [] => fail s EValue end
      | None => fail s EType end
  | ISliceList a b =>
      do x <- peek s 2;
      match as_list s x with
      | Some (_, l, _) => do s0 <- popn s 3;
                          if ((b <=? length l) || (b <=? a))%nat then do (s1, v) <- newlist s0 (seg l a (b - a)); push s1 v else UB
      | None => UB end
  | ITabGet => (* table___get, table_methods.c:24-34 *)
      do k <- peek s 0; do s1 <- popn s 1; do x <- peek s1 0;
      match as_tab s1 x with
      | Some (_, es, _) => push s1 (if hashable (hp s1) k then match tfind (hp s1) es k with Some e => snd e | None => RU end else RU)
      | None => fail s1 EType end
  | ITabSet => (* table___set, table_methods.c:36-50 *)
      do v <- peek s 0; do s0 <- popn s 1; do k <- peek s0 0; do s1 <- popn s0 1; do x <- peek s1 0;
      match as_tab s1 x with
      | Some (a, es, m) =>
          match v with
          | RU => if hashable (hp s1) k then do (h1, es1) <- tremove (hp s1) es k; do h2 <- set_body h1 a (OTab es1 m); fine (with_hp s1 h2) else fine s1
          | _ => if hashable (hp s1) k then do (h1, es1) <- tinsert (hp s1) es k v; do h2 <- set_body h1 a (OTab es1 m); fine (with_hp s1 h2) else fail s1 EType
          end
      | None => fail s1 EType end
  | ITabClear => (* table_clear, table_methods.c:242-262 *)
      do x <- peek s 0;
      match as_tab s x with
      | Some (a, es, m) => do h0 <- inc (hp s) x; do h1 <- mfold dec (flat es) h0; do h2 <- set_body h1 a (OTab [] m); do h3 <- dec h2 x;
                           do s1 <- popn (with_hp s h3) 1; fine s1
      | None => fail s EType end
  | ISetMt =>
      do m <- peek s 0;
      match as_tab s m with
      | Some (b, _, _) =>
          do s1 <- popn s 1; do x <- peek s1 0;
          match x with
          | RP a => match as_str s1 x with None => do s2 <- setmt s1 a (Some b); fine s2 | Some _ => fine s1 end
          | _ => fine s1 end
      | None =>
          (* for undef nothing is popped: the value below is not reached, and undef itself is not a list or table *)
          fine s end
  | IGetMt =>
      do x <- peek s 0; do s1 <- popn s 1;
      match x with
      | RP a => match hget (hp s) a with
                | Some o => push s1 (match mt_of o with Some b => RP b | None => RU end)
                | None => UB end
      | _ => UB end
  | ICompare =>
      (* vm_pop twice; count both; push the left one; no method found: the error leaves the counts raised *)
      do r <- peek s 0; do l <- peek s 1; do s1 <- popn s 2;
      do h1 <- inc (hp s1) l; do h2 <- inc h1 r;
      andthen (push (with_hp s1 h2) l) (fun s2 => fail s2 EType)
  end.

Fixpoint run (s : st) (p : list ins) : res :=
  match p with [] => fine s | i :: r => andthen (step s i) (fun s1 => run s1 r) end.

(** vm_cleanup, VM.c:76-125: loops, all 1024 stack slots, constants, globals, built-in metatables. *)
Definition cleanup (s : st) : outcome heap :=
  do h1 <- mfold dec (map fst (loops s)) (hp s);
  do h2 <- mfold dec (stk s) h1;
  do h3 <- mfold dec (cons_ s) h2;
  do h4 <- mfold dec (flat (globs s)) h3;
  mfold dec (mts s) h4.

(** vm_init (VM.c:44-73) and vm_setupconstants (VM.c:1327-1362): the metatables have count 1, each string constant is counted once. *)
Inductive lit : Set := LNum (z : Z) | LStr (t : list Z).
Fixpoint setup (ls : list lit) (a : nat) : list cell * list rv :=
  match ls with
  | [] => ([], [])
  | LNum z :: r => let (h, c) := setup r a in (h, RI z :: c)
  | LStr t :: r => let (h, c) := setup r (S a) in (Cell 1 (Some (OStr t)) :: h, RP a :: c) end.
Definition init (ls : list lit) : st :=
  let (h, c) := setup ls 2 in
  St ([Cell 1 (Some (OTab [] None)); Cell 1 (Some (OTab [] None))] ++ h) (repeat RU STACK_SIZE) 0 [] c [] [RP LIST_MT; RP TABLE_MT].
