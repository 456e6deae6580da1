(** * RefClosure: reference counting of closures and captured variables: closure.c, upvalue.c, the closure cases of refcount.c,
    add_upvalue, vm_CCONST, vm_close_all, O_ULOAD, O_USTORE, O_CRET and vm_cleanup of VM.c, together with the instructions of Refs.v
    that put closures on the stack and into lists. A captured variable whose frame is active is open: its upvalue points to the stack
    slot. When the last closure over an open variable is dropped, closure_del_data releases the slot's value and frees the upvalue
    without taking it out of [vm->pending]; the flag [w] is a watchpoint on that line: with [w = true] the machine stops there with [Err].
    Left out: what Refs.v leaves out; tables, globals and loops as places for closures (a list in a bottom slot plays their part). *)
From Verif Require Import Base Refs.

(** struct Upvalue (interpreter/upvalue.h:7-12): [location] points to a stack slot, or to its own field [closed]. *)
Inductive loc : Set := LOpen (slot : nat) | LClosed (v : rv).
(** struct Closure (interpreter/closure.h:7-12) without its code; the other objects are those of Refs.v. *)
Inductive cobj : Set := CData (o : obj) | CClo (ups : list nat) | CUp (l : loc).
Record ccell : Set := CCell { crefs : Z; cbody : option cobj }.
Notation cheap := (list ccell) (only parsing).
Definition cget (h : cheap) (a : nat) : option cobj := match nth_error h a with Some c => cbody c | None => None end.

(** inc_ref, refcount.c:46-66, and [rc.refs++] on an upvalue, VM.c:617. *)
Definition cinc (h : cheap) (v : rv) : outcome cheap :=
  match v with
  | RP a => match nth_error h a with
            | Some (CCell r (Some o)) => Ok (upd h a (CCell (r + 1) (Some o)))
            | _ => UB end
  | _ => Ok h end.

(** What a dying object lets go of: closure_del_data (closure.c:3-12) each upvalue; a closed upvalue its value. *)
Definition ckids (o : cobj) : list rv :=
  match o with CData o => kids o | CClo us => map RP us | CUp (LOpen _) => [] | CUp (LClosed v) => [v] end.
(** The stack belongs to memory here, for dec_ref writes undef into the place of a value that dies (refcount.c:98-126); that matters
    only for the slot of an open upvalue, every other caller overwrites the place. *)
Notation mem := (list rv * cheap)%type (only parsing).
Definition set_cell (h : cheap) (a : nat) : outcome cheap :=
  match nth_error h a with Some (CCell r (Some _)) => Ok (upd h a (CCell r None)) | _ => UB end.
(** dec_ref, dec_strong_ref (refcount.c:94-149) and closure_del_data (closure.c:3-12), as [decf] of Refs.v. *)
Fixpoint cdecf (w : bool) (fuel : nat) (m : mem) (v : rv) : outcome mem :=
  match v with
  | RP a =>
      let (k, h) := m in
      match nth_error h a with
      | Some (CCell r (Some o)) =>
          let r' := if r =? 0 then two64 - 1 else r - 1 in
          let h1 := upd h a (CCell r' (Some o)) in
          if r' =? 0 then
            match fuel with
            | O => NoFuel
            | S f =>
                match o with
                | CUp (LOpen i) =>
                    if w then Err EAssert else
                    match nth_error k i with
                    | Some x =>
                        do (k2, h2) <- cdecf w f (k, h1) x;
                        let k3 := match x with RP b => match cget h2 b with None => upd k2 i RU | Some _ => k2 end | _ => k2 end in
                        do h3 <- set_cell h2 a; Ok (k3, h3)
                    | None => UB end
                | _ => do (k2, h2) <- mfold (cdecf w f) (ckids o) (k, h1); do h3 <- set_cell h2 a; Ok (k2, h3)
                end
            end
          else Ok (k, h1)
      | _ => UB end
  | _ => Ok m end.
Definition cdec (w : bool) (m : mem) (v : rv) : outcome mem := cdecf w (length (snd m)) m v.
(** dec_ref on what a slot holds at that moment. *)
Definition dec_slot (w : bool) (m : mem) (i : nat) : outcome mem := match nth_error (fst m) i with Some v => cdec w m v | None => UB end.

(** The part of struct VM involved: as in Refs.v, and [pending] (VM.h:130), the open upvalues. *)
Record cst : Set := CSt { chp : cheap; cstk : list rv; csz : nat; cpend : list nat }.
Definition cwith (s : cst) (m : mem) (n : nat) : cst := CSt (snd m) (fst m) n (cpend s).
Definition cmem (s : cst) : mem := (cstk s, chp s).
Definition cpended (s : cst) (p : list nat) : cst := CSt (chp s) (cstk s) (csz s) p.
Definition cres := outcome (cst * option yerr).
Definition cfine (s : cst) : cres := Ok (s, None).
Definition cfail (s : cst) (e : yerr) : cres := Ok (s, Some e).
Definition cthen (r : cres) (f : cst -> cres) : cres := do (s, e) <- r; match e with None => f s | Some e => cfail s e end.
Definition cslot (s : cst) (i : nat) : outcome rv := match nth_error (cstk s) i with Some v => Ok v | None => UB end.
Definition cpeek (s : cst) (k : nat) : outcome rv := if (k <? csz s)%nat then cslot s (csz s - 1 - k) else UB.
Definition cpopn (s : cst) (k : nat) : outcome cst := if (k <=? csz s)%nat then Ok (cwith s (cmem s) (csz s - k)) else UB.

(** vm_push, VM.c:189-199. *)
Definition cpush (w : bool) (s : cst) (v : rv) : cres :=
  if (STACK_SIZE <=? csz s)%nat then cfail s EStackOverflow else
  do old <- cslot s (csz s);
  do (k1, h1) <- cdec w (cmem s) old;
  do h2 <- cinc h1 v;
  cfine (cwith s (upd k1 (csz s) v, h2) (S (csz s))).
(** vm_rm_range, VM.c:275-287. *)
Definition crm_range (w : bool) (s : cst) (start end_ : nat) : cres :=
  if ((csz s <? end_) || (end_ <? start))%nat then UB else
  let after := (csz s - end_)%nat in
  let len := (end_ - start)%nat in
  let n := Nat.min after len in
  do (k1, h1) <- mfold (dec_slot w) (seq start n) (cmem s);
  do h2 <- mfold cinc (rev (seg k1 (csz s - n) n)) h1;
  do l1 <- memmove k1 start end_ after;
  cfine (cwith s (l1, h2) (csz s - len)).
Fixpoint cnth (n : nat) (f : cst -> cres) (s : cst) : cres :=
  match n with O => cfine s | S m => cthen (f s) (cnth m f) end.
(** vm_exitframe_multi, VM.c:1133-1159, without loops. *)
Definition cexit (w : bool) (s : cst) (fp len : nat) (nret : option nat) : cres :=
  cthen (crm_range w s fp (fp + len + 1)) (fun s1 =>
  match nret with
  | None => cfine s1
  | Some k => if (csz s1 <? fp + k)%nat then cnth (fp + k - csz s1) (fun s => cpush w s RU) s1
              else do s2 <- cpopn s1 (csz s1 - (fp + k)); cfine s2 end).

Definition calloc (s : cst) (o : cobj) : cst * nat := (cwith s (cstk s, chp s ++ [CCell 0 (Some o)]) (csz s), length (chp s)).
Definition cset_body (h : cheap) (a : nat) (o : cobj) : outcome cheap :=
  match nth_error h a with Some (CCell r (Some _)) => Ok (upd h a (CCell r (Some o))) | _ => UB end.
Definition as_clist (s : cst) (v : rv) : option (nat * list rv * option nat) :=
  match v with RP a => match cget (chp s) a with Some (CData (OList l m)) => Some (a, l, m) | _ => None end | _ => None end.
(** YASL_List_append, YASL_List.c:53-57, and the new list of O_NEWLIST, VM.c:1503-1519, with ud_setmt (userdata.c:34-41). *)
Definition cappend (s : cst) (a : nat) (v : rv) : outcome cst :=
  match cget (chp s) a with
  | Some (CData (OList l m)) => do h1 <- cset_body (chp s) a (CData (OList (l ++ [v]) m)); do h2 <- cinc h1 v; Ok (cwith s (cstk s, h2) (csz s))
  | _ => UB end.
Definition cnew_list (w : bool) (s : cst) : cres :=
  match above_end (rev (firstn (csz s) (cstk s))) with
  | None => UB
  | Some items =>
      let (s1, a) := calloc s (CData (OList [] None)) in
      do h1 <- cinc (chp s1) (RP LIST_MT);
      do h2 <- cset_body h1 a (CData (OList [] (Some LIST_MT)));
      do s3 <- mfold (fun s x => cappend s a x) items (cwith s1 (cstk s1, h2) (csz s1));
      do s4 <- cpopn s3 (length items + 1); cpush w s4 (RP a) end.

(** upval_new, upvalue.c:3-9: a count of 0. add_upvalue, VM.c:572-597: [pending] is walked while the location lies above the wanted one;
    an upvalue for the same slot is shared; a new one is linked in behind the first one below (or at the end). Reading the location of a
    freed upvalue is undefined. *)
Inductive added : Set := AShared (u : nat) | ANew (p : list nat).
Fixpoint walk (h : cheap) (p : list nat) (i new : nat) : outcome added :=
  match p with
  | [] => Ok (ANew [new])
  | u :: r =>
      match cget h u with
      | Some (CUp (LOpen j)) =>
          if (i <? j)%nat then do x <- walk h r i new; Ok (match x with AShared v => AShared v | ANew q => ANew (u :: q) end)
          else if (j =? i)%nat then Ok (AShared u)
          else Ok (ANew (u :: new :: r))
      | _ => UB end
  end.
Definition add_upvalue (s : cst) (i : nat) : outcome (cst * nat) :=
  do x <- walk (chp s) (cpend s) i (length (chp s));
  match x with
  | AShared u => Ok (s, u)
  | ANew p => let (s1, u) := calloc s (CUp (LOpen i)) in Ok (cpended s1 p, u) end.

(** The closure in slot [fp] (the callee of the running frame) and one of its upvalues. *)
Definition upvalue_of (s : cst) (fp n : nat) : outcome nat :=
  do x <- cslot s fp;
  match x with
  | RP a => match cget (chp s) a with Some (CClo us) => match nth_error us n with Some u => Ok u | None => UB end | _ => UB end
  | _ => UB end.
(** What vm_CCONST captures: a local of the running function, or an upvalue of it. *)
Inductive src : Set := SLocal (slot : nat) | SParent (fp n : nat).
Definition capture (s : cst) (x : src) : outcome (cst * nat) :=
  match x with SLocal i => add_upvalue s i | SParent fp n => do u <- upvalue_of s fp n; Ok (s, u) end.
(** vm_CCONST, VM.c:599-621: the closure is allocated, its upvalues are found and counted one by one, it is pushed. *)
Fixpoint fill (s : cst) (a : nat) (xs : list src) (us : list nat) : outcome cst :=
  match xs with
  | [] => Ok s
  | x :: r =>
      do (s1, u) <- capture s x;
      do h1 <- cset_body (chp s1) a (CClo (us ++ [u]));
      do h2 <- cinc h1 (RP u);
      fill (cwith s1 (cstk s1, h2) (csz s1)) a r (us ++ [u]) end.
Definition cconst (w : bool) (s : cst) (xs : list src) : cres :=
  let (s1, a) := calloc s (CClo []) in
  do s2 <- fill s1 a xs []; cpush w s2 (RP a).

(** vm_close_all_helper and vm_close_all, VM.c:1291-1301; upval_close, upvalue.c:20-23. *)
Fixpoint close_all (k : list rv) (h : cheap) (p : list nat) (fp : nat) : outcome (cheap * list nat) :=
  match p with
  | [] => Ok (h, [])
  | u :: r =>
      match cget h u with
      | Some (CUp (LOpen j)) =>
          if (j <? fp)%nat then Ok (h, p) else
          match nth_error k j with
          | Some v => do h1 <- cinc h v; do h2 <- cset_body h1 u (CUp (LClosed v)); close_all k h2 r fp
          | None => UB end
      | _ => UB end
  end.
Definition cclose (s : cst) (fp : nat) : outcome cst :=
  do (h, p) <- close_all (cstk s) (chp s) (cpend s) fp; Ok (CSt h (cstk s) (csz s) p).

Inductive cins : Set :=
| KPush (v : rv)                (* a value that is not counted *)
| KFresh (t : list Z)           (* a new string *)
| KPop (k : nat) | KLoad (i : nat) | KStore (i : nat)
| KNewList | KListGet | KListSet | KListPush
| KClosure (xs : list src)      (* O_CCONST *)
| KUload (fp n : nat)           (* O_ULOAD, VM.c:1592-1595; upval_get, upvalue.c:11-13 *)
| KUstore (fp n : nat)          (* O_USTORE, VM.c:1596-1600; upval_set, upvalue.c:15-18 *)
| KRet (fp len : nat) (nret : option nat)   (* O_RET, VM.c:1614-1616 *)
| KCret (fp len : nat) (nret : option nat). (* O_CRET, VM.c:1610-1613 *)

Definition cstep (w : bool) (s : cst) (i : cins) : cres :=
  match i with
  | KPush v => cpush w s v
  | KFresh t => let (s1, a) := calloc s (CData (OStr t)) in cpush w s1 (RP a)
  | KPop k => do s1 <- cpopn s k; cfine s1
  | KLoad i => do v <- cslot s i; cpush w s v
  | KStore i =>
      do old <- cslot s i; do (k1, h1) <- cdec w (cmem s) old;
      do v <- cpeek s 0; do h2 <- cinc h1 v;
      do s1 <- cpopn s 1; cfine (cwith s1 (upd k1 i v, h2) (csz s1))
  | KNewList => cnew_list w s
  | KListGet =>
      do x <- cpeek s 1; do y <- cpeek s 0;
      match as_clist s x, y with
      | Some (_, l, _), RI z => match lindex l z with
                                | Some n => match nth_error l n with Some v => cpush w s v | None => UB end
                                | None => cfail s EValue end
      | _, _ => cfail s EType end
  | KListSet =>
      do v <- cpeek s 0; do s1 <- cpopn s 1; do x <- cpeek s1 1; do y <- cpeek s1 0;
      match as_clist s1 x, y with
      | Some (a, l, m), RI z => match lindex l z with
                                | Some n => do h1 <- cinc (chp s1) v;
                                            do old <- match nth_error l n with Some w => Ok w | None => UB end;
                                            do (k2, h2) <- cdec w (cstk s1, h1) old; do h3 <- cset_body h2 a (CData (OList (upd l n v) m));
                                            cfine (cwith s1 (k2, h3) (csz s1))
                                | None => cfail s1 EValue end
      | _, _ => cfail s1 EType end
  | KListPush =>
      do x <- cpeek s 1;
      match as_clist s x with
      | Some (a, _, _) => do v <- cpeek s 0; do s1 <- cpopn s 1; do s2 <- cappend s1 a v; cfine s2
      | None => cfail s EType end
  | KClosure xs => cconst w s xs
  | KUload fp n =>
      do u <- upvalue_of s fp n;
      match cget (chp s) u with
      | Some (CUp (LOpen i)) => do v <- cslot s i; cpush w s v
      | Some (CUp (LClosed v)) => cpush w s v
      | _ => UB end
  | KUstore fp n =>
      do v <- cpeek s 0; do h1 <- cinc (chp s) v; do s1 <- cpopn s 1;
      do u <- upvalue_of s fp n;
      match cget (chp s) u with
      | Some (CUp (LOpen i)) => do old <- cslot s i; do (k2, h2) <- cdec w (cstk s, h1) old; cfine (cwith s1 (upd k2 i v, h2) (csz s1))
      | Some (CUp (LClosed old)) => do (k2, h2) <- cdec w (cstk s, h1) old; do h3 <- cset_body h2 u (CUp (LClosed v)); cfine (cwith s1 (k2, h3) (csz s1))
      | _ => UB end
  | KRet fp len n => cexit w s fp len n
  | KCret fp len n => do s1 <- cclose s fp; cexit w s1 fp len n
  end.
Fixpoint crun (w : bool) (s : cst) (p : list cins) : cres :=
  match p with [] => cfine s | i :: r => cthen (cstep w s i) (fun s1 => crun w s1 r) end.

(** vm_init, VM.c:44-73: the built-in metatables of lists and tables have count 1. *)
Definition cinit : cst := CSt [CCell 1 (Some (CData (OTab [] None))); CCell 1 (Some (CData (OTab [] None)))] (repeat RU STACK_SIZE) 0 [].
(** vm_cleanup, VM.c:78-125: every open variable is closed ([fp] is -1 outside functions), then all slots are released, then the metatables. *)
Definition ccleanup (w : bool) (s : cst) : outcome cheap :=
  do s1 <- cclose s 0;
  do (_, h1) <- mfold (dec_slot w) (seq 0 STACK_SIZE) (cmem s1);
  do (_, h2) <- mfold (cdec w) [RP LIST_MT; RP TABLE_MT] (cstk s1, h1);
  Ok h2.
