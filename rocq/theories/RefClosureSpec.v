(** * RefClosureSpec: what exact reference counts mean with closures, stated without the code. *)
From Verif Require Import Base Refs RefSpec RefClosure.

(** A closure holds its upvalues, a closed upvalue its value; an open upvalue holds nothing: the variable is still in its slot. *)
Definition holds (o : cobj) : list rv :=
  match o with CData (OStr _) => [] | CData o => kids o | CClo us => map RP us | CUp (LOpen _) => [] | CUp (LClosed v) => [v] end.
(** The places outside the heap: all slots of the stack and the two built-in metatables. *)
Definition cplaces (s : cst) : list rv := cstk s ++ [RP LIST_MT; RP TABLE_MT].
Definition cinside (h : cheap) : list rv := flat_map (fun c => match cbody c with Some o => holds o | None => [] end) h.
Definition creferences (s : cst) (a : nat) : nat := (cnt a (cplaces s) + cnt a (cinside (chp s)))%nat.
Definition clive (h : cheap) (a : nat) : Prop := exists o, cget h a = Some o.
Definition ccount (h : cheap) (a : nat) : Z := match nth_error h a with Some c => crefs c | None => 0 end.
Definition cexact (s : cst) : Prop :=
  forall a, (clive (chp s) a -> ccount (chp s) a = Z.of_nat (creferences s a)) /\ (clive (chp s) a <-> (0 < creferences s a)%nat).
Definition csound (s : cst) : Prop :=
  forall a, (clive (chp s) a -> ccount (chp s) a = Z.of_nat (creferences s a)) /\ ((0 < creferences s a)%nat -> clive (chp s) a).
(** The list of open upvalues is right: each of them is alive, they are listed once, and none is missing. *)
Definition pending_right (s : cst) : Prop :=
  NoDup (cpend s) /\ forall u, In u (cpend s) <-> exists i, cget (chp s) u = Some (CUp (LOpen i)).
Definition cacyclic (h : cheap) : Prop :=
  exists rank : nat -> nat, forall b o a, cget h b = Some o -> In (RP a) (holds o) -> (rank a < rank b)%nat.

(** What the compiler guarantees about operands: they exist; a slot operand is on the stack; the slot below a frame holds the running
    closure, which has the upvalues its code names. *)
Definition runs_closure (s : cst) (fp n : nat) : Prop :=
  exists a us, (fp < csz s)%nat /\ nth_error (cstk s) fp = Some (RP a) /\ cget (chp s) a = Some (CClo us) /\ (n < length us)%nat.
(** A variable read through a closure is closed or still on the stack. *)
Definition in_reach (s : cst) (fp n : nat) : Prop :=
  forall a us u i, nth_error (cstk s) fp = Some (RP a) -> cget (chp s) a = Some (CClo us) -> nth_error us n = Some u ->
    cget (chp s) u = Some (CUp (LOpen i)) -> (i < csz s)%nat.
Definition can_capture (s : cst) (x : src) : Prop :=
  match x with SLocal i => (i < csz s)%nat | SParent fp n => runs_closure s fp n end.
Definition cfits (s : cst) (i : cins) : Prop :=
  match i with
  | KPush v => unboxed v
  | KFresh _ => True
  | KPop k => (k <= csz s)%nat
  | KLoad i => (i < csz s)%nat
  | KStore i => (i + 1 < csz s)%nat
  | KNewList => In RE (firstn (csz s) (cstk s))
  | KListGet | KListPush => (2 <= csz s)%nat
  | KListSet => (3 <= csz s)%nat
  | KClosure xs => Forall (can_capture s) xs
  | KUload fp n => runs_closure s fp n /\ in_reach s fp n
  | KUstore fp n => runs_closure s fp n /\ (fp + 1 < csz s)%nat
  | KRet fp len _ | KCret fp len _ => (fp + len + 1 <= csz s)%nat
  end.
(** A program each of whose instructions fits when its turn comes. *)
Fixpoint cfits_all (s : cst) (p : list cins) : Prop :=
  match p with [] => True | i :: r => cfits s i /\ forall s1, cstep true s i = Ok (s1, None) -> cfits_all s1 r end.
(** The program never drops the last closure over a variable that is still on the stack and not closed: the watchpoint is not reached. *)
Definition never_dropped_early (p : list cins) : Prop := forall e, crun true cinit p <> Err e.
