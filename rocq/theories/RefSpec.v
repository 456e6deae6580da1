(** * RefSpec: what exact reference counts mean, stated without the code. *)
From Verif Require Import Base Refs.

(** How often object [a] occurs among some values. *)
Definition is_ref (a : nat) (v : rv) : nat := match v with RP b => if Nat.eqb a b then 1 else 0 | _ => 0 end.
Definition cnt (a : nat) (l : list rv) : nat := list_sum (map (is_ref a) l).

(** Every place outside the heap that holds a value: all slots of the stack (also those above the top), the running loops, the constants,
    the names and values of the globals, the built-in metatables. *)
Definition places (s : st) : list rv := stk s ++ map fst (loops s) ++ cons_ s ++ flat (globs s) ++ mts s.
(** What the objects that have not been freed hold. *)
Definition inside (h : heap) : list rv := flat_map (fun c => match body c with Some o => kids o | None => [] end) h.
Definition references (s : st) (a : nat) : nat := (cnt a (places s) + cnt a (inside (hp s)))%nat.

Definition live (h : heap) (a : nat) : Prop := exists o, hget h a = Some o.
Definition count_of (h : heap) (a : nat) : Z := match nth_error h a with Some c => refs c | None => 0 end.

(** Counts are exact, an object is alive as long as it is referenced and freed once it is not. *)
Definition exact (s : st) : Prop :=
  forall a, (live (hp s) a -> count_of (hp s) a = Z.of_nat (references s a)) /\ (live (hp s) a <-> (0 < references s a)%nat).

(** Weaker, for a state left behind by an error: counts are exact and what is referenced is alive, but an object nobody references may remain. *)
Definition sound (s : st) : Prop :=
  forall a, (live (hp s) a -> count_of (hp s) a = Z.of_nat (references s a)) /\ ((0 < references s a)%nat -> live (hp s) a).
(** No object is reachable from itself: objects can be numbered so that each holds only smaller ones. *)
Definition acyclic (h : heap) : Prop :=
  exists rank : nat -> nat, forall b o a, hget h b = Some o -> In (RP a) (kids o) -> (rank a < rank b)%nat.

(** What the compiler guarantees about an instruction's operands: they exist, and a slot operand is on the stack. *)
Definition room (s : st) (k : nat) : Prop := (k <= sz s)%nat.
Definition unboxed (v : rv) : Prop := match v with RP _ => False | _ => True end.
Definition fits (s : st) (i : ins) : Prop :=
  match i with
  | IPush v => unboxed v
  | ILit i => (i < length (cons_ s))%nat
  | IFresh k _ | IUnb k _ | IDecsp k => room s k
  | IPop | IDup | IInitFor => room s 1
  | ISwap => room s 2
  | IShift d => (d < sz s)%nat
  | IMoveup i | IDel i => (i < sz s)%nat
  | IInsert i v => (i <= sz s)%nat /\ unboxed v
  | IRmRange a b => (a <= b <= sz s)%nat
  | IExit fp len _ _ => (fp + len + 1 <= sz s)%nat
  | ILoad i => (i < sz s)%nat
  | IStore i => (i + 1 < sz s)%nat (* a variable's slot lies below the value on top *)
  | IBind i => room s 1 /\ (i < STACK_SIZE)%nat /\ (i + 1 <> sz s)%nat
  | IIncsp k => (sz s + k <= STACK_SIZE)%nat
  | IGload i => (i < length (cons_ s))%nat
  | IGstore i => room s 1 /\ (i < length (cons_ s))%nat
  | INewList => In RE (firstn (sz s) (stk s))
  | INewTable => exists pre pairs, firstn (sz s) (stk s) = pre ++ RE :: flat pairs /\ Forall (fun e => snd e <> RE) pairs
  | IIter | IEndFor => loops s <> []
  | IEndComp => room s 2 /\ loops s <> []
  | IListGet | IListPush | IListConcat => room s 2
  | IListSet => room s 3
  | IListClear => room s 1
  | ISliceList a b => room s 3 /\ exists v x l m, peek s 2 = Ok v /\ v = RP x /\ hget (hp s) x = Some (OList l m) /\ ((b <= length l)%nat \/ (b <= a)%nat)
  | ITabGet => room s 2
  | ITabSet => room s 3
  | ITabClear => room s 1
  | ISetMt => room s 2
  (* the three operations whose counting is wrong; see the refutations *)
  | IListPop | IGetMt | ICompare => False
  end.

(** A sequence of instructions each of which fits when its turn comes. *)
Fixpoint fits_all (s : st) (p : list ins) : Prop :=
  match p with [] => True | i :: r => fits s i /\ forall s1, step s i = Ok (s1, None) -> fits_all s1 r end.
