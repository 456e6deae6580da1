(** * Captured variables: the operations the machine performs on stack slots and upvalues, one at a time, and what they
    should mean. *)
From Verif Require Import Base Value VM.

(** Declare a variable / push; drop the topmost slot without closing; read and write a local; capture a local in a new
    closure (its handle is the number of captures made before); read and write through a closure; leave the frames from
    slot [fp] on (O_CRET). Slots count from the bottom of the stack. *)
Inductive uop : Type :=
| UPush (v : value) | UPop | ULoad (i : nat) | UStore (i : nat) (v : value)
| UCapture (i : nat) | UGet (h : nat) | USet (h : nat) (v : value) | UReturn (fp : nat).

(** ** The machine, with the functions of VM.v ([vm_push], VM.c:185; [vm_pop] :220; O_LLOAD_1/O_LSTORE_1 :1608-1620;
    [add_upvalue] :572; [upval_get]/[upval_set], upvalue.c; [vm_close_all] :1299 and [vm_exitframe_multi] :1149 without results).
    [ids]: the upvalue given to each capture, in order. [None]: undefined behaviour. *)
Definition ustep (st : vstate * list nat) (o : uop) : option ((vstate * list nat) * option value) :=
  let '(s, ids) := st in
  match o with
  | UPush v => Some ((set_stk s (v :: v_stk s), ids), None)
  | UPop => match v_stk s with [] => None | _ :: k => Some ((set_stk s k, ids), None) end
  | ULoad i => match slot_get (v_stk s) (Z.of_nat i) with Some v => Some (st, Some v) | None => None end
  | UStore i v => match slot_set (v_stk s) (Z.of_nat i) v with Some k => Some ((set_stk s k, ids), None) | None => None end
  | UCapture i => match add_upvalue s (Z.of_nat i) with Some (id, s') => Some ((s', ids ++ [id]), None) | None => None end
  | UGet h => match nth_error ids h with Some id => match upval_get s id with Some v => Some (st, Some v) | None => None end | None => None end
  | USet h v => match nth_error ids h with Some id => match upval_set s id v with Some s' => Some ((s', ids), None) | None => None end | None => None end
  | UReturn fp => match close_pending (v_stk s) (Z.of_nat fp) (v_upv s) (v_pending s) with
                  | Some (u, p) => Some ((set_stk (set_upv s u p) (skipn (length (v_stk s) - fp) (v_stk s)), ids), None)
                  | None => None end
  end.
(** All the answers of a history. *)
Fixpoint urun (st : vstate * list nat) (ops : list uop) : option (list (option value)) :=
  match ops with
  | [] => Some []
  | o :: r => match ustep st o with Some (st', a) => option_map (cons a) (urun st' r) | None => None end
  end.
