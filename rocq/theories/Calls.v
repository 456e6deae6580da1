(** * Calls of host functions: model of [vm_CALL_cfn], /repo/interpreter/VM.c:1250-1264, on the machine of VM.v. *)
From Verif Require Import Base Value VM.

(** [vm_insert], VM.c:252-262: [memmove] of [sp - index + 1] slots; a negative number of slots is converted to a huge
    size. The reference counts are the subject of Refs.v. *)
Definition insert_slot (s : vstate) (index : Z) (v : value) (f : vstate -> sres) : sres :=
  if sp s + 1 >=? STACK_SIZE then Stop (Err EStackOverflow) s
  else let n := sp s - index + 1 in
  if (n <? 0) || (index <? 0) then Stop UB s
  else f (set_stk s (firstn (Z.to_nat n) (v_stk s) ++ v :: skipn (Z.to_nat n) (v_stk s))).

(** What the function does: given its view of the stack above the callee slot (bottom first), the values it leaves
    there and how many of the topmost of them it returns. *)
Definition hostfn := list value -> list value * Z.

(** Slots [fp+1 .. sp], bottom first. *)
Definition above_fp (s : vstate) : list value := rev (firstn (Z.to_nat (sp s - v_fp s)) (v_stk s)).

(** [vm_CALL], VM.c:1266-1275, for a host function with the registered [num_args] (negative: variadic, [~num_args]
    fixed arguments). Pushes made by [f] go through [vm_push]; only its final stack is looked at here. *)
Definition call_host (s : vstate) (num_args : Z) (f : hostfn) : sres :=
  let s := set_frames s (v_next_fp s) (v_frames s) (v_next_fp s) in
  match v_frames s with
  | [] => Stop UB s
  | fr :: frs =>
      let s := set_frames s (v_fp s) (CF (v_pc s) (f_prev_fp fr) (f_curr_fp fr) (f_lp fr) (f_nret fr) :: frs) (v_next_fp s) in
      let enter (s : vstate) :=
        let '(kept, n) := f (above_fp s) in
        let s := set_stk s (rev kept ++ skipn (Z.to_nat (sp s - v_fp s)) (v_stk s)) in
        exitframe s (sp s - n - v_fp s) in
      if num_args <? 0
      then let fixed := Z.lnot num_args in
           insert_slot s (v_fp s + 1 + fixed) (VInt (sp s - v_fp s - fixed)) enter
      else fill_args s num_args enter
  end.
