(** * C29: captured variables. *)
From Verif Require Import Base Value VM Closures ClosureSpec ClosureProofs.

(** Every history of declarations, drops, reads, writes, captures, uses through closures and returns that the specification
    gives a meaning to is performed by the machine with exactly the specification's answers, if it is [covered]: a captured
    variable is dropped only by a closing return, and a variable captured for the first time lies below those captured
    already. Missing for the full property: the two restrictions, which the refutations below show to be necessary. *)
Theorem C29_history_partial gl ops r : covered no_vars ops = true -> arun no_vars ops = Some r -> urun (vm_start gl, []) ops = Some r.
Proof. intros C A. eapply run_inv; [apply inv_start|exact C|exact A]. Qed.

(** Two closures of one variable, writing through each, before and after the frame is gone; slot 5 then holds a new variable. *)
Definition hist : list uop :=
  [UPush (VInt 10); UPush (VInt 11); UPush (VInt 12); UCapture 2; UCapture 1; UCapture 2; ULoad 2; UStore 2 (VInt 7); UGet 0; UGet 2; USet 0 (VInt 8); ULoad 2; UReturn 1;
   UPush (VInt 99); UPush (VInt 98); UGet 2; USet 2 (VInt 5); UGet 0; UGet 1; ULoad 2; UPop; UStore 1 (VInt 3); UGet 1].
Theorem C29_nonvacuous : covered no_vars hist = true /\
  arun no_vars hist = Some [None; None; None; None; None; None; Some (VInt 12); None; Some (VInt 7); Some (VInt 7); None; Some (VInt 8); None; None; None;
                            Some (VInt 8); None; Some (VInt 5); Some (VInt 11); Some (VInt 98); None; None; Some (VInt 11)].
Proof. split; vm_compute; reflexivity. Qed.

(** The full property is false of the code, in three ways.
    1. A variable above one captured already: two closures of it, made one after the other, do not share it. *)
Theorem C29_sharing_refuted : exists ops r, arun no_vars ops = Some r /\ urun (vm_start (fun _ => None), []) ops <> Some r.
Proof.
  exists [UPush (VInt 0); UPush (VInt 1); UCapture 0; UCapture 1; UCapture 1; UReturn 0; USet 1 (VInt 2); UGet 2],
         [None; None; None; None; None; None; None; Some (VInt 2)].
  split; [vm_compute; reflexivity|]. vm_compute. discriminate.
Qed.
(** 2. A variable of an inner call captured while one of an outer call is captured: the return leaves it open, so the
    closure reads whatever the slot holds next. *)
Theorem C29_return_refuted : exists ops r, arun no_vars ops = Some r /\ urun (vm_start (fun _ => None), []) ops <> Some r.
Proof.
  exists [UPush (VInt 0); UCapture 0; UPush (VInt 1); UCapture 1; UReturn 1; UPush (VInt 9); UGet 1], [None; None; None; None; None; None; Some (VInt 1)].
  split; [vm_compute; reflexivity|]. vm_compute. discriminate.
Qed.
(** 3. A captured variable of a block, which is left by popping its slot: the closure reads whatever the slot holds next. *)
Theorem C29_block_refuted : exists ops r, arun no_vars ops = Some r /\ urun (vm_start (fun _ => None), []) ops <> Some r.
Proof.
  exists [UPush (VInt 1); UCapture 0; UPop; UPush (VInt 2); UGet 0], [None; None; None; None; Some (VInt 1)].
  split; [vm_compute; reflexivity|]. vm_compute. discriminate.
Qed.
Print Assumptions C29_history_partial.
Print Assumptions C29_nonvacuous.
Print Assumptions C29_sharing_refuted.
Print Assumptions C29_return_refuted.
Print Assumptions C29_block_refuted.
