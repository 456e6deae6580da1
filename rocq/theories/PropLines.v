(** C36: line numbers in error messages. [current_line], [emitted] are in LineSpec.v. *)
From Verif Require Import Base Bytes Varint Table Constants Lines LineSpec LineProofs.

(** Take any compilation, seen as a sequence of "visit a node on line l" and "emit n bytes" events, and any chunk of
    code it emits. If the VM fails while its pc is inside that chunk (past its first byte, as after fetching the opcode),
    the reported line is the one the compiler was on when it emitted the chunk. *)
Theorem C36_line_of_instruction : forall fuel pre n post s lines p code pc,
  Forall lev_ok (pre ++ LEmit n :: post) -> emitted (pre ++ LEmit n :: post) = Z.of_nat (length code) ->
  Z.of_nat (length (return_bytes p code lines)) <= int_max ->
  ls_run ls_new (pre ++ LEmit n :: post) = Ok s -> ls_finish s = Ok lines ->
  24 + Z.of_nat (length (cp_hdr p)) + emitted pre < pc <= 24 + Z.of_nat (length (cp_hdr p)) + emitted pre + n ->
  current_line pre < Z.of_nat fuel ->
  getcurrline fuel (return_bytes p code lines) pc = Ok (current_line pre).
Proof. exact line_ok. Qed.
Print Assumptions C36_line_of_instruction.

(** The bookkeeping itself always succeeds for programs below 2^64 bytes. *)
Theorem C36_total : forall es, Forall lev_ok es -> emitted es < two64 -> exists s lines, ls_run ls_new es = Ok s /\ ls_finish s = Ok lines.
Proof. exact lines_total. Qed.
Print Assumptions C36_total.

Example C36_nonvacuous :
  let es := [LVisit 1; LEmit 2; LVisit 3; LEmit 9; LVisit 3; LEmit 300; LVisit 2; LEmit 1; LVisit 7; LEmit 4] in
  Forall lev_ok es /\ emitted es = 316 /\ current_line (firstn 5 es) = 3 /\
  match pool_new, ls_run ls_new es with
  | Ok p, Ok s => match ls_finish s with
     | Ok lines => map (getcurrline 100 (return_bytes p (repeat 0 316) lines)) [25; 26; 27; 300; 336; 337; 340]
                   = map Ok [1; 1; 3; 3; 3; 7; 7]
     | _ => False end
  | _, _ => False end.
Proof. split; [repeat constructor; cbn; lia|]. split; [reflexivity|]. split; [reflexivity|]. vm_compute. reflexivity. Qed.

(** Reusing a state (YASL_resetstate, YASL_resetstate_bb) keeps the old line table and line counter: the second program's
    instruction compiled from line 2 is reported on line 1. *)
Theorem C36_reset_refuted : exists s1 lines1 s2 lines2 p,
  ls_run ls_new [LVisit 1; LEmit 5] = Ok s1 /\ ls_finish s1 = Ok lines1 /\
  ls_run (ls_reset s1 lines1) [LVisit 1; LEmit 2; LVisit 2; LEmit 3] = Ok s2 /\ ls_finish s2 = Ok lines2 /\ pool_new = Ok p /\
  current_line [LVisit 1; LEmit 2; LVisit 2] = 2 /\ emitted [LVisit 1; LEmit 2; LVisit 2] = 2 /\
  getcurrline 100 (return_bytes p (repeat 0 5) lines2) (24 + 2 + 1) = Ok 1.
Proof. do 5 eexists. do 5 (split; [vm_compute; reflexivity|]). vm_compute. auto. Qed.
Print Assumptions C36_reset_refuted.
