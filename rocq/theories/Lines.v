(** * The line table: model of the line bookkeeping of [visit], /repo/compiler/compiler.c:1402-1409, of [return_bytes]
    (compiler.c:276) and of [vm_getcurrline], /repo/interpreter/VM.c:143-153. *)
From Verif Require Import Base Bytes Varint Constants.

(** [code->count + buffer->count], [line] and [lines]. *)
Record lstate : Type := LS { ls_pos : Z; ls_line : Z; ls_bytes : list Z }.
(** NEW_COMPILER, compiler.h:18-37. *)
Definition ls_new : lstate := LS 0 0 [].

(** The loop at the head of [visit], compiler.c:1403-1406, for a node on line [line + n]. *)
Fixpoint ls_advance (n : nat) (s : lstate) : outcome lstate :=
  match n with
  | O => Ok s
  | S n' => do bs <- vint_encode 11 (ls_pos s); ls_advance n' (LS (ls_pos s) (ls_line s + 1) (ls_bytes s ++ bs))
  end.

(** What compilation does to the line state: visit a node on some line, or emit [n] bytes of code. ([validate],
    compiler.c:1374-1388, restores everything.) *)
Inductive lev : Type := LVisit (line : Z) | LEmit (n : Z).
Definition ls_step (s : lstate) (e : lev) : outcome lstate :=
  match e with
  | LVisit l => ls_advance (Z.to_nat (l - ls_line s)) s
  | LEmit n => Ok (LS (ls_pos s + n) (ls_line s) (ls_bytes s))
  end.
Fixpoint ls_run (s : lstate) (es : list lev) : outcome lstate :=
  match es with [] => Ok s | e :: es' => do s' <- ls_step s e; ls_run s' es' end.

(** compiler.c:276: the terminating entry. *)
Definition ls_finish (s : lstate) : outcome (list Z) :=
  do bs <- vint_encode 11 (ls_pos s); Ok (ls_bytes s ++ bs).
(** [YASL_resetstate]/[_bb], yasl.c:79-96 and 110-120: [code] is emptied, [lines] and [line] are not. *)
Definition ls_reset (s : lstate) (lines : list Z) : lstate := LS 0 (ls_line s) lines.

(** [vm_getcurrline], VM.c:143-153. [fuel] bounds the search; running off the program is UB. *)
Fixpoint getline_loop (fuel : nat) (tmp : list Z) (off i : Z) : outcome Z :=
  match fuel with
  | O => NoFuel
  | S f => do v <- vint_decode tmp;
           if v <? off then do tmp' <- vint_next tmp; getline_loop f tmp' off (i + 1) else Ok i
  end.
Definition getcurrline (fuel : nat) (bc : list Z) (pc : Z) : outcome Z :=
  do start <- read8 bc 0;
  do line_start <- read8 bc 8;
  if (line_start <? 0) || (Z.of_nat (length bc) <? line_start) then UB
  else getline_loop fuel (skipn (Z.to_nat line_start) bc) (u64 (pc - start)) 0.
