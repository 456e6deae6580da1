(** * Global variables: the interpreter of VM.v with [vm->globals] as the hash table it is in the code, instead of a map. *)
From Verif Require Import Base Bytes Value Hash Table Ops VM.

(** [vm_GSTORE_8] and [vm_GLOAD_8], /repo/interpreter/VM.c:1120-1132: the only instructions that touch [vm->globals];
    all others are those of VM.v (where [v_gl] then plays no role). *)
Definition gexec (fuel : nat) (P : prog) (o : opc) (s : vstate) (t : table) : sres * table :=
  match o with
  | O_GLOAD_8 => (rd8 P s (fun c s => opt s (const_name P c) (fun x => lift s (table_search fuel t (VStr x)) (push s))), t)
  | O_GSTORE_8 =>
      match read8 (p_code P) (v_pc s) with
      | Ok c =>
          let s := set_pc s (v_pc s + 8) in
          match const_name P c with
          | Some x =>
              match v_stk s with
              | v :: k =>
                  match insert_fast fuel t (VStr x) v with
                  | Ok t' => (Next (set_stk s k), t')
                  | UB => (Stop UB s, t)
                  | _ => (Stop NoFuel s, t)
                  end
              | [] => (Stop UB s, t)
              end
          | None => (Stop UB s, t)
          end
      | _ => (Stop UB s, t)
      end
  | _ => (exec P o s, t)
  end.
Definition gstep (fuel : nat) (P : prog) (s : vstate) (t : table) : sres * table :=
  match nthZ (p_code P) (v_pc s) with
  | None => (Stop UB s, t)
  | Some b => let s := set_pc s (v_pc s + 1) in
              match op_of_byte b with None => (Stop (Err EError) s, t) | Some o => gexec fuel P o s t end
  end.
Fixpoint grun (fuel n : nat) (P : prog) (s : vstate) (t : table) : sres * table :=
  match n with
  | O => (Next s, t)
  | S n' => match gstep fuel P s t with (Next s', t') => grun fuel n' P s' t' | r => r end
  end.
