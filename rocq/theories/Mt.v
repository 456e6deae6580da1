(** * Metatables: model of /repo/std/yasl-std-mt.c:6-33 and /repo/interpreter/VM.c:726-748 over the objects of Heap.v. Reference counts are
    not modelled. *)
From Verif Require Import Base Bytes Value Table Ops Text VM Names Heap.

(** [vm_get_metatable], VM.c:745-748, called by [YASL_mt_getmt], yasl-std-mt.c:6-9. *)
Definition mt_get (h : heap) (v : value) : outcome value :=
  do m <- metatable h v; Ok (match m with Some p => VTable p | None => VUndef end).
(** [YASL_mt_setmt], yasl-std-mt.c:11-33: the metatable is on top of the stack, the value below; the value is left there and returned. *)
Definition mt_set (h : heap) (v mt : value) : outcome (heap * value) :=
  match mt with
  | VTable m =>
      match v with
      | VUserData p | VList p | VTable p => Ok (Hp (hp_list h) (hp_tab h) (at_ (hp_mt h) p (Some m)) (hp_next h), v)
      | _ => Err EType
      end
  | _ => Err EType
  end.
