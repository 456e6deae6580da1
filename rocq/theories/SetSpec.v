(** * Specification of sets: mathematical sets of values, without slots, hashes or tombstones. *)
From Verif Require Import Base Value ValueProofs TableSpec Sets.

(** Sets as membership tests. *)
Definition vset := value -> bool.
Definition s_empty : vset := fun _ => false.
Definition s_add (A : vset) (v : value) : vset := fun q => if value_eq_dec q v then true else A q.
Definition s_del (A : vset) (v : value) : vset := fun q => if value_eq_dec q v then false else A q.

(** A universe of members: good keys (TableSpec.v), among which no int and float are numerically equal
    (a set may well hold ints and floats, but not 1 and 1.0). *)
Definition universe (U : value -> Prop) : Prop :=
  (forall v, U v -> good_key v) /\
  (forall i f, U (VInt i) -> U (VFloat f) -> f_eqb (f_of_int i) f = false).

Definition sop_in (U : value -> Prop) (o : sop) : Prop := match o with SAdd v | SRm v => U v end.
Definition is_add (o : sop) : Prop := match o with SAdd _ => True | SRm _ => False end.

(** The mathematical set after a history. *)
Definition set_step (A : vset) (o : sop) : vset := match o with SAdd v => s_add A v | SRm v => s_del A v end.
Definition contents (ops : list sop) : vset := fold_left set_step ops s_empty.

(** Every removal removes a member. *)
Fixpoint removes_members (A : vset) (ops : list sop) : Prop :=
  match ops with
  | [] => True
  | o :: ops' => (match o with SAdd _ => True | SRm v => A v = true end) /\ removes_members (set_step A o) ops'
  end.

(** Inclusion, equality and size of sets over a universe. *)
Definition subset (U : value -> Prop) (A B : vset) : Prop := forall q, U q -> A q = true -> B q = true.
Definition same_set (U : value -> Prop) (A B : vset) : Prop := forall q, U q -> A q = B q.
Definition listing (U : value -> Prop) (A : vset) (l : list value) : Prop :=
  NoDup l /\ (forall q, U q -> (In q l <-> A q = true)) /\ Forall U l.
