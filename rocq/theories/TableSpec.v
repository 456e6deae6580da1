(** * Specification of tables: what a user of YASL tables expects, without slots, hashes or tombstones. *)
From Verif Require Import Base Value ValueProofs Table.

(** Keys the language promises to work: bools, ints, strings, user pointers, and floats other than NaN and -0.0. *)
Definition good_key (k : value) : Prop :=
  match k with
  | VBool _ | VInt _ | VStr _ | VUserPtr _ => True
  | VFloat f => f <> S754_nan /\ f <> S754_zero true
  | _ => False
  end.
Definition good_val (v : value) : Prop := v <> VUndef /\ v <> VEnd.


(** Finite maps as functions. *)
Definition amap := value -> option value.
Definition mset (m : amap) (k v : value) : amap := fun q => if value_eq_dec q k then Some v else m q.
Definition mrm (m : amap) (k : value) : amap := fun q => if value_eq_dec q k then None else m q.
Definition mempty : amap := fun _ => None.

Definition op_ok (o : top) : Prop :=
  match o with TSet k v => good_key k /\ v <> VEnd | TRm k => good_key k end.

(** The reference semantics: a finite map, last write wins; writing undef removes. *)
Definition spec_step (m : amap) (o : top) : amap :=
  match o with
  | TSet k VUndef => mrm m k
  | TSet k v => mset m k v
  | TRm k => mrm m k
  end.
Definition spec_run (ops : list top) : amap := fold_left spec_step ops mempty.

(** Every removal in the history removes a key that is present at that moment. *)
Fixpoint removals_present (m : amap) (ops : list top) : Prop :=
  match ops with
  | [] => True
  | o :: ops' =>
      (match o with
       | TSet k VUndef => m k <> None
       | TSet _ _ => True
       | TRm k => m k <> None
       end) /\ removals_present (spec_step m o) ops'
  end.

(** Histories without removals. *)
Definition set_only (o : top) : Prop := match o with TSet k v => good_key k /\ good_val v | TRm _ => False end.

