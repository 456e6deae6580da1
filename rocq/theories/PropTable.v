(** C02-C06: tables. The specification (finite maps, histories) is in TableSpec.v, the model in Table.v. *)
From Verif Require Import Base Value ValueProofs Hash Table TableSpec TableProofs3 TableProofs4.

(** ** C02: after any history of assignments and removals, a lookup answers what a finite map answers. *)
Theorem C02_table_history : forall fuel fuel' ops t q r,
  Forall op_ok ops -> run_new fuel ops = Ok t -> good_key q -> table_get fuel' t q = Ok r ->
  r = match spec_run ops q with Some v => v | None => VUndef end.
Proof. exact hist_get. Qed.
Print Assumptions C02_table_history.

(** Histories of assignments (up to 2^29 of them) and lookups always complete, with the map's answer. *)
Theorem C02_insertions_total : forall fuel ops,
  FUEL_BOUND <= Z.of_nat fuel -> Forall set_only ops -> Z.of_nat (length ops) <= 2 ^ 29 ->
  exists t, run_new fuel ops = Ok t /\
    forall q, good_key q -> table_get fuel t q = Ok (match spec_run ops q with Some v => v | None => VUndef end).
Proof. exact insertions_total. Qed.
Print Assumptions C02_insertions_total.

(** Table union: the right operand wins; copy: the same mapping. *)
Theorem C02_table_union : forall fuel ops1 ops2 l r t fuel' q x,
  Forall op_ok ops1 -> Forall op_ok ops2 ->
  run_new fuel ops1 = Ok l -> run_new fuel ops2 = Ok r -> table_bor fuel l r = Ok t -> good_key q ->
  table_get fuel' t q = Ok x ->
  x = match spec_run ops2 q with Some v => v
      | None => match spec_run ops1 q with Some v => v | None => VUndef end end.
Proof. exact hist_bor. Qed.
Print Assumptions C02_table_union.

Theorem C02_table_copy : forall fuel ops l t fuel' q x, Forall op_ok ops ->
  run_new fuel ops = Ok l -> table_copy fuel l = Ok t -> good_key q ->
  table_get fuel' t q = Ok x ->
  x = match spec_run ops q with Some v => v | None => VUndef end.
Proof. exact hist_copy. Qed.
Print Assumptions C02_table_copy.

Definition ex_hist : list top :=
  [TSet (VInt 1) (VInt 10); TSet (VStr [97]) (VInt 20); TSet (VFloat (f_of_int 1)) (VInt 30);
   TSet (VInt 1) (VInt 11); TSet (VInt 32) (VBool true); TRm (VStr [97]); TSet (VBool true) VUndef].
Definition ex_hist2 : list top := map (fun n => TSet (VInt (Z.of_nat n)) (VInt (Z.of_nat (n * n)))) (seq 0 60).

Example C02_nonvacuous :
  Forall op_ok ex_hist /\ (exists t, run_new 100 ex_hist = Ok t /\ table_get 100 t (VInt 1) = Ok (VInt 11)
     /\ table_get 100 t (VFloat (f_of_int 1)) = Ok (VInt 30) /\ table_get 100 t (VStr [97]) = Ok VUndef)
  /\ Forall set_only ex_hist2 /\ (exists t, run_new 300 ex_hist2 = Ok t /\ t_size t = 127 /\ table_get 300 t (VInt 59) = Ok (VInt 3481)).
Proof.
  split; [unfold ex_hist; repeat constructor; cbn; repeat split; discriminate|].
  split; [eexists; split; [vm_compute; reflexivity|vm_compute; auto]|].
  split; [unfold ex_hist2; cbn [seq map]; repeat constructor; discriminate|].
  eexists; split; [vm_compute; reflexivity|vm_compute; auto].
Qed.

(** Findings outside the well-behaved keys. Each key below is accepted by [ishashable]; after storing under
    it, a key that [==] calls equal is not found (0.0 and -0.0), the key itself is not found (NaN, undef),
    or another, perfectly ordinary key is lost (undef). *)
Theorem C02_all_hashable_keys_refuted :
  (exists t, run_new 100 [TSet (VFloat (S754_zero false)) (VInt 7)] = Ok t
     /\ is_equal (VFloat (S754_zero false)) (VFloat (S754_zero true)) = true
     /\ table_get 100 t (VFloat (S754_zero true)) = Ok VUndef) /\
  (exists t, run_new 100 [TSet (VFloat S754_nan) (VInt 7); TSet (VFloat S754_nan) (VInt 8)] = Ok t
     /\ table_get 100 t (VFloat S754_nan) = Ok VUndef /\ table_length t = 2) /\
  (exists t, run_new 100 [TSet VUndef (VInt 7); TSet (VInt 0) (VInt 8)] = Ok t
     /\ table_get 100 t VUndef = Ok VUndef /\ table_get 100 t (VInt 0) = Ok VUndef).
Proof. repeat split; eexists; split; try (vm_compute; reflexivity); vm_compute; auto. Qed.
Print Assumptions C02_all_hashable_keys_refuted.

(** ** C03: removing a key makes that key and only that key absent. *)
Theorem C03_remove_only_that_key : forall fuel fuel' ops k t q r,
  Forall op_ok ops -> good_key k -> good_key q ->
  run_new fuel (ops ++ [TRm k]) = Ok t -> table_get fuel' t q = Ok r ->
  r = if value_eq_dec q k then VUndef else match spec_run ops q with Some v => v | None => VUndef end.
Proof. exact hist_remove. Qed.
Print Assumptions C03_remove_only_that_key.

Example C03_nonvacuous : exists t, run_new 100 (ex_hist ++ [TRm (VInt 1)]) = Ok t
   /\ table_get 100 t (VInt 1) = Ok VUndef /\ table_get 100 t (VInt 32) = Ok (VBool true).
Proof. eexists; split; [vm_compute; reflexivity|vm_compute; auto]. Qed.

(** The other half of C03 is false of the code: removing an absent key decrements the length (here to -1),
    both by [t.remove(k)] and by [t[k] = undef]. *)
Theorem C03_remove_absent_refuted : forall k, good_key k ->
  exists t0 t1 t2, table_new = Ok t0 /\ table_length t0 = 0 /\
    run_new 100 [TRm k] = Ok t1 /\ table_length t1 = -1 /\
    run_new 100 [TSet k VUndef] = Ok t2 /\ table_length t2 = -1.
Proof. exact remove_absent. Qed.
Print Assumptions C03_remove_absent_refuted.

(** ** C04: length is the number of keys stored, if only present keys are removed. *)
Theorem C04_length_counts_keys : forall fuel ops t,
  Forall op_ok ops -> removals_present mempty ops -> run_new fuel ops = Ok t ->
  exists keys, NoDup keys /\ (forall k, good_key k -> (In k keys <-> spec_run ops k <> None))
    /\ Forall good_key keys /\ table_length t = Z.of_nat (length keys).
Proof. exact hist_length. Qed.
Print Assumptions C04_length_counts_keys.

Example C04_nonvacuous :
  let ops := [TSet (VInt 1) (VInt 10); TSet (VStr [97]) (VInt 20); TSet (VInt 1) (VInt 11); TRm (VStr [97])] in
  Forall op_ok ops /\ removals_present mempty ops /\ omap table_length (run_new 100 ops) = Ok 1.
Proof.
  split; [repeat constructor; cbn; discriminate|]. split; [|vm_compute; reflexivity].
  cbn [removals_present spec_step]. repeat split. unfold mset. repeat (destruct value_eq_dec; try congruence); discriminate.
Qed.

(** ** C05: for loops, keys(), values() and YASL_tablenext enumerate the mapping, each key exactly once. *)
Theorem C05_enumeration : forall fuel fuel' steps ops t,
  Forall op_ok ops -> run_new fuel ops = Ok t ->
  (length (t_items t) < steps)%nat -> t_size t <= Z.of_nat fuel' ->
  exists entries,
    NoDup (map fst entries) /\ (forall k v, In (k, v) entries <-> good_key k /\ spec_run ops k = Some v) /\
    iterate steps t 0 = Ok (map fst entries) /\
    table_keys t = map fst entries /\ table_values t = map snd entries /\
    next_all fuel' steps t VUndef = Ok entries.
Proof. exact hist_enumerate. Qed.
Print Assumptions C05_enumeration.

Example C05_nonvacuous : exists t, run_new 100 ex_hist = Ok t /\ (length (t_items t) < 50)%nat /\ t_size t <= Z.of_nat 100
  /\ length (table_keys t) = 3%nat.
Proof. eexists; split; [vm_compute; reflexivity|]. split; [vm_compute; lia|]. split; vm_compute; [discriminate|reflexivity]. Qed.

(** ** C06: termination. The full statement ("every lookup, insertion and removal terminates") is false;
    proved: in every reachable table that still has a never-used slot, operations that do not resize finish
    within as many probes as there are slots; insertion-only histories always terminate
    (C02_insertions_total). Missing: resizing during histories with removals. *)
Theorem C06_terminates_partial : forall fuel fuel' ops t,
  Forall op_ok ops -> run_new fuel ops = Ok t ->
  In EMPTY (t_items t) -> t_size t < Z.of_nat fuel' ->
  (forall q, good_key q -> exists r, table_get fuel' t q = Ok r) /\
  (forall k v, good_key k -> good_val v -> load t <= 70 -> exists t', table_set fuel' t k v = Ok t') /\
  (forall k, good_key k -> 10 <= load t \/ t_base t / 2 < TABLE_BASESIZE -> exists t', table_rm fuel' t k = Ok t').
Proof. exact hist_terminates. Qed.
Print Assumptions C06_terminates_partial.

Example C06_nonvacuous : exists t, run_new 100 ex_hist = Ok t /\ In EMPTY (t_items t) /\ load t <= 70 /\ t_base t / 2 < TABLE_BASESIZE.
Proof. eexists; split; [vm_compute; reflexivity|]. split; [vm_compute; auto|]. split; vm_compute; [discriminate|reflexivity]. Qed.

(** Thirty store/remove cycles followed by one store leave a table with one entry on which every lookup of
    an absent key, every insertion of a new key, and the removal of the present key loop forever. *)
Theorem C06_tombstones_refuted : exists ops t,
  Forall op_ok ops /\ run_new 100 ops = Ok t /\ table_length t = 1 /\
  (forall q fuel, good_key q -> q <> VInt 30 -> table_get fuel t q = NoFuel /\ table_set fuel t q (VBool true) = NoFuel) /\
  (forall fuel, table_rm fuel t (VInt 30) = NoFuel).
Proof. exact tombstones_refuted. Qed.
Print Assumptions C06_tombstones_refuted.

(** After t.clear() the capacity is 30, which is not prime: with 15 and 45 stored, storing 75 probes only the
    slots 15 and 0, for more than 10^18 probes. *)
Theorem C06_clear_refuted : exists t0 t,
  table_new = Ok t0 /\
  run_table 100 [TSet (VInt 15) (VBool true); TSet (VInt 45) (VBool true)] (table_clear t0) = Ok t /\
  (forall fuel, Z.of_nat fuel < 2 ^ 60 -> table_set fuel t (VInt 75) (VBool true) = NoFuel).
Proof. exact clear_refuted. Qed.
Print Assumptions C06_clear_refuted.
