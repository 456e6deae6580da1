(** * Hash tables: model of /repo/data-structures/YASL_Table.{h,c} and of the table methods of
    /repo/interpreter/table_methods.c.  Reference counts are not part of this model. *)
From Verif Require Import Base Prime Value Hash.

(** [struct YASL_Table_Item], /repo/data-structures/YASL_Table.h:32-35. *)
Record item : Type := Item { ik : value; iv : value }.

(** A calloc'ed slot: both type tags are 0 = Y_UNDEF (/repo/yasl_types.h:10). *)
Definition EMPTY : item := Item VUndef VUndef.
(** [TOMBSTONE], /repo/data-structures/YASL_Table.c:15. *)
Definition TOMBSTONE : item := Item VEnd VEnd.

(** [struct YASL_Table], /repo/data-structures/YASL_Table.h:37-42. *)
Record table : Type := Tbl { t_size : Z; t_base : Z; t_count : Z; t_items : list item }.

(** [TABLE_BASESIZE], /repo/data-structures/YASL_Table.h:8. *)
Definition TABLE_BASESIZE : Z := 30.

(** Memory limit of the model: allocating 2^32 slots (32 bytes each) or more is taken to fail;
    the result of calloc is not checked by the code (YASL_Table.c:33), hence [UB]. *)
Definition ALLOC_LIMIT : Z := 4294967296.

(** Fuel for [next_prime]: candidate numbers tried / trial divisors per candidate. *)
Definition PRIME_FUEL : nat := 2000%nat.
Definition DIVISOR_FUEL : nat := Z.to_nat 33000.

(** [table_new_sized], /repo/data-structures/YASL_Table.c:28-35. *)
Definition table_new_sized (base : Z) : outcome table :=
  do sz <- next_prime Z.sqrt DIVISOR_FUEL PRIME_FUEL base;
  if sz <? ALLOC_LIMIT then Ok (Tbl sz base 0 (repeat EMPTY (Z.to_nat sz))) else UB.

(** [YASL_Table_new], /repo/data-structures/YASL_Table.c:37-39. *)
Definition table_new : outcome table := table_new_sized TABLE_BASESIZE.

(** [table->items[index]]; out of bounds is UB. *)
Definition get_item (t : table) (i : Z) : outcome item :=
  match nthZ (t_items t) i with Some it => Ok it | None => UB end.

Fixpoint upd {A} (l : list A) (n : nat) (x : A) : list A :=
  match l, n with
  | [], _ => []
  | _ :: l', O => x :: l'
  | y :: l', S n' => y :: upd l' n' x
  end.

Definition set_item (t : table) (i : Z) (it : item) : table :=
  Tbl (t_size t) (t_base t) (t_count t) (upd (t_items t) (Z.to_nat i) it).
Definition set_count (t : table) (c : Z) : table :=
  Tbl (t_size t) (t_base t) (u64 c) (t_items t).

(** The loop of [YASL_Table_getindex], /repo/data-structures/YASL_Table.c:102-116. [i] is the next
    attempt number. *)
Fixpoint getindex_loop (fuel : nat) (t : table) (key : value) (index i : Z) : outcome Z :=
  match fuel with
  | O => NoFuel
  | S f =>
    do it <- get_item t index;
    if is_undef (iv it) then Ok index
    else if negb (is_end (ik it)) && is_equal_typed (ik it) key then Ok index
    else getindex_loop f t key (get_hash key (t_size t) i) (u64 (i + 1))
  end.
Definition getindex (fuel : nat) (t : table) (key : value) : outcome Z :=
  getindex_loop fuel t key (get_hash key (t_size t) 0) 1.

(** The entries visited by [FOR_TABLE], /repo/data-structures/YASL_Table.h:10-11. *)
Definition for_table (t : table) : list item :=
  filter (fun it => negb (is_end (ik it)) && negb (is_undef (iv it))) (t_items t).

(** Insert every entry of a list, left to right (bodies of the FOR_TABLE loops). *)
Fixpoint insert_all (ins : table -> value -> value -> outcome table) (l : list item) (t : table)
  : outcome table :=
  match l with
  | [] => Ok t
  | it :: l' => do t' <- ins t (ik it) (iv it); insert_all ins l' t'
  end.

(** [table_resize], /repo/data-structures/YASL_Table.c:69-87: rebuild into a fresh table and swap.
    [ins] is [YASL_Table_insert_fast] (the two are mutually recursive). *)
Definition table_resize (ins : table -> value -> value -> outcome table) (t : table) (base : Z)
  : outcome table :=
  if base <? TABLE_BASESIZE then Ok t
  else
    do nt <- table_new_sized base;
    do nt' <- insert_all ins (for_table t) nt;
    Ok (Tbl (t_size nt') (t_base nt') (t_count nt') (t_items nt')).

(** [load], /repo/data-structures/YASL_Table.c:121 and :172. *)
Definition load (t : table) : Z := u64 (t_count t * 100) / t_size t.

(** [YASL_Table_insert_fast], /repo/data-structures/YASL_Table.c:118-133, with
    [table_resize_up] (:89-92). One fuel bounds both the recursion through resize and each probe loop. *)
Fixpoint insert_fast (fuel : nat) (t : table) (key v : value) : outcome table :=
  match fuel with
  | O => NoFuel
  | S f =>
    do t1 <- (if 70 <? load t then table_resize (insert_fast f) t (u64 (t_base t * 2)) else Ok t);
    do index <- getindex f t1 key;
    do it <- get_item t1 index;
    let t2 := if is_equal_typed (ik it) key then t1 else set_count t1 (t_count t1 + 1) in
    Ok (set_item t2 index (Item key v))
  end.

(** [YASL_Table_insert], /repo/data-structures/YASL_Table.c:135-141: [None] when it returns false. *)
Definition table_insert (fuel : nat) (t : table) (key v : value) : outcome (option table) :=
  if is_hashable key then omap Some (insert_fast fuel t key v) else Ok None.

(** [YASL_Table_length], /repo/data-structures/YASL_Table.c:151-153 (size_t read as yasl_int). *)
Definition table_length (t : table) : Z := i64 (t_count t).

(** [YASL_Table_search], /repo/data-structures/YASL_Table.c:155-169; [VEnd] means absent. The C counter
    is an [int]; its overflow after 2^31 probes of one search is not modelled. *)
Fixpoint search_loop (fuel : nat) (t : table) (key : value) (index i : Z) : outcome value :=
  match fuel with
  | O => NoFuel
  | S f =>
    do it <- get_item t index;
    if is_undef (ik it) then Ok VEnd
    else if is_equal_typed (ik it) key then Ok (iv it)
    else search_loop f t key (get_hash key (t_size t) i) (u64 (i + 1))
  end.
Definition table_search (fuel : nat) (t : table) (key : value) : outcome value :=
  if is_hashable key then search_loop fuel t key (get_hash key (t_size t) 0) 1 else Ok VEnd.

(** [YASL_Table_rm], /repo/data-structures/YASL_Table.c:182-202, with [table_resize_down] (:94-97). *)
Fixpoint rm_loop (fuel : nat) (t : table) (key : value) (index i : Z) : outcome table :=
  match fuel with
  | O => NoFuel
  | S f =>
    do it <- get_item t index;
    if is_undef (ik it) then Ok t
    else
      let t' := if negb (is_end (ik it)) && is_equal_typed (ik it) key
                then set_item t index TOMBSTONE else t in
      rm_loop f t' key (get_hash key (t_size t) i) (u64 (i + 1))
  end.
Definition table_rm (fuel : nat) (t : table) (key : value) : outcome table :=
  if is_hashable key then
    do t1 <- (if load t <? 10 then table_resize (insert_fast fuel) t (t_base t / 2) else Ok t);
    do t2 <- rm_loop fuel t1 key (get_hash key (t_size t1) 0) 1;
    Ok (set_count t2 (t_count t2 - 1))
  else Ok t.

(** ** The language-level operations (/repo/interpreter/table_methods.c). *)

(** [table___get] :23-33 — an absent key reads as undef. *)
Definition table_get (fuel : nat) (t : table) (key : value) : outcome value :=
  do r <- table_search fuel t key; Ok (if is_end r then VUndef else r).

(** [table___set] :35-49 — assigning undef removes; an unhashable key is a type error. *)
Definition table_set (fuel : nat) (t : table) (key v : value) : outcome table :=
  if is_undef v then table_rm fuel t key
  else do r <- table_insert fuel t key v;
       match r with Some t' => Ok t' | None => Err EType end.

(** [table_keys] :194-204 and [table_values] :206-215. *)
Definition table_keys (t : table) : list value := map ik (for_table t).
Definition table_values (t : table) : list value := map iv (for_table t).

(** [table___bor] :51-68 and [table_copy] :230-240. *)
Definition table_bor (fuel : nat) (l r : table) : outcome table :=
  do t0 <- table_new_sized (t_base l);
  do t1 <- insert_all (insert_fast fuel) (for_table l) t0;
  insert_all (insert_fast fuel) (for_table r) t1.
Definition table_copy (fuel : nat) (t : table) : outcome table :=
  do t0 <- table_new_sized (t_base t);
  insert_all (insert_fast fuel) (for_table t) t0.

(** [table_clear] :242-261: note that [size] becomes TABLE_BASESIZE itself and [base_size] is kept. *)
Definition table_clear (t : table) : table :=
  Tbl TABLE_BASESIZE (t_base t) 0 (repeat EMPTY (Z.to_nat TABLE_BASESIZE)).

(** The table case of [vm_ITER_1], /repo/interpreter/VM.c:888-901: from position [iter], the next key
    and the next position, or [None] at the end. *)
Fixpoint iter_skip (items : list item) (iter : Z) : option (value * Z) :=
  match items with
  | [] => None
  | it :: items' =>
      if is_end (ik it) || is_undef (ik it) then iter_skip items' (iter + 1)
      else Some (ik it, iter + 1)
  end.
Definition iter_table (t : table) (iter : Z) : option (value * Z) :=
  iter_skip (skipn (Z.to_nat iter) (t_items t)) iter.

(** The whole for loop (INITFOR sets iter to 0; ITER_1 until false), /repo/interpreter/VM.c:1524-1539. *)
Fixpoint iterate (fuel : nat) (t : table) (iter : Z) : outcome (list value) :=
  match fuel with
  | O => NoFuel
  | S f => match iter_table t iter with
           | None => Ok []
           | Some (k, iter') => do r <- iterate f t iter'; Ok (k :: r)
           end
  end.

(** [YASL_tablenext], /repo/yasl.c:370-392: the entry after [key] in slot order ([VUndef] starts),
    [None] when it returns false. The stack effects are modelled in [Api.v]. *)
Fixpoint next_skip (items : list item) : option (value * value) :=
  match items with
  | [] => None
  | it :: items' =>
      if is_end (ik it) || is_undef (ik it) then next_skip items' else Some (ik it, iv it)
  end.
Definition table_next (fuel : nat) (t : table) (key : value) : outcome (option (value * value)) :=
  do index <- (if is_undef key then Ok 0 else omap (fun i => u64 (i + 1)) (getindex fuel t key));
  Ok (next_skip (skipn (Z.to_nat index) (t_items t))).

(** A host program's enumeration: start from undef, feed each key back. *)
Fixpoint next_all (fuel steps : nat) (t : table) (key : value) : outcome (list (value * value)) :=
  match steps with
  | O => NoFuel
  | S s => do r <- table_next fuel t key;
           match r with
           | None => Ok []
           | Some (k, v) => do l <- next_all fuel s t k; Ok ((k, v) :: l)
           end
  end.

(** A history of language-level operations on one table: [t[k] = v] and [t.remove(k)]. *)
Inductive top : Type := TSet (k v : value) | TRm (k : value).

Fixpoint run_table (fuel : nat) (ops : list top) (t : table) : outcome table :=
  match ops with
  | [] => Ok t
  | TSet k v :: ops' => do t' <- table_set fuel t k v; run_table fuel ops' t'
  | TRm k :: ops' => do t' <- table_rm fuel t k; run_table fuel ops' t'
  end.
Definition run_new (fuel : nat) (ops : list top) : outcome table :=
  do t <- table_new; run_table fuel ops t.
