(** * Sets: model of /repo/data-structures/YASL_Set.{h,c} and of the set methods of
    /repo/std/yasl-std-collections.c.  Reference counts are not part of this model. *)
From Verif Require Import Base Prime Value Hash Table.

(** [struct YASL_Set], /repo/data-structures/YASL_Set.h:9-14. A calloc'ed slot reads as undef. *)
Record yset : Type := YSet { s_size : Z; s_base : Z; s_count : Z; s_items : list value }.

(** [SET_BASESIZE], /repo/data-structures/YASL_Set.c:6. *)
Definition SET_BASESIZE : Z := 30.

(** [set_new_sized], /repo/data-structures/YASL_Set.c:8-15 (memory limit as in Table.v). *)
Definition set_new_sized (base : Z) : outcome yset :=
  do sz <- next_prime Z.sqrt DIVISOR_FUEL PRIME_FUEL base;
  if sz <? ALLOC_LIMIT then Ok (YSet sz base 0 (repeat VUndef (Z.to_nat sz))) else UB.

(** [YASL_Set_new], /repo/data-structures/YASL_Set.c:17-19. *)
Definition set_new : outcome yset := set_new_sized SET_BASESIZE.

(** [set->items[index]]; out of bounds is UB. *)
Definition get_member (s : yset) (i : Z) : outcome value :=
  match nthZ (s_items s) i with Some v => Ok v | None => UB end.
Definition set_member (s : yset) (i : Z) (v : value) : yset :=
  YSet (s_size s) (s_base s) (s_count s) (upd (s_items s) (Z.to_nat i) v).
Definition set_scount (s : yset) (c : Z) : yset :=
  YSet (s_size s) (s_base s) (u64 c) (s_items s).

(** The members visited by [FOR_SET], /repo/data-structures/YASL_Set.h:6-7. *)
Definition for_set (s : yset) : list value :=
  filter (fun v => negb (is_end v) && negb (is_undef v)) (s_items s).

(** Body of the FOR_SET loops that insert every member of a list; the boolean result of
    [YASL_Set_insert] is ignored by the callers. *)
Fixpoint set_insert_all (ins : yset -> value -> outcome (bool * yset)) (l : list value) (s : yset)
  : outcome yset :=
  match l with
  | [] => Ok s
  | v :: l' => do (_, s') <- ins s v; set_insert_all ins l' s'
  end.

(** [set_resize], /repo/data-structures/YASL_Set.c:31-49. *)
Definition set_resize (ins : yset -> value -> outcome (bool * yset)) (s : yset) (base : Z)
  : outcome yset :=
  if base <? SET_BASESIZE then Ok s
  else do ns <- set_new_sized base; set_insert_all ins (for_set s) ns.

(** [load], /repo/data-structures/YASL_Set.c:66 and :108. *)
Definition sload (s : yset) : Z := u64 (s_count s * 100) / s_size s.

(** The loop of [YASL_Set_insert], /repo/data-structures/YASL_Set.c:70-82: the slot where it stops and
    whether it holds an equal member. *)
Fixpoint set_find (fuel : nat) (s : yset) (v : value) (index i : Z) : outcome (Z * bool) :=
  match fuel with
  | O => NoFuel
  | S f =>
    do it <- get_member s index;
    if is_undef it then Ok (index, false)
    else if negb (is_end it) && is_equal it v then Ok (index, true)
    else set_find f s v (get_hash v (s_size s) i) (u64 (i + 1))
  end.

(** [YASL_Set_insert], /repo/data-structures/YASL_Set.c:61-86, with [set_resize_up] (:51-54). *)
Fixpoint set_insert (fuel : nat) (s : yset) (v : value) : outcome (bool * yset) :=
  match fuel with
  | O => NoFuel
  | S f =>
    if is_hashable v then
      do s1 <- (if 70 <? sload s then set_resize (set_insert f) s (u64 (s_base s * 2)) else Ok s);
      do (index, found) <- set_find f s1 v (get_hash v (s_size s1) 0) 1;
      if found then Ok (true, set_member s1 index v)
      else Ok (true, set_scount (set_member s1 index v) (s_count s1 + 1))
    else Ok (false, s)
  end.

(** [YASL_Set_search], /repo/data-structures/YASL_Set.c:88-100 (no test that the key is hashable, none
    that the slot is not a tombstone). *)
Fixpoint set_search_loop (fuel : nat) (s : yset) (key : value) (index i : Z) : outcome bool :=
  match fuel with
  | O => NoFuel
  | S f =>
    do it <- get_member s index;
    if is_undef it then Ok false
    else if is_equal it key then Ok true
    else set_search_loop f s key (get_hash key (s_size s) i) (u64 (i + 1))
  end.
Definition set_search (fuel : nat) (s : yset) (key : value) : outcome bool :=
  set_search_loop fuel s key (get_hash key (s_size s) 0) 1.

(** [YASL_Set_rm], /repo/data-structures/YASL_Set.c:102-123, with [set_resize_down] (:56-59). *)
Fixpoint set_rm_loop (fuel : nat) (s : yset) (key : value) (index i : Z) : outcome yset :=
  match fuel with
  | O => NoFuel
  | S f =>
    do it <- get_member s index;
    if is_undef it then Ok s
    else
      let s' := if negb (is_end it) && is_equal it key then set_member s index VEnd else s in
      set_rm_loop f s' key (get_hash key (s_size s) i) (u64 (i + 1))
  end.
Definition set_rm (fuel : nat) (s : yset) (key : value) : outcome yset :=
  if is_hashable key then
    do s1 <- (if sload s <? 10 then set_resize (set_insert fuel) s (s_base s / 2) else Ok s);
    do s2 <- set_rm_loop fuel s1 key (get_hash key (s_size s1) 0) 1;
    Ok (set_scount s2 (s_count s2 - 1))
  else Ok s.

(** The loops of intersection and of the differences: insert into [t] those of [l] for which the search
    in [r] answers [keep]. /repo/data-structures/YASL_Set.c:138-143, :149-154, :155-160, :167-172. *)
Fixpoint set_select (fuel : nat) (keep : bool) (r : yset) (l : list value) (t : yset) : outcome yset :=
  match l with
  | [] => Ok t
  | v :: l' =>
    do c <- set_search fuel r v;
    do t' <- (if Bool.eqb c keep then omap snd (set_insert fuel t v) else Ok t);
    set_select fuel keep r l' t'
  end.

(** [YASL_Set_union] :125-134, [YASL_Set_intersection] :136-145,
    [YASL_Set_symmetric_difference] :147-163, [YASL_Set_difference] :165-174
    (/repo/data-structures/YASL_Set.c), reached by [|], [&], [^] and [&^]
    (/repo/std/yasl-std-collections.c:152-169). *)
Definition set_union (fuel : nat) (l r : yset) : outcome yset :=
  do t <- set_new;
  do t1 <- set_insert_all (set_insert fuel) (for_set l) t;
  set_insert_all (set_insert fuel) (for_set r) t1.
Definition set_intersection (fuel : nat) (l r : yset) : outcome yset :=
  do t <- set_new; set_select fuel true r (for_set l) t.
Definition set_symmetric_difference (fuel : nat) (l r : yset) : outcome yset :=
  do t <- set_new;
  do t1 <- set_select fuel false r (for_set l) t;
  set_select fuel false l (for_set r) t1.
Definition set_difference (fuel : nat) (l r : yset) : outcome yset :=
  do t <- set_new; set_select fuel false r (for_set l) t.

(** [YASL_collections_set_copy], /repo/std/yasl-std-collections.c:281-293. *)
Definition set_copy (fuel : nat) (s : yset) : outcome yset :=
  do t <- set_new; set_insert_all (set_insert fuel) (for_set s) t.

(** [YASL_collections_set_tolist], /repo/std/yasl-std-collections.c:139-150 (the elements of the list). *)
Definition set_tolist (s : yset) : list value := for_set s.

(** [YASL_collections_set___len], /repo/std/yasl-std-collections.c:251-256 (size_t passed as yasl_int). *)
Definition set_length (s : yset) : Z := i64 (s_count s).

(** The loops of the comparison methods: is every element of [l] found in [r]? *)
Fixpoint set_all_in (fuel : nat) (r : yset) (l : list value) : outcome bool :=
  match l with
  | [] => Ok true
  | v :: l' => do c <- set_search fuel r v; if c then set_all_in fuel r l' else Ok false
  end.

(** [__eq] :171-189, [__gt] :191-204, [__ge] :206-219, [__lt] :221-234, [__le] :236-249 of
    /repo/std/yasl-std-collections.c. The lengths are compared as size_t. *)
Definition set_eq (fuel : nat) (l r : yset) : outcome bool :=
  if negb (s_count l =? s_count r) then Ok false else set_all_in fuel r (for_set l).
Definition set_gt (fuel : nat) (l r : yset) : outcome bool :=
  do c <- set_all_in fuel l (for_set r); Ok (if c then s_count r <? s_count l else false).
Definition set_ge (fuel : nat) (l r : yset) : outcome bool :=
  do c <- set_all_in fuel l (for_set r); Ok (if c then s_count r <=? s_count l else false).
Definition set_lt (fuel : nat) (l r : yset) : outcome bool :=
  do c <- set_all_in fuel r (for_set l); Ok (if c then s_count l <? s_count r else false).
Definition set_le (fuel : nat) (l r : yset) : outcome bool :=
  do c <- set_all_in fuel r (for_set l); Ok (if c then s_count l <=? s_count r else false).

(** [YASL_collections_set_add] :258-268 and the loop body of [YASL_collections_set_new] :46-55: a value
    that is not hashable is a type error. *)
Definition set_add (fuel : nat) (s : yset) (v : value) : outcome yset :=
  do (ok, s') <- set_insert fuel s v; if ok then Ok s' else Err EType.

(** [collections.set(a1, ..., an)]: [YASL_collections_set_new], /repo/std/yasl-std-collections.c:40-61,
    inserts the arguments last to first; a single list argument is inserted first to last
    ([YASL_collections_set_fromlist] :16-38). *)
Fixpoint set_add_all (fuel : nat) (l : list value) (s : yset) : outcome yset :=
  match l with
  | [] => Ok s
  | v :: l' => do s' <- set_add fuel s v; set_add_all fuel l' s'
  end.
Definition set_of_args (fuel : nat) (args : list value) : outcome yset :=
  do s <- set_new; set_add_all fuel (rev args) s.
Definition set_of_list (fuel : nat) (elems : list value) : outcome yset :=
  do s <- set_new; set_add_all fuel elems s.

(** [YASL_collections_set_clear], /repo/std/yasl-std-collections.c:295-302: [i] runs up to the *current*
    size while [YASL_Set_rm] may rebuild the slot array. [steps] bounds the number of iterations. *)
Fixpoint set_clear_loop (fuel steps : nat) (s : yset) (i : Z) : outcome yset :=
  match steps with
  | O => NoFuel
  | S k =>
    if i <? s_size s then
      do it <- get_member s i;
      do s' <- (if negb (is_end it) && negb (is_undef it) then set_rm fuel s it else Ok s);
      set_clear_loop fuel k s' (i + 1)
    else Ok s
  end.
Definition set_clear (fuel : nat) (s : yset) : outcome yset := set_clear_loop fuel fuel s 0.

(** A history of [s.add(v)] and [s.remove(v)] on a new set. *)
Inductive sop : Type := SAdd (v : value) | SRm (v : value).
Fixpoint run_set (fuel : nat) (ops : list sop) (s : yset) : outcome yset :=
  match ops with
  | [] => Ok s
  | SAdd v :: ops' => do s' <- set_add fuel s v; run_set fuel ops' s'
  | SRm v :: ops' => do s' <- set_rm fuel s v; run_set fuel ops' s'
  end.
Definition run_new_set (fuel : nat) (ops : list sop) : outcome yset :=
  do s <- set_new; run_set fuel ops s.
