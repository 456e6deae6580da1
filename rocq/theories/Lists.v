(** * Lists: model of /repo/data-structures/YASL_List.c and of the list methods of
    /repo/interpreter/list_methods.c, list slicing (/repo/interpreter/VM.c:622-667) and list literals (VM.c:1506-1519).
    Reference counts are modelled separately (Refs.v). Sizes are natural numbers: a list of more than 2^63 elements
    does not fit in memory, so the [size_t] arithmetic below does not wrap. *)
From Verif Require Import Base Value Ops.

(** [struct YASL_List], YASL_List.h:13-17: [items] is the allocated block of [size] slots ([None] = never
    written), [count] the number of elements. *)
Record ylist : Type := YL { l_items : list (option value); l_count : nat }.
Definition l_size (l : ylist) : nat := length (l_items l).

(** C array accesses: outside the block, or of a slot never written, undefined. *)
Definition aget (a : list (option value)) (i : nat) : outcome value :=
  match nth_error a i with Some (Some v) => Ok v | _ => UB end.
Definition aput (a : list (option value)) (i : nat) (o : option value) : list (option value) :=
  firstn i a ++ o :: skipn (S i) a.
Definition aset (a : list (option value)) (i : nat) (v : value) : outcome (list (option value)) :=
  if (i <? length a)%nat then Ok (aput a i (Some v)) else UB.
(** [realloc] to [n] slots. *)
Definition arealloc (a : list (option value)) (n : nat) : list (option value) :=
  firstn n a ++ repeat None (n - length a).
(** [memmove(a + dst, a + src, n)]. *)
Definition amemmove (a : list (option value)) (dst src n : nat) : outcome (list (option value)) :=
  if (dst + n <=? length a)%nat && (src + n <=? length a)%nat
  then Ok (firstn dst a ++ firstn n (skipn src a) ++ skipn (dst + n) a) else UB.

(** [YASL_List_new_sized], YASL_List.c:10-16. *)
Definition list_new (base_size : nat) : ylist := YL (repeat None base_size) 0.
(** LIST_BASESIZE, YASL_List.h:8. *)
Definition LIST_BASESIZE : nat := 4.
(** [YASL_List_length], YASL_List.c:39-41. *)
Definition list_length (l : ylist) : Z := Z.of_nat (l_count l).
(** [ls_resize], [ls_resize_up], YASL_List.c:43-51. *)
Definition list_resize_up (l : ylist) : ylist :=
  let new_size := if (l_size l =? 0)%nat then 1%nat else (l_size l * 2)%nat in YL (arealloc (l_items l) new_size) (l_count l).
Definition list_room (l : ylist) : ylist := if (l_size l <=? l_count l)%nat then list_resize_up l else l.
(** [YASL_List_append], YASL_List.c:53-57. *)
Definition list_append (l : ylist) (v : value) : outcome ylist :=
  let l := list_room l in
  do a <- aset (l_items l) (l_count l) v; Ok (YL a (S (l_count l))).
(** [YASL_List_insert], YASL_List.c:59-65. *)
Definition list_insert_at (l : ylist) (index : nat) (v : value) : outcome ylist :=
  let l := list_room l in
  do a <- amemmove (l_items l) (index + 1) index (l_count l - index);
  do a' <- aset a index v; Ok (YL a' (S (l_count l))).
(** [YASL_reverse], YASL_List.c:67-73: [n] is the number of swaps still to do, [i] the next one. *)
Fixpoint reverse_loop (a : list (option value)) (count i n : nat) : outcome (list (option value)) :=
  match n with
  | O => Ok a
  | S n' =>
      do x <- aget a i; do y <- aget a (count - i - 1);
      do a1 <- aset a i y; do a2 <- aset a1 (count - i - 1) x; reverse_loop a2 count (S i) n'
  end.
Definition list_reverse (l : ylist) : outcome ylist :=
  do a <- reverse_loop (l_items l) (l_count l) 0 (l_count l / 2); Ok (YL a (l_count l)).

(** [list___get_helper], list_methods.c:24-36 (also YASL_listget). [index + count] is computed in [size_t];
    both are within range there, so it is the mathematical sum. *)
Definition list_get (l : ylist) (index : Z) : outcome value :=
  let n := list_length l in
  if (index <? - n) || (n <=? index) then Err EValue
  else if 0 <=? index then aget (l_items l) (Z.to_nat index) else aget (l_items l) (Z.to_nat (index + n)).
(** [list___set], list_methods.c:46-62. *)
Definition list_set (l : ylist) (index : Z) (v : value) : outcome ylist :=
  let n := list_length l in
  if (index <? - n) || (n <=? index) then Err EValue
  else let index := if index <? 0 then index + n else index in
       (* [dec_ref] reads the old element *)
       do _ <- aget (l_items l) (Z.to_nat index);
       do a <- aset (l_items l) (Z.to_nat index) v; Ok (YL a (l_count l)).
(** [list_pop], list_methods.c:215-223. *)
Definition list_pop (l : ylist) : outcome (value * ylist) :=
  if (l_count l =? 0)%nat then Err EValue
  else do v <- aget (l_items l) (l_count l - 1); Ok (v, YL (l_items l) (l_count l - 1)).
(** [list_clear], list_methods.c:246-254. *)
Definition list_clear (l : ylist) : ylist := YL (arealloc (l_items l) LIST_BASESIZE) 0.
(** [list_insert], list_methods.c:442-470. *)
Definition list_insert (l : ylist) (index : Z) (v : value) : outcome ylist :=
  let len := list_length l in
  if index =? len then list_append l v
  else if (len <=? index) || (index <? - len) then Err EValue
  else let index := if index <? 0 then index + len else index in list_insert_at l (Z.to_nat index) v.

(** FOR_LIST, YASL_List.h:10: the elements from position [i] on. *)
Fixpoint elements_from (a : list (option value)) (i n : nat) : outcome (list value) :=
  match n with O => Ok [] | S n' => do v <- aget a i; do vs <- elements_from a (S i) n'; Ok (v :: vs) end.
Definition list_elements (l : ylist) : outcome (list value) := elements_from (l_items l) 0 (l_count l).
(** Appending a run of values one by one. *)
Fixpoint append_all (l : ylist) (vs : list value) : outcome ylist :=
  match vs with [] => Ok l | v :: vs' => do l1 <- list_append l v; append_all l1 vs' end.
(** [list_copy], list_methods.c:157-168. *)
Definition list_copy (l : ylist) : outcome ylist := do vs <- list_elements l; append_all (list_new (l_size l)) vs.
(** [list_concat], list_methods.c:170-182. *)
Definition list_concat (a b : ylist) : outcome ylist :=
  do xs <- list_elements a; do ys <- list_elements b;
  do r <- append_all (list_new (l_count a + l_count b)) xs; append_all r ys.
(** O_NEWLIST, VM.c:1506-1519: the values above the Y_END mark, bottom first. *)
Definition list_literal (vs : list value) : outcome ylist := append_all (list_new LIST_BASESIZE) vs.

(** [list_search], list_methods.c:225-238: the loop does not stop at the first hit. *)
Definition list_search (l : ylist) (needle : value) : outcome value :=
  do vs <- list_elements l;
  Ok (snd (fold_left (fun st v => let '(i, r) := st in (i + 1, if is_equal v needle then VInt i else r)) vs (0, VUndef))).
(** [list_count], list_methods.c:323-334. *)
Definition list_count (l : ylist) (v : value) : outcome value :=
  do vs <- list_elements l;
  Ok (VInt (fold_left (fun c e => c + (if is_equal e v then 1 else 0)) vs 0)).
(** [list___eq], list_methods.c:193-213; [veq] is [vm_EQ] on elements (its answer popped with [YASL_popbool]). *)
Fixpoint list_eq_loop (veq : value -> value -> outcome bool) (a b : list (option value)) (i n : nat) : outcome bool :=
  match n with
  | O => Ok true
  | S n' => do x <- aget a i; do y <- aget b i; do r <- veq x y;
            if r then list_eq_loop veq a b (S i) n' else Ok false
  end.
Definition list_eq (veq : value -> value -> outcome bool) (a b : ylist) : outcome bool :=
  if negb (l_count a =? l_count b)%nat then Ok false else list_eq_loop veq (l_items a) (l_items b) 0 (l_count a).

(** [vm_SLICE_list], VM.c:622-667. *)
Definition slice_end (len : Z) (v : value) : outcome Z :=
  match v with
  | VUndef => Ok len
  | VInt e => let e := if e <? 0 then e + len else e in Ok (if len <? e then len else e)
  | _ => Err EType
  end.
Definition slice_start (len : Z) (v : value) : outcome Z :=
  match v with
  | VUndef => Ok 0
  | VInt s => let s := if s <? 0 then s + len else s in Ok (if s <? 0 then 0 else s)
  | _ => Err EType
  end.
(** The copying loop; a negative index cannot occur since [start >= 0]. *)
Fixpoint slice_loop (src : list (option value)) (i : Z) (n : nat) (dst : ylist) : outcome ylist :=
  match n with
  | O => Ok dst
  | S n' => if i <? 0 then UB else
            do v <- aget src (Z.to_nat i); do d <- list_append dst v; slice_loop src (i + 1) n' d
  end.
Definition list_slice (l : ylist) (vstart vend : value) : outcome ylist :=
  do e <- slice_end (list_length l) vend;
  do s <- slice_start (list_length l) vstart;
  slice_loop (l_items l) s (Z.to_nat (e - s)) (list_new LIST_BASESIZE).

(** [list_join], list_methods.c:256-310, on the stringified elements (vm_stringify_top): the growing buffer of
    [size] bytes, of which the first [length buf] are in use. [fuel] bounds the doubling loop. *)
Fixpoint join_grow (fuel : nat) (need size : nat) : outcome nat :=
  match fuel with
  | O => NoFuel
  | S f => if (size <=? need)%nat then join_grow f need (size * 2) else Ok size
  end.
Definition join_add (fuel : nat) (st : list Z * nat) (s : list Z) : outcome (list Z * nat) :=
  let '(buf, size) := st in
  do size' <- join_grow fuel (length buf + length s) size;
  if (length buf + length s <=? size')%nat then Ok (buf ++ s, size') else UB.
Fixpoint join_loop (fuel : nat) (w : world) (sep : list Z) (st : list Z * nat) (vs : list value) : outcome (list Z * nat) :=
  match vs with
  | [] => Ok st
  | v :: vs' =>
      do st1 <- join_add fuel st sep; do s <- w_tostr w v; do st2 <- join_add fuel st1 s; join_loop fuel w sep st2 vs'
  end.
Definition list_join (fuel : nat) (w : world) (l : ylist) (sep : list Z) : outcome (list Z) :=
  do vs <- list_elements l;
  match vs with
  | [] => Ok []
  | v :: vs' => do s <- w_tostr w v; do st <- join_add fuel ([], 8%nat) s; do st' <- join_loop fuel w sep st vs'; Ok (fst st')
  end.

(** A history of list method calls on one list. [LGet] etc. return a value; an error leaves the list as it was. *)
Inductive lop : Type :=
| LPush (v : value) | LInsert (i : Z) (v : value) | LSet (i : Z) (v : value) | LGet (i : Z) | LPop | LReverse | LClear
| LLen | LSearch (v : value) | LCount (v : value).
Definition lstep (l : ylist) (o : lop) : outcome (value * ylist) :=
  match o with
  | LPush v => do l' <- list_append l v; Ok (VUndef, l')
  | LInsert i v => do l' <- list_insert l i v; Ok (VUndef, l')
  | LSet i v => do l' <- list_set l i v; Ok (VUndef, l')
  | LGet i => do v <- list_get l i; Ok (v, l)
  | LPop => list_pop l
  | LReverse => do l' <- list_reverse l; Ok (VUndef, l')
  | LClear => Ok (VUndef, list_clear l)
  | LLen => Ok (VInt (list_length l), l)
  | LSearch v => do r <- list_search l v; Ok (r, l)
  | LCount v => do r <- list_count l v; Ok (r, l)
  end.
(** Every answer of a history, in order; undefined behaviour anywhere ends it. *)
Fixpoint lrun (l : ylist) (ops : list lop) : outcome (list (value + yerr) * ylist) :=
  match ops with
  | [] => Ok ([], l)
  | o :: ops' =>
      match lstep l o with
      | Ok (v, l') => do r <- lrun l' ops'; Ok (inl v :: fst r, snd r)
      | Err e => do r <- lrun l ops'; Ok (inr e :: fst r, snd r)
      | UB => UB
      | NoFuel => NoFuel
      end
  end.
