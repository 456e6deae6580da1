(** * Lists and tables as the language promises them: objects with an identity, holding a sequence or a finite map. No arrays,
    hashing, metatables, method lookups or stack slots. *)
From Coq Require Import String.
From Verif Require Import Base Value ValueProofs Text Names.
Local Open Scope list_scope.

(** Objects by identity. A table is a list of entries without repeated keys, in no particular order. *)
Record mem : Type := Mem { m_list : Z -> option (list value); m_tab : Z -> option (list (value * value)); m_next : Z }.
Definition now {A} (f : Z -> option A) (p : Z) (x : A) : Z -> option A := fun q => if q =? p then Some x else f q.
Definition with_list (m : mem) (p : Z) (xs : list value) : mem := Mem (now (m_list m) p xs) (m_tab m) (m_next m).
Definition with_tab (m : mem) (p : Z) (kv : list (value * value)) : mem := Mem (m_list m) (now (m_tab m) p kv) (m_next m).
(** a new object *)
Definition fresh_list (m : mem) (xs : list value) : mem := Mem (now (m_list m) (m_next m) xs) (m_tab m) (m_next m + 1).
Definition fresh_tab (m : mem) (kv : list (value * value)) : mem := Mem (m_list m) (now (m_tab m) (m_next m) kv) (m_next m + 1).
Definition mem_new : mem := Mem (fun _ => None) (fun _ => None) 16.

(** Finite maps. *)
Fixpoint at_key (kv : list (value * value)) (k : value) : option value :=
  match kv with [] => None | (k', v) :: r => if value_eq_dec k k' then Some v else at_key r k end.
Fixpoint put_key (kv : list (value * value)) (k v : value) : list (value * value) :=
  match kv with [] => [(k, v)] | (k', v') :: r => if value_eq_dec k k' then (k, v) :: r else (k', v') :: put_key r k v end.
Definition join_maps (l r : list (value * value)) : list (value * value) := fold_left (fun acc p => put_key acc (fst p) (snd p)) r l.

(** Tables larger than this are outside the promise (memory). *)
Definition LIMIT : Z := 2 ^ 29.
Definition below_limit (n : nat) : bool := Z.of_nat n <? LIMIT.

(** Position [i] of a sequence; negative positions count from the end. *)
Definition position (n : nat) (i : Z) : option nat :=
  if (0 <=? i) && (i <? Z.of_nat n) then Some (Z.to_nat i)
  else if (- Z.of_nat n <=? i) && (i <? 0) then Some (Z.to_nat (Z.of_nat n + i)) else None.
Fixpoint set_nth (xs : list value) (n : nat) (v : value) : list value :=
  match xs, n with [], _ => [] | _ :: r, O => v :: r | x :: r, S n => x :: set_nth r n v end.

(** Keys that work: bools, ints, strings, user pointers, and floats other than NaN and -0.0 (C02). Values that can never be keys. *)
Definition keyable (k : value) : bool :=
  match k with
  | VBool _ | VInt _ | VStr _ | VUserPtr _ => true
  | VFloat S754_nan | VFloat (S754_zero true) => false
  | VFloat _ => true
  | _ => false
  end.
Definition never_key (k : value) : bool := match k with VList _ | VTable _ | VFn _ | VClosure _ | VCfn _ | VUserData _ => true | _ => false end.
(** The name of a method of the type of [c]; [c.name] is then the method, whatever [c] contains. *)
Definition names_method (names : list (list Z * Z)) (k : value) : bool :=
  match k with VStr x => existsb (fun p => if list_eq_dec Z.eq_dec (fst p) x then true else false) names | _ => false end.

Inductive said (A : Type) : Type := Gives (a : A) | Raises (e : yerr) | Unsaid.
Arguments Gives {A}. Arguments Raises {A}. Arguments Unsaid {A}.

(** [c[k]]. Nothing is said about method names, about keys that are neither keyable nor never keys, about functions and user
    data, and about objects that are not in [m]. *)
Definition index_spec (m : mem) (c k : value) : said value :=
  let scalar names := if keyable k && negb (names_method names k) || never_key k then Raises EValue else Unsaid in
  match c with
  | VList p =>
      match m_list m p with
      | None => Unsaid
      | Some xs =>
          match k with
          | VInt i => match position (length xs) i with Some n => match nth_error xs n with Some v => Gives v | None => Unsaid end | None => Raises EValue end
          | _ => if keyable k && negb (names_method list_names k) || never_key k then Raises EType else Unsaid
          end
      end
  | VTable p =>
      match m_tab m p with
      | None => Unsaid
      | Some kv =>
          if keyable k && negb (names_method table_names k) then Gives (match at_key kv k with Some v => v | None => VUndef end)
          else if never_key k then Gives VUndef else Unsaid
      end
  | VUndef => scalar undef_names
  | VBool _ => scalar bool_names
  | VInt _ => scalar int_names
  | VFloat _ => scalar float_names
  | _ => Unsaid
  end.
(** [c[k] = v]. Nothing is said about storing undef under a key (removal: C03, C06). *)
Definition store_spec (m : mem) (c k v : value) : said mem :=
  match c with
  | VList p =>
      match m_list m p with
      | None => Unsaid
      | Some xs =>
          match k with
          | VInt i => match position (length xs) i with Some n => Gives (with_list m p (set_nth xs n v)) | None => Raises EValue end
          | _ => Raises EType
          end
      end
  | VTable p =>
      match m_tab m p with
      | None => Unsaid
      | Some kv =>
          match v with
          | VUndef => if never_key k then Gives m else Unsaid
          | VEnd => Unsaid
          | _ => if keyable k then if below_limit (length kv) then Gives (with_tab m p (put_key kv k v)) else Unsaid else if never_key k then Raises EType else Unsaid
          end
      end
  | VUndef | VBool _ | VInt _ | VFloat _ | VStr _ => Raises EType
  | _ => Unsaid
  end.
(** [len c] for anything but strings. *)
Definition length_spec (m : mem) (c : value) : said value :=
  match c with
  | VList p => match m_list m p with Some xs => Gives (VInt (Z.of_nat (length xs))) | None => Unsaid end
  | VTable p => match m_tab m p with Some kv => Gives (VInt (Z.of_nat (length kv))) | None => Unsaid end
  | VUndef | VBool _ | VInt _ | VFloat _ => Raises EType
  | _ => Unsaid
  end.
(** [a + b] where [a] is a list, [a | b] where [a] is a table: a new object; the entries of [b] win. *)
Definition concat_spec (m : mem) (a b : value) : said (mem * value) :=
  match a, b with
  | VList p, VList q =>
      match m_list m p, m_list m q with Some xs, Some ys => Gives (fresh_list m (xs ++ ys), VList (m_next m)) | _, _ => Unsaid end
  | VList p, _ => match m_list m p with Some _ => Raises EType | None => Unsaid end
  | _, _ => Unsaid
  end.
Definition union_spec (m : mem) (a b : value) : said (mem * value) :=
  match a, b with
  | VTable p, VTable q =>
      match m_tab m p, m_tab m q with Some l, Some r => if below_limit (length l + length r) then Gives (fresh_tab m (join_maps l r), VTable (m_next m)) else Unsaid | _, _ => Unsaid end
  | VTable p, _ => match m_tab m p with Some _ => Raises EType | None => Unsaid end
  | _, _ => Unsaid
  end.
(** [ [x1, ..., xn] ] and [ {k1: v1, ..., kn: vn} ], given the values from left to right. Of entries with the same key the first
    stays; entries whose value is undef are left out. *)
Definition list_spec (m : mem) (xs : list value) : mem * value := (fresh_list m xs, VList (m_next m)).
Fixpoint entries_of (kvs : list (value * value)) : said (list (value * value)) :=
  match kvs with
  | [] => Gives []
  | (k, v) :: r =>
      match entries_of r with
      | Gives acc =>
          match v with
          | VUndef => Gives acc
          | VEnd => Unsaid
          | _ => match k with VEnd => Unsaid | _ => if keyable k then if below_limit (length acc) then Gives (put_key acc k v) else Unsaid else if never_key k then Raises EType else Unsaid end
          end
      | x => x
      end
  end.
Definition table_spec (m : mem) (kvs : list (value * value)) : said (mem * value) :=
  match entries_of kvs with Gives acc => Gives (fresh_tab m acc, VTable (m_next m)) | Raises e => Raises e | Unsaid => Unsaid end.

(** ** Methods of lists called as [l->name(args)]: the memory after the call and the value. Missing arguments are undef, extra ones
    are ignored. [search] finds the last position. Methods not listed: nothing is said. *)
Definition m_push : list Z := Eval compute in bytes_of "push".
Definition m_pop : list Z := Eval compute in bytes_of "pop".
Definition m_copy : list Z := Eval compute in bytes_of "copy".
Definition m_reverse : list Z := Eval compute in bytes_of "reverse".
Definition m_clear : list Z := Eval compute in bytes_of "clear".
Definition m_insert : list Z := Eval compute in bytes_of "insert".
Definition m_count : list Z := Eval compute in bytes_of "count".
Definition m_search : list Z := Eval compute in bytes_of "search".
Definition m_keys : list Z := Eval compute in bytes_of "keys".
Definition m_values : list Z := Eval compute in bytes_of "values".
Definition named (x y : list Z) : bool := if list_eq_dec Z.eq_dec x y then true else false.
Definition arg (args : list value) (n : nat) : value := nth n args VUndef.
Fixpoint last_pos (xs : list value) (v : value) (i : Z) : value :=
  match xs with
  | [] => VUndef
  | x :: r => match last_pos r v (i + 1) with VInt j => VInt j | _ => if is_equal x v then VInt i else VUndef end
  end.
Definition method_spec (m : mem) (c : value) (x : list Z) (args : list value) : said (mem * value) :=
  match c with
  | VList p =>
    match m_list m p with
    | None => Unsaid
    | Some xs =>
        let n := length xs in
        if named x m_push then Gives (with_list m p (xs ++ [arg args 0]), c)
        else if named x m_pop then match xs with [] => Raises EValue | _ => Gives (with_list m p (removelast xs), last xs VUndef) end
        else if named x m_copy then Gives (fresh_list m xs, VList (m_next m))
        else if named x m_reverse then Gives (with_list m p (rev xs), VUndef)
        else if named x m_clear then Gives (with_list m p [], VUndef)
        else if named x m_count then Gives (m, VInt (Z.of_nat (length (filter (fun y => is_equal y (arg args 0)) xs))))
        else if named x m_search then Gives (m, last_pos xs (arg args 0) 0)
        else if named x m_insert then
          match arg args 0 with
          | VInt i =>
              if i =? Z.of_nat n then Gives (with_list m p (xs ++ [arg args 1]), c)
              else match position n i with
                   | Some j => Gives (with_list m p (firstn j xs ++ arg args 1 :: skipn j xs), c)
                   | None => Raises EValue
                   end
          | _ => Raises EType
          end
        else Unsaid
    end
  | _ => Unsaid
  end.
