(** * Specification of lists: sequences of values. *)
From Verif Require Import Base Value Lists.

(** Position of index [i] in a sequence of length [n]: [0 <= i < n] as is, [-n <= i < 0] from the end. *)
Definition position (n : nat) (i : Z) : option nat :=
  let n := Z.of_nat n in
  if (0 <=? i) && (i <? n) then Some (Z.to_nat i)
  else if (- n <=? i) && (i <? 0) then Some (Z.to_nat (n + i)) else None.
Definition update (xs : list value) (p : nat) (v : value) : list value := firstn p xs ++ v :: skipn (S p) xs.
Definition insert_before (xs : list value) (p : nat) (v : value) : list value := firstn p xs ++ v :: skipn p xs.
(** Index of the last element equal to [v]. *)
Definition last_index (xs : list value) (v : value) : value :=
  match find (fun p => is_equal (snd p) v) (rev (combine (seq 0 (length xs)) xs)) with
  | Some (i, _) => VInt (Z.of_nat i)
  | None => VUndef
  end.
Definition count_equal (xs : list value) (v : value) : Z := Z.of_nat (length (filter (fun e => is_equal e v) xs)).

(** What each method means on a sequence: the answer (value or error) and the new sequence. *)
Definition spec_lstep (xs : list value) (o : lop) : (value + yerr) * list value :=
  match o with
  | LPush v => (inl VUndef, xs ++ [v])
  | LInsert i v =>
      if i =? Z.of_nat (length xs) then (inl VUndef, xs ++ [v])
      else match position (length xs) i with
           | Some p => (inl VUndef, insert_before xs p v)
           | None => (inr EValue, xs)
           end
  | LSet i v => match position (length xs) i with Some p => (inl VUndef, update xs p v) | None => (inr EValue, xs) end
  | LGet i => match position (length xs) i with Some p => (inl (nth p xs VUndef), xs) | None => (inr EValue, xs) end
  | LPop => match rev xs with [] => (inr EValue, xs) | v :: r => (inl v, rev r) end
  | LReverse => (inl VUndef, rev xs)
  | LClear => (inl VUndef, [])
  | LLen => (inl (VInt (Z.of_nat (length xs))), xs)
  | LSearch v => (inl (last_index xs v), xs)
  | LCount v => (inl (VInt (count_equal xs v)), xs)
  end.
Fixpoint spec_lrun (xs : list value) (ops : list lop) : list (value + yerr) * list value :=
  match ops with
  | [] => ([], xs)
  | o :: ops' => let '(r, xs') := spec_lstep xs o in let '(rs, ys) := spec_lrun xs' ops' in (r :: rs, ys)
  end.

(** Slices: [a] and [b] resolved against the length, [undef] being the default. *)
Definition resolve (len : Z) (i : Z) : Z := if i <? 0 then Z.max 0 (i + len) else Z.min len i.
Definition slice_bounds (len : Z) (va vb : value) : option (Z * Z) :=
  match va, vb with
  | VUndef, VUndef => Some (0, len)
  | VUndef, VInt b => Some (0, resolve len b)
  | VInt a, VUndef => Some (resolve len a, len)
  | VInt a, VInt b => Some (resolve len a, resolve len b)
  | _, _ => None
  end.
Definition sub_seq {A} (xs : list A) (a b : Z) : list A := firstn (Z.to_nat (b - a)) (skipn (Z.to_nat a) xs).
