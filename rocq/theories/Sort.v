(** * list.sort: model of /repo/interpreter/list_methods.c:336-440. *)
From Verif Require Import Base Value.

(** [struct YASL_Object tmp = a[i]; a[i] = a[j]; a[j] = tmp] on [len] initialised elements. *)
Definition put (l : list value) (i : nat) (v : value) : list value := firstn i l ++ v :: skipn (S i) l.
Definition swap (l : list value) (i j : nat) : outcome (list value) :=
  match nth_error l i, nth_error l j with
  | Some x, Some y => Ok (put (put l j x) i y)
  | _, _ => UB
  end.

(** [while (yasl_object_cmp(list[left], mid) < 0) left++], list_methods.c:377. *)
Fixpoint scan_left (fuel : nat) (l : list value) (mid : value) (left : nat) : outcome nat :=
  match fuel with
  | O => NoFuel
  | S f => match nth_error l left with
           | None => UB
           | Some x => if obj_cmp x mid <? 0 then scan_left f l mid (S left) else Ok left
           end
  end.
(** The right scan with its guard at 0, list_methods.c:378-381. *)
Fixpoint scan_right (l : list value) (mid : value) (right : nat) : outcome nat :=
  match nth_error l right with
  | None => UB
  | Some x => if 0 <=? obj_cmp x mid then match right with O => Ok O | S r => scan_right l mid r end else Ok right
  end.
(** The partition loop, list_methods.c:376-395. *)
Fixpoint part_loop (fuel : nat) (l : list value) (mid : value) (left right : nat) : outcome (list value) :=
  match fuel with
  | O => NoFuel
  | S f =>
    if (left <? right)%nat then
      do left1 <- scan_left (S (length l)) l mid left;
      do right1 <- scan_right l mid right;
      match nth_error l left1, nth_error l right1 with
      | Some x, Some y =>
          let cmp := obj_cmp x y in
          if (0 <? cmp) && (left1 <? right1)%nat then
            do l' <- swap l right1 left1;
            match right1 with O => Ok l' | S r => part_loop f l' mid (S left1) r end
          else if cmp =? 0 then
            match right1 with O => Ok l | S r => part_loop f l mid (S left1) r end
          else part_loop f l mid left1 right1
      | _, _ => UB
      end
    else Ok l
  end.

(** [ltCount] and [seenDifferent], list_methods.c:367-373. *)
Definition lt_count (l : list value) (mid : value) : nat := length (filter (fun x => obj_cmp x mid <? 0) l).
Definition seen_different (l : list value) : bool :=
  match l with [] => false | x :: _ => existsb (fun y => negb (obj_cmp x y =? 0)) l end.

(** [sort], list_methods.c:339-400. [rs k] is the [k]-th answer of [rand()]; the number of answers used so far is
    threaded through. *)
Fixpoint sort (fuel : nat) (rs : nat -> nat) (k : nat) (l : list value) : outcome (list value * nat) :=
  match fuel with
  | O => NoFuel
  | S f =>
    match l with
    | [] | [_] => Ok (l, k)
    | [a; b] => Ok (if 0 <? obj_cmp a b then [b; a] else l, k)
    | _ =>
      match nth_error l (rs k mod length l) with
      | None => UB
      | Some mid =>
        if seen_different l then
          do l' <- part_loop (S (length l)) l mid 0 (length l - 1);
          do r1 <- sort f rs (S k) (firstn (lt_count l mid) l');
          do r2 <- sort f rs (snd r1) (skipn (lt_count l mid) l');
          Ok (fst r1 ++ fst r2, snd r2)
        else Ok (l, S k)
      end
    end
  end.

(** [list_sort], list_methods.c:403-440: the type check, then the sort. *)
Inductive sort_type : Set := STEmpty | STStr | STNum.
Fixpoint sort_check (t : sort_type) (l : list value) : outcome sort_type :=
  match l with
  | [] => Ok t
  | VStr _ :: l' => match t with STNum => Err EValue | _ => sort_check STStr l' end
  | (VInt _ | VFloat _) :: l' => match t with STStr => Err EValue | _ => sort_check STNum l' end
  | _ :: _ => Err EValue
  end.
Definition list_sort (fuel : nat) (rs : nat -> nat) (l : list value) : outcome (list value) :=
  do t <- sort_check STEmpty l;
  match t with STEmpty => Ok l | _ => omap fst (sort fuel rs 0 l) end.
