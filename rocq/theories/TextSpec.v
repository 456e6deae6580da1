(** * Texts of ints (specification). *)
From Verif Require Import Base Value.

Definition digit_val (c : Z) : Z :=
  if c <=? 57 then c - 48 else if c <=? 90 then c - 65 + 10 else c - 97 + 10.
Definition dec_digit (c : Z) : Prop := 48 <= c <= 57.
Definition hex_digit (c : Z) : Prop := 48 <= c <= 57 \/ 65 <= c <= 70 \/ 97 <= c <= 102.
Definition bin_digit (c : Z) : Prop := c = 48 \/ c = 49.
(** The number a string of digits denotes in a base: the last digit counts once, the one before it [base] times, ... *)
Fixpoint denotes_rev (base : Z) (ds : list Z) : Z := match ds with [] => 0 | c :: r => digit_val c + base * denotes_rev base r end.
Definition denotes (base : Z) (ds : list Z) : Z := denotes_rev base (rev ds).
(** The decimal text of an int: a minus sign exactly for negative ints, then digits without leading zeros that denote |n|. *)
Definition is_text_of (n : Z) (t : list Z) : Prop :=
  exists ds, t = (if n <? 0 then [45] else []) ++ ds /\ Forall dec_digit ds /\ (ds = [48] \/ exists c r, ds = c :: r /\ c <> 48) /\ denotes 10 ds = Z.abs n.
(** Nearest 64-bit int. *)
Definition clamp (z : Z) : Z := Z.max (-9223372036854775808) (Z.min 9223372036854775807 z).
(** [s] with underscores put anywhere. *)
Inductive spaced : list Z -> list Z -> Prop :=
| sp_nil : spaced [] []
| sp_keep c s t : spaced s t -> spaced (c :: s) (c :: t)
| sp_sep s t : spaced s t -> spaced s (95 :: t).
