(** * Specification of the string methods, on byte sequences. *)
From Verif Require Import Base Strings.

(** [nd] occurs in [h] at position [i]; prefix; suffix. *)
Definition occurs_at (h nd : list Z) (i : nat) : Prop := exists a b, h = a ++ nd ++ b /\ length a = i.
Definition prefix (nd h : list Z) : Prop := exists b, h = nd ++ b.
Definition suffix (nd h : list Z) : Prop := exists a, h = a ++ nd.
(** [n] copies of [nd]. *)
Definition copies (n : nat) (nd : list Z) : list Z := concat (repeat nd n).
(** Pieces joined with a separator. *)
Fixpoint joined (sep : list Z) (ps : list (list Z)) : list Z :=
  match ps with [] => [] | [p] => p | p :: ps' => p ++ sep ++ joined sep ps' end.

(** Leftmost, non-overlapping occurrences of a non-empty [nd]: how many, and what [h] becomes when each is
    replaced by [b]. *)
Inductive scans (nd b : list Z) : list Z -> Z -> list Z -> Prop :=
| sc_end : scans nd b [] 0 []
| sc_hit t c r : scans nd b t c r -> scans nd b (nd ++ t) (c + 1) (b ++ r)
| sc_skip x t c r : ~ prefix nd (x :: t) -> scans nd b t c r -> scans nd b (x :: t) c (x :: r).

(** White space and words: [h] is words separated by non-empty white space. *)
Definition white (w : list Z) : Prop := Forall (fun c => is_ws c = true) w.
Definition word (w : list Z) : Prop := w <> [] /\ Forall (fun c => is_ws c = false) w.
Inductive words_of : list Z -> list (list Z) -> Prop :=
| wo_nil w : white w -> words_of w []
| wo_last w p : white w -> word p -> words_of (w ++ p) [p]
| wo_cons w p c t ps : white w -> word p -> is_ws c = true -> words_of (c :: t) ps -> words_of (w ++ p ++ c :: t) (p :: ps).

(** Letter case in ASCII. *)
Definition up (c : Z) : Z := if (97 <=? c) && (c <=? 122) then c - 32 else c.
Definition down (c : Z) : Z := if (65 <=? c) && (c <=? 90) then c + 32 else c.
Definition ascii_letter (c : Z) : Prop := 65 <= c <= 90 \/ 97 <= c <= 122.
Definition ascii_digit (c : Z) : Prop := 48 <= c <= 57.
Definition blank (c : Z) : Prop := c = 32 \/ c = 9 \/ c = 10 \/ c = 11 \/ c = 13.
