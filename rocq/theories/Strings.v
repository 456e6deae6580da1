(** * Strings: model of /repo/data-structures/YASL_String.c and of the string methods of
    /repo/interpreter/str_methods.c, string slicing (/repo/interpreter/VM.c:669-710) and iteration (VM.c:898-912). *)
From Verif Require Import Base Value Lists.

(** [struct YASL_String], YASL_String.h:10-16: the buffer (the heap block, or the constant it points into),
    the bounds and the flag. *)
Record ystr : Type := YS { s_buf : list Z; s_start : nat; s_end : nat; s_heap : bool }.

(** [YASL_String_len], [YASL_String_chars], YASL_String.c:16-22: the bytes the string denotes. *)
Definition chars (s : ystr) : list Z := firstn (s_end s - s_start s) (skipn (s_start s) (s_buf s)).
Definition str_len (s : ystr) : nat := s_end s - s_start s.

(** [YASL_String_new_sized] (constants) and [YASL_String_new_sized_heap] (always called with start 0),
    YASL_String.c:61-79. *)
Definition str_const (bs : list Z) : ystr := YS bs 0 (length bs) false.
Definition str_heap (bs : list Z) : ystr := YS bs 0 (length bs) true.

(** [YASL_String_new_substring], YASL_String.c:42-59; [start], [end] are positions in the buffer. With
    [start > end] the heap case copies 2^64-k bytes and the other one makes a string of length 2^64-k; with [end]
    past the buffer the bytes are outside it: all called undefined here, at once. *)
Definition new_substring (start fin : Z) (s : ystr) : outcome ystr :=
  if (0 <=? start) && (start <=? fin) && (fin <=? Z.of_nat (length (s_buf s))) then
    let a := Z.to_nat start in let b := Z.to_nat fin in
    if s_heap s then Ok (YS (firstn (b - a) (skipn a (s_buf s))) 0 (b - a) true)
    else Ok (YS (s_buf s) a b false)
  else UB.

(** [memcmp(h + i, nd, len(nd)) == 0] with [h] and [nd] the bytes of two strings. *)
Definition list_eqb (a b : list Z) : bool := if list_eq_dec Z.eq_dec a b then true else false.
Definition match_at (h nd : list Z) (i : nat) : outcome bool :=
  if (i + length nd <=? length h)%nat then Ok (list_eqb (firstn (length nd) (skipn i h)) nd) else UB.
(** [chars[i]] *)
Definition char_at (h : list Z) (i : nat) : outcome Z := match nth_error h i with Some c => Ok c | None => UB end.

(** [iswhitespace], YASL_String.c:14. *)
Definition is_ws (c : Z) : bool := (c =? 32) || (c =? 9) || (c =? 10) || (c =? 11) || (c =? 13).

(** [str_find_index], YASL_String.c:140-153; -1 when absent. *)
Fixpoint find_loop (fuel : nat) (h nd : list Z) (i : nat) : outcome Z :=
  match fuel with
  | O => NoFuel
  | S f => if (i <=? length h - length nd)%nat then
             do m <- match_at h nd i; if m then Ok (Z.of_nat i) else find_loop f h nd (S i)
           else Ok (-1)
  end.
Definition str_find_index (fuel : nat) (h nd : ystr) : outcome Z :=
  if (str_len h <? str_len nd)%nat then Ok (-1) else find_loop fuel (chars h) (chars nd) 0.
(** [str_search], str_methods.c:165-174. *)
Definition str_search (fuel : nat) (h nd : ystr) : outcome value :=
  do i <- str_find_index fuel h nd; Ok (if i =? -1 then VUndef else VInt i).

(** [YASL_String_startswith], [YASL_String_endswith], YASL_String.c:299-333. *)
Fixpoint cmp_loop (a b : list Z) (i j n : nat) : outcome bool :=
  match n with
  | O => Ok true
  | S n' => do x <- char_at a i; do y <- char_at b j; if x =? y then cmp_loop a b (S i) (S j) n' else Ok false
  end.
Definition str_startswith (h nd : ystr) : outcome bool :=
  if (str_len h <? str_len nd)%nat then Ok false else cmp_loop (chars h) (chars nd) 0 0 (str_len nd).
Definition str_endswith (h nd : ystr) : outcome bool :=
  if (str_len h <? str_len nd)%nat then Ok false
  else cmp_loop (chars h) (chars nd) (str_len h - str_len nd) 0 (str_len nd).

(** [YASL_String_count], YASL_String.c:389-402. *)
Fixpoint count_loop (fuel : nat) (h nd : list Z) (i : nat) (c : Z) : outcome Z :=
  match fuel with
  | O => NoFuel
  | S f => if (i + length nd <=? length h)%nat then
             do m <- match_at h nd i;
             (* [i += nLen-1], then [i++] *)
             if m then count_loop f h nd (i + length nd) (c + 1) else count_loop f h nd (S i) c
           else Ok c
  end.
Definition str_count (fuel : nat) (h nd : ystr) : outcome Z := count_loop fuel (chars h) (chars nd) 0 0.

(** [YASL_String_replace_fast_default], YASL_String.c:355-372, and the caller's check, str_methods.c:124-137. The
    result is always on the heap. *)
Fixpoint replace_loop (fuel : nat) (s a b : list Z) (i : nat) (out : list Z) : outcome (list Z) :=
  match fuel with
  | O => NoFuel
  | S f => if (i <? length s)%nat then
             do m <- (if (length a <=? length s - i)%nat then match_at s a i else Ok false);
             if m then replace_loop f s a b (i + length a) (out ++ b)
             else do c <- char_at s i; replace_loop f s a b (S i) (out ++ [c])
           else Ok out
  end.
Definition str_replace (fuel : nat) (s a b : ystr) : outcome ystr :=
  if (str_len a <? 1)%nat then Err EValue else omap str_heap (replace_loop fuel (chars s) (chars a) (chars b) 0 []).
(** [YASL_String_replace_fast], YASL_String.c:374-387: [max] is decremented on every round. *)
Fixpoint replace_max_loop (fuel : nat) (s a b : list Z) (max : Z) (i : nat) (out : list Z) : outcome (list Z) :=
  match fuel with
  | O => NoFuel
  | S f => if (i <? length s)%nat then
             do m <- (if (length a <=? length s - i)%nat then match_at s a i else Ok false);
             if m && (0 <? max) then replace_max_loop f s a b (max - 1) (i + length a) (out ++ b)
             else do c <- char_at s i; replace_max_loop f s a b (max - 1) (S i) (out ++ [c])
           else Ok out
  end.
Definition str_replace_max (fuel : nat) (s a b : ystr) (max : Z) : outcome ystr :=
  if (str_len a <? 1)%nat then Err EValue else omap str_heap (replace_max_loop fuel (chars s) (chars a) (chars b) max 0 []).

(** A piece of the haystack: [start + haystack->start .. end + haystack->start]. *)
Definition piece (h : ystr) (start fin : nat) : outcome ystr :=
  new_substring (Z.of_nat (s_start h + start)) (Z.of_nat (s_start h + fin)) h.

(** [YASL_String_split_fast], YASL_String.c:424-446, and the caller's check, str_methods.c:207-210. The pieces in order
    (appended to a fresh list, Lists.v). *)
Fixpoint split_loop (fuel : nat) (h : ystr) (nd : list Z) (start fin : nat) : outcome (list ystr) :=
  match fuel with
  | O => NoFuel
  | S f => if (fin + length nd <=? str_len h)%nat then
             do m <- match_at (chars h) nd fin;
             if m then do p <- piece h start fin;
                       do ps <- split_loop f h nd (fin + length nd) (fin + length nd); Ok (p :: ps)
             else split_loop f h nd start (S fin)
           else do p <- piece h start fin; Ok [p]
  end.
Definition str_split (fuel : nat) (h nd : ystr) : outcome (list ystr) :=
  if (str_len nd =? 0)%nat then Err EValue else split_loop fuel h (chars nd) 0 0.

(** [YASL_String_split_default], YASL_String.c:404-421. *)
Fixpoint skip_ws (want : bool) (fuel : nat) (h : list Z) (i : nat) : outcome nat :=
  match fuel with
  | O => NoFuel
  | S f => if (i <? length h)%nat then
             do c <- char_at h i; if Bool.eqb (is_ws c) want then skip_ws want f h (S i) else Ok i
           else Ok i
  end.
Fixpoint split_default_loop (fuel : nat) (h : ystr) (fin : nat) : outcome (list ystr) :=
  match fuel with
  | O => NoFuel
  | S f => do e <- skip_ws true (S (str_len h)) (chars h) fin;
           if (str_len h <=? e)%nat then Ok []
           else do e' <- skip_ws false (S (str_len h)) (chars h) e;
                do p <- piece h e e'; do ps <- split_default_loop f h e'; Ok (p :: ps)
  end.
Definition str_split_default (fuel : nat) (h : ystr) : outcome (list ystr) := split_default_loop fuel h 0.

(** The trims, YASL_String.c:448-540. Left scans: the new start; right scans: the new end. *)
Fixpoint ltrim_loop (fuel : nat) (h nd : list Z) (start : nat) : outcome nat :=
  match fuel with
  | O => NoFuel
  | S f => if (length nd <=? length h - start)%nat then
             do m <- match_at h nd start; if m then ltrim_loop f h nd (start + length nd) else Ok start
           else Ok start
  end.
Fixpoint rtrim_loop (fuel : nat) (h nd : list Z) (fin : nat) : outcome nat :=
  match fuel with
  | O => NoFuel
  | S f => if (length nd <=? fin)%nat then
             do m <- match_at h nd (fin - length nd); if m then rtrim_loop f h nd (fin - length nd) else Ok fin
           else Ok fin
  end.
Fixpoint ltrim_ws_loop (fuel : nat) (h : list Z) (start : nat) : outcome nat :=
  match fuel with
  | O => NoFuel
  | S f => if (1 <=? length h - start)%nat then
             do c <- char_at h start; if is_ws c then ltrim_ws_loop f h (S start) else Ok start
           else Ok start
  end.
Fixpoint rtrim_ws_loop (h : list Z) (fin : nat) : outcome nat :=
  match fin with
  | O => Ok O
  | S e => do c <- char_at h e; if is_ws c then rtrim_ws_loop h e else Ok fin
  end.
Definition str_ltrim (fuel : nat) (h nd : ystr) : outcome ystr :=
  do a <- ltrim_loop fuel (chars h) (chars nd) 0; piece h a (str_len h).
Definition str_rtrim (fuel : nat) (h nd : ystr) : outcome ystr :=
  do b <- rtrim_loop fuel (chars h) (chars nd) (str_len h); piece h 0 b.
Definition str_trim (fuel : nat) (h nd : ystr) : outcome ystr :=
  do a <- ltrim_loop fuel (chars h) (chars nd) 0; do b <- rtrim_loop fuel (chars h) (chars nd) (str_len h); piece h a b.
Definition str_ltrim_ws (fuel : nat) (h : ystr) : outcome ystr :=
  do a <- ltrim_ws_loop fuel (chars h) 0; piece h a (str_len h).
Definition str_rtrim_ws (h : ystr) : outcome ystr :=
  do b <- rtrim_ws_loop (chars h) (str_len h); piece h 0 b.
Definition str_trim_ws (fuel : nat) (h : ystr) : outcome ystr :=
  do a <- ltrim_ws_loop fuel (chars h) 0; do b <- rtrim_ws_loop (chars h) (str_len h); piece h a b.

(** UPPER and LOWER, YASL_String.c:252-253 ([char] is signed: a byte from 128 on is negative, so in neither
    range), and DEFINE_STR_TO_X, YASL_String.c:256-272. *)
Definition upper (c : Z) : Z := if (97 <=? c) && (c <? 123) then Z.land c (Z.lnot 32) else c.
Definition lower (c : Z) : Z := if (65 <=? c) && (c <? 91) then Z.lor c 32 else c.
Fixpoint conv_loop (f : Z -> Z) (h : list Z) (i n : nat) (out : list Z) : outcome (list Z) :=
  match n with O => Ok out | S n' => do c <- char_at h i; conv_loop f h (S i) n' (out ++ [f c]) end.
Definition str_toupper (s : ystr) : outcome ystr := omap str_heap (conv_loop upper (chars s) 0 (str_len s) []).
Definition str_tolower (s : ystr) : outcome ystr := omap str_heap (conv_loop lower (chars s) 0 (str_len s) []).

(** The <ctype.h> classes in the C locale. A byte from 128 on is passed as a negative [char]: undefined, except
    255, which is passed as EOF. *)
Definition alpha (c : Z) : bool := ((65 <=? c) && (c <? 91)) || ((97 <=? c) && (c <? 123)).
Definition digit (c : Z) : bool := (48 <=? c) && (c <? 58).
Definition ctype (p : Z -> bool) (c : Z) : outcome bool :=
  if c <? 128 then Ok (p c) else if c =? 255 then Ok false else UB.
(** DEFINE_STR_IS_X, YASL_String.c:278-297. *)
Fixpoint is_loop (p : Z -> outcome bool) (h : list Z) : outcome bool :=
  match h with [] => Ok true | c :: h' => do b <- p c; if b then is_loop p h' else Ok false end.
Definition str_isal (s : ystr) : outcome bool := is_loop (ctype alpha) (chars s).
Definition str_isnum (s : ystr) : outcome bool := is_loop (ctype digit) (chars s).
Definition str_isalnum (s : ystr) : outcome bool := is_loop (ctype (fun c => alpha c || digit c)) (chars s).
Definition str_isspace (s : ystr) : outcome bool := is_loop (fun c => Ok (is_ws c)) (chars s).

(** [YASL_String_rep_fast], YASL_String.c:543-553, and [str_repeat], str_methods.c:283-295. The size is computed in
    [size_t]; [blk] is the block of that size, [i] the position of the next copy. *)
Fixpoint rep_loop (fuel : nat) (h : list Z) (size i : Z) (out : list Z) : outcome (list Z) :=
  match fuel with
  | O => NoFuel
  | S f => if i <? size then
             if i + Z.of_nat (length h) <=? size then rep_loop f h size (i + Z.of_nat (length h)) (out ++ h) else UB
           else Ok out
  end.
Definition str_rep (fuel : nat) (s : ystr) (num : Z) : outcome ystr :=
  if num <? 0 then Err EValue
  else let size := u64 (num * Z.of_nat (str_len s)) in omap str_heap (rep_loop fuel (chars s) size 0 []).

(** [str___get], str_methods.c:24-48. *)
Definition str_get (s : ystr) (index : Z) : outcome ystr :=
  let n := Z.of_nat (str_len s) in
  if (index <? - n) || (n <=? index) then Err EValue
  else let i := if 0 <=? index then index else index + n in
       new_substring (Z.of_nat (s_start s) + i) (Z.of_nat (s_start s) + i + 1) s.

(** [vm_SLICE_str], VM.c:669-710: the bounds of list slicing; note that [str->start] is not added. *)
Definition str_slice (s : ystr) (vstart vend : value) : outcome ystr :=
  do e <- slice_end (Z.of_nat (str_len s)) vend;
  do a <- slice_start (Z.of_nat (str_len s)) vstart;
  new_substring a e s.

(** [vm_ITER_1] on a string, VM.c:898-912: one round; [None] when exhausted. [str->start] is not added. *)
Definition str_iter (s : ystr) (iter : nat) : outcome (option ystr) :=
  if (str_len s <=? iter)%nat then Ok None
  else omap Some (new_substring (Z.of_nat iter) (Z.of_nat iter + 1) s).
(** The successive values of the loop variable. *)
Fixpoint str_iter_all (fuel : nat) (s : ystr) (iter : nat) : outcome (list ystr) :=
  match fuel with
  | O => NoFuel
  | S f => do r <- str_iter s iter;
           match r with None => Ok [] | Some c => do cs <- str_iter_all f s (S iter); Ok (c :: cs) end
  end.

(** Strings a program can hold: constants, results on the heap, substrings of those. *)
Inductive made_str : ystr -> Prop :=
| ms_const bs : made_str (str_const bs)
| ms_heap bs : made_str (str_heap bs)
| ms_sub s a b s' : made_str s -> new_substring a b s = Ok s' -> made_str s'.
