(** * The lexer over its input reader: model of /repo/compiler/lexinput.c:83-130 and of /repo/compiler/lexer.c, statement by statement, with
    the reader's position and end flag. (Lexer.v describes the same lexer on the list of the bytes left to read.)
    Characters ([char lex->c]) are written as the byte 0..255 they come from; [(char)-1], what [lex_getchar] leaves at the end of the input, is
    255. Comparisons with character constants and the ctype functions of the C locale do not distinguish the two readings. Token types, tables
    of keywords and operators and the escapes are those of Lexer.v. Loops run on fuel. *)
From Verif Require Import Base Text Lexer.

(** [struct Lexer] and its [struct LEXINPUT]: the current character, [pos], [iseof], the line, the text of the token (without the NUL put after
    ids and numbers), the type of the token, and whether this token left the lexer in the mode L_INTERP. *)
Record lst : Type := L { l_c : Z; l_pos : Z; l_iseof : bool; l_line : Z; l_val : list Z; l_type : tk; l_interp : bool }.
Definition set_c s x := L x (l_pos s) (l_iseof s) (l_line s) (l_val s) (l_type s) (l_interp s).
Definition set_in s p e := L (l_c s) p e (l_line s) (l_val s) (l_type s) (l_interp s).
Definition set_line s x := L (l_c s) (l_pos s) (l_iseof s) x (l_val s) (l_type s) (l_interp s).
Definition set_val s x := L (l_c s) (l_pos s) (l_iseof s) (l_line s) x (l_type s) (l_interp s).
Definition set_type s x := L (l_c s) (l_pos s) (l_iseof s) (l_line s) (l_val s) x (l_interp s).
Definition set_interp s x := L (l_c s) (l_pos s) (l_iseof s) (l_line s) (l_val s) (l_type s) x.

Section WithInput.
(** [lp->bb]: the bytes given to [lexinput_new_bb], :115-130. *)
Variable txt : list Z.
(** [(signed) lp->bb->count]: [count] is a [size_t], the comparisons of the reader convert it to [int]. *)
Definition count : Z := let n := Z.of_nat (length txt) mod 4294967296 in if n <? 2147483648 then n else n - 4294967296.
(** [lexinput_bb_getc], :84-90. *)
Definition lxgetc (s : lst) : outcome (Z * lst) :=
  if count <=? l_pos s then Ok (-1, set_in s (l_pos s) true)
  else match nthZ txt (l_pos s) with Some b => Ok (b, set_in s (l_pos s + 1) (l_iseof s)) | None => UB end.
(** [lexinput_bb_tell], :92-94. *)
Definition lxtell (s : lst) : Z := l_pos s.
(** [lexinput_bb_seek], :96-106, for SEEK_SET and SEEK_CUR. *)
Definition lxseek_set (s : lst) (w : Z) : lst := if w <? count then set_in s w false else set_in s w (l_iseof s).
Definition lxseek_cur (s : lst) (w : Z) : lst := lxseek_set s (l_pos s + w).
(** [lexinput_bb_eof], :108-113. *)
Definition lxeof (s : lst) : bool := if count <=? l_pos s then l_iseof s else false.
(** [(char)x] *)
Definition chr (x : Z) : Z := if x <? 0 then 255 else x.
(** [lex_getchar], lexer.c:48-50. *)
Definition getchar (s : lst) : outcome lst := do r <- lxgetc s; Ok (set_c (snd r) (chr (fst r))).
(** [lex_error], :41-46. *)
Definition i_error (s : lst) : lst := set_type (set_val s []) T_UNKNOWN.
(** [lex_val_init], [lex_val_append], :52-64. *)
Definition append (s : lst) (c : Z) : lst := set_val s (l_val s ++ [c]).

(** [lex_eatwhitespace], :66-78. *)
Fixpoint i_ws (fuel : nat) (s : lst) : outcome (bool * lst) :=
  match fuel with
  | O => NoFuel
  | S f =>
    if negb (lxeof s) && is_ws (l_c s) then
      if l_c s =? 10 then
        let s := set_line s (l_line s + 1) in
        if potential_end (l_type s) then Ok (true, set_type s T_SEMI) else do s <- getchar s; i_ws f s
      else do s <- getchar s; i_ws f s
    else Ok (false, s)
  end.
(** [lex_eatinlinecomments], :80-83. *)
Fixpoint i_to_newline (fuel : nat) (s : lst) : outcome lst :=
  match fuel with
  | O => NoFuel
  | S f => if lxeof s then Ok s else do s <- getchar s; if l_c s =? 10 then Ok s else i_to_newline f s
  end.
Definition i_inline (fuel : nat) (s : lst) : outcome lst := if l_c s =? 35 then i_to_newline fuel s else Ok s.
(** The loop of a block comment, :102-107: [addsemi] and the state. *)
Fixpoint i_block (fuel : nat) (c1 c2 : Z) (semi : bool) (s : lst) : outcome (bool * lst) :=
  match fuel with
  | O => NoFuel
  | S f =>
    if negb (lxeof s) && (negb (c1 =? 42) || negb (c2 =? 47)) then
      let semi := if (c1 =? 10) || (c2 =? 10) then true else semi in
      let s := if c1 =? 10 then set_line s (l_line s + 1) else s in
      do r <- lxgetc s; i_block f c2 (fst r) semi (snd r)
    else Ok (semi, s)
  end.
(** [lex_eatcommentsandwhitespace], :85-128. *)
Fixpoint i_blank (fuel : nat) (s : lst) : outcome (bool * lst) :=
  match fuel with
  | O => NoFuel
  | S f =>
    if negb (lxeof s) && (is_ws (l_c s) || (l_c s =? 35) || (l_c s =? 47)) then
      do r <- i_ws fuel s;
      if fst r then Ok (true, snd r)
      else
        do s <- i_inline fuel (snd r);
        if l_c s =? 47 then
          let cur := lxtell s in
          do s <- getchar s;
          if l_c s =? 42 then
            let s := set_c s 32 in
            do r1 <- lxgetc s;
            do r2 <- lxgetc (snd r1);
            do r <- i_block fuel (fst r1) (fst r2) false (snd r2);
            let s := snd r in
            if lxeof s then Ok (true, i_error s)
            else if fst r && potential_end (l_type s) then Ok (true, set_type s T_SEMI)
            else i_blank f s
          else if lxeof s then Ok (true, set_type s T_SLASH)
          else Ok (false, set_c (lxseek_set s cur) 47)
        else i_blank f s
    else Ok (false, s)
  end.

(** [lex_eatop], :130-172. [YASLToken_...Chars] answer T_UNKNOWN for what is not an operator. *)
Definition find (k : list Z) (ops : list (list Z * tk)) : tk := match assoc k ops with Some t => t | None => T_UNKNOWN end.
Definition i_one (c1 : Z) (s : lst) : bool * lst := let t := find [c1] ops1 in if tk_eqb t T_UNKNOWN then (false, s) else (true, set_val (set_type s t) []).
Definition i_two (c1 c2 cur_one : Z) (s : lst) : bool * lst :=
  let t := find [c1; c2] ops2 in if tk_eqb t T_UNKNOWN then i_one c1 (lxseek_set s cur_one) else (true, set_val (set_type s t) []).
Definition i_op (s : lst) : outcome (bool * lst) :=
  let c1 := l_c s in
  let cur_one := lxtell s in
  do r <- lxgetc s;
  let c2 := chr (fst r) in let s := snd r in
  if lxeof s then Ok (i_one c1 s)
  else
    let cur_two := lxtell s in
    do r <- lxgetc s;
    let c3 := chr (fst r) in let s := snd r in
    if lxeof s then Ok (i_two c1 c2 cur_one s)
    else
      let t := find [c1; c2; c3] ops3 in
      if tk_eqb t T_UNKNOWN then Ok (i_two c1 c2 cur_one (lxseek_set s cur_two)) else Ok (true, set_val (set_type s t) []).

(** The separators of numbers, :180-183: the position before the last character read. *)
Fixpoint i_sep (fuel : nat) (cur : Z) (s : lst) : outcome (Z * lst) :=
  match fuel with
  | O => NoFuel
  | S f => if l_c s =? 95 then let cur := lxtell s in do s <- getchar s; i_sep f cur s else Ok (cur, s)
  end.
(** [lex_eatnumber_fill], :174-186. *)
Fixpoint i_fill (fuel : nat) (isd : Z -> bool) (s : lst) : outcome (Z * lst) :=
  match fuel with
  | O => NoFuel
  | S f =>
    let s := append s (l_c s) in
    let cur := lxtell s in
    do s <- getchar s;
    do r <- i_sep fuel cur s;
    if negb (lxeof (snd r)) && isd (l_c (snd r)) then i_fill f isd (snd r) else Ok r
  end.
(** The separators after a prefix or an exponent, :196, :238. *)
Fixpoint i_sep2 (fuel : nat) (s : lst) : outcome lst :=
  match fuel with O => NoFuel | S f => if l_c s =? 95 then do s <- getchar s; i_sep2 f s else Ok s end.
(** [lex_eatint], :188-216. *)
Definition i_int (fuel : nat) (sep : Z) (isd : Z -> bool) (s : lst) : outcome (bool * lst) :=
  let curr_pos := lxtell s in
  let curr_char := l_c s in
  let back s := Ok (false, lxseek_set (set_c (set_val s []) curr_char) curr_pos) in
  if l_c s =? 48 then
    do s <- getchar s;
    let s := append s 48 in
    if to_lower (l_c s) =? sep then
      do s <- getchar s;
      let s := append s sep in
      do s <- i_sep2 fuel s;
      if negb (isd (l_c s)) then Ok (true, i_error s)
      else
        do r <- i_fill fuel isd s;
        let s := set_type (snd r) T_INT in
        Ok (true, if lxeof s then s else lxseek_set s (fst r))
    else back s
  else back s.
(** [lex_eatfloat], :218-248. The NUL put after the digits by the caller is taken back by [val_len--]. *)
Definition i_float (fuel : nat) (s : lst) : outcome (bool * lst) :=
  if l_c s =? 46 then
    let cur := lxtell s in
    do s <- getchar s;
    if lxeof s then Ok (true, set_c (lxseek_set s (cur - 1)) 46)
    else if negb (is_digit (l_c s)) then Ok (true, lxseek_set s (cur - 1))
    else
      let s := append s 46 in
      do r <- i_fill fuel is_digit s;
      let s := snd r in
      do s <- (if to_lower (l_c s) =? 101 then
                 do s <- getchar s;
                 let s := append s 101 in
                 do s <- i_sep2 fuel s;
                 do r <- i_fill fuel is_digit s;
                 Ok (snd r)
               else Ok s);
      let s := if lxeof s then s else lxseek_cur s (-1) in
      Ok (true, set_type s T_FLOAT)
  else Ok (false, s).
(** [lex_eatnumber], :250-273. *)
Definition i_number (fuel : nat) (s : lst) : outcome (bool * lst) :=
  if is_digit (l_c s) then
    let s := set_val s [] in
    do r <- i_int fuel 120 is_xdigit s;
    if fst r then Ok r
    else
      do r <- i_int fuel 98 is_bdigit (snd r);
      if fst r then Ok r
      else
        do r <- i_fill fuel is_digit (snd r);
        let cur := fst r in
        let s := set_type (snd r) T_INT in
        do r <- i_float fuel s;
        if fst r then Ok r else Ok (true, if lxeof (snd r) then snd r else lxseek_set (snd r) cur)
  else Ok (false, s).

(** [lex_eatid_fill], :275-283. *)
Fixpoint i_id_fill (fuel : nat) (s : lst) : outcome lst :=
  match fuel with
  | O => NoFuel
  | S f =>
    let s := append s (l_c s) in
    let cur := lxtell s in
    do s <- getchar s;
    if negb (lxeof s) && is_id (l_c s) then i_id_fill f s
    else Ok (if lxeof s then s else lxseek_set s cur)
  end.
(** [lex_eatid], :284-306, with [YASLKeywords] as [id_token] of Lexer.v: the value of a keyword is freed. *)
Definition i_id (fuel : nat) (s : lst) : outcome (bool * lst) :=
  if is_idstart (l_c s) then
    do s <- i_id_fill fuel (set_val s []);
    Ok (true, match id_token (l_type s) (l_val s) with Some (k, v) => set_val (set_type s k) v | None => i_error s end)
  else Ok (false, s).

(** [handle_escapes], :308-363: [true] on an error. *)
Fixpoint i_escape_error (fuel : nat) (delim : Z) (s : lst) : outcome lst :=
  match fuel with
  | O => NoFuel
  | S f => if negb (l_c s =? 10) && negb (l_c s =? delim) && negb (lxeof s) then do s <- getchar s; i_escape_error f delim s else Ok s
  end.
Definition i_escapes (fuel : nat) (delim : Z) (s : lst) : outcome (bool * lst) :=
  let error s := do s <- i_escape_error fuel delim s; Ok (true, i_error s) in
  if l_c s =? 120 then
    do s <- getchar s;
    let a := l_c s in
    do s <- getchar s;
    let b := l_c s in
    match hex_escape a b with Some v => Ok (false, append s v) | None => error s end
  else match escape (l_c s) with Some v => Ok (false, append s v) | None => error s end.
(** [lex_eatstring_nextchar], :365-375. *)
Definition i_nextchar (fuel : nat) (delim : Z) (s : lst) : outcome (bool * lst) :=
  if l_c s =? 92 then do s <- getchar s; i_escapes fuel delim s else Ok (false, append s (l_c s)).
(** The loops of [lex_eatinterpstring_fill], :377-389, and [lex_eatstring], :427-437: [true] on an error. *)
Fixpoint i_str (fuel : nat) (stop : Z -> bool) (delim : Z) (s : lst) : outcome (bool * lst) :=
  match fuel with
  | O => NoFuel
  | S f =>
    if negb (stop (l_c s)) && negb (lxeof s) then
      if l_c s =? 10 then Ok (true, i_error s)
      else do r <- i_nextchar fuel delim s;
           if fst r then Ok r else do s <- getchar (snd r); i_str f stop delim s
    else Ok (false, s)
  end.
(** [lex_eatinterpstring], [lex_eatinterpstringbody], [lex_eatinterpstring_fill], :377-419. *)
Definition i_interp (fuel : nat) (s : lst) : outcome (bool * lst) :=
  if l_c s =? 34 then
    do s <- getchar s;
    let s := set_type (set_val s []) T_STR in
    do r <- i_str fuel (fun c => (c =? 34) || (c =? 35)) 34 s;
    if fst r then Ok r
    else
      let s := set_interp (snd r) (l_c (snd r) =? 35) in
      if lxeof s then Ok (true, i_error s) else Ok (true, s)
  else Ok (false, s).
(** [lex_eatstring], :421-448. *)
Definition i_string (fuel : nat) (s : lst) : outcome (bool * lst) :=
  if l_c s =? 39 then
    do s <- getchar (set_type (set_val s []) T_STR);
    do r <- i_str fuel (fun c => c =? 39) 39 s;
    if fst r then Ok r
    else if lxeof (snd r) then Ok (true, i_error (snd r)) else Ok (true, snd r)
  else Ok (false, s).
(** [lex_eatrawstring], :450-473. *)
Fixpoint i_raw_loop (fuel : nat) (s : lst) : outcome lst :=
  match fuel with
  | O => NoFuel
  | S f =>
    if negb (l_c s =? 96) && negb (lxeof s) then
      let s := if l_c s =? 10 then set_line s (l_line s + 1) else s in
      do s <- getchar (append s (l_c s)); i_raw_loop f s
    else Ok s
  end.
Definition i_raw (fuel : nat) (s : lst) : outcome (bool * lst) :=
  if l_c s =? 96 then
    do s <- getchar (set_type (set_val s []) T_STR);
    do s <- i_raw_loop fuel s;
    if lxeof s then Ok (true, i_error s) else Ok (true, s)
  else Ok (false, s).

(** [gettok], :476-512. *)
Definition i_gettok (fuel : nat) (s : lst) : outcome lst :=
  let try (f : nat -> lst -> outcome (bool * lst)) (s : lst) (k : lst -> outcome lst) : outcome lst :=
    do r <- f fuel s; if fst r then Ok (snd r) else k (snd r) in
  do s <- getchar (set_interp (set_val s []) false);
  try i_blank s (fun s =>
  if lxeof s then Ok (set_val (set_type s T_EOF) [])
  else
    try i_number s (fun s => try i_id s (fun s => try i_string s (fun s => try i_raw s (fun s => try i_interp s (fun s => try (fun _ => i_op) s (fun s =>
    Ok (i_error s)))))))).
End WithInput.
(** [lexinput_new_bb], lexinput.c:115-130, and [NEW_LEXER], lexer.h:75-86: line 1, no token yet. *)
Definition new_lexer : lst := L 0 0 false 1 [] T_UNKNOWN false.
(** What is seen of the lexer after a token. *)
Definition token_of (s : lst) : token := Tok (l_type s) (l_val s) (l_c s =? 10) (l_interp s).
(** Tokens of a text up to the end of the file or the first error, each with the line. *)
Fixpoint i_lex_from (n fuel : nat) (txt : list Z) (s : lst) : outcome (list (token * Z)) :=
  match n with
  | O => NoFuel
  | S n' =>
    do s <- i_gettok txt fuel s;
    match l_type s with
    | T_EOF | T_UNKNOWN => Ok [(token_of s, l_line s)]
    | _ => do r <- i_lex_from n' fuel txt s; Ok ((token_of s, l_line s) :: r)
    end
  end.
Definition i_lex (txt : list Z) : outcome (list (token * Z)) := i_lex_from (S (length txt)) (length txt + 3) txt new_lexer.
