(** * The lexer: model of /repo/compiler/lexer.c and of the in-memory input of /repo/compiler/lexinput.c:83-130.
    Bytes are [Z] in 0..255. The input position is the list of the bytes not read yet; [lxtell]/[lxseek] save and restore it.
    [lex->c] together with the input is a [cursor]: the current character followed by the bytes not read, empty when
    [lxeof] holds. The ctype functions are those of the C locale, false on bytes above 127 (the C code passes negative
    [char]s to them, which is undefined by the standard and false in the usual libraries). *)
From Verif Require Import Base Text.

(** [enum Token], /repo/compiler/tokentype.x, in order; [T_UNKNOWN] is -1 (lexer.h:49). *)
Inductive tk : Set :=
| T_UNKNOWN
| T_EOF | T_SEMI | T_UNDEF | T_FLOAT | T_INT | T_BOOL | T_STR | T_IF | T_ELSEIF | T_ELSE | T_WHILE | T_BREAK
| T_CONT | T_FOR | T_ID | T_CONST | T_FN | T_LET | T_RET | T_EXPORT | T_ECHO | T_LEN | T_ASS | T_MATCH
| T_LPAR | T_RPAR | T_LSQB | T_RSQB | T_LBRC | T_RBRC | T_DOT | T_TDOT | T_COMMA | T_CARET | T_CARETEQ
| T_PLUS | T_PLUSEQ | T_MINUS | T_MINUSEQ | T_BANG | T_BANGEQ | T_BANGDEQ | T_BANGTILDE | T_TILDE | T_TILDEEQ
| T_STAR | T_STAREQ | T_DSTAR | T_DSTAREQ | T_SLASH | T_SLASHEQ | T_DSLASH | T_DSLASHEQ | T_MOD | T_MODEQ
| T_LT | T_LTEQ | T_DLT | T_DLTEQ | T_GT | T_GTEQ | T_DGT | T_DGTEQ | T_EQ | T_DEQ | T_TEQ | T_EQTILDE
| T_AMP | T_AMPEQ | T_DAMP | T_DAMPEQ | T_AMPCARET | T_AMPCARETEQ | T_BAR | T_BAREQ | T_DBAR | T_DBAREQ
| T_QMARK | T_DQMARK | T_DQMARKEQ | T_COLON | T_COLONEQ | T_RIGHT_ARR | T_LEFT_ARR.
Definition all_tokens : list tk :=
  [T_EOF; T_SEMI; T_UNDEF; T_FLOAT; T_INT; T_BOOL; T_STR; T_IF; T_ELSEIF; T_ELSE; T_WHILE; T_BREAK; T_CONT;
   T_FOR; T_ID; T_CONST; T_FN; T_LET; T_RET; T_EXPORT; T_ECHO; T_LEN; T_ASS; T_MATCH; T_LPAR; T_RPAR; T_LSQB;
   T_RSQB; T_LBRC; T_RBRC; T_DOT; T_TDOT; T_COMMA; T_CARET; T_CARETEQ; T_PLUS; T_PLUSEQ; T_MINUS; T_MINUSEQ;
   T_BANG; T_BANGEQ; T_BANGDEQ; T_BANGTILDE; T_TILDE; T_TILDEEQ; T_STAR; T_STAREQ; T_DSTAR; T_DSTAREQ; T_SLASH;
   T_SLASHEQ; T_DSLASH; T_DSLASHEQ; T_MOD; T_MODEQ; T_LT; T_LTEQ; T_DLT; T_DLTEQ; T_GT; T_GTEQ; T_DGT; T_DGTEQ;
   T_EQ; T_DEQ; T_TEQ; T_EQTILDE; T_AMP; T_AMPEQ; T_DAMP; T_DAMPEQ; T_AMPCARET; T_AMPCARETEQ; T_BAR; T_BAREQ;
   T_DBAR; T_DBAREQ; T_QMARK; T_DQMARK; T_DQMARKEQ; T_COLON; T_COLONEQ; T_RIGHT_ARR; T_LEFT_ARR].
(** The number of a token. *)
Definition tk_eq_dec (a b : tk) : {a = b} + {a <> b}. Proof. decide equality. Defined.
Definition tk_eqb (a b : tk) : bool := if tk_eq_dec a b then true else false.
Fixpoint find_tk (t : tk) (l : list tk) (i : Z) : Z := match l with [] => -1 | x :: r => if tk_eqb x t then i else find_tk t r (i + 1) end.
Definition tk_code (t : tk) : Z := find_tk t all_tokens 0.
Definition tk_of_code (i : Z) : tk := match nthZ all_tokens i with Some t => t | None => T_UNKNOWN end.

(** ** Character classes: lexer.c:17-27, 38-39. *)
Definition is_digit (c : Z) : bool := (48 <=? c) && (c <=? 57).
Definition is_xdigit (c : Z) : bool := is_digit c || ((65 <=? c) && (c <=? 70)) || ((97 <=? c) && (c <=? 102)).
Definition is_bdigit (c : Z) : bool := (c =? 48) || (c =? 49).
Definition is_ws (c : Z) : bool := (c =? 32) || (c =? 10) || (c =? 9).
Definition is_idstart (c : Z) : bool := is_alpha c || (c =? 95) || (c =? 36).
Definition is_id (c : Z) : bool := is_alpha c || is_digit c || (c =? 95) || (c =? 36).
Definition to_lower (c : Z) : Z := if (65 <=? c) && (c <=? 90) then c + 32 else c.
(** [ispotentialend], lexer.h:9-12. *)
Definition potential_end (t : tk) : bool :=
  match t with
  | T_ID | T_STR | T_INT | T_FLOAT | T_BREAK | T_CONT | T_RPAR | T_RSQB | T_RBRC | T_UNDEF | T_BOOL => true
  | _ => false end.

(** A token: its type, its text ([lex->value] without the terminating NUL that ids and numbers get), whether
    [lex->c == '\n'] after it, and whether [lex->mode == L_INTERP] after it. *)
Record token : Type := Tok { t_type : tk; t_val : list Z; t_nl : bool; t_interp : bool }.
(** What [gettok] leaves: the token, the bytes not read, the line. [T_UNKNOWN] is a lexing error. *)
Definition lexed : Type := (token * list Z * Z)%type.
Definition cur_nl (cur : list Z) : bool := match cur with c :: _ => c =? 10 | [] => false end.
Definition plain (t : tk) (v : list Z) (cur rest : list Z) (line : Z) : lexed := (Tok t v (cur_nl cur) false, rest, line).
Definition lex_error (cur rest : list Z) (line : Z) : lexed := (Tok T_UNKNOWN [] (cur_nl cur) false, rest, line).

(** ** Blanks and comments. [lex_eatwhitespace], :66-78: the cursor after the blanks and the line, or the token T_SEMI. *)
Inductive ws_result : Type := WSemi (rest : list Z) (line : Z) | WGo (cur : list Z) (line : Z).
Fixpoint eat_ws (prev : tk) (cur : list Z) (line : Z) : ws_result :=
  match cur with
  | [] => WGo [] line
  | c :: rest =>
      if is_ws c then
        if c =? 10 then if potential_end prev then WSemi rest (line + 1) else eat_ws prev rest (line + 1)
        else eat_ws prev rest line
      else WGo cur line
  end.
(** [lex_eatinlinecomments], :80-83: to the end of the line, which stays the current character. *)
Fixpoint to_newline (rest : list Z) : list Z := match rest with [] => [] | c :: r => if c =? 10 then rest else to_newline r end.
Definition eat_inline (cur : list Z) : list Z := match cur with c :: rest => if c =? 35 then to_newline rest else cur | [] => [] end.
(** Block comment, :98-107, from the first character [c1] after "/*": the bytes after "*/", the line, and whether a newline
    was seen; [None] at the end of the input. *)
Fixpoint block_comment (c1 : Z) (rest : list Z) (line : Z) (semi : bool) : option (list Z * Z * bool) :=
  match rest with
  | [] => None
  | c2 :: r => if (c1 =? 42) && (c2 =? 47) then Some (r, line, semi)
               else block_comment c2 r (if c1 =? 10 then line + 1 else line) (semi || (c1 =? 10) || (c2 =? 10))
  end.
(** [lex_eatcommentsandwhitespace], :85-128: a finished token, or the cursor at the first character of one. *)
Inductive skip_result : Type := Done (l : lexed) | At (cur : list Z) (line : Z) | SNoFuel.
Fixpoint eat_blank (fuel : nat) (prev : tk) (cur : list Z) (line : Z) : skip_result :=
  match fuel with
  | O => SNoFuel
  | S f =>
    match cur with
    | [] => At [] line
    | c :: _ =>
      if is_ws c || (c =? 35) || (c =? 47) then
        match eat_ws prev cur line with
        | WSemi rest line => Done (Tok T_SEMI [] true false, rest, line)
        | WGo cur line =>
          match eat_inline cur with
          | c :: rest =>
            if c =? 47 then
              match rest with
              | [] => Done (plain T_SLASH [] [] [] line)                              (* :113-115 *)
              | c1 :: r =>
                if c1 =? 42 then
                  match r with
                  | [] => Done (lex_error [] [] line)
                  | c1 :: r =>
                    match block_comment c1 r line false with
                    | None => Done (lex_error [] [] line)
                    | Some (r, line, semi) =>
                        if semi && potential_end prev then Done (plain T_SEMI [] [32] r line)
                        else eat_blank f prev (32 :: r) line                          (* [lex->c = ' '], :97 *)
                    end
                  end
                else At (c :: rest) line                                              (* break, :116-120 *)
              end
            else eat_blank f prev (c :: rest) line
          | [] => At [] line
          end
        end
      else At cur line
    end
  end.

(** ** Numbers. [lex_eatnumber_fill], :174-186, from the cursor [c :: rest]: appends [c] whatever it is, skips separators, and
    goes on while the character is a digit. Result: the text, the cursor after it, and the position [cur] to seek back to. *)
Fixpoint skip_sep (cur : list Z) : list Z := match cur with c :: r => if c =? 95 then skip_sep r else cur | [] => [] end.
Fixpoint fill (isd : Z -> bool) (rest : list Z) : list Z * list Z :=          (* after the first character *)
  match rest with
  | [] => ([], [])
  | c :: r => if c =? 95 then fill isd r
              else if isd c then let '(t, cur) := fill isd r in (c :: t, cur) else ([], rest)
  end.
Definition eat_fill (isd : Z -> bool) (c : Z) (rest : list Z) : list Z * list Z := let '(t, cur) := fill isd rest in (c :: t, cur).
(** [lex_eatint], :188-216: [None] if the text does not start with 0 and the separator. *)
Definition eat_int (sep : Z) (isd : Z -> bool) (c : Z) (rest : list Z) (line : Z) : option lexed :=
  if c =? 48 then
    match rest with
    | s :: r =>
      if to_lower s =? sep then
        match skip_sep r with
        | d :: r' => if isd d then let '(t, cur) := eat_fill isd d r' in Some (Tok T_INT (48 :: sep :: t) (cur_nl cur) false, cur, line)
                     else Some (lex_error (d :: r') r' line)
        | [] => Some (lex_error [] [] line)
        end
      else None
    | [] => None
    end
  else None.
(** [lex_eatfloat], :218-248, from the cursor after the digits [t]: [None] if there is no '.'. At an exponent the next
    character is appended whatever it is ([lex_eatnumber_fill] does not look at it); at the end of the input that is
    [(char)EOF], 255. *)
Definition eat_float (t cur : list Z) (line : Z) : option lexed :=
  match cur with
  | d :: rest =>
    if d =? 46 then
      match rest with
      | [] => Some (Tok T_INT t false false, cur, line)                               (* :222-226: seek before the '.' *)
      | c :: r =>
        if is_digit c then
          let '(t2, cur2) := eat_fill is_digit c r in
          match cur2 with
          | e :: r2 =>
            if to_lower e =? 101 then
              match skip_sep r2 with
              | x :: r3 => let '(t3, cur3) := eat_fill is_digit x r3 in Some (Tok T_FLOAT (t ++ 46 :: t2 ++ 101 :: t3) (cur_nl cur3) false, cur3, line)
              | [] => Some (Tok T_FLOAT (t ++ 46 :: t2 ++ [101; 255]) false false, [], line)
              end
            else Some (Tok T_FLOAT (t ++ 46 :: t2) (cur_nl cur2) false, cur2, line)
          | [] => Some (Tok T_FLOAT (t ++ 46 :: t2) false false, [], line)
          end
        else Some (Tok T_INT t (c =? 10) false, cur, line)                            (* :227-230 *)
      end
    else None
  | [] => None
  end.
(** [lex_eatnumber], :250-273. *)
Definition eat_number (c : Z) (rest : list Z) (line : Z) : option lexed :=
  if is_digit c then
    match eat_int 120 is_xdigit c rest line with
    | Some l => Some l
    | None =>
      match eat_int 98 is_bdigit c rest line with
      | Some l => Some l
      | None =>
        let '(t, cur) := eat_fill is_digit c rest in
        match eat_float t cur line with Some l => Some l | None => Some (Tok T_INT t (cur_nl cur) false, cur, line) end
      end
    end
  else None.

(** ** Identifiers and keywords: [lex_eatid], :275-306; [YASLKeywords], :583-738. *)
Fixpoint id_fill (rest : list Z) : list Z * list Z :=
  match rest with c :: r => if is_id c then let '(t, cur) := id_fill r in (c :: t, cur) else ([], rest) | [] => ([], []) end.
Definition reserved : list (list Z) :=
  [[104; 101; 97; 100; 101; 114] (* header *);
   [103; 108; 111; 98; 97; 108] (* global *);
   [101; 110; 117; 109] (* enum *);
   [115; 116; 114; 117; 99; 116] (* struct *);
   [112; 114; 97; 103; 109; 97] (* pragma *);
   [121; 105; 101; 108; 100] (* yield *);
   [100; 111] (* do *);
   [105; 102; 100; 101; 102] (* ifdef *);
   [101; 108; 115; 101; 105; 102; 100; 101; 102] (* elseifdef *);
   [117; 115; 101] (* use *);
   [110; 111] (* no *);
   [112; 117; 114; 101] (* pure *);
   [99; 111; 110; 115; 116; 101; 118; 97; 108] (* consteval *);
   [99; 111; 110; 115; 116; 101; 120; 112; 114] (* constexpr *);
   [99; 111; 110; 115; 116; 102; 111; 108; 100] (* constfold *);
   [101; 120; 116; 101; 114; 110] (* extern *);
   [105; 110] (* in *);
   [116; 121; 112; 101; 110; 97; 109; 101] (* typename *)].
Definition keywords : list (list Z * tk) :=
  [([98; 114; 101; 97; 107], T_BREAK) (* break *);
   ([99; 111; 110; 115; 116], T_CONST) (* const *);
   ([99; 111; 110; 116; 105; 110; 117; 101], T_CONT) (* continue *);
   ([101; 108; 115; 101], T_ELSE) (* else *);
   ([101; 108; 115; 101; 105; 102], T_ELSEIF) (* elseif *);
   ([101; 120; 112; 111; 114; 116], T_EXPORT) (* export *);
   ([102; 110], T_FN) (* fn *);
   ([102; 111; 114], T_FOR) (* for *);
   ([105; 102], T_IF) (* if *);
   ([101; 99; 104; 111], T_ECHO) (* echo *);
   ([108; 101; 116], T_LET) (* let *);
   ([114; 101; 116; 117; 114; 110], T_RET) (* return *);
   ([117; 110; 100; 101; 102], T_UNDEF) (* undef *);
   ([119; 104; 105; 108; 101], T_WHILE) (* while *);
   ([108; 101; 110], T_LEN) (* len *);
   ([97; 115; 115; 101; 114; 116], T_ASS) (* assert *);
   ([109; 97; 116; 99; 104], T_MATCH) (* match *)].
Definition bytes_eqb (x y : list Z) : bool := if list_eq_dec Z.eq_dec x y then true else false.
Fixpoint assoc (x : list Z) (l : list (list Z * tk)) : option tk := match l with (k, t) :: r => if bytes_eqb k x then Some t else assoc x r | [] => None end.
(** After "." and "->" keywords are ordinary names, :291-295. *)
Definition id_token (prev : tk) (t : list Z) : option (tk * list Z) :=
  match prev with
  | T_DOT | T_RIGHT_ARR => Some (T_ID, t)
  | _ => if existsb (bytes_eqb t) reserved then None
         else match assoc t keywords with
              | Some k => Some (k, [])
              | None => if bytes_eqb t [116; 114; 117; 101] || bytes_eqb t [102; 97; 108; 115; 101] then Some (T_BOOL, t) else Some (T_ID, t)
              end
  end.
Definition eat_id (prev : tk) (c : Z) (rest : list Z) (line : Z) : option lexed :=
  if is_idstart c then
    let '(t, cur) := id_fill rest in
    Some (match id_token prev (c :: t) with Some (k, v) => (Tok k v (cur_nl cur) false, cur, line) | None => lex_error cur cur line end)
  else None.

(** ** Strings. [handle_escapes], :308-363, for an escape other than \x: the byte, or an error. *)
Definition escape (c : Z) : option Z :=
  if c =? 97 then Some 7 else if c =? 98 then Some 8 else if c =? 102 then Some 12 else if c =? 110 then Some 10
  else if c =? 114 then Some 13 else if c =? 116 then Some 9 else if c =? 118 then Some 11 else if c =? 48 then Some 0
  else if (c =? 39) || (c =? 34) || (c =? 35) || (c =? 92) then Some c else None.
(** [\xab]: [strtol] on the two characters, :342-351. *)
Definition hex_escape (a b : Z) : option Z :=
  match strtoll 16 (cstr [a; b]) with
  | (v, []) => if (a =? 0) || (b =? 0) then None else Some (v mod 256)
  | _ => None end.
(** The loops of [lex_eatstring] (:418-448) and [lex_eatinterpstring_fill] (:379-400), from the first character after the
    delimiter: the bytes of the string and the cursor at the delimiter or placeholder; [None]: an error. *)
Fixpoint eat_str (stop : Z -> bool) (cur : list Z) : option (list Z * list Z) :=
  match cur with
  | [] => None
  | c :: r =>
    if stop c then Some ([], cur)
    else if c =? 10 then None
    else if c =? 92 then
      match r with
      | [] => None
      | e :: r2 =>
        if e =? 120 then
          match r2 with
          | a :: b :: r3 => match hex_escape a b with Some v => match eat_str stop r3 with Some (t, q) => Some (v :: t, q) | None => None end | None => None end
          | _ => None
          end
        else match escape e with Some v => match eat_str stop r2 with Some (t, q) => Some (v :: t, q) | None => None end | None => None end
      end
    else match eat_str stop r with Some (t, q) => Some (c :: t, q) | None => None end
  end.
Definition eat_string (c : Z) (rest : list Z) (line : Z) : option lexed :=
  if c =? 39 then
    Some (match eat_str (fun c => c =? 39) rest with
          | Some (t, q :: r) => (Tok T_STR t false false, r, line)
          | _ => lex_error [] [] line end)
  else None.
(** [lex_eatinterpstring], [lex_eatinterpstringbody], :402-425. *)
Definition eat_interp (c : Z) (rest : list Z) (line : Z) : option lexed :=
  if c =? 34 then
    Some (match eat_str (fun c => (c =? 34) || (c =? 35)) rest with
          | Some (t, q :: r) => (Tok T_STR t false (q =? 35), r, line)
          | _ => lex_error [] [] line end)
  else None.
(** [lex_eatrawstring], :450-473. *)
Fixpoint eat_raw_loop (cur : list Z) (line : Z) : option (list Z * list Z * Z) :=
  match cur with
  | [] => None
  | c :: r => if c =? 96 then Some ([], r, line)
              else match eat_raw_loop r (if c =? 10 then line + 1 else line) with Some (t, q, l) => Some (c :: t, q, l) | None => None end
  end.
Definition eat_raw (c : Z) (rest : list Z) (line : Z) : option lexed :=
  if c =? 96 then
    Some (match eat_raw_loop rest line with Some (t, r, l) => (Tok T_STR t false false, r, l) | None => lex_error [] [] line end)
  else None.

(** ** Operators: [YASLToken_ThreeChars], [YASLToken_TwoChars], [YASLToken_OneChar], :514-600, as tables, and
    [lex_eatop], :130-172. *)
Definition ops3 : list (list Z * tk) :=
  [([46; 46; 46], T_TDOT) (* ... *);
   ([60; 60; 61], T_DLTEQ) (* <<= *);
   ([62; 62; 61], T_DGTEQ) (* >>= *);
   ([61; 61; 61], T_TEQ) (* === *);
   ([33; 61; 61], T_BANGDEQ) (* !== *);
   ([42; 42; 61], T_DSTAREQ) (* **= *);
   ([47; 47; 61], T_DSLASHEQ) (* //= *);
   ([38; 38; 61], T_DAMPEQ) (* &&= *);
   ([38; 94; 61], T_AMPCARETEQ) (* &^= *);
   ([124; 124; 61], T_DBAREQ) (* ||= *);
   ([63; 63; 61], T_DQMARKEQ) (* ??= *)].
Definition ops2 : list (list Z * tk) :=
  [([58; 61], T_COLONEQ) (* := *);
   ([94; 61], T_CARETEQ) (* ^= *);
   ([43; 61], T_PLUSEQ) (* += *);
   ([45; 61], T_MINUSEQ) (* -= *);
   ([45; 62], T_RIGHT_ARR) (* -> *);
   ([61; 61], T_DEQ) (* == *);
   ([61; 126], T_EQTILDE) (* =~ *);
   ([33; 61], T_BANGEQ) (* != *);
   ([33; 126], T_BANGTILDE) (* !~ *);
   ([126; 61], T_TILDEEQ) (* ~= *);
   ([42; 61], T_STAREQ) (* *= *);
   ([42; 42], T_DSTAR) (* ** *);
   ([47; 61], T_SLASHEQ) (* /= *);
   ([47; 47], T_DSLASH) (* // *);
   ([37; 61], T_MODEQ) (* %= *);
   ([60; 61], T_LTEQ) (* <= *);
   ([60; 60], T_DLT) (* << *);
   ([60; 45], T_LEFT_ARR) (* <- *);
   ([62; 61], T_GTEQ) (* >= *);
   ([62; 62], T_DGT) (* >> *);
   ([38; 61], T_AMPEQ) (* &= *);
   ([38; 38], T_DAMP) (* && *);
   ([38; 94], T_AMPCARET) (* &^ *);
   ([124; 61], T_BAREQ) (* |= *);
   ([124; 124], T_DBAR) (* || *);
   ([63; 63], T_DQMARK) (* ?? *)].
Definition ops1 : list (list Z * tk) :=
  [([59], T_SEMI) (* ; *);
   ([40], T_LPAR) (* ( *);
   ([41], T_RPAR) (* ) *);
   ([91], T_LSQB) (* [ *);
   ([93], T_RSQB) (* ] *);
   ([123], T_LBRC) (* { *);
   ([125], T_RBRC) (* } *);
   ([46], T_DOT) (* . *);
   ([44], T_COMMA) (* , *);
   ([94], T_CARET) (* ^ *);
   ([43], T_PLUS) (* + *);
   ([45], T_MINUS) (* - *);
   ([33], T_BANG) (* ! *);
   ([126], T_TILDE) (* ~ *);
   ([42], T_STAR) (* * *);
   ([47], T_SLASH) (* / *);
   ([37], T_MOD) (* % *);
   ([60], T_LT) (* < *);
   ([62], T_GT) (* > *);
   ([61], T_EQ) (* = *);
   ([38], T_AMP) (* & *);
   ([124], T_BAR) (* | *);
   ([63], T_QMARK) (* ? *);
   ([58], T_COLON) (* : *)].
Definition eat_op (c1 : Z) (rest : list Z) (line : Z) : option lexed :=
  let one := match assoc [c1] ops1 with Some t => Some (plain t [] [c1] rest line) | None => None end in
  match rest with
  | [] => one
  | c2 :: r2 =>
    let two := match assoc [c1; c2] ops2 with Some t => Some (plain t [] [c1] r2 line) | None => one end in
    match r2 with
    | [] => two
    | c3 :: r3 => match assoc [c1; c2; c3] ops3 with Some t => Some (plain t [] [c1] r3 line) | None => two end
    end
  end.

(** ** [gettok], :476-512. [prev]: the type of the token before. *)
Definition or_else {A} (a b : option A) : option A := match a with Some _ => a | None => b end.
Definition gettok (prev : tk) (rest : list Z) (line : Z) : option lexed :=
  match eat_blank (S (length rest)) prev rest line with
  | SNoFuel => None
  | Done l => Some l
  | At [] line => Some (Tok T_EOF [] false false, [], line)
  | At (c :: r) line =>
      Some match or_else (eat_number c r line) (or_else (eat_id prev c r line) (or_else (eat_string c r line) (or_else (eat_raw c r line)
             (or_else (eat_interp c r line) (eat_op c r line))))) with
           | Some l => l
           | None => lex_error (c :: r) r line
           end
  end.
(** All the tokens of a text, each with the line ([lex->line]) the lexer is in after it, up to the end of the file or the
    first error. *)
Fixpoint lex_from (n : nat) (prev : tk) (rest : list Z) (line : Z) : option (list (token * Z)) :=
  match n with
  | O => None
  | S n' =>
    match gettok prev rest line with
    | None => None
    | Some (t, rest', line') =>
        match t_type t with
        | T_EOF | T_UNKNOWN => Some [(t, line')]
        | ty => option_map (cons (t, line')) (lex_from n' ty rest' line')
        end
    end
  end.
Definition lex (text : list Z) : option (list (token * Z)) := lex_from (S (length text)) T_UNKNOWN text 1.

(** ** The text buffer: [lex_val_init], [lex_val_append], :52-64, the resets [val_len = 0] (:212) and [val_len--] (:231).
    [Some w]: the next state and the index written, if any, with the capacity of the buffer at that moment. *)
Inductive bufop : Set := BInit | BAppend | BReset | BBack.
Definition bstate : Type := (Z * Z)%type.   (* val_cap, val_len *)
Definition bstep (s : bstate) (op : bufop) : bstate * option (Z * Z) :=
  let '(cap, len) := s in
  match op with
  | BInit => ((8, 0), None)
  | BAppend => let cap := if len =? cap then cap * 2 else cap in ((cap, len + 1), Some (len, cap))
  | BReset => ((cap, 0), None)
  | BBack => ((cap, len - 1), None)
  end.
Fixpoint brun (s : bstate) (ops : list bufop) : list (Z * Z) :=
  match ops with
  | [] => []
  | op :: r => let '(s', w) := bstep s op in match w with Some x => x :: brun s' r | None => brun s' r end
  end.
