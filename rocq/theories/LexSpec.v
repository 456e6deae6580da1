(** * How tokens are written (specification). *)
From Verif Require Import Base Lexer.

(** The spelling of the fixed tokens (/repo/compiler/tokentype.x). *)
Definition spelling (t : tk) : option (list Z) :=
  match t with
  | T_SEMI => Some [59] (* ; *)
  | T_UNDEF => Some [117; 110; 100; 101; 102] (* undef *)
  | T_IF => Some [105; 102] (* if *)
  | T_ELSEIF => Some [101; 108; 115; 101; 105; 102] (* elseif *)
  | T_ELSE => Some [101; 108; 115; 101] (* else *)
  | T_WHILE => Some [119; 104; 105; 108; 101] (* while *)
  | T_BREAK => Some [98; 114; 101; 97; 107] (* break *)
  | T_CONT => Some [99; 111; 110; 116; 105; 110; 117; 101] (* continue *)
  | T_FOR => Some [102; 111; 114] (* for *)
  | T_CONST => Some [99; 111; 110; 115; 116] (* const *)
  | T_FN => Some [102; 110] (* fn *)
  | T_LET => Some [108; 101; 116] (* let *)
  | T_RET => Some [114; 101; 116; 117; 114; 110] (* return *)
  | T_EXPORT => Some [101; 120; 112; 111; 114; 116] (* export *)
  | T_ECHO => Some [101; 99; 104; 111] (* echo *)
  | T_LEN => Some [108; 101; 110] (* len *)
  | T_ASS => Some [97; 115; 115; 101; 114; 116] (* assert *)
  | T_MATCH => Some [109; 97; 116; 99; 104] (* match *)
  | T_LPAR => Some [40] (* ( *)
  | T_RPAR => Some [41] (* ) *)
  | T_LSQB => Some [91] (* [ *)
  | T_RSQB => Some [93] (* ] *)
  | T_LBRC => Some [123] (* { *)
  | T_RBRC => Some [125] (* } *)
  | T_DOT => Some [46] (* . *)
  | T_TDOT => Some [46; 46; 46] (* ... *)
  | T_COMMA => Some [44] (* , *)
  | T_CARET => Some [94] (* ^ *)
  | T_CARETEQ => Some [94; 61] (* ^= *)
  | T_PLUS => Some [43] (* + *)
  | T_PLUSEQ => Some [43; 61] (* += *)
  | T_MINUS => Some [45] (* - *)
  | T_MINUSEQ => Some [45; 61] (* -= *)
  | T_BANG => Some [33] (* ! *)
  | T_BANGEQ => Some [33; 61] (* != *)
  | T_BANGDEQ => Some [33; 61; 61] (* !== *)
  | T_BANGTILDE => Some [33; 126] (* !~ *)
  | T_TILDE => Some [126] (* ~ *)
  | T_TILDEEQ => Some [126; 61] (* ~= *)
  | T_STAR => Some [42] (* * *)
  | T_STAREQ => Some [42; 61] (* * = *)
  | T_DSTAR => Some [42; 42] (* * * *)
  | T_DSTAREQ => Some [42; 42; 61] (* * * = *)
  | T_SLASH => Some [47] (* / *)
  | T_SLASHEQ => Some [47; 61] (* /= *)
  | T_DSLASH => Some [47; 47] (* // *)
  | T_DSLASHEQ => Some [47; 47; 61] (* //= *)
  | T_MOD => Some [37] (* % *)
  | T_MODEQ => Some [37; 61] (* %= *)
  | T_LT => Some [60] (* < *)
  | T_LTEQ => Some [60; 61] (* <= *)
  | T_DLT => Some [60; 60] (* << *)
  | T_DLTEQ => Some [60; 60; 61] (* <<= *)
  | T_GT => Some [62] (* > *)
  | T_GTEQ => Some [62; 61] (* >= *)
  | T_DGT => Some [62; 62] (* >> *)
  | T_DGTEQ => Some [62; 62; 61] (* >>= *)
  | T_EQ => Some [61] (* = *)
  | T_DEQ => Some [61; 61] (* == *)
  | T_TEQ => Some [61; 61; 61] (* === *)
  | T_EQTILDE => Some [61; 126] (* =~ *)
  | T_AMP => Some [38] (* & *)
  | T_AMPEQ => Some [38; 61] (* &= *)
  | T_DAMP => Some [38; 38] (* && *)
  | T_DAMPEQ => Some [38; 38; 61] (* &&= *)
  | T_AMPCARET => Some [38; 94] (* &^ *)
  | T_AMPCARETEQ => Some [38; 94; 61] (* &^= *)
  | T_BAR => Some [124] (* | *)
  | T_BAREQ => Some [124; 61] (* |= *)
  | T_DBAR => Some [124; 124] (* || *)
  | T_DBAREQ => Some [124; 124; 61] (* ||= *)
  | T_QMARK => Some [63] (* ? *)
  | T_DQMARK => Some [63; 63] (* ?? *)
  | T_DQMARKEQ => Some [63; 63; 61] (* ??= *)
  | T_COLON => Some [58] (* : *)
  | T_COLONEQ => Some [58; 61] (* := *)
  | T_RIGHT_ARR => Some [45; 62] (* -> *)
  | T_LEFT_ARR => Some [60; 45] (* <- *)
  | _ => None
  end.
Definition is_word (t : tk) : bool :=   (* keywords *)
  match spelling t with Some (c :: _) => (97 <=? c) && (c <=? 122) | _ => false end.

Definition digit (c : Z) : Prop := 48 <= c <= 57.
Definition xdigit (c : Z) : Prop := digit c \/ 65 <= c <= 70 \/ 97 <= c <= 102.
(** What can stand between quotes: a byte, a backslash with a letter or digit, [\xab]. *)
Inductive piece : Type := PByte (c : Z) | PNamed (c : Z) | PHex (a b : Z).
Definition piece_text (p : piece) : list Z := match p with PByte c => [c] | PNamed c => [92; c] | PHex a b => [92; 120; a; b] end.
(** backslash with: a b f n r t v 0, a single quote, a double quote, #, a backslash *)
Definition named : list (Z * Z) := [(97, 7); (98, 8); (102, 12); (110, 10); (114, 13); (116, 9); (118, 11); (48, 0); (39, 39); (34, 34); (35, 35); (92, 92)].
Definition piece_ok (p : piece) : Prop :=
  match p with PByte c => c <> 39 /\ c <> 92 /\ c <> 10 | PNamed c => In c (map fst named) | PHex a b => xdigit a /\ xdigit b end.
(** The same between double quotes, where # would start an interpolation. *)
Definition dpiece_ok (p : piece) : Prop :=
  match p with PByte c => c <> 34 /\ c <> 35 /\ c <> 92 /\ c <> 10 | PNamed c => In c (map fst named) | PHex a b => xdigit a /\ xdigit b end.
Definition xvalue (c : Z) : Z := if c <=? 57 then c - 48 else if c <=? 70 then c - 55 else c - 87.
Definition piece_byte (p : piece) : Z :=
  match p with
  | PByte c => c
  | PNamed c => match find (fun q => fst q =? c) named with Some q => snd q | None => 0 end
  | PHex a b => 16 * xvalue a + xvalue b
  end.
Inductive lexeme : Type :=
| LFixed (t : tk)                    (* keyword, operator or punctuation *)
| LId (x : list Z)                   (* identifier *)
| LBool (b : bool)
| LInt (ds : list Z)                 (* decimal digits *)
| LHex (ds : list Z) | LBin (ds : list Z)
| LFloat (a b : list Z)              (* a.b *)
| LStr (s : list Z)                  (* '...' with escapes *)
| LEsc (ps : list piece)             (* '...' with any escapes *)
| LDbl (ps : list piece)             (* a text between double quotes, without interpolation *)
| LRaw (s : list Z)                  (* `...` *)
| LNewline.                          (* a newline that ends a statement *)
Definition escaped (c : Z) : list Z :=
  if c =? 39 then [92; 39] else if c =? 92 then [92; 92] else if c =? 10 then [92; 110] else [c].
Definition spell (l : lexeme) : list Z :=
  match l with
  | LFixed t => match spelling t with Some s => s | None => [] end
  | LId x => x
  | LBool true => [116; 114; 117; 101] | LBool false => [102; 97; 108; 115; 101]
  | LInt ds => ds | LHex ds => 48 :: 120 :: ds | LBin ds => 48 :: 98 :: ds
  | LFloat a b => a ++ 46 :: b
  | LStr s => 39 :: concat (map escaped s) ++ [39]
  | LEsc ps => 39 :: concat (map piece_text ps) ++ [39]
  | LDbl ps => 34 :: concat (map piece_text ps) ++ [34]
  | LRaw s => 96 :: s ++ [96]
  | LNewline => [10]
  end.
(** The token the lexer should deliver: type and value. *)
Definition kind (l : lexeme) : tk :=
  match l with
  | LFixed t => t | LId _ => T_ID | LBool _ => T_BOOL | LInt _ | LHex _ | LBin _ => T_INT | LFloat _ _ => T_FLOAT | LStr _ | LEsc _ | LDbl _ | LRaw _ => T_STR | LNewline => T_SEMI
  end.
Definition content (l : lexeme) : list Z :=
  match l with
  | LFixed _ | LNewline => [] | LStr s | LRaw s => s | LEsc ps | LDbl ps => map piece_byte ps | _ => spell l
  end.
(** Whether the last character looked at may be a newline: no for an operator, yes for a newline, anything for the others, which are read
    up to the character after them. *)
Definition nl_fits (l : lexeme) (nl : bool) : bool := match l with LFixed t => is_word t || negb nl | LNewline => nl | _ => true end.
(** A newline is a statement end after these tokens, and a blank otherwise. *)
Definition ends_statement (t : tk) : bool :=
  match t with
  | T_ID | T_STR | T_INT | T_FLOAT | T_BREAK | T_CONT | T_RPAR | T_RSQB | T_RBRC | T_UNDEF | T_BOOL => true
  | _ => false end.
Definition letter (c : Z) : Prop := 65 <= c <= 90 \/ 97 <= c <= 122 \/ c = 95 \/ c = 36.
(** Words that are not identifiers: keywords, true, false and the reserved words (lexer.c:606-712). *)
Definition reserved_words : list (list Z) :=
  [[104;101;97;100;101;114]; [103;108;111;98;97;108]; [101;110;117;109]; [115;116;114;117;99;116]; [112;114;97;103;109;97]; [121;105;101;108;100]; [100;111];
   [105;102;100;101;102]; [101;108;115;101;105;102;100;101;102]; [117;115;101]; [110;111]; [112;117;114;101]; [99;111;110;115;116;101;118;97;108];
   [99;111;110;115;116;101;120;112;114]; [99;111;110;115;116;102;111;108;100]; [101;120;116;101;114;110]; [105;110]; [116;121;112;101;110;97;109;101]].
Definition a_keyword (x : list Z) : Prop := exists t, is_word t = true /\ spelling t = Some x.
Definition free_name (x : list Z) : Prop := ~ In x reserved_words /\ ~ a_keyword x /\ x <> spell (LBool true) /\ x <> spell (LBool false).
Definition name_shape (x : list Z) : Prop := exists c r, x = c :: r /\ letter c /\ Forall (fun c => letter c \/ digit c) r.
(** A well-formed lexeme after a token of type [prev]. *)
Definition wf_lexeme (prev : tk) (l : lexeme) : Prop :=
  match l with
  | LFixed t => spelling t <> None /\ (is_word t = true -> prev <> T_DOT /\ prev <> T_RIGHT_ARR)
  | LId x => name_shape x /\ (prev = T_DOT \/ prev = T_RIGHT_ARR \/ free_name x)
  | LBool _ => prev <> T_DOT /\ prev <> T_RIGHT_ARR
  | LInt ds => ds <> [] /\ Forall digit ds
  | LHex ds => ds <> [] /\ Forall xdigit ds
  | LBin ds => ds <> [] /\ Forall (fun c => c = 48 \/ c = 49) ds
  | LFloat a b => a <> [] /\ b <> [] /\ Forall digit a /\ Forall digit b
  | LStr s => True
  | LEsc ps => Forall piece_ok ps
  | LDbl ps => Forall dpiece_ok ps
  | LRaw s => Forall (fun c => c <> 96) s
  | LNewline => ends_statement prev = true
  end.
(** Blanks: spaces, tabs, comments, and newlines where they do not end a statement. *)
Inductive blank (nl : bool) : list Z -> Prop :=
| b_nil : blank nl []
| b_space b : blank nl b -> blank nl (32 :: b)
| b_tab b : blank nl b -> blank nl (9 :: b)
| b_newline b : nl = true -> blank nl b -> blank nl (10 :: b)
| b_line t b : nl = true -> Forall (fun c => c <> 10) t -> blank nl b -> blank nl (35 :: t ++ 10 :: b)
| b_block t b : (forall u v, t ++ [42] <> u ++ [42; 47] ++ v) -> (nl = true \/ Forall (fun c => c <> 10) t) -> blank nl b -> blank nl (47 :: 42 :: t ++ 42 :: 47 :: b).
(** What may not come directly after a lexeme, because it would become part of it (or, after "/", start a comment). *)
Definition prefix_of (p s : list Z) : bool := bytes_eqb p (firstn (length p) s).
Definition all_ops : list (list Z) := flat_map (fun t => match spelling t with Some s => if is_word t then [] else [s] | None => [] end) all_tokens.
Definition id_char (c : Z) : bool := ((65 <=? c) && (c <=? 90)) || ((97 <=? c) && (c <=? 122)) || ((48 <=? c) && (c <=? 57)) || (c =? 95) || (c =? 36).
Definition one_of (l : list Z) (c : Z) : bool := existsb (Z.eqb c) l.
Definition extends (l : lexeme) (c : Z) : bool :=
  match l with
  | LFixed t => if is_word t then id_char c else existsb (prefix_of (spell l ++ [c])) all_ops || (tk_eqb t T_SLASH && (c =? 42))
  | LId _ | LBool _ => id_char c
  | LInt ds => one_of [48;49;50;51;52;53;54;55;56;57;95;46] c || (bytes_eqb ds [48] && one_of [120;88;98;66] c)
  | LHex _ => one_of [48;49;50;51;52;53;54;55;56;57;97;98;99;100;101;102;65;66;67;68;69;70;95] c
  | LBin _ => one_of [48;49;95] c
  | LFloat _ _ => one_of [48;49;50;51;52;53;54;55;56;57;95;101;69] c
  | LStr _ | LEsc _ | LDbl _ | LRaw _ | LNewline => false
  end.
Definition ends_at (l : lexeme) (rest : list Z) : Prop := match rest with [] => True | c :: _ => extends l c = false end.
(** A text: lexemes with the blanks before each, and blanks at the end (possibly a comment running to the end). *)
Fixpoint text_of (items : list (list Z * lexeme)) (last : list Z) : list Z :=
  match items with [] => last | (b, l) :: r => b ++ spell l ++ text_of r last end.
Definition last_blank (nl : bool) (b : list Z) : Prop := exists b1 b2, b = b1 ++ b2 /\ blank nl b1 /\ (b2 = [] \/ exists t, b2 = 35 :: t /\ Forall (fun c => c <> 10) t).
Fixpoint well_written (prev : tk) (items : list (list Z * lexeme)) (last : list Z) : Prop :=
  match items with
  | [] => last_blank (negb (ends_statement prev)) last
  | (b, l) :: r => blank (negb (ends_statement prev)) b /\ wf_lexeme prev l /\ ends_at l (text_of r last) /\ well_written (kind l) r last
  end.
Fixpoint newlines (s : list Z) : Z := match s with [] => 0 | c :: r => (if c =? 10 then 1 else 0) + newlines r end.
(** The tokens expected, each with its line: one more than the newlines passed. *)
Fixpoint expected (line : Z) (items : list (list Z * lexeme)) (last : list Z) : list (tk * list Z * Z) :=
  match items with
  | [] => [(T_EOF, [], line + newlines last)]
  | (b, l) :: r => let line := line + newlines b + newlines (spell l) in (kind l, content l, line) :: expected line r last
  end.

(** The uses the lexer makes of its text buffer: it is initialised first, and "back" is used right after an append
    (lexer.c:268-270, 231). *)
Fixpoint disciplined (after_append : bool) (ops : list bufop) : bool :=
  match ops with
  | [] => true
  | BInit :: r => disciplined false r
  | BReset :: r => disciplined false r
  | BAppend :: r => disciplined true r
  | BBack :: r => after_append && disciplined false r
  end.
