(** * C47, C48: the lexer. *)
From Verif Require Import Base Text Lexer LexSpec LexProofs.

(** C47. Any text written as a sequence of lexemes, with blanks and comments anywhere between them and no lexeme directly
    followed by a character that would extend it, is read back as exactly those tokens: their types, their values and their
    lines, then the end of the file. *)
Theorem C47_read_back items last : well_written T_UNKNOWN items last ->
  exists toks, lex (text_of items last) = Some toks /\
    map (fun p => (t_type (fst p), t_val (fst p), snd p)) toks = expected 1 items last /\ Forall (fun p => t_interp (fst p) = false) toks.
Proof. intros W. apply (lex_text items last T_UNKNOWN); [pose proof (text_len items last W); lia|exact W]. Qed.
(** Blanks do not matter: the same lexemes with other blanks give the same tokens. *)
Theorem C47_blanks_irrelevant items items' last last' : map snd items = map snd items' -> well_written T_UNKNOWN items last -> well_written T_UNKNOWN items' last' ->
  exists toks toks', lex (text_of items last) = Some toks /\ lex (text_of items' last') = Some toks' /\
    map (fun p => (t_type (fst p), t_val (fst p))) toks = map (fun p => (t_type (fst p), t_val (fst p))) toks'.
Proof.
  intros E W W'. destruct (C47_read_back _ _ W) as (toks & L & V & _). destruct (C47_read_back _ _ W') as (toks' & L' & V' & _). exists toks, toks'. split; [exact L|]. split; [exact L'|].
  assert (K : forall (ts : list (token * Z)) (l : list (tk * list Z * Z)), map (fun p => (t_type (fst p), t_val (fst p), snd p)) ts = l -> map (fun p => (t_type (fst p), t_val (fst p))) ts = map fst l)
    by (intros ts l <-; rewrite map_map; reflexivity).
  rewrite (K _ _ V), (K _ _ V'). clear - E. generalize 1 at 1. generalize 1. revert items' E. induction items as [|[b l] r IH]; intros [|[b' l'] r'] E n m; try discriminate E; [reflexivity|].
  cbn [map snd] in E. injection E as -> E. cbn [expected map fst]. f_equal. apply IH, E.
Qed.
(** A string literal: every byte string can be written and is read back. *)
Theorem C47_strings s : exists toks nl l, lex (39 :: concat (map escaped s) ++ [39]) = Some ((Tok T_STR s nl false, l) :: toks) /\ map (fun p => t_type (fst p)) toks = [T_EOF].
Proof.
  assert (W : well_written T_UNKNOWN [([], LStr s)] []).
  { cbn. split; [constructor|]. split; [exact I|]. split; [exact I|]. exists [], []. split; [reflexivity|]. split; [constructor|left; reflexivity]. }
  destruct (C47_read_back _ _ W) as (toks & L & V & F). cbn [text_of app expected] in *. rewrite app_nil_r in L. destruct toks as [|[[ty v nl i] l] toks]; [discriminate V|]. cbn [map fst snd t_type t_val] in V. injection V as -> -> -> V. pose proof (Forall_inv F) as F1. cbn in F1. subst i.
  eexists toks, nl, _. split; [exact L|]. destruct toks as [|a [|b toks]]; try discriminate V. cbn in V |- *. injection V as -> _ _. reflexivity.
Qed.
(** ... and every escape denotes its byte, anywhere in a literal. *)
Theorem C47_escapes ps : Forall piece_ok ps ->
  exists toks nl l, lex (39 :: concat (map piece_text ps) ++ [39]) = Some ((Tok T_STR (map piece_byte ps) nl false, l) :: toks) /\ map (fun p => t_type (fst p)) toks = [T_EOF].
Proof.
  intros P. assert (W : well_written T_UNKNOWN [([], LEsc ps)] []).
  { cbn. split; [constructor|]. split; [exact P|]. split; [exact I|]. exists [], []. split; [reflexivity|]. split; [constructor|left; reflexivity]. }
  destruct (C47_read_back _ _ W) as (toks & L & V & F). cbn [text_of app expected] in *. rewrite app_nil_r in L. destruct toks as [|[[ty v nl i] l] toks]; [discriminate V|]. cbn [map fst snd t_type t_val] in V. injection V as -> -> -> V. pose proof (Forall_inv F) as F1. cbn in F1. subst i.
  eexists toks, nl, _. split; [exact L|]. destruct toks as [|a [|b toks]]; try discriminate V. cbn in V |- *. injection V as -> _ _. reflexivity.
Qed.
(** [\t\0q\xfF] *)
Example C47_escapes_nonvacuous : let ps := [PNamed 116; PNamed 48; PByte 113; PHex 102 70] in Forall piece_ok ps /\ map piece_byte ps = [9; 0; 113; 255].
Proof. split; [repeat apply Forall_cons; try apply Forall_nil; cbn; unfold xdigit, digit; repeat split; tauto || lia|reflexivity]. Qed.
(** Between double quotes: the same escapes; the text ends at the quote. *)
Theorem C47_double_quoted ps : Forall dpiece_ok ps ->
  exists toks nl l, lex (34 :: concat (map piece_text ps) ++ [34]) = Some ((Tok T_STR (map piece_byte ps) nl false, l) :: toks) /\ map (fun p => t_type (fst p)) toks = [T_EOF].
Proof.
  intros P. assert (W : well_written T_UNKNOWN [([], LDbl ps)] []).
  { cbn. split; [constructor|]. split; [exact P|]. split; [exact I|]. exists [], []. split; [reflexivity|]. split; [constructor|left; reflexivity]. }
  destruct (C47_read_back _ _ W) as (toks & L & V & F). cbn [text_of app expected] in *. rewrite app_nil_r in L. destruct toks as [|[[ty v nl i] l] toks]; [discriminate V|]. cbn [map fst snd t_type t_val] in V. injection V as -> -> -> V. pose proof (Forall_inv F) as F1. cbn in F1. subst i.
  eexists toks, nl, _. split; [exact L|]. destruct toks as [|a [|b toks]]; try discriminate V. cbn in V |- *. injection V as -> _ _. reflexivity.
Qed.
(** ... or at #, and then the token says that an interpolation follows; whatever comes before the text and after the # . *)
Theorem C47_interpolation_starts prev ps rest line : Forall dpiece_ok ps ->
  gettok prev (34 :: concat (map piece_text ps) ++ 35 :: rest) line = Some (Tok T_STR (map piece_byte ps) false true, rest, line).
Proof.
  intros W. rewrite gettok_eq, EB_other by reflexivity. cbn [finish].
  unfold token_at, eat_number, eat_id, eat_string, eat_raw, eat_interp. change (is_digit 34) with false. change (is_idstart 34) with false. change (34 =? 39) with false. change (34 =? 96) with false. change (34 =? 34) with true. cbn [or_else].
  rewrite (eat_dbl_pieces ps 35 rest (or_intror eq_refl) W). reflexivity.
Qed.
(** [it's \n\#]: a single quote is an ordinary character here. *)
Example C47_double_nonvacuous : let ps := [PByte 105; PByte 116; PByte 39; PByte 115; PByte 32; PNamed 110; PNamed 35] in Forall dpiece_ok ps /\ map piece_byte ps = [105; 116; 39; 115; 32; 10; 35].
Proof. split; [repeat apply Forall_cons; try apply Forall_nil; cbn; repeat split; tauto || lia|reflexivity]. Qed.
(** The conditions can be met: [if x >= 0x1F { # c \n a.while ~= 'q\'s\n' /* / * */ + 1.5; b \n}]. *)
Example C47_nonvacuous : exists items last, well_written T_UNKNOWN items last /\ (length items = 18)%nat /\
  In LNewline (map snd items) /\ In (LId [119; 104; 105; 108; 101]) (map snd items) /\ lex (text_of items last) <> None.
Proof.
  set (items := [([], LFixed T_IF); ([32], LId [120]); ([32], LFixed T_GTEQ); ([], LHex [49; 70]); ([9; 32], LFixed T_LBRC);
    ([32; 35; 99; 32; 10; 10; 32], LId [97]); ([], LFixed T_DOT); ([], LId [119; 104; 105; 108; 101]); ([32], LFixed T_TILDEEQ); ([32], LStr [113; 39; 115; 10]);
    ([32; 47; 42; 32; 47; 42; 47; 32], LFixed T_PLUS); ([], LFloat [49] [53]); ([], LFixed T_SEMI); ([32], LBool true); ([], LNewline); ([10], LRaw [10; 92]); ([], LFixed T_RBRC); ([], LNewline)]).
  exists items, [35; 101]. split.
  - unfold items. cbn [well_written text_of app spell kind ends_statement negb].
    repeat match goal with
    | |- _ /\ _ => split
    | |- blank _ _ => solve [repeat constructor | apply b_space; apply (b_line true [99; 32] [10; 32]); [reflexivity|repeat constructor; discriminate|repeat constructor]
        | apply b_space; apply (b_block _ [32; 47] [32]); [intros [|a [|b [|c [|d u]]]] v E; try discriminate E; cbn in E; injection E; intros; try discriminate; subst; try (destruct u; discriminate)|right; repeat constructor; discriminate|repeat constructor]]
    | |- ends_at _ _ => vm_compute; reflexivity
    | |- last_blank _ _ => exists [], [35; 101]; split; [reflexivity|]; split; [constructor|]; right; exists [101]; split; [reflexivity|repeat constructor; discriminate]
    | |- wf_lexeme _ (LId [119; 104; 105; 108; 101]) => split; [exists 119, [104; 105; 108; 101]; repeat split; [unfold letter; lia|repeat constructor; unfold letter; lia]|left; reflexivity]
    | |- wf_lexeme _ (LId [?c]) => split; [exists c, []; repeat split; [unfold letter; lia|constructor]|right; right; repeat split; [vm_compute; intuition discriminate|intros ([] & W & E); discriminate|discriminate|discriminate]]
    | |- wf_lexeme _ (LFixed _) => split; [discriminate|intros _; split; discriminate]
    | |- wf_lexeme _ (LBool _) => split; discriminate
    | |- wf_lexeme _ (LHex _) => split; [discriminate|repeat constructor; unfold xdigit, digit; lia]
    | |- wf_lexeme _ (LFloat _ _) => repeat split; try discriminate; repeat constructor; unfold digit; lia
    | |- wf_lexeme _ (LStr _) => exact I
    | |- wf_lexeme _ (LRaw _) => repeat constructor; discriminate
    | |- wf_lexeme _ LNewline => reflexivity
    end.
  - split; [reflexivity|]. split; [vm_compute; tauto|]. split; [vm_compute; tauto|]. vm_compute. discriminate.
Qed.
(** Float exponents are not covered by C47, and are wrong: the character after "e" is taken into the literal whatever it is,
    so [1.5e)] is one FLOAT token followed by the end of the file, without an error. *)
Theorem C47_exponent_refuted : exists t1 t2 l1 l2, lex [49; 46; 53; 101; 41] = Some [(t1, l1); (t2, l2)] /\ t_type t1 = T_FLOAT /\ t_val t1 = [49; 46; 53; 101; 41] /\ t_type t2 = T_EOF.
Proof. eexists _, _, _, _. split; [vm_compute; reflexivity|]. repeat split. Qed.

(** C48. Every byte string is lexed to the end of the file or to an error: no more requests than bytes plus one are needed,
    and the end (or the error) is the last token and only the last. *)
Theorem C48_terminates text : exists toks t l, lex text = Some (toks ++ [(t, l)]) /\ (t_type t = T_EOF \/ t_type t = T_UNKNOWN) /\
  Forall (fun p => t_type (fst p) <> T_EOF /\ t_type (fst p) <> T_UNKNOWN) toks /\ (length toks <= length text)%nat.
Proof.
  destruct (lex_total (S (length text)) T_UNKNOWN text 1 ltac:(lia)) as (toks & t & l & E & F & G & L). exists toks, t, l. split; [exact E|]. split; [exact F|]. split; [|exact L].
  eapply Forall_impl; [|exact G]. intros p H. unfold final in H. tauto.
Qed.
(** The token text buffer: whatever the sequence of appends, resets and steps back, every write is inside the buffer. *)
Theorem C48_buffer ops : disciplined false ops = true -> Forall (fun w => 0 <= fst w < snd w) (brun (8, 0) ops).
Proof. intros D. apply buffer_inv with (app := false); [lia|lia|discriminate|exact D]. Qed.
Example C48_nonvacuous : exists t1 t2 l1 l2, lex [39; 97] = Some [(t1, l1)] /\ t_type t1 = T_UNKNOWN /\ lex [] = Some [(t2, l2)] /\ t_type t2 = T_EOF.
Proof. eexists _, _, _, _. split; [vm_compute; reflexivity|]. split; [reflexivity|]. split; [vm_compute; reflexivity|reflexivity]. Qed.
Example C48_buffer_nonvacuous : exists ops, disciplined false ops = true /\ (20 < length (brun (8, 0)%Z ops))%nat /\ In BBack ops.
Proof. exists (repeat BAppend 10 ++ [BBack; BReset] ++ repeat BAppend 12). split; [reflexivity|]. split; [vm_compute; lia|]. vm_compute. tauto. Qed.
Print Assumptions C47_double_quoted.
Print Assumptions C47_interpolation_starts.
Print Assumptions C47_read_back.
Print Assumptions C47_blanks_irrelevant.
Print Assumptions C47_strings.
Print Assumptions C47_escapes.
Print Assumptions C47_exponent_refuted.
Print Assumptions C48_terminates.
Print Assumptions C48_buffer.
