(** * C64: the program text is read byte for byte. *)
From Verif Require Import Base Text Lexer LexSpec LexProofs PropLex LexInput LexInputProofs LexInputProofs2 LexInputProofs3.

(** C64. A reader over a text of fewer than 2^31 bytes: [n] reads give the first [n] bytes in order, and -1 for each read past the end; the
    end is reported exactly when a read past the end has been tried. *)
Theorem C64_reads txt n : Forall is_byte txt -> Z.of_nat (length txt) < 2 ^ 31 ->
  exists s, reads txt n new_lexer = Ok (firstn n (txt ++ repeat (-1) n), s) /\ lxeof txt s = (length txt <? n)%nat.
Proof.
  intros B Sm. assert (BS : Forall is_byte txt /\ Z.of_nat (length txt) < 2147483648) by (split; [exact B|exact Sm]).
  destruct (reads_ok txt BS n new_lexer ltac:(cbn; lia)) as (s & E & P & F). cbn [new_lexer l_pos l_iseof] in *. exists s. split; [rewrite E; reflexivity|].
  unfold lxeof. rewrite (count_len txt BS), P. destruct (Nat.ltb_spec (length txt) n).
  - replace (Z.of_nat (length txt) <=? _) with true by (symmetry; lia). apply F. right. lia.
  - destruct (_ <=? _); [|reflexivity]. destruct (l_iseof s); [|reflexivity]. destruct (proj1 F eq_refl) as [X|X]; [discriminate X|lia].
Qed.
(** Going back to a position told earlier replays the same answers, however much was read in between, and forgets the end if there is
    something to read. *)
Theorem C64_replay txt n m bs s s1 : Forall is_byte txt -> Z.of_nat (length txt) < 2 ^ 31 -> 0 <= lxtell s <= Z.of_nat (length txt) ->
  reads txt n s = Ok (bs, s1) ->
  let s2 := lxseek_set txt s1 (lxtell s) in
  lxtell s2 = lxtell s /\ (lxtell s < Z.of_nat (length txt) -> lxeof txt s2 = false) /\
  forall bs' s', reads txt m s = Ok (bs', s') -> exists s3, reads txt m s2 = Ok (bs', s3).
Proof.
  intros B Sm P E. assert (BS : Forall is_byte txt /\ Z.of_nat (length txt) < 2147483648) by (split; [exact B|exact Sm]). unfold lxtell in *. cbv zeta. set (s2 := lxseek_set txt s1 (l_pos s)).
  assert (P2 : l_pos s2 = l_pos s) by (unfold s2, lxseek_set; destruct (_ <? _); reflexivity). split; [exact P2|]. split.
  - intros Lt. unfold s2, lxseek_set. rewrite (count_len txt BS). replace (l_pos s <? Z.of_nat (length txt)) with true by (symmetry; lia). unfold lxeof. rewrite (count_len txt BS). cbn [set_in l_pos]. replace (Z.of_nat (length txt) <=? l_pos s) with false by (symmetry; lia). reflexivity.
  - intros bs' s' E'. destruct (reads_ok txt BS m s P) as (x & X & _). destruct (reads_ok txt BS m s2 ltac:(lia)) as (y & Y & _). rewrite X in E'. injection E' as <- <-. rewrite P2 in Y. exists y. exact Y.
Qed.
(** The lexer, reading through the reader and stepping back in it, gives the tokens of the byte sequence: those that the lexer over lists
    (C47, C48) gives, and no undefined behaviour. *)
Theorem C64_tokens txt : Forall is_byte txt -> Z.of_nat (length txt) < 2 ^ 31 ->
  exists toks toks', lex txt = Some toks /\ i_lex txt = Ok toks' /\ Forall2 same toks toks'.
Proof.
  intros B Sm. assert (BS : Forall is_byte txt /\ Z.of_nat (length txt) < 2147483648) by (split; [exact B|exact Sm]).
  destruct (lex_total (S (length txt)) T_UNKNOWN txt 1 ltac:(lia)) as (toks & t & l & E & _). fold (lex txt) in E. exists (toks ++ [(t, l)]).
  destruct (lex_from_ok txt BS (S (length txt)) (length txt + 3) new_lexer txt (toks ++ [(t, l)])) as (toks' & A & R); [|lia|exact E|exists toks'; auto].
  split; [exists []; reflexivity|]. split; [|discriminate]. cbn [new_lexer l_pos]. unfold pos_of. rewrite (count_len txt BS). lia.
Qed.
(** So every text that spells a sequence of lexemes is read back as exactly those tokens, values and lines. *)
Theorem C64_read_back items last : well_written T_UNKNOWN items last -> Forall is_byte (text_of items last) -> Z.of_nat (length (text_of items last)) < 2 ^ 31 ->
  exists toks, i_lex (text_of items last) = Ok toks /\ map (fun p => (t_type (fst p), t_val (fst p), snd p)) toks = expected 1 items last.
Proof.
  intros W B Sm. destruct (C47_read_back items last W) as (toks & E & M & _). destruct (C64_tokens _ B Sm) as (toks1 & toks2 & E1 & E2 & R). rewrite E in E1. injection E1 as <-. exists toks2. split; [exact E2|].
  rewrite <- M. clear - R W M. assert (NU : Forall (fun p => t_type (fst p) <> T_UNKNOWN) toks).
  { assert (K : Forall (fun e => fst (fst e) <> T_UNKNOWN) (expected 1 items last)).
    { clear - W. revert W. generalize 1. generalize T_UNKNOWN at 1. induction items as [|[b x] r IH]; intros p n W; [repeat constructor; discriminate|]. cbn [expected]. cbn [well_written] in W. constructor.
      - cbn [fst]. destruct W as (_ & Wf & _). destruct x; cbn [kind fst]; try discriminate. cbn [wf_lexeme] in Wf. intros ->. revert Wf. vm_compute. intuition discriminate.
      - eapply IH. apply W. }
    rewrite <- M in K. rewrite Forall_map in K. exact K. }
  clear - R NU. induction R as [|a b l l' Hab R IH]; [reflexivity|]. inversion NU as [|? ? Ha Hl]; subst. cbn [map]. rewrite IH by exact Hl. destruct Hab as [_ X]. rewrite (X Ha). reflexivity.
Qed.
(** A text of 2^31 bytes or more (up to 4 GiB) is not read at all, and this is not reported: the reader compares its position with the
    length converted to int, which is negative. *)
Theorem C64_long_refuted txt : 2 ^ 31 <= Z.of_nat (length txt) < 2 ^ 32 -> i_lex txt = Ok [(Tok T_EOF [] false false, 1)].
Proof.
  intros B. change (2 ^ 31) with 2147483648 in B. change (2 ^ 32) with 4294967296 in B.
  assert (C : count txt < 0) by (unfold count; rewrite Z.mod_small by lia; replace (Z.of_nat (length txt) <? 2147483648) with false by (symmetry; lia); lia).
  assert (G : forall fuel, i_gettok txt (S fuel) new_lexer = Ok (L 255 0 true 1 [] T_EOF false)).
  { intros fuel. unfold i_gettok, getchar, lxgetc. cbn [new_lexer set_val set_interp l_pos l_c l_iseof l_line l_val l_type l_interp]. replace (count txt <=? 0) with true by (symmetry; lia). cbn [bind fst snd set_in set_c l_pos l_c l_iseof l_line l_val l_type l_interp].
    cbn [i_blank]. unfold lxeof. cbn [set_in set_c l_pos l_c l_iseof l_line l_val l_type l_interp]. replace (count txt <=? 0) with true by (symmetry; lia). cbn [negb andb bind fst snd]. unfold lxeof. cbn [set_in set_c l_pos l_c l_iseof l_line l_val l_type l_interp]. replace (count txt <=? 0) with true by (symmetry; lia). reflexivity. }
  unfold i_lex. rewrite Nat.add_comm. cbn [Nat.add]. cbn [i_lex_from]. rewrite G. reflexivity.
Qed.
(** Such texts exist. *)
Example C64_long_nonvacuous : 2 ^ 31 <= Z.of_nat (length (repeat 59 (Z.to_nat (2 ^ 31)))) < 2 ^ 32.
Proof. rewrite repeat_length, Z2Nat.id; lia. Qed.
(** [1. ] then a comment that ends the text, an escape at the end of the text, stepping back at every kind of token. *)
Example C64_nonvacuous : exists txt toks, Forall is_byte txt /\ Z.of_nat (length txt) < 2 ^ 31 /\ i_lex txt = Ok toks /\
  map (fun p => t_type (fst p)) toks = [T_INT; T_DOT; T_ID; T_DSTAR; T_INT; T_STR; T_SEMI; T_DSLASH; T_FLOAT; T_EOF] /\ (30 < length txt)%nat.
Proof.
  exists [49; 46; 97; 95; 42; 42; 48; 120; 49; 70; 39; 92; 120; 52; 49; 92; 110; 39; 32; 47; 42; 10; 42; 42; 47; 47; 47; 50; 46; 53; 32; 35; 120]. eexists. split; [repeat constructor; unfold is_byte; lia|]. split; [reflexivity|]. split; [vm_compute; reflexivity|]. split; [reflexivity|]. cbn. lia.
Qed.
Print Assumptions C64_reads.
Print Assumptions C64_replay.
Print Assumptions C64_tokens.
Print Assumptions C64_read_back.
Print Assumptions C64_long_refuted.
