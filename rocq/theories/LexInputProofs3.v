(** * The lexer over its reader: whole texts, and the reader by itself. *)
From Verif Require Import Base Text Lexer LexInput LexInputProofs LexInputProofs2.

(** The same token: of two errors only the fact is compared. *)
Definition same (a b : token * Z) : Prop := t_type (fst a) = t_type (fst b) /\ (t_type (fst a) <> T_UNKNOWN -> a = b).
Lemma lex_from_ok txt : Forall is_byte txt /\ Z.of_nat (length txt) < 2147483648 -> forall n fuel s rest toks, input txt s rest -> (length txt + 3 <= fuel)%nat ->
  lex_from n (l_type s) rest (l_line s) = Some toks -> exists toks', i_lex_from n fuel txt s = Ok toks' /\ Forall2 same toks toks'.
Proof.
  intros B. induction n as [|n IH]; intros fuel s rest toks I F E; [discriminate E|]. cbn [lex_from i_lex_from] in *.
  destruct (gettok (l_type s) rest (l_line s)) as [o|] eqn:G; [|discriminate E].
  assert (Lr : (length rest <= length txt)%nat) by (destruct I as ((p & ->) & _); rewrite app_length; lia).
  destruct (gettok_ok txt B fuel s rest o I ltac:(lia) G) as (s' & -> & Gv). cbn [bind]. destruct o as [[t rest'] line']. destruct Gv as (T & Gv). rewrite T.
  destruct (tk_eq_dec (t_type t) T_EOF) as [Et|NE].
  { rewrite Et in *. destruct Gv as (Tk & Ln & I'); [discriminate|]. injection E as <-. eexists. split; [reflexivity|]. constructor; [|constructor]. rewrite Tk, Ln. split; reflexivity. }
  destruct (tk_eq_dec (t_type t) T_UNKNOWN) as [Et|NU].
  { rewrite Et in *. injection E as <-. eexists. split; [reflexivity|]. constructor; [|constructor]. split; [cbn [fst token_of t_type]; rewrite T, Et; reflexivity|]. cbn [fst]. intros X. destruct (X Et). }
  destruct (Gv NU) as (Tk & Ln & I').
  assert (E' : option_map (cons (t, line')) (lex_from n (t_type t) rest' line') = Some toks) by (destruct (t_type t); try exact E; [destruct (NU eq_refl)|destruct (NE eq_refl)]).
  destruct (lex_from n (t_type t) rest' line') as [toks0|] eqn:E0; [|discriminate E']. injection E' as <-. rewrite <- T, <- Ln in E0.
  destruct (IH fuel s' rest' toks0 I' F E0) as (toks' & A & R). exists ((t, line') :: toks'). split.
  - rewrite A. rewrite Tk, Ln. destruct (t_type t); try reflexivity; [destruct (NU eq_refl)|destruct (NE eq_refl)].
  - constructor; [split; reflexivity|exact R].
Qed.

(** ** The reader by itself *)
(** The next [n] answers of [lxgetc], and the state after them. *)
Fixpoint reads (txt : list Z) (n : nat) (s : lst) : outcome (list Z * lst) :=
  match n with O => Ok ([], s) | S n' => do r <- lxgetc txt s; do q <- reads txt n' (snd r); Ok (fst r :: fst q, snd q) end.
Lemma getc_pos txt s : Forall is_byte txt /\ Z.of_nat (length txt) < 2147483648 -> 0 <= l_pos s <= Z.of_nat (length txt) ->
  lxgetc txt s = Ok (match nth_error txt (Z.to_nat (l_pos s)) with Some b => b | None => -1 end,
    set_in s (Z.min (Z.of_nat (length txt)) (l_pos s + 1)) (if l_pos s =? Z.of_nat (length txt) then true else l_iseof s)).
Proof.
  intros B P. unfold lxgetc. rewrite (count_len txt B). unfold nthZ. replace (l_pos s <? 0) with false by (symmetry; lia).
  destruct (Z.leb_spec (Z.of_nat (length txt)) (l_pos s)).
  - replace (l_pos s) with (Z.of_nat (length txt)) at 2 3 4 by lia. rewrite Nat2Z.id, (proj2 (nth_error_None txt (length txt)) (le_n _)), Z.min_l, Z.eqb_refl by lia. replace (l_pos s) with (Z.of_nat (length txt)) by lia. reflexivity.
  - destruct (nth_error txt (Z.to_nat (l_pos s))) eqn:E; [|apply nth_error_None in E; lia]. rewrite Z.min_r by lia. replace (l_pos s =? Z.of_nat (length txt)) with false by (symmetry; lia). reflexivity.
Qed.
(** Reading [n] times from a position gives the bytes from there on, then -1. *)
Lemma reads_ok txt : Forall is_byte txt /\ Z.of_nat (length txt) < 2147483648 -> forall n s, 0 <= l_pos s <= Z.of_nat (length txt) ->
  exists s', reads txt n s = Ok (firstn n (skipn (Z.to_nat (l_pos s)) txt ++ repeat (-1) n), s') /\
    l_pos s' = Z.min (Z.of_nat (length txt)) (l_pos s + Z.of_nat n) /\ (l_iseof s' = true <-> l_iseof s = true \/ Z.of_nat (length txt) < l_pos s + Z.of_nat n).
Proof.
  intros B. induction n as [|n IH]; intros s P; [exists s; cbn; split; [reflexivity|]; split; [lia|]; split; [auto|intros [X|X]; [exact X|lia]]|]. cbn [reads]. rewrite (getc_pos txt s B P). cbn [bind fst snd].
  set (s1 := set_in s _ _). destruct (IH s1 ltac:(unfold s1; cbn [set_in l_pos]; lia)) as (s' & E & Q & F). rewrite E. cbn [bind fst snd]. exists s'. split.
  - f_equal. f_equal. unfold s1. cbn [set_in l_pos]. destruct (nth_error txt (Z.to_nat (l_pos s))) as [b|] eqn:N.
    + assert (Lt : (Z.to_nat (l_pos s) < length txt)%nat) by (apply nth_error_Some; rewrite N; discriminate).
      rewrite Z.min_r by lia. replace (Z.to_nat (l_pos s + 1)) with (S (Z.to_nat (l_pos s))) by lia.
      assert (K : skipn (Z.to_nat (l_pos s)) txt = b :: skipn (S (Z.to_nat (l_pos s))) txt).
      { revert N. generalize (Z.to_nat (l_pos s)). clear. induction txt as [|c t IHt]; intros [|k] N; cbn in N; try discriminate N; [injection N as ->; reflexivity|]. cbn [skipn]. rewrite (IHt k N). reflexivity. }
      rewrite K. cbn [app firstn]. f_equal. change (repeat (-1) (S n)) with (-1 :: repeat (-1) n). rewrite repeat_cons, app_assoc. rewrite (firstn_app n (_ ++ _)). rewrite app_length, repeat_length. replace (n - _)%nat with 0%nat by lia. cbn [firstn]. rewrite app_nil_r. reflexivity.
    + apply nth_error_None in N. rewrite Z.min_l by lia. rewrite Nat2Z.id. rewrite skipn_all, skipn_all2 by lia. cbn [app repeat firstn]. reflexivity.
  - unfold s1 in Q, F. cbn [set_in l_pos l_iseof] in Q, F. split; [lia|]. rewrite F. destruct (Z.eqb_spec (l_pos s) (Z.of_nat (length txt))); split; intros [X|X]; auto; try (right; lia).
Qed.
