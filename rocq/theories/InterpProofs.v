(** * Interpolated strings: what the lexer delivers between the braces, and the string around it. *)
From Verif Require Import Base Value Ops Ast Text Lexer LexSpec LexProofs PropLex LexInput LexInputProofs LexInputProofs2 LexInputProofs3.
From Verif Require Import Parser ParseSpec Tree TreeParser TreeSpec PropTree Interp InterpSpec.
Local Open Scope list_scope.

Lemma text_of_app : forall items t, text_of items t = text_of items [] ++ t.
Proof. induction items as [|[b l] r IH]; intros t; cbn [text_of]; [reflexivity|]. rewrite (IH t). rewrite !app_assoc. reflexivity. Qed.
Lemma text_of_snoc : forall items b l t, text_of (items ++ [(b, l)]) t = text_of items (b ++ spell l ++ t).
Proof. induction items as [|[b' l'] r IH]; intros b l t; cbn [text_of app]; [reflexivity|]. rewrite IH. reflexivity. Qed.
Lemma brace_ends o t : o = 123 \/ o = 125 -> match t with [] => True | c :: _ => existsb (prefix_of ([o] ++ [c])) all_ops = false end.
Proof.
  intros Ho. destruct t as [|c t]; [exact I|]. destruct (existsb _ all_ops) eqn:E; [|reflexivity]. apply existsb_exists in E. destruct E as (x & Hx & P).
  assert (K : forallb (fun s => match s with a :: _ :: _ => negb ((a =? 123) || (a =? 125)) | _ => true end) all_ops = true) by (vm_compute; reflexivity).
  rewrite forallb_forall in K. specialize (K x Hx). unfold prefix_of, bytes_eqb in P. destruct (list_eq_dec Z.eq_dec _ _) as [e|]; [|discriminate P]. cbn [app length firstn] in e.
  destruct x as [|a [|b x]]; try discriminate e. injection e as -> ->. destruct Ho as [-> | ->]; discriminate K.
Qed.
Lemma lbrace_ends t : ends_at (LFixed T_LBRC) t.
Proof. pose proof (brace_ends 123 t (or_introl eq_refl)) as K. destruct t as [|c t]; [exact I|]. cbn [ends_at extends]. change (is_word T_LBRC) with false. cbn iota. change (spell (LFixed T_LBRC)) with [123]. rewrite K. reflexivity. Qed.
Lemma rbrace_ends t : ends_at (LFixed T_RBRC) t.
Proof. pose proof (brace_ends 125 t (or_intror eq_refl)) as K. destruct t as [|c t]; [exact I|]. cbn [ends_at extends]. change (is_word T_RBRC) with false. cbn iota. change (spell (LFixed T_RBRC)) with [125]. rewrite K. reflexivity. Qed.
Lemma ends_app l a t : a <> [] -> ends_at l a -> ends_at l (a ++ t).
Proof. destruct a; [congruence|]. intros _ H. exact H. Qed.

Section WithInput.
Variable txt : list Z.
Hypothesis bytes : Forall is_byte txt /\ Z.of_nat (length txt) < 2147483648.
Notation F := (length txt + 3)%nat.
Lemma input_len s rest : input txt s rest -> (length rest <= length txt)%nat.
Proof. intros ((p & E) & _). apply (f_equal (@length Z)) in E. rewrite app_length in E. lia. Qed.
(** A lexeme after blanks, whatever follows. *)
Lemma item_read s b l t : input txt s (b ++ spell l ++ t) -> blank (negb (ends_statement (l_type s))) b -> wf_lexeme (l_type s) l -> ends_at l t ->
  exists s', i_gettok txt F s = Ok s' /\ l_type s' = kind l /\ t_val (token_of s') = content l /\ l_interp s' = false /\ nl_fits l (t_nl (token_of s')) = true /\ input txt s' t /\
    l_line s' = l_line s + newlines b + newlines (spell l).
Proof.
  intros I B W En. destruct (lexeme_read (l_type s) l t (l_line s + newlines b) W En) as (nl & Nl & G). rewrite <- EB_blank in G by exact B. rewrite <- gettok_eq in G.
  pose proof (input_len _ _ I) as Ln. destruct (gettok_ok txt bytes F s _ _ I ltac:(lia) G) as (s' & E & T & R). destruct (kind_token l _ W) as [_ K]. cbn [t_type] in *. destruct (R K) as (Tk & Li & I').
  exists s'. split; [exact E|]. split; [exact T|]. rewrite Tk. cbn [t_val t_nl]. split; [reflexivity|]. split; [exact (f_equal t_interp Tk)|]. split; [exact Nl|]. split; [exact I'|exact Li].
Qed.
Lemma getc_c s b s' : lxgetc txt s = Ok (b, s') -> l_c s' = l_c s.
Proof. unfold lxgetc. destruct (_ <=? _); [intros [= <- <-]; reflexivity|]. destruct (nthZ txt _); [intros [= <- <-]; reflexivity|discriminate]. Qed.
Lemma seek_c s w : l_c (lxseek_set txt s w) = l_c s. Proof. unfold lxseek_set. destruct (_ <? _); reflexivity. Qed.
Lemma one_c c s : l_c (snd (i_one c s)) = l_c s. Proof. unfold i_one. destruct (tk_eqb _ _); reflexivity. Qed.
Lemma two_c c d p s : l_c (snd (i_two txt c d p s)) = l_c s.
Proof. unfold i_two. destruct (tk_eqb _ _); [rewrite one_c; apply seek_c|reflexivity]. Qed.
Lemma op_c s r : i_op txt s = Ok r -> l_c (snd r) = l_c s.
Proof.
  unfold i_op. destruct (lxgetc txt s) as [[b1 s1]| | |] eqn:E1; try discriminate. apply getc_c in E1. cbn [bind fst snd]. destruct (lxeof txt s1); [intros [= <-]; rewrite one_c; exact E1|].
  destruct (lxgetc txt s1) as [[b2 s2]| | |] eqn:E2; try discriminate. apply getc_c in E2. cbn [bind fst snd]. destruct (lxeof txt s2); [intros [= <-]; rewrite two_c; congruence|].
  destruct (tk_eqb _ _); intros [= <-]; [rewrite two_c, seek_c; congruence|cbn; congruence].
Qed.
(** The closing brace is the character the lexer then stands on. *)
Lemma brace_read s b t : input txt s (b ++ 125 :: t) -> blank (negb (ends_statement (l_type s))) b ->
  exists s', i_gettok txt F s = Ok s' /\ l_type s' = T_RBRC /\ l_c s' = 125 /\ input txt s' t /\ l_line s' = l_line s + newlines b /\ l_interp s' = false.
Proof.
  intros I B. destruct (item_read s b (LFixed T_RBRC) t I B) as (s' & E & T & _ & Ip & _ & I' & Ln); [split; discriminate|apply rbrace_ends|]. exists s'. split; [exact E|]. split; [exact T|].
  split; [|split; [exact I'|split; [cbn [spell spelling newlines] in Ln; change (125 =? 10) with false in Ln; cbn iota in Ln; lia|exact Ip]]].
  pose proof (input_len _ _ I) as Lr. destruct I as (Sx & P & Ex). destruct s as [c p e line v ty i]. cbn [l_pos l_iseof l_type l_line] in *. subst p. unfold i_gettok in E.
  change (set_interp (set_val (L c (pos_of txt (b ++ 125 :: t)) e line v ty i) []) false) with (L c (pos_of txt (b ++ 125 :: t)) e line [] ty false) in E. rewrite (getchar_at txt bytes) in E by assumption. cbn [bind] in E.
  pose proof (blank_ok txt bytes (length (b ++ 125 :: t)) (b ++ 125 :: t) F (S (length (b ++ 125 :: t))) line ty (suffix_suf txt _ Sx) (le_n _) ltac:(lia)) as K.
  change (eat_blank (S (length (b ++ 125 :: t))) ty (b ++ 125 :: t) line) with (EB ty (b ++ 125 :: t) line) in K. rewrite (EB_blank ty b B), EB_other in K by reflexivity.
  destruct K as (K & Sc & Lc). rewrite K in E. cbn [bind fst snd] in E. rewrite (eof_CS txt) in E. change (suffix txt t) in Sc. set (l := line + newlines b) in *.
  assert (Lt : (length t + 3 <= F)%nat) by (cbn [length] in Lc; lia).
  pose proof (number_ok txt bytes F 125 t l ty Sc ltac:(lia)) as A. change (eat_number 125 t l) with (@None lexed) in A. rewrite A in E. cbn [bind fst snd] in E. clear A.
  pose proof (id_ok txt bytes F 125 t l ty Sc ltac:(lia)) as A. change (eat_id ty 125 t l) with (@None lexed) in A. rewrite A in E. cbn [bind fst snd] in E. clear A.
  pose proof (string_ok txt bytes F 125 t l ty Sc ltac:(lia)) as A. change (eat_string 125 t l) with (@None lexed) in A. rewrite A in E. cbn [bind fst snd] in E. clear A.
  pose proof (raw_ok txt bytes F 125 t l ty Sc ltac:(lia)) as A. change (eat_raw 125 t l) with (@None lexed) in A. rewrite A in E. cbn [bind fst snd] in E. clear A.
  pose proof (interp_ok txt bytes F 125 t l ty Sc ltac:(lia)) as A. change (eat_interp 125 t l) with (@None lexed) in A. rewrite A in E. cbn [bind fst snd] in E. clear A.
  destruct (i_op txt (CS txt (125 :: t) l [] ty false)) as [[ok s2]| | |] eqn:Eo; try discriminate E. apply op_c in Eo. cbn [bind fst snd] in *. rewrite (c_CS txt) in Eo. cbn [hd] in Eo. destruct ok; injection E as <-; exact Eo.
Qed.
(** All tokens up to the end, from any state. *)
Lemma next_total s rest : input txt s rest -> exists s', i_gettok txt F s = Ok s' /\ (l_type s' = T_EOF \/ l_type s' = T_UNKNOWN \/ exists rest', input txt s' rest' /\ (length rest' < length rest)%nat).
Proof.
  intros I. pose proof (input_len _ _ I) as Lr. destruct (gettok_progress (l_type s) rest (l_line s)) as (t & rest' & line' & E & K). rewrite <- gettok_eq in E.
  destruct (gettok_ok txt bytes F s rest _ I ltac:(lia) E) as (s' & Es & T & R). exists s'. split; [exact Es|]. rewrite T. destruct K as [K|[K|K]]; [tauto|tauto|].
  destruct (tk_eq_dec (t_type t) T_UNKNOWN) as [Q|Q]; [right; left; exact Q|]. right. right. exists rest'. split; [apply R, Q|exact K].
Qed.
Lemma located_total : forall n s rest, input txt s rest -> (S (length rest) < n)%nat -> exists ss, located n F txt s = Ok (s :: ss).
Proof.
  induction n as [|n IH]; intros s rest I Lt; [lia|]. cbn [located]. destruct (next_total s rest I) as (s' & E & K).
  assert (X : exists r, (do s' <- i_gettok txt F s; do r <- located n F txt s'; Ok (s :: r)) = Ok (s :: r)).
  { rewrite E. cbn [bind]. assert (Y : exists r, located n F txt s' = Ok r).
    { destruct n as [|n]; [lia|]. destruct K as [K|[K|(rest' & I' & L')]]; [cbn [located]; rewrite K; eauto|cbn [located]; rewrite K; eauto|]. destruct (IH s' rest' I' ltac:(lia)) as (r & Er). exists (s' :: r). exact Er. }
    destruct Y as (r & ->). cbn [bind]. eauto. }
  destruct (l_type s); try exact X; eauto.
Qed.
(** The tokens of an expression and the brace after it. *)
Lemma located_items g t : forall items s n, input txt s (text_of (items ++ [(g, LFixed T_RBRC)]) t) -> well_written (l_type s) (items ++ [(g, LFixed T_RBRC)]) [] ->
  (S (length (text_of (items ++ [(g, LFixed T_RBRC)]) t)) < n)%nat ->
  exists s1 ss sb more, i_gettok txt F s = Ok s1 /\ l_interp s1 = false /\ located n F txt s1 = Ok (ss ++ sb :: more) /\ tokens (map token_of ss) (map snd items) /\
    l_type sb = T_RBRC /\ l_c sb = 125 /\ input txt sb t /\ l_line sb = l_line s + newlines (text_of (items ++ [(g, LFixed T_RBRC)]) []).
Proof.
  induction items as [|[b l] r IH]; intros s n I W Lt.
  - cbn [app text_of well_written] in *. change (spell (LFixed T_RBRC)) with [125] in *. cbn [app] in *. destruct W as (B & _). destruct (brace_read s g t I B) as (sb & E & T & C & I' & Ln & Ip). rewrite app_length in Lt. cbn [length] in Lt.
    destruct (located_total n sb t I' ltac:(cbn [length] in *; lia)) as (more & M). exists sb, [], sb, more. cbn [app]. split; [exact E|]. split; [exact Ip|]. split; [exact M|]. split; [split; [reflexivity|constructor]|]. split; [exact T|]. split; [exact C|]. split; [exact I'|].
    rewrite newlines_app. cbn [newlines]. change (125 =? 10) with false. cbn iota. lia.
  - cbn [app text_of well_written] in *. destruct W as (B & W & En & W2). set (it := r ++ [(g, LFixed T_RBRC)]) in *.
    assert (NE : text_of it [] <> []) by (unfold it; rewrite text_of_snoc, text_of_app; intros X; apply app_eq_nil in X; destruct X as [_ X]; apply app_eq_nil in X; destruct X as [_ X]; discriminate X).
    assert (En' : ends_at l (text_of it t)) by (rewrite (text_of_app it t); apply ends_app; assumption).
    destruct (item_read s b l (text_of it t) I B W En') as (s' & E & T & V & Ip & Nl & I' & Ln).
    pose proof (spell_len _ _ W) as Sl. rewrite !app_length in Lt. destruct n as [|n]; [lia|]. rewrite <- T in W2.
    destruct (IH s' n I' W2 ltac:(lia)) as (s1 & ss & sb & more & E1 & _ & Es & [Tk1 Tk2] & Tb & Cb & Ib & Lb). cbn [located]. exists s', (s' :: ss), sb, more. split; [exact E|]. split; [exact Ip|]. split; [|split; [|split; [exact Tb|split; [exact Cb|split; [exact Ib|]]]]].
    + destruct (kind_token l _ W) as [K1 K2]. rewrite E1. cbn [bind]. rewrite Es. cbn [bind app]. rewrite T. destruct (kind l); try reflexivity; congruence.
    + cbn [map]. split; [unfold tokens_of in *; cbn [map snd]; f_equal; [cbn [token_of t_type t_val t_interp] in *; congruence|exact Tk1]|constructor; [exact Nl|exact Tk2]].
    + rewrite Lb, Ln, !newlines_app. lia.
Qed.
(** The characters after a brace. *)
Lemma body_read s ps q rest : input txt s (pieces ps ++ q :: rest) -> q = 34 \/ q = 35 -> Forall dpiece_ok ps ->
  exists s1 s2, getchar txt s = Ok s1 /\ body F txt s1 = Ok (false, s2) /\ l_type s2 = T_STR /\ l_val s2 = map piece_byte ps /\ l_interp s2 = (q =? 35) /\ input txt s2 rest /\ l_line s2 = l_line s.
Proof.
  intros I Q D. pose proof (input_len _ _ I) as Lr. destruct I as (Sx & P & Ex). destruct s as [c p e line v ty i]. cbn [l_pos l_iseof l_line] in *. subst p. rewrite (getchar_at txt bytes) by assumption. eexists _, _. split; [reflexivity|].
  unfold body. rewrite (set_val_CS txt), (set_type_CS txt). pose proof (str_ok txt bytes (fun c => (c =? 34) || (c =? 35)) 34 (length (pieces ps ++ q :: rest)) (pieces ps ++ q :: rest) F line [] T_STR i Sx (le_n _) ltac:(lia)) as K.
  unfold pieces in K at 1. rewrite (eat_dbl_pieces ps q rest Q D) in K. destruct K as (-> & Sq & _). cbn [bind fst snd app]. rewrite (c_CS txt), (set_interp_CS txt), (eof_CS txt). cbn [hd]. split; [reflexivity|]. cbn [LexInputProofs.CS l_type l_val l_interp l_line].
  split; [reflexivity|]. split; [reflexivity|]. split; [reflexivity|]. split; [|reflexivity]. apply input_at; [apply (suffix_tl _ _ _ Sq)|discriminate].
Qed.
End WithInput.
