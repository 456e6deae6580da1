(** * The lexer over its reader: strings and whole texts. *)
From Verif Require Import Base Text Lexer LexInput LexInputProofs.

Section WithInput.
Variable txt : list Z.
Hypothesis bytes : Forall is_byte txt /\ Z.of_nat (length txt) < 2147483648.
Notation pos_of := (pos_of txt).
Notation suffix := (suffix txt).
Notation suf := (suf txt).
Notation CS := (CS txt).
Notation input := (input txt).
Notation gives := (gives txt).
Lemma sfx_tl c r : suffix (c :: r) -> suffix r. Proof. apply suffix_tl. Qed.

Lemma escape_error_ok : forall fuel delim cur line v ty i, suf cur -> (length cur < fuel)%nat -> exists cur', i_escape_error txt fuel delim (CS cur line v ty i) = Ok (CS cur' line v ty i).
Proof.
  induction fuel as [|f IH]; intros delim cur line v ty i Sx Lt; [lia|]. cbn [i_escape_error]. rewrite (eof_CS txt). destruct cur as [|c r].
  - cbn [negb]. rewrite andb_false_r. eexists. reflexivity.
  - rewrite andb_true_r. rewrite (c_CS txt). cbn [hd]. destruct (negb (c =? 10) && negb (c =? delim)); [|eexists; reflexivity].
    rewrite (getchar_CS txt bytes) by exact Sx. cbn [bind tl]. cbn [length] in Lt. apply IH; [apply suffix_suf; exact Sx|lia].
Qed.
Lemma hex_end a : is_byte a -> hex_escape a 255 = None.
Proof.
  intros B. assert (K : forallb (fun a => match hex_escape a 255 with None => true | Some _ => false end) (map Z.of_nat (seq 0 256)) = true) by (vm_compute; reflexivity).
  rewrite forallb_forall in K. specialize (K a). destruct (hex_escape a 255); [|reflexivity]. discriminate K. apply in_map_iff. exists (Z.to_nat a). unfold is_byte in B. split; [lia|apply in_seq; lia].
Qed.
Lemma byte_of c r : suffix (c :: r) -> is_byte c. Proof. apply suffix_byte. exact bytes. Qed.
(** The loop of a string: at the delimiter, or an error, or at the end of the input. *)
Definition failed (r : outcome (bool * lst)) : Prop := exists b s, r = Ok (b, s) /\ (if b then l_type s = T_UNKNOWN else lxeof txt s = true).
Lemma str_ok stop delim : forall n cur fuel line v ty i, suffix cur -> (length cur <= n)%nat -> (n + 1 < fuel)%nat ->
  match eat_str stop cur with
  | Some (t, q :: r) => i_str txt fuel stop delim (CS cur line v ty i) = Ok (false, CS (q :: r) line (v ++ t) ty i) /\ suffix (q :: r) /\ stop q = true
  | Some (_, []) => False
  | None => failed (i_str txt fuel stop delim (CS cur line v ty i))
  end.
Proof.
  induction n as [|n IH]; intros cur fuel line v ty i Sx Ln Lf; (destruct fuel as [|fuel]; [lia|]); (destruct cur as [|c r];
    [cbn [eat_str i_str]; rewrite (eof_CS txt), andb_false_r; exists false; eexists; split; [reflexivity|]; apply eof_CS|]); [cbn [length] in Ln; lia|].
  cbn [eat_str i_str]. rewrite (eof_CS txt), andb_true_r, (c_CS txt). cbn [hd]. destruct (stop c) eqn:St.
  { cbn [negb]. rewrite app_nil_r. split; [reflexivity|]. split; [exact Sx|exact St]. }
  cbn [negb]. destruct (c =? 10). { exists true. eexists. split; [reflexivity|]. reflexivity. }
  cbn [length] in Ln. pose proof (sfx_tl _ _ Sx) as Sr.
  assert (NEXT : forall x r', suffix r' -> (length r' <= n)%nat ->
    match match eat_str stop r' with Some (t, q) => Some (x :: t, q) | None => None end with
    | Some (t, q :: r0) => i_str txt fuel stop delim (CS r' line (v ++ [x]) ty i) = Ok (false, CS (q :: r0) line (v ++ t) ty i) /\ suffix (q :: r0) /\ stop q = true
    | Some (_, []) => False
    | None => failed (i_str txt fuel stop delim (CS r' line (v ++ [x]) ty i))
    end).
  { intros x r' S' L'. specialize (IH r' fuel line (v ++ [x]) ty i S' L' ltac:(lia)). destruct (eat_str stop r') as [[t [|q r0]]|]; [exact IH| |exact IH]. destruct IH as (A & B & C). rewrite A. split; [rewrite <- app_assoc; reflexivity|auto]. }
  unfold i_nextchar. rewrite (c_CS txt). cbn [hd]. destruct (c =? 92).
  2: { rewrite (append_CS txt). cbn [bind fst snd]. rewrite (getchar_CS txt bytes) by exact (suffix_suf txt _ Sx). cbn [bind tl]. apply NEXT; [exact Sr|lia]. }
  rewrite (getchar_CS txt bytes) by exact (suffix_suf txt _ Sx). cbn [bind tl].
  assert (ERR : forall cur' k, suf cur' -> (length cur' <= n)%nat -> failed (do r0 <- (do s <- i_escape_error txt (S fuel) delim (CS cur' line v ty i); Ok (true, i_error s)); if fst r0 then Ok r0 else k r0)).
  { intros cur' k S' L'. destruct (escape_error_ok (S fuel) delim cur' line v ty i S' ltac:(lia)) as (cur2 & ->). cbn [bind fst]. exists true. eexists. split; [reflexivity|]. reflexivity. }
  unfold i_escapes. rewrite !(c_CS txt). destruct r as [|e r2].
  { cbn [hd]. change (255 =? 120) with false. change (escape 255) with (@None Z). cbn iota. apply (ERR []); [apply suffix_nil|cbn [length]; lia]. }
  cbn [hd]. cbn [length] in Ln. pose proof (sfx_tl _ _ Sr) as S2. destruct (e =? 120).
  - rewrite (getchar_CS txt bytes) by exact (suffix_suf txt _ Sr). cbn [bind tl]. rewrite (getchar_CS txt bytes) by exact (suffix_suf txt _ S2). cbn [bind]. rewrite !(c_CS txt).
    destruct r2 as [|a r3].
    { cbn [hd tl]. change (hex_escape 255 255) with (@None Z). cbn iota. apply (ERR []); [apply suffix_nil|cbn [length]; lia]. }
    cbn [tl]. destruct r3 as [|b r4].
    { cbn [hd]. rewrite (hex_end a) by exact (byte_of _ _ S2). apply (ERR []); [apply suffix_nil|cbn [length]; lia]. }
    cbn [hd]. cbn [length] in Ln. pose proof (sfx_tl _ _ S2) as S3. destruct (hex_escape a b) as [x|].
    + rewrite (append_CS txt). cbn [bind fst snd]. rewrite (getchar_CS txt bytes) by exact (suffix_suf txt _ S3). cbn [bind tl]. apply NEXT; [apply (sfx_tl _ _ S3)|lia].
    + apply ERR; [apply (suffix_suf txt), S3|cbn [length]; lia].
  - destruct (escape e) as [x|].
    + rewrite (append_CS txt). cbn [bind fst snd]. rewrite (getchar_CS txt bytes) by exact (suffix_suf txt _ Sr). cbn [bind tl]. apply NEXT; [exact S2|lia].
    + apply ERR; [apply (suffix_suf txt), Sr|cbn [length]; lia].
Qed.
Lemma gives_error s : l_type s = T_UNKNOWN -> forall a b c, gives (lex_error a b c) s.
Proof. intros E a b c. split; [exact E|]. intros X. destruct X. reflexivity. Qed.
Lemma string_ok fuel c rest line ty : suffix rest -> (S (length rest) < fuel)%nat ->
  match eat_string c rest line with
  | Some o => exists s, i_string txt fuel (CS (c :: rest) line [] ty false) = Ok (true, s) /\ gives o s
  | None => i_string txt fuel (CS (c :: rest) line [] ty false) = Ok (false, CS (c :: rest) line [] ty false)
  end.
Proof.
  intros Sx Lt. unfold eat_string, i_string. rewrite (c_CS txt). cbn [hd]. destruct (c =? 39); [|reflexivity]. rewrite (set_val_CS txt), (set_type_CS txt), (getchar_CS txt bytes) by exact Sx. cbn [bind tl].
  pose proof (str_ok (fun c => c =? 39) 39 (length rest) rest fuel line [] T_STR false Sx (le_n _) ltac:(lia)) as A. destruct (eat_str _ rest) as [[t [|q r]]|]; [destruct A| |].
  - destruct A as (-> & Sq & Q). cbn [bind fst snd]. rewrite (eof_CS txt). eexists. split; [reflexivity|]. cbn [app]. split; [reflexivity|]. intros _. cbn [LexInputProofs.CS]. split; [unfold token_of; cbn [l_type l_val l_c l_interp]; replace (q =? 10) with false by (symmetry; lia); reflexivity|].
    split; [reflexivity|]. apply input_at; [apply (sfx_tl _ _ Sq)|discriminate].
  - destruct A as (b & s & -> & F). cbn [bind fst snd]. destruct b; [|rewrite F]; (eexists; split; [reflexivity|]); apply gives_error; [exact F|reflexivity].
Qed.
Lemma interp_ok fuel c rest line ty : suffix rest -> (S (length rest) < fuel)%nat ->
  match eat_interp c rest line with
  | Some o => exists s, i_interp txt fuel (CS (c :: rest) line [] ty false) = Ok (true, s) /\ gives o s
  | None => i_interp txt fuel (CS (c :: rest) line [] ty false) = Ok (false, CS (c :: rest) line [] ty false)
  end.
Proof.
  intros Sx Lt. unfold eat_interp, i_interp. rewrite (c_CS txt). cbn [hd]. destruct (c =? 34); [|reflexivity]. rewrite (getchar_CS txt bytes) by exact Sx. cbn [bind tl]. rewrite (set_val_CS txt), (set_type_CS txt).
  pose proof (str_ok (fun c => (c =? 34) || (c =? 35)) 34 (length rest) rest fuel line [] T_STR false Sx (le_n _) ltac:(lia)) as A. destruct (eat_str _ rest) as [[t [|q r]]|]; [destruct A| |].
  - destruct A as (-> & Sq & Q). cbn [bind fst snd]. rewrite (c_CS txt), (set_interp_CS txt), (eof_CS txt). cbn [hd]. eexists. split; [reflexivity|]. cbn [app]. split; [reflexivity|]. intros _. cbn [LexInputProofs.CS]. split; [unfold token_of; cbn [l_type l_val l_c l_interp]; replace (q =? 10) with false by (symmetry; lia); reflexivity|].
    split; [reflexivity|]. apply input_at; [apply (sfx_tl _ _ Sq)|discriminate].
  - destruct A as (b & s & -> & F). cbn [bind fst snd]. destruct b.
    + eexists. split; [reflexivity|]. apply gives_error, F.
    + assert (E : forall x, lxeof txt (set_interp s x) = true) by (intros x; exact F). rewrite E. eexists. split; [reflexivity|]. apply gives_error. reflexivity.
Qed.
Lemma raw_loop_ok : forall fuel cur line v ty i, suffix cur -> (length cur < fuel)%nat ->
  match eat_raw_loop cur line with
  | Some (t, r, l) => i_raw_loop txt fuel (CS cur line v ty i) = Ok (CS (96 :: r) l (v ++ t) ty i) /\ suffix r
  | None => exists s, i_raw_loop txt fuel (CS cur line v ty i) = Ok s /\ lxeof txt s = true
  end.
Proof.
  induction fuel as [|f IH]; intros cur line v ty i Sx Lt; [lia|]. cbn [i_raw_loop]. rewrite (eof_CS txt), (c_CS txt). destruct cur as [|c r].
  - cbn [hd negb]. rewrite andb_false_r. eexists. split; [reflexivity|]. apply eof_CS.
  - cbn [hd negb eat_raw_loop]. rewrite andb_true_r. destruct (Z.eqb_spec c 96) as [->|N]; cbn [negb].
    + rewrite app_nil_r. split; [reflexivity|apply (sfx_tl _ _ Sx)].
    + set (l1 := if c =? 10 then line + 1 else line). rewrite (line_CS txt), (set_line_CS txt). replace (if c =? 10 then CS (c :: r) (line + 1) v ty i else CS (c :: r) line v ty i) with (CS (c :: r) l1 v ty i) by (unfold l1; destruct (c =? 10); reflexivity).
      rewrite (c_CS txt), (append_CS txt), (getchar_CS txt bytes) by exact (suffix_suf txt _ Sx). cbn [bind tl hd]. cbn [length] in Lt. specialize (IH r l1 (v ++ [c]) ty i (sfx_tl _ _ Sx) ltac:(lia)).
      destruct (eat_raw_loop r l1) as [[[t q] l]|]; [|exact IH]. destruct IH as (A & B). rewrite A. split; [rewrite <- app_assoc; reflexivity|exact B].
Qed.
Lemma raw_ok fuel c rest line ty : suffix rest -> (S (length rest) < fuel)%nat ->
  match eat_raw c rest line with
  | Some o => exists s, i_raw txt fuel (CS (c :: rest) line [] ty false) = Ok (true, s) /\ gives o s
  | None => i_raw txt fuel (CS (c :: rest) line [] ty false) = Ok (false, CS (c :: rest) line [] ty false)
  end.
Proof.
  intros Sx Lt. unfold eat_raw, i_raw. rewrite (c_CS txt). cbn [hd]. destruct (c =? 96); [|reflexivity]. rewrite (set_val_CS txt), (set_type_CS txt), (getchar_CS txt bytes) by exact Sx. cbn [bind tl].
  pose proof (raw_loop_ok fuel rest line [] T_STR false Sx ltac:(lia)) as A. destruct (eat_raw_loop rest line) as [[[t r] l]|].
  - destruct A as (-> & Sr). cbn [bind]. rewrite (eof_CS txt). eexists. split; [reflexivity|]. cbn [app]. split; [reflexivity|]. intros _. split; [reflexivity|]. split; [reflexivity|]. apply input_at; [exact Sr|discriminate].
  - destruct A as (s & -> & F). cbn [bind]. rewrite F. eexists. split; [reflexivity|]. apply gives_error. reflexivity.
Qed.

(** ** A token *)
Lemma gettok_ok fuel s rest o : input s rest -> (length rest + 3 <= fuel)%nat -> gettok (l_type s) rest (l_line s) = Some o ->
  exists s', i_gettok txt fuel s = Ok s' /\ gives o s'.
Proof.
  intros (Sx & P & Ex) Lf G. destruct s as [c p e line v ty i]. cbn [l_pos l_iseof l_type l_line] in *. subst p. unfold gettok in G. unfold i_gettok.
  change (set_interp (set_val (L c (pos_of rest) e line v ty i) []) false) with (L c (pos_of rest) e line [] ty false). rewrite (getchar_at txt bytes) by assumption. cbn [bind].
  pose proof (blank_ok txt bytes (length rest) rest fuel (S (length rest)) line ty (suffix_suf txt _ Sx) (le_n _) ltac:(lia)) as B.
  destruct (eat_blank (S (length rest)) ty rest line) as [o'|cur l|]; [| |discriminate G].
  { injection G as <-. destruct B as (s' & -> & Gv). cbn [bind fst snd]. exists s'. auto. }
  destruct B as (-> & Sc & Lc). cbn [bind fst snd]. rewrite (eof_CS txt). destruct cur as [|d r].
  { injection G as <-. eexists. split; [reflexivity|]. split; [reflexivity|]. intros _. split; [reflexivity|]. split; [reflexivity|]. apply input_at; [apply suffix_nil|reflexivity]. }
  injection G as <-. change (suffix r) in Sc. cbn [length] in Lc.
  pose proof (number_ok txt bytes fuel d r l ty Sc ltac:(lia)) as A. destruct (eat_number d r l) as [o|]; cbn [or_else].
  { destruct A as (s' & -> & Gv). exists s'. auto. } rewrite A. cbn [bind fst snd]. clear A.
  pose proof (id_ok txt bytes fuel d r l ty Sc ltac:(lia)) as A. destruct (eat_id ty d r l) as [o|]; cbn [or_else].
  { destruct A as (s' & -> & Gv). exists s'. auto. } rewrite A. cbn [bind fst snd]. clear A.
  pose proof (string_ok fuel d r l ty Sc ltac:(lia)) as A. destruct (eat_string d r l) as [o|]; cbn [or_else].
  { destruct A as (s' & -> & Gv). exists s'. auto. } rewrite A. cbn [bind fst snd]. clear A.
  pose proof (raw_ok fuel d r l ty Sc ltac:(lia)) as A. destruct (eat_raw d r l) as [o|]; cbn [or_else].
  { destruct A as (s' & -> & Gv). exists s'. auto. } rewrite A. cbn [bind fst snd]. clear A.
  pose proof (interp_ok fuel d r l ty Sc ltac:(lia)) as A. destruct (eat_interp d r l) as [o|]; cbn [or_else].
  { destruct A as (s' & -> & Gv). exists s'. auto. } rewrite A. cbn [bind fst snd]. clear A.
  destruct (op_ok txt bytes d r l Sc) as [_ A]. specialize (A ty). unfold decided in A. destruct (eat_op d r l) as [o|].
  { destruct A as (s' & -> & Gv). exists s'. auto. } destruct A as (s' & ->). cbn [bind fst snd]. eexists. split; [reflexivity|]. apply gives_error. reflexivity.
Qed.
End WithInput.
