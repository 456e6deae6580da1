(** * C66: files. *)
From Coq Require Import String.
From Verif Require Import Base Value Io Names.
Local Open Scope list_scope.
Definition txt (s : string) : arg := AVal (VStr (bytes_of s)).
Definition undef : arg := AVal VUndef.
Definition no_zero (x : list Z) : Prop := ~ In 0 x.

Lemma cstr_id x : no_zero x -> cstr x = x.
Proof. induction x as [|c r IH]; intros N; cbn [cstr]; [reflexivity|]. destruct (Z.eqb_spec c 0); [subst; destruct N; left; reflexivity|]. f_equal. apply IH. intros X. apply N. right. exact X. Qed.

(** C66. The modes of [open]: r, w, a, each with + or without, and no others. *)
Theorem C66_modes w name m : no_zero m ->
  let r := io_open w (AVal (VStr name)) (AVal (VStr m)) in
  if in_dec (list_eq_dec Z.eq_dec) m (map bytes_of ["r"; "w"; "a"; "r+"; "w+"; "a+"]%string) then exists x, r = Ok x else r = Err EValue.
Proof.
  intros N r. unfold r, io_open. rewrite (cstr_id _ N). destruct in_dec as [I|I].
  - cbn [map] in I. repeat (destruct I as [<-|I]; [cbn; destruct (disk w); eexists; reflexivity|]). destruct I.
  - destruct m as [|c [|d [|e m]]]; [reflexivity| | |].
    + cbn [length Z.of_nat Pos.of_succ_nat Z.ltb Z.compare Pos.compare Pos.compare_cont Z.eqb Pos.eqb orb andb bind nth].
      destruct (Z.eqb_spec c 114) as [->|]; [destruct I; cbn; auto|]. destruct (Z.eqb_spec c 119) as [->|]; [destruct I; cbn; auto|]. destruct (Z.eqb_spec c 97) as [->|]; [destruct I; cbn; auto|]. reflexivity.
    + cbn [length Z.of_nat Pos.of_succ_nat Pos.succ Z.ltb Z.compare Pos.compare Pos.compare_cont Z.eqb Pos.eqb orb andb bind nth].
      destruct (Z.eqb_spec d 43) as [->|]; [|reflexivity]. cbn [negb bind]. change (nth 0 [c; 43] 0) with c.
      destruct (Z.eqb_spec c 114) as [->|]; [destruct I; cbn; auto 8|]. destruct (Z.eqb_spec c 119) as [->|]; [destruct I; cbn; auto 8|]. destruct (Z.eqb_spec c 97) as [->|]; [destruct I; cbn; auto 8|]. reflexivity.
    + replace (2 <? Z.of_nat (length (c :: d :: e :: m))) with true by (symmetry; apply Z.ltb_lt; cbn [length]; lia). reflexivity.
Qed.
Print Assumptions C66_modes.
(** What they do: r keeps the content and needs the file to exist; w empties it; a keeps it and writes at the end; + allows reading and writing. *)
Theorem C66_open old h name : let o := fun m => io_open (Files old h) (AVal (VStr name)) m in
  let opened d r w a := Ok (Files (Some d) (Some (Stream d 0 r w a Nothing)), Some tt) in
  let content := match old with Some d => d | None => [] end in
  o undef = o (txt "r") /\
  (old = None -> o (txt "r") = Ok (Files old h, None) /\ o (txt "r+") = Ok (Files old h, None)) /\
  (old = Some content -> o (txt "r") = opened content true false false /\ o (txt "r+") = opened content true true false) /\
  o (txt "w") = opened [] false true false /\ o (txt "w+") = opened [] true true false /\
  o (txt "a") = opened content false true true /\ o (txt "a+") = opened content true true true.
Proof. cbv zeta. destruct old; repeat split; intros; try discriminate; reflexivity. Qed.
Print Assumptions C66_open.

(** [n] lines read one after another. *)
Fixpoint lines (fuel n : nat) (w : files) : outcome (list value) :=
  match n with O => Ok [] | S n' => do r <- io_read fuel w AFile undef; do l <- lines fuel n' (fst r); Ok (snd r :: l) end.
Definition readable (f : stream) : Prop := f_read f = true /\ f_last f <> Written /\ 0 <= f_pos f.
Definition unread (f : stream) : list Z := skipn (Z.to_nat (f_pos f)) (f_data f).

Lemma skip_nth (d : list Z) n c r : skipn n d = c :: r -> (n < length d)%nat /\ nth n d 0 = c /\ skipn (S n) d = r.
Proof. revert d. induction n as [|n IH]; intros d E; destruct d as [|x d]; cbn [skipn] in E; try discriminate; [injection E as <- <-; cbn; split; [lia|auto]|]. destruct (IH d E) as (A & B & C). cbn [length nth skipn] in *. split; [lia|]. split; [exact B|exact C]. Qed.
Lemma getc_some f c r : readable f -> unread f = c :: r -> exists f', c_fgetc f = Ok (Some c, f') /\ readable f' /\ unread f' = r /\ f_data f' = f_data f /\ f_pos f' = f_pos f + 1 /\ f_write f' = f_write f /\ f_append f' = f_append f.
Proof.
  intros (R & NW & P) U. unfold unread in U. destruct (skip_nth _ _ _ _ U) as (L & N & S'). exists (set_pos f (f_pos f + 1) (Read false)). unfold c_fgetc, f_len. rewrite R. cbn [negb].
  replace (f_pos f <? Z.of_nat (length (f_data f))) with true by (symmetry; apply Z.ltb_lt; lia). rewrite N.
  split; [destruct (f_last f); [reflexivity|reflexivity|congruence]|]. split; [split; [exact R|split; [discriminate|cbn; lia]]|]. split; [|cbn; auto].
  unfold unread. cbn [set_pos f_pos f_data]. replace (Z.to_nat (f_pos f + 1)) with (S (Z.to_nat (f_pos f))) by lia. exact S'.
Qed.
Lemma getc_none f : readable f -> unread f = [] -> exists f', c_fgetc f = Ok (None, f') /\ readable f' /\ unread f' = [] /\ f_data f' = f_data f.
Proof.
  intros (R & NW & P) U. exists (set_pos f (f_pos f) (Read true)). unfold c_fgetc, f_len. rewrite R. cbn [negb].
  replace (f_pos f <? Z.of_nat (length (f_data f))) with false; [|symmetry; apply Z.ltb_ge; unfold unread in U; pose proof (skipn_length (Z.to_nat (f_pos f)) (f_data f)) as Q; rewrite U in Q; cbn [length] in Q; lia].
  split; [destruct (f_last f); [reflexivity|reflexivity|congruence]|]. split; [split; [exact R|split; [discriminate|cbn; lia]]|]. split; [exact U|reflexivity].
Qed.
Lemma line_read : forall l fuel size buf f rest, readable f -> ~ In 10 l -> (rest = [] \/ exists r, rest = 10 :: r) -> unread f = l ++ rest -> (length l < fuel)%nat -> 0 < size -> Z.of_nat (length buf) <= size ->
  exists f', read_line fuel size buf f = Ok (rev buf ++ l, f') /\ readable f' /\ unread f' = tl rest /\ f_data f' = f_data f.
Proof.
  induction l as [|c l IH]; intros fuel size buf f rest R N Q U Lf Sz Lb; (destruct fuel as [|fuel]; [cbn in Lf; lia|]); cbn [read_line app] in *.
  - rewrite app_nil_r. destruct Q as [->|(r & ->)].
    + destruct (getc_none f R U) as (f' & E & R' & U' & D'). rewrite E. cbn [bind fst snd]. exists f'. auto.
    + destruct (getc_some f 10 r R U) as (f' & E & R' & U' & D' & _). rewrite E. cbn [bind fst snd]. change (10 =? 10) with true. cbn iota. exists f'. auto.
  - destruct (getc_some f c (l ++ rest) R U) as (f' & E & R' & U' & D' & _). rewrite E. cbn [bind fst snd]. destruct (Z.eqb_spec c 10) as [->|]; [destruct N; left; reflexivity|].
    set (size' := if Z.of_nat (length buf) =? size then size * 2 else size). assert (S' : 0 < size' /\ Z.of_nat (length buf) < size') by (unfold size'; destruct (Z.eqb_spec (Z.of_nat (length buf)) size); lia).
    replace (Z.of_nat (length buf) <? size') with true by (symmetry; apply Z.ltb_lt; lia).
    destruct (IH fuel size' (c :: buf) f' rest R' ltac:(intros X; apply N; right; exact X) Q U' ltac:(cbn [length] in Lf; lia) ltac:(lia) ltac:(cbn [length]; lia)) as (f2 & E2 & R2 & U2 & D2).
    exists f2. rewrite E2. cbn [rev]. rewrite <- app_assoc. cbn [app]. rewrite D2, D'. auto.
Qed.
Lemma read_lines_one fuel d f l rest : readable f -> ~ In 10 l -> (rest = [] \/ exists r, rest = 10 :: r) -> unread f = l ++ rest -> (length l < fuel)%nat ->
  exists f', io_read fuel (Files d (Some f)) AFile undef = Ok (Files d (Some f'), VStr l) /\ readable f' /\ unread f' = tl rest /\ f_data f' = f_data f.
Proof.
  intros R N Q U Lf. destruct (line_read l fuel 16 [] f rest R N Q U Lf ltac:(lia) ltac:(cbn; lia)) as (f' & E & R' & U' & D'). exists f'. split; [|auto].
  cbn [io_read undef bind checkfile handle]. change (108 =? 97) with false. change (108 =? 108) with true. cbn iota. rewrite E. reflexivity.
Qed.
(** Reading line by line gives the lines in order without their newlines, the rest after the last newline, and then empty strings, whatever the
    lengths of the lines. *)
Theorem C66_lines : forall ls last k fuel disk f, readable f -> (forall l, In l (last :: ls) -> ~ In 10 l /\ (length l < fuel)%nat) ->
  unread f = concat (map (fun l => l ++ [10]) ls) ++ last ->
  lines fuel (length ls + S k) (Files disk (Some f)) = Ok (map VStr (ls ++ last :: repeat [] k)).
Proof.
  induction ls as [|l ls IH]; intros last k fuel dk f R N U; cbn [length Nat.add map concat app] in *.
  - destruct (N last (or_introl eq_refl)) as (N1 & L1). clear N.
    assert (G : forall k f0 l0, readable f0 -> ~ In 10 l0 -> (length l0 < fuel)%nat -> unread f0 = l0 -> lines fuel (S k) (Files dk (Some f0)) = Ok (map VStr (l0 :: repeat [] k))).
    { clear - L1. induction k as [|k IH]; intros f0 l0 R N Ln U; destruct (read_lines_one fuel dk f0 l0 [] R N (or_introl eq_refl) ltac:(rewrite app_nil_r; exact U) Ln) as (f' & E & R' & U' & _).
      - cbn [lines]. rewrite E. cbn [bind fst snd]. reflexivity.
      - change (lines fuel (S (S k)) (Files dk (Some f0))) with (do r <- io_read fuel (Files dk (Some f0)) AFile undef; do l <- lines fuel (S k) (fst r); Ok (snd r :: l)). rewrite E. cbn [bind fst snd].
        rewrite (IH f' [] R' ltac:(intros []) ltac:(cbn; lia) U'). reflexivity. }
    apply G; assumption.
  - destruct (N l (or_intror (or_introl eq_refl))) as (N1 & L1). rewrite <- !app_assoc in U. cbn [app] in U.
    destruct (read_lines_one fuel dk f l _ R N1 (or_intror (ex_intro _ _ eq_refl)) U L1) as (f' & E & R' & U' & _). cbn [lines]. rewrite E. cbn [bind fst snd]. cbn [tl] in U'.
    rewrite (IH last k fuel dk f' R' ltac:(intros q [<-|H]; apply N; [left; reflexivity|right; right; exact H]) U'). reflexivity.
Qed.
Print Assumptions C66_lines.

Lemma fread_all : forall n f, readable f -> (n <= length (unread f))%nat -> exists f', c_fread n f = Ok (firstn n (unread f), f') /\ f_data f' = f_data f /\ f_pos f' = f_pos f + Z.of_nat n /\ readable f' /\ f_write f' = f_write f /\ f_append f' = f_append f.
Proof.
  induction n as [|n IH]; intros f R L; cbn [c_fread firstn]; [exists f; repeat split; try apply R; lia|]. destruct (unread f) as [|c r] eqn:U; [cbn in L; lia|].
  destruct (getc_some f c r R U) as (f1 & E & R1 & U1 & D1 & P1 & W1 & A1). rewrite E. cbn [bind fst snd]. destruct (IH f1 R1 ltac:(rewrite U1; cbn [length] in L; lia)) as (f2 & E2 & D2 & P2 & R2 & W2 & A2). rewrite E2, U1. cbn [bind fst snd].
  exists f2. rewrite D2, D1, W2, W1, A2, A1. repeat split; try apply R2. lia.
Qed.
(** Mode 'a' gives the whole content, from any position, after reading or writing, and leaves the position at its end. *)
Theorem C66_read_all fuel disk f : f_read f = true -> f_len f <= 9223372036854775807 ->
  exists l, io_read fuel (Files disk (Some f)) AFile (txt "a") = Ok (Files disk (Some (set_pos f (f_len f) l)), VStr (f_data f)) /\ l <> Written.
Proof.
  intros R L. unfold io_read, txt. change (cstr (bytes_of "a")) with [97]. cbv zeta. change (Z.of_nat (length [97]) =? 1) with true. cbn [nth bind checkfile handle]. change (97 =? 97) with true. cbn iota. unfold c_fseek.
  replace ((0 <=? 0 + f_len f) && (0 + f_len f <=? 9223372036854775807)) with true by (symmetry; unfold f_len in *; lia). cbn [snd set_pos f_pos].
  change ((0 <=? 0 + 0) && (0 + 0 <=? 9223372036854775807)) with true. cbn [snd].
  set (f2 := set_pos (set_pos f (0 + f_len f) Nothing) (0 + 0) Nothing). assert (R2 : readable f2) by (split; [exact R|split; [discriminate|cbn; lia]]).
  assert (U2 : unread f2 = f_data f) by reflexivity. change (0 + f_len f) with (f_len f).
  destruct (fread_all (Z.to_nat (f_len f)) f2 R2 ltac:(rewrite U2; unfold f_len; lia)) as (f3 & E & D & P & R3 & W3 & A3). rewrite E, U2. cbn [bind fst snd].
  assert (Q : firstn (Z.to_nat (f_len f)) (f_data f) = f_data f) by (unfold f_len; rewrite Nat2Z.id; apply firstn_all). rewrite Q.
  change (Z.of_nat (length (f_data f))) with (f_len f). rewrite Z.eqb_refl.
  assert (F3 : f3 = set_pos f (f_len f) (f_last f3)).
  { destruct f3 as [d p rr ww aa ll]. destruct R3 as (R3 & _). cbn [f_data f_pos f_read f_write f_append f_last set_pos f2] in *. unfold set_pos. cbn [f_last].
    rewrite R, R3. f_equal; [exact D|rewrite P; unfold f_len; cbn; lia|exact W3|exact A3]. }
  exists (f_last f3). split; [|apply R3]. rewrite F3 at 1. reflexivity.
Qed.
Print Assumptions C66_read_all.

Lemma nth_write (p : nat) (d x : list Z) i : let e := d ++ repeat 0 (p - length d) in
  nth i (firstn p e ++ x ++ skipn (p + length x) e) 0 = (if (i <? p)%nat then nth i d 0 else if (i <? p + length x)%nat then nth (i - p) x 0 else nth i d 0).
Proof.
  intros e. assert (Le : (p <= length e)%nat) by (unfold e; rewrite app_length, repeat_length; lia). assert (Lf : length (firstn p e) = p) by (rewrite firstn_length; lia).
  assert (Ne : forall j, nth j e 0 = nth j d 0). { intros j. unfold e. destruct (Nat.lt_ge_cases j (length d)); [rewrite app_nth1 by lia; reflexivity|]. rewrite app_nth2 by lia. rewrite nth_repeat, nth_overflow by lia. reflexivity. }
  destruct (Nat.ltb_spec i p).
  - rewrite app_nth1 by lia. rewrite <- Ne. rewrite <- (firstn_skipn p e) at 2. rewrite app_nth1 by lia. reflexivity.
  - rewrite app_nth2 by lia. rewrite Lf. destruct (Nat.ltb_spec i (p + length x)); [rewrite app_nth1 by lia; reflexivity|]. rewrite app_nth2 by lia. rewrite <- Ne.
    destruct (Nat.lt_ge_cases (p + length x) (length e)).
    + rewrite <- (firstn_skipn (p + length x) e) at 2. rewrite app_nth2; rewrite firstn_length; [|lia]. f_equal. lia.
    + rewrite skipn_all2 by lia. rewrite (nth_overflow e) by lia. destruct (i - p - length x)%nat; reflexivity.
Qed.
(** Writing puts exactly the bytes of the string at the position, or at the end in append mode, and gives their number; everything else stays,
    the file grows as needed, and the position is behind the bytes. *)
Theorem C66_write disk f x : f_write f = true -> f_last f <> Read false -> 0 <= f_pos f -> no_zero x ->
  let p := Z.to_nat (if f_append f then f_len f else f_pos f) in
  exists f', io_write (Files disk (Some f)) AFile (AVal (VStr x)) = Ok (Files disk (Some f'), VInt (Z.of_nat (length x))) /\
    (forall i, nth i (f_data f') 0 = if (i <? p)%nat then nth i (f_data f) 0 else if (i <? p + length x)%nat then nth (i - p) x 0 else nth i (f_data f) 0) /\
    length (f_data f') = Nat.max (length (f_data f)) (p + length x) /\ f_pos f' = Z.of_nat (p + length x) /\
    f_read f' = f_read f /\ f_write f' = true /\ f_append f' = f_append f.
Proof.
  intros W NR P NZ p. cbn [io_write checkfile handle bind]. rewrite (cstr_id _ NZ). unfold c_fwrite. rewrite W. cbn [negb]. fold p.
  eexists. split; [destruct (f_last f) as [|[]|]; try congruence; reflexivity|]. cbn [fst snd f_data f_pos f_read f_write f_append].
  split; [intros i; apply nth_write|]. split; [|auto]. rewrite !app_length, firstn_length, skipn_length, app_length, repeat_length. lia.
Qed.
Print Assumptions C66_write.
(** [seek] moves to the start, the position or the end plus the offset, if that is a possible position; otherwise it returns false and nothing
    changes. The content stays. *)
Theorem C66_seek disk f n : 
  let seek (whence : arg) (base : Z) := io_seek (Files disk (Some f)) AFile whence (AVal (VInt n)) =
    if (0 <=? base + n) && (base + n <? 2 ^ 63) then Ok (Files disk (Some (set_pos f (base + n) Nothing)), VBool true) else Ok (Files disk (Some f), VBool false) in
  seek undef 0 /\ seek (txt "set") 0 /\ seek (txt "cur") (f_pos f) /\ seek (txt "end") (f_len f).
Proof.
  assert (G : forall o b, b = match o with SeekSet => 0 | SeekCur => f_pos f | SeekEnd => f_len f end -> (let r := c_fseek f n o in Ok (with_stream (Files disk (Some f)) (snd r), VBool (fst r))) =
     if (0 <=? b + n) && (b + n <? 2 ^ 63) then Ok (Files disk (Some (set_pos f (b + n) Nothing)), VBool true) else Ok (Files disk (Some f), VBool false)).
  { intros o b ->. unfold c_fseek. rewrite (Z.add_comm n). set (q := _ + n). replace (q <? 2 ^ 63) with (q <=? 9223372036854775807) by lia. destruct ((0 <=? q) && (q <=? 9223372036854775807)); reflexivity. }
  split; [apply (G SeekSet 0 eq_refl)|]. split; [apply (G SeekSet 0 eq_refl)|]. split; [apply (G SeekCur _ eq_refl)|apply (G SeekEnd _ eq_refl)].
Qed.
Print Assumptions C66_seek.

Fixpoint write_all (w : files) (xs : list (list Z)) : outcome files :=
  match xs with [] => Ok w | x :: r => do q <- io_write w AFile (AVal (VStr x)); write_all (fst q) r end.
Lemma fwrite_end f x : f_write f = true -> f_last f <> Read false -> (f_append f = true \/ f_pos f = f_len f) ->
  c_fwrite f x = Ok (Z.of_nat (length x), Stream (f_data f ++ x) (Z.of_nat (length (f_data f ++ x))) (f_read f) true (f_append f) Written).
Proof.
  intros W NR E. assert (P : (if f_append f then f_len f else f_pos f) = f_len f) by (destruct E as [->| ->]; [|destruct (f_append f)]; reflexivity).
  unfold c_fwrite. rewrite W. cbn [negb]. rewrite P. unfold f_len. rewrite Nat2Z.id, Nat.sub_diag. cbn [repeat]. rewrite app_nil_r, firstn_all, skipn_all2, app_nil_r by lia. rewrite app_length.
  destruct (f_last f) as [|[]|]; [reflexivity|reflexivity|congruence|reflexivity].
Qed.
Lemma write_all_end dk : forall xs f, f_write f = true -> f_last f <> Read false -> (f_append f = true \/ f_pos f = f_len f) -> Forall no_zero xs ->
  exists f', write_all (Files dk (Some f)) xs = Ok (Files dk (Some f')) /\ f_data f' = f_data f ++ concat xs.
Proof.
  induction xs as [|x xs IH]; intros f W NR E N; cbn [write_all concat]; [exists f; rewrite app_nil_r; auto|]. inversion N as [|? ? N1 N2]; subst.
  cbn [io_write checkfile handle bind]. rewrite (cstr_id _ N1), (fwrite_end f x W NR E). cbn [bind fst snd with_stream disk].
  set (f1 := Stream _ _ _ _ _ _). destruct (IH f1 eq_refl ltac:(discriminate) ltac:(right; reflexivity) N2) as (f' & E' & D'). exists f'. rewrite app_assoc. auto.
Qed.
(** What was written to a file is what is read from it after it has been closed: w starts from nothing, a from what was there. *)
Theorem C66_round_trip fuel old name (append : bool) xs : Forall no_zero xs ->
  let start := if append then match old with Some d => d | None => [] end else [] in
  Z.of_nat (length (start ++ concat xs)) <= 9223372036854775807 ->
  exists w1 w2 w3 w4 w5, io_open (Files old None) (AVal (VStr name)) (txt (if append then "a" else "w")) = Ok (w1, Some tt) /\ write_all w1 xs = Ok w2 /\
    io_close w2 AFile = Ok (w3, VBool true) /\ io_open w3 (AVal (VStr name)) undef = Ok (w4, Some tt) /\ io_read fuel w4 AFile (txt "a") = Ok (w5, VStr (start ++ concat xs)).
Proof.
  intros N start L. set (f1 := Stream start 0 false true append Nothing).
  assert (E1 : io_open (Files old None) (AVal (VStr name)) (txt (if append then "a" else "w")) = Ok (Files (Some start) (Some f1), Some tt)) by (unfold f1, start; destruct append, old; reflexivity).
  assert (Q : f_append f1 = true \/ f_pos f1 = f_len f1) by (unfold f1, start; destruct append; [left|right]; reflexivity).
  destruct (write_all_end (Some start) xs f1 eq_refl ltac:(discriminate) Q N) as (f2 & E2 & D2). change (f_data f1) with start in D2.
  set (w4 := Files (Some (f_data f2)) (Some (Stream (f_data f2) 0 true false false Nothing))).
  destruct (C66_read_all fuel (Some (f_data f2)) (Stream (f_data f2) 0 true false false Nothing) eq_refl ltac:(unfold f_len; cbn [f_data]; rewrite D2; exact L)) as (l & E5 & _). cbn [f_data] in E5.
  eexists _, _, _, w4, _. split; [exact E1|]. split; [exact E2|]. split; [reflexivity|]. split; [reflexivity|]. rewrite <- D2. exact E5.
Qed.
Print Assumptions C66_round_trip.
(** Reading, positioning and flushing never change a content, whatever the arguments. *)
Lemma fgetc_keeps f r : c_fgetc f = Ok r -> f_data (snd r) = f_data f.
Proof. unfold c_fgetc. destruct (f_last f); try discriminate; (destruct (negb (f_read f)); [intros [= <-]; reflexivity|]; destruct (f_pos f <? f_len f); intros [= <-]; reflexivity). Qed.
Lemma fread_keeps : forall n f r, c_fread n f = Ok r -> f_data (snd r) = f_data f.
Proof.
  induction n as [|n IH]; intros f r; cbn [c_fread]; [intros [= <-]; reflexivity|]. destruct (c_fgetc f) as [[c f1]| | |] eqn:E; try discriminate. pose proof (fgetc_keeps _ _ E) as K. cbn [bind fst snd] in *.
  destruct c as [c|]; [|intros [= <-]; exact K]. destruct (c_fread n f1) as [q| | |] eqn:E2; try discriminate. cbn [bind]. intros [= <-]. cbn [snd]. rewrite (IH _ _ E2). exact K.
Qed.
Lemma read_line_keeps : forall fuel size buf f r, read_line fuel size buf f = Ok r -> f_data (snd r) = f_data f.
Proof.
  induction fuel as [|fuel IH]; intros size buf f r; cbn [read_line]; [discriminate|]. destruct (c_fgetc f) as [[c f1]| | |] eqn:E; try discriminate. pose proof (fgetc_keeps _ _ E) as K. cbn [bind fst snd] in *.
  destruct c as [c|]; [|intros [= <-]; exact K]. destruct (c =? 10); [intros [= <-]; exact K|]. match goal with |- (if ?b then _ else _) = _ -> _ => destruct b; [|discriminate] end. intros H. rewrite (IH _ _ _ _ H). exact K.
Qed.
Theorem C66_reads_keep fuel w file x y w' v : io_read fuel w file x = Ok (w', v) \/ io_seek w file x y = Ok (w', v) \/ io_flush w file = Ok (w', v) ->
  disk w' = disk w /\ exists f f', handle w = Some f /\ handle w' = Some f' /\ f_data f' = f_data f.
Proof.
  assert (C : forall o f, f_data (snd (c_fseek f (fst o) (snd o))) = f_data f) by (intros [n o] f; unfold c_fseek; cbn [fst snd]; match goal with |- context [if ?b then _ else _] => destruct b end; reflexivity).
  intros [H|[H|H]].
  - unfold io_read in H. match type of H with bind ?m _ = _ => destruct m as [m'| | |]; try discriminate H end. cbn [bind] in H.
    unfold checkfile in H. destruct file; [|discriminate H]. destruct (handle w) as [f|] eqn:Hf; [|discriminate H]. cbn [bind] in H. destruct (m' =? 97).
    + match type of H with bind ?m _ = _ => destruct m as [r| | |] eqn:E; try discriminate H end. cbn [bind] in H. match type of H with (if ?b then _ else _) = _ => destruct b; [|discriminate H] end. injection H as <- _. split; [reflexivity|]. exists f, (snd r). split; [reflexivity|]. split; [reflexivity|]. rewrite (fread_keeps _ _ _ E), (C (0, SeekSet)). apply (C (0, SeekEnd)).
    + destruct (m' =? 108); [|discriminate H]. match type of H with bind ?m _ = _ => destruct m as [r| | |] eqn:E; try discriminate H end. cbn [bind] in H. injection H as <- _. split; [reflexivity|]. exists f, (snd r). split; [reflexivity|]. split; [reflexivity|]. apply (read_line_keeps _ _ _ _ _ E).
  - unfold io_seek in H. match type of H with bind ?m _ = _ => destruct m as [n| | |]; try discriminate H end. cbn [bind] in H. match type of H with bind ?m _ = _ => destruct m as [o| | |]; try discriminate H end. cbn [bind] in H.
    unfold checkfile in H. destruct file; [|discriminate H]. destruct (handle w) as [f|] eqn:Hf; [|discriminate H]. cbn [bind] in H. injection H as <- _. split; [reflexivity|]. exists f, (snd (c_fseek f n o)). split; [reflexivity|]. split; [reflexivity|]. apply (C (n, o)).
  - unfold io_flush, checkfile in H. destruct file; [|discriminate H]. destruct (handle w) as [f|] eqn:Hf; [|discriminate H]. cbn [bind] in H. injection H as <- _. split; [reflexivity|]. exists f, (c_fflush f). split; [reflexivity|]. split; [reflexivity|]. unfold c_fflush. destruct (f_last f); reflexivity.
Qed.
Print Assumptions C66_reads_keep.
(** Wrong arguments are type errors; modes and origins that do not exist are value errors. *)
Theorem C66_arguments fuel w f v x n : handle w = Some f ->
  (io_read fuel w (AVal v) undef = Err EType /\ io_write w (AVal v) x = Err EType /\ io_seek w (AVal v) undef undef = Err EType /\ io_flush w (AVal v) = Err EType /\ io_close w (AVal v) = Err EType) /\
  ((forall s, v <> VStr s) -> io_write w AFile (AVal v) = Err EType /\ (v <> VUndef -> io_read fuel w AFile (AVal v) = Err EType /\ io_seek w AFile (AVal v) undef = Err EType /\ io_open w x (AVal v) = Err EType) /\ io_open w (AVal v) undef = Err EType) /\
  ((forall i, v <> VInt i) -> v <> VUndef -> io_seek w AFile x (AVal v) = Err EType) /\
  (forall s, no_zero s -> ~ In s (map bytes_of ["l"; "a"]%string) -> io_read fuel w AFile (AVal (VStr s)) = Err EValue) /\
  (forall s, no_zero s -> ~ In s (map bytes_of ["set"; "cur"; "end"]%string) -> io_seek w AFile (AVal (VStr s)) (AVal (VInt n)) = Err EValue).
Proof.
  intros Hf. split; [repeat split; destruct x as [|[]]; reflexivity|]. split; [|split; [|split]].
  - intros N. split; [unfold io_write, checkfile; rewrite Hf; cbn [bind]; destruct v; try reflexivity; exfalso; eapply N; reflexivity|].
    split; [intros U; repeat split; destruct v; try reflexivity; try (exfalso; eapply N; reflexivity); congruence|]. unfold io_open, undef. cbn [bind]. destruct v; try reflexivity. exfalso; eapply N; reflexivity.
  - intros N U. destruct v; try reflexivity; [congruence|exfalso; eapply N; reflexivity].
  - intros s Z0 N. unfold io_read. rewrite (cstr_id _ Z0). cbv zeta. destruct s as [|c [|d s]]; [reflexivity| |replace (Z.of_nat (length (c :: d :: s)) =? 1) with false by (symmetry; apply Z.eqb_neq; cbn [length]; lia); reflexivity].
    change (Z.of_nat (length [c]) =? 1) with true. cbn [nth bind]. unfold checkfile. rewrite Hf. cbn [bind]. destruct (Z.eqb_spec c 97) as [->|]; [destruct N; cbn; auto|]. destruct (Z.eqb_spec c 108) as [->|]; [destruct N; cbn; auto|]. reflexivity.
  - intros s Z0 N. unfold io_seek. cbn [bind]. rewrite (cstr_id _ Z0). cbv zeta. repeat match goal with |- context [list_eq_dec ?d ?a ?b] => destruct (list_eq_dec d a b) as [->|]; [destruct N; cbn; auto|] end. reflexivity.
Qed.
Print Assumptions C66_arguments.
(** Refuted by the code. A string with a zero byte is written only up to it (the number that is returned says so). *)
Theorem C66_zero_byte_refuted disk f x y : f_write f = true -> f_last f <> Read false -> no_zero x ->
  io_write (Files disk (Some f)) AFile (AVal (VStr (x ++ 0 :: y))) = io_write (Files disk (Some f)) AFile (AVal (VStr x)).
Proof.
  intros _ _ N. assert (E : cstr (x ++ 0 :: y) = x). { clear - N. induction x as [|c r IH]; [reflexivity|]. cbn [cstr app]. destruct (Z.eqb_spec c 0); [subst; destruct N; left; reflexivity|]. f_equal. apply IH. intros X. apply N. right. exact X. }
  cbn [io_write checkfile handle bind]. rewrite E, (cstr_id _ N). reflexivity.
Qed.
Print Assumptions C66_zero_byte_refuted.
(** Closing a file is undefined in the end: the file value closes it again when it is released. *)
Theorem C66_close_refuted disk f : exists w, io_close (Files disk (Some f)) AFile = Ok (w, VBool true) /\ file_release w = UB /\ io_close w AFile = UB.
Proof. eexists. split; [reflexivity|]. split; reflexivity. Qed.
Print Assumptions C66_close_refuted.
(** Reading a line directly after writing, or writing directly after reading one, is undefined; so is reading the content of a file that is only
    open for writing, unless it is empty: the string is uninitialised memory. *)
Theorem C66_mixing_refuted fuel disk f x c l : no_zero x -> 0 <= f_pos f -> f_last f = Nothing ->
  (f_write f = true -> exists w, io_write (Files disk (Some f)) AFile (AVal (VStr x)) = Ok (w, VInt (Z.of_nat (length x))) /\ io_read (S fuel) w AFile undef = UB) /\
  (f_read f = true -> unread f = c :: 10 :: l -> c <> 10 -> exists w, io_read (S (S fuel)) (Files disk (Some f)) AFile undef = Ok (w, VStr [c]) /\ io_write w AFile (AVal (VStr x)) = UB) /\
  (f_read f = false -> 0 < f_len f <= 9223372036854775807 -> io_read fuel (Files disk (Some f)) AFile (txt "a") = UB).
Proof.
  intros N P La. split; [|split].
  - intros W. cbn [io_write checkfile handle bind]. rewrite (cstr_id _ N). unfold c_fwrite. rewrite La, W. cbn [negb bind fst snd]. eexists. split; reflexivity.
  - intros R U C. assert (Rd : readable f) by (split; [exact R|rewrite La; split; [discriminate|exact P]]).
    destruct (getc_some f c (10 :: l) Rd U) as (f1 & E1 & R1 & U1 & _). destruct (getc_some f1 10 l R1 U1) as (f2 & E2 & R2 & U2 & _).
    assert (L2 : f_last f2 = Read false) by (unfold c_fgetc in E2; destruct (f_last f1); try discriminate E2; destruct (negb (f_read f1)); try discriminate E2; destruct (f_pos f1 <? f_len f1); try discriminate E2; injection E2 as _ <-; reflexivity).
    cbn [io_read undef bind checkfile handle]. change (108 =? 97) with false. change (108 =? 108) with true. cbn iota. cbn [read_line]. rewrite E1. cbn [bind fst snd]. destruct (Z.eqb_spec c 10); [congruence|]. cbn [length Z.of_nat]. change (0 =? 16) with false. change (0 <? 16) with true. cbn iota. rewrite E2. cbn [bind fst snd]. change (10 =? 10) with true. cbn iota. cbn [bind fst snd].
    eexists. split; [reflexivity|]. unfold io_write, checkfile, with_stream. cbn [handle bind fst snd]. unfold c_fwrite. rewrite L2. reflexivity.
  - intros R L. unfold io_read, txt. change (cstr (bytes_of "a")) with [97]. cbv zeta. change (Z.of_nat (length [97]) =? 1) with true. cbn [nth bind checkfile handle]. change (97 =? 97) with true. cbn iota. unfold c_fseek.
    replace ((0 <=? 0 + f_len f) && (0 + f_len f <=? 9223372036854775807)) with true by (symmetry; unfold f_len in *; lia). cbn [snd set_pos f_pos].
    change ((0 <=? 0 + 0) && (0 + 0 <=? 9223372036854775807)) with true. cbn [snd].
    destruct (Z.to_nat (0 + f_len f)) as [|n] eqn:En; [lia|]. cbn [c_fread]. unfold c_fgetc. cbn [f_last set_pos f_read]. rewrite R. cbn [negb bind fst snd length Z.of_nat].
    destruct (Z.eqb_spec 0 (0 + f_len f)); [lia|reflexivity].
Qed.
Print Assumptions C66_mixing_refuted.
(** The end of the file cannot be told from an empty line. *)
Theorem C66_end_refuted fuel : let read d := do r <- io_read (S fuel) (Files (Some d) (Some (Stream d 0 true false false Nothing))) AFile undef; Ok (snd r) in
  read [] = Ok (VStr []) /\ read [10] = Ok (VStr []).
Proof. split; reflexivity. Qed.
Print Assumptions C66_end_refuted.
(** A file of three lines, the last without a newline, one longer than the buffer; opened, written in append mode and read again. *)
Example C66_nonvacuous : let d := bytes_of "ab" ++ [10; 10] ++ bytes_of "0123456789abcdefghij" in
  let f := Stream d 0 true false false Nothing in
  readable f /\ unread f = concat (map (fun l => l ++ [10]) [bytes_of "ab"; []]) ++ bytes_of "0123456789abcdefghij" /\
  lines 30 4 (Files (Some d) (Some f)) = Ok [VStr (bytes_of "ab"); VStr []; VStr (bytes_of "0123456789abcdefghij"); VStr []] /\
  (exists w1 w2 w3, io_open (Files (Some d) None) (txt "x") (txt "a") = Ok (w1, Some tt) /\ write_all w1 [bytes_of "1"; bytes_of "23"] = Ok w2 /\ io_close w2 AFile = Ok (w3, VBool true) /\ disk w3 = Some (d ++ bytes_of "123")).
Proof. split; [repeat split; discriminate|]. split; [reflexivity|]. split; [vm_compute; reflexivity|]. eexists _, _, _. split; [reflexivity|]. split; [reflexivity|]. split; reflexivity. Qed.
