(** * Proofs about strings. *)
From Verif Require Import Base Value ListFacts Lists ListSpec Strings StrSpec.
Local Open Scope nat_scope.

Definition swf (s : ystr) : Prop := s_start s <= s_end s <= length (s_buf s) /\ (s_heap s = true -> s_start s = 0).
Lemma made_swf s : made_str s -> swf s.
Proof.
  induction 1 as [bs|bs|s a b s' _ IH H]; unfold swf; cbn; try lia.
  unfold new_substring in H. destruct (Z.leb_spec 0 a), (Z.leb_spec a b), (Z.leb_spec b (Z.of_nat (length (s_buf s)))); try discriminate. cbn [andb] in H.
  destruct (s_heap s) eqn:E; injection H as <-; cbn.
  - rewrite firstn_length, skipn_length. split; [lia|reflexivity].
  - split; [lia|discriminate].
Qed.
Lemma chars_length s : swf s -> length (chars s) = str_len s.
Proof. intros (H & _). unfold chars, str_len. rewrite firstn_length, skipn_length. lia. Qed.
Lemma sub_spec s a b : (Z.of_nat (s_start s) <= a)%Z -> (a <= b)%Z -> (b <= Z.of_nat (s_end s))%Z -> swf s ->
  exists s', new_substring a b s = Ok s' /\ swf s' /\
   chars s' = firstn (Z.to_nat b - Z.to_nat a) (skipn (Z.to_nat a - s_start s) (chars s)).
Proof.
  intros A B C (W & Wh). unfold new_substring.
  destruct (Z.leb_spec 0 a), (Z.leb_spec a b), (Z.leb_spec b (Z.of_nat (length (s_buf s)))); try lia. cbn [andb].
  assert (X : firstn (Z.to_nat b - Z.to_nat a) (skipn (Z.to_nat a) (s_buf s)) = firstn (Z.to_nat b - Z.to_nat a) (skipn (Z.to_nat a - s_start s) (chars s))).
  { unfold chars. rewrite skipn_firstn_comm. rewrite skipn_skipn. rewrite firstn_firstn. f_equal; [lia|f_equal; lia]. }
  destruct (s_heap s) eqn:E; eexists; (split; [reflexivity|]); (split; [unfold swf; cbn; rewrite ?firstn_length, ?skipn_length; split; [lia|(discriminate || reflexivity)]|]); rewrite <- X; unfold chars; cbn.
  - rewrite Nat.sub_0_r. rewrite firstn_all2; [reflexivity|]. rewrite firstn_length. lia.
  - reflexivity.
Qed.
Lemma piece_spec h a b : swf h -> a <= b -> b <= str_len h ->
  exists p, piece h a b = Ok p /\ swf p /\ chars p = firstn (b - a) (skipn a (chars h)).
Proof.
  intros W A B. unfold piece. unfold str_len in B. pose proof W as (W1 & _).
  destruct (sub_spec h (Z.of_nat (s_start h + a)) (Z.of_nat (s_start h + b))) as (p & E & Wp & C); try lia; [exact W|].
  exists p. repeat split; try assumption; try apply Wp. rewrite C. f_equal; [lia|f_equal; lia].
Qed.
Lemma piece_bad h a b : swf h -> b < a -> piece h a b = UB.
Proof. intros W A. unfold piece, new_substring. destruct (Z.leb_spec (Z.of_nat (s_start h + a)) (Z.of_nat (s_start h + b))); [lia|]. rewrite andb_false_r. reflexivity. Qed.

(** Occurrences as prefixes of what is left. *)
Lemma eqb_prefix nd t : list_eqb (firstn (length nd) t) nd = true <-> prefix nd t.
Proof.
  unfold list_eqb. destruct (list_eq_dec Z.eq_dec (firstn (length nd) t) nd) as [E|E].
  - split; [intros _|reflexivity]. exists (skipn (length nd) t). rewrite <- E at 1. symmetry. apply firstn_skipn.
  - split; [discriminate|]. intros (b & ->). rewrite firstn_app, firstn_all, Nat.sub_diag, firstn_O, app_nil_r in E. congruence.
Qed.
Lemma prefix_length nd t : prefix nd t -> length nd <= length t.
Proof. intros (b & ->). rewrite app_length. lia. Qed.
Definition prefixb (nd t : list Z) : bool := list_eqb (firstn (length nd) t) nd.
Lemma prefixb_spec nd t : prefixb nd t = true <-> prefix nd t. Proof. apply eqb_prefix. Qed.
Lemma prefixb_false nd t : prefixb nd t = false <-> ~ prefix nd t.
Proof. rewrite <- not_true_iff_false, prefixb_spec. reflexivity. Qed.
Lemma match_at_ok h nd i : i + length nd <= length h -> match_at h nd i = Ok (prefixb nd (skipn i h)).
Proof. intros H. unfold match_at. destruct (Nat.leb_spec (i + length nd) (length h)); [reflexivity|lia]. Qed.
Lemma occurs_prefix h nd i : i <= length h -> occurs_at h nd i <-> prefix nd (skipn i h).
Proof.
  intros L. split.
  - intros (a & b & -> & <-). exists b. rewrite skipn_app, skipn_all, Nat.sub_diag. reflexivity.
  - intros (b & E). exists (firstn i h), b. split; [rewrite <- E; symmetry; apply firstn_skipn|rewrite firstn_length; lia].
Qed.
Lemma skipn_add_prefix (nd h : list Z) i b : skipn i h = nd ++ b -> skipn (i + length nd) h = b.
Proof. intros E. rewrite Nat.add_comm, <- skipn_skipn, E, skipn_app, skipn_all, Nat.sub_diag. reflexivity. Qed.
Lemma skipn_cons (h : list Z) i : i < length h -> exists c, nth_error h i = Some c /\ skipn i h = c :: skipn (S i) h.
Proof.
  revert i. induction h as [|x h IH]; intros i H; cbn [length] in H; [lia|]. destruct i as [|i]; [exists x; auto|].
  destruct (IH i) as (c & A & B); [lia|]. exists c. cbn. auto.
Qed.

(** ** search *)
Lemma find_loop_ok h nd : length nd <= length h -> forall fuel i, length h - length nd + 1 < i + fuel -> i <= S (length h - length nd) ->
  (forall j, j < i -> ~ occurs_at h nd j) ->
  exists r, find_loop fuel h nd i = Ok r /\
   ((exists k, r = Z.of_nat k /\ occurs_at h nd k /\ forall j, j < k -> ~ occurs_at h nd j) \/ (r = (-1)%Z /\ forall j, ~ occurs_at h nd j)).
Proof.
  intros L. induction fuel as [|fuel IH]; intros i F I N; [lia|].
  cbn [find_loop]. destruct (Nat.leb_spec i (length h - length nd)) as [H|H].
  - rewrite match_at_ok by lia. cbn [bind]. destruct (prefixb nd (skipn i h)) eqn:E.
    + apply prefixb_spec in E. eexists. split; [reflexivity|]. left. exists i. repeat split; try assumption. apply occurs_prefix; [lia|exact E].
    + apply prefixb_false in E. apply (IH (S i)); [lia|lia|].
      intros j J. destruct (Nat.eq_dec j i) as [->|]; [rewrite occurs_prefix by lia; exact E|apply N; lia].
  - eexists. split; [reflexivity|]. right. split; [reflexivity|]. intros j O'. destruct O' as (a & b & E & La).
    assert (j <= length h - length nd) by (rewrite E, !app_length; lia). apply (N j); [lia|]. exists a, b. auto.
Qed.

(** ** prefixes and suffixes byte by byte *)
Lemma char_at_ok (h : list Z) i c : nth_error h i = Some c -> char_at h i = Ok c.
Proof. unfold char_at. intros ->. reflexivity. Qed.
Lemma cmp_loop_ok a b : forall n i j, i + n <= length a -> j + n <= length b ->
  exists r, cmp_loop a b i j n = Ok r /\ (r = true <-> firstn n (skipn i a) = firstn n (skipn j b)).
Proof.
  induction n as [|n IH]; intros i j A B; cbn [cmp_loop].
  - exists true. cbn. split; [reflexivity|split; reflexivity].
  - destruct (skipn_cons a i) as (x & X1 & X2); [lia|]. destruct (skipn_cons b j) as (y & Y1 & Y2); [lia|].
    rewrite (char_at_ok _ _ _ X1), (char_at_ok _ _ _ Y1). cbn [bind]. rewrite X2, Y2. cbn [firstn].
    destruct (Z.eqb_spec x y) as [->|Nxy].
    + destruct (IH (S i) (S j)) as (r & E & R); [lia|lia|]. exists r. split; [exact E|]. rewrite R. split; [intros ->; reflexivity|intros H; injection H; auto].
    + exists false. split; [reflexivity|]. split; [discriminate|]. intros H. injection H. intros. congruence.
Qed.
Lemma startswith_ok h nd : swf h -> swf nd -> exists r, str_startswith h nd = Ok r /\ (r = true <-> prefix (chars nd) (chars h)).
Proof.
  intros Wh Wn. pose proof (chars_length _ Wh) as Lh. pose proof (chars_length _ Wn) as Ln. unfold str_startswith.
  destruct (Nat.ltb_spec (str_len h) (str_len nd)).
  - exists false. split; [reflexivity|]. split; [discriminate|]. intros P. apply prefix_length in P. lia.
  - destruct (cmp_loop_ok (chars h) (chars nd) (str_len nd) 0 0) as (r & E & R); [lia|lia|]. exists r. split; [exact E|]. rewrite R. cbn [skipn].
    rewrite <- Ln, firstn_all. split.
    + intros Q. exists (skipn (length (chars nd)) (chars h)). rewrite <- Q at 1. symmetry. apply firstn_skipn.
    + intros (b & ->). rewrite firstn_app, firstn_all, Nat.sub_diag, firstn_O, app_nil_r. reflexivity.
Qed.
Lemma endswith_ok h nd : swf h -> swf nd -> exists r, str_endswith h nd = Ok r /\ (r = true <-> suffix (chars nd) (chars h)).
Proof.
  intros Wh Wn. pose proof (chars_length _ Wh) as Lh. pose proof (chars_length _ Wn) as Ln. unfold str_endswith.
  destruct (Nat.ltb_spec (str_len h) (str_len nd)).
  - exists false. split; [reflexivity|]. split; [discriminate|]. intros (a & E). rewrite E, app_length in Lh. lia.
  - destruct (cmp_loop_ok (chars h) (chars nd) (str_len nd) (str_len h - str_len nd) 0) as (r & E & R); [lia|lia|]. exists r. split; [exact E|]. rewrite R. cbn [skipn].
    rewrite <- Ln, <- Lh, firstn_all. rewrite firstn_all2 by (rewrite skipn_length; lia). split.
    + intros Q. exists (firstn (length (chars h) - length (chars nd)) (chars h)). rewrite <- (firstn_skipn (length (chars h) - length (chars nd)) (chars h)) at 1. rewrite Q. reflexivity.
    + intros (a & E'). rewrite E', app_length. replace (length a + length (chars nd) - length (chars nd)) with (length a) by lia.
      rewrite skipn_app, skipn_all, Nat.sub_diag. reflexivity.
Qed.

(** ** count and replace *)
Lemma scans_short nd b t : nd <> [] -> length t < length nd -> scans nd b t 0 t.
Proof.
  intros N. induction t as [|x t IH]; intros L; [constructor|]. apply sc_skip.
  - intros P. apply prefix_length in P. lia.
  - apply IH. cbn [length] in L. lia.
Qed.
Lemma count_loop_ok h nd b : nd <> [] -> forall fuel i c, length h < i + fuel -> i <= length h ->
  exists k r, count_loop fuel h nd i c = Ok (c + k)%Z /\ scans nd b (skipn i h) k r.
Proof.
  intros N. assert (0 < length nd) by (destruct nd; [congruence|cbn [length]; lia]).
  induction fuel as [|fuel IH]; intros i c F L; [lia|]. cbn [count_loop].
  destruct (Nat.leb_spec (i + length nd) (length h)) as [H1|H1].
  - rewrite match_at_ok by lia. cbn [bind]. destruct (prefixb nd (skipn i h)) eqn:E.
    + apply prefixb_spec in E. destruct E as (t & E). destruct (IH (i + length nd) (c + 1)%Z) as (k & r & A & B); [lia|lia|].
      exists (k + 1)%Z, (b ++ r). split; [rewrite A; f_equal; lia|]. rewrite (skipn_add_prefix _ _ _ _ E) in B. rewrite E. apply sc_hit, B.
    + apply prefixb_false in E. destruct (IH (S i) c) as (k & r & A & B); [lia|lia|]. destruct (skipn_cons h i) as (x & X1 & X2); [lia|].
      exists k, (x :: r). split; [exact A|]. rewrite X2 in *. apply sc_skip; assumption.
  - exists 0%Z, (skipn i h). split; [f_equal; lia|]. apply scans_short; [exact N|]. rewrite skipn_length. lia.
Qed.
Lemma replace_loop_ok h nd b : nd <> [] -> forall fuel i out, length h < i + fuel -> i <= length h ->
  exists k r, replace_loop fuel h nd b i out = Ok (out ++ r) /\ scans nd b (skipn i h) k r.
Proof.
  intros N. assert (0 < length nd) by (destruct nd; [congruence|cbn [length]; lia]).
  induction fuel as [|fuel IH]; intros i out F L; [lia|]. cbn [replace_loop].
  destruct (Nat.ltb_spec i (length h)) as [H1|H1].
  - destruct (skipn_cons h i) as (x & X1 & X2); [lia|].
    assert (SK : ~ prefix nd (skipn i h) -> exists k r, (do c <- char_at h i; replace_loop fuel h nd b (S i) (out ++ [c])) = Ok (out ++ r) /\ scans nd b (skipn i h) k r).
    { intros E. rewrite (char_at_ok _ _ _ X1). cbn [bind]. destruct (IH (S i) (out ++ [x])) as (k & r & A & B); [lia|lia|].
      exists k, (x :: r). split; [rewrite A, <- app_assoc; reflexivity|]. rewrite X2 in *. apply sc_skip; assumption. }
    destruct (Nat.leb_spec (length nd) (length h - i)).
    + rewrite match_at_ok by lia. cbn [bind]. destruct (prefixb nd (skipn i h)) eqn:E.
      * apply prefixb_spec in E. destruct E as (t & E). destruct (IH (i + length nd) (out ++ b)) as (k & r & A & B); [lia| |].
        { pose proof (f_equal (@length Z) E) as LE. rewrite app_length, skipn_length in LE. lia. }
        exists (k + 1)%Z, (b ++ r). split; [rewrite A, <- app_assoc; reflexivity|]. rewrite (skipn_add_prefix _ _ _ _ E) in B. rewrite E. apply sc_hit, B.
      * apply SK. apply prefixb_false, E.
    + cbn [bind]. apply SK. intros P. apply prefix_length in P. rewrite skipn_length in P. lia.
  - exists 0%Z, []. split; [rewrite app_nil_r; reflexivity|]. rewrite skipn_all2 by lia. constructor.
Qed.
(** With a limit at least as large as the number of bytes left the limited loop is the unlimited one; with a limit
    that is not positive nothing is replaced. *)
Lemma replace_max_big h nd b : nd <> [] -> forall fuel i out max, (Z.of_nat (length h) - Z.of_nat i <= max)%Z ->
  replace_max_loop fuel h nd b max i out = replace_loop fuel h nd b i out.
Proof.
  intros N. assert (0 < length nd) by (destruct nd; [congruence|cbn [length]; lia]).
  induction fuel as [|fuel IH]; intros i out max M; [reflexivity|]. cbn [replace_loop replace_max_loop].
  destruct (Nat.ltb_spec i (length h)); [|reflexivity].
  destruct (if length nd <=? length h - i then match_at h nd i else Ok false) as [m| | |]; try reflexivity. cbn [bind].
  destruct (Z.ltb_spec 0 max); [|lia]. rewrite andb_true_r. destruct m; [apply IH; lia|].
  destruct (char_at h i); try reflexivity. cbn [bind]. apply IH. lia.
Qed.
Lemma replace_max_zero h nd b : forall fuel i out max, (max <= 0)%Z -> length h < i + fuel -> i <= length h ->
  replace_max_loop fuel h nd b max i out = Ok (out ++ skipn i h).
Proof.
  induction fuel as [|fuel IH]; intros i out max M F L; [lia|]. cbn [replace_max_loop].
  destruct (Nat.ltb_spec i (length h)) as [H1|H1].
  - destruct (skipn_cons h i) as (x & X1 & X2); [lia|].
    assert (D : exists m, (if length nd <=? length h - i then match_at h nd i else Ok false) = Ok m).
    { destruct (Nat.leb_spec (length nd) (length h - i)); [|eexists; reflexivity]. rewrite match_at_ok by lia. eexists; reflexivity. }
    destruct D as (m & ->). cbn [bind]. destruct (Z.ltb_spec 0 max); [lia|]. rewrite andb_false_r. rewrite (char_at_ok _ _ _ X1). cbn [bind].
    rewrite IH by lia. rewrite X2, <- app_assoc. reflexivity.
  - rewrite skipn_all2 by lia. rewrite app_nil_r. reflexivity.
Qed.

(** ** trims *)
Lemma copies_S n nd : copies (S n) nd = nd ++ copies n nd. Proof. reflexivity. Qed.
Lemma copies_snoc n nd : copies (S n) nd = copies n nd ++ nd.
Proof. unfold copies. rewrite <- (app_nil_r nd) at 3. induction n as [|n IH]; cbn; [rewrite app_nil_r; reflexivity|]. cbn in IH. rewrite IH at 1. rewrite <- !app_assoc. reflexivity. Qed.
Lemma ltrim_loop_ok h nd : nd <> [] -> forall fuel start, length h < start + fuel -> start <= length h ->
  exists a n, ltrim_loop fuel h nd start = Ok a /\ start <= a <= length h /\ skipn start h = copies n nd ++ skipn a h /\ a = start + n * length nd /\ ~ prefix nd (skipn a h).
Proof.
  intros N. assert (0 < length nd) by (destruct nd; [congruence|cbn [length]; lia]).
  induction fuel as [|fuel IH]; intros start F L; [lia|]. cbn [ltrim_loop].
  destruct (Nat.leb_spec (length nd) (length h - start)) as [H1|H1].
  - rewrite match_at_ok by lia. cbn [bind]. destruct (prefixb nd (skipn start h)) eqn:E.
    + apply prefixb_spec in E. destruct E as (t & E). destruct (IH (start + length nd)) as (a & n & A & B & C & D & G); [lia|lia|].
      exists a, (S n). repeat split; [exact A|lia|lia| |cbn; lia|exact G]. rewrite copies_S, <- app_assoc, <- C. rewrite (skipn_add_prefix _ _ _ _ E). exact E.
    + apply prefixb_false in E. exists start, 0. repeat split; try lia; assumption.
  - exists start, 0. repeat split; try lia. intros P. apply prefix_length in P. rewrite skipn_length in P. lia.
Qed.
Lemma firstn_prefix_rev nd h e : length nd <= e -> e <= length h ->
  prefixb nd (skipn (e - length nd) h) = true <-> firstn e h = firstn (e - length nd) h ++ nd.
Proof.
  intros A B. unfold prefixb, list_eqb. destruct (list_eq_dec Z.eq_dec _ nd) as [E|E]; (split; [try discriminate; intros _|try reflexivity; intros X]).
  - rewrite <- E at 2. rewrite <- (firstn_skipn (e - length nd) (firstn e h)) at 1. f_equal.
    + rewrite firstn_firstn. f_equal. lia.
    + rewrite firstn_skipn_comm'. f_equal. f_equal. lia.
  - exfalso. apply E. rewrite firstn_skipn_comm'. replace (e - length nd + length nd) with e by lia. rewrite X.
    rewrite skipn_app, skipn_all2 by (rewrite firstn_length; lia). rewrite firstn_length, Nat.min_l by lia. rewrite Nat.sub_diag. reflexivity.
Qed.
Lemma rtrim_loop_ok h nd : nd <> [] -> forall fuel e, e < fuel -> e <= length h ->
  exists b n, rtrim_loop fuel h nd e = Ok b /\ b <= e /\ firstn e h = firstn b h ++ copies n nd /\ e = b + n * length nd /\ ~ suffix nd (firstn b h).
Proof.
  intros N. assert (0 < length nd) by (destruct nd; [congruence|cbn [length]; lia]).
  induction fuel as [|fuel IH]; intros e F L; [lia|]. cbn [rtrim_loop].
  destruct (Nat.leb_spec (length nd) e) as [H1|H1].
  - rewrite match_at_ok by lia. cbn [bind]. destruct (prefixb nd (skipn (e - length nd) h)) eqn:E.
    + apply (firstn_prefix_rev nd h e H1 L) in E. destruct (IH (e - length nd)) as (b & n & A & B & C & D & G); [lia|lia|].
      exists b, (S n). repeat split; [exact A|lia| |cbn; lia|exact G]. rewrite E, C, copies_snoc, app_assoc. reflexivity.
    + exists e, 0. repeat split; try lia; [unfold copies; cbn; rewrite app_nil_r; reflexivity|].
      intros (a & X). assert (prefixb nd (skipn (e - length nd) h) = true); [|congruence]. apply (firstn_prefix_rev nd h e H1 L). rewrite X at 1.
      f_equal. assert (La : length a = e - length nd). { pose proof (f_equal (@length Z) X) as LX. rewrite firstn_length, app_length in LX. lia. }
      rewrite <- La. rewrite <- (firstn_firstn h (length a) e) || idtac. replace (firstn (length a) h) with (firstn (length a) (firstn e h)) by (rewrite firstn_firstn; f_equal; lia).
      rewrite X, firstn_app, firstn_all, Nat.sub_diag, firstn_O, app_nil_r. reflexivity.
  - exists e, 0. repeat split; try lia; [unfold copies; cbn; rewrite app_nil_r; reflexivity|].
    intros (a & X). pose proof (f_equal (@length Z) X) as LX. rewrite firstn_length, app_length in LX. lia.
Qed.
Lemma ltrim_ws_ok h : forall fuel start, length h < start + fuel -> start <= length h ->
  exists a, ltrim_ws_loop fuel h start = Ok a /\ start <= a <= length h /\ white (firstn (a - start) (skipn start h)) /\
    match skipn a h with c :: _ => is_ws c = false | [] => True end.
Proof.
  induction fuel as [|fuel IH]; intros start F L; [lia|]. cbn [ltrim_ws_loop].
  destruct (Nat.leb_spec 1 (length h - start)) as [H1|H1].
  - destruct (skipn_cons h start) as (c & C1 & C2); [lia|]. rewrite (char_at_ok _ _ _ C1). cbn [bind]. destruct (is_ws c) eqn:E.
    + destruct (IH (S start)) as (a & A & B & D & G); [lia|lia|]. exists a. repeat split; [exact A|lia|lia| |exact G].
      rewrite C2. replace (a - start) with (S (a - S start)) by lia. constructor; assumption.
    + exists start. repeat split; try lia; [rewrite Nat.sub_diag; constructor|]. rewrite C2. exact E.
  - exists start. repeat split; try lia; [rewrite Nat.sub_diag; constructor|]. rewrite skipn_all2 by lia. exact I.
Qed.
Lemma rtrim_ws_ok h : forall e, e <= length h ->
  exists b, rtrim_ws_loop h e = Ok b /\ b <= e /\ white (skipn b (firstn e h)) /\ (forall c a, firstn b h = a ++ [c] -> is_ws c = false).
Proof.
  induction e as [|e IH]; intros L; cbn [rtrim_ws_loop].
  - exists 0. repeat split; [lia|constructor|]. intros c a X. destruct a; discriminate.
  - destruct (skipn_cons h e) as (c & C1 & C2); [lia|]. rewrite (char_at_ok _ _ _ C1). cbn [bind].
    assert (FS : firstn (S e) h = firstn e h ++ [c]).
    { rewrite <- (firstn_skipn e (firstn (S e) h)). f_equal; [rewrite firstn_firstn; f_equal; lia|]. replace (S e) with (e + 1) by lia. rewrite <- firstn_skipn_comm', C2. reflexivity. }
    destruct (is_ws c) eqn:E.
    + destruct (IH ltac:(lia)) as (b & A & B & D & G). exists b. repeat split; [exact A|lia| |exact G].
      rewrite FS, skipn_app. replace (b - length (firstn e h)) with 0 by (rewrite firstn_length; lia). apply Forall_app. split; [exact D|constructor; [exact E|constructor]].
    + exists (S e). repeat split; [lia|rewrite skipn_all2 by (rewrite firstn_length; lia); constructor|]. intros d a X. rewrite FS in X. apply app_inj_tail in X. destruct X as (_ & <-). exact E.
Qed.

(** ** split *)
Lemma split_loop_ok h nd : swf h -> nd <> [] -> forall fuel start e, start <= e <= str_len h -> str_len h < e + fuel ->
  (forall i, i + length nd <= e - start -> ~ occurs_at (firstn (e - start) (skipn start (chars h))) nd i) ->
  (forall i, start <= i < e -> ~ prefix nd (skipn i (chars h))) ->
  exists ps lost, split_loop fuel h nd start e = Ok ps /\ Forall swf ps /\
    skipn start (chars h) = joined nd (map chars ps) ++ lost /\ length lost < length nd /\ ps <> [] /\
    (forall p, In p ps -> forall i, ~ occurs_at (chars p) nd i).
Proof.
  intros W N. assert (LN : 0 < length nd) by (destruct nd; [congruence|cbn [length]; lia]). pose proof (chars_length _ W) as LC.
  induction fuel as [|fuel IH]; intros start e SE F NO NP; [lia|]. cbn [split_loop].
  assert (NOP : forall i, ~ occurs_at (firstn (e - start) (skipn start (chars h))) nd i).
  { intros i OC. apply (NO i); [|exact OC]. destruct OC as (a & b & E & La). pose proof (f_equal (@length Z) E) as LE.
    rewrite firstn_length, skipn_length, !app_length in LE. lia. }
  destruct (Nat.leb_spec (e + length nd) (str_len h)) as [H1|H1].
  - rewrite match_at_ok by lia. cbn [bind]. destruct (prefixb nd (skipn e (chars h))) eqn:E.
    + apply prefixb_spec in E. destruct E as (t & E). destruct (piece_spec h start e W) as (p & P1 & P2 & P3); [lia|lia|]. rewrite P1. cbn [bind].
      destruct (IH (e + length nd) (e + length nd)) as (ps & lost & A & B & C & D & G & K); [lia|lia| | |].
      * intros i Hi (a & b & X & _). rewrite Nat.sub_diag in X. cbn in X. destruct a, nd; discriminate || congruence.
      * intros i Hi. lia.
      * rewrite A. cbn [bind]. exists (p :: ps), lost. repeat split; try discriminate; try assumption.
        -- constructor; assumption.
        -- rewrite (skipn_add_prefix _ _ _ _ E) in C. cbn [map joined].
           destruct (map chars ps) as [|q qs] eqn:Q; [destruct ps; [congruence|discriminate]|]. rewrite <- !app_assoc, <- C, P3, <- E.
           rewrite <- (firstn_skipn (e - start) (skipn start (chars h))) at 1. f_equal. rewrite skipn_skipn. f_equal. lia.
        -- intros q [<-|I] i; [rewrite P3; apply NOP|apply K, I].
    + apply prefixb_false in E. apply IH; [lia|lia| |].
      * intros i Hi (a & b & X & La).
        assert (PI : prefix nd (skipn (start + i) (chars h))).
        { exists (b ++ skipn (S e) (chars h)).
          assert (SK : skipn start (chars h) = (a ++ nd ++ b) ++ skipn (S e) (chars h)).
          { rewrite <- X. rewrite <- (firstn_skipn (S e - start) (skipn start (chars h))) at 1. f_equal. rewrite skipn_skipn. f_equal. lia. }
          rewrite Nat.add_comm, <- skipn_skipn, SK, <- La, <- !app_assoc. rewrite skipn_app, skipn_all, Nat.sub_diag. reflexivity. }
        destruct (Nat.eq_dec (start + i) e) as [Y|Y]; [rewrite Y in PI; contradiction|]. apply (NP (start + i)); [lia|exact PI].
      * intros i Hi. destruct (Nat.eq_dec i e) as [->|]; [exact E|apply NP; lia].
  - destruct (piece_spec h start e W) as (p & P1 & P2 & P3); [lia|lia|]. rewrite P1. cbn [bind].
    exists [p], (skipn e (chars h)). repeat split; try discriminate.
    + constructor; [exact P2|constructor].
    + cbn [map joined]. rewrite P3. rewrite <- (firstn_skipn (e - start) (skipn start (chars h))) at 1. f_equal. rewrite skipn_skipn. f_equal. lia.
    + rewrite skipn_length. lia.
    + intros q [<-|[]] i. rewrite P3. apply NOP.
Qed.
