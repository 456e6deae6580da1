(** * More proofs about strings. *)
From Verif Require Import Base Value ListFacts Lists ListSpec Strings StrSpec StrProofs.
Local Open Scope nat_scope.

(** ** split on white space *)
Lemma skip_ws_ok want h : forall fuel i, length h < i + fuel -> i <= length h ->
  exists e, skip_ws want fuel h i = Ok e /\ i <= e <= length h /\ Forall (fun c => is_ws c = want) (firstn (e - i) (skipn i h)) /\
   (e < length h -> exists c, nth_error h e = Some c /\ is_ws c = negb want).
Proof.
  induction fuel as [|fuel IH]; intros i F L; [lia|]. cbn [skip_ws]. destruct (Nat.ltb_spec i (length h)) as [H|H].
  - destruct (skipn_cons h i H) as (c & C1 & C2). rewrite (char_at_ok _ _ _ C1). cbn [bind]. destruct (Bool.eqb (is_ws c) want) eqn:E.
    + apply eqb_prop in E. destruct (IH (S i)) as (e & A & B & C & D); [lia|lia|]. exists e. repeat split; [exact A|lia|lia| |exact D].
      rewrite C2. replace (e - i) with (S (e - S i)) by lia. constructor; assumption.
    + exists i. repeat split; try lia; [rewrite Nat.sub_diag; constructor|]. intros _. exists c. split; [exact C1|]. apply eqb_false_iff in E. destruct (is_ws c), want; cbn; congruence.
  - exists i. repeat split; try lia. rewrite Nat.sub_diag. constructor.
Qed.
Lemma split_default_ok h : swf h -> forall fuel i, str_len h < i + fuel -> i <= str_len h ->
  (exists ps, split_default_loop fuel h i = Ok ps /\ Forall swf ps /\ words_of (skipn i (chars h)) (map chars ps)).
Proof.
  intros W. pose proof (chars_length _ W) as LC. induction fuel as [|fuel IH]; intros i F L; [lia|]. cbn [split_default_loop].
  destruct (skip_ws_ok true (chars h) (S (str_len h)) i) as (e & A & B & C & D); [lia|lia|]. rewrite A. cbn [bind].
  destruct (Nat.leb_spec (str_len h) e) as [H|H].
  - exists []. repeat split; [constructor|]. constructor. replace e with (length (chars h)) in C by lia.
    rewrite firstn_all2 in C by (rewrite skipn_length; lia). exact C.
  - destruct (D ltac:(lia)) as (c & Cc & Wc). cbn [negb] in Wc.
    destruct (skip_ws_ok false (chars h) (S (str_len h)) e) as (e' & A' & B' & C' & D'); [lia|lia|]. rewrite A'. cbn [bind].
    assert (e <> e'). { intros <-. destruct (D' ltac:(lia)) as (c' & Q & Q'). cbn in Q'. congruence. }
    destruct (piece_spec h e e' W) as (p & P1 & P2 & P3); [lia|lia|]. rewrite P1. cbn [bind].
    destruct (IH e') as (ps & E & Fs & Ws); [lia|lia|]. rewrite E. cbn [bind]. exists (p :: ps). repeat split; [constructor; assumption|].
    assert (WD : word (chars p)).
    { rewrite P3. split; [|exact C']. intros Q. apply (f_equal (@length Z)) in Q. rewrite firstn_length, skipn_length in Q. cbn in Q. lia. }
    assert (SP : skipn i (chars h) = firstn (e - i) (skipn i (chars h)) ++ chars p ++ skipn e' (chars h)).
    { rewrite <- (firstn_skipn (e - i) (skipn i (chars h))) at 1. f_equal. rewrite skipn_skipn. replace (e - i + i) with e by lia.
      rewrite P3. rewrite <- (firstn_skipn (e' - e) (skipn e (chars h))) at 1. f_equal. rewrite skipn_skipn. f_equal. lia. }
    rewrite SP. cbn [map]. destruct (Nat.eq_dec e' (length (chars h))) as [->|NE].
    + rewrite skipn_all in *. inversion Ws as [w Hw E1 E2|w q Hw Hq E1 E2|w q d t qs Hw Hq Hd Ht E1 E2]; subst.
      * rewrite app_nil_r. apply wo_last; [exact C|exact WD].
      * apply app_eq_nil in E1. destruct E1 as (_ & ->). destruct Hq; congruence.
      * apply app_eq_nil in E1. destruct E1 as (_ & E1). destruct q; discriminate.
    + destruct (skipn_cons (chars h) e') as (d & D1 & D2); [lia|]. destruct (D' ltac:(lia)) as (d' & D3 & D4). rewrite D1 in D3. injection D3 as <-.
      rewrite D2 in *. apply wo_cons; try assumption.
Qed.

(** ** case, classes, repetition *)
Lemma conv_loop_ok f h : forall n i out, i + n = length h -> conv_loop f h i n out = Ok (out ++ map f (skipn i h)).
Proof.
  induction n as [|n IH]; intros i out H; cbn [conv_loop].
  - rewrite skipn_all2 by lia. cbn. rewrite app_nil_r. reflexivity.
  - destruct (skipn_cons h i) as (c & C1 & C2); [lia|]. rewrite (char_at_ok _ _ _ C1). cbn [bind]. rewrite IH by lia. rewrite C2. cbn [map]. rewrite <- app_assoc. reflexivity.
Qed.
Lemma upper_up c : is_byte c -> upper c = up c.
Proof.
  intros H. unfold is_byte in H. unfold upper, up. assert (Z.ltb c 123 = Z.leb c 122) as -> by (destruct (Z.ltb_spec c 123), (Z.leb_spec c 122); lia || reflexivity).
  destruct (Z.leb_spec 97 c), (Z.leb_spec c 122); try reflexivity. cbn [andb].
  assert (E : forallb (fun n => Z.eqb (Z.land (Z.of_nat n) (Z.lnot 32)) (Z.of_nat n - 32)) (seq 97 26) = true) by (vm_compute; reflexivity).
  rewrite forallb_forall in E. specialize (E (Z.to_nat c)). rewrite in_seq in E. specialize (E ltac:(lia)). apply Z.eqb_eq in E. rewrite Z2Nat.id in E by lia. exact E.
Qed.
Lemma lower_down c : is_byte c -> lower c = down c.
Proof.
  intros H. unfold is_byte in H. unfold lower, down. assert (Z.ltb c 91 = Z.leb c 90) as -> by (destruct (Z.ltb_spec c 91), (Z.leb_spec c 90); lia || reflexivity).
  destruct (Z.leb_spec 65 c), (Z.leb_spec c 90); try reflexivity. cbn [andb].
  assert (E : forallb (fun n => Z.eqb (Z.lor (Z.of_nat n) 32) (Z.of_nat n + 32)) (seq 65 26) = true) by (vm_compute; reflexivity).
  rewrite forallb_forall in E. specialize (E (Z.to_nat c)). rewrite in_seq in E. specialize (E ltac:(lia)). apply Z.eqb_eq in E. rewrite Z2Nat.id in E by lia. exact E.
Qed.
Lemma str_heap_chars bs : chars (str_heap bs) = bs.
Proof. unfold chars, str_heap. cbn. rewrite Nat.sub_0_r. apply firstn_all. Qed.
Lemma str_const_chars bs : chars (str_const bs) = bs.
Proof. unfold chars, str_const. cbn. rewrite Nat.sub_0_r. apply firstn_all. Qed.
Lemma conv_ok f s : swf s -> exists s', omap str_heap (conv_loop f (chars s) 0 (str_len s) []) = Ok s' /\ chars s' = map f (chars s).
Proof.
  intros W. rewrite conv_loop_ok by (rewrite chars_length by exact W; lia). cbn. eexists; split; [reflexivity|]. apply str_heap_chars.
Qed.
Lemma is_loop_ok (p : Z -> outcome bool) (q : Z -> bool) : forall h, (forall c, In c h -> p c = Ok (q c)) -> is_loop p h = Ok (forallb q h).
Proof.
  induction h as [|c h IH]; intros H; [reflexivity|]. cbn. rewrite (H c) by (left; reflexivity). cbn. destruct (q c); [|reflexivity]. apply IH. intros d D. apply H. right. exact D.
Qed.

Lemma rep_loop_ok h : h <> [] -> forall n fuel i out size, n < fuel -> (size = i + Z.of_nat n * Z.of_nat (length h))%Z ->
  rep_loop fuel h size i out = Ok (out ++ copies n h).
Proof.
  intros N. assert (0 < length h) by (destruct h; [congruence|cbn [length]; lia]).
  induction n as [|n IH]; intros [|fuel] i out size F E; try lia; cbn [rep_loop].
  - destruct (Z.ltb_spec i size); [lia|]. cbn. rewrite app_nil_r. reflexivity.
  - destruct (Z.ltb_spec i size); [|nia]. destruct (Z.leb_spec (i + Z.of_nat (length h)) size); [|nia].
    rewrite (IH fuel) by (lia || nia). rewrite copies_S, app_assoc. reflexivity.
Qed.
Lemma rep_ok s num fuel : swf s -> (0 <= num)%Z -> (num * Z.of_nat (str_len s) < two64)%Z -> (num < Z.of_nat fuel)%Z ->
  exists s', str_rep fuel s num = Ok s' /\ chars s' = copies (Z.to_nat num) (chars s).
Proof.
  intros W N B F. unfold str_rep. destruct (Z.ltb_spec num 0); [lia|]. rewrite <- (chars_length _ W) in *. unfold u64. rewrite Z.mod_small by lia.
  destruct (chars s) as [|c t] eqn:E.
  - cbn [length]. rewrite Z.mul_0_r. destruct fuel as [|fuel]; [lia|]. cbn [rep_loop]. destruct (Z.ltb_spec 0 0); [lia|]. cbn [omap].
    eexists; split; [reflexivity|]. rewrite str_heap_chars. unfold copies. induction (Z.to_nat num); [reflexivity|]. cbn. exact IHn.
  - rewrite (rep_loop_ok (c :: t)) with (n := Z.to_nat num); [|discriminate|lia|lia]. cbn [omap app]. eexists; split; [reflexivity|]. apply str_heap_chars.
Qed.

(** ** indexing, slicing, iterating *)
Lemma get_ok s i : swf s -> match position (str_len s) i with
  | Some p => exists s', str_get s i = Ok s' /\ chars s' = [nth p (chars s) 0%Z]
  | None => str_get s i = Err EValue end.
Proof.
  intros W. pose proof (chars_length _ W) as LC. pose proof W as (W1 & _). unfold str_get, position.
  assert (K : forall q, (0 <= q < Z.of_nat (str_len s))%Z -> exists s', new_substring (Z.of_nat (s_start s) + q) (Z.of_nat (s_start s) + q + 1) s = Ok s' /\ chars s' = [nth (Z.to_nat q) (chars s) 0%Z]).
  { intros q Q. unfold str_len in *. destruct (sub_spec s (Z.of_nat (s_start s) + q) (Z.of_nat (s_start s) + q + 1)) as (s' & A & B & C); try lia; [exact W|].
    exists s'. split; [exact A|]. rewrite C. replace (Z.to_nat (Z.of_nat (s_start s) + q + 1) - Z.to_nat (Z.of_nat (s_start s) + q)) with 1 by lia.
    replace (Z.to_nat (Z.of_nat (s_start s) + q) - s_start s) with (Z.to_nat q) by lia. destruct (skipn_cons (chars s) (Z.to_nat q)) as (c & C1 & C2); [lia|].
    rewrite C2. cbn. f_equal. symmetry. apply nth_error_nth, C1. }
  destruct (Z.leb_spec 0 i), (Z.ltb_spec i (Z.of_nat (str_len s))), (Z.leb_spec (Z.of_nat (str_len s)) i),
    (Z.leb_spec (- Z.of_nat (str_len s)) i), (Z.ltb_spec i 0), (Z.ltb_spec i (- Z.of_nat (str_len s))); cbn [andb orb]; try lia; try reflexivity;
  rewrite ?(Z.add_comm _ i); rewrite ?(Z.add_comm i (Z.of_nat (s_start s))); apply K; lia.
Qed.
Lemma slice_bounds_ok len va vb e a : (0 <= len)%Z -> slice_end len vb = Ok e -> slice_start len va = Ok a ->
  (e <= len)%Z /\ (0 <= a)%Z /\ exists a' b', slice_bounds len va vb = Some (a', b') /\
  ((a <= e)%Z -> a' = a /\ b' = e).
Proof.
  intros L E A. unfold slice_end in E. unfold slice_start in A. unfold slice_bounds, resolve.
  destruct vb; try discriminate; destruct va; try discriminate; injection E as <-; injection A as <-;
  repeat match goal with |- context[Z.ltb ?x ?y] => destruct (Z.ltb_spec x y) end;
  (split; [lia|split; [lia|eexists; eexists; split; [reflexivity|lia]]]).
Qed.
Lemma str_slice_ok s va vb e a : swf s -> s_start s = 0 ->
  slice_end (Z.of_nat (str_len s)) vb = Ok e -> slice_start (Z.of_nat (str_len s)) va = Ok a ->
  (if Z.leb a e then exists s', str_slice s va vb = Ok s' /\ chars s' = sub_seq (chars s) a e else str_slice s va vb = UB).
Proof.
  intros W S0 E A. pose proof W as (W1 & _). unfold str_slice. rewrite E, A. cbn [bind].
  destruct (slice_bounds_ok (Z.of_nat (str_len s)) va vb e a) as (B1 & B2 & _); try lia; try assumption.
  destruct (Z.leb_spec a e).
  - unfold str_len in *. destruct (sub_spec s a e) as (s' & P & Q & R); try lia; [exact W|]. exists s'. split; [exact P|]. rewrite R. unfold sub_seq. rewrite S0. f_equal; [lia|f_equal; lia].
  - unfold new_substring. destruct (Z.leb_spec a e); [lia|]. rewrite andb_false_r. reflexivity.
Qed.
Lemma iter_ok s : swf s -> s_start s = 0 -> forall fuel i, str_len s < i + fuel -> i <= str_len s ->
  exists cs, str_iter_all fuel s i = Ok cs /\ map chars cs = map (fun c => [c]) (skipn i (chars s)).
Proof.
  intros W S0. pose proof (chars_length _ W) as LC. pose proof W as (W1 & _).
  induction fuel as [|fuel IH]; intros i F L; [lia|]. cbn [str_iter_all]. unfold str_iter.
  destruct (Nat.leb_spec (str_len s) i).
  - cbn. exists []. rewrite skipn_all2 by lia. auto.
  - destruct (sub_spec s (Z.of_nat i) (Z.of_nat i + 1)) as (s' & A & B & C); try (unfold str_len in *; lia); [exact W|]. rewrite A. cbn [omap bind].
    destruct (IH (S i)) as (cs & P & Q); [lia|lia|]. rewrite P. cbn [bind]. exists (s' :: cs). split; [reflexivity|]. cbn [map]. rewrite Q, C.
    destruct (skipn_cons (chars s) i) as (c & C1 & C2); [lia|]. replace (Z.to_nat (Z.of_nat i + 1) - Z.to_nat (Z.of_nat i)) with 1 by lia.
    replace (Z.to_nat (Z.of_nat i) - s_start s) with i by lia. rewrite C2. reflexivity.
Qed.
