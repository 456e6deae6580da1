(** C16-C20, C22, C23: strings. Specification in StrSpec.v (byte sequences), model in Strings.v. Every theorem is
    about [made_str] strings: constants, heap results, and substrings of those. *)
From Verif Require Import Base Value Ops Lists ListSpec ListProofs Strings StrSpec StrProofs StrProofs2.

(** ** C16: indexing and slicing. *)
Theorem C16_index : forall s i, made_str s ->
  (forall p, (p < length (chars s))%nat -> i = Z.of_nat p \/ i = Z.of_nat p - Z.of_nat (length (chars s)) ->
     exists c, str_get s i = Ok c /\ chars c = [nth p (chars s) 0]) /\
  (i < - Z.of_nat (length (chars s)) \/ Z.of_nat (length (chars s)) <= i -> str_get s i = Err EValue).
Proof.
  intros s i M. apply made_swf in M. pose proof (get_ok s i M) as G. rewrite (chars_length _ M). split.
  - intros p P I. rewrite (proj2 (position_spec (str_len s) i p)) in G by auto. exact G.
  - intros I. destruct (position (str_len s) i) as [p|] eqn:E; [apply position_spec in E; lia|exact G].
Qed.
Print Assumptions C16_index.
(** Slicing a string that starts at the beginning of its buffer (every constant and every heap string), with bounds
    in order. Missing: substrings of constants, and bounds out of order; both are refuted below. *)
Theorem C16_slice_partial : forall s va vb a b, made_str s -> s_start s = 0%nat ->
  slice_bounds (Z.of_nat (length (chars s))) va vb = Some (a, b) ->
  (a < b \/ (a = b /\ match va with VInt x => x <= Z.of_nat (length (chars s)) | _ => True end /\
                      match vb with VInt y => - Z.of_nat (length (chars s)) <= y | _ => True end)) ->
  exists s', str_slice s va vb = Ok s' /\ chars s' = sub_seq (chars s) a b.
Proof.
  intros s va vb a b M S0 B L. apply made_swf in M. rewrite (chars_length _ M) in *.
  assert (exists e st, slice_end (Z.of_nat (str_len s)) vb = Ok e /\ slice_start (Z.of_nat (str_len s)) va = Ok st /\ st <= e /\ st = a /\ e = b) as (e & st & E & A & Q & -> & ->).
  { unfold slice_bounds, resolve in B. unfold slice_end, slice_start.
    destruct va; try discriminate; destruct vb; try discriminate; injection B as B1 B2; eexists; eexists; (split; [reflexivity|split; [reflexivity|]]); subst;
    repeat match goal with |- context[Z.ltb ?x ?y] => destruct (Z.ltb_spec x y) | H : context[Z.ltb ?x ?y] |- _ => destruct (Z.ltb_spec x y) end; lia. }
  pose proof (str_slice_ok s va vb b a M S0 E A) as H. destruct (Z.leb_spec a b); [exact H|lia].
Qed.
Print Assumptions C16_slice_partial.
(** 'abc'[2:1] and 'abc'[5:] are undefined behaviour (a string or copy of length 2^64-1 resp. 2^64-2) instead of
    the empty string. *)
Theorem C16_order_refuted :
  str_slice (str_const [97; 98; 99]) (VInt 2) (VInt 1) = UB /\ str_slice (str_const [97; 98; 99]) (VInt 5) VUndef = UB
  /\ str_slice (str_heap [97; 98; 99]) (VInt 2) (VInt 1) = UB
  /\ slice_bounds 3 (VInt 2) (VInt 1) = Some (2, 1) /\ slice_bounds 3 (VInt 5) VUndef = Some (3, 3).
Proof. vm_compute. auto. Qed.
Print Assumptions C16_order_refuted.
(** 'abcd'[1:4][0:2] is "ab", not "bc": slicing ignores where a substring of a constant starts. *)
Theorem C16_substring_refuted : exists s1 s2, str_slice (str_const [97; 98; 99; 100]) (VInt 1) (VInt 4) = Ok s1 /\ chars s1 = [98; 99; 100]
  /\ str_slice s1 (VInt 0) (VInt 2) = Ok s2 /\ chars s2 = [97; 98].
Proof. eexists; eexists. vm_compute. auto. Qed.
Print Assumptions C16_substring_refuted.

(** ** C17: trimming. *)
Theorem C17_ltrim : forall fuel h nd, made_str h -> made_str nd -> chars nd <> [] -> (length (chars h) < fuel)%nat ->
  exists r n, str_ltrim fuel h nd = Ok r /\ chars h = copies n (chars nd) ++ chars r /\ ~ prefix (chars nd) (chars r).
Proof.
  intros fuel h nd Mh Mn N F. apply made_swf in Mh. pose proof (chars_length _ Mh) as LC.
  destruct (ltrim_loop_ok (chars h) (chars nd) N fuel 0) as (a & n & A & B & C & D & G); [lia|lia|].
  unfold str_ltrim. rewrite A. cbn [bind]. destruct (piece_spec h a (str_len h) Mh) as (r & P1 & P2 & P3); [lia|lia|].
  rewrite firstn_all2 in P3 by (rewrite skipn_length; lia). exists r, n. rewrite P3. cbn [skipn] in C. auto.
Qed.
Print Assumptions C17_ltrim.
Theorem C17_rtrim : forall fuel h nd, made_str h -> made_str nd -> chars nd <> [] -> (length (chars h) < fuel)%nat ->
  exists r n, str_rtrim fuel h nd = Ok r /\ chars h = chars r ++ copies n (chars nd) /\ ~ suffix (chars nd) (chars r).
Proof.
  intros fuel h nd Mh Mn N F. apply made_swf in Mh. pose proof (chars_length _ Mh) as LC.
  destruct (rtrim_loop_ok (chars h) (chars nd) N fuel (str_len h)) as (b & n & A & B & C & D & G); [lia|lia|].
  unfold str_rtrim. rewrite A. cbn [bind]. destruct (piece_spec h 0 b Mh) as (r & P1 & P2 & P3); [lia|lia|].
  rewrite Nat.sub_0_r in P3. cbn [skipn] in P3. exists r, n. rewrite P3. rewrite <- LC, firstn_all in C. auto.
Qed.
Print Assumptions C17_rtrim.
(** trim: whenever it returns, both runs are removed; it fails (undefined behaviour) exactly when the run
    removed from the left and the one removed from the right overlap. *)
Theorem C17_trim_partial : forall fuel h nd, made_str h -> made_str nd -> chars nd <> [] -> (length (chars h) < fuel)%nat ->
  exists n m, prefix (copies n (chars nd)) (chars h) /\ suffix (copies m (chars nd)) (chars h) /\
  if (length (chars h) <? n * length (chars nd) + m * length (chars nd))%nat then str_trim fuel h nd = UB
  else exists r, str_trim fuel h nd = Ok r /\ chars h = copies n (chars nd) ++ chars r ++ copies m (chars nd)
       /\ ~ prefix (chars nd) (chars r) /\ ~ suffix (chars nd) (chars r).
Proof.
  intros fuel h nd Mh Mn N F. apply made_swf in Mh. pose proof (chars_length _ Mh) as LC.
  destruct (ltrim_loop_ok (chars h) (chars nd) N fuel 0) as (a & n & A & B & C & D & G); [lia|lia|].
  destruct (rtrim_loop_ok (chars h) (chars nd) N fuel (str_len h)) as (b & m & A' & B' & C' & D' & G'); [lia|lia|].
  rewrite <- LC, firstn_all in C'. cbn [skipn] in C.
  exists n, m. split; [exists (skipn a (chars h)); exact C|]. split; [exists (firstn b (chars h)); exact C'|].
  unfold str_trim. rewrite A, A'. cbn [bind]. destruct (Nat.ltb_spec (length (chars h)) (n * length (chars nd) + m * length (chars nd))).
  - apply piece_bad; [exact Mh|lia].
  - destruct (piece_spec h a b Mh) as (r & P1 & P2 & P3); [lia|lia|]. exists r. split; [exact P1|].
    assert (E1 : skipn a (chars h) = chars r ++ copies m (chars nd)).
    { rewrite P3. rewrite C' at 1. rewrite skipn_app. rewrite firstn_length, Nat.min_l by lia. replace (a - b)%nat with 0%nat by lia. cbn [skipn]. f_equal.
      rewrite skipn_firstn_comm. reflexivity. }
    assert (E2 : firstn b (chars h) = copies n (chars nd) ++ chars r).
    { rewrite P3. rewrite <- (firstn_skipn a (firstn b (chars h))). f_equal; [|apply skipn_firstn_comm].
      rewrite firstn_firstn, Nat.min_l by lia. rewrite C at 1. rewrite firstn_app. 
      assert (LL : length (copies n (chars nd)) = a). { pose proof (f_equal (@length Z) C) as Q. rewrite app_length, skipn_length in Q. lia. }
      rewrite <- LL at 1 2. rewrite firstn_all, Nat.sub_diag, firstn_O, app_nil_r. reflexivity. }
    repeat split.
    + rewrite C at 1. rewrite E1. reflexivity.
    + intros (t & E). apply G. exists (t ++ copies m (chars nd)). rewrite E1, E, <- app_assoc. reflexivity.
    + intros (t & E). apply G'. exists (copies n (chars nd) ++ t). rewrite E2, E, app_assoc. reflexivity.
Qed.
Print Assumptions C17_trim_partial.
Theorem C17_ltrim_space : forall fuel h, made_str h -> (length (chars h) < fuel)%nat ->
  exists r w, str_ltrim_ws fuel h = Ok r /\ chars h = w ++ chars r /\ white w /\ (forall c t, chars r = c :: t -> is_ws c = false).
Proof.
  intros fuel h Mh F. apply made_swf in Mh. pose proof (chars_length _ Mh) as LC.
  destruct (ltrim_ws_ok (chars h) fuel 0) as (a & A & B & C & D); [lia|lia|]. unfold str_ltrim_ws. rewrite A. cbn [bind].
  destruct (piece_spec h a (str_len h) Mh) as (r & P1 & P2 & P3); [lia|lia|]. rewrite firstn_all2 in P3 by (rewrite skipn_length; lia).
  exists r, (firstn a (chars h)). rewrite Nat.sub_0_r in C. cbn [skipn] in C. repeat split; [exact P1|rewrite P3; symmetry; apply firstn_skipn|exact C|].
  intros c t E. rewrite P3 in E. rewrite E in D. exact D.
Qed.
Print Assumptions C17_ltrim_space.
Theorem C17_rtrim_space : forall h, made_str h ->
  exists r w, str_rtrim_ws h = Ok r /\ chars h = chars r ++ w /\ white w /\ (forall c t, chars r = t ++ [c] -> is_ws c = false).
Proof.
  intros h Mh. apply made_swf in Mh. pose proof (chars_length _ Mh) as LC.
  destruct (rtrim_ws_ok (chars h) (str_len h)) as (b & A & B & C & D); [lia|]. unfold str_rtrim_ws. rewrite A. cbn [bind].
  destruct (piece_spec h 0 b Mh) as (r & P1 & P2 & P3); [lia|lia|]. rewrite Nat.sub_0_r in P3. cbn [skipn] in P3.
  rewrite <- LC, firstn_all in C. exists r, (skipn b (chars h)). repeat split; [exact P1|rewrite P3; symmetry; apply firstn_skipn|exact C|].
  intros c t E. rewrite P3 in E. apply (D c t E).
Qed.
Print Assumptions C17_rtrim_space.
(** Default trim: fails exactly on a non-empty string of white space. *)
Theorem C17_trim_space_partial : forall fuel h, made_str h -> (length (chars h) < fuel)%nat ->
  (chars h <> [] /\ white (chars h) -> str_trim_ws fuel h = UB) /\
  (~ (chars h <> [] /\ white (chars h)) ->
   exists r w1 w2, str_trim_ws fuel h = Ok r /\ chars h = w1 ++ chars r ++ w2 /\ white w1 /\ white w2 /\
     (forall c t, chars r = c :: t -> is_ws c = false) /\ (forall c t, chars r = t ++ [c] -> is_ws c = false)).
Proof.
  intros fuel h Mh F. apply made_swf in Mh. pose proof (chars_length _ Mh) as LC.
  destruct (ltrim_ws_ok (chars h) fuel 0) as (a & A & B & C & D); [lia|lia|].
  destruct (rtrim_ws_ok (chars h) (str_len h)) as (b & A' & B' & C' & D'); [lia|].
  rewrite Nat.sub_0_r in C. cbn [skipn] in C. rewrite <- LC, firstn_all in C'.
  unfold str_trim_ws. rewrite A, A'. cbn [bind]. split.
  - intros (NE & WH). apply piece_bad; [exact Mh|].
    assert (a = length (chars h)).
    { destruct (Nat.eq_dec a (length (chars h))); [assumption|]. destruct (skipn_cons (chars h) a) as (c & C1 & C2); [lia|]. rewrite C2 in D.
      unfold white in WH. rewrite Forall_forall in WH. rewrite (WH c) in D by (eapply nth_error_In; eauto). discriminate. }
    assert (b = 0%nat).
    { destruct b as [|b]; [reflexivity|]. destruct (skipn_cons (chars h) b) as (c & C1 & C2); [lia|].
      assert (FS : firstn (S b) (chars h) = firstn b (chars h) ++ [c]).
      { rewrite <- (firstn_skipn b (firstn (S b) (chars h))). f_equal; [rewrite firstn_firstn; f_equal; lia|]. rewrite skipn_firstn_comm. replace (S b - b)%nat with 1%nat by lia. rewrite C2. reflexivity. }
      specialize (D' c _ FS). unfold white in WH. rewrite Forall_forall in WH. rewrite (WH c) in D' by (eapply nth_error_In; eauto). discriminate. }
    destruct (chars h); [congruence|cbn [length] in *; lia].
  - intros NW.
    assert (AB : (a <= b)%nat).
    { destruct (Nat.le_gt_cases a b) as [|GT]; [assumption|]. exfalso. apply NW.
      assert (white (chars h)).
      { unfold white. rewrite Forall_forall. intros c I. destruct (In_nth_error _ _ I) as (i & Ei). unfold white in C, C'. rewrite Forall_forall in C, C'.
        destruct (Nat.lt_ge_cases i a).
        - apply C. apply (nth_error_In _ i). rewrite <- (firstn_skipn a (chars h)) in Ei. rewrite nth_error_app1 in Ei by (rewrite firstn_length; lia). exact Ei.
        - apply C'. apply (nth_error_In _ (i - b)). assert (i < length (chars h))%nat by (apply nth_error_Some; congruence).
          rewrite <- (firstn_skipn b (chars h)) in Ei. rewrite nth_error_app2 in Ei by (rewrite firstn_length; lia). rewrite firstn_length, Nat.min_l in Ei by lia. exact Ei. }
      split; [|assumption]. intros Z. rewrite Z in *. cbn [length] in *. lia. }
    destruct (piece_spec h a b Mh) as (r & P1 & P2 & P3); [lia|lia|].
    exists r, (firstn a (chars h)), (skipn b (chars h)). repeat split; try assumption.
    + rewrite P3. rewrite <- (firstn_skipn a (chars h)) at 1. f_equal. rewrite <- (firstn_skipn (b - a) (skipn a (chars h))) at 1. f_equal.
      rewrite ListFacts.skipn_skipn. f_equal. lia.
    + intros c t E. rewrite P3 in E. destruct (skipn a (chars h)) as [|d u]; [rewrite firstn_nil in E; discriminate|]. destruct (b - a)%nat; [discriminate|]. cbn in E. injection E as -> _. exact D.
    + intros c t E. apply (D' c (firstn a (chars h) ++ t)). rewrite <- app_assoc, <- E, P3. rewrite <- (firstn_skipn a (firstn b (chars h))).
      rewrite firstn_firstn, Nat.min_l by lia. f_equal. apply skipn_firstn_comm.
Qed.
Print Assumptions C17_trim_space_partial.
Theorem C17_trim_refuted :
  str_trim 10 (str_const [97; 97]) (str_const [97]) = UB /\ str_trim_ws 10 (str_const [32; 32]) = UB
  /\ str_trim 10 (str_const [97; 98; 97; 98; 97]) (str_const [97; 98; 97]) = UB
  /\ forall fuel, str_ltrim fuel (str_const [97]) (str_const []) = NoFuel /\ str_rtrim fuel (str_const [97]) (str_const []) = NoFuel.
Proof.
  split; [reflexivity|]. split; [reflexivity|]. split; [reflexivity|]. intros fuel. unfold str_ltrim, str_rtrim. rewrite !str_const_chars. split.
  - assert (ltrim_loop fuel [97] [] 0 = NoFuel) as ->; [|reflexivity]. induction fuel as [|fuel IH]; [reflexivity|exact IH].
  - cbn [str_const str_len s_end s_start length Nat.sub]. assert (rtrim_loop fuel [97] [] 1 = NoFuel) as ->; [|reflexivity]. induction fuel as [|fuel IH]; [reflexivity|exact IH].
Qed.
Print Assumptions C17_trim_refuted.

(** ** C18: split. For a one-byte separator, joining the pieces gives the string back and no piece contains it. *)
Theorem C18_split_join_byte : forall fuel h nd c, made_str h -> made_str nd -> chars nd = [c] -> (length (chars h) < fuel)%nat ->
  exists ps, str_split fuel h nd = Ok ps /\ joined (chars nd) (map chars ps) = chars h /\
    forall p, In p ps -> forall i, ~ occurs_at (chars p) (chars nd) i.
Proof.
  intros fuel h nd c Mh Mn E F. apply made_swf in Mh. apply made_swf in Mn. pose proof (chars_length _ Mh) as LC. pose proof (chars_length _ Mn) as LN.
  unfold str_split. destruct (Nat.eqb_spec (str_len nd) 0); [rewrite E in LN; cbn in LN; lia|].
  destruct (split_loop_ok h (chars nd) Mh) with (fuel := fuel) (start := 0%nat) (e := 0%nat) as (ps & lost & A & B & C & D & G & K); [rewrite E; discriminate|lia|lia| | |].
  - intros i Hi. rewrite E in Hi. cbn in Hi. lia.
  - intros i Hi. lia.
  - exists ps. split; [exact A|]. rewrite E in D. destruct lost; [|cbn in D; lia]. rewrite app_nil_r in C. cbn [skipn] in C. split; [symmetry; exact C|exact K].
Qed.
Print Assumptions C18_split_join_byte.
(** For longer separators: the pieces are right except that up to [length - 1] bytes after the last one are lost. *)
Theorem C18_split_join_partial : forall fuel h nd, made_str h -> made_str nd -> chars nd <> [] -> (length (chars h) < fuel)%nat ->
  exists ps lost, str_split fuel h nd = Ok ps /\ joined (chars nd) (map chars ps) ++ lost = chars h /\
    (length lost < length (chars nd))%nat /\ forall p, In p ps -> forall i, ~ occurs_at (chars p) (chars nd) i.
Proof.
  intros fuel h nd Mh Mn N F. apply made_swf in Mh. apply made_swf in Mn. pose proof (chars_length _ Mh) as LC. pose proof (chars_length _ Mn) as LN.
  unfold str_split. destruct (Nat.eqb_spec (str_len nd) 0). { destruct (chars nd); [congruence|cbn in LN; lia]. }
  destruct (split_loop_ok h (chars nd) Mh N) with (fuel := fuel) (start := 0%nat) (e := 0%nat) as (ps & lost & A & B & C & D & G & K); [lia|lia| | |].
  - intros i Hi. destruct (chars nd); [congruence|cbn in Hi; lia].
  - intros i Hi. lia.
  - exists ps, lost. cbn [skipn] in C. auto.
Qed.
Print Assumptions C18_split_join_partial.
(** 'abc'.split('xy') is ['ab']: the last byte is lost. *)
Theorem C18_split_refuted : exists p, str_split 10 (str_const [97; 98; 99]) (str_const [120; 121]) = Ok [p] /\ chars p = [97; 98].
Proof. eexists. vm_compute. auto. Qed.
Print Assumptions C18_split_refuted.
Theorem C18_split_words : forall fuel h, made_str h -> (length (chars h) < fuel)%nat ->
  exists ps, str_split_default fuel h = Ok ps /\ words_of (chars h) (map chars ps).
Proof.
  intros fuel h Mh F. apply made_swf in Mh. destruct (split_default_ok h Mh fuel 0) as (ps & A & B & C); [rewrite (chars_length _ Mh) in F; lia|lia|]. exists ps. auto.
Qed.
Print Assumptions C18_split_words.
(** join: whatever the elements are rendered as, they come out in order with the separator between. *)
Theorem C18_join : forall fuel w l vs ss sep, list_elements l = Ok vs -> Forall2 (fun v s => w_tostr w v = Ok s) vs ss ->
  forall r, list_join fuel w l sep = Ok r -> r = joined sep ss.
Proof.
  intros fuel w l vs ss sep E F r H. unfold list_join in H. rewrite E in H. cbn [bind] in H. destruct F as [|v s vs ss V F]; [injection H as <-; reflexivity|].
  rewrite V in H. cbn [bind] in H. destruct (join_add fuel ([], 8%nat) s) as [st| | |] eqn:A; try discriminate. apply join_add_ok in A. cbn in A. cbn [bind] in H.
  assert (K : forall vs ss, Forall2 (fun v s => w_tostr w v = Ok s) vs ss -> forall st st', join_loop fuel w sep st vs = Ok st' -> fst st' = fst st ++ concat (map (fun s => sep ++ s) ss)).
  { clear. induction 1 as [|v s vs ss V F IH]; intros st st' H; cbn in H; [injection H as <-; cbn; rewrite app_nil_r; reflexivity|].
    destruct (join_add fuel st sep) as [s1| | |] eqn:A1; try discriminate. cbn [bind] in H. rewrite V in H. cbn [bind] in H.
    destruct (join_add fuel s1 s) as [s2| | |] eqn:A2; try discriminate. cbn [bind] in H. apply join_add_ok in A1, A2. rewrite (IH _ _ H), A2, A1. cbn. rewrite <- !app_assoc. reflexivity. }
  destruct (join_loop fuel w sep st vs) as [st'| | |] eqn:L; try discriminate. injection H as <-. rewrite (K _ _ F _ _ L), A. clear.
  revert s. induction ss as [|t ss IH]; intros s; [cbn; apply app_nil_r|]. cbn [map concat]. rewrite <- app_assoc, IH. reflexivity.
Qed.
Print Assumptions C18_join.
Theorem C18_join_safe : forall fuel w l vs ss sep, list_elements l = Ok vs -> Forall2 (fun v s => w_tostr w v = Ok s) vs ss ->
  list_join fuel w l sep = NoFuel \/ exists r, list_join fuel w l sep = Ok r.
Proof.
  intros fuel w l vs ss sep E F. unfold list_join. rewrite E. cbn [bind]. destruct F as [|v s vs ss V F]; [right; eexists; reflexivity|]. rewrite V. cbn [bind].
  assert (AN : forall st s e, join_add fuel st s <> Err e).
  { intros [buf size] t e. unfold join_add. assert (G : forall n sz, join_grow fuel n sz <> Err e). { clear. intros n. induction fuel; intros sz; cbn; [discriminate|]. destruct (_ <=? _)%nat; [apply IHfuel|discriminate]. }
    destruct (join_grow fuel _ size) eqn:Q; try discriminate; [cbn; destruct (_ <=? _)%nat; discriminate|]. intros X. injection X as ->. eapply G; eauto. }
  pose proof (fun st s => join_add_never_ub fuel st s) as AU.
  assert (K : forall vs ss, Forall2 (fun v s => w_tostr w v = Ok s) vs ss -> forall st, join_loop fuel w sep st vs = NoFuel \/ exists r, join_loop fuel w sep st vs = Ok r).
  { induction 1 as [|v' s' vs' ss' V' F' IH]; intros st; cbn; [right; eexists; reflexivity|].
    destruct (join_add fuel st sep) as [s1|e| |] eqn:A1; [|exfalso; eapply AN; eauto|exfalso; eapply AU; eauto|left; reflexivity]. cbn [bind]. rewrite V'. cbn [bind].
    destruct (join_add fuel s1 s') as [s2|e| |] eqn:A2; [|exfalso; eapply AN; eauto|exfalso; eapply AU; eauto|left; reflexivity]. cbn [bind]. apply IH. }
  destruct (join_add fuel ([], 8%nat) s) as [st|e| |] eqn:A; [|exfalso; eapply AN; eauto|exfalso; eapply AU; eauto|left; reflexivity]. cbn [bind].
  destruct (K _ _ F st) as [Q|(r & Q)]; rewrite Q; [left; reflexivity|right; eexists; reflexivity].
Qed.
Print Assumptions C18_join_safe.

(** ** C19: search, prefix, suffix, count. *)
Theorem C19_search : forall fuel h nd, made_str h -> made_str nd -> (length (chars h) + 2 <= fuel)%nat ->
  exists r, str_search fuel h nd = Ok r /\
   ((exists i, r = VInt (Z.of_nat i) /\ occurs_at (chars h) (chars nd) i /\ forall j, (j < i)%nat -> ~ occurs_at (chars h) (chars nd) j) \/
    (r = VUndef /\ forall i, ~ occurs_at (chars h) (chars nd) i)).
Proof.
  intros fuel h nd Mh Mn F. apply made_swf in Mh. apply made_swf in Mn. pose proof (chars_length _ Mh) as LC. pose proof (chars_length _ Mn) as LN.
  unfold str_search, str_find_index. destruct (Nat.ltb_spec (str_len h) (str_len nd)).
  - cbn. eexists; split; [reflexivity|]. right. split; [reflexivity|]. intros i (a & b & E & _). pose proof (f_equal (@length Z) E) as Q. rewrite !app_length in Q. lia.
  - destruct (find_loop_ok (chars h) (chars nd)) with (fuel := fuel) (i := 0%nat) as (r & A & B); [lia|lia|lia|intros; lia|]. rewrite A. cbn [bind]. eexists; split; [reflexivity|].
    destruct B as [(k & -> & B1 & B2)|(-> & B)].
    + left. exists k. destruct (Z.eqb_spec (Z.of_nat k) (-1)); [lia|]. auto.
    + right. auto.
Qed.
Print Assumptions C19_search.
Theorem C19_startswith : forall h nd, made_str h -> made_str nd ->
  exists r, str_startswith h nd = Ok r /\ (r = true <-> prefix (chars nd) (chars h)).
Proof. intros h nd Mh Mn. apply startswith_ok; apply made_swf; assumption. Qed.
Print Assumptions C19_startswith.
Theorem C19_endswith : forall h nd, made_str h -> made_str nd ->
  exists r, str_endswith h nd = Ok r /\ (r = true <-> suffix (chars nd) (chars h)).
Proof. intros h nd Mh Mn. apply endswith_ok; apply made_swf; assumption. Qed.
Print Assumptions C19_endswith.
Theorem C19_count_partial : forall fuel h nd, made_str h -> made_str nd -> chars nd <> [] -> (length (chars h) < fuel)%nat ->
  exists c r, str_count fuel h nd = Ok c /\ scans (chars nd) (chars nd) (chars h) c r.
Proof.
  intros fuel h nd Mh Mn N F. destruct (count_loop_ok (chars h) (chars nd) (chars nd) N fuel 0 0) as (k & r & A & B); [lia|lia|]. exists k, r. split; [exact A|exact B].
Qed.
Print Assumptions C19_count_partial.
(** Counting the empty string never returns. *)
Theorem C19_count_empty_refuted : forall fuel h, made_str h -> str_count fuel h (str_const []) = NoFuel.
Proof.
  intros fuel h _. unfold str_count. rewrite str_const_chars. generalize 0 at 1. induction fuel as [|fuel IH]; intros c; [reflexivity|]. cbn [count_loop length].
  destruct (Nat.leb_spec (0 + 0) (length (chars h))); [|lia]. cbn. apply IH.
Qed.
Print Assumptions C19_count_empty_refuted.

(** ** C20: replace. *)
Theorem C20_replace : forall fuel s a b, made_str s -> made_str a -> made_str b -> (length (chars s) < fuel)%nat ->
  (chars a = [] -> str_replace fuel s a b = Err EValue) /\
  (chars a <> [] -> exists r c, str_replace fuel s a b = Ok r /\ scans (chars a) (chars b) (chars s) c (chars r)).
Proof.
  intros fuel s a b Ms Ma Mb F. apply made_swf in Ma. pose proof (chars_length _ Ma) as LA. unfold str_replace. split.
  - intros E. rewrite E in LA. cbn in LA. destruct (Nat.ltb_spec (str_len a) 1); [reflexivity|lia].
  - intros N. destruct (Nat.ltb_spec (str_len a) 1). { destruct (chars a); [congruence|cbn in LA; lia]. }
    destruct (replace_loop_ok (chars s) (chars a) (chars b) N fuel 0 []) as (k & r & A & B); [lia|lia|]. rewrite A. cbn [app omap] in *. exists (str_heap r), k.
    split; [reflexivity|]. rewrite str_heap_chars. exact B.
Qed.
Print Assumptions C20_replace.
(** With a limit: right when the limit is at least the length of the string, or not positive. *)
Theorem C20_replace_limit_partial : forall fuel s a b max, made_str s -> made_str a -> made_str b -> chars a <> [] -> (length (chars s) < fuel)%nat ->
  (Z.of_nat (length (chars s)) <= max -> str_replace_max fuel s a b max = str_replace fuel s a b) /\
  (max <= 0 -> exists r, str_replace_max fuel s a b max = Ok r /\ chars r = chars s).
Proof.
  intros fuel s a b max Ms Ma Mb N F. apply made_swf in Ma. pose proof (chars_length _ Ma) as LA. unfold str_replace_max, str_replace.
  destruct (Nat.ltb_spec (str_len a) 1). { destruct (chars a); [congruence|cbn in LA; lia]. } split.
  - intros M. rewrite replace_max_big by (assumption || lia). reflexivity.
  - intros M. rewrite replace_max_zero by lia. cbn. eexists; split; [reflexivity|]. apply str_heap_chars.
Qed.
Print Assumptions C20_replace_limit_partial.
(** 'xa'.replace('a', 'b', 1) leaves "xa": bytes that are skipped count against the limit. *)
Theorem C20_replace_limit_refuted : exists r, str_replace_max 10 (str_const [120; 97]) (str_const [97]) (str_const [98]) 1 = Ok r /\ chars r = [120; 97].
Proof. eexists. vm_compute. auto. Qed.
Print Assumptions C20_replace_limit_refuted.

(** ** C22: case conversion, classes, repetition. *)
Theorem C22_toupper : forall s, made_str s -> Forall is_byte (chars s) -> exists r, str_toupper s = Ok r /\ chars r = map up (chars s).
Proof.
  intros s M B. apply made_swf in M. destruct (conv_ok upper s M) as (r & A & C). exists r. split; [exact A|]. rewrite C. apply map_ext_in. intros c I. apply upper_up. rewrite Forall_forall in B. apply B, I.
Qed.
Print Assumptions C22_toupper.
Theorem C22_tolower : forall s, made_str s -> Forall is_byte (chars s) -> exists r, str_tolower s = Ok r /\ chars r = map down (chars s).
Proof.
  intros s M B. apply made_swf in M. destruct (conv_ok lower s M) as (r & A & C). exists r. split; [exact A|]. rewrite C. apply map_ext_in. intros c I. apply lower_down. rewrite Forall_forall in B. apply B, I.
Qed.
Print Assumptions C22_tolower.
(** The predicates hold exactly when every byte is in the class (so also of the empty string), on ASCII strings;
    isspace on every string. *)
Theorem C22_classes_partial : forall s, made_str s -> Forall (fun c => 0 <= c < 128) (chars s) ->
  exists al nu an, str_isal s = Ok al /\ (al = true <-> Forall ascii_letter (chars s)) /\
    str_isnum s = Ok nu /\ (nu = true <-> Forall ascii_digit (chars s)) /\
    str_isalnum s = Ok an /\ (an = true <-> Forall (fun c => ascii_letter c \/ ascii_digit c) (chars s)).
Proof.
  intros s _ B. rewrite Forall_forall in B.
  assert (CT : forall p c, In c (chars s) -> ctype p c = Ok (p c)). { intros p c I. unfold ctype. destruct (Z.ltb_spec c 128); [reflexivity|]. specialize (B c I). lia. }
  exists (forallb alpha (chars s)), (forallb digit (chars s)), (forallb (fun c => alpha c || digit c) (chars s)).
  unfold str_isal, str_isnum, str_isalnum. rewrite !(is_loop_ok _ _ _ (CT _)).
  assert (AL : forall c, alpha c = true <-> ascii_letter c). { intros c. unfold alpha, ascii_letter. lia. }
  assert (DI : forall c, digit c = true <-> ascii_digit c). { intros c. unfold digit, ascii_digit. lia. }
  repeat split; rewrite ?forallb_forall, ?Forall_forall; intros H c I; specialize (H c I).
  - apply AL, H. - apply AL, H. - apply DI, H. - apply DI, H.
  - rewrite orb_true_iff, AL, DI in H. exact H. - rewrite orb_true_iff, AL, DI. exact H.
Qed.
Print Assumptions C22_classes_partial.
Theorem C22_isspace : forall s, made_str s -> exists b, str_isspace s = Ok b /\ (b = true <-> Forall blank (chars s)).
Proof.
  intros s _. unfold str_isspace. rewrite (is_loop_ok _ is_ws _ (fun c _ => eq_refl)). eexists; split; [reflexivity|]. rewrite forallb_forall, Forall_forall.
  assert (W : forall c, is_ws c = true <-> blank c). { intros c. unfold is_ws, blank. lia. } split; intros H c I; apply W, H, I.
Qed.
Print Assumptions C22_isspace.
(** A byte from 128 to 254 makes isal, isnum and isalnum undefined (negative char passed to <ctype.h>). *)
Theorem C22_non_ascii_refuted : str_isal (str_const [195; 169]) = UB.
Proof. reflexivity. Qed.
Print Assumptions C22_non_ascii_refuted.
Theorem C22_rep : forall fuel s num, made_str s -> num < Z.of_nat fuel -> num * Z.of_nat (length (chars s)) < two64 ->
  (num < 0 -> str_rep fuel s num = Err EValue) /\
  (0 <= num -> exists r, str_rep fuel s num = Ok r /\ chars r = copies (Z.to_nat num) (chars s)).
Proof.
  intros fuel s num M F B. apply made_swf in M. split.
  - intros H. unfold str_rep. destruct (Z.ltb_spec num 0); [reflexivity|lia].
  - intros H. rewrite (chars_length _ M) in B. apply rep_ok; assumption.
Qed.
Print Assumptions C22_rep.

(** ** C23: iterating. *)
Theorem C23_iterate_partial : forall fuel s, made_str s -> s_start s = 0%nat -> (length (chars s) < fuel)%nat ->
  exists cs, str_iter_all fuel s 0 = Ok cs /\ map chars cs = map (fun c => [c]) (chars s).
Proof. intros fuel s M S0 F. apply made_swf in M. apply (iter_ok s M S0 fuel 0); [rewrite (chars_length _ M) in F; lia|lia]. Qed.
Print Assumptions C23_iterate_partial.
(** Missing: substrings of constants. for c <- 'abcd'[2:4] gives "a", "b". *)
Theorem C23_substring_refuted : exists s cs, made_str s /\ chars s = [99; 100] /\ str_iter_all 10 s 0 = Ok cs /\ map chars cs = [[97]; [98]].
Proof.
  exists (YS [97; 98; 99; 100] 2 4 false). eexists. split; [|vm_compute; auto].
  apply (ms_sub (str_const [97; 98; 99; 100]) 2 4); [constructor|reflexivity].
Qed.
Print Assumptions C23_substring_refuted.

Example C16_C23_nonvacuous :
  (exists s, made_str s /\ s_start s = 2%nat /\ chars s = [99; 100] /\ exists c, str_get s (-1) = Ok c /\ chars c = [100])
  /\ (exists r, str_trim 20 (str_const [97; 98; 97]) (str_const [97]) = Ok r /\ chars r = [98])
  /\ (exists ps, str_split 20 (str_const [97; 44; 98; 44]) (str_const [44]) = Ok ps /\ map chars ps = [[97]; [98]; []])
  /\ (exists ps, str_split_default 20 (str_heap [32; 97; 98; 10; 9; 99]) = Ok ps /\ map chars ps = [[97; 98]; [99]])
  /\ str_search 20 (str_const [97; 98; 97; 98; 99]) (str_const [97; 98; 99]) = Ok (VInt 2)
  /\ str_count 20 (str_const [97; 97; 97; 97; 97]) (str_const [97; 97]) = Ok 2
  /\ (exists r, str_replace 20 (str_const [97; 97; 97]) (str_const [97; 97]) (str_const [98]) = Ok r /\ chars r = [98; 97])
  /\ (exists r, str_toupper (str_const [97; 122; 64; 91; 200]) = Ok r /\ chars r = [65; 90; 64; 91; 200])
  /\ (exists r, str_rep 20 (str_const [97; 98]) 3 = Ok r /\ chars r = [97; 98; 97; 98; 97; 98]).
Proof.
  split.
  { exists (YS [97; 98; 99; 100] 2 4 false). split; [apply (ms_sub (str_const [97; 98; 99; 100]) 2 4); [constructor|reflexivity]|]. vm_compute. repeat split. eexists; split; reflexivity. }
  repeat split; eexists; vm_compute; auto.
Qed.
