(** * Proofs about texts of ints and echo. *)
From Verif Require Import Base Value Text TextSpec.

Lemma denotes_snoc base ds c : denotes base (ds ++ [c]) = denotes base ds * base + digit_val c.
Proof. unfold denotes. rewrite rev_app_distr. cbn [rev app denotes_rev]. lia. Qed.
Lemma digit_of_val base c : (base = 10 /\ dec_digit c) \/ (base = 16 /\ hex_digit c) \/ (base = 2 /\ bin_digit c) -> digit_of c = digit_val c /\ 0 <= digit_val c < base.
Proof. unfold dec_digit, hex_digit, bin_digit, digit_of, digit_val. intros H. repeat match goal with |- context [if ?b then _ else _] => destruct b eqn:? end; lia. Qed.
(** digits of a base, and what follows *)
Definition digits_ok (base : Z) (ds : list Z) : Prop :=
  (base = 10 /\ Forall dec_digit ds) \/ (base = 16 /\ Forall hex_digit ds) \/ (base = 2 /\ Forall bin_digit ds).
Definition stops (base : Z) (r : list Z) : Prop := match r with [] => True | c :: _ => base <= digit_of c end.
Lemma digits_cons base c ds : digits_ok base (c :: ds) -> (digit_of c = digit_val c /\ 0 <= digit_val c < base) /\ digits_ok base ds.
Proof.
  unfold digits_ok. intros [(-> & H)|[(-> & H)|(-> & H)]]; inversion H; subst; split; auto; apply digit_of_val; auto.
Qed.
Lemma read_digits_ok base r : stops base r -> forall ds pre, digits_ok base ds -> read_digits base (denotes base pre) (ds ++ r) = (length ds, denotes base (pre ++ ds), r).
Proof.
  intros Sr. induction ds as [|c ds IH]; intros pre D.
  - cbn [app length]. rewrite app_nil_r. destruct r as [|c r]; cbn [read_digits]; [reflexivity|]. cbn [stops] in Sr. replace (digit_of c <? base) with false by (symmetry; lia). reflexivity.
  - apply digits_cons in D. destruct D as ((E & B) & D). cbn [app read_digits length]. rewrite E. replace (digit_val c <? base) with true by (symmetry; lia).
    rewrite <- denotes_snoc. rewrite IH by exact D. rewrite <- app_assoc. reflexivity.
Qed.
Lemma skip_space_id c s : is_space c = false -> skip_space (c :: s) = c :: s.
Proof. intros E. cbn [skip_space]. rewrite E. reflexivity. Qed.
Lemma digit_facts base c : 0 < base <= 16 -> 0 <= digit_of c < base -> is_space c = false /\ (c =? 45) = false /\ (c =? 43) = false /\ (c =? 95) = false /\ (c =? 0) = false /\ (c =? 120) = false /\ (c =? 88) = false.
Proof. unfold digit_of, is_space. repeat match goal with |- context [if ?b then _ else _] => destruct b eqn:? end; lia. Qed.
Lemma denotes_nonneg base : 0 < base -> forall ds, digits_ok base ds -> 0 <= denotes base ds.
Proof.
  intros B. induction ds as [|c ds IH] using rev_ind; intros D; [unfold denotes; cbn; lia|]. rewrite denotes_snoc.
  assert (D2 : digits_ok base ds /\ digits_ok base [c]) by (unfold digits_ok in *; rewrite !Forall_app in D; tauto). destruct D2 as [D1 D2]. apply digits_cons in D2. destruct D2 as ((_ & ?) & _). specialize (IH D1). nia.
Qed.
(** [strtoll] on an optional sign and a non-empty run of digits *)
Definition signed (sg : list Z) (z : Z) : Z := match sg with [45] => - z | _ => z end.
Lemma strtoll_ok base sg ds : digits_ok base ds -> ds <> [] -> (sg = [] \/ sg = [45] \/ sg = [43]) -> strtoll base (sg ++ ds) = (clamp (signed sg (denotes base ds)), []).
Proof.
  intros D Ne Sg. assert (Bb : 0 < base <= 16) by (destruct D as [(-> & _)|[(-> & _)|(-> & _)]]; lia). pose proof (denotes_nonneg base (proj1 Bb) ds D) as Nn.
  destruct ds as [|d ds]; [contradiction|]. pose proof (digits_cons base d ds D) as ((E & Bd) & D').
  assert (Fd : is_space d = false /\ (d =? 45) = false /\ (d =? 43) = false /\ (d =? 95) = false /\ (d =? 0) = false /\ (d =? 120) = false /\ (d =? 88) = false) by (eapply digit_facts; [exact Bb|lia]). destruct Fd as (F1 & F2 & F3 & _).
  assert (R : read_digits base 0 (d :: ds) = (S (length ds), denotes base (d :: ds), [])) by (pose proof (read_digits_ok base [] Logic.I (d :: ds) [] D) as X; rewrite app_nil_r in X; exact X).
  assert (P : match d :: ds with
            | z :: x :: e :: q => if (base =? 16) && (z =? 48) && ((x =? 120) || (x =? 88)) && (digit_of e <? 16) then e :: q else d :: ds
            | _ => d :: ds end = d :: ds).
  { destruct ds as [|x ds]; [reflexivity|]. pose proof (digits_cons base x ds D') as ((Ex & Bx) & _).
    assert (Fx : is_space x = false /\ (x =? 45) = false /\ (x =? 43) = false /\ (x =? 95) = false /\ (x =? 0) = false /\ (x =? 120) = false /\ (x =? 88) = false) by (eapply digit_facts; [exact Bb|lia]).
    destruct Fx as (_ & _ & _ & _ & _ & G1 & G2). rewrite G1, G2. cbn [orb]. rewrite !andb_false_r. destruct ds; reflexivity. }
  assert (K : forall neg : bool, (let s3 := match d :: ds with
            | z :: x :: e :: q => if (base =? 16) && (z =? 48) && ((x =? 120) || (x =? 88)) && (digit_of e <? 16) then e :: q else d :: ds
            | _ => d :: ds end in
     let '(n, v, r) := read_digits base 0 s3 in match n with O => (0, sg ++ d :: ds) | S _ => ((if neg then Z.max int_min (- v) else Z.min int_max v), r) end) =
     ((if neg then Z.max int_min (- denotes base (d :: ds)) else Z.min int_max (denotes base (d :: ds))), [])) by (intros neg; rewrite P; cbv zeta; rewrite R; reflexivity).
  unfold strtoll. destruct Sg as [-> | [-> | ->]]; cbn [app] in *.
  - rewrite (skip_space_id d ds F1). cbv zeta beta iota. rewrite F2, F3. rewrite (K false). f_equal. unfold clamp, signed, int_max. lia.
  - rewrite (skip_space_id 45 _ eq_refl). cbv zeta beta iota. change (45 =? 45) with true. cbv iota. rewrite (K true). f_equal. unfold clamp, signed, int_min. lia.
  - rewrite (skip_space_id 43 _ eq_refl). cbv zeta beta iota. change (43 =? 45) with false. change (43 =? 43) with true. cbv iota. rewrite (K false). f_equal. unfold clamp, signed, int_max. lia.
Qed.

(** ** The text of an int *)
Lemma dec_digits_ok : forall fuel n acc, 0 <= n < 10 ^ (Z.of_nat fuel) -> (0 < fuel)%nat ->
  exists ds, dec_digits fuel n acc = ds ++ acc /\ Forall dec_digit ds /\ ds <> [] /\ denotes 10 ds = n /\ (n = 0 /\ ds = [48] \/ 0 < n /\ exists c r, ds = c :: r /\ c <> 48).
Proof.
  induction fuel as [|f IH]; intros n acc B L; [lia|]. cbn [dec_digits]. destruct (Z.ltb_spec n 10) as [Lt|Ge].
  - exists [48 + n]. split; [reflexivity|]. split; [repeat constructor; unfold dec_digit; lia|]. split; [discriminate|]. unfold denotes. cbn [rev app denotes_rev]. unfold digit_val. split; [destruct (48 + n <=? 57) eqn:?; lia|].
    destruct (Z.eq_dec n 0) as [->|]; [left; auto|right]. split; [lia|]. exists (48 + n), []. split; [reflexivity|lia].
  - destruct f as [|f']; [change (10 ^ Z.of_nat 1) with 10 in B; lia|]. assert (B2 : 0 <= n / 10 < 10 ^ Z.of_nat (S f')).
    { split; [apply Z.div_pos; lia|]. apply Z.div_lt_upper_bound; [lia|]. assert (X : 10 ^ Z.of_nat (S (S f')) = 10 * 10 ^ Z.of_nat (S f')) by (rewrite (Nat2Z.inj_succ (S f')); apply Z.pow_succ_r; lia). rewrite <- X. apply B. }
    destruct (IH (n / 10) ((48 + n mod 10) :: acc) B2 ltac:(lia)) as (ds & E & F & Ne & V & H). exists (ds ++ [48 + n mod 10]). pose proof (Z.mod_pos_bound n 10 ltac:(lia)).
    split; [rewrite E, <- app_assoc; reflexivity|]. split; [apply Forall_app; split; [exact F|repeat constructor; unfold dec_digit; lia]|]. split; [destruct ds; discriminate|].
    split. + rewrite denotes_snoc, V. unfold digit_val. replace (48 + n mod 10 <=? 57) with true by (symmetry; lia). pose proof (Z.div_mod n 10 ltac:(lia)). lia.
    + right. split; [lia|]. assert (1 <= n / 10) by (apply Z.div_le_lower_bound; lia). destruct H as [[? _]|(_ & c & r & -> & Hc)]; [lia|]. exists c, (r ++ [48 + n mod 10]). auto.
Qed.
Lemma print_text n : in_i64 n -> is_text_of n (print_i64 n).
Proof.
  intros B. unfold in_i64, int_min, int_max in B. unfold print_i64, is_text_of. destruct (Z.ltb_spec n 0) as [L|L].
  - destruct (dec_digits_ok 20 (- n) [] ltac:(lia) ltac:(lia)) as (ds & E & F & _ & V & H). exists ds. rewrite E, app_nil_r. split; [reflexivity|]. split; [exact F|]. split; [destruct H as [(_ & H)|(_ & H)]; auto|]. rewrite V. lia.
  - destruct (dec_digits_ok 20 n [] ltac:(lia) ltac:(lia)) as (ds & E & F & _ & V & H). exists ds. rewrite E, app_nil_r. split; [reflexivity|]. split; [exact F|]. split; [destruct H as [(_ & H)|(_ & H)]; auto|]. rewrite V. lia.
Qed.

(** ** Parsing *)
Lemma strip_digits base ds : digits_ok base ds -> strip_sep ds = ds.
Proof.
  induction ds as [|c ds IH]; intros D; [reflexivity|]. assert (Bb : 0 < base <= 16) by (destruct D as [(-> & _)|[(-> & _)|(-> & _)]]; lia). apply digits_cons in D. destruct D as ((E & B) & D). cbn [strip_sep filter].
  assert (F : is_space c = false /\ (c =? 45) = false /\ (c =? 43) = false /\ (c =? 95) = false /\ (c =? 0) = false /\ (c =? 120) = false /\ (c =? 88) = false) by (eapply digit_facts; [exact Bb|lia]). destruct F as (_ & _ & _ & F & _). rewrite F. cbn [negb]. f_equal. exact (IH D).
Qed.
Lemma strip_spaced s t : spaced s t -> strip_sep t = strip_sep s.
Proof. induction 1; cbn [strip_sep filter]; [reflexivity| |]; [fold (strip_sep s); fold (strip_sep t)|fold (strip_sep t)]. - rewrite IHspaced. reflexivity. - change (95 =? 95) with true. exact IHspaced. Qed.
Lemma cstr_digits base ds : digits_ok base ds -> cstr ds = ds.
Proof.
  induction ds as [|c ds IH]; intros D; [reflexivity|]. assert (Bb : 0 < base <= 16) by (destruct D as [(-> & _)|[(-> & _)|(-> & _)]]; lia). apply digits_cons in D. destruct D as ((E & B) & D). cbn [cstr].
  assert (F : is_space c = false /\ (c =? 45) = false /\ (c =? 43) = false /\ (c =? 95) = false /\ (c =? 0) = false /\ (c =? 120) = false /\ (c =? 88) = false) by (eapply digit_facts; [exact Bb|lia]). destruct F as (_ & _ & _ & _ & F & _). rewrite F. f_equal. exact (IH D).
Qed.
(** a decimal text is not taken for a hexadecimal or binary one *)
Lemma parse_dec sg ds : Forall dec_digit ds -> ds <> [] -> (sg = [] \/ sg = [45] \/ sg = [43]) -> parseint64 (sg ++ ds) = (clamp (signed sg (denotes 10 ds)), true).
Proof.
  intros F Ne Sg. assert (D : digits_ok 10 ds) by (left; auto). unfold parseint64.
  assert (K : (match sg ++ ds with
               | c0 :: c1 :: ((_ :: _) as r) => if (c0 =? 48) && ((c1 =? 120) || (c1 =? 88)) then strtoll 16 r else if (c0 =? 48) && ((c1 =? 98) || (c1 =? 66)) then strtoll 2 r else strtoll 10 (sg ++ ds)
               | _ => strtoll 10 (sg ++ ds) end) = strtoll 10 (sg ++ ds)).
  { destruct Sg as [-> | [-> | ->]]; cbn [app].
    - destruct ds as [|a ds]; [reflexivity|]. destruct ds as [|b ds]; [reflexivity|]. destruct ds as [|c ds]; [reflexivity|]. inversion F as [|? ? Ha F2]; subst. inversion F2 as [|? ? Hb F3]; subst. unfold dec_digit in *.
      replace ((b =? 120) || (b =? 88)) with false by (symmetry; lia). replace ((b =? 98) || (b =? 66)) with false by (symmetry; lia). rewrite !andb_false_r. reflexivity.
    - destruct ds as [|a ds]; [reflexivity|]. destruct ds as [|b ds]; reflexivity.
    - destruct ds as [|a ds]; [reflexivity|]. destruct ds as [|b ds]; reflexivity. }
  rewrite K, (strtoll_ok 10 sg ds D Ne Sg). reflexivity.
Qed.
Lemma toint_dec sg ds t : Forall dec_digit ds -> ds <> [] -> (sg = [] \/ sg = [45] \/ sg = [43]) -> spaced ds t -> ((length t = length ds)%nat \/ (2 < length sg + length t)%nat) ->
  str_toint (sg ++ t) = clamp (signed sg (denotes 10 ds)).
Proof.
  intros F Ne Sg Sp Hl. assert (D : digits_ok 10 ds) by (left; auto). assert (St : strip_sep (sg ++ t) = sg ++ ds).
  { unfold strip_sep. rewrite filter_app. fold (strip_sep t). rewrite (strip_spaced ds t Sp), (strip_digits 10 ds D). destruct Sg as [-> | [-> | ->]]; reflexivity. }
  assert (Cs : cstr (sg ++ ds) = sg ++ ds).
  { destruct Sg as [-> | [-> | ->]]; cbn [app]; [exact (cstr_digits 10 ds D)| |]; cbn [cstr]; change (45 =? 0) with false; change (43 =? 0) with false; cbv iota; rewrite (cstr_digits 10 ds D); reflexivity. }
  assert (Eq : (length t = length ds)%nat -> t = ds).
  { clear -Sp. assert (L : forall a b, spaced a b -> (length a <= length b)%nat) by (clear; induction 1; cbn [length]; lia). induction Sp as [|c s t H IH|s t H IH]; intros E; [reflexivity|cbn [length] in E; f_equal; apply IH; lia|]. cbn [length] in E. apply L in H. lia. }
  assert (Al : forall c0 c1 r, sg ++ t = c0 :: c1 :: r -> (c0 =? 48) && is_alpha c1 = false).
  { intros c0 c1 r E. destruct (Z.eqb_spec c0 48) as [->|]; [|reflexivity]. cbn [andb]. assert (X : sg = []) by (destruct Sg as [?|[->| ->]]; [assumption|discriminate|discriminate]). subst sg. cbn [app] in E. subst t.
    assert (Y : forall a b, spaced a b -> Forall dec_digit a -> Forall (fun c => dec_digit c \/ c = 95) b) by (clear; induction 1; intros F; [constructor|inversion F; subst; constructor; auto|constructor; auto]).
    specialize (Y _ _ Sp F). inversion Y as [|? ? _ Y2]; subst. inversion Y2 as [|? ? Hc _]; subst. unfold is_alpha, dec_digit in *. lia. }
  unfold str_toint. destruct (length (sg ++ t) <=? 2)%nat eqn:L2.
  - rewrite app_length in L2. rewrite Eq by lia. rewrite Cs, (parse_dec sg ds F Ne Sg). reflexivity.
  - assert (G : fst (parseint64 (cstr (strip_sep (sg ++ t)))) = clamp (signed sg (denotes 10 ds))) by (rewrite St, Cs, (parse_dec sg ds F Ne Sg); reflexivity).
    destruct (sg ++ t) as [|c0 [|c1 r]] eqn:E; try exact G. rewrite (Al c0 c1 r eq_refl). exact G.
Qed.
(** "0x..." and "0b..." *)
Lemma parse_prefixed base c1 ds : (base = 16 /\ (c1 = 120 \/ c1 = 88)) \/ (base = 2 /\ (c1 = 98 \/ c1 = 66)) -> digits_ok base ds -> ds <> [] -> parseint64 (48 :: c1 :: ds) = (clamp (denotes base ds), true).
Proof.
  intros H D Ne. unfold parseint64. destruct ds as [|d ds]; [contradiction|]. cbv beta iota.
  destruct H as [(-> & H)|(-> & H)].
  - replace ((48 =? 48) && ((c1 =? 120) || (c1 =? 88))) with true by (symmetry; lia). pose proof (strtoll_ok 16 [] (d :: ds) D Ne (or_introl eq_refl)) as X. cbn [app] in X. rewrite X. reflexivity.
  - replace ((48 =? 48) && ((c1 =? 120) || (c1 =? 88))) with false by (symmetry; lia). replace ((48 =? 48) && ((c1 =? 98) || (c1 =? 66))) with true by (symmetry; lia). pose proof (strtoll_ok 2 [] (d :: ds) D Ne (or_introl eq_refl)) as X. cbn [app] in X. rewrite X. reflexivity.
Qed.
Lemma toint_prefixed base c1 ds t : (base = 16 /\ (c1 = 120 \/ c1 = 88)) \/ (base = 2 /\ (c1 = 98 \/ c1 = 66)) -> digits_ok base ds -> ds <> [] -> spaced ds t -> str_toint (48 :: c1 :: t) = clamp (denotes base ds).
Proof.
  intros H D Ne Sp. unfold str_toint. assert (t <> []) by (intros ->; inversion Sp; subst; contradiction). replace (Nat.leb (length (48 :: c1 :: t)) 2) with false by (symmetry; destruct t; [contradiction|cbn [length]; apply Nat.leb_gt; lia]).
  assert (Al : is_alpha c1 = true) by (unfold is_alpha; lia). rewrite Al. change (48 =? 48) with true. cbn [andb]. rewrite (strip_spaced ds t Sp), (strip_digits base ds D). cbn [cstr]. change (48 =? 0) with false. replace (c1 =? 0) with false by (symmetry; lia). cbv iota.
  rewrite (cstr_digits base ds D), (parse_prefixed base c1 ds H D Ne). reflexivity.
Qed.

(** ** Echo *)
Lemma skipn_nth {A} (l : list A) : forall i c, nth_error l i = Some c -> skipn i l = c :: skipn (S i) l.
Proof. induction l as [|x l IH]; intros [|i] c E; try discriminate. - injection E as <-. reflexivity. - cbn [nth_error] in E. cbn [skipn]. rewrite (IH i c E). reflexivity. Qed.
Lemma strip_ok src rem : forall n i dest pre, (i + n = length src)%nat -> (length pre <= i)%nat -> (length src <= length dest)%nat -> firstn (length pre) dest = pre ->
  exists dest', strip_loop n i i (length pre) (length pre) dest src rem = Ok (length (pre ++ filter (fun c => negb (c =? rem)) (skipn i src)), dest') /\
    firstn (length (pre ++ filter (fun c => negb (c =? rem)) (skipn i src))) dest' = pre ++ filter (fun c => negb (c =? rem)) (skipn i src).
Proof.
  induction n as [|n IH]; intros i dest pre E Lp Ld Fp.
  - exists dest. cbn [strip_loop]. rewrite skipn_all2 by lia. cbn [filter]. rewrite app_nil_r. auto.
  - cbn [strip_loop]. unfold rdb. destruct (nth_error src i) as [c|] eqn:Ec; [|apply nth_error_None in Ec; lia]. cbn [bind].
    pose proof (skipn_nth src i c Ec) as Sk.
    rewrite Sk. cbn [filter]. destruct (Z.eqb_spec c rem) as [->|Nc]; cbn [negb].
    + destruct (IH (S i) dest pre ltac:(lia) ltac:(lia) Ld Fp) as (d' & A & B). exists d'. auto.
    + unfold wr. replace (length pre <? length dest)%nat with true by (symmetry; apply Nat.ltb_lt; lia). cbn [bind].
      assert (F1 : firstn (length (pre ++ [c])) (firstn (length pre) dest ++ c :: skipn (S (length pre)) dest) = pre ++ [c]).
      { rewrite Fp. rewrite app_length. cbn [length]. replace (pre ++ c :: skipn (S (length pre)) dest) with ((pre ++ [c]) ++ skipn (S (length pre)) dest) by (rewrite <- app_assoc; reflexivity).
        replace (length pre + 1)%nat with (length (pre ++ [c])) by (rewrite app_length; reflexivity). rewrite firstn_app, firstn_all, Nat.sub_diag. cbn [firstn]. apply app_nil_r. }
      destruct (IH (S i) (firstn (length pre) dest ++ c :: skipn (S (length pre)) dest) (pre ++ [c])) as (d' & A & B); [lia|rewrite app_length; cbn; lia| |exact F1|].
      { rewrite app_length. cbn [length]. rewrite firstn_length, skipn_length. lia. }
      replace (length (pre ++ [c])) with (S (length pre)) in A by (rewrite app_length; cbn; lia). exists d'. rewrite A. rewrite <- app_assoc in *. cbn [app] in *. auto.
Qed.
Lemma print_s_ok : forall l k, (k <= length l)%nat -> Forall (fun c => c <> 0) (firstn k l) -> print_s k l = Ok (firstn k l).
Proof.
  induction l as [|c l IH]; intros [|k] L F; try reflexivity; [cbn in L; lia|]. cbn [firstn] in *. inversion F; subst. cbn [print_s]. replace (c =? 0) with false by (symmetry; lia). rewrite IH; [reflexivity|cbn in L; lia|assumption].
Qed.
Lemma echo_ok scratch heap s : (length scratch = scratch_size)%nat -> (forall n, length (heap n) = n) -> vm_echo scratch heap s = Ok (filter (fun c => negb (c =? 0)) s ++ [10]).
Proof.
  intros Ls Lh. unfold vm_echo. set (dest := if (scratch_size <? length s)%nat then heap (length s) else scratch). assert (Ld : (length s <= length dest)%nat) by (unfold dest; destruct (Nat.ltb_spec scratch_size (length s)); [rewrite Lh|]; lia).
  destruct (strip_ok s 0 (length s) 0 dest [] ltac:(lia) ltac:(cbn; lia) Ld eq_refl) as (d' & A & B). cbn [skipn app length] in A, B. rewrite A. cbn [bind].
  rewrite print_s_ok.
  - rewrite B. reflexivity.
  - assert (length (firstn (length (filter (fun c => negb (c =? 0)) s)) d') = length (filter (fun c => negb (c =? 0)) s)) by (rewrite B; reflexivity). rewrite firstn_length in H. lia.
  - rewrite B. rewrite Forall_forall. intros x Hx. apply filter_In in Hx. lia.
Qed.
