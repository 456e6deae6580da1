(** * Proofs for the text of floats. *)
From Verif Require Import Base Value Ops Text TextSpec TextProofs FloatText FloatTextSpec FloatFacts.
From Coq Require Import Floats.SpecFloat.

Lemma micros_nearest m e : nearest (micros m e) (numer m e) (denom e) /\ 0 <= micros m e.
Proof.
  unfold micros, numer, denom, nearest. destruct (Z.leb_spec 0 e) as [P|P].
  - rewrite (Z.max_l e 0) by lia. rewrite (Z.max_r (- e) 0) by lia. change (2 ^ 0) with 1. assert (0 < 2 ^ e) by (apply Z.pow_pos_nonneg; lia).
    replace (Z.pos m * 2 ^ e * 1000000 * 1 - Z.pos m * 2 ^ e * 1000000) with 0 by ring. split; [|nia]. split; [lia|]. cbn. lia.
  - rewrite (Z.max_r e 0) by lia. rewrite (Z.max_l (- e) 0) by lia. change (2 ^ 0) with 1. rewrite Z.mul_1_r.
    assert (B : 0 < 2 ^ (- e)) by (apply Z.pow_pos_nonneg; lia). set (p := 2 ^ (- e)) in *. set (n := Z.pos m * 1000000). cbv zeta.
    pose proof (Z.div_mod n p ltac:(lia)) as D. pose proof (Z.mod_pos_bound n p B) as M. set (q := n / p) in *. set (r := n mod p) in *.
    assert (Q : 0 <= q) by (apply Z.div_pos; unfold n; lia).
    destruct (Z.ltb_spec (2 * r) p); [split; [|lia]|destruct (Z.ltb_spec p (2 * r)); [split; [|lia]|destruct (Z.even q) eqn:E; (split; [|lia])]].
    + replace (q * p - n) with (- r) by lia. split; lia.
    + replace ((q + 1) * p - n) with (p - r) by lia. split; lia.
    + replace (q * p - n) with (- r) by lia. split; [lia|intros _; exact E].
    + replace ((q + 1) * p - n) with (p - r) by lia. split; [lia|]. intros _. rewrite Z.even_add, E. reflexivity.
Qed.

Lemma dec_text_ok n : 0 <= n -> exists ds, dec_text n = ds /\ Forall dec_digit ds /\ ds <> [] /\ denotes 10 ds = n /\ (ds = [48] \/ exists c r, ds = c :: r /\ c <> 48).
Proof.
  intros P. unfold dec_text. assert (B : n < 10 ^ Z.of_nat (S (Z.to_nat (Z.log2 n)))).
  { pose proof (Z.log2_nonneg n). rewrite Nat2Z.inj_succ, Z2Nat.id by lia. apply Z.lt_le_trans with (2 ^ Z.succ (Z.log2 n)).
    - destruct (Z.eq_dec n 0) as [->|]; [reflexivity|]. apply Z.log2_spec. lia.
    - apply Z.pow_le_mono_l. lia. }
  destruct (dec_digits_ok _ n [] (conj P B) ltac:(lia)) as (ds & E & F & Ne & V & H). rewrite app_nil_r in E. exists ds. repeat split; auto. destruct H as [(_ & H)|(_ & H)]; auto.
Qed.
Lemma six_ok n : Forall dec_digit (six_text n) /\ length (six_text n) = 6%nat.
Proof.
  split; [|reflexivity]. unfold six_text. apply Forall_forall. intros c I. apply in_map_iff in I. destruct I as (k & <- & _). pose proof (Z.mod_pos_bound (n / 10 ^ k) 10 ltac:(lia)). unfold dec_digit. lia.
Qed.
Lemma digit_val_48 c : 0 <= c < 10 -> digit_val (48 + c) = c.
Proof. intros B. unfold digit_val. replace (48 + c <=? 57) with true by (symmetry; lia). lia. Qed.
Lemma six_denotes ip n : 0 <= n < 1000000 -> denotes 10 (ip ++ six_text n) = denotes 10 ip * 1000000 + n.
Proof.
  intros B. unfold six_text. cbn [map].
  replace (ip ++ [48 + (n / 10 ^ 5) mod 10; 48 + (n / 10 ^ 4) mod 10; 48 + (n / 10 ^ 3) mod 10; 48 + (n / 10 ^ 2) mod 10; 48 + (n / 10 ^ 1) mod 10; 48 + (n / 10 ^ 0) mod 10])
    with ((((((ip ++ [48 + (n / 10 ^ 5) mod 10]) ++ [48 + (n / 10 ^ 4) mod 10]) ++ [48 + (n / 10 ^ 3) mod 10]) ++ [48 + (n / 10 ^ 2) mod 10]) ++ [48 + (n / 10 ^ 1) mod 10]) ++ [48 + (n / 10 ^ 0) mod 10])
    by (rewrite <- !app_assoc; reflexivity).
  rewrite !denotes_snoc, !digit_val_48 by (apply Z.mod_pos_bound; lia).
  change (10 ^ 5) with 100000. change (10 ^ 4) with 10000. change (10 ^ 3) with 1000. change (10 ^ 2) with 100. change (10 ^ 1) with 10. change (10 ^ 0) with 1.
  Z.to_euclidean_division_equations. lia.
Qed.

Lemma denotes_zeros ds k : denotes 10 (ds ++ repeat 48 k) = denotes 10 ds * 10 ^ Z.of_nat k.
Proof.
  induction k as [|k IH]; [rewrite app_nil_r; cbn; lia|]. change (repeat 48 (S k)) with (48 :: repeat 48 k). rewrite repeat_cons, app_assoc, denotes_snoc, IH.
  rewrite Nat2Z.inj_succ, Z.pow_succ_r by lia. change (digit_val 48) with 0. ring.
Qed.
Lemma at_app pre c r : at_ptr (pre ++ c :: r) (Z.of_nat (length pre)) = Ok c.
Proof. unfold at_ptr, nthZ. replace (Z.of_nat (length pre) <? 0) with false by (symmetry; lia). rewrite Nat2Z.id, nth_error_app2, Nat.sub_diag by lia. reflexivity. Qed.
(** The loop removes the zeros at the end, all but one directly after the dot. *)
Lemma strip_ok2 pre : forall fp rest fuel, fp <> [] -> Forall dec_digit fp -> (length fp < fuel)%nat ->
  exists fp' k, fp = fp' ++ repeat 48 k /\ fp' <> [] /\ ((length fp' = 1)%nat \/ last fp' 0 <> 48) /\
    strip_zeros fuel (pre ++ 46 :: fp ++ rest) (Z.of_nat (length pre + 1 + length fp)) = Ok (Z.of_nat (length pre + 1 + length fp')).
Proof.
  induction fp as [|c fp IH] using rev_ind; [tauto|]. intros rest fuel _ F L. destruct fuel as [|fuel]; [lia|]. rewrite app_length in *. cbn [length] in *. cbn [strip_zeros].
  replace (Z.of_nat (length pre + 1 + (length fp + 1)) - 1) with (Z.of_nat (length (pre ++ 46 :: fp))) by (rewrite app_length; cbn [length]; lia).
  replace (pre ++ 46 :: (fp ++ [c]) ++ rest) with ((pre ++ 46 :: fp) ++ c :: rest) by (rewrite <- !app_assoc; reflexivity). rewrite at_app. cbn [bind].
  destruct (Z.eqb_spec c 48) as [->|N].
  2: { exists (fp ++ [c]), 0%nat. rewrite app_nil_r. split; [reflexivity|]. split; [destruct fp; discriminate|]. split; [right; rewrite last_last; exact N|]. rewrite app_length. reflexivity. }
  apply Forall_app in F. destruct F as [F _]. destruct (list_eq_dec Z.eq_dec fp []) as [->|Ne].
  - replace (Z.of_nat (length pre + 1 + (length (@nil Z) + 1)) - 2) with (Z.of_nat (length pre)) by (cbn [length]; lia). rewrite <- app_assoc. cbn [app]. rewrite at_app. cbn [bind].
    exists [48], 0%nat. split; [reflexivity|]. split; [discriminate|]. split; [left; reflexivity|]. reflexivity.
  - destruct (IH (48 :: rest) fuel Ne F ltac:(lia)) as (fp' & k & E & N' & T & Sz).
    destruct (exists_last Ne) as (fp0 & d & Ed). replace (Z.of_nat (length pre + 1 + (length fp + 1)) - 2) with (Z.of_nat (length (pre ++ 46 :: fp0))) by (rewrite Ed, !app_length; cbn [length]; lia).
    replace ((pre ++ 46 :: fp) ++ 48 :: rest) with ((pre ++ 46 :: fp0) ++ d :: 48 :: rest) by (rewrite Ed, <- !app_assoc; cbn [app]; rewrite <- app_assoc; reflexivity). rewrite at_app. cbn [bind].
    assert (D : d =? 46 = false) by (rewrite Ed in F; apply Forall_app in F; destruct F as [_ F]; apply Forall_inv in F; unfold dec_digit in F; lia). rewrite D. cbn [negb].
    replace (Z.of_nat (length (pre ++ 46 :: fp))) with (Z.of_nat (length pre + 1 + length fp)) by (rewrite app_length; cbn [length]; lia).
    replace ((pre ++ 46 :: fp0) ++ d :: 48 :: rest) with (pre ++ 46 :: fp ++ 48 :: rest) by (rewrite Ed, <- !app_assoc; reflexivity).
    exists fp', (S k). split; [rewrite E; change (repeat 48 (S k)) with (48 :: repeat 48 k); rewrite repeat_cons, app_assoc; reflexivity|]. split; [exact N'|]. split; [exact T|exact Sz].
Qed.

Lemma cstr_no_nul l r : Forall (fun c => c <> 0) l -> cstr (l ++ 0 :: r) = l.
Proof. induction l as [|c l IH]; intros F; [reflexivity|]. inversion F as [|? ? Hc Hl]; subst. cbn [app cstr]. destruct (Z.eqb_spec c 0); [tauto|]. rewrite IH by exact Hl. reflexivity. Qed.

(** The text of n millionths. *)
Definition finite_text (s : bool) (n : Z) : outcome (list Z) :=
  let t := printf_f s n in
  let ptr := t ++ [0] in
  do size <- strip_zeros (S (length t)) ptr (Z.of_nat (length t));
  do ptr <- (if size <? 0 then UB else wr ptr (Z.to_nat size) 0);
  Ok (cstr (firstn (S (Z.to_nat size)) ptr)).
Lemma finite_ok s n : 0 <= n -> exists fp k, six_text (n mod 1000000) = fp ++ repeat 48 k /\ fp <> [] /\ ((length fp = 1)%nat \/ last fp 0 <> 48) /\
  finite_text s n = Ok ((if s then [45] else []) ++ dec_text (n / 1000000) ++ [46] ++ fp).
Proof.
  intros P. unfold finite_text, printf_f. set (sg := if s then [45] else []). destruct (dec_text_ok (n / 1000000) ltac:(apply Z.div_pos; lia)) as (ip & Ei & Fi & _ & _ & _). rewrite Ei.
  destruct (six_ok (n mod 1000000)) as [F L6]. set (six := six_text (n mod 1000000)) in *. set (pre := sg ++ ip).
  assert (Et : sg ++ ip ++ 46 :: six = pre ++ 46 :: six) by (unfold pre; rewrite <- app_assoc; reflexivity). rewrite Et.
  destruct (strip_ok2 pre six [0] (S (length (pre ++ 46 :: six)))) as (fp & k & E & Ne & T & Sz); [intros X; rewrite X in L6; discriminate L6|exact F|rewrite app_length; cbn [length]; lia|].
  exists fp, k. split; [exact E|]. split; [exact Ne|]. split; [exact T|].
  cbv zeta. replace ((pre ++ 46 :: six) ++ [0]) with (pre ++ 46 :: six ++ [0]) by (rewrite <- app_assoc; reflexivity).
  replace (length (pre ++ 46 :: six)) with (length pre + 1 + length six)%nat at 2 by (rewrite app_length; cbn [length]; lia). rewrite Sz. cbn [bind].
  replace (Z.of_nat (length pre + 1 + length fp) <? 0) with false by (symmetry; lia). rewrite Nat2Z.id. unfold wr.
  set (whole := pre ++ 46 :: six ++ [0]). assert (Lf : (length pre + 1 + length fp < length whole)%nat) by (unfold whole; rewrite E; rewrite !app_length; cbn [length]; rewrite !app_length; cbn [length]; lia).
  rewrite (proj2 (Nat.ltb_lt _ _) Lf). subst whole. cbn [bind]. f_equal.
  assert (Ef : firstn (length pre + 1 + length fp) (pre ++ 46 :: six ++ [0]) = pre ++ 46 :: fp).
  { rewrite E. replace (pre ++ 46 :: (fp ++ repeat 48 k) ++ [0]) with ((pre ++ 46 :: fp) ++ repeat 48 k ++ [0]) by (repeat (rewrite <- app_assoc; cbn [app]); reflexivity).
    rewrite firstn_app. replace (length pre + 1 + length fp - length (pre ++ 46%Z :: fp))%nat with 0%nat by (rewrite app_length; cbn [length]; lia). cbn [firstn]. rewrite app_nil_r. apply firstn_all2. rewrite app_length. cbn [length]. lia. }
  rewrite Ef. match goal with |- cstr (firstn (Datatypes.S ?k) (?a ++ 0 :: ?b)) = _ => replace (firstn (Datatypes.S k) (a ++ 0 :: b)) with (a ++ 0 :: []) end.
  - rewrite cstr_no_nul; [unfold pre; rewrite <- !app_assoc; reflexivity|]. rewrite E in F. apply Forall_app in F. destruct F as [F _]. unfold pre, sg.
    apply Forall_app. split; [apply Forall_app; split; [destruct s; repeat constructor; discriminate|eapply Forall_impl; [|exact Fi]; unfold dec_digit; lia]|]. constructor; [discriminate|]. eapply Forall_impl; [|exact F]. unfold dec_digit. lia.
  - rewrite firstn_app. replace (Datatypes.S (length pre + 1 + length fp) - length (pre ++ 46%Z :: fp))%nat with 1%nat by (rewrite app_length; cbn [length]; lia). rewrite (firstn_all2 (pre ++ 46 :: fp)) by (rewrite app_length; cbn [length]; lia). reflexivity.
Qed.
Lemma finite_decimal s n : 0 <= n -> exists t, finite_text s n = Ok t /\ decimal s n t.
Proof.
  intros P. destruct (finite_ok s n P) as (fp & k & E & Ne & T & S). eexists. split; [exact S|]. destruct (six_ok (n mod 1000000)) as [F L].
  destruct (dec_text_ok (n / 1000000) ltac:(apply Z.div_pos; lia)) as (ip & Ei & Fi & _ & V & N). rewrite Ei. exists ip, fp. split; [reflexivity|]. split; [exact Fi|].
  rewrite E in F. apply Forall_app in F. split; [apply F|]. split; [exact N|]. rewrite E, app_length, repeat_length in L. split; [destruct fp; [tauto|cbn [length] in *; lia]|]. split; [exact T|].
  pose proof (six_denotes ip (n mod 1000000) ltac:(apply Z.mod_pos_bound; lia)) as D. rewrite E, app_assoc, denotes_zeros, V in D.
  replace (6 - Z.of_nat (length fp)) with (Z.of_nat k) by lia. rewrite D. pose proof (Z.div_mod n 1000000 ltac:(lia)). lia.
Qed.

(** ** Ints as floats *)
Lemma dec_digits_fuel : forall f f' n acc, 0 <= n < 10 ^ Z.of_nat f -> n < 10 ^ Z.of_nat f' -> (0 < f)%nat -> (0 < f')%nat -> dec_digits f n acc = dec_digits f' n acc.
Proof.
  induction f as [|f IH]; intros f' n acc B B' P P'; [lia|]. destruct f' as [|f']; [lia|]. cbn [dec_digits]. destruct (Z.ltb_spec n 10); [reflexivity|].
  rewrite Nat2Z.inj_succ, Z.pow_succ_r in B, B' by lia. assert (K : forall g, n < 10 * 10 ^ Z.of_nat g -> (0 < g)%nat /\ n / 10 < 10 ^ Z.of_nat g).
  { intros g Bg. split; [destruct g; [cbn in Bg; lia|lia]|]. apply Z.div_lt_upper_bound; lia. }
  destruct (K f) as [? ?]; [lia|]. destruct (K f') as [? ?]; [lia|]. apply IH; auto. split; [apply Z.div_pos; lia|assumption].
Qed.
Lemma dec_text_20 n : 0 <= n < 10 ^ 20 -> dec_text n = dec_digits 20 n [].
Proof.
  intros B. unfold dec_text. apply dec_digits_fuel; try lia. split; [lia|]. rewrite Nat2Z.inj_succ. pose proof (Z.log2_nonneg n). rewrite Z2Nat.id by lia.
  apply Z.lt_le_trans with (2 ^ Z.succ (Z.log2 n)); [destruct (Z.eq_dec n 0) as [->|]; [reflexivity|apply Z.log2_spec; lia]|apply Z.pow_le_mono_l; lia].
Qed.
Lemma finite_whole s n : 0 <= n < 10 ^ 20 -> finite_text s (n * 1000000) = Ok ((if s then [45] else []) ++ dec_digits 20 n [] ++ [46; 48]).
Proof.
  intros B. destruct (finite_ok s (n * 1000000) ltac:(lia)) as (fp & k & E & Ne & T & S). rewrite Z.mod_mul in E by lia. rewrite Z.div_mul in S by lia. rewrite dec_text_20 in S by exact B. rewrite S.
  enough (fp = [48]) as -> by reflexivity. change (six_text 0) with (repeat 48 6) in E.
  assert (A : fp = repeat 48 (length fp)).
  { apply Forall_eq_repeat. assert (F : Forall (eq 48) (repeat 48 6)) by (repeat constructor). rewrite E in F. apply Forall_app in F. apply F. }
  assert (L : (length fp = 1)%nat).
  { destruct T as [T|T]; [exact T|]. destruct (exists_last Ne) as (fp0 & d & ->). rewrite last_last in T. rewrite app_length, Nat.add_1_r in A. change (repeat 48 (Datatypes.S (length fp0))) with (48 :: repeat 48 (length fp0)) in A. rewrite repeat_cons in A. apply app_inj_tail in A. destruct A as [_ A]. congruence. }
  rewrite A, L. reflexivity.
Qed.
Lemma micros_pow m d p : Z.pos m = Z.pos p * 2 ^ (53 - d) -> 1 <= d <= 53 -> micros m (d - 53) = Z.pos p * 1000000.
Proof.
  intros E B. unfold micros. assert (0 < 2 ^ (53 - d)) by (apply Z.pow_pos_nonneg; lia). destruct (Z.leb_spec 0 (d - 53)).
  - assert (d = 53) as -> by lia. change (2 ^ (53 - 53)) with 1 in *. rewrite E. ring.
  - replace (- (d - 53)) with (53 - d) by lia. set (q := 2 ^ (53 - d)) in *. cbv zeta. replace (Z.pos m * 1000000) with (Z.pos p * 1000000 * q) by (rewrite E; ring). rewrite Z.mod_mul, Z.div_mul by lia. replace (2 * 0 <? q) with true by (symmetry; lia). reflexivity.
Qed.
Lemma tostr_of_int n : Z.abs n < 2 ^ 53 -> float_tostr (int_tofloat n) = Ok (int_tostr n ++ [46; 48]).
Proof.
  intros B. pose proof (of_int_exact n B) as X. unfold float_tostr, int_tofloat, int_tostr, print_i64. change (2 ^ 53) with 9007199254740992 in B. destruct n as [|p|p].
  - rewrite X. vm_compute. reflexivity.
  - destruct X as (m & E & Em & Bd). rewrite E. change (float64_to_str _) with (finite_text false (micros m (D2 p - 53))). rewrite (micros_pow m (D2 p) p Em Bd), finite_whole by lia. replace (Z.pos p <? 0) with false by (symmetry; lia). reflexivity.
  - destruct X as (m & E & Em & Bd). rewrite E. change (float64_to_str _) with (finite_text true (micros m (D2 p - 53))). rewrite (micros_pow m (D2 p) p Em Bd), finite_whole by lia. reflexivity.
Qed.
Lemma toint_of_int n : Z.abs n < 2 ^ 53 -> float_toint (int_tofloat n) = Ok n.
Proof.
  intros B. pose proof (of_int_exact n B) as X. unfold float_toint, int_tofloat, f_to_int, in_i64b, int_min, int_max. change (2 ^ 53) with 9007199254740992 in B.
  assert (K : forall m p d, Z.pos m = Z.pos p * 2 ^ (53 - d) -> 1 <= d <= 53 -> (if 0 <=? d - 53 then Z.pos m * 2 ^ (d - 53) else Z.pos m / 2 ^ (- (d - 53))) = Z.pos p).
  { intros m p d Em Bd. assert (0 < 2 ^ (53 - d)) by (apply Z.pow_pos_nonneg; lia). destruct (Z.leb_spec 0 (d - 53)); [assert (d = 53) as -> by lia; change (2 ^ (53 - 53)) with 1 in *; rewrite Em; ring|]. replace (- (d - 53)) with (53 - d) by lia. rewrite Em. apply Z.div_mul. lia. }
  destruct n as [|p|p]; [rewrite X; reflexivity| |]; destruct X as (m & E & Em & Bd); rewrite E; cbn [f_trunc]; rewrite (K m p (D2 p) Em Bd).
  - replace ((-9223372036854775808 <=? Z.pos p) && (Z.pos p <=? 9223372036854775807)) with true by (symmetry; lia). reflexivity.
  - change (- Z.pos p) with (Z.neg p). replace ((-9223372036854775808 <=? Z.neg p) && (Z.neg p <=? 9223372036854775807)) with true by (symmetry; lia). reflexivity.
Qed.

(** ** The text is determined *)
Lemma nearest_unique v w a b : 0 < b -> nearest v a b -> nearest w a b -> v = w.
Proof.
  intros B (V & Ev) (W & Ew). destruct (Z.eq_dec v w) as [|N]; [assumption|exfalso].
  assert (D : Z.abs (v * b - w * b) >= b). { replace (v * b - w * b) with ((v - w) * b) by ring. rewrite Z.abs_mul, (Z.abs_eq b) by lia. assert (1 <= Z.abs (v - w)) by lia. nia. }
  assert (T : Z.abs (v * b - w * b) <= b) by lia.
  assert (D1 : Z.abs (v - w) * b = b). { rewrite <- (Z.abs_eq b) at 1 by lia. rewrite <- Z.abs_mul. replace ((v - w) * b) with (v * b - w * b) by ring. lia. }
  assert (Z.abs (v - w) = 1) by nia. assert (Hv : Z.even v = true) by (apply Ev; lia). assert (Hw : Z.even w = true) by (apply Ew; lia).
  assert (v = w + 1 \/ v = w - 1) as [-> | ->] by lia; [rewrite Z.even_add, Hw in Hv|rewrite Z.even_sub, Hw in Hv]; discriminate Hv.
Qed.
