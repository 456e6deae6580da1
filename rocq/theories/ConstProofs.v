From Verif Require Import Base Bytes BytesProofs Value ValueProofs FloatFacts Hash Table TableSpec TableProofs TableProofs2 TableProofs3 TableProofs4 ConstSpec Constants.

Lemma of_bits_split (s : bool) r : 0 <= r < 9223372036854775808 ->
  f_of_bits ((if s then 9223372036854775808 else 0) + r) =
  (let e := r / 4503599627370496 in
   let m := r mod 4503599627370496 in
   if e =? 2047 then (if m =? 0 then S754_infinity s else S754_nan)
   else if e =? 0 then match m with Z.pos p => S754_finite s p (-1074) | _ => S754_zero s end
   else match m + 4503599627370496 with Z.pos p => S754_finite s p (e - 1075) | _ => S754_nan end).
Proof.
  intros H. unfold f_of_bits. cbv zeta.
  assert (E1 : ((if s then 9223372036854775808 else 0) + r) mod two64 = (if s then 9223372036854775808 else 0) + r).
  { apply Z.mod_small. unfold two64. destruct s; lia. }
  rewrite E1.
  assert (E2 : ((if s then 9223372036854775808 else 0) + r) mod 9223372036854775808 = r).
  { destruct s; [|apply Z.mod_small; lia]. replace (9223372036854775808 + r) with (r + 1 * 9223372036854775808) by lia.
    rewrite Z_mod_plus_full. apply Z.mod_small. lia. }
  rewrite E2.
  assert (E3 : (9223372036854775808 <=? (if s then 9223372036854775808 else 0) + r) = s) by (destruct s; lia).
  rewrite E3. reflexivity.
Qed.
Lemma f_of_bits_bits f : f_valid f = true -> f_of_bits (f_bits f) = f.
Proof.
  intros V. destruct f as [s|s| |s m e].
  - destruct s; reflexivity.
  - destruct s; reflexivity.
  - reflexivity.
  - apply valid_finite in V. destruct V as (V1 & V2 & V3). change (2 ^ 53) with 9007199254740992 in V1. change (2 ^ 52) with 4503599627370496 in V3.
    unfold f_bits.
    destruct (Z.ltb_spec (Z.pos m) 4503599627370496) as [L|L].
    + assert (E : e = -1074) by lia. subst e. rewrite of_bits_split by lia.
      rewrite (Z.div_small (Z.pos m)) by lia. rewrite (Z.mod_small (Z.pos m) 4503599627370496) by lia. reflexivity.
    + rewrite of_bits_split by lia.
      rewrite Z.div_add_l by lia. rewrite (Z.div_small (Z.pos m - 4503599627370496)) by lia. rewrite Z.add_0_r.
      rewrite (Z.add_comm ((e + 1075) * _)), Z_mod_plus_full. rewrite (Z.mod_small (Z.pos m - 4503599627370496)) by lia. cbv zeta.
      destruct (Z.eqb_spec (e + 1075) 2047); [lia|]. destruct (Z.eqb_spec (e + 1075) 0); [lia|].
      replace (Z.pos m - 4503599627370496 + 4503599627370496) with (Z.pos m) by lia.
      replace (e + 1075 - 1075) with e by lia. reflexivity.
Qed.
Lemma f_bits_range f : f_valid f = true -> 0 <= f_bits f < two64.
Proof.
  intros V. destruct f as [s|s| |s m e]; [destruct s; cbn; unfold two64; lia|destruct s; cbn; unfold two64; lia|cbn; unfold two64; lia|].
  apply valid_finite in V. destruct V as (V1 & V2 & V3). change (2 ^ 53) with 9007199254740992 in V1. unfold f_bits, two64.
  destruct (Z.ltb_spec (Z.pos m) 4503599627370496); destruct s; lia.
Qed.
Lemma dec8_enc8_mod z : dec8 (enc8 z) = i64 z.
Proof.
  unfold dec8, enc8. rewrite le_value_bytes.
  - unfold i64, u64. f_equal. rewrite Zplus_mod_idemp_l. reflexivity.
  - change (256 ^ Z.of_nat 8) with two64. unfold u64. apply Z.mod_pos_bound. reflexivity.
Qed.
Lemma f_of_bits_mod a b : a mod two64 = b mod two64 -> f_of_bits a = f_of_bits b.
Proof. intros H. unfold f_of_bits. rewrite H. reflexivity. Qed.

Lemma take8_app z rest : take8 (enc8 z ++ rest) = Ok (i64 z, rest).
Proof.
  unfold take8. rewrite app_length, enc8_length. destruct (Nat.ltb_spec (8 + length rest) 8); [lia|].
  rewrite firstn_app, enc8_length, Nat.sub_diag, firstn_O, app_nil_r. rewrite firstn_all2 by (rewrite enc8_length; lia).
  rewrite skipn_app, enc8_length, Nat.sub_diag. rewrite skipn_all2 by (rewrite enc8_length; lia). rewrite dec8_enc8_mod. reflexivity.
Qed.
Lemma i64_id z : in_i64 z -> i64 z = z.
Proof. intros H. rewrite <- dec8_enc8_mod. apply dec8_enc8, H. Qed.

Lemma schar_mod i : -128 < i < 128 -> schar (i mod 256) = i.
Proof.
  intros H. unfold schar. destruct (Z_lt_le_dec i 0).
  - replace (i mod 256) with (i + 256); [destruct (Z.ltb_spec (i + 256) 128); lia|].
    rewrite <- (Z_mod_plus_full i 1 256). symmetry. apply Z.mod_small. lia.
  - rewrite Z.mod_small by lia. destruct (Z.ltb_spec i 128); lia.
Qed.

Lemma read_const_app v rest : literal v -> read_const (enc_const v ++ rest) = Ok (v, rest).
Proof.
  intros H. destruct v; try contradiction; cbn [enc_const literal] in *.
  - destruct H as (V & _ & _). cbn [app]. unfold read_const. cbn [Z.eqb C_FLOAT C_STR C_INT_1 C_INT_8].
    change (0 =? 3) with false. rewrite take8_app. cbn [bind fst snd]. do 3 f_equal.
    rewrite <- (f_of_bits_bits f V) at 2. apply f_of_bits_mod. pose proof (f_bits_range f V). unfold i64.
    rewrite Zminus_mod_idemp_l. f_equal. lia.
  - destruct (Z.ltb_spec (-128) i); destruct (Z.ltb_spec i 128); cbn [andb app].
    + unfold read_const. change (C_INT_1 =? C_STR) with false. change (C_INT_1 =? C_INT_1) with true. cbv iota.
      rewrite schar_mod by lia. reflexivity.
    + unfold read_const. change (C_INT_8 =? C_STR) with false. change (C_INT_8 =? C_INT_1) with false. change (C_INT_8 =? C_INT_8) with true.
      cbv iota. rewrite take8_app. cbn [bind fst snd]. rewrite i64_id by assumption. reflexivity.
    + unfold read_const. change (C_INT_8 =? C_STR) with false. change (C_INT_8 =? C_INT_1) with false. change (C_INT_8 =? C_INT_8) with true.
      cbv iota. rewrite take8_app. cbn [bind fst snd]. rewrite i64_id by assumption. reflexivity.
    + lia.
  - destruct H as (_ & L). cbn [app]. rewrite <- app_assoc. unfold read_const. change (C_STR =? C_STR) with true. cbv iota.
    rewrite take8_app. cbn [bind fst snd]. change (2 ^ 62) with 4611686018427387904 in L.
    rewrite i64_id by (unfold in_i64, int_min, int_max; lia). rewrite app_length.
    destruct (Z.ltb_spec (Z.of_nat (length s)) 0); [lia|]. destruct (Z.ltb_spec (Z.of_nat (length s + length rest)) (Z.of_nat (length s))); [lia|].
    cbn [orb]. rewrite Nat2Z.id. rewrite firstn_app, firstn_all, Nat.sub_diag, firstn_O, app_nil_r.
    rewrite skipn_app, skipn_all, Nat.sub_diag. reflexivity.
Qed.
Lemma read_consts_app vs : forall rest, Forall literal vs -> read_consts (length vs) (concat (map enc_const vs) ++ rest) = Ok vs.
Proof.
  induction vs as [|v vs IH]; intros rest H; [reflexivity|]. inversion H; subst. cbn [length read_consts map concat].
  rewrite <- app_assoc, read_const_app by assumption. cbn [bind snd fst]. rewrite IH by assumption. reflexivity.
Qed.

Lemma NoDup_app_snoc {A} (l : list A) x : NoDup l -> ~ In x l -> NoDup (l ++ [x]).
Proof.
  induction 1 as [|y l Hy Hl IH]; intros Hx; cbn; [constructor; [tauto|constructor]|].
  constructor; [|apply IH; intros ?; apply Hx; right; assumption].
  rewrite in_app_iff. cbn. intros [?|[->|[]]]; [tauto|]. apply Hx. left. reflexivity.
Qed.

(** The pool invariant: the table maps exactly the collected constants to their positions. *)
Lemma literal_good v : literal v -> good_key v.
Proof. destruct v; cbn; tauto. Qed.
Record pool_ok (p : cpool) (cs : list value) (k : Z) (m : amap) : Prop := {
  po_t : TInv (cp_tab p) k;
  po_r : repr (cp_tab p) m;
  po_in : forall v i, nth_error cs i = Some v -> m v = Some (VInt (Z.of_nat i));
  po_dom : forall v, good_key v -> m v <> None -> In v cs;
  po_nd : NoDup cs;
  po_lit : Forall literal cs;
  po_hdr : cp_hdr p = concat (map enc_const cs) }.

Lemma pool_count p cs k m : pool_ok p cs k m -> t_count (cp_tab p) = Z.of_nat (length cs) /\ live_count (cp_tab p) = Z.of_nat (length cs).
Proof.
  intros P. pose proof (ti_wf _ _ (po_t _ _ _ _ P)) as W. destruct (keys_spec (cp_tab p) m W (po_r _ _ _ _ P)) as (N & K).
  assert (L : live_count (cp_tab p) = Z.of_nat (length cs)).
  { unfold live_count. rewrite <- (for_table_live _ W). rewrite <- (map_length ik). change (map ik (for_table (cp_tab p))) with (table_keys (cp_tab p)).
    f_equal. apply Nat.le_antisymm; apply NoDup_incl_length; [exact N| |apply (po_nd _ _ _ _ P)|].
    - intros v Hv. apply K in Hv. destruct Hv. eapply po_dom; eassumption.
    - intros v Hv. apply K. pose proof (po_lit _ _ _ _ P) as F. rewrite Forall_forall in F. split; [apply literal_good, F, Hv|].
      apply In_nth_error in Hv. destruct Hv as (i & Hi). rewrite (po_in _ _ _ _ P v i Hi). discriminate. }
  split; [|exact L]. rewrite <- L. apply (ti_cnt _ _ (po_t _ _ _ _ P)).
Qed.

Lemma pool_new_ok : exists p k m, pool_new = Ok p /\ pool_ok p [] k m.
Proof.
  destruct new_TInv as (t & E & I & L & R). exists (CP t []), 0, mempty. unfold pool_new. rewrite E. split; [reflexivity|].
  constructor; cbn; auto; try constructor.
  1: intros v i H; destruct i; discriminate.
Qed.

Lemma intern_ok fuel p cs k m v : pool_ok p cs k m -> literal v -> Z.of_nat (length cs) < 2 ^ 29 -> FUEL_BOUND <= Z.of_nat fuel ->
  exists i p' cs' k' m', intern fuel p v = Ok (Z.of_nat i, p') /\ pool_ok p' cs' k' m' /\ nth_error cs' i = Some v
    /\ (cs' = cs \/ cs' = cs ++ [v]).
Proof.
  intros P Hv Hc Hf. pose proof (po_t _ _ _ _ P) as T. pose proof (ti_wf _ _ T) as W. pose proof (literal_good v Hv) as G.
  destruct (pool_count _ _ _ _ P) as (C1 & C2).
  destruct (search_total fuel (cp_tab p) v W G) as (r & Er).
  { pose proof (wf_lim _ W). unfold ALLOC_LIMIT, FUEL_BOUND in *. lia. }
  { left. eapply TInv_empty. exact T. }
  pose proof (search_ok _ _ _ _ _ W (po_r _ _ _ _ P) G Er) as Hr. unfold intern. rewrite Er. cbn [bind].
  destruct (m v) as [x|] eqn:Em.
  - assert (Hin : In v cs) by (eapply po_dom; [eassumption..|congruence]).
    apply In_nth_error in Hin. destruct Hin as (i & Hi). pose proof (po_in _ _ _ _ P v i Hi) as Hx. rewrite Em in Hx. injection Hx as ->.
    subst r. cbn [is_end]. exists i, p, cs, k, m. cbn [raw_bits]. auto 6.
  - subst r. cbn [is_end]. rewrite C1.
    destruct (insert_total fuel (cp_tab p) k v (VInt (Z.of_nat (length cs))) T G) as (t' & k' & Ei & T' & L').
    { split; discriminate. } { rewrite C2. exact Hc. } { exact Hf. }
    rewrite Ei. cbn [bind].
    destruct (insert_fast_ok fuel _ _ (VInt (Z.of_nat (length cs))) _ W G ltac:(split; discriminate) Ei) as (W' & R' & _).
    exists (length cs), (CP t' (cp_hdr p ++ enc_const v)), (cs ++ [v]), k', (mset m v (VInt (Z.of_nat (length cs)))).
    split; [reflexivity|]. split; [|split; [|right; reflexivity]].
    2:{ rewrite nth_error_app2, Nat.sub_diag by lia. reflexivity. }
    constructor; cbn [cp_tab cp_hdr]; auto.
    + apply R', (po_r _ _ _ _ P).
    + intros q i Hi. unfold mset. destruct (value_eq_dec q v) as [->|Nq].
      * destruct (Nat.lt_ge_cases i (length cs)).
        -- rewrite nth_error_app1 in Hi by lia. rewrite (po_in _ _ _ _ P v i Hi) in Em. discriminate.
        -- assert (i < length (cs ++ [v]))%nat by (apply nth_error_Some; congruence). rewrite app_length in *. cbn in *. do 3 f_equal. lia.
      * destruct (Nat.lt_ge_cases i (length cs)).
        -- rewrite nth_error_app1 in Hi by lia. apply (po_in _ _ _ _ P q i Hi).
        -- rewrite nth_error_app2 in Hi by lia. destruct (i - length cs)%nat as [|[|?]]; cbn in Hi; congruence.
    + intros q Gq. unfold mset. destruct (value_eq_dec q v) as [->|Nq]; intros Hq; apply in_or_app; [right; left; reflexivity|left].
      eapply po_dom; eassumption.
    + apply NoDup_app_snoc. 1: apply (po_nd _ _ _ _ P).
      intros Hin. apply In_nth_error in Hin. destruct Hin as (i & Hi). rewrite (po_in _ _ _ _ P v i Hi) in Em. discriminate.
    + apply Forall_app. split; [apply (po_lit _ _ _ _ P)|constructor; auto].
    + rewrite (po_hdr _ _ _ _ P), map_app, concat_app. cbn. rewrite app_nil_r. reflexivity.
Qed.

Lemma intern_all_ok fuel vs : forall p cs k m, pool_ok p cs k m -> Forall literal vs -> Z.of_nat (length cs + length vs) <= 2 ^ 29 ->
  FUEL_BOUND <= Z.of_nat fuel ->
  exists ixs p' cs' k' m', intern_all fuel p vs = Ok (map Z.of_nat ixs, p') /\ pool_ok p' cs' k' m' /\
    Forall2 (fun i v => nth_error cs' i = Some v) ixs vs /\ (exists ext, cs' = cs ++ ext /\ (length ext <= length vs)%nat).
Proof.
  induction vs as [|v vs IH]; intros p cs k m P F L Hf; cbn [length] in *.
  - exists [], p, cs, k, m. split; [reflexivity|]. split; [assumption|]. split; [constructor|]. exists []. rewrite app_nil_r. auto.
  - inversion F; subst. destruct (intern_ok fuel p cs k m v P) as (i & p1 & cs1 & k1 & m1 & E1 & P1 & N1 & C1); [assumption|lia|assumption|].
    assert (L1 : (length cs1 <= S (length cs))%nat) by (destruct C1; subst; [lia|rewrite app_length; cbn; lia]).
    destruct (IH p1 cs1 k1 m1 P1) as (ixs & p2 & cs2 & k2 & m2 & E2 & P2 & N2 & (ext & C2 & C3)); [assumption|lia|assumption|].
    exists (i :: ixs), p2, cs2, k2, m2. cbn [intern_all]. rewrite E1. cbn [bind snd fst]. rewrite E2. cbn [bind snd fst map].
    split; [reflexivity|]. split; [assumption|]. split.
    + constructor; [|assumption]. subst cs2. rewrite nth_error_app1; [assumption|]. apply nth_error_Some. congruence.
    + destruct C1; subst; [exists ext; split; [reflexivity|cbn; lia]|]. rewrite <- app_assoc. exists ([v] ++ ext). split; [reflexivity|cbn; lia].
Qed.

Lemma read8_app pre z post : read8 (pre ++ enc8 z ++ post) (Z.of_nat (length pre)) = Ok (i64 z).
Proof.
  unfold read8. rewrite !app_length, enc8_length.
  destruct (Z.leb_spec 0 (Z.of_nat (length pre))); [|lia].
  destruct (Z.leb_spec (Z.of_nat (length pre) + 8) (Z.of_nat (length pre + (8 + length post)))); [|lia]. cbn [andb].
  rewrite Nat2Z.id, skipn_app, skipn_all, Nat.sub_diag. cbn [app skipn].
  rewrite firstn_app, enc8_length, Nat.sub_diag, firstn_O, app_nil_r. rewrite firstn_all2 by (rewrite enc8_length; lia).
  rewrite dec8_enc8_mod. reflexivity.
Qed.

Lemma setup_ok p cs k m code lines : pool_ok p cs k m -> Z.of_nat (length cs) <= 2 ^ 29 ->
  setup_constants (return_bytes p code lines) = Ok cs.
Proof.
  intros P L. change (2 ^ 29) with 536870912 in L. unfold setup_constants, return_bytes.
  set (hc := 24 + Z.of_nat (length (cp_hdr p))). destruct (pool_count _ _ _ _ P) as (C & _). rewrite C.
  set (rest := cp_hdr p ++ code ++ [O_HALT] ++ lines).
  assert (R : read8 (enc8 hc ++ enc8 (Z.of_nat (length code) + hc + 1) ++ enc8 (Z.of_nat (length cs)) ++ rest) 16 = Ok (Z.of_nat (length cs))).
  { pose proof (read8_app (enc8 hc ++ enc8 (Z.of_nat (length code) + hc + 1)) (Z.of_nat (length cs)) rest) as H.
    rewrite app_length, !enc8_length in H. rewrite <- app_assoc in H. change (Z.of_nat (8 + 8)) with 16 in H. rewrite H.
    rewrite i64_id by (unfold in_i64, int_min, int_max; lia). reflexivity. }
  rewrite R. cbn [bind]. rewrite Nat2Z.id.
  assert (S : skipn 24 (enc8 hc ++ enc8 (Z.of_nat (length code) + hc + 1) ++ enc8 (Z.of_nat (length cs)) ++ rest) = rest).
  { rewrite !app_assoc. rewrite skipn_app. rewrite skipn_all2 by (rewrite !app_length, !enc8_length; lia).
    rewrite !app_length, !enc8_length. reflexivity. }
  rewrite S. unfold rest. rewrite (po_hdr _ _ _ _ P). apply read_consts_app, (po_lit _ _ _ _ P).
Qed.

Lemma layout_ok p code lines :
  24 + Z.of_nat (length (cp_hdr p)) <= int_max ->
  exists e, entry_point (return_bytes p code lines) = Ok e /\ 0 <= e /\
    skipn (Z.to_nat e) (return_bytes p code lines) = code ++ [O_HALT] ++ lines.
Proof.
  intros H. unfold entry_point, return_bytes. set (hc := 24 + Z.of_nat (length (cp_hdr p))) in *.
  set (r1 := enc8 (Z.of_nat (length code) + hc + 1) ++ enc8 (t_count (cp_tab p)) ++ cp_hdr p ++ code ++ [O_HALT] ++ lines).
  pose proof (read8_app [] hc r1) as R. cbn [app length Z.of_nat] in R. rewrite R.
  rewrite i64_id by (unfold in_i64, int_min, hc in *; lia). exists hc. split; [reflexivity|]. split; [unfold hc; lia|].
  unfold r1. rewrite !app_assoc. rewrite <- (app_assoc _ code). rewrite <- (app_assoc _ (code ++ _)).
  rewrite skipn_app. rewrite skipn_all2 by (rewrite !app_length, !enc8_length; unfold hc; lia).
  replace (Z.to_nat hc - _)%nat with O by (rewrite !app_length, !enc8_length; unfold hc; lia). cbn [app skipn]. rewrite <- app_assoc. reflexivity.
Qed.

Lemma constants_ok fuel vs code lines : FUEL_BOUND <= Z.of_nat fuel -> Forall literal vs -> Z.of_nat (length vs) <= 2 ^ 29 ->
  exists p0 ixs p cs, pool_new = Ok p0 /\ intern_all fuel p0 vs = Ok (ixs, p) /\
    setup_constants (return_bytes p code lines) = Ok cs /\
    Forall2 (fun i v => nthZ cs i = Some v) ixs vs /\
    (forall a b i j v u, nth_error ixs a = Some i -> nth_error ixs b = Some j -> nth_error vs a = Some v -> nth_error vs b = Some u ->
       (i = j <-> v = u)) /\ NoDup cs.
Proof.
  intros Hf F L. destruct pool_new_ok as (p0 & k0 & m0 & E0 & P0).
  destruct (intern_all_ok fuel vs p0 [] k0 m0 P0 F) as (ixs & p & cs & k & m & E & P & N & (ext & C & Lx)); [cbn; lia|assumption|].
  cbn in C. subst ext. assert (Ls : Z.of_nat (length cs) <= 2 ^ 29) by lia.
  exists p0, (map Z.of_nat ixs), p, cs. split; [assumption|]. split; [assumption|]. split; [eapply setup_ok; eassumption|].
  assert (K : forall a i v, nth_error (map Z.of_nat ixs) a = Some i -> nth_error vs a = Some v ->
     exists n, i = Z.of_nat n /\ nth_error cs n = Some v).
  { clear -N. induction N as [|n v ixs vs H N IH]; intros [|a] i u; cbn; try discriminate; [|apply IH].
    intros [= <-] [= <-]. eauto. }
  split; [|split; [|apply (po_nd _ _ _ _ P)]].
  - clear -N. induction N as [|n v ixs vs H N IH]; cbn; constructor; [|exact IH]. unfold nthZ.
    destruct (Z.ltb_spec (Z.of_nat n) 0); [lia|]. rewrite Nat2Z.id. exact H.
  - intros a b i j v u Ha Hb Va Vb. destruct (K a i v Ha Va) as (n & -> & Hn). destruct (K b j u Hb Vb) as (n' & -> & Hn').
    split; [intros E'; apply Nat2Z.inj in E'; congruence|intros ->].
    f_equal. eapply NoDup_nth_error; [apply (po_nd _ _ _ _ P)|apply nth_error_Some; congruence|congruence].
Qed.
