From Verif Require Import Base Varint.
Ltac Zify.zify_post_hook ::= Z.div_mod_to_equations.

Lemma land127 v : Z.land v 127 = v mod 128.
Proof. change 127 with (Z.ones 7). rewrite Z.land_ones by lia. reflexivity. Qed.

Lemma lor128 x : 0 <= x < 128 -> Z.lor x 128 = x + 128.
Proof.
  intros H. symmetry. rewrite <- Z.lxor_lor; [rewrite <- Z.add_nocarry_lxor; [reflexivity|]|].
  all: apply Z.bits_inj'; intros n Hn; rewrite Z.land_spec, Z.bits_0;
    change 128 with (2^7); rewrite Z.pow2_bits_eqb by lia;
    destruct (Z.eqb_spec 7 n); [|apply andb_false_r]; subst n;
    rewrite andb_true_r, Z.testbit_false by lia; change (2^7) with 128; lia.
Qed.

Lemma land128_small x : 0 <= x < 128 -> Z.land x 128 = 0.
Proof.
  intros H. apply Z.bits_inj'; intros n Hn; rewrite Z.land_spec, Z.bits_0;
    change 128 with (2^7); rewrite Z.pow2_bits_eqb by lia;
    destruct (Z.eqb_spec 7 n); [|apply andb_false_r]; subst n;
    rewrite andb_true_r, Z.testbit_false by lia; change (2^7) with 128; lia.
Qed.

Lemma land128_big x : 0 <= x < 128 -> Z.land (x + 128) 128 = 128.
Proof.
  intros H. rewrite <- lor128 by lia. rewrite Z.land_lor_distr_l, land128_small by lia. reflexivity.
Qed.

Lemma lor_shift7 a b : 0 <= a < 128 -> 0 <= b -> Z.lor a (b * 128) = a + b * 128.
Proof.
  intros Ha Hb.
  assert (E : Z.land a (b * 128) = 0).
  { apply Z.bits_inj'; intros n Hn. rewrite Z.land_spec, Z.bits_0.
    change 128 with (2^7). rewrite <- Z.shiftl_mul_pow2 by lia.
    destruct (Z_lt_le_dec n 7).
    - rewrite Z.shiftl_spec_low by lia. apply andb_false_r.
    - assert (Z.testbit a n = false) as ->; [|reflexivity].
      apply Z.testbit_false; [lia|]. rewrite Z.div_small; [reflexivity|].
      assert (2^7 <= 2^n) by (apply Z.pow_le_mono_r; lia). change (2^7) with 128 in *. lia. }
  rewrite <- Z.lxor_lor by exact E. symmetry. apply Z.add_nocarry_lxor. exact E.
Qed.

Lemma shiftr7 v : Z.shiftr v 7 = v / 128.
Proof. rewrite Z.shiftr_div_pow2 by lia. reflexivity. Qed.

Lemma shiftl7 v : Z.shiftl v 7 = v * 128.
Proof. rewrite Z.shiftl_mul_pow2 by lia. reflexivity. Qed.

(** One step of the encoder. *)
Lemma vint_encode_S k v : 0 <= v ->
  vint_encode (S k) v =
    if v <=? 127 then Ok [v]
    else do rest <- vint_encode k (v / 128); Ok ((v mod 128 + 128) :: rest).
Proof.
  intros Hv. cbn [vint_encode]. destruct (Z.leb_spec v 127).
  - rewrite Z.mod_small by lia. reflexivity.
  - rewrite land127, shiftr7. change (Z.shiftl 1 7) with 128.
    rewrite lor128 by lia. rewrite Z.mod_small by lia. reflexivity.
Qed.

Lemma vint_roundtrip_gen fuel : forall v, 0 <= v -> (1 <= fuel)%nat -> v < 2 ^ (7 * Z.of_nat fuel) -> v < two64 ->
  exists bs, vint_encode fuel v = Ok bs
    /\ Forall is_byte bs
    /\ (1 <= length bs <= fuel)%nat
    /\ (forall rest, vint_decode (bs ++ rest) = Ok v)
    /\ (forall rest, vint_next (bs ++ rest) = Ok rest)
    /\ v < 2 ^ (7 * Z.of_nat (length bs))
    /\ (length bs = 1%nat \/ 2 ^ (7 * (Z.of_nat (length bs) - 1)) <= v).
Proof.
  induction fuel as [|k IH]; intros v Hv Hf Hlt H64; [lia|].
  rewrite vint_encode_S by lia. destruct (Z.leb_spec v 127) as [Hs|Hs].
  - exists [v]. split; [reflexivity|]. split; [constructor; [unfold is_byte; lia|constructor]|].
    split; [simpl; lia|]. change (Z.shiftl 1 7) with 128.
    split; [intros rest; cbn [app vint_decode]; change (Z.shiftl 1 7) with 128; rewrite land128_small by lia; reflexivity|].
    split; [intros rest; cbn [app vint_next]; change (Z.shiftl 1 7) with 128; rewrite land128_small by lia; reflexivity|].
    split; [simpl length; change (2 ^ (7 * Z.of_nat 1)) with 128; lia|left; reflexivity].
  - destruct k as [|k'].
    { change (2 ^ (7 * Z.of_nat 1)) with 128 in Hlt. lia. }
    assert (Hpow : 2 ^ (7 * Z.of_nat (S (S k'))) = 128 * 2 ^ (7 * Z.of_nat (S k'))).
    { replace (7 * Z.of_nat (S (S k'))) with (7 + 7 * Z.of_nat (S k')) by lia.
      rewrite Z.pow_add_r by lia. reflexivity. }
    destruct (IH (v / 128)) as (bs & He & Hby & Hlen & Hd & Hn & Hhi & Hlo); [lia|lia| |unfold two64 in *; lia|].
    { rewrite Hpow in Hlt. apply Z.div_lt_upper_bound; lia. }
    rewrite He. exists (v mod 128 + 128 :: bs). cbn [bind].
    split; [reflexivity|]. split; [constructor; [unfold is_byte; lia|exact Hby]|].
    split; [simpl; lia|].
    split.
    { intros rest. cbn [app vint_decode]. change (Z.shiftl 1 7) with 128.
      rewrite land128_big by lia. change (128 =? 0) with false. cbv iota. rewrite Hd. cbn [bind].
      f_equal. rewrite land127, shiftl7. unfold u64.
      replace ((v mod 128 + 128) mod 128) with (v mod 128) by lia.
      rewrite (Z.mod_small (v / 128 * 128)) by (unfold two64 in *; lia).
      rewrite (Z.mod_small (v mod 128)) by lia.
      rewrite lor_shift7 by lia. lia. }
    split.
    { intros rest. cbn [app vint_next]. change (Z.shiftl 1 7) with 128.
      rewrite land128_big by lia. apply Hn. }
    cbn [length].
    assert (Hp2 : 2 ^ (7 * Z.of_nat (S (length bs))) = 128 * 2 ^ (7 * Z.of_nat (length bs))).
    { replace (7 * Z.of_nat (S (length bs))) with (7 + 7 * Z.of_nat (length bs)) by lia.
      rewrite Z.pow_add_r by lia. reflexivity. }
    split.
    { rewrite Hp2. assert (v / 128 + 1 <= 2 ^ (7 * Z.of_nat (length bs))) by lia. lia. }
    right. replace (Z.of_nat (S (length bs)) - 1) with (Z.of_nat (length bs)) by lia.
    destruct Hlo as [H1|Hlo].
    + rewrite H1. change (2 ^ (7 * Z.of_nat 1)) with 128. lia.
    + replace (7 * Z.of_nat (length bs)) with (7 + 7 * (Z.of_nat (length bs) - 1)) by lia.
      rewrite Z.pow_add_r by lia. change (2^7) with 128.
      assert (128 * 2 ^ (7 * (Z.of_nat (length bs) - 1)) <= 128 * (v / 128)) by lia. lia.
Qed.

Lemma vint_roundtrip v : in_u64 v ->
  exists bs, (forall fuel, (10 <= fuel)%nat -> vint_encode fuel v = Ok bs)
    /\ Forall is_byte bs
    /\ (1 <= length bs <= 10)%nat
    /\ (forall rest, vint_decode (bs ++ rest) = Ok v)
    /\ (forall rest, vint_next (bs ++ rest) = Ok rest)
    /\ v < 2 ^ (7 * Z.of_nat (length bs))
    /\ (length bs = 1%nat \/ 2 ^ (7 * (Z.of_nat (length bs) - 1)) <= v).
Proof.
  intros [H0 H1].
  destruct (vint_roundtrip_gen 10 v) as (bs & He & Hrest); [lia|lia| |exact H1|].
  { change (2 ^ (7 * Z.of_nat 10)) with 1180591620717411303424. unfold two64 in H1. lia. }
  exists bs. split; [|exact Hrest].
  assert (Hmono : forall k v' r, vint_encode k v' = Ok r -> forall f, (k <= f)%nat -> vint_encode f v' = Ok r).
  { clear. induction k as [|k IH]; intros v' r H f Hf; [discriminate H|].
    destruct f as [|f]; [lia|]. cbn [vint_encode] in *.
    destruct (v' <=? 127); [exact H|].
    destruct (vint_encode k (Z.shiftr v' 7)) as [x|e| |] eqn:E; try discriminate H.
    rewrite (IH _ _ E f) by lia. exact H. }
  intros fuel Hf. exact (Hmono _ _ _ He fuel Hf).
Qed.
