(** Facts about the conversion of ints to doubles and about comparison of doubles. *)
From Coq Require Import Zpower.
From Verif Require Import Base Value ValueProofs.
Ltac Zify.zify_post_hook ::= Z.div_mod_to_equations.

Lemma digits2_bounds p : 2 ^ (Z.pos (digits2_pos p) - 1) <= Z.pos p < 2 ^ Z.pos (digits2_pos p).
Proof.
  induction p as [p IH|p IH|]; cbn [digits2_pos].
  - rewrite Pos2Z.inj_succ. replace (Z.succ (Z.pos (digits2_pos p)) - 1) with (Z.succ (Z.pos (digits2_pos p) - 1)) by lia.
    rewrite !Z.pow_succ_r by lia. lia.
  - rewrite Pos2Z.inj_succ. replace (Z.succ (Z.pos (digits2_pos p)) - 1) with (Z.succ (Z.pos (digits2_pos p) - 1)) by lia.
    rewrite !Z.pow_succ_r by lia. lia.
  - cbn. lia.
Qed.

Lemma digits2_unique p d : 0 < d -> 2 ^ (d - 1) <= Z.pos p < 2 ^ d -> Z.pos (digits2_pos p) = d.
Proof.
  intros Hd H. pose proof (digits2_bounds p) as B.
  destruct (Z.lt_trichotomy (Z.pos (digits2_pos p)) d) as [L|[E|L]]; [|assumption|].
  - assert (2 ^ Z.pos (digits2_pos p) <= 2 ^ (d - 1)) by (apply Z.pow_le_mono_r; lia). lia.
  - assert (2 ^ d <= 2 ^ (Z.pos (digits2_pos p) - 1)) by (apply Z.pow_le_mono_r; lia). lia.
Qed.

Definition D2 (p : positive) : Z := Z.pos (digits2_pos p).

(** The double of a positive int below 2^53: 53-bit mantissa, exact. *)
Lemma of_pos_exact s p : Z.pos p < 2 ^ 53 ->
  exists m, binary_round fprec femax s p 0 = S754_finite s m (D2 p - 53) /\ Z.pos m = Z.pos p * 2 ^ (53 - D2 p)
            /\ 2 ^ 52 <= Z.pos m < 2 ^ 53 /\ 1 <= D2 p <= 53.
Proof.
  intros Hp. pose proof (digits2_bounds p) as B. fold (D2 p) in B.
  assert (Hd : 1 <= D2 p <= 53).
  { split; [unfold D2; lia|]. destruct (Z_le_gt_dec (D2 p) 53); [assumption|].
    assert (2 ^ 53 <= 2 ^ (D2 p - 1)) by (apply Z.pow_le_mono_r; lia). lia. }
  set (q := 2 ^ (53 - D2 p)). assert (Hq : 0 < q) by (apply Z.pow_pos_nonneg; lia).
  assert (E52 : 2 ^ (D2 p - 1) * q = 2 ^ 52) by (unfold q; rewrite <- Z.pow_add_r by lia; f_equal; lia).
  assert (E53 : 2 ^ D2 p * q = 2 ^ 53) by (unfold q; rewrite <- Z.pow_add_r by lia; f_equal; lia).
  assert (Hsh : exists m, shl_align p 0 (fexp fprec femax (Z.pos (digits2_pos p) + 0)) = (m, D2 p - 53) /\ Z.pos m = Z.pos p * q).
  { unfold shl_align. fold (D2 p).
    assert (Ef : fexp fprec femax (D2 p + 0) = D2 p - 53) by (unfold fexp, emin, fprec, femax; lia).
    rewrite Ef. destruct (D2 p - 53 - 0) as [|k|k] eqn:Ek.
    - exists p. split; [f_equal; lia|]. assert (D2 p = 53) by lia. unfold q. rewrite H. change (2 ^ (53 - 53)) with 1. lia.
    - lia.
    - exists (shift_pos k p). split; [reflexivity|]. rewrite shift_pos_correct. rewrite Z.mul_comm. f_equal.
      unfold q. replace (53 - D2 p) with (Z.pos k) by lia. reflexivity. }
  destruct Hsh as (m & Es & Em). exists m.
  assert (Hm : 2 ^ 52 <= Z.pos m < 2 ^ 53) by (rewrite Em; nia).
  split; [|split; [exact Em|split; [exact Hm|exact Hd]]].
  unfold binary_round. rewrite Es. unfold binary_round_aux.
  assert (Hdm : Z.pos (digits2_pos m) = 53) by (apply digits2_unique; [lia|exact Hm]).
  assert (Hsf : shr_fexp fprec femax (Z.pos m) (D2 p - 53) loc_Exact = ({| shr_m := Z.pos m; shr_r := false; shr_s := false |}, D2 p - 53)).
  { unfold shr_fexp. cbn [Zdigits2]. rewrite Hdm.
    assert (fexp fprec femax (53 + (D2 p - 53)) - (D2 p - 53) = 0) as -> by (unfold fexp, emin, fprec, femax; lia).
    reflexivity. }
  rewrite Hsf. cbn [shr_m loc_of_shr_record round_nearest_even]. rewrite Hsf. cbn [shr_m].
  unfold fprec, femax. destruct (Zle_bool (D2 p - 53) (1024 - 53)) eqn:L; [reflexivity|lia].
Qed.

Lemma of_int_exact i : Z.abs i < 2 ^ 53 ->
  match i with
  | 0 => f_of_int i = S754_zero false
  | Z.pos p => exists m, f_of_int i = S754_finite false m (D2 p - 53) /\ Z.pos m = Z.pos p * 2 ^ (53 - D2 p) /\ 1 <= D2 p <= 53
  | Z.neg p => exists m, f_of_int i = S754_finite true m (D2 p - 53) /\ Z.pos m = Z.pos p * 2 ^ (53 - D2 p) /\ 1 <= D2 p <= 53
  end.
Proof.
  destruct i as [|p|p]; intros H; [reflexivity| |].
  - destruct (of_pos_exact false p H) as (m & E & A & _ & B). exists m. auto.
  - destruct (of_pos_exact true p H) as (m & E & A & _ & B). exists m. auto.
Qed.

Lemma pos_compare p p' m m' : 
  Z.pos m = Z.pos p * 2 ^ (53 - D2 p) -> Z.pos m' = Z.pos p' * 2 ^ (53 - D2 p') -> 1 <= D2 p <= 53 -> 1 <= D2 p' <= 53 ->
  (match Z.compare (D2 p - 53) (D2 p' - 53) with Lt => Lt | Gt => Gt | Eq => Pos.compare_cont Eq m m' end) = Z.compare (Z.pos p) (Z.pos p').
Proof.
  intros Em Em' Hd Hd'. pose proof (digits2_bounds p) as B. pose proof (digits2_bounds p') as B'. fold (D2 p) in B. fold (D2 p') in B'.
  destruct (Z.compare_spec (D2 p - 53) (D2 p' - 53)) as [E|E|E].
  - assert (D2 p = D2 p') as Ed by lia. rewrite Ed in Em. change (Pos.compare_cont Eq m m') with (Z.pos m ?= Z.pos m').
    rewrite Em, Em'. set (q := 2 ^ (53 - D2 p')) in *. assert (0 < q) by (apply Z.pow_pos_nonneg; lia).
    rewrite <- !(Z.mul_comm q). symmetry. apply Zmult_compare_compat_l. lia.
  - symmetry. apply Z.compare_lt_iff. assert (2 ^ D2 p <= 2 ^ (D2 p' - 1)) by (apply Z.pow_le_mono_r; lia). lia.
  - symmetry. apply Z.compare_gt_iff. assert (2 ^ D2 p' <= 2 ^ (D2 p - 1)) by (apply Z.pow_le_mono_r; lia). lia.
Qed.

(** Doubles of ints below 2^53 in magnitude compare exactly as the ints. *)
Lemma of_int_compare x y : Z.abs x < 2 ^ 53 -> Z.abs y < 2 ^ 53 -> SFcompare (f_of_int x) (f_of_int y) = Some (x ?= y).
Proof.
  intros Hx Hy. pose proof (of_int_exact x Hx) as Ex. pose proof (of_int_exact y Hy) as Ey.
  destruct x as [|p|p], y as [|p'|p'].
  - rewrite Ex. reflexivity.
  - destruct Ey as (m & -> & _). rewrite Ex. reflexivity.
  - destruct Ey as (m & -> & _). rewrite Ex. reflexivity.
  - destruct Ex as (m & -> & _). rewrite Ey. reflexivity.
  - destruct Ex as (m & -> & A & B), Ey as (m' & -> & A' & B'). cbn [SFcompare]. f_equal.
    apply pos_compare; assumption.
  - destruct Ex as (m & -> & _), Ey as (m' & -> & _). reflexivity.
  - destruct Ex as (m & -> & _). rewrite Ey. reflexivity.
  - destruct Ex as (m & -> & _), Ey as (m' & -> & _). reflexivity.
  - destruct Ex as (m & -> & A & B), Ey as (m' & -> & A' & B'). cbn [SFcompare].
    pose proof (pos_compare p p' m m' A A' B B') as C. cbn [Z.compare]. change (p ?= p')%positive with (Z.pos p ?= Z.pos p').
    rewrite <- C. destruct (D2 p - 53 ?= D2 p' - 53); reflexivity.
Qed.

Lemma of_int_eqb x y : Z.abs x < 2 ^ 53 -> Z.abs y < 2 ^ 53 -> f_eqb (f_of_int x) (f_of_int y) = (x =? y).
Proof.
  intros Hx Hy. unfold f_eqb, SFeqb. rewrite of_int_compare by assumption. rewrite Z.eqb_compare. destruct (x ?= y); reflexivity.
Qed.
Lemma of_int_ltb x y : Z.abs x < 2 ^ 53 -> Z.abs y < 2 ^ 53 -> f_ltb (f_of_int x) (f_of_int y) = (x <? y).
Proof. intros Hx Hy. unfold f_ltb, SFltb. rewrite of_int_compare by assumption. reflexivity. Qed.
Lemma of_int_leb x y : Z.abs x < 2 ^ 53 -> Z.abs y < 2 ^ 53 -> f_leb (f_of_int x) (f_of_int y) = (x <=? y).
Proof. intros Hx Hy. unfold f_leb, SFleb. rewrite of_int_compare by assumption. unfold Z.leb. destruct (x ?= y); reflexivity. Qed.

(** ** The 64 bits determine a (valid) double *)
Definition f_valid (f : float) : bool := valid_binary fprec femax f.

Lemma valid_finite s m e : f_valid (S754_finite s m e) = true ->
  Z.pos m < 2 ^ 53 /\ -1074 <= e <= 971 /\ (2 ^ 52 <= Z.pos m \/ e = -1074).
Proof.
  unfold f_valid, valid_binary, bounded, canonical_mantissa. rewrite andb_true_iff. intros [A B].
  apply Zeq_bool_eq in A. unfold fexp, emin, fprec, femax in *. change (Zle_bool e 971 = true) in B. apply Zle_bool_imp_le in B.
  pose proof (digits2_bounds m) as D. set (d := Z.pos (digits2_pos m)) in *. assert (Hd0 : 1 <= d) by (unfold d; lia).
  assert (d <= 53) as Hd by lia.
  assert (2 ^ d <= 2 ^ 53) by (apply Z.pow_le_mono_r; lia). split; [lia|]. split; [lia|].
  destruct (Z.eq_dec d 53) as [E|E]; [left; rewrite E in D; exact (proj1 D)|right; lia].
Qed.

Lemma f_bits_inj f g : f_valid f = true -> f_valid g = true -> f_bits f = f_bits g -> f = g.
Proof.
  intros Vf Vg E.
  assert (R : forall s m e, f_valid (S754_finite s m e) = true ->
    exists b, f_bits (S754_finite s m e) = (if s then 9223372036854775808 else 0) + b /\ 0 < b < 9218868437227405312 /\
      (Z.pos m < 2 ^ 52 /\ e = -1074 /\ b = Z.pos m \/ 2 ^ 52 <= Z.pos m < 2 ^ 53 /\ -1074 <= e <= 971 /\ b = (e + 1075) * 4503599627370496 + (Z.pos m - 4503599627370496))).
  { intros s m e V. apply valid_finite in V. destruct V as (A & B & C). cbn [f_bits].
    change (2 ^ 52) with 4503599627370496 in *. change (2 ^ 53) with 9007199254740992 in *.
    destruct (Z.ltb_spec (Z.pos m) 4503599627370496).
    - eexists. split; [reflexivity|]. split; [lia|]. left. lia.
    - eexists. split; [reflexivity|]. split; [lia|]. right. lia. }
  change (2 ^ 52) with 4503599627370496 in *. change (2 ^ 53) with 9007199254740992 in *.
  destruct f as [s|s| |s m e].
  1-3: destruct g as [s'|s'| |s' m' e']; [..|destruct (R _ _ _ Vg) as (b & Eb & Rb & _); rewrite Eb in E];
       cbn [f_bits] in E; repeat match goal with x : bool |- _ => destruct x end; try reflexivity; lia.
  destruct (R _ _ _ Vf) as (b & Eb & Rb & Cb). rewrite Eb in E.
  destruct g as [s'|s'| |s' m' e'].
  1-3: cbn [f_bits] in E; repeat match goal with x : bool |- _ => destruct x end; lia.
  destruct (R _ _ _ Vg) as (b' & Eb' & Rb' & Cb'). rewrite Eb' in E. clear R Eb Eb' Vf Vg.
  assert (s = s') by (destruct s, s'; try reflexivity; lia). subst s'.
  assert (b = b') by lia. subst b'.
  assert (e = e' /\ Z.pos m = Z.pos m') as [-> Hm] by (destruct Cb as [Cb|Cb], Cb' as [Cb'|Cb']; lia).
  injection Hm as ->. reflexivity.
Qed.
