From Verif Require Import Base Bytes.
Ltac Zify.zify_post_hook ::= Z.div_mod_to_equations.

Lemma le_bytes_length n : forall z, length (le_bytes n z) = n.
Proof. induction n; intros z; cbn; congruence. Qed.
Lemma enc8_length z : length (enc8 z) = 8%nat.
Proof. apply le_bytes_length. Qed.
Lemma le_value_bytes n : forall z, 0 <= z < 256 ^ Z.of_nat n -> le_value (le_bytes n z) = z.
Proof.
  induction n as [|n IH]; intros z H.
  - cbn in H. cbn. lia.
  - cbn [le_bytes le_value]. rewrite IH.
    + pose proof (Z.div_mod z 256). lia.
    + rewrite Nat2Z.inj_succ, Z.pow_succ_r in H by lia. split; [apply Z.div_pos; lia|]. apply Z.div_lt_upper_bound; lia.
Qed.
Lemma dec8_enc8 z : in_i64 z -> dec8 (enc8 z) = z.
Proof.
  intros H. unfold dec8, enc8. rewrite le_value_bytes.
  - unfold i64, u64, in_i64, int_min, int_max, two64 in *.
    rewrite Zplus_mod_idemp_l, Z.mod_small by lia. lia.
  - change (256 ^ Z.of_nat 8) with two64. unfold u64. apply Z.mod_pos_bound. reflexivity.
Qed.
Lemma enc8_bytes z : Forall is_byte (enc8 z).
Proof.
  unfold enc8. generalize (u64 z). generalize 8%nat. induction n; intros x; constructor; auto.
  unfold is_byte. apply Z.mod_pos_bound. lia.
Qed.
