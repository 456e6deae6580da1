From Verif Require Import Base Value ValueProofs Ops.
Ltac Zify.zify_post_hook ::= Z.div_mod_to_equations.

Lemma in_i64b_iff z : in_i64b z = true <-> in_i64 z.
Proof. unfold in_i64b, in_i64. rewrite andb_true_iff, !Z.leb_le. tauto. Qed.

Lemma sint_ok z : in_i64 z -> sint z = Ok (VInt z).
Proof. intros H. unfold sint. apply in_i64b_iff in H. rewrite H. reflexivity. Qed.
Lemma sint_ub z : ~ in_i64 z -> sint z = UB.
Proof. intros H. unfold sint. destruct (in_i64b z) eqn:E; [|reflexivity]. apply in_i64b_iff in E. contradiction. Qed.

Lemma arith_exact w a b :
  (in_i64 (a + b) -> exec_binop w BAdd (VInt a) (VInt b) = Ok (VInt (a + b))) /\
  (in_i64 (a - b) -> exec_binop w BSub (VInt a) (VInt b) = Ok (VInt (a - b))) /\
  (in_i64 (a * b) -> exec_binop w BMul (VInt a) (VInt b) = Ok (VInt (a * b))) /\
  (~ in_i64 (a + b) -> exec_binop w BAdd (VInt a) (VInt b) = UB) /\
  (~ in_i64 (a - b) -> exec_binop w BSub (VInt a) (VInt b) = UB) /\
  (~ in_i64 (a * b) -> exec_binop w BMul (VInt a) (VInt b) = UB) /\
  (a <> int_min -> in_i64 a -> exec_unop w UNeg (VInt a) = Ok (VInt (- a))).
Proof.
  cbn [exec_binop vm_num_binop int_binop exec_unop]. repeat split; intros; try (apply sint_ok; assumption); try (apply sint_ub; assumption).
  apply sint_ok. unfold in_i64, int_min, int_max in *. lia.
Qed.

Lemma quot_range a b : in_i64 a -> in_i64 b -> b <> 0 -> ~ (a = int_min /\ b = -1) -> in_i64 (Z.quot a b).
Proof.
  intros Ha Hb Hb0 Hc. unfold in_i64, int_min, int_max in *.
  pose proof (Z.quot_abs a b Hb0). destruct (Z.eq_dec b (-1)) as [->|H1].
  - replace (Z.quot a (-1)) with (- a); [lia|]. change (-1) with (- (1)). rewrite Z.quot_opp_r by lia. rewrite Z.quot_1_r. reflexivity.
  - destruct (Z.eq_dec b 1) as [->|H2]; [rewrite Z.quot_1_r; lia|].
    assert (Z.abs (Z.quot a b) <= Z.abs a / 2).
    { rewrite <- H. rewrite Z.quot_div_nonneg by lia. apply Z.div_le_compat_l; lia. }
    lia.
Qed.

Lemma divmod_spec w a b : in_i64 a -> in_i64 b ->
  (b = 0 -> exec_binop w BIdiv (VInt a) (VInt b) = Err EDivZero /\ exec_binop w BMod (VInt a) (VInt b) = Err EDivZero) /\
  (b <> 0 -> ~ (a = int_min /\ b = -1) -> exists q r,
     exec_binop w BIdiv (VInt a) (VInt b) = Ok (VInt q) /\ exec_binop w BMod (VInt a) (VInt b) = Ok (VInt r) /\
     a = q * b + r /\ Z.abs r < Z.abs b /\ (r = 0 \/ Z.sgn r = Z.sgn a) /\ Z.abs (q * b) <= Z.abs a) /\
  (a = int_min /\ b = -1 -> exec_binop w BIdiv (VInt a) (VInt b) = UB /\ exec_binop w BMod (VInt a) (VInt b) = UB).
Proof.
  intros Ha Hb. cbn [exec_binop vm_divmod]. split; [|split].
  - intros ->. split; reflexivity.
  - intros Hb0 Hc. destruct (Z.eqb_spec b 0); [contradiction|]. cbn [vm_int_binop int_binop].
    destruct (Z.eqb_spec b 0); [contradiction|]. pose proof (quot_range a b Ha Hb Hb0 Hc) as Hq.
    exists (Z.quot a b), (Z.rem a b). split; [apply sint_ok; assumption|]. split.
    { apply in_i64b_iff in Hq. rewrite Hq. reflexivity. }
    pose proof (Z.quot_rem' a b). pose proof (Z.rem_bound_abs a b Hb0).
    split; [lia|]. split; [assumption|]. split.
    + destruct (Z.eq_dec (Z.rem a b) 0); [left; assumption|right]. apply Z.rem_sign_nz; assumption.
    + rewrite Z.abs_mul. rewrite <- Z.quot_abs by assumption. rewrite Z.quot_div_nonneg by lia.
      pose proof (Z.mul_div_le (Z.abs a) (Z.abs b) ltac:(lia)). lia.
  - intros [-> ->]. cbn. vm_compute. auto.
Qed.

Lemma bits_spec w a b i : 0 <= i ->
  (exists r, exec_binop w BOr (VInt a) (VInt b) = Ok (VInt r) /\ Z.testbit r i = Z.testbit a i || Z.testbit b i) /\
  (exists r, exec_binop w BAnd (VInt a) (VInt b) = Ok (VInt r) /\ Z.testbit r i = Z.testbit a i && Z.testbit b i) /\
  (exists r, exec_binop w BXor (VInt a) (VInt b) = Ok (VInt r) /\ Z.testbit r i = xorb (Z.testbit a i) (Z.testbit b i)) /\
  (exists r, exec_binop w BAndNot (VInt a) (VInt b) = Ok (VInt r) /\ Z.testbit r i = Z.testbit a i && negb (Z.testbit b i)) /\
  (exists r, exec_unop w UBnot (VInt a) = Ok (VInt r) /\ Z.testbit r i = negb (Z.testbit a i)) /\
  (0 <= b < 64 -> exists r, exec_binop w BShr (VInt a) (VInt b) = Ok (VInt r) /\ Z.testbit r i = Z.testbit a (i + b)) /\
  (0 <= b < 64 -> 0 <= a -> a * 2 ^ b <= int_max -> exec_binop w BShl (VInt a) (VInt b) = Ok (VInt (a * 2 ^ b))).
Proof.
  intros Hi. cbn [exec_binop vm_int_binop int_binop exec_unop].
  split; [eexists; split; [reflexivity|apply Z.lor_spec]|].
  split; [eexists; split; [reflexivity|apply Z.land_spec]|].
  split; [eexists; split; [reflexivity|apply Z.lxor_spec]|].
  split; [eexists; split; [reflexivity|rewrite Z.land_spec, Z.lnot_spec by assumption; reflexivity]|].
  split; [eexists; split; [reflexivity|rewrite Z.lnot_spec by assumption; reflexivity]|].
  split.
  - intros Hb. replace ((0 <=? b) && (b <? 64)) with true by lia. eexists. split; [reflexivity|]. apply Z.shiftr_spec. assumption.
  - intros Hb Ha Hm. replace ((0 <=? b) && (b <? 64) && (0 <=? a)) with true by lia. rewrite Z.shiftl_mul_pow2 by lia.
    apply sint_ok. unfold in_i64, int_min. assert (0 <= 2 ^ b) by (apply Z.pow_nonneg; lia). nia.
Qed.

(** closure: bitwise results of 64-bit operands are 64-bit *)
Lemma i64_high_bits z : in_i64 z <-> (forall i, 63 <= i -> Z.testbit z i = Z.testbit z 63).
Proof.
  unfold in_i64, int_min, int_max. split.
  - intros H i Hi. assert (E : Z.shiftr z 63 = 0 \/ Z.shiftr z 63 = -1).
    { rewrite Z.shiftr_div_pow2 by lia. change (2 ^ 63) with 9223372036854775808. lia. }
    replace i with ((i - 63) + 63) by lia. replace 63 with (0 + 63) at 3 by lia.
    rewrite <- !Z.shiftr_spec by lia. destruct E as [-> | ->]; [rewrite !Z.bits_0; reflexivity|rewrite !Z.bits_m1 by lia; reflexivity].
  - intros H. assert (E : Z.shiftr z 63 = 0 \/ Z.shiftr z 63 = -1).
    { destruct (Z.testbit z 63) eqn:B; [right|left]; apply Z.bits_inj'; intros n Hn; rewrite Z.shiftr_spec by lia;
        rewrite H by lia; [rewrite Z.bits_m1 by lia|rewrite Z.bits_0]; reflexivity. }
    rewrite Z.shiftr_div_pow2 in E by lia. change (2 ^ 63) with 9223372036854775808 in E. lia.
Qed.

Lemma bit_closed w a b : in_i64 a -> in_i64 b ->
  forall op v, In op [BOr; BXor; BAnd; BAndNot; BShr; BShl; BAdd; BSub; BMul; BIdiv; BMod] ->
  exec_binop w op (VInt a) (VInt b) = Ok v -> exists r, v = VInt r /\ in_i64 r.
Proof.
  intros Ha Hb op v Hop E. pose proof (proj1 (i64_high_bits a) Ha) as Ba. pose proof (proj1 (i64_high_bits b) Hb) as Bb.
  cbn [In] in Hop.
  assert (S : forall z, sint z = Ok v -> exists r, v = VInt r /\ in_i64 r).
  { intros z. unfold sint. destruct (in_i64b z) eqn:I; [|discriminate]. intros E'. injection E' as <-. exists z. split; [reflexivity|apply in_i64b_iff; assumption]. }
  repeat (destruct Hop as [<-|Hop]; cbn [exec_binop vm_int_binop vm_num_binop vm_divmod int_binop] in E).
  - injection E as <-. eexists; split; [reflexivity|]. apply i64_high_bits. intros i Hi. rewrite !Z.lor_spec, Ba, Bb by lia. reflexivity.
  - injection E as <-. eexists; split; [reflexivity|]. apply i64_high_bits. intros i Hi. rewrite !Z.lxor_spec, Ba, Bb by lia. reflexivity.
  - injection E as <-. eexists; split; [reflexivity|]. apply i64_high_bits. intros i Hi. rewrite !Z.land_spec, Ba, Bb by lia. reflexivity.
  - injection E as <-. eexists; split; [reflexivity|]. apply i64_high_bits. intros i Hi. rewrite !Z.land_spec, !Z.lnot_spec, Ba, Bb by lia. reflexivity.
  - destruct ((0 <=? b) && (b <? 64)) eqn:R; [|discriminate E]. injection E as <-. eexists; split; [reflexivity|]. apply i64_high_bits.
    intros i Hi. rewrite !Z.shiftr_spec by lia. rewrite Ba by lia. symmetry. apply Ba. lia.
  - destruct ((0 <=? b) && (b <? 64) && (0 <=? a)); [|discriminate E]. eapply S; eassumption.
  - eapply S; eassumption.
  - eapply S; eassumption.
  - eapply S; eassumption.
  - destruct (b =? 0) eqn:B0; [discriminate E|]. eapply S; eassumption.
  - destruct (b =? 0) eqn:B0; [discriminate E|]. cbn [orb] in E. destruct (negb (in_i64b (Z.quot a b))); [discriminate E|]. injection E as <-.
    eexists; split; [reflexivity|]. pose proof (Z.rem_bound_abs a b ltac:(lia)). unfold in_i64, int_min, int_max in *. lia.
  - destruct Hop.
Qed.

Lemma mixed_spec w op x y f g : In op [BAdd; BSub; BMul; BFdiv; BGt; BGe; BLt; BLe; BEq] ->
  exec_binop w op (VInt x) (VFloat g) = exec_binop w op (VFloat (f_of_int x)) (VFloat g) /\
  exec_binop w op (VFloat f) (VInt y) = exec_binop w op (VFloat f) (VFloat (f_of_int y)).
Proof. cbn [In]. intros Hop. repeat (destruct Hop as [<-|Hop]; [split; reflexivity|]). destruct Hop. Qed.

(** *** Equality *)
Lemma f_eqb_sym a b : f_eqb a b = f_eqb b a.
Proof.
  destruct (f_eqb a b) eqn:E; destruct (f_eqb b a) eqn:E'; try reflexivity.
  - rewrite f_eqb_spec in E. assert (f_eqb b a = true); [|congruence]. rewrite f_eqb_spec.
    destruct a as [s|s| |s m e], b as [s'|s'| |s' m' e']; try tauto; try congruence.
  - rewrite f_eqb_spec in E'. assert (f_eqb a b = true); [|congruence]. rewrite f_eqb_spec.
    destruct a as [s|s| |s m e], b as [s'|s'| |s' m' e']; try tauto; try congruence.
Qed.

Lemma str_cmp_eqb_sym s t : (str_cmp s t =? 0) = (str_cmp t s =? 0).
Proof.
  destruct (str_cmp s t =? 0) eqn:E; destruct (str_cmp t s =? 0) eqn:E'; try reflexivity.
  - apply Z.eqb_eq, str_cmp_eq in E. subst. apply Z.eqb_neq in E'. destruct E'. apply str_cmp_eq. reflexivity.
  - apply Z.eqb_eq, str_cmp_eq in E'. subst. apply Z.eqb_neq in E. destruct E. apply str_cmp_eq. reflexivity.
Qed.

Lemma is_equal_sym a b : is_equal a b = is_equal b a.
Proof.
  destruct a, b; cbn [is_equal]; try reflexivity; try apply f_eqb_sym; try apply Z.eqb_sym; try apply str_cmp_eqb_sym.
  destruct b, b0; reflexivity.
Qed.

From Verif Require Import ValueSpec FloatFacts.

Lemma f_eqb_same f g : f_eqb f g = true <-> same_number f g.
Proof.
  rewrite f_eqb_spec. unfold same_number.
  destruct f as [s|s| |s m e], g as [s'|s'| |s' m' e']; split; intros H; try tauto;
    try (destruct H as (A & B & [C|[[x C] [y D]]]); congruence);
    try (split; [discriminate|split; [discriminate|]]; try (left; assumption); right; split; eexists; reflexivity).
Qed.

Lemma is_equal_spec a b : is_equal a b = true <-> spec_eq a b.
Proof.
  destruct a, b; cbn [is_equal spec_eq get_num]; try (split; [discriminate|tauto]); try tauto;
    try apply f_eqb_same; try apply Z.eqb_eq.
  - apply Bool.eqb_true_iff.
  - rewrite Z.eqb_eq. apply str_cmp_eq.
Qed.

Lemma eq_prim w a b : prim a -> prim b -> exec_binop w BEq a b = Ok (VBool (is_equal a b)).
Proof. destruct a, b; cbn; try tauto; reflexivity. Qed.

Lemma eq_full w a b : prim a -> prim b ->
  exists r, exec_binop w BEq a b = Ok (VBool r) /\ exec_binop w BEq b a = Ok (VBool r) /\ (r = true <-> spec_eq a b).
Proof.
  intros Ha Hb. exists (is_equal a b). rewrite !eq_prim by assumption. rewrite (is_equal_sym b a).
  split; [reflexivity|]. split; [reflexivity|apply is_equal_spec].
Qed.

Lemma eq_refl_full w a : prim a -> exists r, exec_binop w BEq a a = Ok (VBool r) /\ (r = true <-> a <> VFloat S754_nan).
Proof.
  intros Ha. exists (is_equal a a). rewrite eq_prim by assumption. split; [reflexivity|]. rewrite is_equal_spec.
  destruct a; cbn in *; try tauto; try (split; [intros; discriminate|intros; reflexivity]); try (split; [intros _; discriminate|tauto]).
  unfold same_number. split; [intros (H & _) E; injection E; auto|intros H].
  assert (f <> S754_nan) by congruence. auto.
Qed.

Lemma eq_int_float w x y : Z.abs x < 2 ^ 53 -> Z.abs y < 2 ^ 53 ->
  exec_binop w BEq (VInt x) (VFloat (f_of_int y)) = Ok (VBool (x =? y)).
Proof. intros Hx Hy. cbn. rewrite of_int_eqb by assumption. reflexivity. Qed.

Lemma comp_int_float w x y : Z.abs x < 2 ^ 53 -> Z.abs y < 2 ^ 53 ->
  exec_binop w BLt (VInt x) (VFloat (f_of_int y)) = Ok (VBool (x <? y)) /\
  exec_binop w BLe (VInt x) (VFloat (f_of_int y)) = Ok (VBool (x <=? y)) /\
  exec_binop w BGt (VInt x) (VFloat (f_of_int y)) = Ok (VBool (y <? x)) /\
  exec_binop w BGe (VInt x) (VFloat (f_of_int y)) = Ok (VBool (y <=? x)).
Proof. intros Hx Hy. cbn. rewrite !of_int_ltb, !of_int_leb by assumption. auto. Qed.

Lemma int_compare w x y :
  exec_binop w BLt (VInt x) (VInt y) = Ok (VBool (x <? y)) /\ exec_binop w BLe (VInt x) (VInt y) = Ok (VBool (x <=? y)) /\
  exec_binop w BGt (VInt x) (VInt y) = Ok (VBool (y <? x)) /\ exec_binop w BGe (VInt x) (VInt y) = Ok (VBool (y <=? x)).
Proof. cbn. auto. Qed.

(** === *)
Lemma id_spec w a b : (forall s t, w_strid w s t = true -> s = t) -> prim a -> prim b ->
  (forall f, a = VFloat f \/ b = VFloat f -> f_valid f = true) ->
  exists r, exec_binop w BId a b = Ok (VBool r) /\
    (r = true -> vtype a = vtype b /\ (a = VFloat S754_nan \/ exec_binop w BEq a b = Ok (VBool true))) /\
    (r = false -> (forall s, a <> VStr s) -> (forall f, a <> VFloat f) -> vtype a = vtype b -> exec_binop w BEq a b = Ok (VBool false)).
Proof.
  intros Hs Ha Hb Hv. exists (same_bits w a b). split; [reflexivity|]. rewrite eq_prim by assumption. split.
  - intros E. destruct a, b; cbn [same_bits] in E; try discriminate E; cbn in Ha; try contradiction; (split; [reflexivity|]).
    + right. reflexivity.
    + apply Z.eqb_eq in E. apply f_bits_inj in E; [|apply Hv; auto..]. subst f0.
      destruct (spec_float_eq_dec f S754_nan) as [->|N]; [left; reflexivity|right].
      do 2 f_equal. apply is_equal_spec. cbn. unfold same_number. auto.
    + right. cbn. rewrite E. reflexivity.
    + right. cbn. rewrite E. reflexivity.
    + right. apply Hs in E. subst. do 2 f_equal. apply is_equal_spec. reflexivity.
    + right. cbn. rewrite E. reflexivity.
  - intros E Ns Nf Ht. destruct a, b; cbn in Ht; try discriminate Ht; cbn in Ha; try contradiction; cbn [same_bits] in E; try discriminate E.
    + destruct (Nf f). reflexivity.
    + cbn. rewrite E. reflexivity.
    + cbn. rewrite E. reflexivity.
    + destruct (Ns s). reflexivity.
    + cbn. rewrite E. reflexivity.
Qed.

Lemma id_refuted : exists w,
  (forall s t, w_strid w s t = true -> s = t) /\
  exec_binop w BId (VFloat S754_nan) (VFloat S754_nan) = Ok (VBool true) /\
  exec_binop w BEq (VFloat S754_nan) (VFloat S754_nan) = Ok (VBool false) /\
  exec_binop w BId (VFloat (S754_zero false)) (VFloat (S754_zero true)) = Ok (VBool false) /\
  exec_binop w BEq (VFloat (S754_zero false)) (VFloat (S754_zero true)) = Ok (VBool true) /\
  exec_binop w BId (VStr [97]) (VStr [97]) = Ok (VBool false) /\
  exec_binop w BEq (VStr [97]) (VStr [97]) = Ok (VBool true).
Proof.
  exists (World (fun a _ => a) (fun _ _ _ => Err EType) (fun _ _ => Err EType) (fun _ => Err EType) (fun _ _ => false)).
  split; [discriminate|]. vm_compute. auto 10.
Qed.

Lemma eq_not_transitive : exists w a b c,
  exec_binop w BEq a b = Ok (VBool true) /\ exec_binop w BEq b c = Ok (VBool true) /\ exec_binop w BEq a c = Ok (VBool false).
Proof.
  exists (World (fun a _ => a) (fun _ _ _ => Err EType) (fun _ _ => Err EType) (fun _ => Err EType) (fun _ _ => false)).
  exists (VInt 9007199254740993), (VFloat (f_of_int 9007199254740992)), (VInt 9007199254740992). vm_compute. auto.
Qed.

(** *** Truthiness *)
Lemma falsey_spec v : is_falsey v = true <-> spec_false v.
Proof.
  unfold spec_false. destruct v; cbn [is_falsey]; try (split; [discriminate|intros [H|[H|[H|H]]]; discriminate H]).
  - split; [auto|reflexivity].
  - rewrite negb_true_iff. split.
    + intros H. right. right. right. f_equal. destruct (spec_float_eq_dec f S754_nan) as [->|N]; [reflexivity|].
      assert (f_eqb f f = true) by (apply f_eqb_same; unfold same_number; auto). congruence.
    + intros [H|[H|[H|H]]]; try discriminate H. injection H as ->. reflexivity.
  - destruct b; cbn; split; auto; try discriminate. intros [H|[H|[H|H]]]; discriminate H.
  - split.
    + destruct s; [auto|discriminate].
    + intros [H|[H|[H|H]]]; try discriminate H. injection H as ->. reflexivity.
Qed.

Lemma not_spec w v : exists r, exec_unop w UNot v = Ok (VBool r) /\ (r = true <-> spec_false v).
Proof. exists (is_falsey v). split; [reflexivity|apply falsey_spec]. Qed.
