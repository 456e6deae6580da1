From Coq Require Import Znumtheory.
From Verif Require Import Base Value ValueSpec Ops Prime PrimeProofs MathLib FloatOrder.

Lemma gcd_loop_ok fuel : forall a b r, 0 < a -> 0 < b -> gcd_loop fuel a b = Ok r -> r = Z.gcd a b.
Proof.
  induction fuel as [|k IH]; intros a b r Ha Hb; cbn [gcd_loop]; [discriminate|].
  destruct (Z.eqb_spec b 0); [lia|].
  assert (G : Z.gcd a b = Z.gcd b (Z.rem a b)).
  { rewrite Z.rem_mod_nonneg by lia. rewrite (Z.gcd_comm b (a mod b)), Z.gcd_mod by lia. apply Z.gcd_comm. }
  pose proof (Z.rem_bound_pos a b ltac:(lia) Hb).
  destruct (Z.eqb_spec (Z.rem a b) 0) as [E|E].
  - intros [= <-]. rewrite G, E, Z.gcd_0_r. lia.
  - intros H1. rewrite G. apply IH; [lia|lia|exact H1].
Qed.
Lemma gcd_loop_total fuel : forall a b, 0 < a -> 0 < b -> b <= Z.of_nat fuel -> exists r, gcd_loop fuel a b = Ok r.
Proof.
  induction fuel as [|k IH]; intros a b Ha Hb Hf; cbn [gcd_loop]; [lia|].
  destruct (Z.eqb_spec b 0); [lia|]. pose proof (Z.rem_bound_pos a b ltac:(lia) Hb).
  destruct (Z.eqb_spec (Z.rem a b) 0) as [E|E]; [eauto|]. apply IH; lia.
Qed.
Lemma gcd_helper_ok fuel a b r : 0 < a -> 0 < b -> gcd_helper fuel a b = Ok r -> r = Z.gcd a b.
Proof.
  intros Ha Hb. unfold gcd_helper. destruct (a <? b); intros H.
  - rewrite Z.gcd_comm. eapply gcd_loop_ok; eauto.
  - eapply gcd_loop_ok; eauto.
Qed.
Lemma gcd_helper_total a b : 0 < a -> 0 < b -> exists fuel, gcd_helper fuel a b = Ok (Z.gcd a b).
Proof.
  intros Ha Hb. exists (Z.to_nat (a + b)).
  assert (exists r, gcd_helper (Z.to_nat (a + b)) a b = Ok r) as (r & Hr).
  { unfold gcd_helper. destruct (a <? b); apply gcd_loop_total; lia. }
  rewrite Hr. f_equal. eapply gcd_helper_ok; eauto.
Qed.
Lemma gcd_helper_not_ub fuel a b : 0 < a -> 0 < b -> gcd_helper fuel a b = NoFuel \/ gcd_helper fuel a b = Ok (Z.gcd a b).
Proof.
  intros Ha Hb. destruct (gcd_helper fuel a b) as [r|e| |] eqn:E; [right|exfalso|exfalso|left; reflexivity].
  - f_equal. eapply gcd_helper_ok; eauto.
  - assert (forall n x y, gcd_loop n x y <> Err e) as N.
    { induction n as [|n IH]; intros x y; cbn [gcd_loop]; [discriminate|]. destruct (y =? 0); [discriminate|]. destruct (Z.rem x y =? 0); [discriminate|apply IH]. }
    unfold gcd_helper in E. destruct (a <? b); eapply N; exact E.
  - assert (forall n x y, 0 < x -> 0 < y -> gcd_loop n x y <> UB) as N.
    { induction n as [|n IH]; intros x y Hx Hy; cbn [gcd_loop]; [discriminate|]. destruct (Z.eqb_spec y 0); [lia|].
      pose proof (Z.rem_bound_pos x y ltac:(lia) Hy).
      destruct (Z.eqb_spec (Z.rem x y) 0); [discriminate|apply IH; lia]. }
    unfold gcd_helper in E. destruct (a <? b); eapply N; try exact E; assumption.
Qed.

Lemma math_gcd_spec fuel x y r : math_gcd fuel (VInt x) (VInt y) = Ok r ->
  if (0 <? x) && (0 <? y) then exists d, r = VInt d /\ 0 < d /\ (d | x) /\ (d | y) /\ (forall e, (e | x) -> (e | y) -> e <= d)
  else r = VUndef.
Proof.
  unfold math_gcd. cbn [arg_int bind]. rewrite andb_comm. destruct (0 <? x) eqn:Hx, (0 <? y) eqn:Hy; cbn [andb]; try (intros [= <-]; reflexivity).
  destruct (gcd_helper_not_ub fuel y x ltac:(lia) ltac:(lia)) as [-> | ->]; cbn; [discriminate|]. intros [= <-].
  exists (Z.gcd y x). split; [reflexivity|].
  pose proof (Z.gcd_nonneg y x). assert (Z.gcd y x <> 0) by (intros E; apply Z.gcd_eq_0_l in E; lia).
  repeat split; [lia|apply Z.gcd_divide_r|apply Z.gcd_divide_l|].
  intros e E1 E2. apply Z.divide_pos_le; [lia|]. apply Z.gcd_greatest; assumption.
Qed.
Lemma math_gcd_total x y : exists fuel r, math_gcd fuel (VInt x) (VInt y) = Ok r.
Proof.
  unfold math_gcd. cbn [arg_int bind]. destruct (0 <? x) eqn:Hx, (0 <? y) eqn:Hy; cbn [andb]; try (exists O; eauto; fail).
  destruct (gcd_helper_total y x ltac:(lia) ltac:(lia)) as (f & E). exists f. rewrite E. cbn. eauto.
Qed.

Lemma lcm_quot x y : 0 < x -> 0 < y -> Z.quot (x * y) (Z.gcd y x) = Z.lcm x y.
Proof.
  intros Hx Hy. assert (0 < Z.gcd y x).
  { pose proof (Z.gcd_nonneg y x). assert (Z.gcd y x <> 0) by (intros E; apply Z.gcd_eq_0_l in E; lia). lia. }
  rewrite Z.quot_div_nonneg by nia. unfold Z.lcm. rewrite (Z.gcd_comm x y).
  rewrite Z.divide_div_mul_exact by (try lia; apply Z.gcd_divide_l).
  rewrite Z.abs_eq; [reflexivity|]. apply Z.mul_nonneg_nonneg; [lia|]. apply Z.div_pos; lia.
Qed.
Lemma math_lcm_spec fuel x y : math_lcm fuel (VInt x) (VInt y) <> NoFuel -> in_i64 (x * y) ->
  if (0 <? x) && (0 <? y) then math_lcm fuel (VInt x) (VInt y) = Ok (VInt (Z.lcm x y))
  else math_lcm fuel (VInt x) (VInt y) = Ok VUndef.
Proof.
  unfold math_lcm. cbn [arg_int bind]. rewrite andb_comm.
  destruct (0 <? x) eqn:Hx, (0 <? y) eqn:Hy; cbn [andb]; intros NF Hr; try reflexivity.
  destruct (gcd_helper_not_ub fuel y x ltac:(lia) ltac:(lia)) as [E|E]; rewrite E in *; cbn [bind] in *; [congruence|].
  assert (in_i64b (x * y) = true) as -> by (unfold in_i64b, in_i64 in *; lia).
  rewrite lcm_quot by lia. unfold sint.
  assert (in_i64b (Z.lcm x y) = true) as ->; [|reflexivity].
  pose proof (Z.lcm_nonneg x y). assert (Z.lcm x y <= x * y).
  { apply Z.divide_pos_le; [nia|]. apply Z.lcm_least; [apply Z.divide_factor_l|apply Z.divide_factor_r]. }
  unfold in_i64b, in_i64 in *. unfold int_min, int_max in *. lia.
Qed.

(** ** max and min *)
Lemma number_not_nan v : number v -> get_num v <> S754_nan.
Proof. destruct v; cbn; try tauto. intros _. apply f_of_int_not_nan. Qed.

Lemma f_eqb_refl f : f <> S754_nan -> f_eqb f f = true.
Proof.
  intros H. unfold f_eqb, SFeqb. rewrite fcompare_key by assumption. rewrite (proj2 (kcmp_eq _ _) eq_refl). reflexivity.
Qed.

Section Ext.
Variable le : float -> float -> Prop.   (* [le a b]: b is at least as good *)
Variable better : float -> float -> bool.
Hypothesis Hle : forall a b, better b a = true -> le a b.
Hypothesis Htot : forall a b, a <> S754_nan -> b <> S754_nan -> better b a = false -> le b a.
Hypothesis Hrefl : forall a, a <> S754_nan -> le a a.
Hypothesis Htrans : forall a b c, le a b -> le b c -> le a c.
Lemma extremum_ok args : forall best, number best -> Forall number args ->
  exists m, extremum_loop better best args = Ok m /\ In m (best :: args) /\ Forall (fun v => le (get_num v) (get_num m)) (best :: args).
Proof.
  induction args as [|v rest IH]; intros best Hb Ha.
  - exists best. cbn. repeat split; auto. constructor; [|constructor]. apply Hrefl, number_not_nan, Hb.
  - inversion Ha as [|v' r' Hv Hr]; subst.
    assert (exists best', number best' /\ (best' = best \/ best' = v) /\ le (get_num best) (get_num best') /\ le (get_num v) (get_num best')
       /\ extremum_loop better best (v :: rest) = extremum_loop better best' rest) as (b' & N & D & L1 & L2 & E).
    { assert (E : extremum_loop better best (v :: rest) = extremum_loop better (if better (get_num v) (get_num best) then v else best) rest).
      { destruct v; cbn in Hv; try tauto; cbn [extremum_loop get_num]; try rewrite f_eqb_refl by assumption; reflexivity. }
      destruct (better (get_num v) (get_num best)) eqn:B.
      - exists v. repeat split; auto. apply Hrefl, number_not_nan, Hv.
      - exists best. repeat split; auto; [apply Hrefl, number_not_nan, Hb|]. apply Htot; auto using number_not_nan. }
    destruct (IH b' N Hr) as (m & Em & Im & Fm). exists m. rewrite E. split; [exact Em|].
    inversion Fm as [|? ? H1 H2]; subst. split.
    + destruct Im as [<-|Im]; [destruct D as [->| ->]; cbn; auto|cbn; auto].
    + constructor; [eapply Htrans; eauto|]. constructor; [eapply Htrans; eauto|exact H2].
Qed.
End Ext.

Lemma in_rev_cons (m d : value) args : In m (d :: rev args) -> m = d \/ In m args.
Proof. intros [<-|H]; [left; reflexivity|right; apply in_rev; exact H]. Qed.

Lemma math_max_ok args : Forall number args ->
  exists m, math_max args = Ok m /\ (m = VFloat (S754_infinity true) \/ In m args) /\
            forall v, In v args -> f_leb (get_num v) (get_num m) = true.
Proof.
  intros H. destruct (extremum_ok (fun a b => f_leb a b = true) (fun t m => f_leb m t)
    (fun a b h => h) (fun a b A B h => match f_leb_total a b A B with or_introl k => False_ind _ (eq_true_false_abs _ k h) | or_intror k => k end)
    f_leb_refl f_leb_trans (rev args) (VFloat (S754_infinity true))) as (m & E & I & F).
  - cbn. discriminate.
  - apply Forall_rev, H.
  - exists m. split; [exact E|]. split; [apply in_rev_cons, I|]. intros v Hv.
    apply (proj1 (Forall_forall _ _) F). right. apply in_rev. rewrite rev_involutive. exact Hv.
Qed.
Lemma math_min_ok args : Forall number args ->
  exists m, math_min args = Ok m /\ (m = VFloat (S754_infinity false) \/ In m args) /\
            forall v, In v args -> f_leb (get_num m) (get_num v) = true.
Proof.
  intros H. destruct (extremum_ok (fun a b => f_leb b a = true) (fun t m => f_leb t m)
    (fun a b h => h) (fun a b A B h => match f_leb_total b a B A with or_introl k => False_ind _ (eq_true_false_abs _ k h) | or_intror k => k end)
    f_leb_refl (fun a b c h k => f_leb_trans c b a k h) (rev args) (VFloat (S754_infinity false))) as (m & E & I & F).
  - cbn. discriminate.
  - apply Forall_rev, H.
  - exists m. split; [exact E|]. split; [apply in_rev_cons, I|]. intros v Hv.
    apply (proj1 (Forall_forall _ _) F). right. apply in_rev. rewrite rev_involutive. exact Hv.
Qed.
(** the extreme starting value is only returned when nothing beats it, i.e. it is an argument or there is none *)
Lemma extremum_nonempty better best args : (forall v, In v args -> better (get_num v) (get_num best) = true) ->
  args <> [] -> Forall number args ->
  (exists v rest, args = v :: rest /\ extremum_loop better best args = extremum_loop better v rest).
Proof.
  intros H N F. destruct args as [|v rest]; [congruence|]. exists v, rest. split; [reflexivity|].
  inversion F as [|? ? Hv Hr]; subst. specialize (H v (or_introl eq_refl)).
  destruct v; cbn in Hv; try tauto; cbn [extremum_loop get_num] in *; try rewrite f_eqb_refl by assumption; cbn [negb]; rewrite H; reflexivity.
Qed.
Lemma neg_inf_le f : f <> S754_nan -> f_leb (S754_infinity true) f = true.
Proof. destruct f as [[]|[]| |[] m e]; intros H; try reflexivity; congruence. Qed.
Lemma le_pos_inf f : f <> S754_nan -> f_leb f (S754_infinity false) = true.
Proof. destruct f as [[]|[]| |[] m e]; intros H; try reflexivity; congruence. Qed.

Lemma math_max_in args : Forall number args -> args <> [] -> exists m, math_max args = Ok m /\ In m args /\
            forall v, In v args -> f_leb (get_num v) (get_num m) = true.
Proof.
  intros H N. destruct (math_max_ok args H) as (m & E & _ & F). exists m. split; [exact E|]. split; [|exact F].
  unfold math_max in E. destruct (extremum_nonempty (fun t m => f_leb m t) (VFloat (S754_infinity true)) (rev args)) as (v & rest & Ea & El).
  - intros v Hv. apply neg_inf_le, number_not_nan. apply in_rev in Hv. exact (proj1 (Forall_forall _ _) H v Hv).
  - intros Z. apply N. rewrite <- (rev_involutive args), Z. reflexivity.
  - apply Forall_rev, H.
  - rewrite El in E. assert (G : Forall number (v :: rest)) by (rewrite <- Ea; apply Forall_rev, H). inversion G as [|? ? G1 G2]; subst.
    destruct (extremum_ok (fun a b => f_leb a b = true) (fun t m => f_leb m t)
    (fun a b h => h) (fun a b A B h => match f_leb_total a b A B with or_introl k => False_ind _ (eq_true_false_abs _ k h) | or_intror k => k end)
    f_leb_refl f_leb_trans rest v G1 G2) as (m' & E' & I' & _). rewrite E in E'. injection E' as <-. rewrite <- Ea in I'. apply in_rev. exact I'.
Qed.
Lemma math_min_in args : Forall number args -> args <> [] -> exists m, math_min args = Ok m /\ In m args /\
            forall v, In v args -> f_leb (get_num m) (get_num v) = true.
Proof.
  intros H N. destruct (math_min_ok args H) as (m & E & _ & F). exists m. split; [exact E|]. split; [|exact F].
  unfold math_min in E. destruct (extremum_nonempty (fun t m => f_leb t m) (VFloat (S754_infinity false)) (rev args)) as (v & rest & Ea & El).
  - intros v Hv. apply le_pos_inf, number_not_nan. apply in_rev in Hv. exact (proj1 (Forall_forall _ _) H v Hv).
  - intros Z. apply N. rewrite <- (rev_involutive args), Z. reflexivity.
  - apply Forall_rev, H.
  - rewrite El in E. assert (G : Forall number (v :: rest)) by (rewrite <- Ea; apply Forall_rev, H). inversion G as [|? ? G1 G2]; subst.
    destruct (extremum_ok (fun a b => f_leb b a = true) (fun t m => f_leb t m)
    (fun a b h => h) (fun a b A B h => match f_leb_total b a B A with or_introl k => False_ind _ (eq_true_false_abs _ k h) | or_intror k => k end)
    f_leb_refl (fun a b c h k => f_leb_trans c b a k h) rest v G1 G2) as (m' & E' & I' & _). rewrite E in E'. injection E' as <-. rewrite <- Ea in I'. apply in_rev. exact I'.
Qed.

Lemma math_isprime_ok fsqrt fuel n b : (forall y, 4 <= y -> Z.sqrt y <= fsqrt y < y) -> 0 <= n <= int_max ->
  math_isprime fsqrt fuel (VInt n) = Ok b -> exists c, b = VBool c /\ (c = true <-> prime n).
Proof.
  intros Hs Hn. unfold math_isprime. cbn [arg_int bind]. unfold u64. rewrite Z.mod_small by (unfold two64, int_max in *; lia).
  destruct (is_prime fsqrt fuel n) as [c|e| |] eqn:E; cbn; try discriminate. intros [= <-]. exists c. split; [reflexivity|].
  eapply is_prime_correct; eauto.
Qed.
Lemma math_abs_ok i : in_i64 i -> i <> int_min -> math_abs (VInt i) = Ok (VInt (Z.abs i)).
Proof.
  unfold in_i64, math_abs, sint, in_i64b, int_min, int_max. intros H N. destruct (Z.ltb_spec i 0).
  - assert ((-9223372036854775808 <=? - i) && (- i <=? 9223372036854775807) = true) as -> by lia. do 2 f_equal. lia.
  - do 2 f_equal. lia.
Qed.
Lemma math_abs_spec i : in_i64 i ->
  (i <> int_min -> math_abs (VInt i) = Ok (VInt (Z.abs i))) /\ (i = int_min -> math_abs (VInt i) = UB).
Proof. intros H. split; [apply math_abs_ok, H|]. intros ->. reflexivity. Qed.
