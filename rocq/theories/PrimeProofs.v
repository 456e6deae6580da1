From Coq Require Import Znumtheory.
From Verif Require Import Base Prime.
Ltac Zify.zify_post_hook ::= Z.div_mod_to_equations.

(** ** Facts about primes, independent of the code. *)

(** Every number above 1 has a least divisor above 1, which is prime. *)
Lemma least_divisor : forall x, 1 < x -> exists d, prime d /\ (d | x) /\ (forall e, 1 < e -> (e | x) -> d <= e).
Proof.
  intros x Hx.
  assert (H : forall n : nat, (exists d, 1 < d /\ (d | x) /\ d <= 1 + Z.of_nat n) ->
     exists d, 1 < d /\ (d | x) /\ (forall e, 1 < e -> (e | x) -> d <= e)).
  { induction n as [|n IH]; intros (d & H1 & H2 & H3); [lia|].
    destruct (Zdivide_dec (1 + Z.of_nat (S n)) x) as [Hd|Hd].
    - destruct (Z_lt_le_dec d (1 + Z.of_nat (S n))).
      + apply IH. exists d. repeat split; [assumption..|lia].
      + (* either some smaller divisor exists or this is least *)
        assert (Hdec : (exists d', 1 < d' /\ (d' | x) /\ d' <= 1 + Z.of_nat n) \/
                       ~ (exists d', 1 < d' /\ (d' | x) /\ d' <= 1 + Z.of_nat n)).
        { clear. induction n as [|n IH].
          - right. intros (d' & A & B & C). lia.
          - destruct IH as [(d' & A & B & C)|N].
            + left. exists d'. repeat split; [assumption..|lia].
            + destruct (Zdivide_dec (1 + Z.of_nat (S n)) x) as [D|D].
              * left. exists (1 + Z.of_nat (S n)). repeat split; [lia|assumption|lia].
              * right. intros (d' & A & B & C). destruct (Z.eq_dec d' (1 + Z.of_nat (S n))); [subst; contradiction|].
                apply N. exists d'. repeat split; [assumption..|lia]. }
        destruct Hdec as [E|N]; [apply IH; exact E|].
        exists (1 + Z.of_nat (S n)). repeat split; [lia|assumption|].
        intros e He1 He2. destruct (Z_lt_le_dec e (1 + Z.of_nat (S n))); [|assumption].
        exfalso. apply N. exists e. repeat split; [assumption..|lia].
    - apply IH. exists d. repeat split; [assumption..|].
      assert (d <> 1 + Z.of_nat (S n)) by (intros ->; contradiction). lia. }
  destruct (H (Z.to_nat x)) as (d & H1 & H2 & H3).
  { exists x. repeat split; [assumption|apply Z.divide_refl|lia]. }
  exists d. split; [|split; assumption].
  apply prime_alt. split; [assumption|]. intros n Hn Hdiv.
  assert (d <= n); [|lia]. apply H3; [lia|]. eapply Z.divide_trans; eassumption.
Qed.

Lemma prime_no_small_divisor x : 1 < x ->
  (prime x <-> forall d, 1 < d -> d * d <= x -> ~ (d | x)).
Proof.
  intros Hx. split.
  - intros Hp d Hd Hdd Hdiv. apply prime_alt in Hp. destruct Hp as [_ Hp].
    apply (Hp d); [|assumption]. nia.
  - intros H. destruct (least_divisor x Hx) as (d & Hpd & Hdiv & Hmin).
    assert (Hd1 : 1 < d) by (apply prime_ge_2 in Hpd; lia).
    destruct (Z.eq_dec d x) as [->|Hne]; [assumption|]. exfalso.
    destruct Hdiv as [q Hq].
    assert (Hq1 : 1 < q).
    { destruct (Z_le_gt_dec q 0); [nia|]. destruct (Z.eq_dec q 1); [subst q; lia|lia]. }
    apply (H d Hd1); [|exists q; assumption].
    assert (d <= q) by (apply Hmin; [lia|]; exists d; lia). nia.
Qed.

(** Euclid: there is a prime at or above every number. *)
Fixpoint zfact (n : nat) : Z := match n with O => 1 | S k => Z.of_nat (S k) * zfact k end.

Lemma zfact_pos n : 0 < zfact n.
Proof. induction n; cbn [zfact]; [lia|]. nia. Qed.

Lemma zfact_div n d : 1 <= d <= Z.of_nat n -> (d | zfact n).
Proof.
  induction n as [|n IH]; intros H; [lia|]. cbn [zfact].
  destruct (Z.eq_dec d (Z.of_nat (S n))) as [->|]; [apply Z.divide_factor_l|].
  apply Z.divide_mul_r, IH. lia.
Qed.

Lemma exists_prime_ge x : exists p, prime p /\ x <= p.
Proof.
  set (n := Z.to_nat x). destruct (least_divisor (zfact n + 1)) as (d & Hp & Hd & _).
  { pose proof (zfact_pos n). lia. }
  exists d. split; [assumption|].
  destruct (Z_lt_le_dec d x) as [Hlt|]; [|lia]. exfalso.
  pose proof (prime_ge_2 d Hp).
  assert (H1 : (d | zfact n)) by (apply zfact_div; lia).
  assert (H2 : (d | 1)).
  { replace 1 with ((zfact n + 1) - zfact n) by lia. apply Z.divide_sub_r; assumption. }
  apply Z.divide_1_r_nonneg in H2; lia.
Qed.

(** ** The code. *)

(** All primes under 200, and none else, by a finite computation. *)
Definition has_small_divisor (x : Z) : bool :=
  existsb (fun d => (x mod d =? 0)) (map Z.of_nat (seq 2 13)).

Lemma table_complete_b :
  forallb (fun n => let x := Z.of_nat n in
     Bool.eqb (existsb (Z.eqb x) PRIMES_UNDER_200)
              (negb (existsb (fun d => (d <? x) && (x mod d =? 0)) (map Z.of_nat (seq 2 13)))))
     (seq 2 199) = true.
Proof. vm_compute. reflexivity. Qed.

Lemma in_table_prime x : 2 <= x <= 200 -> (In x PRIMES_UNDER_200 <-> prime x).
Proof.
  intros Hx. pose proof table_complete_b as T. rewrite forallb_forall in T.
  specialize (T (Z.to_nat x)). rewrite in_seq in T. specialize (T ltac:(lia)). cbv zeta in T.
  rewrite Z2Nat.id in T by lia. apply Bool.eqb_prop in T.
  assert (HI : In x PRIMES_UNDER_200 <-> existsb (Z.eqb x) PRIMES_UNDER_200 = true).
  { rewrite existsb_exists. split.
    - intros H. exists x. split; [assumption|apply Z.eqb_refl].
    - intros (y & H1 & H2). apply Z.eqb_eq in H2. subst. assumption. }
  rewrite HI, T, negb_true_iff. rewrite prime_no_small_divisor by lia. split.
  - intros H d Hd Hdd Hdiv.
    assert (Hd14 : d <= 14) by nia.
    apply Bool.not_true_iff_false in H. apply H. rewrite existsb_exists. exists d. split.
    + apply in_map_iff. exists (Z.to_nat d). split; [lia|]. apply in_seq. lia.
    + apply andb_true_iff. split; [nia|]. apply Z.eqb_eq. apply Z.mod_divide; [lia|assumption].
  - intros H. apply Bool.not_true_iff_false. rewrite existsb_exists. intros (d & Hin & Hc).
    apply in_map_iff in Hin. destruct Hin as (n & <- & Hn). apply in_seq in Hn.
    apply andb_true_iff in Hc. destruct Hc as [Hlt Hm]. apply Z.eqb_eq in Hm.
    apply Z.mod_divide in Hm; [|lia].
    assert (Hp : prime x).
    { apply prime_no_small_divisor; [lia|]. exact H. }
    apply prime_alt in Hp. destruct Hp as [_ Hp]. apply (Hp (Z.of_nat n)); [lia|assumption].
Qed.

Lemma small_divisor_spec ps x : Forall (fun p => 1 < p) ps ->
  match small_divisor ps x with
  | Some b => exists p, In p ps /\ (p | x) /\ b = (x =? p)
  | None => forall p, In p ps -> ~ (p | x)
  end.
Proof.
  induction ps as [|p ps IH]; intros HF; cbn [small_divisor]; [intros p []|].
  inversion HF as [|? ? H1 H2]; subst.
  destruct (Z.eqb_spec (x mod p) 0) as [E|E].
  - exists p. split; [left; reflexivity|]. split; [apply Z.mod_divide; lia|reflexivity].
  - specialize (IH H2). destruct (small_divisor ps x) as [b|].
    + destruct IH as (q & A & B & C). exists q. split; [right; exact A|split; assumption].
    + intros q [<-|Hq]; [|apply IH; exact Hq]. intros Hd. apply Z.mod_divide in Hd; lia.
Qed.

Lemma primes_gt1 : Forall (fun p => 1 < p) PRIMES_UNDER_200.
Proof. unfold PRIMES_UNDER_200; repeat constructor. Qed.

Lemma primes_range p : In p PRIMES_UNDER_200 -> 2 <= p <= 199.
Proof.
  assert (H : forallb (fun p => (2 <=? p) && (p <=? 199)) PRIMES_UNDER_200 = true) by reflexivity.
  rewrite forallb_forall in H. intros Hp. specialize (H p Hp). lia.
Qed.

(** The odd loop finds a divisor in [i, i+2, .. bound] or none exists. *)
Lemma odd_loop_spec fuel : forall i bound x r, 0 < i -> odd_loop fuel i bound x = Ok r ->
  (r = false -> exists k, 0 <= k /\ i + 2 * k <= bound /\ (i + 2 * k | x)) /\
  (r = true -> forall k, 0 <= k -> i + 2 * k <= bound -> ~ (i + 2 * k | x)).
Proof.
  induction fuel as [|f IH]; intros i bound x r Hi H; [discriminate H|].
  cbn [odd_loop] in H. destruct (Z.leb_spec i bound) as [Hb|Hb].
  - destruct (Z.eqb_spec (x mod i) 0) as [E|E].
    + injection H as <-. split; [|discriminate]. intros _. exists 0. split; [lia|]. split; [lia|].
      replace (i + 2 * 0) with i by lia. apply Z.mod_divide; lia.
    + apply IH in H; [|lia]. destruct H as [H1 H2]. split.
      * intros Hr. destruct (H1 Hr) as (k & A & B & C). exists (k + 1).
        replace (i + 2 * (k + 1)) with (i + 2 + 2 * k) by lia. split; [lia|split; assumption].
      * intros Hr k Hk Hkb. destruct (Z.eq_dec k 0) as [->|].
        { replace (i + 2 * 0) with i by lia. intros Hd. apply Z.mod_divide in Hd; lia. }
        replace (i + 2 * k) with (i + 2 + 2 * (k - 1)) by lia. apply (H2 Hr); lia.
  - injection H as <-. split; [discriminate|]. intros _ k Hk Hkb. lia.
Qed.

Lemma odd_loop_total fuel : forall i bound x, bound - i < 2 * (Z.of_nat fuel - 1) -> (1 <= fuel)%nat ->
  exists r, odd_loop fuel i bound x = Ok r.
Proof.
  induction fuel as [|f IH]; intros i bound x Hf H1; [lia|]. cbn [odd_loop].
  destruct (Z.leb_spec i bound); [|eexists; reflexivity].
  destruct (x mod i =? 0); [eexists; reflexivity|].
  destruct f as [|f']; [lia|]. apply IH; lia.
Qed.

Definition sqrt_ok (fsqrt : Z -> Z) : Prop := forall x, 4 <= x -> Z.sqrt x <= fsqrt x < x.

Lemma is_prime_correct fsqrt fuel x b : sqrt_ok fsqrt ->
  is_prime fsqrt fuel x = Ok b -> (b = true <-> prime x).
Proof.
  intros Hs H. unfold is_prime in H.
  destruct (Z.ltb_spec x 2) as [H2|H2].
  { injection H as <-. split; [discriminate|]. intros Hp. apply prime_ge_2 in Hp. lia. }
  destruct (Z.ltb_spec x 4) as [H4|H4].
  { injection H as <-. split; [intros _|reflexivity].
    assert (x = 2 \/ x = 3) as [->| ->] by lia; [apply prime_2|apply prime_3]. }
  pose proof (small_divisor_spec PRIMES_UNDER_200 x primes_gt1) as HS.
  destruct (small_divisor PRIMES_UNDER_200 x) as [r|].
  - injection H as <-. destruct HS as (p & Hin & Hdiv & ->). pose proof (primes_range p Hin) as Hr.
    assert (Hpp : prime p) by (apply in_table_prime; [lia|assumption]).
    destruct (Z.eqb_spec x p) as [->|Hne]; [split; [intros _; assumption|reflexivity]|].
    split; [discriminate|]. intros Hpx. exfalso.
    apply prime_alt in Hpx. destruct Hpx as [_ Hpx]. apply (Hpx p); [|assumption].
    apply Z.divide_pos_le in Hdiv; lia.
  - specialize (Hs x H4).
    apply odd_loop_spec in H; [|lia]. destruct H as [Hf Ht].
    destruct b.
    + split; [intros _|reflexivity]. apply prime_no_small_divisor; [lia|].
      intros d Hd Hdd Hdiv.
      destruct (least_divisor d Hd) as (e & Hpe & Hed & _).
      pose proof (prime_ge_2 e Hpe) as He2.
      assert (Hex : (e | x)) by (eapply Z.divide_trans; eassumption).
      assert (Hele : e <= d) by (apply Z.divide_pos_le in Hed; lia).
      destruct (Z_le_gt_dec e 200) as [Hsm|Hbig].
      * apply (HS e); [apply in_table_prime; [lia|assumption]|assumption].
      * assert (Hodd : e mod 2 = 1).
        { destruct (Z.eq_dec (e mod 2) 0) as [E0|]; [|lia]. exfalso.
          apply Z.mod_divide in E0; [|lia]. apply prime_alt in Hpe. destruct Hpe as [_ Hpe].
          apply (Hpe 2); [lia|assumption]. }
        assert (Hk : e = 201 + 2 * ((e - 201) / 2)) by lia.
        apply (Ht eq_refl ((e - 201) / 2)); [lia| |rewrite <- Hk; assumption].
        rewrite <- Hk. assert (e <= Z.sqrt x); [|lia].
        apply Z.sqrt_le_square; nia.
    + split; [discriminate|]. intros Hpx. exfalso.
      destruct (Hf eq_refl) as (k & Hk0 & Hkb & Hdiv).
      apply prime_alt in Hpx. destruct Hpx as [_ Hpx].
      apply (Hpx (201 + 2 * k)); [lia|assumption].
Qed.

Lemma is_prime_total fsqrt fuel x : fsqrt x < Z.of_nat fuel ->
  (1 <= fuel)%nat -> exists b, is_prime fsqrt fuel x = Ok b.
Proof.
  intros H H1. unfold is_prime. destruct (x <? 2); [eexists; reflexivity|].
  destruct (x <? 4); [eexists; reflexivity|].
  destruct (small_divisor PRIMES_UNDER_200 x); [eexists; reflexivity|].
  apply odd_loop_total; lia.
Qed.

Lemma next_prime_correct fsqrt ifuel fuel : sqrt_ok fsqrt -> forall x p,
  next_prime fsqrt ifuel fuel x = Ok p ->
  prime p /\ x <= p /\ (forall q, x <= q < p -> ~ prime q).
Proof.
  intros Hs. induction fuel as [|f IH]; intros x p H; [discriminate H|].
  cbn [next_prime] in H. destruct (is_prime fsqrt ifuel x) as [b|e| |] eqn:E; try discriminate H.
  cbn [bind] in H. pose proof (is_prime_correct _ _ _ _ Hs E) as Hb. destruct b.
  - injection H as <-. split; [apply Hb; reflexivity|]. split; [lia|]. intros q Hq; lia.
  - apply IH in H. destruct H as (H1 & H2 & H3). split; [assumption|]. split; [lia|].
    intros q Hq. destruct (Z.eq_dec q x) as [->|]; [|apply H3; lia].
    intros Hp. apply Hb in Hp. discriminate Hp.
Qed.

Lemma next_prime_total fsqrt x : sqrt_ok fsqrt ->
  exists ifuel fuel p, next_prime fsqrt ifuel fuel x = Ok p.
Proof.
  intros Hs. destruct (exists_prime_ge x) as (q & Hq & Hle).
  pose proof (prime_ge_2 q Hq) as Hq2.
  exists (Z.to_nat (q + 200 + Z.abs (fsqrt 0) + Z.abs (fsqrt 1) + Z.abs (fsqrt 2) + Z.abs (fsqrt 3))).
  set (F := Z.to_nat _).
  assert (HF : forall y, y <= q -> exists b, is_prime fsqrt F y = Ok b).
  { intros y Hy. destruct (Z_lt_le_dec y 4).
    - unfold is_prime. destruct (Z.ltb_spec y 2); [eexists; reflexivity|].
      destruct (Z.ltb_spec y 4); [eexists; reflexivity|lia].
    - apply is_prime_total; [|lia]. specialize (Hs y). lia. }
  assert (H : forall n y, q = y + Z.of_nat n -> exists fuel p, next_prime fsqrt F fuel y = Ok p).
  { induction n as [|n IH]; intros y Hy.
    - exists 1%nat, q. cbn [next_prime]. assert (y = q) as -> by lia.
      destruct (HF q ltac:(lia)) as (b & Hb). rewrite Hb. cbn [bind].
      destruct b; [reflexivity|]. apply (is_prime_correct _ _ _ _ Hs Hb) in Hq. discriminate Hq.
    - destruct (HF y ltac:(lia)) as (b & Hb). destruct b.
      + exists 1%nat, y. cbn [next_prime]. rewrite Hb. reflexivity.
      + destruct (IH (y + 1) ltac:(lia)) as (f & p & Hp).
        exists (S f), p. cbn [next_prime]. rewrite Hb. cbn [bind]. exact Hp. }
  destruct (H (Z.to_nat (q - x)) x) as (f & p & Hp); [lia|]. exists f, p. exact Hp.
Qed.

Lemma sqrt_ok_Zsqrt : sqrt_ok Z.sqrt.
Proof.
  intros x Hx. split; [lia|]. pose proof (Z.sqrt_spec x ltac:(lia)). cbv zeta in *. nia.
Qed.

(** ** Allocation of a table *)
From Verif Require Import Table.
Lemma table_capacity base t : table_new_sized base = Ok t ->
  prime (t_size t) /\ base <= t_size t /\ (forall q, base <= q < t_size t -> ~ prime q)
  /\ t_items t = repeat EMPTY (Z.to_nat (t_size t)).
Proof.
  unfold table_new_sized. intros E.
  destruct (next_prime Z.sqrt DIVISOR_FUEL PRIME_FUEL base) as [p|e| |] eqn:En; cbn [bind] in E; try discriminate E.
  destruct (p <? ALLOC_LIMIT); [|discriminate E]. injection E as <-. cbn [t_size t_items].
  destruct (next_prime_correct _ _ _ sqrt_ok_Zsqrt _ _ En) as (A & B & C). auto.
Qed.
