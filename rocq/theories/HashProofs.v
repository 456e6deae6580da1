From Coq Require Import Znumtheory.
From Verif Require Import Base Value Hash.
Ltac Zify.zify_post_hook ::= Z.div_mod_to_equations.

Lemma hash_str_range s a m h : 0 < m -> 0 <= h < m -> 0 <= hash_str s a m h < m.
Proof.
  intros Hm. revert h. induction s as [|c s IH]; intros h Hh; cbn [hash_str]; [assumption|].
  apply IH. apply Z.mod_pos_bound. assumption.
Qed.

Lemma hash_function_range v a m : 0 < m -> 0 <= hash_function v a m < m.
Proof.
  intros Hm. unfold hash_function. destruct v; try (apply Z.mod_pos_bound; assumption).
  apply hash_str_range; lia.
Qed.

(** The step of the probe sequence. *)
Definition hstep (v : value) (n : Z) : Z :=
  let b := hash_function v PRIME_B n in b + (if b =? 0 then 1 else 0).

Lemma hstep_range v n : 2 <= n -> 1 <= hstep v n < n.
Proof.
  intros Hn. unfold hstep. pose proof (hash_function_range v PRIME_B n ltac:(lia)).
  cbv zeta. destruct (Z.eqb_spec (hash_function v PRIME_B n) 0); lia.
Qed.

Lemma get_hash_linear v n i : 2 <= n -> n < 4294967296 -> 0 <= i <= n ->
  get_hash v n i = (hash_function v PRIME_A n + i * hstep v n) mod n.
Proof.
  intros Hn Hlim Hi. unfold get_hash. pose proof (hash_function_range v PRIME_A n ltac:(lia)) as HA.
  pose proof (hstep_range v n Hn) as HB. unfold hstep in *. cbv zeta in *.
  destruct (Z.eqb_spec i 0) as [->|Hne].
  - rewrite Z.mul_0_l, Z.add_0_r. reflexivity.
  - set (b := hash_function v PRIME_B n + _) in *. unfold u64, two64.
    assert (0 <= i * b <= 4294967295 * 4294967295) by nia.
    rewrite (Z.mod_small (i * b)) by lia.
    rewrite (Z.mod_small (hash_function v PRIME_A n + i * b)) by lia. reflexivity.
Qed.

Lemma get_hash_range v n i : 0 < n -> 0 <= get_hash v n i < n.
Proof. intros Hn. unfold get_hash. destruct (i =? 0); apply Z.mod_pos_bound; assumption. Qed.

Section Coverage.
  Variables (n a b : Z).
  Hypothesis Hp : prime n.
  Hypothesis Hb : 1 <= b < n.

  Lemma rel_b : rel_prime b n.
  Proof. apply rel_prime_le_prime; [exact Hp|]. lia. Qed.

  Lemma lin_inj i j : 0 <= i < n -> 0 <= j < n -> (a + i * b) mod n = (a + j * b) mod n -> i = j.
  Proof.
    intros Hi Hj E. pose proof (prime_ge_2 n Hp).
    assert (D : (n | (i - j) * b)).
    { apply Z.mod_divide; [lia|]. replace ((i - j) * b) with ((a + i * b) - (a + j * b)) by ring.
      rewrite Zminus_mod, E, Z.sub_diag. apply Z.mod_0_l. lia. }
    rewrite Z.mul_comm in D.
    apply Gauss in D; [|apply rel_prime_sym; exact rel_b].
    destruct D as [q Hq]. assert (q = 0) by nia. nia.
  Qed.

  Lemma lin_surj j : 0 <= j < n -> exists i, 0 <= i < n /\ (a + i * b) mod n = j.
  Proof.
    intros Hj. pose proof (prime_ge_2 n Hp).
    destruct (rel_prime_bezout _ _ rel_b) as [u v Huv].
    exists (((j - a) * u) mod n). split; [apply Z.mod_pos_bound; lia|].
    rewrite Zplus_mod, Zmult_mod_idemp_l, <- Zplus_mod.
    replace (a + (j - a) * u * b) with (j + (- (j - a) * v) * n).
    - rewrite Z.mod_add by lia. apply Z.mod_small; assumption.
    - assert (E : u * b = 1 - v * n) by lia.
      replace ((j - a) * u * b) with ((j - a) * (u * b)) by ring. rewrite E. ring.
  Qed.
End Coverage.

(** For a prime number of buckets, the first [n] attempts visit every bucket exactly once. *)
Lemma probe_inj v n i j : prime n -> n < 4294967296 -> 0 <= i < n -> 0 <= j < n ->
  get_hash v n i = get_hash v n j -> i = j.
Proof.
  intros Hp Hlim Hi Hj E. pose proof (prime_ge_2 n Hp).
  rewrite !get_hash_linear in E by lia.
  eapply lin_inj; [exact Hp|apply hstep_range; lia|exact Hi|exact Hj|exact E].
Qed.

Lemma probe_surj v n j : prime n -> n < 4294967296 -> 0 <= j < n ->
  exists i, 0 <= i < n /\ get_hash v n i = j.
Proof.
  intros Hp Hlim Hj. pose proof (prime_ge_2 n Hp).
  destruct (lin_surj n (hash_function v PRIME_A n) (hstep v n) Hp (hstep_range v n ltac:(lia)) j Hj) as (i & Hi & E).
  exists i. split; [exact Hi|]. rewrite get_hash_linear by lia. exact E.
Qed.
