(** The comparison of doubles is a total preorder on the non-NaN values. *)
From Verif Require Import Base Value.

Definition fkey (f : float) : Z * Z * Z :=
  match f with
  | S754_infinity true => (0, 0, 0)
  | S754_finite true m e => (1, - e, - Z.pos m)
  | S754_zero _ => (2, 0, 0)
  | S754_finite false m e => (3, e, Z.pos m)
  | S754_infinity false => (4, 0, 0)
  | S754_nan => (5, 0, 0)
  end.
Definition kcmp (a b : Z * Z * Z) : comparison :=
  let '(a1, a2, a3) := a in let '(b1, b2, b3) := b in
  match a1 ?= b1 with Eq => (match a2 ?= b2 with Eq => a3 ?= b3 | c => c end) | c => c end.

Lemma fcompare_key f g : f <> S754_nan -> g <> S754_nan -> SFcompare f g = Some (kcmp (fkey f) (fkey g)).
Proof.
  intros Hf Hg. destruct f as [s|s| |s m e]; destruct g as [s'|s'| |s' m' e']; try congruence;
  try (destruct s; destruct s'; reflexivity); try (destruct s; reflexivity); try (destruct s'; reflexivity).
  destruct s, s'; cbn [SFcompare fkey kcmp]; try reflexivity.
  - change (1 ?= 1) with Eq. cbn iota. rewrite Z.compare_opp.
    rewrite (Z.compare_antisym e e').
    destruct (e ?= e'); cbn [CompOpp]; reflexivity.
Qed.

Lemma kcmp_eq a b : kcmp a b = Eq <-> a = b.
Proof.
  destruct a as [[a1 a2] a3], b as [[b1 b2] b3]. cbn.
  destruct (Z.compare_spec a1 b1); [|split; [discriminate|intros E; injection E; lia]..].
  destruct (Z.compare_spec a2 b2); [|split; [discriminate|intros E; injection E; lia]..].
  destruct (Z.compare_spec a3 b3); [subst; tauto|split; [discriminate|intros E; injection E; lia]..].
Qed.
Lemma kcmp_antisym a b : kcmp b a = CompOpp (kcmp a b).
Proof.
  destruct a as [[a1 a2] a3], b as [[b1 b2] b3]. cbn.
  rewrite (Z.compare_antisym a1 b1), (Z.compare_antisym a2 b2), (Z.compare_antisym a3 b3).
  destruct (a1 ?= b1); cbn; try reflexivity. destruct (a2 ?= b2); cbn; reflexivity.
Qed.
Lemma kcmp_lt_trans a b c : kcmp a b = Lt -> kcmp b c = Lt -> kcmp a c = Lt.
Proof.
  destruct a as [[a1 a2] a3], b as [[b1 b2] b3], c as [[c1 c2] c3]. cbn.
  destruct (Z.compare_spec a1 b1); destruct (Z.compare_spec b1 c1); destruct (Z.compare_spec a1 c1); try lia; try discriminate; try reflexivity;
  destruct (Z.compare_spec a2 b2); destruct (Z.compare_spec b2 c2); destruct (Z.compare_spec a2 c2); try lia; try discriminate; try reflexivity.
  rewrite !Z.compare_lt_iff. lia.
Qed.

Lemma f_leb_key f g : f_leb f g = true <-> f <> S754_nan /\ g <> S754_nan /\ kcmp (fkey f) (fkey g) <> Gt.
Proof.
  unfold f_leb, SFleb. destruct (f_is_nan f) eqn:Nf.
  - destruct f; try discriminate. cbn. split; [discriminate|intros (H & _); congruence].
  - destruct (f_is_nan g) eqn:Ng.
    + destruct g; try discriminate. destruct f as [ | | | ]; cbn; (split; [discriminate|intros (_ & H & _); congruence]).
    + rewrite fcompare_key by (intros ->; discriminate).
      destruct (kcmp (fkey f) (fkey g)); split; try discriminate; try tauto; intros _; repeat split; try discriminate; intros ->; discriminate.
Qed.
Lemma f_ltb_key f g : f_ltb f g = true <-> f <> S754_nan /\ g <> S754_nan /\ kcmp (fkey f) (fkey g) = Lt.
Proof.
  unfold f_ltb, SFltb. destruct (f_is_nan f) eqn:Nf.
  - destruct f; try discriminate. cbn. split; [discriminate|intros (H & _); congruence].
  - destruct (f_is_nan g) eqn:Ng.
    + destruct g; try discriminate. destruct f as [ | | | ]; cbn; (split; [discriminate|intros (_ & H & _); congruence]).
    + rewrite fcompare_key by (intros ->; discriminate).
      destruct (kcmp (fkey f) (fkey g)); split; try discriminate; try (intros (_ & _ & H); discriminate); intros _; repeat split; try discriminate; intros ->; discriminate.
Qed.
Lemma f_leb_trans f g h : f_leb f g = true -> f_leb g h = true -> f_leb f h = true.
Proof.
  rewrite !f_leb_key. intros (F & G & A) (_ & H & B). repeat split; try assumption.
  intros C. apply A. pose proof (kcmp_antisym (fkey h) (fkey g)) as P. pose proof (kcmp_antisym (fkey h) (fkey f)) as Q.
  rewrite C in Q. destruct (kcmp (fkey h) (fkey f)) eqn:E; try discriminate.
  destruct (kcmp (fkey g) (fkey h)) eqn:E2; try congruence.
  - apply kcmp_eq in E2. rewrite E2 in *. rewrite kcmp_antisym, E. reflexivity.
  - rewrite kcmp_antisym. rewrite (kcmp_lt_trans _ _ _ E2 E). reflexivity.
Qed.
Lemma f_leb_refl f : f <> S754_nan -> f_leb f f = true.
Proof. intros H. apply f_leb_key. repeat split; try assumption. rewrite (proj2 (kcmp_eq _ _) eq_refl). discriminate. Qed.
Lemma f_leb_total f g : f <> S754_nan -> g <> S754_nan -> f_leb f g = true \/ f_leb g f = true.
Proof.
  intros F G. rewrite !f_leb_key. rewrite (kcmp_antisym (fkey f)). destruct (kcmp (fkey f) (fkey g)); cbn; [left|left|right]; repeat split; try assumption; discriminate.
Qed.
Lemma f_ltb_leb f g : f <> S754_nan -> g <> S754_nan -> f_ltb f g = negb (f_leb g f).
Proof.
  intros F G. apply eq_true_iff_eq. rewrite negb_true_iff. rewrite <- not_true_iff_false, f_leb_key, f_ltb_key.
  rewrite (kcmp_antisym (fkey f)). destruct (kcmp (fkey f) (fkey g)); cbn; (split; [intros (_ & _ & H)|intros H]); try discriminate; try (repeat split; assumption || reflexivity).
  - exfalso. apply H. repeat split; try assumption; discriminate.
  - intros (_ & _ & K). congruence.
  - exfalso. apply H. repeat split; try assumption; discriminate.
Qed.

Lemma shr_1_nonneg r : 0 <= shr_m r -> 0 <= shr_m (shr_1 r).
Proof. destruct r as [m a b]. cbn. destruct m as [|[p|p|]|p]; cbn; lia. Qed.
Lemma iter_pos_nonneg n : forall r, 0 <= shr_m r -> 0 <= shr_m (iter_pos shr_1 n r).
Proof. induction n as [n IH|n IH|]; cbn; intros r H; [apply IH, IH, shr_1_nonneg, H|apply IH, IH, H|apply shr_1_nonneg, H]. Qed.
Lemma shr_fexp_nonneg m e l : 0 <= m -> 0 <= shr_m (fst (shr_fexp fprec femax m e l)).
Proof.
  intros H. unfold shr_fexp, shr.
  assert (0 <= shr_m (shr_record_of_loc m l)) by (destruct l as [|[| |]]; cbn; assumption).
  destruct (fexp _ _ _ - e); cbn [fst]; try assumption. apply iter_pos_nonneg; assumption.
Qed.
Lemma rne_nonneg m l : 0 <= m -> 0 <= round_nearest_even m l.
Proof. intros H. destruct l as [|[| |]]; cbn; try lia. destruct (Z.even m); lia. Qed.
Lemma round_aux_not_nan s m e l : 0 <= m -> binary_round_aux fprec femax s m e l <> S754_nan.
Proof.
  intros H. unfold binary_round_aux. pose proof (shr_fexp_nonneg m e l H) as A.
  destruct (shr_fexp fprec femax m e l) as [r1 e1]. cbn [fst] in A.
  pose proof (shr_fexp_nonneg (round_nearest_even (shr_m r1) (loc_of_shr_record r1)) e1 loc_Exact (rne_nonneg _ _ A)) as B.
  destruct (shr_fexp fprec femax (round_nearest_even _ _) e1 loc_Exact) as [r2 e2]. cbn [fst] in B.
  destruct (shr_m r2); [discriminate|destruct (Zle_bool _ _); discriminate|lia].
Qed.
Lemma f_of_int_not_nan i : f_of_int i <> S754_nan.
Proof.
  unfold f_of_int, binary_normalize, binary_round. destruct i as [|p|p]; [discriminate| |];
  (destruct (shl_align _ _ _) as [mz ez]); apply round_aux_not_nan; lia.
Qed.
