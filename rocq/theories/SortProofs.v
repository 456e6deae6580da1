(** * Proofs about list.sort. *)
From Coq Require Import Permutation.
From Verif Require Import Base Value ValueProofs FloatOrder ValueSpec StrOrder Sort.
Local Open Scope nat_scope.

Lemma put_length l i v : i < length l -> length (put l i v) = length l.
Proof. intros H. unfold put. rewrite app_length. cbn [length]. rewrite firstn_length, skipn_length. lia. Qed.
Lemma nth_put l i j v : i < length l -> nth_error (put l i v) j = if j =? i then Some v else nth_error l j.
Proof.
  revert i j. induction l as [|x l IH]; intros i j H; cbn [length] in H; [lia|].
  destruct i as [|i]; destruct j as [|j]; try reflexivity. cbn. apply IH. lia.
Qed.
Lemma put_perm l : forall i j x y, nth_error l i = Some x -> nth_error l j = Some y -> i < j -> Permutation (put (put l j x) i y) l.
Proof.
  induction l as [|z l IH]; intros i j x y Hi Hj L; [destruct i; discriminate|].
  destruct j as [|j]; [lia|]. destruct i as [|i].
  - cbn in Hi. injection Hi as ->. cbn in Hj. cbn.
    clear IH L. revert j Hj. induction l as [|w l IH]; intros j Hj; [destruct j; discriminate|].
    destruct j as [|j]; [cbn in Hj; injection Hj as ->; cbn; apply perm_swap|]. cbn in Hj. cbn.
    transitivity (w :: y :: put l j x); [apply perm_swap|]. transitivity (w :: x :: l); [|apply perm_swap]. apply perm_skip. apply (IH j Hj).
  - cbn in Hi, Hj. cbn. apply perm_skip. apply (IH i j); auto. lia.
Qed.
Lemma swap_ok l i j x y : nth_error l i = Some x -> nth_error l j = Some y -> j < i ->
  exists l', swap l i j = Ok l' /\ Permutation l' l /\ length l' = length l /\
    forall k, nth_error l' k = if k =? i then Some y else if k =? j then Some x else nth_error l k.
Proof.
  intros Hi Hj L. unfold swap. rewrite Hi, Hj.
  assert (A : i < length l) by (apply nth_error_Some; congruence). assert (B : j < length l) by (apply nth_error_Some; congruence).
  eexists; split; [reflexivity|]. repeat split.
  - assert (put (put l j x) i y = put (put l i y) j x) as ->.
    { clear Hi Hj B. revert i j L A. induction l as [|z l IH]; intros i j L A; [cbn [length] in A; lia|].
      destruct i; [lia|]. destruct j; [reflexivity|]. cbn. f_equal. apply IH; cbn [length] in A; lia. }
    apply put_perm; auto.
  - rewrite !put_length; rewrite ?put_length; lia.
  - intros k. rewrite nth_put by (rewrite put_length; lia). rewrite nth_put by lia. reflexivity.
Qed.

(** ** The partition, for any comparison that behaves on the elements at hand. *)
Section Part.
Variable P : value -> Prop.
Hypothesis c_refl : forall a, P a -> obj_cmp a a = 0%Z.
Hypothesis c_anti : forall a b, P a -> P b -> obj_cmp b a = (- obj_cmp a b)%Z.
Hypothesis c_trans : forall a b c, P a -> P b -> P c -> (obj_cmp a b <= 0)%Z -> (obj_cmp b c <= 0)%Z -> (obj_cmp a c <= 0)%Z.

Notation lt a b := (obj_cmp a b <? 0)%Z.
Definition le (a b : value) : Prop := (obj_cmp a b <= 0)%Z.

Lemma scan_left_ok l mid : forall fuel left, length l < left + fuel -> left < length l ->
  (exists j y, left <= j /\ nth_error l j = Some y /\ lt y mid = false) ->
  exists left', scan_left fuel l mid left = Ok left' /\ left <= left' < length l /\
    (forall i x, left <= i < left' -> nth_error l i = Some x -> lt x mid = true) /\
    (exists x, nth_error l left' = Some x /\ lt x mid = false).
Proof.
  induction fuel as [|fuel IH]; intros left F L (j & y & J & N & Y); [lia|]. cbn [scan_left].
  destruct (nth_error l left) as [x|] eqn:E; [|apply nth_error_None in E; lia].
  destruct (lt x mid) eqn:C.
  - assert (left <> j) by (intros ->; congruence). assert (j < length l) by (apply nth_error_Some; congruence).
    destruct (IH (S left)) as (l' & A & B & D & G); [lia|lia|exists j, y; repeat split; [lia|assumption..]|].
    exists l'. repeat split; [exact A|lia|lia| |exact G].
    intros i z I Z. destruct (Nat.eq_dec i left) as [->|]; [congruence|]. apply (D i z); [lia|exact Z].
  - exists left. repeat split; [lia|exact L| |exists x; auto]. intros i z I. lia.
Qed.
Lemma scan_right_ok l mid : forall right, right < length l ->
  exists right', scan_right l mid right = Ok right' /\ right' <= right /\
    (forall i x, right' < i <= right -> nth_error l i = Some x -> lt x mid = false) /\
    (exists x, nth_error l right' = Some x /\ (lt x mid = true \/ right' = 0 /\ lt x mid = false)).
Proof.
  induction right as [|right IH]; intros L; cbn [scan_right].
  - destruct (nth_error l 0) as [x|] eqn:E; [|apply nth_error_None in E; lia].
    destruct (Z.leb_spec 0 (obj_cmp x mid)); exists 0; (repeat split; [lia|intros i z I; lia|exists x; split; [exact E|]]).
    + right. split; [reflexivity|]. apply Z.ltb_ge. lia.
    + left. apply Z.ltb_lt. lia.
  - destruct (nth_error l (S right)) as [x|] eqn:E; [|apply nth_error_None in E; lia].
    destruct (Z.leb_spec 0 (obj_cmp x mid)).
    + destruct IH as (r' & A & B & C & D); [lia|]. exists r'. repeat split; [exact A|lia| |exact D].
      intros i z I Z. destruct (Nat.eq_dec i (S right)) as [->|]; [rewrite E in Z; injection Z as <-; apply Z.ltb_ge; lia|]. apply (C i z); [lia|exact Z].
    + exists (S right). repeat split; [lia|intros i z I; lia|]. exists x. split; [exact E|]. left. apply Z.ltb_lt. lia.
Qed.

Lemma perm_forall (l l' : list value) : Permutation l' l -> Forall P l -> Forall P l'.
Proof. intros H F. rewrite Forall_forall in *. intros x I. apply F. eapply Permutation_in; eauto. Qed.
Lemma forall_nth l i x : Forall P l -> nth_error l i = Some x -> P x.
Proof. intros F E. rewrite Forall_forall in F. apply F. eapply nth_error_In; eauto. Qed.

(** Partition point: all before are less than the pivot, none after. *)
Definition split_at (l : list value) (mid : value) (n : nat) : Prop :=
  n <= length l /\ (forall i x, i < n -> nth_error l i = Some x -> lt x mid = true) /\
  (forall i x, n <= i -> nth_error l i = Some x -> lt x mid = false).
Lemma lt_ge_pos a b mid : P a -> P b -> P mid -> lt a mid = false -> lt b mid = true -> (0 < obj_cmp a b)%Z.
Proof.
  intros Pa Pb Pm A B. apply Z.ltb_ge in A. apply Z.ltb_lt in B. destruct (Z.lt_ge_cases 0 (obj_cmp a b)); [assumption|].
  assert (Q : (obj_cmp mid b <= 0)%Z).
  { apply (c_trans mid a b); try assumption. rewrite (c_anti a mid) by assumption. lia. }
  rewrite (c_anti b mid) in Q by assumption. lia.
Qed.

Lemma part_loop_ok mid : P mid -> forall fuel l left right,
  Forall P l -> right < length l -> left <= S right -> right - left < fuel ->
  (forall i x, i < left -> nth_error l i = Some x -> lt x mid = true) ->
  (forall i x, right < i -> nth_error l i = Some x -> lt x mid = false) ->
  (exists j y, nth_error l j = Some y /\ lt y mid = false) ->
  exists l' n, part_loop fuel l mid left right = Ok l' /\ Permutation l' l /\ split_at l' mid n /\
    ((forall x, In x l -> lt x mid = false) -> l' = l).
Proof.
  intros Pm. induction fuel as [|fuel IH]; intros l left right F R LR M HL HR EX; [lia|]. cbn [part_loop].
  destruct (Nat.ltb_spec left right) as [Lt|Ge].
  - destruct (scan_left_ok l mid (S (length l)) left) as (l1 & A1 & B1 & C1 & (x & X1 & X2)); [lia|lia| |].
    { destruct EX as (j & y & J & Y). exists j, y. repeat split; try assumption.
      destruct (Nat.le_gt_cases left j); [assumption|]. rewrite (HL j y) in Y by assumption. discriminate. }
    destruct (scan_right_ok l mid right R) as (r1 & A2 & B2 & C2 & (y & Y1 & Y2)).
    rewrite A1. cbn [bind]. rewrite A2. cbn [bind]. rewrite X1, Y1.
    pose proof (forall_nth _ _ _ F X1) as Px. pose proof (forall_nth _ _ _ F Y1) as Py.
    assert (HL1 : forall i z, i < l1 -> nth_error l i = Some z -> lt z mid = true).
    { intros i z I Z. destruct (Nat.lt_ge_cases i left); [apply (HL i z); assumption|apply (C1 i z); [lia|assumption]]. }
    assert (HR1 : forall i z, r1 < i -> nth_error l i = Some z -> lt z mid = false).
    { intros i z I Z. destruct (Nat.le_gt_cases i right); [apply (C2 i z); [lia|assumption]|apply (HR i z); assumption]. }
    destruct Y2 as [Y2|(R0 & Y2)].
    + assert (POS : (0 < obj_cmp x y)%Z) by (apply (lt_ge_pos x y mid); assumption).
      destruct (Z.ltb_spec 0 (obj_cmp x y)); [|lia]. cbn [andb].
      assert (N1 : l1 <> r1) by congruence.
      destruct (Nat.ltb_spec l1 r1) as [Lt1|Ge1].
      * destruct (swap_ok l r1 l1 y x Y1 X1 Lt1) as (l' & S1 & S2 & S3 & S4). rewrite S1. cbn [bind].
        destruct r1 as [|r]; [lia|].
        destruct (IH l' (S l1) r) as (l2 & n & D1 & D2 & D3 & D4).
        -- eapply perm_forall; eauto.
        -- lia.
        -- lia.
        -- lia.
        -- intros i z I. rewrite S4. destruct (Nat.eqb_spec i (S r)); [lia|]. destruct (Nat.eqb_spec i l1).
           ++ intros Z; injection Z as <-. exact Y2.
           ++ apply HL1. lia.
        -- intros i z I. rewrite S4. destruct (Nat.eqb_spec i (S r)); [intros Z; injection Z as <-; exact X2|]. destruct (Nat.eqb_spec i l1); [lia|]. apply HR1. lia.
        -- exists (S r), x. rewrite S4, Nat.eqb_refl. auto.
        -- exists l2, n. repeat split; try assumption; try apply D3; [etransitivity; eassumption|].
           intros NL. exfalso. rewrite (NL y) in Y2; [discriminate|]. eapply nth_error_In; eauto.
      * destruct (Z.eqb_spec (obj_cmp x y) 0); [lia|].
        destruct fuel as [|fuel]; [lia|]. cbn [part_loop]. destruct (Nat.ltb_spec l1 r1); [lia|].
        exists l, l1. repeat split; try reflexivity; try lia; try assumption. intros i z I. apply HR1. lia.
    + subst r1. assert (l1 = 0) as ->.
      { destruct l1; [reflexivity|]. rewrite (HL1 0 y) in Y2; [discriminate|lia|assumption]. }
      rewrite X1 in Y1. injection Y1 as <-. rewrite (c_refl x Px). cbn.
      exists l, 0. repeat split; try reflexivity; try lia; try assumption.
      intros i z I Z. destruct (Nat.eq_dec i 0) as [->|]; [congruence|]. apply (HR1 i z); [lia|assumption].
  - assert (left = right \/ left = S right) as [->| ->] by lia.
    + destruct (nth_error l right) as [x|] eqn:E; [|apply nth_error_None in E; lia].
      destruct (lt x mid) eqn:C.
      * exists l, (S right). repeat split; try reflexivity; try lia.
        -- intros i z I Z. destruct (Nat.eq_dec i right) as [->|]; [congruence|]. apply (HL i z); [lia|assumption].
        -- intros i z I. apply HR. lia.
      * exists l, right. repeat split; try reflexivity; try lia; try assumption.
        intros i z I Z. destruct (Nat.eq_dec i right) as [->|]; [congruence|]. apply (HR i z); [lia|assumption].
    + exists l, (S right). repeat split; try reflexivity; try lia; try assumption. 
Qed.

Lemma filter_perm (f : value -> bool) l l' : Permutation l l' -> length (filter f l) = length (filter f l').
Proof. induction 1; cbn; try destruct (f x); try destruct (f y); cbn; congruence. Qed.
Lemma split_count l mid n : split_at l mid n -> lt_count l mid = n.
Proof.
  unfold lt_count. revert n. induction l as [|x l IH]; intros n (N & A & B); [cbn in *; lia|]. cbn [filter].
  destruct n as [|n].
  - rewrite (B 0 x) by (lia || reflexivity). apply IH. repeat split; [lia|intros i z I; lia|]. intros i z I Z. apply (B (S i) z); [lia|exact Z].
  - rewrite (A 0 x) by (lia || reflexivity). cbn [length]. f_equal. apply IH. cbn [length] in N. repeat split; [lia| |]; intros i z I Z; [apply (A (S i) z)|apply (B (S i) z)]; (lia || exact Z).
Qed.

Definition sorted (l : list value) : Prop := forall i j x y, i < j -> nth_error l i = Some x -> nth_error l j = Some y -> le x y.

Lemma sorted_app a b mid : Forall P a -> Forall P b -> P mid -> sorted a -> sorted b ->
  (forall x, In x a -> lt x mid = true) -> (forall x, In x b -> lt x mid = false) -> sorted (a ++ b).
Proof.
  intros Pa Pb Pm Sa Sb A B i j x y L X Y. destruct (Nat.lt_ge_cases j (length a)) as [J|J].
  - rewrite nth_error_app1 in X, Y by lia. exact (Sa i j x y L X Y).
  - rewrite nth_error_app2 in Y by lia. destruct (Nat.lt_ge_cases i (length a)) as [I|I].
    + rewrite nth_error_app1 in X by lia. pose proof (nth_error_In _ _ X) as Ix. pose proof (nth_error_In _ _ Y) as Iy.
      unfold le. rewrite Forall_forall in Pa, Pb. specialize (A x Ix). specialize (B y Iy).
      assert (0 < obj_cmp y x)%Z by (apply (lt_ge_pos y x mid); auto). rewrite (c_anti y x) by auto. lia.
    + rewrite nth_error_app2 in X by lia. apply (Sb (i - length a) (j - length a) x y); try assumption. lia.
Qed.

Lemma part_summary l mid : Forall P l -> In mid l ->
  exists l' , part_loop (S (length l)) l mid 0 (length l - 1) = Ok l' /\ Permutation l' l /\
    split_at l' mid (lt_count l mid) /\ (lt_count l mid = 0 -> l' = l) /\ lt_count l mid < length l.
Proof.
  intros F I. assert (Pm : P mid) by (rewrite Forall_forall in F; auto).
  destruct (In_nth_error _ _ I) as (m & M). assert (m < length l) by (apply nth_error_Some; congruence).
  assert (LM : lt mid mid = false) by (rewrite c_refl by assumption; reflexivity).
  destruct (part_loop_ok mid Pm (S (length l)) l 0 (length l - 1)) as (l' & n & A & B & C & D); try lia; try assumption.
  { intros i x Hi Z. assert (i < length l) by (apply nth_error_Some; congruence). lia. }
  { exists m, mid. auto. }
  { assert (n = lt_count l mid) as ->.
    { rewrite <- (split_count _ _ _ C). unfold lt_count. apply filter_perm, B. }
    exists l'. repeat split; try assumption; try apply C.
    + intros Z. apply D. intros x Ix. destruct (lt x mid) eqn:E; [|reflexivity]. exfalso. unfold lt_count in Z.
      apply length_zero_iff_nil in Z. assert (In x (filter (fun x => lt x mid) l)) as W by (apply filter_In; auto). rewrite Z in W. destruct W.
    + assert (In mid l') as Im by (eapply Permutation_in; [symmetry; exact B|exact I]). destruct (In_nth_error _ _ Im) as (q & Q).
      assert (q < length l') by (apply nth_error_Some; congruence). rewrite (Permutation_length B) in *.
      destruct C as (C1 & C2 & C3). destruct (Nat.lt_ge_cases q (lt_count l mid)); [|lia]. rewrite (C2 q mid) in LM by assumption. discriminate. }
Qed.
Lemma split_in l mid n : split_at l mid n -> (forall x, In x (firstn n l) -> lt x mid = true) /\ (forall x, In x (skipn n l) -> lt x mid = false).
Proof.
  intros (N & A & B). split; intros x I; destruct (In_nth_error _ _ I) as (i & E).
  - assert (i < length (firstn n l)) by (apply nth_error_Some; congruence). rewrite firstn_length in *. apply (A i x); [lia|].
    rewrite <- (firstn_skipn n l). rewrite nth_error_app1 by (rewrite firstn_length; lia). exact E.
  - apply (B (n + i) x); [lia|]. rewrite <- (firstn_skipn n l). rewrite nth_error_app2 by (rewrite firstn_length; lia).
    rewrite firstn_length, Nat.min_l by lia. replace (n + i - n) with i by lia. exact E.
Qed.

Lemma same_sorted l : Forall P l -> seen_different l = false -> sorted l.
Proof.
  intros F S. destruct l as [|a l]; [intros i j x y _ X; destruct i; discriminate|]. cbn [seen_different] in S.
  assert (Pa : P a) by (inversion F; assumption).
  assert (Q : forall x, In x (a :: l) -> obj_cmp a x = 0%Z).
  { intros x I. destruct (obj_cmp a x =? 0)%Z eqn:E; [apply Z.eqb_eq, E|]. exfalso.
    assert (existsb (fun y => negb (obj_cmp a y =? 0)%Z) (a :: l) = true); [|congruence]. apply existsb_exists. exists x. rewrite E. auto. }
  intros i j x y _ X Y. pose proof (nth_error_In _ _ X) as Ix. pose proof (nth_error_In _ _ Y) as Iy. rewrite Forall_forall in F.
  unfold le. apply (c_trans x a y); auto; [rewrite (c_anti a x) by auto; rewrite Q by assumption; lia|rewrite Q by assumption; lia].
Qed.

Lemma sort_ok : forall fuel rs k l l' k', Forall P l -> sort fuel rs k l = Ok (l', k') -> Permutation l' l /\ sorted l'.
Proof.
  induction fuel as [|fuel IH]; intros rs k l l' k' F H; [discriminate|].
  assert (BIG : 3 <= length l -> Permutation l' l /\ sorted l').
  { intros L. assert (H' : match nth_error l (rs k mod length l) with
      | None => UB
      | Some mid =>
        if seen_different l then
          do l' <- part_loop (S (length l)) l mid 0 (length l - 1);
          do r1 <- sort fuel rs (S k) (firstn (lt_count l mid) l');
          do r2 <- sort fuel rs (snd r1) (skipn (lt_count l mid) l');
          Ok (fst r1 ++ fst r2, snd r2)
        else Ok (l, S k)
      end = Ok (l', k')). { destruct l as [|a [|b [|c l]]]; cbn [length] in L; try lia. exact H. }
    clear H. destruct (nth_error l (rs k mod length l)) as [mid|] eqn:M; [|discriminate].
    destruct (seen_different l) eqn:S.
    - pose proof (nth_error_In _ _ M) as Im. destruct (part_summary l mid F Im) as (p & A & B & C & _ & _). rewrite A in H'. cbn [bind] in H'.
      pose proof (perm_forall _ _ B F) as Fp. destruct (split_in _ _ _ C) as (C1 & C2).
      pose proof (firstn_skipn (lt_count l mid) p) as FS.
      assert (F1 : Forall P (firstn (lt_count l mid) p)) by (rewrite <- FS in Fp; apply Forall_app in Fp; apply Fp).
      assert (F2 : Forall P (skipn (lt_count l mid) p)) by (rewrite <- FS in Fp; apply Forall_app in Fp; apply Fp).
      destruct (sort fuel rs (Datatypes.S k) (firstn _ p)) as [[l1 k1]| | |] eqn:E1; try discriminate. cbn [bind fst snd] in H'.
      destruct (sort fuel rs k1 (skipn _ p)) as [[l2 k2]| | |] eqn:E2; try discriminate. cbn [bind fst snd] in H'. injection H' as <- <-.
      destruct (IH _ _ _ _ _ F1 E1) as (P1 & S1). destruct (IH _ _ _ _ _ F2 E2) as (P2 & S2).
      split.
      + transitivity p; [|exact B]. apply (Permutation_trans (Permutation_app P1 P2)). rewrite FS. reflexivity.
      + apply (sorted_app l1 l2 mid); auto; try (eapply perm_forall; eassumption).
        * rewrite Forall_forall in F. auto.
        * intros x I. apply C1. eapply Permutation_in; eauto.
        * intros x I. apply C2. eapply Permutation_in; eauto.
    - injection H' as <- <-. split; [reflexivity|]. apply same_sorted; assumption. }
  destruct l as [|a [|b [|c l]]]; [| | |apply BIG; cbn [length]; lia]; clear BIG; cbn [sort] in H.
  - injection H as <- <-. split; [reflexivity|]. intros i j x y _ X. destruct i; discriminate.
  - injection H as <- <-. split; [reflexivity|]. intros i j x y L _ Y. destruct j as [|[|j]]; try discriminate; lia.
  - assert (Pa : P a) by (inversion F; assumption). assert (Pb : P b) by (inversion F as [|? ? ? F']; inversion F'; assumption).
    injection H as <- <-. destruct (Z.ltb_spec 0 (obj_cmp a b)).
    + split; [apply perm_swap|]. intros i j x y L X Y. destruct i as [|i]; [|destruct j as [|[|[|j]]]; try discriminate; lia]. destruct j as [|[|j]]; [lia| |destruct j; discriminate].
      injection X as <-. injection Y as <-. unfold le. rewrite (c_anti a b) by assumption. lia.
    + split; [reflexivity|]. intros i j x y L X Y. destruct i as [|i]; [|destruct j as [|[|[|j]]]; try discriminate; lia]. destruct j as [|[|j]]; [lia| |destruct j; discriminate].
      injection X as <-. injection Y as <-. unfold le. lia.
Qed.

(** No run ever leaves the array, whatever the random numbers. *)
Lemma sort_safe : forall fuel rs k l, Forall P l -> (exists r, sort fuel rs k l = Ok r) \/ sort fuel rs k l = NoFuel.
Proof.
  induction fuel as [|fuel IH]; intros rs k l F; [right; reflexivity|].
  destruct l as [|a [|b [|c l]]]; cbn [sort]; try (left; eexists; reflexivity).
  set (q := a :: b :: c :: l) in *. assert (Q : length q <> 0) by (cbn [q length]; lia). clearbody q. clear a b c l.
  destruct (nth_error q (rs k mod length q)) as [mid|] eqn:M.
  2: { apply nth_error_None in M. pose proof (Nat.mod_upper_bound (rs k) (length q) Q). lia. }
  destruct (seen_different q); [|left; eexists; reflexivity].
  pose proof (nth_error_In _ _ M) as Im. destruct (part_summary q mid F Im) as (p & A & B & C & _ & _). rewrite A. cbn [bind].
  pose proof (perm_forall _ _ B F) as Fp. pose proof (firstn_skipn (lt_count q mid) p) as FS.
  assert (F1 : Forall P (firstn (lt_count q mid) p)) by (rewrite <- FS in Fp; apply Forall_app in Fp; apply Fp).
  assert (F2 : Forall P (skipn (lt_count q mid) p)) by (rewrite <- FS in Fp; apply Forall_app in Fp; apply Fp).
  destruct (IH rs (S k) _ F1) as [([l1 k1] & E)|E]; rewrite E; [|right; reflexivity]. cbn [bind fst snd].
  destruct (IH rs k1 _ F2) as [([l2 k2] & E2)|E2]; rewrite E2; [|right; reflexivity]. left. eexists; reflexivity.
Qed.

(** Fuel is only a bound. *)
Lemma sort_mono : forall fuel fuel' rs k l r, sort fuel rs k l = Ok r -> fuel <= fuel' -> sort fuel' rs k l = Ok r.
Proof.
  induction fuel as [|fuel IH]; intros fuel' rs k l r H L; [discriminate|]. destruct fuel' as [|fuel']; [lia|].
  destruct l as [|a [|b [|c l]]]; try exact H. cbn [sort] in *. set (q := a :: b :: c :: l) in *. clearbody q.
  destruct (nth_error q _) as [mid|]; [|exact H]. destruct (seen_different q); [|exact H].
  destruct (part_loop _ q mid 0 _) as [p| | |]; try exact H. cbn [bind] in *.
  destruct (sort fuel rs (S k) _) as [[l1 k1]| | |] eqn:E1; try discriminate. rewrite (IH _ _ _ _ _ E1) by lia. cbn [bind fst snd] in *.
  destruct (sort fuel rs k1 _) as [[l2 k2]| | |] eqn:E2; try discriminate. rewrite (IH _ _ _ _ _ E2) by lia. exact H.
Qed.

(** Every pivot is picked sooner or later. *)
Definition fair (rs : nat -> nat) : Prop := forall len i k, i < len -> exists j, k <= j /\ rs j mod len = i.
Lemma sort_terminates rs : fair rs -> forall n l k, length l <= n -> Forall P l -> exists fuel r, sort fuel rs k l = Ok r.
Proof.
  intros FA. induction n as [n IHn] using lt_wf_ind. intros l k L F.
  destruct l as [|a [|b [|c l]]]; try (exists 1; eexists; reflexivity).
  remember (a :: b :: c :: l) as q eqn:EQ.
  destruct (seen_different q) eqn:SD.
  2: { exists 1. subst q. cbn [sort]. rewrite SD. set (q := a :: b :: c :: l). destruct (nth_error q _) eqn:M; [eexists; reflexivity|].
       apply nth_error_None in M. pose proof (Nat.mod_upper_bound (rs k) (length q)). cbn [q length] in *. lia. }
  (* an element that is not minimal *)
  assert (EX : exists i x, nth_error q i = Some x /\ 0 < lt_count q x).
  { pose proof SD as SD'. rewrite EQ in SD'. cbn [seen_different] in SD'. rewrite <- EQ in SD'. apply existsb_exists in SD'. destruct SD' as (y & Iy & Ny).
    apply negb_true_iff, Z.eqb_neq in Ny. assert (Ia : In a q) by (rewrite EQ; left; reflexivity). rewrite Forall_forall in F.
    assert (W : forall u v, In u q -> lt u v = true -> 0 < lt_count q v).
    { intros u v I H. unfold lt_count. assert (J : In u (filter (fun x => lt x v) q)) by (apply filter_In; auto). destruct (filter _ q); [destruct J|cbn [length]; lia]. }
    destruct (Z.lt_ge_cases (obj_cmp a y) 0) as [C|C].
    - destruct (In_nth_error _ _ Iy) as (i & I). exists i, y. split; [exact I|]. apply (W a y Ia). apply Z.ltb_lt. lia.
    - exists 0, a. split; [rewrite EQ; reflexivity|]. apply (W y a Iy). apply Z.ltb_lt. rewrite (c_anti a y) by auto. lia. }
  destruct EX as (i & x & Ei & Cx). assert (Li : i < length q) by (apply nth_error_Some; congruence).
  destruct (FA (length q) i k Li) as (j & J & Ej). remember (j - k) as d eqn:D. revert k J D.
  induction d as [d IHd] using lt_wf_ind. intros k J D.
  destruct (nth_error q (rs k mod length q)) as [mid|] eqn:M.
  2: { apply nth_error_None in M. pose proof (Nat.mod_upper_bound (rs k) (length q)). lia. }
  pose proof (nth_error_In _ _ M) as Im. destruct (part_summary q mid F Im) as (p & A & B & C & U & Lc).
  pose proof (perm_forall _ _ B F) as Fp. pose proof (firstn_skipn (lt_count q mid) p) as FS. pose proof (Permutation_length B) as PL.
  assert (F1 : Forall P (firstn (lt_count q mid) p)) by (rewrite <- FS in Fp; apply Forall_app in Fp; apply Fp).
  assert (F2 : Forall P (skipn (lt_count q mid) p)) by (rewrite <- FS in Fp; apply Forall_app in Fp; apply Fp).
  assert (REC : exists f1 r1 f2 r2, sort f1 rs (S k) (firstn (lt_count q mid) p) = Ok r1 /\ sort f2 rs (snd r1) (skipn (lt_count q mid) p) = Ok r2).
  { destruct (Nat.eq_dec (lt_count q mid) 0) as [Z|NZ].
    - rewrite Z. rewrite (U Z). cbn [firstn skipn]. exists 1, ([], S k).
      assert (j <> k) by (intros ->; rewrite Ej in M; assert (mid = x) by congruence; subst; lia).
      destruct (IHd (j - S k)) with (k := S k) as (f & r & R); [lia|lia|reflexivity|]. exists f, r. auto.
    - destruct (IHn (length (firstn (lt_count q mid) p))) with (l := firstn (lt_count q mid) p) (k := S k) as (f1 & r1 & R1); [rewrite firstn_length; lia|lia|exact F1|].
      destruct (IHn (length (skipn (lt_count q mid) p))) with (l := skipn (lt_count q mid) p) (k := snd r1) as (f2 & r2 & R2); [rewrite skipn_length; lia|lia|exact F2|].
      exists f1, r1, f2, r2. auto. }
  destruct REC as (f1 & r1 & f2 & r2 & R1 & R2). exists (S (f1 + f2)), (fst r1 ++ fst r2, snd r2).
  assert (E : forall f, sort (S f) rs k q = match nth_error q (rs k mod length q) with
      | None => UB
      | Some mid =>
        if seen_different q then
          do l' <- part_loop (S (length q)) q mid 0 (length q - 1);
          do r1 <- sort f rs (S k) (firstn (lt_count q mid) l');
          do r2 <- sort f rs (snd r1) (skipn (lt_count q mid) l');
          Ok (fst r1 ++ fst r2, snd r2)
        else Ok (q, S k)
      end) by (subst q; reflexivity).
  rewrite E, M, SD, A. cbn [bind]. rewrite (sort_mono _ _ _ _ _ _ R1) by lia. cbn [bind]. rewrite (sort_mono _ _ _ _ _ _ R2) by lia. reflexivity.
Qed.
End Part.

(** ** The comparison behaves on numbers other than NaN, and on strings. *)
Definition sort_num (v : value) : Prop := match v with VInt _ => True | VFloat f => f <> S754_nan | _ => False end.
Definition sort_str (v : value) : Prop := match v with VStr _ => True | _ => False end.

Lemma num_not_nan v : sort_num v -> get_num v <> S754_nan.
Proof. destruct v; cbn; try contradiction; intros H; [exact H|apply f_of_int_not_nan]. Qed.
Lemma num_cmp a b : sort_num a -> sort_num b -> obj_cmp a b = if f_ltb (get_num a) (get_num b) then (-1)%Z else if f_ltb (get_num b) (get_num a) then 1%Z else 0%Z.
Proof. intros A B. destruct a, b; cbn in A, B; try contradiction; reflexivity. Qed.
Lemma num_le a b : sort_num a -> sort_num b -> (obj_cmp a b <= 0)%Z <-> f_leb (get_num a) (get_num b) = true.
Proof.
  intros A B. rewrite num_cmp by assumption. pose proof (num_not_nan a A) as Na. pose proof (num_not_nan b B) as Nb.
  rewrite (f_ltb_leb (get_num a) (get_num b)), (f_ltb_leb (get_num b) (get_num a)) by assumption.
  destruct (f_leb_total (get_num a) (get_num b) Na Nb) as [H|H]; rewrite H; [destruct (f_leb (get_num b) (get_num a))|destruct (f_leb (get_num a) (get_num b))]; cbn; split; intros; try lia; try congruence.
Qed.
Lemma num_refl a : sort_num a -> obj_cmp a a = 0%Z.
Proof. intros A. rewrite num_cmp by assumption. rewrite f_ltb_leb by (apply num_not_nan, A). rewrite f_leb_refl by (apply num_not_nan, A). reflexivity. Qed.
Lemma num_anti a b : sort_num a -> sort_num b -> obj_cmp b a = (- obj_cmp a b)%Z.
Proof.
  intros A B. rewrite !num_cmp by assumption. pose proof (num_not_nan a A) as Na. pose proof (num_not_nan b B) as Nb.
  rewrite (f_ltb_leb (get_num a) (get_num b)), (f_ltb_leb (get_num b) (get_num a)) by assumption.
  destruct (f_leb_total (get_num a) (get_num b) Na Nb) as [H|H]; rewrite H; [destruct (f_leb (get_num b) (get_num a))|destruct (f_leb (get_num a) (get_num b))]; reflexivity.
Qed.
Lemma num_trans a b c : sort_num a -> sort_num b -> sort_num c -> (obj_cmp a b <= 0)%Z -> (obj_cmp b c <= 0)%Z -> (obj_cmp a c <= 0)%Z.
Proof. intros A B C. rewrite !num_le by assumption. apply f_leb_trans. Qed.

Lemma str_cmp_le s t : (str_cmp s t <= 0)%Z <-> lex_lt s t \/ s = t.
Proof.
  rewrite str_cmp_lexc. pose proof (lexc_range s t). rewrite <- lexc_lt, <- lexc_eq. lia.
Qed.
Lemma strs_refl a : sort_str a -> obj_cmp a a = 0%Z.
Proof. destruct a; cbn; try contradiction. intros _. apply str_cmp_eq. reflexivity. Qed.
Lemma strs_anti a b : sort_str a -> sort_str b -> obj_cmp b a = (- obj_cmp a b)%Z.
Proof. destruct a; cbn; try contradiction. destruct b; cbn; try contradiction. intros _ _. rewrite !str_cmp_lexc. apply lexc_opp. Qed.
Lemma strs_trans a b c : sort_str a -> sort_str b -> sort_str c -> (obj_cmp a b <= 0)%Z -> (obj_cmp b c <= 0)%Z -> (obj_cmp a c <= 0)%Z.
Proof.
  destruct a; cbn; try contradiction. destruct b; cbn; try contradiction. destruct c; cbn; try contradiction. intros _ _ _.
  rewrite !str_cmp_le. intros [H| ->] [G| ->]; auto. left. eapply lex_trans; eauto.
Qed.

(** ** list.sort *)
Lemma check_num l : sort_check STNum l = (if forallb is_num l then Ok STNum else Err EValue).
Proof. induction l as [|v l IH]; [reflexivity|]. destruct v; cbn; try reflexivity; exact IH. Qed.
Lemma check_str l : sort_check STStr l = (if forallb is_str l then Ok STStr else Err EValue).
Proof. induction l as [|v l IH]; [reflexivity|]. destruct v; cbn; try reflexivity; exact IH. Qed.
Lemma check_spec l : sort_check STEmpty l = match l with [] => Ok STEmpty | _ => if forallb is_num l then Ok STNum else if forallb is_str l then Ok STStr else Err EValue end.
Proof.
  destruct l as [|v l]; [reflexivity|]. destruct v; cbn; try reflexivity; rewrite ?check_num, ?check_str; reflexivity.
Qed.
