(** C13: list.sort. Model in Sort.v. *)
From Coq Require Import Permutation.
From Verif Require Import Base Value ValueSpec Ops StrOrder Sort SortProofs.

(** ** Specification. *)
(** The list is in non-decreasing order for [r]. *)
Definition ordered (r : value -> value -> Prop) (l : list value) : Prop :=
  forall i j x y, (i < j)%nat -> nth_error l i = Some x -> nth_error l j = Some y -> r x y.
(** Numbers other than NaN, ordered as doubles; strings, ordered lexicographically. *)
Definition proper_number (v : value) : Prop := match v with VInt _ => True | VFloat f => f <> S754_nan | _ => False end.
Definition a_string (v : value) : Prop := match v with VStr _ => True | _ => False end.
Definition num_order (x y : value) : Prop := f_leb (get_num x) (get_num y) = true.
Definition str_order (x y : value) : Prop :=
  match x, y with VStr s, VStr t => lex_lt s t \/ s = t | _, _ => False end.

(** For every sequence of random numbers: if sort returns, the result is an ordered permutation. *)
Theorem C13_sort_numbers : forall fuel rs l l', Forall proper_number l -> list_sort fuel rs l = Ok l' ->
  Permutation l' l /\ ordered num_order l'.
Proof.
  intros fuel rs l l' F H. unfold list_sort in H. destruct (sort_check STEmpty l) as [t| | |] eqn:C; try discriminate. cbn [bind] in H.
  destruct l as [|v l].
  { cbn in C. injection C as <-. injection H as <-. split; [reflexivity|]. intros i j x y _ X. destruct i; discriminate. }
  assert (H' : omap fst (sort fuel rs 0 (v :: l)) = Ok l').
  { rewrite check_spec in C. destruct (forallb is_num (v :: l)); [injection C as <-; exact H|]. destruct (forallb is_str (v :: l)); [injection C as <-; exact H|discriminate]. }
  destruct (sort fuel rs 0 (v :: l)) as [[l2 k2]| | |] eqn:E; try discriminate. cbn in H'. injection H' as ->.
  destruct (sort_ok sort_num num_refl num_anti num_trans _ _ _ _ _ _ F E) as (P & S). split; [exact P|].
  intros i j x y L X Y. pose proof (S i j x y L X Y) as Q.
  assert (G : Forall sort_num l') by (eapply perm_forall; [exact P|exact F]). rewrite Forall_forall in G.
  apply num_le in Q; [exact Q| |]; apply G; eapply nth_error_In; eauto.
Qed.
Print Assumptions C13_sort_numbers.
Theorem C13_sort_strings : forall fuel rs l l', Forall a_string l -> list_sort fuel rs l = Ok l' ->
  Permutation l' l /\ ordered str_order l'.
Proof.
  intros fuel rs l l' F H. unfold list_sort in H. destruct (sort_check STEmpty l) as [t| | |] eqn:C; try discriminate. cbn [bind] in H.
  destruct l as [|v l].
  { cbn in C. injection C as <-. injection H as <-. split; [reflexivity|]. intros i j x y _ X. destruct i; discriminate. }
  assert (H' : omap fst (sort fuel rs 0 (v :: l)) = Ok l').
  { rewrite check_spec in C. destruct (forallb is_num (v :: l)); [injection C as <-; exact H|]. destruct (forallb is_str (v :: l)); [injection C as <-; exact H|discriminate]. }
  destruct (sort fuel rs 0 (v :: l)) as [[l2 k2]| | |] eqn:E; try discriminate. cbn in H'. injection H' as ->.
  destruct (sort_ok sort_str strs_refl strs_anti strs_trans _ _ _ _ _ _ F E) as (P & S). split; [exact P|].
  intros i j x y L X Y. pose proof (S i j x y L X Y) as Q.
  assert (G : Forall sort_str l') by (eapply perm_forall; [exact P|exact F]). rewrite Forall_forall in G.
  pose proof (G x (nth_error_In _ _ X)) as Sx. pose proof (G y (nth_error_In _ _ Y)) as Sy.
  destruct x; cbn in Sx; try contradiction. destruct y; cbn in Sy; try contradiction. apply str_cmp_le, Q.
Qed.
Print Assumptions C13_sort_strings.

(** The array is never left, and no error is raised, for any random numbers. *)
Theorem C13_sort_safe : forall fuel rs l, Forall proper_number l \/ Forall a_string l ->
  (exists l', list_sort fuel rs l = Ok l') \/ list_sort fuel rs l = NoFuel.
Proof.
  intros fuel rs l F. unfold list_sort.
  assert (C : exists t, sort_check STEmpty l = Ok t).
  { rewrite check_spec. destruct l as [|v l]; [eexists; reflexivity|]. destruct F as [F|F].
    - assert (forallb is_num (v :: l) = true) as ->; [|eexists; reflexivity]. apply forallb_forall. intros x I. rewrite Forall_forall in F. specialize (F x I). destruct x; cbn in F; try contradiction; reflexivity.
    - destruct (forallb is_num (v :: l)); [eexists; reflexivity|]. assert (forallb is_str (v :: l) = true) as ->; [|eexists; reflexivity]. apply forallb_forall. intros x I. rewrite Forall_forall in F. specialize (F x I). destruct x; cbn in F; try contradiction; reflexivity. }
  destruct C as (t & ->). cbn [bind].
  assert (S : (exists r, sort fuel rs 0 l = Ok r) \/ sort fuel rs 0 l = NoFuel).
  { destruct F as [F|F]; [apply (sort_safe sort_num num_refl num_anti num_trans); exact F|apply (sort_safe sort_str strs_refl strs_anti strs_trans); exact F]. }
  destruct t; [left; eexists; reflexivity| |]; (destruct S as [((l' & k) & S)|S]; rewrite S; [left; eexists; reflexivity|right; reflexivity]).
Qed.
Print Assumptions C13_sort_safe.

(** It terminates as soon as the random numbers are fair (every residue keeps coming up). *)
Definition fair_random (rs : nat -> nat) : Prop := forall len i k, (i < len)%nat -> exists j, (k <= j)%nat /\ (rs j mod len = i)%nat.
Theorem C13_sort_terminates : forall rs l, fair_random rs -> Forall proper_number l \/ Forall a_string l ->
  exists fuel l', list_sort fuel rs l = Ok l'.
Proof.
  intros rs l FA F.
  assert (T : exists fuel r, sort fuel rs 0 l = Ok r).
  { destruct F as [F|F]; [apply (sort_terminates sort_num num_refl num_anti num_trans rs FA (length l) l 0 (le_n _) F)
                         |apply (sort_terminates sort_str strs_refl strs_anti strs_trans rs FA (length l) l 0 (le_n _) F)]. }
  destruct T as (fuel & r & T). exists fuel. destruct (C13_sort_safe fuel rs l F) as [S|S]; [exact S|].
  exfalso. unfold list_sort in S. rewrite check_spec in S. destruct l as [|v l]; [discriminate|].
  destruct (forallb is_num (v :: l)); [|destruct (forallb is_str (v :: l)); [|discriminate]]; cbn [bind] in S; rewrite T in S; discriminate.
Qed.
Print Assumptions C13_sort_terminates.

(** A list that mixes strings with numbers, or holds anything else, raises ValueError before anything is moved. *)
Theorem C13_sort_mixed : forall fuel rs l, l <> [] ->
  (exists e, list_sort fuel rs l = Err e) <-> ~ Forall (fun v => is_num v = true) l /\ ~ Forall (fun v => is_str v = true) l.
Proof.
  intros fuel rs l N. unfold list_sort. rewrite check_spec. destruct l as [|v l]; [congruence|]. clear N. set (q := v :: l).
  assert (SNE : forall f k q e, sort f rs k q <> Err e).
  { clear. intros f. induction f as [|f IH]; intros k q e; [discriminate|]. destruct q as [|a [|b [|c q]]]; cbn [sort]; try discriminate.
    set (p := a :: b :: c :: q). clearbody p. destruct (nth_error p _) as [mid|]; [|discriminate]. destruct (seen_different p); [|discriminate].
    assert (PNE : forall g l a b e, part_loop g l mid a b <> Err e).
    { clear. intros g. induction g as [|g IH]; intros l a b e; [discriminate|]. cbn [part_loop]. destruct (a <? b)%nat; [|discriminate].
      assert (SL : forall h i e, scan_left h l mid i <> Err e).
      { clear. intros h. induction h as [|h IH]; intros i e; [discriminate|]. cbn. destruct (nth_error l i); [|discriminate]. destruct (_ <? _); [apply IH|discriminate]. }
      assert (SR : forall i e, scan_right l mid i <> Err e).
      { clear. intros i. induction i as [|i IH]; intros e; cbn; [destruct l; [discriminate|]|destruct l; [discriminate|destruct (nth_error l i); [|discriminate]]]; destruct (_ <=? _); try discriminate. apply IH. }
      destruct (scan_left (S (length l)) l mid a) as [x|e'| |] eqn:EL; try discriminate; [|exfalso; eapply SL; eauto]. cbn [bind].
      destruct (scan_right l mid b) as [y|e'| |] eqn:ER; try discriminate; [|exfalso; eapply SR; eauto]. cbn [bind].
      destruct (nth_error l x) as [vx|] eqn:Ex; [|discriminate]. destruct (nth_error l y) as [vy|] eqn:Ey; [|discriminate].
      destruct (_ && _); [unfold swap; rewrite Ex, Ey; cbn [bind]; destruct y; [discriminate|apply IH]|]. destruct (_ =? _); [destruct y; [discriminate|apply IH]|apply IH]. }
    destruct (part_loop _ _ _ _ _) as [l'|e'| |] eqn:EP; try discriminate; [|exfalso; eapply PNE; eauto]. cbn [bind].
    destruct (sort f rs (S k) _) as [[l1 k1]|e'| |] eqn:E1; try discriminate; [|exfalso; eapply IH; eauto]. cbn [bind fst snd].
    destruct (sort f rs k1 _) as [[l2 k2]|e'| |] eqn:E2; try discriminate. exfalso; eapply IH; eauto. }
  assert (FB : forall g, forallb g q = true <-> Forall (fun v => g v = true) q) by (intros g; rewrite forallb_forall, Forall_forall; reflexivity).
  split.
  - intros (e & H). rewrite <- !FB. split; intros B; rewrite B in H.
    + cbn [bind] in H. destruct (sort fuel rs 0 q) as [[? ?]| | |] eqn:E; try discriminate. eapply SNE; eauto.
    + destruct (forallb is_num q); cbn [bind] in H; destruct (sort fuel rs 0 q) as [[? ?]| | |] eqn:E; try discriminate; eapply SNE; eauto.
  - rewrite <- !FB. intros (A & B). destruct (forallb is_num q); [congruence|]. destruct (forallb is_str q); [congruence|]. exists EValue. reflexivity.
Qed.
Print Assumptions C13_sort_mixed.

(** Findings. Ints are compared as doubles: [2^53+1, 2^53] stays as it is although 2^53 < 2^53+1. *)
Theorem C13_large_ints_refuted : exists w rs l', list_sort 10 rs [VInt 9007199254740993; VInt 9007199254740992] = Ok l' /\
  l' = [VInt 9007199254740993; VInt 9007199254740992] /\
  exec_binop w BLt (VInt 9007199254740992) (VInt 9007199254740993) = Ok (VBool true).
Proof.
  exists (World (fun _ _ => S754_nan) (fun _ _ _ => Err EType) (fun _ _ => Err EType) (fun _ => Ok []) (fun _ _ => false)), (fun _ => 0%nat).
  eexists. split; [vm_compute; reflexivity|]. split; vm_compute; reflexivity.
Qed.
Print Assumptions C13_large_ints_refuted.
(** NaN at the front: the list is returned unsorted. *)
Theorem C13_nan_refuted : forall rs, list_sort 10 rs [VFloat S754_nan; VInt 2; VInt 1] = Ok [VFloat S754_nan; VInt 2; VInt 1].
Proof.
  intros rs. unfold list_sort. cbn [sort_check bind]. set (l := [VFloat S754_nan; VInt 2; VInt 1]).
  cbn [sort l]. fold l. destruct (nth_error l (rs 0%nat mod length l)) eqn:E.
  - reflexivity.
  - apply nth_error_None in E. pose proof (Nat.mod_upper_bound (rs 0%nat) (length l)). cbn in *. lia.
Qed.
Print Assumptions C13_nan_refuted.
(** Always picking the least element as pivot recurses for ever (on the C stack: a crash). *)
Theorem C13_unfair_pivots_refuted : exists rs l, Forall proper_number l /\ forall fuel k, sort fuel rs k l = NoFuel.
Proof.
  exists (fun _ => 0%nat), [VInt 1; VInt 2; VInt 3]. split; [repeat constructor|].
  set (l := [VInt 1; VInt 2; VInt 3]).
  assert (STEP : forall f k, sort (S f) (fun _ => 0%nat) k l =
     do r1 <- sort f (fun _ => 0%nat) (S k) []; do r2 <- sort f (fun _ => 0%nat) (snd r1) l; Ok (fst r1 ++ fst r2, snd r2)).
  { intros f k. reflexivity. }
  induction fuel as [|f IH]; intros k; [reflexivity|]. rewrite STEP. destruct f as [|f]; [reflexivity|].
  assert (sort (S f) (fun _ => 0%nat) (S k) [] = Ok ([], S k)) as -> by reflexivity. cbn [bind fst snd]. rewrite IH. reflexivity.
Qed.
Print Assumptions C13_unfair_pivots_refuted.

(** Fair random numbers exist: 0 | 0 1 2 | 0 1 2 3 4 | ... *)
Lemma fair_exists : fair_random (fun j => (j - Nat.sqrt j * Nat.sqrt j)%nat).
Proof.
  intros len i k H. set (n := (len + k)%nat). exists (n * n + i)%nat. split; [unfold n; nia|].
  assert (Nat.sqrt (n * n + i) = n) as -> by (apply Nat.sqrt_unique; unfold n; nia).
  replace (n * n + i - n * n)%nat with i by lia. apply Nat.mod_small, H.
Qed.
Example C13_nonvacuous :
  fair_random (fun j => (j - Nat.sqrt j * Nat.sqrt j)%nat) /\
  list_sort 100 (fun j => (j - Nat.sqrt j * Nat.sqrt j)%nat) (map VInt [5; 3; 9; 3; 1; 8; 2]) = Ok (map VInt [1; 2; 3; 3; 5; 8; 9]) /\
  list_sort 100 (fun j => j) [VStr [98]; VStr [97; 98]; VStr []] = Ok [VStr []; VStr [97; 98]; VStr [98]] /\
  list_sort 100 (fun j => j) [VStr [98]; VInt 3] = Err EValue.
Proof. split; [exact fair_exists|]. vm_compute. auto. Qed.
