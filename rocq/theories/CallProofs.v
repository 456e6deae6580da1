(** * Proofs about calls. *)
From Verif Require Import Base Bytes Value Ops VM Calls CallSpec.

Lemma set_stk_stk s k : v_stk (set_stk s k) = k. Proof. reflexivity. Qed.
Lemma sp_set s k : sp (set_stk s k) = Z.of_nat (length k) - 1. Proof. reflexivity. Qed.
Lemma push_ok s v : Z.of_nat (length (v_stk s)) < 1024 -> push s v = Next (set_stk s (v :: v_stk s)).
Proof. intros H. unfold push, sp, STACK_SIZE. destruct (Z.geb_spec (Z.of_nat (length (v_stk s)) - 1 + 1) 1024); [lia|reflexivity]. Qed.
Lemma repeat_snoc {A} (x : A) n l : repeat x n ++ x :: l = x :: repeat x n ++ l.
Proof. induction n; [reflexivity|]. cbn [repeat app]. rewrite IHn. reflexivity. Qed.
Lemma push_undefs_ok n : forall s, Z.of_nat (length (v_stk s)) + Z.of_nat n <= 1024 -> push_undefs n s = Next (set_stk s (repeat VUndef n ++ v_stk s)).
Proof.
  induction n; intros s H; [destruct s; reflexivity|]. cbn [push_undefs]. rewrite push_ok by lia. rewrite IHn by (rewrite set_stk_stk; cbn [length]; lia).
  rewrite set_stk_stk. rewrite repeat_snoc. reflexivity.
Qed.
Lemma push_undefs_full n : forall s, 0 < Z.of_nat n -> 1024 < Z.of_nat (length (v_stk s)) + Z.of_nat n -> exists s', push_undefs n s = Stop (Err EStackOverflow) s'.
Proof.
  induction n; intros s P H; [lia|]. cbn [push_undefs]. unfold push, sp, STACK_SIZE. destruct (Z.geb_spec (Z.of_nat (length (v_stk s)) - 1 + 1) 1024); [eexists; reflexivity|].
  destruct n; [exfalso; lia|]. apply IHn; [lia|]. rewrite set_stk_stk; cbn [length]; lia.
Qed.
Lemma skipn_app_ge {A} (a b : list A) n : (n <= length a)%nat -> skipn n (a ++ b) = skipn n a ++ b.
Proof. intros H. rewrite skipn_app. replace (n - length a)%nat with O by lia. reflexivity. Qed.
Lemma skipn_rev {A} (l : list A) n : skipn (length l - n) (rev l) = rev (firstn n l).
Proof.
  destruct (Nat.le_gt_cases n (length l)).
  - rewrite <- (firstn_skipn n l) at 2. rewrite rev_app_distr, skipn_app_ge by (rewrite rev_length, skipn_length; lia).
    rewrite skipn_all2 by (rewrite rev_length, skipn_length; lia). reflexivity.
  - rewrite firstn_all2 by lia. replace (length l - n)%nat with O by lia. reflexivity.
Qed.
Lemma rev_fit n l : rev (fit n l) = repeat VUndef (n - length l) ++ skipn (length l - n) (rev l).
Proof.
  unfold fit. rewrite rev_app_distr, skipn_rev. f_equal. generalize (n - length l)%nat as m. clear. induction m; [reflexivity|]. cbn [repeat rev]. rewrite IHm.
  clear. induction m; [reflexivity|]. cbn [repeat app]. rewrite IHm. reflexivity.
Qed.
Lemma fit_length n l : length (fit n l) = n.
Proof. unfold fit. rewrite app_length, firstn_length, repeat_length. lia. Qed.

(** [base] values lie below the frame's own. *)
Lemma trim_ok (s : vstate) vs rest n : v_stk s = rev vs ++ rest -> Z.of_nat (length rest) + Z.of_nat n <= 1024 ->
  (if Z.of_nat (length vs) <? Z.of_nat n then push_undefs (Z.to_nat (Z.of_nat n - Z.of_nat (length vs))) s
   else Next (set_stk s (skipn (Z.to_nat (Z.of_nat (length vs) - Z.of_nat n)) (v_stk s)))) = Next (set_stk s (rev (fit n vs) ++ rest)).
Proof.
  intros E R. rewrite rev_fit. destruct (Z.ltb_spec (Z.of_nat (length vs)) (Z.of_nat n)).
  - rewrite push_undefs_ok by (rewrite E, app_length, rev_length; lia). do 2 f_equal. rewrite E. replace (Z.to_nat (Z.of_nat n - Z.of_nat (length vs))) with (n - length vs)%nat by lia.
    replace (length vs - n)%nat with O by lia. rewrite app_assoc_reverse. reflexivity.
  - rewrite E. replace (Z.to_nat (Z.of_nat (length vs) - Z.of_nat n)) with (length vs - n)%nat by lia. replace (n - length vs)%nat with O by lia.
    rewrite skipn_app_ge by (rewrite rev_length; lia). reflexivity.
Qed.
Lemma fill_args_ok s args f below n k : v_stk s = rev args ++ f :: below -> v_fp s = Z.of_nat (length below) ->
  Z.of_nat (length below) + 1 + Z.of_nat n <= 1024 ->
  fill_args s (Z.of_nat n) k = k (set_stk s (rev (fit n args) ++ f :: below)).
Proof.
  intros E F R. unfold fill_args. assert (H : sp s - v_fp s = Z.of_nat (length args)) by (unfold sp; rewrite E, F, app_length, rev_length; cbn [length]; lia).
  rewrite H. pose proof (trim_ok s args (f :: below) n E ltac:(cbn [length]; lia)) as T. destruct (Z.ltb_spec (Z.of_nat (length args)) (Z.of_nat n)).
  - rewrite T. reflexivity.
  - injection T as T. rewrite T. reflexivity.
Qed.
Lemma rm_range_ok (top mid below : list value) : rm_range (top ++ mid ++ below) (Z.of_nat (length below)) (Z.of_nat (length below) + Z.of_nat (length mid)) = Some (top ++ below).
Proof.
  unfold rm_range. set (a := Z.of_nat (length (top ++ mid ++ below)) - (Z.of_nat (length below) + Z.of_nat (length mid))).
  assert (A : a = Z.of_nat (length top)) by (unfold a; rewrite !app_length; lia).
  replace ((0 <=? Z.of_nat (length below)) && (Z.of_nat (length below) <=? Z.of_nat (length below) + Z.of_nat (length mid)) && (0 <=? a)) with true by (symmetry; rewrite A; lia).
  rewrite A. f_equal. f_equal.
  - rewrite Nat2Z.id, firstn_app, Nat.sub_diag, firstn_all, firstn_O, app_nil_r. reflexivity.
  - rewrite app_assoc. replace (Z.to_nat _) with (length (top ++ mid)) by (rewrite app_length; lia). rewrite skipn_app, skipn_all, Nat.sub_diag. reflexivity.
Qed.
Lemma skipn_app_exact {A} (a b : list A) n : n = length a -> skipn n (a ++ b) = b.
Proof. intros ->. rewrite skipn_app, skipn_all, Nat.sub_diag. reflexivity. Qed.
Lemma exitframe_ok s results mid f below fr frs extra loops : v_stk s = rev results ++ mid ++ f :: below -> v_fp s = Z.of_nat (length below) ->
  v_frames s = fr :: frs -> v_loops s = extra ++ loops -> f_lp fr = Z.of_nat (length loops) - 1 -> Z.of_nat (length below) + Z.max 0 (f_nret fr) <= 1024 ->
  exists s', exitframe s (Z.of_nat (length mid)) = Next s' /\ v_stk s' = rev (delivered (f_nret fr) results) ++ below /\ v_pc s' = f_pc fr /\ v_fp s' = f_prev_fp fr
    /\ v_frames s' = frs /\ v_next_fp s' = f_curr_fp fr /\ v_loops s' = loops /\ v_gl s' = v_gl s /\ v_out s' = v_out s /\ v_upv s' = v_upv s /\ v_pending s' = v_pending s /\ v_clo s' = v_clo s.
Proof.
  intros E F Fr L Lp R. unfold exitframe. pose proof (rm_range_ok (rev results) (mid ++ [f]) below) as M. rewrite <- app_assoc in M. cbn [app] in M.
  rewrite E, F. replace (Z.of_nat (length below) + Z.of_nat (length mid) + 1) with (Z.of_nat (length below) + Z.of_nat (length (mid ++ [f]))) by (rewrite app_length; cbn [length]; lia).
  rewrite M. cbn [opt]. rewrite Fr. cbv zeta. set (s1 := set_stk s (rev results ++ below)).
  assert (H : sp s1 + 1 - v_fp s1 = Z.of_nat (length results)) by (unfold s1; rewrite sp_set, app_length, rev_length; cbn [v_fp set_stk]; lia).
  rewrite H.
  assert (T : (if f_nret fr <? 0 then Next s1 else if Z.of_nat (length results) <? f_nret fr then push_undefs (Z.to_nat (f_nret fr - Z.of_nat (length results))) s1
     else Next (set_stk s1 (skipn (Z.to_nat (Z.of_nat (length results) - f_nret fr)) (v_stk s1)))) = Next (set_stk s (rev (delivered (f_nret fr) results) ++ below))).
  { unfold delivered. destruct (Z.ltb_spec (f_nret fr) 0); [reflexivity|].
    pose proof (trim_ok s1 results below (Z.to_nat (f_nret fr)) eq_refl ltac:(lia)) as T. rewrite Z2Nat.id in T by lia. rewrite T. reflexivity. }
  rewrite T. eexists. split; [reflexivity|]. cbn [v_stk v_pc v_fp v_frames v_next_fp v_loops v_gl v_out v_upv v_pending v_clo set_pc set_frames set_loops set_stk].
  repeat split; auto. rewrite L. apply skipn_app_exact. rewrite app_length, Lp. lia.
Qed.
