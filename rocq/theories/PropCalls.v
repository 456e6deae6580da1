(** * C30 (calls deliver arguments and results) and C43 (stack limits), about the machine of VM.v and Calls.v. *)
From Verif Require Import Base Bytes Value Ops VM Calls CallSpec CallProofs.

(** What a called function must give back to its caller, besides the results. *)
Definition same_frame (s t : vstate) : Prop := v_fp s = v_fp t /\ v_frames s = v_frames t /\ v_next_fp s = v_next_fp t.
(** [callee] is a YASL function whose code starts at [addr] with its number of parameters. *)
Definition yasl_function (P : prog) (s : vstate) (callee : value) (addr : Z) (n : nat) : Prop :=
  (callee = VFn addr \/ exists k c, callee = VClosure k /\ nthZ (v_clo s) k = Some c /\ k_code c = addr) /\ nthZ (p_code P) addr = Some (Z.of_nat n).
(** The code at the program counter. *)
Definition at_code (P : prog) (s : vstate) (bs : list Z) : Prop := forall i b, nth_error bs i = Some b -> nthZ (p_code P) (v_pc s + Z.of_nat i) = Some b.
(** Every variable still shared with a closure is a live stack slot. *)
Definition shared_ok (s : vstate) : Prop :=
  NoDup (v_pending s) /\ Forall (fun c => exists l v, nth_error (v_upv s) c = Some (UOpen l) /\ slot_get (v_stk s) l = Some v) (v_pending s).

Lemma at_code_rd1 P s b bs f : at_code P s (b :: bs) -> rd1 P s f = f b (set_pc s (v_pc s + 1)).
Proof. intros H. unfold rd1. specialize (H O b eq_refl). rewrite Z.add_0_r in H. rewrite H. reflexivity. Qed.
Lemma at_code_tl P s b bs : at_code P s (b :: bs) -> at_code P (set_pc s (v_pc s + 1)) bs.
Proof. intros H i x E. specialize (H (S i) x E). cbn [v_pc set_pc]. rewrite <- H. f_equal. lia. Qed.
Lemma slot_callee (top : list value) v below : slot_get (top ++ v :: below) (Z.of_nat (length below)) = Some v.
Proof.
  unfold slot_get. replace ((0 <=? _) && _) with true by (symmetry; rewrite app_length; cbn [length]; lia).
  unfold from_top. rewrite app_length. cbn [length]. replace (Z.to_nat _) with (length top) by lia. rewrite nth_error_app2, Nat.sub_diag by lia. reflexivity.
Qed.
Lemma nth_put {A} (l : list A) : forall n m v, nth_error (put l n v) m = if (n =? m)%nat then match nth_error l m with Some _ => Some v | None => None end else nth_error l m.
Proof.
  induction l as [|x l IH]; intros [|n] [|m] v; cbn [put nth_error Nat.eqb]; try reflexivity. - destruct (n =? m)%nat; reflexivity. - apply IH.
Qed.
Lemma close_pending_ok stk fp : forall pend u, NoDup pend -> Forall (fun c => exists l v, nth_error u c = Some (UOpen l) /\ slot_get stk l = Some v) pend ->
  exists u' p', close_pending stk fp u pend = Some (u', p').
Proof.
  induction pend as [|c pend IH]; intros u N F; [do 2 eexists; reflexivity|]. inversion N; subst. inversion F as [|x y (l & v & E & G) F']; subst. cbn [close_pending]. rewrite E.
  destruct (l <? fp); [do 2 eexists; reflexivity|]. rewrite G. apply IH; [assumption|]. rewrite Forall_forall in F' |- *. intros d Id. destruct (F' d Id) as (l2 & v2 & E2 & G2).
  exists l2, v2. split; [|exact G2]. rewrite nth_put. destruct (Nat.eqb_spec c d); [subst; contradiction|exact E2].
Qed.

(** ** C30: one whole call. The three runs in between (evaluating the arguments, and the body up to its [return]) are
    arbitrary, as long as they leave the caller's part of the stack and the bookkeeping of calls as they found them. *)
Theorem C30_call : forall P s0 nret callee below,
  at_code P s0 [232; nret mod 256] -> -1 <= nret <= 127 -> v_stk s0 = callee :: below ->
  (exists a, callee = VFn a) \/ (exists k, callee = VClosure k) -> Z.of_nat (length (v_frames s0)) < 1000 -> Z.of_nat (length below) + Z.max 0 nret <= 1024 ->
  exists s1, step P s0 = Next s1 /\ v_stk s1 = v_stk s0 /\ v_pc s1 = v_pc s0 + 2 /\
  (* the arguments have been evaluated *)
  forall s2 args addr n, v_stk s2 = rev args ++ callee :: below -> same_frame s1 s2 -> v_loops s2 = v_loops s0 ->
    at_code P s2 [233] -> yasl_function P s2 callee addr n -> Z.of_nat (length below) + 1 + Z.of_nat n <= 1024 ->
  exists s3, step P s2 = Next s3 /\ v_pc s3 = addr + 1 /\
    (* the body starts with exactly its parameters above the function *)
    v_stk s3 = rev (fit n args) ++ callee :: below /\ v_fp s3 = Z.of_nat (length below) /\
  (* the body is about to return [results] *)
  forall s4 results locals callee4 extra ret, v_stk s4 = rev results ++ locals ++ callee4 :: below -> same_frame s3 s4 -> v_loops s4 = extra ++ v_loops s0 ->
    at_code P s4 [ret; Z.of_nat (length locals)] -> ret = 236 \/ (ret = 237 /\ shared_ok s4) ->
  exists s5, step P s4 = Next s5 /\ v_pc s5 = v_pc s2 + 1 /\
    v_stk s5 = rev (delivered nret results) ++ below /\ same_frame s0 s5 /\ v_loops s5 = v_loops s0 /\ v_gl s5 = v_gl s4 /\ v_out s5 = v_out s4.
Proof.
  intros P s0 nret callee below C0 Hn E0 Ty Fr R0. assert (Sc : schar (nret mod 256) = nret).
  { unfold schar. pose proof (Z.mod_pos_bound nret 256 ltac:(lia)). destruct (Z.ltb_spec (nret mod 256) 128); [rewrite Z.mod_small in * by (destruct (Z.eq_dec nret (-1)); [subst; cbn in *; lia|lia]); reflexivity|].
    destruct (Z.eq_dec nret (-1)) as [->|]; [reflexivity|]. rewrite Z.mod_small in * by lia. lia. }
  unfold step at 1. rewrite (at_code_rd1 _ _ _ _ _ C0). change (op_of_byte 232) with (Some O_INIT_CALL). cbv match. cbn [exec].
  rewrite (at_code_rd1 _ _ _ _ _ (at_code_tl _ _ _ _ C0)). rewrite Sc. set (s0' := set_pc _ _).
  assert (S1 : init_call s0' nret = Next (set_frames s0' (v_fp s0) (CF (v_pc s0 + 2) (v_fp s0) (v_next_fp s0) (Z.of_nat (length (v_loops s0)) - 1) nret :: v_frames s0) (sp s0))).
  { unfold init_call. replace (v_stk s0') with (callee :: below) by (symmetry; exact E0). destruct (Z.geb_spec (Z.of_nat (length (v_frames s0'))) NUM_FRAMES); [unfold s0', NUM_FRAMES in *; cbn [v_frames set_pc] in *; lia|].
    unfold s0'. cbn [v_pc set_pc v_frames v_fp v_next_fp v_loops]. replace (v_pc s0 + 1 + 1) with (v_pc s0 + 2) by lia. destruct Ty as [(a & ->)|(k & ->)]; reflexivity. }
  rewrite S1. eexists. split; [reflexivity|]. split; [reflexivity|]. split; [unfold s0'; cbn [v_pc set_pc set_frames]; lia|].
  intros s2 args addr n E2 (Sf & Sr & Sn) L2 C2 (Kind & Np) R2. cbn [v_fp v_frames v_next_fp set_frames] in Sf, Sr, Sn.
  assert (Nf : v_next_fp s2 = Z.of_nat (length below)) by (rewrite <- Sn; unfold sp; rewrite E0; cbn [length]; lia).
  set (s2a := set_frames (set_pc s2 (v_pc s2 + 1)) (Z.of_nat (length below)) (CF (v_pc s2 + 1) (v_fp s0) (v_next_fp s0) (Z.of_nat (length (v_loops s0)) - 1) nret :: v_frames s0) (Z.of_nat (length below))).
  assert (S3 : step P s2 = Next (set_pc (set_stk s2a (rev (fit n args) ++ callee :: below)) (addr + 1))).
  { unfold step. rewrite (at_code_rd1 _ _ _ _ _ C2). change (op_of_byte 233) with (Some O_CALL). cbv match. cbn [exec]. unfold exec_call. cbv zeta.
    cbn [v_next_fp set_pc set_frames v_stk v_fp v_frames v_clo]. rewrite Nf, E2, slot_callee. rewrite <- Sr.
    assert (CN : forall fr0, call_native P (set_frames (set_pc s2 (v_pc s2 + 1)) (Z.of_nat (length below)) (CF fr0 (v_fp s0) (v_next_fp s0) (Z.of_nat (length (v_loops s0)) - 1) nret :: v_frames s0) (Z.of_nat (length below))) addr =
       Next (set_pc (set_stk s2a (rev (fit n args) ++ callee :: below)) (addr + 1))).
    { intros fr0. unfold call_native. cbn [v_frames set_frames v_fp v_next_fp v_pc set_pc f_prev_fp f_curr_fp f_lp f_nret]. rewrite Np.
      fold s2a. apply (fill_args_ok s2a args callee below n); [exact E2|reflexivity|lia]. }
    destruct Kind as [->|(k & c & -> & Hk & <-)]; [apply CN|]. cbn [v_clo set_pc set_frames]. rewrite Hk. cbn [opt]. apply CN. }
  exists (set_pc (set_stk s2a (rev (fit n args) ++ callee :: below)) (addr + 1)). split; [exact S3|]. split; [reflexivity|]. split; [reflexivity|]. split; [reflexivity|].
  intros s4 results locals callee4 extra ret E4 (Tf & Tr & Tn) L4 C4 Ret. cbn [v_fp v_frames v_next_fp set_pc set_stk s2a set_frames] in Tf, Tr, Tn.
  assert (Ex : forall s, v_stk s = v_stk s4 -> v_fp s = v_fp s4 -> v_frames s = v_frames s4 -> v_loops s = v_loops s4 -> v_gl s = v_gl s4 -> v_out s = v_out s4 ->
     exists s5, exitframe s (Z.of_nat (length locals)) = Next s5 /\ v_pc s5 = v_pc s2 + 1 /\ v_stk s5 = rev (delivered nret results) ++ below /\ same_frame s0 s5 /\ v_loops s5 = v_loops s0 /\ v_gl s5 = v_gl s4 /\ v_out s5 = v_out s4).
  { intros s A1 A2 A3 A4 A5 A6.
    destruct (exitframe_ok s results locals callee4 below (CF (v_pc s2 + 1) (v_fp s0) (v_next_fp s0) (Z.of_nat (length (v_loops s0)) - 1) nret) (v_frames s0) extra (v_loops s0))
      as (s5 & X & K & Pc & Fp & Fs & Nx & Lo & Gl & Ou & _); try congruence; [reflexivity|exact R0|].
    exists s5. split; [exact X|]. split; [exact Pc|]. split; [exact K|]. split; [repeat split; symmetry; assumption|]. split; [exact Lo|]. split; congruence. }
  unfold step. rewrite (at_code_rd1 _ _ _ _ _ C4). destruct Ret as [->|[-> So]].
  - change (op_of_byte 236) with (Some O_RET). cbv match. cbn [exec]. rewrite (at_code_rd1 _ _ _ _ _ (at_code_tl _ _ _ _ C4)). apply Ex; reflexivity.
  - change (op_of_byte 237) with (Some O_CRET). cbv match. cbn [exec]. unfold close_all. cbn [v_stk v_fp v_upv v_pending set_pc]. destruct So as (N & F).
    destruct (close_pending_ok (v_stk s4) (v_fp s4) (v_pending s4) (v_upv s4) N F) as (u & p & ->).
    assert (C5 : at_code P (set_upv (set_pc s4 (v_pc s4 + 1)) u p) [Z.of_nat (length locals)]) by (intros i b Hb; exact (at_code_tl _ _ _ _ C4 i b Hb)).
    rewrite (at_code_rd1 _ _ _ _ _ C5). apply Ex; reflexivity.
Qed.
Print Assumptions C30_call.

(** Host functions registered with a fixed number of arguments, /repo/yasl.h:481-487: the function sees exactly [n]
    values; the caller receives the topmost [r] of what the function left, fitted to what it asked for. *)
Definition last_n (r : nat) (vs : list value) : list value := skipn (length vs - r) vs.
Theorem C30_host_fixed : forall s f callee n args below fr frs kept r,
  v_stk s = rev args ++ callee :: below -> v_next_fp s = Z.of_nat (length below) -> v_frames s = fr :: frs -> f_lp fr = Z.of_nat (length (v_loops s)) - 1 ->
  Z.of_nat (length below) + 1 + Z.of_nat n <= 1024 -> Z.of_nat (length below) + Z.max 0 (f_nret fr) <= 1024 ->
  f (fit n args) = (kept, Z.of_nat r) -> (r <= length kept)%nat ->
  exists s', call_host s (Z.of_nat n) f = Next s' /\ v_stk s' = rev (delivered (f_nret fr) (last_n r kept)) ++ below /\ v_pc s' = v_pc s /\ v_fp s' = f_prev_fp fr
    /\ v_frames s' = frs /\ v_next_fp s' = f_curr_fp fr /\ v_loops s' = v_loops s.
Proof.
  intros s f callee n args below fr frs kept r E N Fr Lp R1 R2 Hf Hr. unfold call_host. cbv zeta. cbn [v_frames set_frames v_next_fp v_fp v_pc]. rewrite Fr.
  destruct (Z.ltb_spec (Z.of_nat n) 0); [lia|]. rewrite N. erewrite fill_args_ok; [|exact E|reflexivity|lia].
  set (s1 := set_stk _ _). assert (A : above_fp s1 = fit n args).
  { unfold above_fp, s1. rewrite sp_set. cbn [v_fp set_stk set_frames v_stk]. rewrite app_length, rev_length, fit_length. cbn [length].
    replace (Z.to_nat _) with (length (rev (fit n args))) by (rewrite rev_length, fit_length; lia). rewrite firstn_app, firstn_all, Nat.sub_diag, firstn_O, app_nil_r. apply rev_involutive. }
  rewrite A, Hf. set (s2 := set_stk s1 _). assert (K2 : v_stk s2 = rev (last_n r kept) ++ rev (firstn (length kept - r) kept) ++ callee :: below).
  { unfold s2, s1. rewrite sp_set. cbn [v_fp set_stk set_frames v_stk]. rewrite app_length, rev_length, fit_length. cbn [length].
    rewrite skipn_app_exact by (rewrite rev_length, fit_length; lia). rewrite app_assoc, <- rev_app_distr. unfold last_n. rewrite firstn_skipn. reflexivity. }
  assert (Len : sp s2 - Z.of_nat r - v_fp s2 = Z.of_nat (length (rev (firstn (length kept - r) kept)))).
  { unfold sp. rewrite K2. unfold s2, s1. cbn [v_fp set_stk set_frames]. rewrite !app_length, !rev_length. unfold last_n. rewrite skipn_length, firstn_length. cbn [length]. lia. }
  rewrite Len.
  destruct (exitframe_ok s2 (last_n r kept) (rev (firstn (length kept - r) kept)) callee below (CF (v_pc s) (f_prev_fp fr) (f_curr_fp fr) (f_lp fr) (f_nret fr)) frs [] (v_loops s))
    as (s5 & X & K & Pc & Fp & Fs & Nx & Lo & _); auto.
  exists s5. auto 10.
Qed.
Print Assumptions C30_host_fixed.
(** Variadic host functions, when at least the fixed arguments are given. *)
Theorem C30_host_variadic_partial : forall s f callee fixed args below fr frs kept r,
  v_stk s = rev args ++ callee :: below -> v_next_fp s = Z.of_nat (length below) -> v_frames s = fr :: frs -> f_lp fr = Z.of_nat (length (v_loops s)) - 1 ->
  (fixed <= length args)%nat -> Z.of_nat (length (v_stk s)) < 1024 -> Z.of_nat (length below) + Z.max 0 (f_nret fr) <= 1024 ->
  f (variadic_view fixed args) = (kept, Z.of_nat r) -> (r <= length kept)%nat ->
  exists s', call_host s (- 1 - Z.of_nat fixed) f = Next s' /\ v_stk s' = rev (delivered (f_nret fr) (last_n r kept)) ++ below /\ v_pc s' = v_pc s /\ v_fp s' = f_prev_fp fr
    /\ v_frames s' = frs /\ v_next_fp s' = f_curr_fp fr /\ v_loops s' = v_loops s.
Proof.
  intros s f callee fixed args below fr frs kept r E N Fr Lp Hx R1 R2 Hf Hr. unfold call_host. cbv zeta. cbn [v_frames set_frames v_next_fp v_fp v_pc]. rewrite Fr.
  destruct (Z.ltb_spec (- 1 - Z.of_nat fixed) 0); [|lia]. replace (Z.lnot (-1 - Z.of_nat fixed)) with (Z.of_nat fixed) by (unfold Z.lnot; lia). rewrite N.
  unfold insert_slot. set (s0 := set_frames _ _ _ _). assert (Sp : sp s0 = Z.of_nat (length args) + Z.of_nat (length below)) by (unfold sp, s0; cbn [v_stk set_frames]; rewrite E, app_length, rev_length; cbn [length]; lia).
  assert (Ss : Z.of_nat (length (v_stk s)) = Z.of_nat (length args) + Z.of_nat (length below) + 1) by (rewrite E, app_length, rev_length; cbn [length]; lia).
  rewrite Sp. destruct (Z.geb_spec (Z.of_nat (length args) + Z.of_nat (length below) + 1) STACK_SIZE); [unfold STACK_SIZE in *; lia|].
  replace (Z.of_nat (length args) + Z.of_nat (length below) - (Z.of_nat (length below) + 1 + Z.of_nat fixed) + 1) with (Z.of_nat (length args - fixed)) by lia.
  replace ((Z.of_nat (length args - fixed) <? 0) || (Z.of_nat (length below) + 1 + Z.of_nat fixed <? 0)) with false by (symmetry; lia).
  rewrite Nat2Z.id. replace (Z.of_nat (length args) + Z.of_nat (length below) - Z.of_nat (length below) - Z.of_nat fixed) with (Z.of_nat (length args - fixed)) by lia.
  set (s1 := set_stk s0 _).
  assert (K1 : v_stk s1 = rev (variadic_view fixed args) ++ callee :: below).
  { unfold s1, s0. cbn [v_stk set_stk set_frames]. rewrite E. unfold variadic_view. rewrite rev_app_distr. cbn [rev]. rewrite <- !app_assoc. cbn [app].
    pose proof (firstn_skipn fixed args) as Q. assert (Q2 : rev args = rev (skipn fixed args) ++ rev (firstn fixed args)) by (rewrite <- rev_app_distr, Q; reflexivity).
    rewrite Q2, <- app_assoc. assert (LL : length (rev (skipn fixed args)) = (length args - fixed)%nat) by (rewrite rev_length, skipn_length; reflexivity).
    rewrite <- LL, firstn_app, firstn_all, Nat.sub_diag, firstn_O, app_nil_r. rewrite skipn_app_exact by reflexivity. reflexivity. }
  assert (F1 : v_fp s1 = Z.of_nat (length below)) by reflexivity.
  assert (LV : length (variadic_view fixed args) = S (length args)) by (unfold variadic_view; rewrite app_length, firstn_length; cbn [length]; rewrite skipn_length; lia).
  assert (A : above_fp s1 = variadic_view fixed args).
  { unfold above_fp, sp. rewrite F1, K1. rewrite app_length, rev_length, LV. cbn [length].
    replace (Z.to_nat _) with (length (rev (variadic_view fixed args))) by (rewrite rev_length, LV; lia). rewrite firstn_app, firstn_all, Nat.sub_diag, firstn_O, app_nil_r. apply rev_involutive. }
  rewrite A, Hf. set (s2 := set_stk s1 _). assert (K2 : v_stk s2 = rev (last_n r kept) ++ rev (firstn (length kept - r) kept) ++ callee :: below).
  { unfold s2. rewrite set_stk_stk. unfold sp. rewrite F1, K1, app_length, rev_length, LV. cbn [length].
    rewrite skipn_app_exact by (rewrite rev_length, LV; lia). rewrite app_assoc, <- rev_app_distr. unfold last_n. rewrite firstn_skipn. reflexivity. }
  assert (Len : sp s2 - Z.of_nat r - v_fp s2 = Z.of_nat (length (rev (firstn (length kept - r) kept)))).
  { unfold sp. rewrite K2. unfold s2, s1, s0. cbn [v_fp set_stk set_frames]. rewrite !app_length, !rev_length. unfold last_n. rewrite skipn_length, firstn_length. cbn [length]. lia. }
  rewrite Len.
  destruct (exitframe_ok s2 (last_n r kept) (rev (firstn (length kept - r) kept)) callee below (CF (v_pc s) (f_prev_fp fr) (f_curr_fp fr) (f_lp fr) (f_nret fr)) frs [] (v_loops s))
    as (s5 & X & K & Pc & Fp & Fs & Nx & Lo & _); auto.
  exists s5. auto 10.
Qed.
Print Assumptions C30_host_variadic_partial.
(** A variadic host function with two fixed arguments called with none: a negative number of slots is moved. *)
Theorem C30_host_variadic_refuted : exists s f, v_stk s = [VCfn 0] /\ v_next_fp s = 0 /\ v_frames s = [CF 7 (-1) (-1) (-1) 1] /\ exists s', call_host s (-3) f = Stop UB s'.
Proof.
  exists (VS 9 [VCfn 0] (-1) (fun _ => None) [] [] [CF 7 (-1) (-1) (-1) 1] 0 [] [] []), (fun vs => (vs, 1)).
  repeat split. eexists. vm_compute. reflexivity.
Qed.
Print Assumptions C30_host_variadic_refuted.

(** A concrete program: [let a = 9; fn swap(x, y) { return y, x; }; a, swap(1, 2, 3) wanting three results], as the compiler lays it out
    (compiler.c:380-478); the two results, then undef, arrive above the 9. *)
Definition call_demo : prog := Prog
  ([154; 0] (* 9 *) ++ [10] ++ enc8 9 ++ [2] ++ [245; 1; 245; 0; 236; 2] ++ [1; 236] (* fn *)
   ++ [232; 3; 154; 1; 154; 2; 154; 3; 233; 15]) [VInt 9; VInt 1; VInt 2; VInt 3]
  (World (fun a _ => a) (fun _ _ _ => Err EType) (fun _ _ => Err EType) (fun _ => Ok []) (fun _ _ => false)) (fun _ => []) (fun _ => []).
Example C30_nonvacuous :
  match run 12 call_demo (vm_start (fun _ => None)) with Stop (Ok tt) s => v_stk s = [VUndef; VInt 1; VInt 2; VInt 9] /\ v_fp s = -1 /\ v_frames s = [] | _ => False end
  /\ fit 2 [VInt 1; VInt 2; VInt 3] = [VInt 1; VInt 2] /\ delivered 3 [VInt 2; VInt 1] = [VInt 2; VInt 1; VUndef].
Proof. vm_compute. repeat split; reflexivity. Qed.

(** ** C43: neither the value stack nor the frame stack ever exceeds its array, whatever the code. *)
Definition within (s : vstate) : Prop := (length (v_stk s) <= 1024)%nat /\ (length (v_frames s) <= 1000)%nat /\ (length (v_loops s) <= 16)%nat.
Definition safe (r : sres) : Prop := match r with Next s => within s | _ => True end.
Lemma safe_push s v : within s -> safe (push s v).
Proof.
  intros (A & B & C). unfold push, sp, STACK_SIZE. destruct (Z.geb_spec (Z.of_nat (length (v_stk s)) - 1 + 1) 1024); [exact I|]. repeat split; cbn [v_stk v_frames v_loops set_stk length]; auto. lia.
Qed.
Lemma safe_undefs n : forall s, within s -> safe (push_undefs n s).
Proof.
  induction n; intros s H; [exact H|]. cbn [push_undefs]. pose proof (safe_push s VUndef H) as Q. destruct (push s VUndef); [|exact I..]. apply IHn. exact Q.
Qed.
Lemma safe_rd1 P s f : within s -> (forall b, safe (f b (set_pc s (v_pc s + 1)))) -> safe (rd1 P s f).
Proof. intros H F. unfold rd1. destruct (nthZ _ _); [apply F|exact I]. Qed.
Lemma safe_rd8 P s f : within s -> (forall b, safe (f b (set_pc s (v_pc s + 8)))) -> safe (rd8 P s f).
Proof. intros H F. unfold rd8. destruct (read8 _ _); [apply F|exact I..]. Qed.
Lemma safe_pop s f : within s -> (forall v k, v_stk s = v :: k -> within (set_stk s k) -> safe (f v (set_stk s k))) -> safe (pop s f).
Proof. intros (A & B & C) F. unfold pop. destruct (v_stk s) as [|v k] eqn:E; [exact I|]. apply F; auto. cbn [length] in A. repeat split; cbn [v_stk v_frames v_loops set_stk]; auto. lia. Qed.
Lemma safe_opt {A} s (o : option A) f : (forall a, o = Some a -> safe (f a)) -> safe (opt s o f).
Proof. intros F. destruct o; [apply F; reflexivity|exact I]. Qed.
Lemma safe_lift {A} s (o : outcome A) f : (forall a, safe (f a)) -> safe (lift s o f).
Proof. intros F. destruct o; [apply F|exact I..]. Qed.
Lemma within_pc s p : within s -> within (set_pc s p). Proof. exact (fun H => H). Qed.
Lemma put_length {A} (l : list A) : forall n v, length (put l n v) = length l.
Proof. induction l as [|x l IH]; intros [|n] v; cbn [put length]; auto. Qed.
Lemma slot_set_length k i v k' : slot_set k i v = Some k' -> length k' = length k.
Proof. unfold slot_set. destruct (_ && _); [|discriminate]. intros [= <-]. apply put_length. Qed.
Lemma upval_set_within s id v s' : within s -> upval_set s id v = Some s' -> within s'.
Proof.
  intros (A & B & C). unfold upval_set. destruct (nth_error _ _) as [[l|x]|]; try discriminate.
  - destruct (slot_set _ _ _) eqn:E; [|discriminate]. intros [= <-]. apply slot_set_length in E. repeat split; cbn [v_stk v_frames v_loops set_stk]; auto. lia.
  - intros [= <-]. repeat split; auto.
Qed.
Lemma add_upvalue_within s loc r : within s -> add_upvalue s loc = Some r -> within (snd r).
Proof.
  intros H. unfold add_upvalue. destruct (find_upv _ _ _ _) as [[c|[pre post]]|]; try discriminate; intros [= <-]; exact H.
Qed.
Lemma safe_capture P n : forall s acc f, within s -> (forall ids s', within s' -> safe (f ids s')) -> safe (capture P n s acc f).
Proof.
  induction n; intros s acc f H F; [apply F, H|]. cbn [capture]. apply safe_rd1; [exact H|]. intros b. destruct (schar b >=? 0).
  - apply safe_opt. intros r E. apply IHn; [|exact F]. exact (add_upvalue_within _ _ _ (within_pc s _ H) E).
  - apply safe_opt. intros k _. apply safe_opt. intros id _. apply IHn; auto.
Qed.
Lemma safe_fill s n f : within s -> (forall s', within s' -> safe (f s')) -> safe (fill_args s n f).
Proof.
  intros H F. unfold fill_args. destruct (_ <? _).
  - pose proof (safe_undefs (Z.to_nat (n - (sp s - v_fp s))) s H) as Q. destruct (push_undefs _ s); [|exact I..]. apply F, Q.
  - apply F. destruct H as (A & B & C). repeat split; cbn [v_stk v_frames v_loops set_stk]; auto. rewrite skipn_length. lia.
Qed.
Lemma safe_native P s a : within s -> safe (call_native P s a).
Proof.
  intros (A & B & C). unfold call_native. destruct (v_frames s) as [|fr frs] eqn:E; [exact I|]. destruct (nthZ _ _); [|exact I]. apply safe_fill; [|intros; assumption].
  cbn [length] in B. repeat split; cbn [v_stk v_frames v_loops set_frames length]; auto.
Qed.
Lemma rm_range_length k a b k' : rm_range k a b = Some k' -> (length k' <= length k)%nat.
Proof.
  unfold rm_range. destruct (_ && _ && _) eqn:E; [|discriminate]. intros [= <-]. rewrite app_length, firstn_length, skipn_length. lia.
Qed.
Lemma safe_exit s n : within s -> safe (exitframe s n).
Proof.
  intros (A & B & C). unfold exitframe. apply safe_opt. intros k E. apply rm_range_length in E. destruct (v_frames s) as [|fr frs] eqn:F; [exact I|]. cbv zeta.
  set (s1 := set_stk s k). assert (H1 : within s1) by (unfold s1; cbn [length] in B; repeat split; cbn [v_stk v_frames v_loops set_stk]; try lia; rewrite F; cbn [length]; lia).
  assert (Q : safe (if f_nret fr <? 0 then Next s1 else if sp s1 + 1 - v_fp s1 <? f_nret fr then push_undefs (Z.to_nat (f_nret fr - (sp s1 + 1 - v_fp s1))) s1
     else Next (set_stk s1 (skipn (Z.to_nat (sp s1 + 1 - v_fp s1 - f_nret fr)) (v_stk s1))))).
  { destruct (_ <? 0); [exact H1|]. destruct (_ <? _); [apply safe_undefs, H1|]. destruct H1 as (A1 & B1 & C1). repeat split; cbn [v_stk v_frames v_loops set_stk]; auto. rewrite skipn_length. lia. }
  destruct (if f_nret fr <? 0 then _ else _) as [s2| |]; [|exact I..]. destruct Q as (A2 & B2 & C2). cbn [length] in B. repeat split; cbn [v_stk v_frames v_loops set_pc set_frames set_loops]; auto; [lia|]. rewrite skipn_length. lia.
Qed.
Lemma step_safe P s : within s -> safe (step P s).
Proof.
  intros H. unfold step. apply safe_rd1; [exact H|]. intros b. destruct (op_of_byte b) as [o|]; [|exact I]. set (s1 := set_pc s _). assert (H1 : within s1) by exact H. clearbody s1. clear H s.
  assert (Pu : forall s v, within s -> safe (push s v)) by exact safe_push.
  destruct o; cbn [exec]; try exact I; try (apply Pu; exact H1).
  - (* FCONST *) apply safe_rd8; [exact H1|]. intros c. pose proof (Pu (set_pc s1 (v_pc s1 + 8)) (VFn (v_pc s1 + 8)) H1) as Q. cbn [v_pc set_pc]. destruct (push _ _); [|exact I..]. exact Q.
  - (* CCONST *) apply safe_rd8; [exact H1|]. intros c. cbv zeta. apply safe_rd1; [exact H1|]. intros n. apply safe_capture; [exact H1|]. intros ids s' H'. apply Pu. exact H'.
  - (* BIN *) apply safe_pop; [exact H1|]. intros v k E Hk. apply safe_pop; [exact Hk|]. intros v2 k2 E2 Hk2. apply safe_lift. intros a. apply Pu. exact Hk2.
  - (* UN *) apply safe_pop; [exact H1|]. intros v k E Hk. apply safe_lift. intros a. apply Pu. exact Hk.
  - (* ASS *) apply safe_pop; [exact H1|]. intros v k E Hk. destruct (is_falsey v); [apply safe_lift; intros; exact I|exact Hk].
  - (* LIT *) apply safe_rd1; [exact H1|]. intros c. apply safe_opt. intros a _. apply Pu. exact H1.
  - (* LIT8 *) apply safe_rd8; [exact H1|]. intros c. apply safe_opt. intros a _. apply Pu. exact H1.
  - (* MOVEUP *) apply safe_rd1; [exact H1|]. intros c. cbv zeta. apply safe_opt. intros a E. destruct H1 as (A & B & C). repeat split; cbn [v_stk v_frames v_loops set_stk set_pc]; auto.
    set (i := v_fp _ + schar c + 1) in *. unfold slot_get in E. cbn [v_stk set_pc] in E. destruct ((0 <=? i) && (i <? Z.of_nat (length (v_stk s1)))) eqn:R; [|discriminate]. apply andb_prop in R. destruct R as [R1 R2]. unfold from_top in *.
    cbn [length]. rewrite app_length, firstn_length, skipn_length. lia.
  - (* SWAP *) apply safe_pop; [exact H1|]. intros v k E Hk. apply safe_pop; [exact Hk|]. intros v2 k2 E2 Hk2. destruct H1 as (A & B & C). cbn [v_stk set_stk] in E2. rewrite E, E2 in A. exact (conj A (conj B C)).
  - (* DUP *) destruct (v_stk s1); [exact I|]. apply Pu, H1.
  - (* DECSP *) apply safe_rd1; [exact H1|]. intros c. destruct H1 as (A & B & C). repeat split; cbn [v_stk v_frames v_loops set_stk set_pc]; auto. rewrite skipn_length. lia.
  - (* POP *) apply safe_pop; [exact H1|]. intros v k E Hk. exact Hk.
  - (* BR *) apply safe_rd8; [exact H1|]. intros c. exact H1.
  - apply safe_rd8; [exact H1|]. intros c. apply safe_pop; [exact H1|]. intros v k E Hk. destruct (is_falsey v); exact Hk.
  - apply safe_rd8; [exact H1|]. intros c. apply safe_pop; [exact H1|]. intros v k E Hk. destruct (negb (is_falsey v)); exact Hk.
  - apply safe_rd8; [exact H1|]. intros c. apply safe_pop; [exact H1|]. intros v k E Hk. destruct (negb (is_undef v)); exact Hk.
  - (* INITFOR *) apply safe_pop; [exact H1|]. intros v k E Hk. destruct (Z.geb_spec (Z.of_nat (length (v_loops (set_stk s1 k)))) NUM_LOOPS); [exact I|]. unfold NUM_LOOPS in *. destruct Hk as (A & B & C). repeat split; auto. cbn [v_loops set_loops set_stk length] in *. lia.
  - (* ENDCOMP *) apply safe_pop; [exact H1|]. intros v k E Hk. apply safe_pop; [exact Hk|]. intros v2 k2 E2 Hk2. pose proof (Pu _ v Hk2) as Q. destruct (push _ v) as [s2| |]; [|exact I..]. destruct Q as (A & B & C). destruct (v_loops s2) eqn:L; [exact I|]. cbn [length] in C. repeat split; auto. cbn [v_loops set_loops]. lia.
  - (* ENDFOR *) destruct H1 as (A & B & C). destruct (v_loops s1) eqn:L; [exact I|]. cbn [length] in C. repeat split; auto. cbn [v_loops set_loops]. lia.
  - (* ITER *) unfold exec_iter. destruct H1 as (A & B & C). destruct (v_loops s1) as [|[it i] rest] eqn:L; [exact I|]. destruct (elements P it) as [vs|]; [|exact I]. destruct (nthZ vs i) as [v|].
    + assert (H2 : within (set_loops s1 ((it, i + 1) :: rest))) by (cbn [length] in C; repeat split; cbn [v_loops set_loops length]; auto). pose proof (Pu _ v H2) as Q. destruct (push _ v); [|exact I..]. apply Pu. exact Q.
    + apply Pu. repeat split; auto. rewrite L. exact C.
  - (* INIT_CALL *) apply safe_rd1; [exact H1|]. intros c. unfold init_call. cbn [v_stk set_pc]. destruct (v_stk s1); [exact I|]. destruct v; try exact I.
    all: destruct (Z.geb_spec (Z.of_nat (length (v_frames (set_pc s1 (v_pc s1 + 1))))) NUM_FRAMES); [exact I|]; unfold NUM_FRAMES in *; destruct H1 as (A & B & C); repeat split; auto; cbn [v_frames set_frames set_pc length] in *; lia.
  - (* CALL *) unfold exec_call. cbv zeta. destruct (slot_get _ _) as [v|]; [|exact I]. destruct v; try exact I; [apply safe_native; exact H1|]. apply safe_opt. intros c _. apply safe_native. exact H1.
  - (* RET *) apply safe_rd1; [exact H1|]. intros c. apply safe_exit. exact H1.
  - (* CRET *) unfold close_all. destruct (close_pending _ _ _ _) as [[u p]|]; [|exact I]. apply safe_rd1; [exact H1|]. intros c. apply safe_exit. exact H1.
  - (* GSTORE *) apply safe_rd8; [exact H1|]. intros c. apply safe_opt. intros x _. apply safe_pop; [exact H1|]. intros v k E Hk. exact Hk.
  - apply safe_rd8; [exact H1|]. intros c. apply safe_opt. intros x _. apply Pu. exact H1.
  - (* USTORE *) apply safe_rd1; [exact H1|]. intros c. apply safe_opt. intros k _. apply safe_opt. intros id _. apply safe_pop; [exact H1|]. intros v kk E Hk. apply safe_opt. intros s' E'. exact (upval_set_within _ _ _ _ Hk E').
  - apply safe_rd1; [exact H1|]. intros c. apply safe_opt. intros k _. apply safe_opt. intros id _. apply safe_opt. intros a _. apply Pu. exact H1.
  - (* LSTORE *) apply safe_rd1; [exact H1|]. intros c. apply safe_pop; [exact H1|]. intros v k E Hk. apply safe_opt. intros k' E'. apply slot_set_length in E'. destruct Hk as (A & B & C). repeat split; auto. cbn [v_stk set_stk] in *. lia.
  - apply safe_rd1; [exact H1|]. intros c. apply safe_opt. intros a _. apply Pu. exact H1.
  - (* ECHO *) apply safe_rd1; [exact H1|]. intros c. apply safe_pop; [exact H1|]. intros v k E Hk. apply safe_lift. intros t. exact Hk.
Qed.
(** From the start of any program, after any number of steps. *)
Theorem C43_bounded : forall n P gl s, run n P (vm_start gl) = Next s -> (length (v_stk s) <= 1024)%nat /\ (length (v_frames s) <= 1000)%nat.
Proof.
  intros n P gl s E. assert (G : forall n s0, within s0 -> safe (run n P s0)).
  { induction n0; intros s0 H; [exact H|]. cbn [run]. pose proof (step_safe P s0 H) as Q. destruct (step P s0); [apply IHn0; exact Q|exact I..]. }
  specialize (G n (vm_start gl) ltac:(repeat split; cbn [vm_start v_stk v_frames v_loops length]; lia)). rewrite E in G. destruct G as (A & B & _). auto.
Qed.
Print Assumptions C43_bounded.
(** A push on a full stack and a call at the frame limit raise the error. *)
Theorem C43_push_reported : forall P s, length (v_stk s) = 1024%nat -> at_code P s [1] -> exists s', step P s = Stop (Err EStackOverflow) s'.
Proof.
  intros P s L C. unfold step. rewrite (at_code_rd1 _ _ _ _ _ C). change (op_of_byte 1) with (Some O_NCONST). cbv match. cbn [exec]. unfold push, sp, STACK_SIZE. cbn [v_stk set_pc]. rewrite L. eexists. reflexivity.
Qed.
Print Assumptions C43_push_reported.
Theorem C43_call_reported : forall P s nret a k, length (v_frames s) = 1000%nat -> v_stk s = VFn a :: k -> at_code P s [232; nret] -> exists s', step P s = Stop (Err EStackOverflow) s'.
Proof.
  intros P s nret a k L E C. unfold step. rewrite (at_code_rd1 _ _ _ _ _ C). change (op_of_byte 232) with (Some O_INIT_CALL). cbv match. cbn [exec].
  rewrite (at_code_rd1 _ _ _ _ _ (at_code_tl _ _ _ _ C)). unfold init_call. cbn [v_stk v_frames set_pc]. rewrite E, L. eexists. reflexivity.
Qed.
Print Assumptions C43_call_reported.
(** Unbounded recursion, [fn f() { return f(); }; f()] with the function in a global: the frame limit is reported. *)
Definition recurse_demo : prog := Prog
  ([10] ++ enc8 16 ++ [0] ++ [241] ++ enc8 0 ++ [232; 255; 233; 236; 0] ++ [1] ++ [240] ++ enc8 0 ++ [241] ++ enc8 0 ++ [232; 1; 233; 191; 15]) [VStr [102]]
  (World (fun a _ => a) (fun _ _ _ => Err EType) (fun _ _ => Err EType) (fun _ => Ok []) (fun _ _ => false)) (fun _ => []) (fun _ => []).
Example C43_nonvacuous : match run 5000 recurse_demo (vm_start (fun _ => None)) with Stop (Err EStackOverflow) s => length (v_frames s) = 1000%nat | _ => False end.
Proof. vm_compute. reflexivity. Qed.
(** The third limit is not checked: a loop over a string inside a loop, 17 deep, writes outside the array of loops
    (interpreter/VM.c O_INITFOR; VM.h NUM_FRAMES and the array of 16). *)
Definition loops_demo (n : nat) : prog := Prog (concat (repeat ([154; 0; 208] ++ [176]) n) ++ [15]) [VStr [97]]
  (World (fun a _ => a) (fun _ _ _ => Err EType) (fun _ _ => Err EType) (fun _ => Ok []) (fun _ _ => false)) (fun _ => []) (fun _ => []).
Theorem C43_loops_refuted : exists s s', run 200 (loops_demo 16) (vm_start (fun _ => None)) = Stop (Ok tt) s /\ run 200 (loops_demo 17) (vm_start (fun _ => None)) = Stop UB s'.
Proof. do 2 eexists. split; vm_compute; reflexivity. Qed.
Print Assumptions C43_loops_refuted.
