(** * C31: reference counts are exact.
    The program, [p], is any sequence of the instructions of Refs.v whose operands exist ([fits_all]); it starts in a fresh state. *)
From Verif Require Import Base Refs RefSpec RefProofs RefProofs2 RefProofs3 RefProofs4 RefProofs5 RefProofs6 RefProofs7 RefCheck.

(** Nothing freed is ever touched; after a normal end every count is the number of references and exactly the referenced objects are alive;
    after an error the counts are still exact, nothing referenced has been freed, and at most one unreferenced object is left over. *)
Theorem C31_counts_are_exact ls p : fits_all (init ls) p ->
  exists s e, run (init ls) p = Ok (s, e) /\ (e = None -> exact s) /\ sound s /\
    (forall a b, live (hp s) a -> live (hp s) b -> references s a = O -> references s b = O -> a = b).
Proof.
  intros HF. destruct (run_good p _ (init_ok ls) HF) as (s & e & E & H1 & X & H2 & HX). exists s, e. split; [exact E|].
  split; [intros Q; apply okE_exact; auto|]. pose proof (okE_sound _ _ H2) as HS. split; [exact HS|].
  intros a b La Lb Ra Rb. pose proof (proj1 (HS a) La) as Ca. pose proof (proj1 (HS b) Lb) as Cb. destruct H2 as ((_ & HE & _) & _).
  destruct La as [oa La], Lb as [ob Lb]. destruct (HE a oa La) as [P|Ia]; [lia|]. destruct (HE b ob Lb) as [P|Ib]; [lia|].
  destruct X as [|x [|y r]]; cbn [In length] in *; try lia.
Qed.

(** Destroying the interpreter after any run, also one that ended in an error, touches nothing freed; what remains is kept alive only by
    other remaining objects, except for the one object the error may have left over. *)
Theorem C31_cleanup_is_safe ls p : fits_all (init ls) p ->
  exists s e h, run (init ls) p = Ok (s, e) /\ cleanup s = Ok h /\ exists left, (length left <= 1)%nat /\ (e = None -> left = []) /\
    forall a, live h a -> In a left \/ exists b o, hget h b = Some o /\ In (RP a) (kids o).
Proof.
  intros HF. destruct (run_good p _ (init_ok ls) HF) as (s & e & E & H1 & X & H2 & HX).
  destruct e as [e|].
  - destruct (cleanup_ok _ _ H2) as (h & EC & W2 & _). exists s, (Some e), h. split; [exact E|]. split; [exact EC|]. exists X. split; [exact HX|]. split; [discriminate|].
    intros a Ha. eapply left_over; eassumption.
  - destruct (cleanup_ok _ _ (H1 eq_refl)) as (h & EC & W2 & _). exists s, None, h. split; [exact E|]. split; [exact EC|]. exists []. split; [cbn [length]; lia|]. split; [reflexivity|].
    intros a Ha. eapply left_over; eassumption.
Qed.
(** Without cycles nothing remains. *)
Theorem C31_cleanup_frees_everything ls p s : fits_all (init ls) p -> run (init ls) p = Ok (s, None) -> acyclic (hp s) ->
  exists h, cleanup s = Ok h /\ forall a, ~ live h a.
Proof.
  intros HF E HA. destruct (run_good p _ (init_ok ls) HF) as (s' & e & E' & H1 & _). rewrite E in E'. injection E' as <- <-.
  destruct (cleanup_ok _ _ (H1 eq_refl)) as (h & EC & W2 & S2). exists h. split; [exact EC|]. eapply no_leftover; eassumption.
Qed.

(** ** A concrete program: [x = ['s', 'ab', 'ab'.x], for over it, store in a table, call-frame exit, slice …]. *)
Definition demo : list ins :=
  [ IPush RE; ILit 0; IFresh 0 [97; 98]; ILit 0; INewList;   (* a list of strings in slot 0 *)
    ILoad 0; IInitFor; IIter; IPop; IPop; IIter; IPop; IGstore 0; IEndFor; (* iterate, keep the second element in a global *)
    IPush RE; IGload 0; ILoad 0; INewTable;                  (* a table holding the list under that string *)
    ILoad 0; IPush (RI 1); ILit 1; IListSet; IPop; IPop;      (* overwrite the element *)
    IPush RE; INewList; IDup; IShift 1; ISwap; IPop;
    IPush (RI 3); IPush (RI 4); IExit 1 1 (Some 1%nat) 0; IDel 0 ]%list.
Definition demo_lits : list lit := [LStr [115]; LNum 7].
Example C31_demo_fits : fits_all (init demo_lits) demo.
Proof. apply fits_allb_ok. vm_compute. reflexivity. Qed.
(** Run some checks on the state a program leaves. *)
Definition after (ls : list lit) (p : list ins) (f : st -> bool) : bool := match run (init ls) p with Ok (s, None) => f s | _ => false end.
Lemma after_ok ls p f : after ls p f = true -> exists s, run (init ls) p = Ok (s, None) /\ f s = true.
Proof. unfold after. destruct (run (init ls) p) as [[s [e|]]|e| |]; try discriminate. eauto. Qed.
Definition yerr_eq_dec (a b : yerr) : {a = b} + {a <> b}. Proof. decide equality. Defined.
Definition after_err (ls : list lit) (p : list ins) (err : yerr) (f : st -> bool) : bool :=
  match run (init ls) p with Ok (s, Some e) => if yerr_eq_dec e err then f s else false | _ => false end.
Lemma after_err_ok ls p err f : after_err ls p err f = true -> exists s, run (init ls) p = Ok (s, Some err) /\ f s = true.
Proof. unfold after_err. destruct (run (init ls) p) as [[s [e|]]|e| |]; try discriminate. destruct (yerr_eq_dec e err) as [->|]; [|discriminate]. eauto. Qed.
Example C31_demo_runs : exists s, run (init demo_lits) demo = Ok (s, None) /\ exact s /\ (3 < length (hp s))%nat.
Proof.
  destruct (after_ok demo_lits demo (fun s => 3 <? length (hp s))%nat ltac:(vm_compute; reflexivity)) as (s & E & L). exists s. split; [exact E|]. split; [|lia].
  destruct (C31_counts_are_exact _ _ C31_demo_fits) as (s' & e & E' & H & _). rewrite E in E'. injection E' as <- <-. auto.
Qed.

(** ** What the code gets wrong. Each is a run in which only the last instruction is outside [fits]. *)

(** list.pop: the item keeps the count of the place it was removed from, so it is never freed. *)
Theorem C31_list_pop_leaks_refuted : exists p s a, fits_all (init []) p /\ run (init []) (p ++ [IListPop]) = Ok (s, None) /\
  live (hp s) a /\ references s a = 1%nat /\ count_of (hp s) a = 2.
Proof.
  set (p := [IPush RE; IFresh 0 [120]; INewList]).
  destruct (after_ok [] (p ++ [IListPop]) (fun s => match hget (hp s) 2 with Some _ => true | None => false end && Nat.eqb (references s 2) 1 && (count_of (hp s) 2 =? 2)) ltac:(vm_compute; reflexivity)) as (s & E & L).
  exists p, s, 2%nat. split; [apply fits_allb_ok; vm_compute; reflexivity|]. split; [exact E|]. apply andb_prop in L. destruct L as [L L3]. apply andb_prop in L. destruct L as [L1 L2].
  split; [|split; [apply Nat.eqb_eq; exact L2|lia]]. unfold live. destruct (hget (hp s) 2); [eauto|discriminate].
Qed.
(** mt.get on a temporary whose metatable nobody else holds: the metatable is freed and then counted. *)
Theorem C31_get_metatable_uses_freed_memory_refuted : exists p, fits_all (init []) p /\ run (init []) (p ++ [IGetMt]) = UB.
Proof.
  exists [IPush RE; INewList; IPush RE; INewTable; ISetMt; IPush (RI 0); IPop]. split; [apply fits_allb_ok; vm_compute; reflexivity|]. vm_compute. reflexivity.
Qed.
(** Comparing values that cannot be compared: the error leaves both operands counted once too often. *)
Theorem C31_failed_comparison_leaks_refuted : exists p s a, fits_all (init []) p /\ run (init []) (p ++ [ICompare]) = Ok (s, Some EType) /\
  live (hp s) a /\ count_of (hp s) a = Z.of_nat (references s a) + 1.
Proof.
  set (p := [IFresh 0 [120]; IPush (RI 1)]).
  destruct (after_err_ok [] (p ++ [ICompare]) EType (fun s => match hget (hp s) 2 with Some _ => true | None => false end && (count_of (hp s) 2 =? Z.of_nat (references s 2) + 1)) ltac:(vm_compute; reflexivity)) as (s & E & H).
  exists p, s, 2%nat. split; [apply fits_allb_ok; vm_compute; reflexivity|]. split; [exact E|]. apply andb_prop in H. destruct H as [H1 H2].
  split; [|lia]. unfold live. destruct (hget (hp s) 2); [eauto|discriminate].
Qed.
(** A list that contains itself survives the destruction of the interpreter. *)
Theorem C31_cycles_leak_refuted : exists p s h a, fits_all (init []) p /\ run (init []) p = Ok (s, None) /\ cleanup s = Ok h /\ live h a.
Proof.
  set (p := [IPush RE; INewList; IDup; IListPush]).
  destruct (after_ok [] p (fun s => match cleanup s with Ok h => match hget h 2 with Some _ => true | None => false end | _ => false end) ltac:(vm_compute; reflexivity)) as (s & E & L).
  destruct (cleanup s) as [h|e| |] eqn:EC; try discriminate. exists p, s, h, 2%nat. split; [apply fits_allb_ok; vm_compute; reflexivity|]. split; [exact E|]. split; [exact EC|].
  unfold live. destruct (hget h 2); [eauto|discriminate].
Qed.
(** Popping does not release: an object nothing but a slot above the top of the stack refers to stays alive until the slot is overwritten. *)
Theorem C31_pop_does_not_release : exists s a, run (init []) [IFresh 0 [120]; IPop] = Ok (s, None) /\ sz s = O /\ live (hp s) a /\
  nth_error (stk s) 0 = Some (RP a) /\ references s a = 1%nat.
Proof.
  destruct (after_ok [] [IFresh 0 [120]; IPop] (fun s => Nat.eqb (sz s) 0 && match hget (hp s) 2 with Some _ => true | None => false end && match nth_error (stk s) 0 with Some (RP a) => Nat.eqb a 2 | _ => false end && Nat.eqb (references s 2) 1) ltac:(vm_compute; reflexivity)) as (s & E & L).
  exists s, 2%nat. split; [exact E|]. apply andb_prop in L. destruct L as [L L4]. apply andb_prop in L. destruct L as [L L3]. apply andb_prop in L. destruct L as [L1 L2].
  split; [apply Nat.eqb_eq; exact L1|]. split; [unfold live; destruct (hget (hp s) 2); [eauto|discriminate]|]. split; [|apply Nat.eqb_eq; exact L4].
  destruct (nth_error (stk s) 0) as [[| |z|a]|]; try discriminate. apply Nat.eqb_eq in L3. congruence.
Qed.
(** A new object pushed on a full stack is lost. *)
Theorem C31_overflow_leaks_refuted : exists p s a, fits_all (init []) p /\ run (init []) p = Ok (s, Some EStackOverflow) /\ live (hp s) a /\ references s a = O.
Proof.
  pose (p := repeat (IPush RU) STACK_SIZE ++ [IFresh 0 [120]]).
  destruct (after_err_ok [] p EStackOverflow (fun s => match hget (hp s) 2 with Some _ => true | None => false end && Nat.eqb (references s 2) 0) ltac:(vm_compute; reflexivity)) as (s & E & H).
  exists p, s, 2%nat. split; [apply fits_allb_ok; vm_compute; reflexivity|]. split; [exact E|]. apply andb_prop in H. destruct H as [H1 H2].
  split; [|apply Nat.eqb_eq; exact H2]. unfold live. destruct (hget (hp s) 2); [eauto|discriminate].
Qed.
Print Assumptions C31_counts_are_exact.
Print Assumptions C31_cleanup_is_safe.
Print Assumptions C31_cleanup_frees_everything.
Print Assumptions C31_list_pop_leaks_refuted.
Print Assumptions C31_get_metatable_uses_freed_memory_refuted.
Print Assumptions C31_failed_comparison_leaks_refuted.
Print Assumptions C31_cycles_leak_refuted.
Print Assumptions C31_pop_does_not_release.
Print Assumptions C31_overflow_leaks_refuted.
