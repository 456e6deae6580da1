(** * C61: closures and captured variables are released exactly when nothing refers to them any more.
    The program, [p], is any sequence of the instructions of RefClosure.v whose operands exist ([cfits_all]); it starts in a fresh state. *)
From Verif Require Import Base Refs RefSpec RefProofs2 RefProofs7 RefClosure RefClosureSpec RefClosureProofs RefClosureProofs2 RefClosureProofs3 RefClosureProofs4.

(** If no closure that is the last one over a variable still on the stack is dropped ([never_dropped_early]), then nothing freed is ever
    touched; after a normal end every count is the number of references and exactly the referenced objects are alive; after an error counts
    are still exact and nothing referenced has been freed; and the list of open variables is right. Missing for the full property: the
    restriction, which the refutations below show to be necessary. *)
Theorem C61_counts_are_exact_partial p : cfits_all cinit p -> never_dropped_early p ->
  exists s e, crun false cinit p = Ok (s, e) /\ (e = None -> cexact s) /\ csound s /\ pending_right s.
Proof.
  intros HF HN. destruct (crun_good p _ cinit_ok HF) as [E|(s & e & E & H1 & X & H2 & HX)]; [destruct (HN _ E)|]. exists s, e.
  split; [eapply ag_ok; [apply ag_run|exact E]|]. split; [intros Q; apply cexact_of, okE_exact; apply H1; exact Q|]. destruct H2 as (A & (B & _) & _).
  split; [apply csound_of; eapply okE_sound; exact A|exact B].
Qed.
Print Assumptions C61_counts_are_exact_partial.

(** Destroying the interpreter after such a run, also one that ended in an error, touches nothing freed; what remains is kept alive only
    by other remaining objects, except for the one object the error may have left over. *)
Theorem C61_cleanup_is_safe_partial p : cfits_all cinit p -> never_dropped_early p ->
  exists s e h, crun false cinit p = Ok (s, e) /\ ccleanup false s = Ok h /\ exists left, (length left <= 1)%nat /\ (e = None -> left = []) /\
    forall a, clive h a -> In a left \/ exists b o, cget h b = Some o /\ In (RP a) (holds o).
Proof.
  intros HF HN. destruct (crun_good p _ cinit_ok HF) as [E|(s & e & E & H1 & X & H2 & HX)]; [destruct (HN _ E)|].
  assert (G : forall Y, cinv Y s -> exists h, ccleanup false s = Ok h /\ forall a, clive h a -> In a Y \/ exists b o, cget h b = Some o /\ In (RP a) (holds o)).
  { intros Y HY. destruct (ccleanup_ok Y s HY) as (s1 & h & _ & C & W1 & _). exists h. split; [eapply ag_ok; [apply ag_cleanup|exact C]|]. intros a Ha. apply live_iff in Ha.
    destruct (left_over _ _ _ W1 Ha) as [L|(b & o & Hb & Hk)]; [left; exact L|right]. rewrite enc_get in Hb. destruct (cget h b) as [c|] eqn:Q; [|discriminate]. injection Hb as <-.
    exists b, c. split; [exact Q|]. rewrite holds_kids, <- kids_enc. exact Hk. }
  pose proof (ag_ok _ _ _ (ag_run p cinit) E) as E'. destruct e as [e|].
  - destruct (G X H2) as (h & A & B). exists s, (Some e), h. split; [exact E'|]. split; [exact A|]. exists X. split; [exact HX|]. split; [discriminate|exact B].
  - destruct (G [] (H1 eq_refl)) as (h & A & B). exists s, None, h. split; [exact E'|]. split; [exact A|]. exists []. split; [cbn [length]; lia|]. split; [reflexivity|exact B].
Qed.
Print Assumptions C61_cleanup_is_safe_partial.

(** If, with every variable closed, no object is reachable from itself, nothing remains. *)
Theorem C61_cleanup_frees_everything_partial p s s1 : cfits_all cinit p -> never_dropped_early p -> crun false cinit p = Ok (s, None) ->
  cclose s 0 = Ok s1 -> cacyclic (chp s1) -> exists h, ccleanup false s = Ok h /\ forall a, ~ clive h a.
Proof.
  intros HF HN E C HA. destruct (crun_good p _ cinit_ok HF) as [E1|(s' & e & E1 & H1 & _)]; [destruct (HN _ E1)|].
  pose proof (ag_ok _ _ _ (ag_run p cinit) E1) as E'. rewrite E in E'. injection E' as <- <-.
  destruct (ccleanup_ok [] s (H1 eq_refl)) as (s2 & h & C2 & D & W1 & S1). rewrite C in C2. injection C2 as <-.
  exists h. split; [eapply ag_ok; [apply ag_cleanup|exact D]|]. intros a Ha. apply live_iff in Ha. revert a Ha. apply (no_leftover (encs s1) (enc h) W1 S1).
  destruct HA as [rank HR]. exists rank. intros b o a Hb Hk. cbn [hp encs] in Hb. rewrite enc_get in Hb. destruct (cget (chp s1) b) as [c|] eqn:Q; [|discriminate]. injection Hb as <-.
  eapply HR; [exact Q|]. rewrite holds_kids, <- kids_enc. exact Hk.
Qed.
Print Assumptions C61_cleanup_frees_everything_partial.

(** ** A concrete program: a function makes two closures over one variable, keeps one in a list, returns the other; it is called, reads and
    writes the variable and makes a third closure over it; the first one reads it. *)
Definition demo : list cins :=
  [ KPush RE; KNewList;                                  (* slot 0: a list *)
    KPush (RI 7); KFresh [120]; KClosure [SLocal 2]; KClosure [SLocal 2; SLocal 2];
    KLoad 0; KLoad 3; KListPush; KPop 1; KLoad 4; KCret 1 3 (Some 1%nat); (* slot 1: the second closure *)
    KUload 1 0; KPop 1; KFresh [121]; KUstore 1 1; KClosure [SParent 1 0]; KLoad 2; KRet 1 1 (Some 1%nat);
    KLoad 0; KPush (RI 0); KListGet; KUload 4 0; KPop 1; KLoad 0; KPush (RI 0); KPush RU; KListSet; KPop 4 ]%list.
Definition after (p : list cins) (f : cst -> bool) : bool := match crun true cinit p with Ok (s, None) => f s | _ => false end.
Lemma after_ok p f : after p f = true -> never_dropped_early p /\ exists s, crun false cinit p = Ok (s, None) /\ f s = true.
Proof.
  unfold after. destruct (crun true cinit p) as [[s [e|]]|e| |] eqn:Q; try discriminate. intros H. split; [intros e; congruence|]. exists s. split; [|exact H].
  eapply ag_ok; [apply ag_run|exact Q].
Qed.
Definition holds_text (h : cheap) (v : nat) (t : list Z) : bool :=
  match cget h v with Some (CData (OStr t')) => if list_eq_dec Z.eq_dec t' t then true else false | _ => false end.
Lemma holds_text_ok h v t : holds_text h v t = true -> cget h v = Some (CData (OStr t)).
Proof. unfold holds_text. destruct (cget h v) as [[[t'| |]| |]|]; intros H; try discriminate H. destruct (list_eq_dec Z.eq_dec t' t) as [->|]; [reflexivity|discriminate H]. Qed.
Definition closed_text (h : cheap) (u : nat) (t : list Z) : bool :=
  match cget h u with Some (CUp (LClosed (RP v))) => holds_text h v t | _ => false end.
Lemma closed_text_ok h u t : closed_text h u t = true -> exists v, cget h u = Some (CUp (LClosed (RP v))) /\ cget h v = Some (CData (OStr t)).
Proof. unfold closed_text. destruct (cget h u) as [[|?|[?|[| |?|v]]]|]; intros H; try discriminate H. exists v. split; [reflexivity|apply holds_text_ok; exact H]. Qed.
Theorem C61_demo : cfits_all cinit demo /\ never_dropped_early demo /\
  exists s, crun false cinit demo = Ok (s, None) /\ cexact s /\ exists u v t, cget (chp s) u = Some (CUp (LClosed (RP v))) /\ cget (chp s) v = Some (CData (OStr t)) /\ t = [121].
Proof.
  assert (F : cfits_all cinit demo) by (apply cfits_allb_ok; vm_compute; reflexivity).
  destruct (after_ok demo (fun s => closed_text (chp s) 5 [121]) ltac:(vm_compute; reflexivity)) as (N & s & E & H). apply closed_text_ok in H.
  split; [exact F|]. split; [exact N|]. exists s. split; [exact E|]. split.
  - destruct (C61_counts_are_exact_partial demo F N) as (s' & e & E' & X & _). rewrite E in E'. injection E' as <- <-. apply X. reflexivity.
  - destruct H as (v & A & B). exists 5%nat, v, [121]. split; [exact A|]. split; [exact B|reflexivity].
Qed.

(** ** What the code gets wrong. *)
Definition real (p : list cins) (f : cst -> bool) : bool := match crun false cinit p with Ok (s, None) => f s | _ => false end.
Lemma real_ok p f : real p f = true -> exists s, crun false cinit p = Ok (s, None) /\ f s = true.
Proof. unfold real. destruct (crun false cinit p) as [[s [e|]]|e| |] eqn:Q; try discriminate. eauto. Qed.
Definition is_ub (r : cres) : bool := match r with UB => true | _ => false end.
Lemma is_ub_ok r : is_ub r = true -> r = UB. Proof. destruct r; try discriminate. reflexivity. Qed.
Definition drop : list cins := [KFresh [120]; KClosure [SLocal 0]; KPush RU; KStore 1]%list.

(** Dropping the only closure over a variable that is still in use takes the variable's value away:
    [let x = 'a' ~ 'b'; let g = fn() { return x; }; g = undef; echo x]. Slot 0 holds x; only slot 1 was assigned. *)
Theorem C61_variable_lost_refuted : cfits_all cinit drop /\
  exists s s', crun false cinit [KFresh [120]; KClosure [SLocal 0]] = Ok (s, None) /\ crun false cinit drop = Ok (s', None) /\
    (exists a, nth_error (cstk s) 0 = Some (RP a) /\ cget (chp s) a = Some (CData (OStr [120]))) /\ nth_error (cstk s') 0 = Some RU.
Proof.
  split; [apply cfits_allb_ok; vm_compute; reflexivity|].
  destruct (real_ok [KFresh [120]; KClosure [SLocal 0]] (fun s => match nth_error (cstk s) 0 with Some (RP 2) => holds_text (chp s) 2 [120] | _ => false end) ltac:(vm_compute; reflexivity)) as (s & E & H).
  destruct (real_ok drop (fun s => match nth_error (cstk s) 0 with Some RU => true | _ => false end) ltac:(vm_compute; reflexivity)) as (s' & E' & H').
  exists s, s'. split; [exact E|]. split; [exact E'|]. split.
  - exists 2%nat. destruct (nth_error (cstk s) 0) as [[| |?|[|[|[|?]]]]|]; try discriminate H. split; [reflexivity|apply holds_text_ok; exact H].
  - destruct (nth_error (cstk s') 0) as [[| |?|?]|]; try discriminate H'. reflexivity.
Qed.
(** Capturing a variable again after that walks over the freed upvalue. *)
Theorem C61_capture_after_drop_refuted : exists s, crun false cinit drop = Ok (s, None) /\ cfits s (KClosure [SLocal 0]) /\ cstep false s (KClosure [SLocal 0]) = UB.
Proof.
  destruct (real_ok drop (fun s => cfitsb s (KClosure [SLocal 0]) && is_ub (cstep false s (KClosure [SLocal 0]))) ltac:(vm_compute; reflexivity)) as (s & E & H).
  apply andb_prop in H. destruct H as [A B]. exists s. split; [exact E|]. split; [apply cfitsb_ok; exact A|apply is_ub_ok; exact B].
Qed.
(** A value that two variables hold, one of them captured, is counted once too little after the closure is dropped, and freed while the
    other variable still holds it. *)
Theorem C61_double_release_refuted : exists p s a, cfits_all cinit p /\ crun false cinit p = Ok (s, None) /\ clive (chp s) a /\ ccount (chp s) a = 1 /\ creferences s a = 2%nat /\
  exists s' , crun false s [KPush RU; KStore 1] = Ok (s', None) /\ cstep false s' (KLoad 0) = UB.
Proof.
  set (p := [KFresh [120]; KLoad 0; KClosure [SLocal 0]; KPush RU; KStore 2]).
  destruct (real_ok p (fun s => match cget (chp s) 2 with Some _ => true | None => false end && (ccount (chp s) 2 =? 1) && Nat.eqb (creferences s 2) 2 &&
     match crun false s [KPush RU; KStore 1] with Ok (s', None) => is_ub (cstep false s' (KLoad 0)) | _ => false end) ltac:(vm_compute; reflexivity)) as (s & E & H).
  exists p, s, 2%nat. split; [apply cfits_allb_ok; vm_compute; reflexivity|]. split; [exact E|].
  apply andb_prop in H. destruct H as [H D]. apply andb_prop in H. destruct H as [H C]. apply andb_prop in H. destruct H as [A B].
  split; [unfold clive; destruct (cget (chp s) 2); [eauto|discriminate A]|]. split; [lia|]. split; [apply Nat.eqb_eq; exact C|].
  destruct (crun false s [KPush RU; KStore 1]) as [[s' [e|]]|e| |]; try discriminate D. exists s'. split; [reflexivity|apply is_ub_ok; exact D].
Qed.
(** A variable left open by a return (see C29_return_refuted) and read through its closure exactly when its old slot is the next one
    to be pushed is freed before it is counted, although no closure was ever dropped. *)
Theorem C61_stale_read_refuted : exists p s, cfits_all cinit p /\ never_dropped_early p /\ crun false cinit p = Ok (s, None) /\ runs_closure s 2 0 /\ cstep false s (KUload 2 0) = UB.
Proof.
  set (p := [KFresh [120]; KClosure [SLocal 0]; KPush (RI 7); KFresh [121]; KClosure [SLocal 3]; KLoad 4; KCret 2 2 (Some 1%nat)]).
  destruct (after_ok p (fun s => runs_closureb s 2 0 && is_ub (cstep false s (KUload 2 0))) ltac:(vm_compute; reflexivity)) as (N & s & E & H).
  apply andb_prop in H. destruct H as [A B]. exists p, s. split; [apply cfits_allb_ok; vm_compute; reflexivity|]. split; [exact N|]. split; [exact E|]. split; [apply runs_ok; exact A|apply is_ub_ok; exact B].
Qed.
(** A closure stored in the variable it captures survives the destruction of the interpreter. *)
Theorem C61_recursive_closure_leaks_refuted : exists p s h a us, cfits_all cinit p /\ never_dropped_early p /\ crun false cinit p = Ok (s, None) /\ ccleanup false s = Ok h /\ cget h a = Some (CClo us).
Proof.
  set (p := [KPush RU; KClosure [SLocal 0]; KStore 0]).
  destruct (after_ok p (fun s => match ccleanup false s with Ok h => match cget h 2 with Some (CClo _) => true | _ => false end | _ => false end) ltac:(vm_compute; reflexivity)) as (N & s & E & H).
  destruct (ccleanup false s) as [h|e| |] eqn:C; try discriminate H. destruct (cget h 2) as [[|us|]|] eqn:Q; try discriminate H.
  exists p, s, h, 2%nat, us. split; [apply cfits_allb_ok; vm_compute; reflexivity|]. split; [exact N|]. split; [exact E|]. split; [exact C|exact Q].
Qed.
Print Assumptions C61_variable_lost_refuted.
Print Assumptions C61_capture_after_drop_refuted.
Print Assumptions C61_double_release_refuted.
Print Assumptions C61_stale_read_refuted.
Print Assumptions C61_recursive_closure_leaks_refuted.
Print Assumptions C61_demo.
