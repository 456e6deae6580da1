(** * RefProofs7: whole runs, the initial state, vm_cleanup. *)
From Verif Require Import Base Refs RefSpec RefProofs RefProofs2 RefProofs3 RefProofs4 RefProofs5 RefProofs6.

Lemma run_good : forall p s, okE [] s -> fits_all s p -> good (run s p).
Proof.
  induction p as [|i r IH]; intros s H HF; cbn [run]; [apply good_fine; exact H|]. destruct HF as [HF1 HF2].
  destruct (step_good s i H HF1) as (s1 & e & E & H1 & H2). rewrite E. unfold andthen. cbn [bind]. destruct e as [e|].
  - exists s1, (Some e). split; [reflexivity|]. split; [discriminate|exact H2].
  - apply IH; [auto|]. apply HF2. exact E.
Qed.

Lemma okE_sound E s : okE E s -> sound s.
Proof.
  intros (HW & _) a. split.
  - intros HL. exact (W_count _ _ _ _ HW HL).
  - intros HR. exact (W_live _ _ _ _ HW HR).
Qed.
Lemma okE_exact s : okE [] s -> exact s.
Proof.
  intros H a. destruct (okE_sound _ _ H a) as [A B]. split; [exact A|]. split; [|exact B].
  intros HL. pose proof (A HL) as C. destruct H as (HW & _). destruct HW as (_ & HE & _). destruct HL as [o Ho]. destruct (HE a o Ho) as [P|[]]. lia.
Qed.

(** The initial state. *)
Lemma setup_ok : forall ls a h c, setup ls a = (h, c) ->
  (forall i, cnt i c = if ((a <=? i) && (i <? a + length h))%nat then 1%nat else 0%nat) /\ Forall (fun x => exists t, x = Cell 1 (Some (OStr t))) h.
Proof.
  induction ls as [|[z|t] r IH]; intros a h c; cbn [setup].
  - intros [= <- <-]. split; [|constructor]. intros i. cbn [length cnt map list_sum fold_right]. destruct (a <=? i)%nat eqn:Q1, (i <? a + 0)%nat eqn:Q2; cbn [andb]; try reflexivity. lia.
  - destruct (setup r a) as [h' c'] eqn:Q. intros [= <- <-]. destruct (IH _ _ _ Q) as [I1 I2]. split; [|exact I2]. intros i. rewrite cnt_cons. cbn [is_ref]. apply I1.
  - destruct (setup r (S a)) as [h' c'] eqn:Q. intros [= <- <-]. destruct (IH _ _ _ Q) as [I1 I2]. split; [|constructor; eauto].
    intros i. rewrite cnt_cons, I1. cbn [is_ref length]. destruct (Nat.eqb_spec i a); destruct (S a <=? i)%nat eqn:Q1, (i <? S a + length h')%nat eqn:Q2, (a <=? i)%nat eqn:Q3, (i <? a + S (length h'))%nat eqn:Q4; cbn [andb]; try reflexivity; lia.
Qed.
Lemma inside_nil h : Forall (fun x => exists t, x = Cell 1 (Some (OStr t))) h -> inside h = [].
Proof. induction 1 as [|x r [t ->] _ IH]; [reflexivity|]. exact IH. Qed.
Lemma cnt_repeat i n : cnt i (repeat RU n) = O.
Proof. induction n as [|n IH]; [reflexivity|]. cbn [repeat]. rewrite cnt_cons, IH. reflexivity. Qed.
Lemma init_ok ls : okE [] (init ls).
Proof.
  unfold init. destruct (setup ls 2) as [h c] eqn:Q. destruct (setup_ok _ _ _ _ Q) as [Hc Hh].
  set (H := [Cell 1 (Some (OTab [] None)); Cell 1 (Some (OTab [] None))] ++ h).
  assert (HI : inside H = []) by (unfold H; cbn [app]; unfold inside; cbn [flat_map body kids of_mt flat app]; apply inside_nil; exact Hh).
  assert (HP : forall i, cnt i (places (St H (repeat RU STACK_SIZE) 0 [] c [] [RP LIST_MT; RP TABLE_MT])) = if (i <? length H)%nat then 1%nat else 0%nat).
  { intros i. unfold places. cbn [stk loops cons_ globs mts map app]. change (flat []) with (@nil rv). rewrite !cnt_app, cnt_repeat, Hc, cnt_nil, !cnt_cons, cnt_nil. unfold H.
    cbn [is_ref app length LIST_MT TABLE_MT]. destruct i as [|[|i]]; cbn [Nat.eqb]; try reflexivity.
    destruct (2 <=? S (S i))%nat eqn:Q1, (S (S i) <? 2 + length h)%nat eqn:Q2, (S (S i) <? S (S (length h)))%nat eqn:Q3; cbn [andb]; try reflexivity; lia. }
  split; [|split; [apply repeat_length|split; [cbn [sz]; lia|reflexivity]]]. cbn [hp].
  assert (HN : forall i, (i < length H)%nat -> exists o, nth_error H i = Some (Cell 1 (Some o))).
  { intros i Hi. unfold H in *. destruct i as [|[|i]]; cbn [app nth_error]; eauto. cbn [app length] in Hi.
    destruct (nth_error h i) as [x|] eqn:Qi; [|apply nth_error_None in Qi; lia]. apply nth_error_In in Qi. rewrite Forall_forall in Hh. destruct (Hh x Qi) as [t ->]. eauto. }
  split; [|split; [|exact I]].
  - split; [apply G_len|]. intros i. cbn [gov]. rewrite gget_G. unfold tot. rewrite allkids_G, HI, HP, cnt_nil. unfold hget.
    destruct (i <? length H)%nat eqn:Qi.
    + destruct (HN i ltac:(lia)) as [o Ho]. rewrite Ho. cbn [body]. exists o. auto.
    + destruct (nth_error H i) as [x|] eqn:Qn; [|reflexivity]. apply nth_some in Qn. lia.
  - intros i o Ho. left. unfold hget, count_of in *. destruct (nth_error H i) as [x|] eqn:Qn; [|discriminate]. pose proof (nth_some _ _ _ Qn) as Hl. destruct (HN i Hl) as [o' Ho']. rewrite Qn in Ho'. injection Ho' as ->. cbn [refs]. lia.
Qed.

(** vm_cleanup. *)
Lemma cleanup_ok E s : okE E s -> exists h, cleanup s = Ok h /\ W h None E [] /\ shrink (hp s) h.
Proof.
  intros (HW & _). unfold cleanup.
  destruct (W_decs (hp s) None E (map fst (loops s)) (stk s ++ cons_ s ++ flat (globs s) ++ mts s)) as (h1 & -> & W1 & S1); [|exact I|].
  { eapply W_ext; [|exact HW]. intros i. unfold places. rewrite !cnt_app. lia. }
  cbn [bind]. destruct (W_decs h1 None E (stk s) _ W1 I) as (h2 & -> & W2 & S2).
  cbn [bind]. destruct (W_decs h2 None E (cons_ s) _ W2 I) as (h3 & -> & W3 & S3).
  cbn [bind]. destruct (W_decs h3 None E (flat (globs s)) _ W3 I) as (h4 & -> & W4 & S4).
  cbn [bind]. destruct (W_decs h4 None E (mts s) []) as (h5 & -> & W5 & S5); [rewrite app_nil_r; exact W4|exact I|].
  exists h5. split; [reflexivity|]. split; [exact W5|]. repeat (eapply shrink_trans; [eassumption|]). apply shrink_refl.
Qed.
Lemma in_inside_inv : forall h v, In v (inside h) -> exists b o, hget h b = Some o /\ In v (kids o).
Proof.
  induction h as [|c r IH]; intros v; [intros []|]. unfold inside. cbn [flat_map]. intros H. apply in_app_or in H. destruct H as [H|H].
  - exists O. unfold hget. cbn [nth_error]. destruct (body c) as [o|]; [|destruct H]. eauto.
  - destruct (IH v H) as (b & o & A & B). exists (S b), o. auto.
Qed.
Lemma cnt_pos a l : (0 < cnt a l)%nat -> In (RP a) l.
Proof.
  induction l as [|v r IH]; [cbn; lia|]. rewrite cnt_cons. intros H. destruct v as [| |z|b]; cbn [is_ref] in H; try (right; apply IH; lia).
  destruct (Nat.eqb_spec a b) as [->|N]; [left; reflexivity|right; apply IH; lia].
Qed.
Lemma left_over h E a : W h None E [] -> live h a -> In a E \/ exists b o, hget h b = Some o /\ In (RP a) (kids o).
Proof.
  intros HW HL. pose proof (W_count _ _ _ _ HW HL) as HC. rewrite cnt_nil in HC. destruct HW as (_ & HE & _). pose proof HL as [o Ho]. destruct (HE a o Ho) as [P|P]; [right|auto].
  apply in_inside_inv. apply cnt_pos. lia.
Qed.
Lemma no_chain (P : nat -> Prop) (rank : nat -> nat) n : (forall a, P a -> (a < n)%nat) -> (forall a, P a -> exists b, P b /\ (rank a < rank b)%nat) -> forall a, ~ P a.
Proof.
  intros HB HN.
  assert (HM : exists M, forall a, (a < n)%nat -> (rank a <= M)%nat).
  { clear HB HN. induction n as [|n [M IH]]; [exists O; lia|]. exists (Nat.max M (rank n)). intros a Ha. destruct (Nat.eq_dec a n) as [->|N]; [lia|]. specialize (IH a ltac:(lia)). lia. }
  destruct HM as [M HM]. assert (HK : forall k a, (M - rank a <= k)%nat -> ~ P a).
  { induction k as [|k IH]; intros a Hk Ha; destruct (HN a Ha) as (b & Hb & Hr); pose proof (HM b (HB b Hb)); [lia|]. apply (IH b); [lia|exact Hb]. }
  intros a. apply (HK (M - rank a)%nat). lia.
Qed.
Lemma no_leftover s h : W h None [] [] -> shrink (hp s) h ->
  (exists rank : nat -> nat, forall b o a, hget (hp s) b = Some o -> In (RP a) (kids o) -> (rank a < rank b)%nat) -> forall a, ~ live h a.
Proof.
  intros HW [_ HS] [rank HR]. apply no_chain with (rank := rank) (n := length h).
  - intros a [o Ho]. eapply hget_len; exact Ho.
  - intros a Ha. destruct (left_over _ _ _ HW Ha) as [[]|(b & o & Hb & Hk)]. exists b. split; [exists o; exact Hb|].
    destruct (HS b) as [[X|[X _]] _]; [|congruence]. rewrite Hb in X. eapply HR; [symmetry; exact X|exact Hk].
Qed.
