(** * RefProofs2: the state-level invariant and the stack operations. *)
From Verif Require Import Base Refs RefSpec RefProofs.

Definition G (h : heap) : list (option obj) := map body h.
Lemma gget_G h i : gget (G h) i = hget h i.
Proof. unfold gget, hget, G. rewrite nth_error_map. destruct (nth_error h i); reflexivity. Qed.
Lemma allkids_G h : allkids (G h) = inside h.
Proof. unfold allkids, inside, G. rewrite flat_map_concat_map, map_map, <- flat_map_concat_map. reflexivity. Qed.
Lemma G_len h : length (G h) = length h. Proof. apply map_length. Qed.

(** The contents one object is about to get (the C code stores them after releasing the old ones). *)
Definition gov (h : heap) (ov : option (nat * obj)) : list (option obj) := match ov with None => G h | Some (a, o) => upd (G h) a (Some o) end.
Definition pinned (ov : option (nat * obj)) : list nat := match ov with None => [] | Some (a, _) => [a] end.
Definition W (h : heap) (ov : option (nat * obj)) (E : list nat) (L : list rv) : Prop :=
  inv h (gov h ov) (pinned ov) L /\ (forall i o, hget h i = Some o -> 0 < count_of h i \/ In i E) /\
  match ov with Some (a, _) => live h a | None => True end.
Lemma W_ext h ov E L M : (forall i, cnt i L = cnt i M) -> W h ov E L -> W h ov E M.
Proof. intros X (A & B & C). split; [eapply inv_ext; eassumption|auto]. Qed.

Definition shrink (h h' : heap) : Prop := length h' = length h /\
  forall i, (hget h' i = hget h i \/ hget h' i = None /\ 0 < count_of h i) /\ (hget h' i <> None -> count_of h' i <= count_of h i).
Lemma shrink_zero h h' i : shrink h h' -> count_of h i = 0 -> hget h' i = hget h i.
Proof. intros [_ S] Z0. destruct (S i) as [[A|[_ A]] _]; [exact A|lia]. Qed.
Lemma shrink_refl h : shrink h h. Proof. split; [auto|]. intros i. split; [auto|lia]. Qed.
Lemma shrink_trans h h1 h2 : shrink h h1 -> shrink h1 h2 -> shrink h h2.
Proof.
  intros [A1 A2] [B1 B2]. split; [congruence|]. intros i. destruct (A2 i) as [A3 A4], (B2 i) as [B3 B4].
  split.
  - destruct B3 as [B3|[B3 B5]]; [rewrite B3; exact A3|]. destruct (hget h1 i) eqn:E.
    + destruct A3 as [A3|[A3 A5]]; [|congruence]. right. split; [auto|]. assert (count_of h1 i <= count_of h i) by (apply A4; congruence). lia.
    + destruct A3 as [A3|[A3 A5]]; [left; congruence|auto].
  - intros N. assert (E2 : hget h1 i <> None).
    { destruct B3 as [B3|[B3 _]]; [congruence|contradiction]. }
    specialize (B4 N). specialize (A4 E2). lia.
Qed.

Lemma gget_gov h ov i : (forall a o, ov = Some (a, o) -> live h a) ->
  gget (gov h ov) i = match ov with Some (a, o) => if Nat.eqb i a then Some o else hget h i | None => hget h i end.
Proof.
  intros Hl. destruct ov as [[a o]|]; cbn [gov]; [|apply gget_G].
  destruct (Hl a o eq_refl) as [o0 H0].
  assert (La : (a < length (G h))%nat). { rewrite G_len. unfold hget in H0. destruct (nth_error h a) eqn:E; [|discriminate]. eapply nth_some; exact E. }
  destruct (Nat.eqb_spec i a) as [->|N]; [rewrite gget_upd_same by exact La; reflexivity|]. rewrite gget_upd_other by auto. apply gget_G.
Qed.
Lemma list_ext_gget (g g' : list (option obj)) : length g = length g' -> (forall i, gget g i = gget g' i) -> g = g'.
Proof.
  revert g'. induction g as [|x r IH]; intros [|y r'] HL H; cbn in HL; try lia; [reflexivity|].
  f_equal; [exact (H O)|]. apply IH; [lia|]. intros i. exact (H (S i)).
Qed.

Lemma W_decs h ov E vs L : W h ov E (vs ++ L) ->
  match ov with Some (a, o) => (0 < cnt a L)%nat \/ count_of h a = 0 | None => True end ->
  exists h', mfold dec vs h = Ok h' /\ W h' ov E L /\ shrink h h'.
Proof.
  intros (HI & HE & HV) HP.
  assert (Hl : forall a o, ov = Some (a, o) -> live h a) by (intros a o ->; exact HV).
  destruct (decs_ok (pinned ov) L vs h (gov h ov) HI) as (h' & g' & E1 & I1 & M1).
  { intros p Hp. destruct ov as [[a o]|]; [|destruct Hp]. destruct Hp as [<-|[]]. destruct HP as [HP|HP]; [auto|right].
    destruct HI as [_ HI]. specialize (HI a). rewrite gget_gov in HI by exact Hl. rewrite Nat.eqb_refl in HI.
    destruct HI as (o' & HI & _). unfold count_of in HP. rewrite HI in HP. cbn [refs] in HP. lia. }
  destruct M1 as (A1 & A2 & A3 & A4 & A5).
  set (gi i := match ov with Some (a, o) => if Nat.eqb i a then Some o else hget h i | None => hget h i end).
  assert (Gi : forall i, gget (gov h ov) i = gi i) by (intros i; apply gget_gov; exact Hl).
  assert (HS : shrink h h').
  { split; [exact A1|]. intros i. specialize (A5 i). rewrite Gi in A5.
    destruct (gi i) eqn:Q.
    - destruct A5 as [(B1 & B2 & B3 & B4)|(B1 & B2 & B3)]; split; auto; try lia. intros N; congruence.
    - unfold hget, count_of. destruct A5 as [-> _]. split; [auto|lia]. }
  assert (Hlive : match ov with Some (a, _) => live h' a | None => True end).
  { destruct ov as [[a o]|] eqn:Eov; [|auto]. destruct HV as [o0 H0]. destruct HP as [HP|HP].
    - specialize (A5 a). rewrite Gi in A5. unfold gi in A5. rewrite Nat.eqb_refl in A5. destruct A5 as [(B1 & B2 & _)|(B1 & B2 & B3)].
      + exists o0. congruence.
      + exfalso. destruct I1 as [_ I1]. specialize (I1 a). rewrite B1 in I1. unfold tot in I1. lia.
    - exists o0. rewrite (shrink_zero h h' a HS HP). exact H0. }
  assert (Eg : g' = gov h' ov).
  { apply list_ext_gget.
    - destruct I1 as [-> _]. destruct ov as [[a o]|]; cbn [gov]; rewrite ?upd_len, G_len; reflexivity.
    - intros i. rewrite gget_gov by (intros a o ->; exact Hlive).
      specialize (A5 i). rewrite Gi in A5. unfold gi in A5. destruct ov as [[a o]|].
      + destruct (Nat.eqb_spec i a) as [->|N].
        * destruct A5 as [(B1 & _)|(B1 & B2 & _)]; [exact B1|]. destruct Hlive as [o1 H1]. congruence.
        * destruct (hget h i) as [x|] eqn:Q.
          -- destruct A5 as [(B1 & B2 & _)|(B1 & B2 & _)]; congruence.
          -- destruct A5 as [B1 B2]. rewrite B2. unfold hget in *. rewrite B1. congruence.
      + destruct (hget h i) as [x|] eqn:Q.
        * destruct A5 as [(B1 & B2 & _)|(B1 & B2 & _)]; congruence.
        * destruct A5 as [B1 B2]. rewrite B2. unfold hget in *. rewrite B1. congruence. }
  exists h'. split; [exact E1|]. split; [|exact HS]. split; [rewrite <- Eg; exact I1|]. split; [|exact Hlive].
  intros i o H1. specialize (A5 i). rewrite Gi in A5.
  assert (H0 : hget h i = Some o). { destruct HS as [_ HS]. destruct (HS i) as [[X|[X _]] _]; congruence. }
  destruct (gi i) as [x|] eqn:Q.
  - destruct A5 as [(B1 & B2 & B3 & [B4|B4])|(B1 & B2 & _)]; [auto| |congruence].
    destruct (HE i o H0) as [C|C]; [lia|auto].
  - exfalso. unfold gi in Q. destruct ov as [[a o']|]; [destruct (Nat.eqb i a)|]; congruence.
Qed.
Lemma W_dec h ov E v L : W h ov E (v :: L) ->
  match ov with Some (a, o) => (0 < cnt a L)%nat \/ count_of h a = 0 | None => True end ->
  exists h', dec h v = Ok h' /\ W h' ov E L /\ shrink h h'.
Proof.
  intros H1 H2. destruct (W_decs h ov E [v] L H1 H2) as (h' & E1 & A & B). exists h'. split; [|auto].
  cbn [mfold] in E1. destruct (dec h v); cbn [bind] in E1; congruence.
Qed.

(** A value that may be counted up: not an object, or a live one. *)
Definition livev (h : heap) (v : rv) : Prop := match v with RP a => live h a | _ => True end.
Lemma livev_alive h ov v : match ov with Some (a, _) => live h a | None => True end -> livev h v -> alive (gov h ov) v.
Proof.
  intros HV. destruct v as [| |z|a]; cbn; auto. intros [o H]. rewrite gget_gov by (intros ? ? ->; exact HV).
  destruct ov as [[b o']|]; [destruct (Nat.eqb a b)|]; eauto.
Qed.
Lemma W_incs h ov E vs L : W h ov E L -> Forall (livev h) vs ->
  exists h', mfold inc vs h = Ok h' /\ W h' ov E (vs ++ L) /\ grown h h'.
Proof.
  intros (HI & HE & HV) HA.
  destruct (incs_ok (gov h ov) (pinned ov) vs h L HI) as (h' & E1 & I1 & G1).
  { eapply Forall_impl; [|exact HA]. intros v Hv. apply livev_alive; assumption. }
  exists h'. split; [exact E1|]. split; [|exact G1]. destruct G1 as [G1 G2].
  assert (EG : G h' = G h).
  { apply list_ext_gget; [rewrite !G_len; exact G1|]. intros i. rewrite !gget_G. apply G2. }
  split; [destruct ov as [[a o]|]; cbn [gov] in *; rewrite EG; exact I1|]. split.
  - intros i o H. destruct (G2 i) as [G3 G4]. rewrite G3 in H. destruct (HE i o H); [left; lia|auto].
  - destruct ov as [[a o]|]; [|auto]. destruct HV as [o0 H0]. exists o0. destruct (G2 a) as [-> _]. exact H0.
Qed.
Lemma W_inc h ov E v L : W h ov E L -> livev h v -> exists h', inc h v = Ok h' /\ W h' ov E (v :: L) /\ grown h h'.
Proof.
  intros H1 H2. destruct (W_incs h ov E [v] L H1) as (h' & E1 & A & B); [constructor; auto|]. exists h'. split; [|auto].
  cbn [mfold] in E1. destruct (inc h v); cbn [bind] in E1; congruence.
Qed.

Lemma W_live h E L a : W h None E L -> (0 < cnt a L + cnt a (inside h))%nat -> live h a.
Proof.
  intros ((_ & HI) & _) H. specialize (HI a). cbn [gov] in HI. rewrite gget_G in HI. destruct (hget h a) eqn:Q; [exists o; exact Q|].
  unfold tot in HI. rewrite allkids_G in HI. lia.
Qed.
Lemma W_count h E L a : W h None E L -> live h a -> count_of h a = Z.of_nat (cnt a L + cnt a (inside h)).
Proof.
  intros ((_ & HI) & _) [o H]. specialize (HI a). cbn [gov] in HI. rewrite gget_G, H in HI. destruct HI as (o' & HI & _).
  unfold count_of. rewrite HI. cbn [refs]. unfold tot. rewrite allkids_G. reflexivity.
Qed.
Lemma W_livev h E L v : W h None E L -> In v L -> livev h v.
Proof. intros HW Hin. destruct v; cbn; auto. eapply W_live; [exact HW|]. pose proof (cnt_in a L Hin). lia. Qed.
Lemma in_inside h a o v : hget h a = Some o -> In v (kids o) -> In v (inside h).
Proof.
  intros H Hin. unfold hget in H. destruct (nth_error h a) as [c|] eqn:E; [|discriminate]. unfold inside. apply in_flat_map. exists c.
  split; [eapply nth_error_In; exact E|]. rewrite H. exact Hin.
Qed.
Lemma W_kid h E L a o v : W h None E L -> hget h a = Some o -> In v (kids o) -> livev h v.
Proof.
  intros HW H Hin. destruct v as [| |z|b]; cbn; auto. eapply W_live; [exact HW|].
  pose proof (cnt_in b _ (in_inside h a o _ H Hin)). lia.
Qed.

(** Starting and finishing a change of contents. *)
Lemma W_begin h E L L' a o0 o : W h None E L -> hget h a = Some o0 ->
  (forall i, cnt i L' + cnt i (kids o) = cnt i L + cnt i (kids o0))%nat -> W h (Some (a, o)) E L'.
Proof.
  intros (HI & HE & _) H0 HC. assert (La : (a < length (G h))%nat). { rewrite G_len. unfold hget in H0. destruct (nth_error h a) eqn:Q; [|discriminate]. eapply nth_some; exact Q. }
  split; [|split; [exact HE|exists o0; exact H0]].
  destruct HI as [HL HI]. split; [cbn [gov]; rewrite upd_len; exact HL|]. intros i.
  assert (HT : tot (gov h (Some (a, o))) L' i = tot (gov h None) L i).
  { unfold tot. cbn [gov]. pose proof (allkids_upd i (G h) a (Some o) La) as X. rewrite gget_G, H0 in X. cbn [okids] in X. specialize (HC i). lia. }
  rewrite HT. specialize (HI i). cbn [gov] in HI |- *. destruct (Nat.eq_dec i a) as [->|N].
  - rewrite gget_upd_same by exact La. rewrite gget_G, H0 in HI. destruct HI as (o' & HI & _). exists o'. split; [exact HI|left; left; reflexivity].
  - rewrite gget_upd_other by auto. destruct (gget (G h) i); [|exact HI]. destruct HI as (o' & HI & [[]|HO]). exists o'. auto.
Qed.
Lemma W_end h E L a o : W h (Some (a, o)) E L -> exists h', set_body h a o = Ok h' /\ W h' None E L /\ length h' = length h /\
  (forall i, count_of h' i = count_of h i) /\ hget h' a = Some o /\ (forall i, i <> a -> hget h' i = hget h i).
Proof.
  intros (HI & HE & HV). destruct HV as [o0 H0]. unfold hget in H0. destruct (nth_error h a) as [[r b]|] eqn:Q; [|discriminate]. cbn in H0. subst b.
  assert (Lh : (a < length h)%nat) by (eapply nth_some; exact Q).
  exists (upd h a (Cell r (Some o))). split; [unfold set_body; rewrite Q; reflexivity|].
  assert (EG : G (upd h a (Cell r (Some o))) = gov h (Some (a, o))) by (unfold G; rewrite upd_map; reflexivity).
  assert (HC : forall i, count_of (upd h a (Cell r (Some o))) i = count_of h i).
  { intros i. unfold count_of. destruct (Nat.eq_dec i a) as [->|N]; [rewrite upd_same by exact Lh; rewrite Q; reflexivity|rewrite upd_other by auto; reflexivity]. }
  split; [|split; [apply upd_len|split; [exact HC|split; [unfold hget; rewrite upd_same by exact Lh; reflexivity|intros i N; unfold hget; rewrite upd_other by auto; reflexivity]]]].
  split; [|split; [|exact I]].
  - destruct HI as [HL HI]. split; [cbn [gov]; rewrite EG; rewrite HL, upd_len; reflexivity|]. intros i. cbn [gov]. rewrite EG. specialize (HI i).
    destruct (gget (gov h (Some (a, o))) i) as [x|] eqn:Gx; [|exact HI]. destruct HI as (o' & HI & HO).
    destruct (Nat.eq_dec i a) as [->|N].
    + rewrite gget_gov in Gx by (intros ? ? [= <- <-]; exists o0; unfold hget; rewrite Q; reflexivity). rewrite Nat.eqb_refl in Gx. injection Gx as <-.
      exists o. rewrite upd_same by exact Lh. rewrite Q in HI. injection HI as HI _. split; [rewrite HI; reflexivity|auto].
    + exists o'. rewrite upd_other by auto. split; [exact HI|]. destruct HO as [[HO|[]]|HO]; [congruence|auto].
  - intros i x Hx. rewrite HC. unfold hget in Hx. destruct (Nat.eq_dec i a) as [->|N].
    + apply (HE a o0). unfold hget. rewrite Q. reflexivity.
    + rewrite upd_other in Hx by auto. exact (HE i x Hx).
Qed.
Lemma hget_app_old h c i : (i < length h)%nat -> hget (h ++ [c]) i = hget h i.
Proof. intros H. unfold hget. rewrite nth_error_app1 by exact H. reflexivity. Qed.
Lemma hget_app_new h c : hget (h ++ [c]) (length h) = body c.
Proof. unfold hget. rewrite nth_error_app2, Nat.sub_diag by lia. reflexivity. Qed.
Lemma hget_len h i o : hget h i = Some o -> (i < length h)%nat.
Proof. unfold hget. destruct (nth_error h i) eqn:E; [|discriminate]. intros _. eapply nth_some; exact E. Qed.
Lemma W_alloc h E L o : W h None E L -> kids o = [] -> W (h ++ [Cell 0 (Some o)]) None (length h :: E) L.
Proof.
  intros (HI & HE & _) HK. split; [|split; [|exact I]].
  - destruct HI as [HL HI]. cbn [gov] in *. assert (EG : G (h ++ [Cell 0 (Some o)]) = G h ++ [Some o]) by (unfold G; rewrite map_app; reflexivity).
    split; [rewrite G_len; reflexivity|]. intros i. rewrite EG.
    assert (HT : tot (G h ++ [Some o]) L i = tot (G h) L i).
    { unfold tot, allkids. rewrite flat_map_app, cnt_app. cbn [flat_map okids]. rewrite HK. cbn. lia. }
    rewrite HT. specialize (HI i). unfold gget in *. destruct (Nat.lt_ge_cases i (length h)) as [Li|Li].
    + rewrite nth_error_app1 by (rewrite G_len; exact Li). rewrite nth_error_app1 by exact Li. exact HI.
    + rewrite (proj2 (nth_error_None (G h) i)) in HI by (rewrite G_len; exact Li).
      rewrite nth_error_app2 by (rewrite G_len; exact Li). rewrite G_len. destruct (i - length h)%nat eqn:Q.
      * cbn [nth_error]. exists o. rewrite nth_error_app2 by exact Li. rewrite Q. cbn [nth_error]. rewrite HI. auto.
      * cbn [nth_error]. destruct n; exact HI.
  - intros i x Hx. destruct (Nat.lt_ge_cases i (length h)) as [Li|Li].
    + rewrite hget_app_old in Hx by exact Li. unfold count_of. rewrite nth_error_app1 by exact Li. destruct (HE i x Hx); [left; assumption|right; right; assumption].
    + apply hget_len in Hx. rewrite app_length in Hx. cbn in Hx. right. left. lia.
Qed.
Lemma W_settle h E L a : W h None (a :: E) L -> (0 < cnt a L + cnt a (inside h))%nat -> W h None E L.
Proof.
  intros HW H. pose proof HW as (HI & HE & _). split; [exact HI|]. split; [|exact I]. intros i o Hi. destruct (HE i o Hi) as [X|[<-|X]]; auto.
  left. rewrite (W_count _ _ _ a HW) by (exists o; exact Hi). lia.
Qed.
Lemma W_weaken h ov E E' L : incl E E' -> W h ov E L -> W h ov E' L.
Proof. intros H (A & B & C). split; [exact A|]. split; [|exact C]. intros i o Hi. destruct (B i o Hi); auto. Qed.

(** States. *)
Definition rest (s : st) : list rv := map fst (loops s) ++ cons_ s ++ flat (globs s) ++ mts s.
Definition okE (E : list nat) (s : st) : Prop := W (hp s) None E (places s) /\ length (stk s) = STACK_SIZE /\ (sz s <= STACK_SIZE)%nat /\ mts s = [RP LIST_MT; RP TABLE_MT].
Definition good (r : res) : Prop := exists s' e, r = Ok (s', e) /\ (e = None -> okE [] s') /\ exists E, okE E s' /\ (length E <= 1)%nat.
Lemma good_fine s : okE [] s -> good (fine s). Proof. intros H. exists s, None. split; [reflexivity|]. split; [auto|]. exists []. cbn [length]. auto. Qed.
Lemma good_fail s e : okE [] s -> good (fail s e). Proof. intros H. exists s, (Some e). split; [reflexivity|]. split; [discriminate|]. exists []. cbn [length]. auto. Qed.
Lemma good_fail1 a s e : okE [a] s -> good (fail s e). Proof. intros H. exists s, (Some e). split; [reflexivity|]. split; [discriminate|]. exists [a]. cbn [length]. auto. Qed.
Lemma good_then r f : good r -> (forall s, okE [] s -> good (f s)) -> good (andthen r f).
Proof.
  intros (s & e & -> & H1 & H2) Hf. unfold andthen. cbn [bind]. destruct e as [e|].
  - exists s, (Some e). split; [reflexivity|]. split; [discriminate|exact H2].
  - apply Hf. apply H1. reflexivity.
Qed.
Lemma places_stk s : places s = stk s ++ rest s. Proof. reflexivity. Qed.

Lemma slot_ok s i : length (stk s) = STACK_SIZE -> (i < STACK_SIZE)%nat -> exists v, nth_error (stk s) i = Some v /\ slot s i = Ok v /\ In v (stk s).
Proof.
  intros HL Hi. destruct (nth_error (stk s) i) as [v|] eqn:E; [|apply nth_error_None in E; lia].
  exists v. split; [auto|]. split; [unfold slot; rewrite E; reflexivity|eapply nth_error_In; exact E].
Qed.
Lemma peek_ok s k : length (stk s) = STACK_SIZE -> (sz s <= STACK_SIZE)%nat -> (k < sz s)%nat ->
  exists v, peek s k = Ok v /\ nth_error (stk s) (sz s - 1 - k) = Some v /\ In v (stk s).
Proof.
  intros HL HS Hk. destruct (slot_ok s (sz s - 1 - k) HL ltac:(lia)) as (v & A & B & C). exists v. unfold peek.
  replace (k <? sz s)%nat with true by lia. auto.
Qed.
Lemma popn_ok s k : (k <= sz s)%nat -> popn s k = Ok (with_stk s (stk s) (sz s - k)).
Proof. intros H. unfold popn. replace (k <=? sz s)%nat with true by lia. reflexivity. Qed.
Lemma okE_sp E s n : okE E s -> (n <= STACK_SIZE)%nat -> okE E (with_stk s (stk s) n).
Proof. intros (A & B & C & D) H. split; [exact A|]. split; [exact B|]. split; [exact H|exact D]. Qed.

(** The value pushed must be alive after the old contents of the slot have been released. *)
Definition survives (s : st) (v : rv) : Prop :=
  forall E h1, W h1 None E (upd (stk s) (sz s) RU ++ rest s) -> shrink (hp s) h1 -> livev h1 v.
Lemma push_full E s v : okE E s -> (sz s < STACK_SIZE)%nat -> survives s v ->
  exists h2, push s v = fine (with_stk (with_hp s h2) (upd (stk s) (sz s) v) (S (sz s))) /\
    okE E (with_stk (with_hp s h2) (upd (stk s) (sz s) v) (S (sz s))) /\
    (exists h1, shrink (hp s) h1 /\ grown h1 h2).
Proof.
  intros (HW & HL & HS & HM) Hlt Hv. unfold push. replace (STACK_SIZE <=? sz s)%nat with false by lia.
  destruct (slot_ok s (sz s) HL Hlt) as (old & Eo & -> & _). cbn [bind].
  destruct (W_dec (hp s) None E old (upd (stk s) (sz s) RU ++ rest s)) as (h1 & E1 & W1 & S1); [|exact I|].
  { eapply W_ext; [|exact HW]. intros i. rewrite places_stk, cnt_cons, !cnt_app. pose proof (cnt_upd i (stk s) (sz s) RU old Eo). cbn [is_ref] in H. lia. }
  rewrite E1. cbn [bind].
  destruct (W_inc h1 None E v _ W1 (Hv E h1 W1 S1)) as (h2 & E2 & W2 & G2). rewrite E2. cbn [bind].
  exists h2. split; [reflexivity|]. split; [|eauto]. split; [|split; [cbn [stk with_stk]; rewrite upd_len; exact HL|split; [cbn [sz with_stk]; lia|exact HM]]].
  eapply W_ext; [|exact W2]. intros i. rewrite places_stk. cbn [stk with_stk]. unfold rest. cbn [with_stk with_hp loops cons_ globs mts].
  fold (rest s). rewrite cnt_cons, !cnt_app. pose proof (cnt_upd i (stk s) (sz s) RU old Eo). pose proof (cnt_upd i (stk s) (sz s) v old Eo). cbn [is_ref] in H. lia.
Qed.
Lemma push_good s v : okE [] s -> survives s v -> good (push s v).
Proof.
  intros H Hv. destruct (Nat.lt_ge_cases (sz s) STACK_SIZE) as [Hlt|Hge].
  - destruct (push_full [] s v H Hlt Hv) as (h2 & -> & H2 & _). apply good_fine. exact H2.
  - unfold push. replace (STACK_SIZE <=? sz s)%nat with true by lia. eapply good_fail. exact H.
Qed.
(** Pushing a new object. *)
Lemma push_fresh s a : okE [a] s -> hget (hp s) a <> None -> count_of (hp s) a = 0 -> good (push s (RP a)).
Proof.
  intros H Ha Hc. destruct (Nat.lt_ge_cases (sz s) STACK_SIZE) as [Hlt|Hge].
  - destruct (push_full [a] s (RP a) H Hlt) as (h2 & -> & H2 & _).
    { intros E h1 W1 S1. cbn. destruct (hget (hp s) a) as [o|] eqn:Q; [|contradiction]. exists o. rewrite (shrink_zero _ _ _ S1 Hc). exact Q. }
    apply good_fine. destruct H2 as (A & B & C). split; [|auto]. eapply W_settle; [exact A|]. rewrite places_stk, cnt_app. cbn [stk with_stk].
    destruct H as (_ & HL & _ & _).
    pose proof (cnt_in a (upd (stk s) (sz s) (RP a))). assert (In (RP a) (upd (stk s) (sz s) (RP a))).
    { eapply nth_error_In. apply upd_same. lia. } specialize (H H0). lia.
  - unfold push. replace (STACK_SIZE <=? sz s)%nat with true by lia. eapply good_fail1. exact H.
Qed.
(** Ways to survive. *)
Lemma surv_unboxed s v : unboxed v -> survives s v. Proof. intros H E h1 _ _. destruct v; cbn in *; tauto. Qed.
Lemma surv_rest s v : In v (rest s) -> survives s v.
Proof. intros H E h1 W1 _. eapply W_livev; [exact W1|]. apply in_or_app. auto. Qed.
Lemma in_upd {A} (l : list A) i j x v : nth_error l j = Some v -> j <> i -> In v (upd l i x).
Proof. intros H N. apply (nth_error_In _ j). rewrite upd_other by auto. exact H. Qed.
Lemma surv_slot s j v : nth_error (stk s) j = Some v -> j <> sz s -> survives s v.
Proof. intros H N E h1 W1 _. eapply W_livev; [exact W1|]. apply in_or_app. left. eapply in_upd; eassumption. Qed.
Lemma shrink_live h h1 E L a o : W h1 None E L -> shrink h h1 -> In (RP a) L -> hget h a = Some o -> hget h1 a = Some o.
Proof.
  intros W1 [_ S1] Hin Ha. pose proof (W_livev _ _ _ _ W1 Hin) as [o1 H1]. destruct (S1 a) as [[X|[X _]] _]; congruence.
Qed.
Lemma surv_kid s a o v : (In (RP a) (rest s) \/ exists j, nth_error (stk s) j = Some (RP a) /\ j <> sz s) -> hget (hp s) a = Some o -> In v (kids o) -> survives s v.
Proof.
  intros Hin Ha Hk E h1 W1 S1. assert (In (RP a) (upd (stk s) (sz s) RU ++ rest s)).
  { apply in_or_app. destruct Hin as [Hin|(j & Hj & Nj)]; [auto|]. left. eapply in_upd; eassumption. }
  eapply W_kid; [exact W1| |exact Hk]. eapply shrink_live; eassumption.
Qed.
