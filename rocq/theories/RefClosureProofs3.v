(** * RefClosureProofs3: storing into a captured variable, every instruction, whole runs, the machine without the watchpoint, vm_cleanup. *)
From Verif Require Import Base Refs RefSpec RefProofs RefProofs2 RefProofs3 RefProofs4 RefProofs5 RefProofs6 RefProofs7 RefClosure RefClosureSpec RefClosureProofs RefClosureProofs2.

(** A new value for [u], which [c] holds, and [c] is referenced from outside: [u] does not die while its old value is released. *)
Lemma change_inner h E L c u us1 us2 old v : W h None E L -> c <> u -> hget h c = Some (OList (us1 ++ RP u :: us2) None) -> hget h u = Some (OList [old] None) ->
  In (RP c) L -> livev h v -> exists h1 h2 h3, inc h v = Ok h1 /\ dec h1 old = Ok h2 /\ set_body h2 u (OList [v] None) = Ok h3 /\ W h3 None E L.
Proof.
  intros HW NE Hc Hu Hin Hv. destruct (W_inc h None E v L HW Hv) as (h1 & E1 & W1 & G1). exists h1.
  assert (Hc1 : hget h1 c = Some (OList (us1 ++ RP u :: us2) None)) by (rewrite (grown_hget _ _ _ G1); exact Hc).
  assert (Hu1 : hget h1 u = Some (OList [old] None)) by (rewrite (grown_hget _ _ _ G1); exact Hu).
  set (ou := OList [v] None). set (oc := OList (us1 ++ us2) None).
  set (g := upd (upd (G h1) u (Some ou)) c (Some oc)).
  pose proof (hget_len _ _ _ Hc1) as Lc. pose proof (hget_len _ _ _ Hu1) as Lu. pose proof (G_len h1) as LG.
  destruct W1 as ((_ & I1) & X1 & _). cbn [gov pinned] in I1.
  assert (Gu : gget g u = Some ou) by (unfold g; rewrite gget_upd_other by exact NE; apply gget_upd_same; lia).
  assert (Gc : gget g c = Some oc) by (unfold g; apply gget_upd_same; rewrite upd_len; lia).
  assert (Go : forall i, i <> u -> i <> c -> gget g i = hget h1 i) by (intros i A B; unfold g; rewrite !gget_upd_other by auto; apply gget_G).
  assert (T : forall i, tot g (old :: RP u :: L) i = tot (G h1) (v :: L) i).
  { intros i. unfold tot. rewrite !cnt_cons.
    pose proof (allkids_upd i (upd (G h1) u (Some ou)) c (Some oc) ltac:(rewrite upd_len; lia)) as A1. rewrite gget_upd_other in A1 by auto. rewrite gget_G, Hc1 in A1.
    pose proof (allkids_upd i (G h1) u (Some ou) ltac:(lia)) as A2. rewrite gget_G, Hu1 in A2. fold g in A1.
    unfold ou, oc, okids in *. cbn [kids of_mt app] in A1, A2. rewrite !cnt_app, !cnt_cons in A1. rewrite !cnt_cons, !cnt_nil in A2. lia. }
  assert (IV : inv h1 g [u; c] (old :: RP u :: L)).
  { split; [unfold g; rewrite !upd_len; exact LG|]. intros i. rewrite T. specialize (I1 i). rewrite gget_G in I1.
    destruct (Nat.eq_dec i u) as [->|Nu]; [|destruct (Nat.eq_dec i c) as [->|Nc]].
    - rewrite Gu. rewrite Hu1 in I1. destruct I1 as (o' & A & _). exists o'. split; [exact A|]. left. left. reflexivity.
    - rewrite Gc. rewrite Hc1 in I1. destruct I1 as (o' & A & _). exists o'. split; [exact A|]. left. right. left. reflexivity.
    - rewrite Go by auto. destruct (hget h1 i) as [o|]; [|exact I1]. destruct I1 as (o' & A & [[]|B]). exists o'. auto. }
  pose proof (cnt_in c L Hin) as Pc.
  destruct (dec_ok h1 g [u; c] old (RP u :: L) IV) as (h2 & g2 & E2 & I2 & (M1 & M2 & M3 & M4 & M5)).
  { intros p [<-|[<-|[]]]; left; rewrite cnt_cons; [rewrite is_ref_self; lia|lia]. }
  exists h2. destruct I2 as [IL I2].
  assert (Su : gget g2 u = Some ou /\ hget h2 u = Some (OList [old] None)).
  { specialize (M5 u). rewrite Gu in M5. destruct M5 as [(A & B & _)|(A & _)]; [split; congruence|]. specialize (I2 u). rewrite A in I2. unfold tot in I2. rewrite cnt_cons, is_ref_self in I2. lia. }
  assert (Sc : gget g2 c = Some oc /\ hget h2 c = Some (OList (us1 ++ RP u :: us2) None)).
  { specialize (M5 c). rewrite Gc in M5. destruct M5 as [(A & B & _)|(A & _)]; [split; congruence|]. specialize (I2 c). rewrite A in I2. unfold tot in I2. rewrite cnt_cons in I2. lia. }
  destruct Su as [Gu2 Hu2], Sc as [Gc2 Hc2].
  pose proof (hget_len _ _ _ Hu2) as Lu2. pose proof (hget_len _ _ _ Hc2) as Lc2.
  assert (Q : exists r, nth_error h2 u = Some (Cell r (Some (OList [old] None)))).
  { unfold hget in Hu2. destruct (nth_error h2 u) as [[r b]|]; [|discriminate]. cbn [body] in Hu2. subst b. eauto. }
  destruct Q as [r Q]. set (h3 := upd h2 u (Cell r (Some ou))). exists h3.
  split; [exact E1|]. split; [exact E2|]. split; [unfold set_body; rewrite Q; reflexivity|].
  assert (H3 : forall i, i <> u -> nth_error h3 i = nth_error h2 i) by (intros i N; unfold h3; rewrite upd_other by auto; reflexivity).
  assert (H3u : nth_error h3 u = Some (Cell r (Some ou))) by (unfold h3; apply upd_same; exact Lu2).
  assert (E3 : G h3 = upd g2 c (Some (OList (us1 ++ RP u :: us2) None))).
  { apply list_ext_gget; [rewrite G_len, upd_len; unfold h3; rewrite upd_len; lia|]. intros i. rewrite gget_G. destruct (Nat.eq_dec i c) as [->|Nc].
    - rewrite gget_upd_same by lia. unfold hget. rewrite H3 by exact NE. exact Hc2.
    - rewrite gget_upd_other by auto. destruct (Nat.eq_dec i u) as [->|Nu]; [unfold hget; rewrite H3u; cbn [body]; congruence|].
      unfold hget. rewrite H3 by exact Nu. change (hget h2 i = gget g2 i). specialize (M5 i). rewrite Go in M5 by auto. destruct (hget h1 i) as [o|] eqn:Qi.
      + destruct M5 as [(A & B & _)|(A & B & _)]; congruence.
      + destruct M5 as [A B]. unfold hget in *. rewrite A, B. exact Qi. }
  assert (T3 : forall i, tot (G h3) L i = tot g2 (RP u :: L) i).
  { intros i. rewrite E3. unfold tot. rewrite cnt_cons. pose proof (allkids_upd i g2 c (Some (OList (us1 ++ RP u :: us2) None)) ltac:(lia)) as A. rewrite Gc2 in A.
    unfold oc, okids in A. cbn [kids of_mt app] in A. rewrite !cnt_app, cnt_cons in A. lia. }
  split; [|split; [|exact I]].
  - cbn [gov pinned]. split; [apply G_len|]. intros i. rewrite T3, gget_G. specialize (I2 i). destruct (Nat.eq_dec i u) as [->|Nu].
    + unfold hget. rewrite H3u. cbn [body]. rewrite Gu2 in I2. destruct I2 as (o' & A & _). rewrite Q in A. injection A as A _. exists ou. rewrite A. auto.
    + unfold hget. rewrite H3 by exact Nu. change (match hget h2 i with Some o => exists o', nth_error h2 i = Some (Cell (Z.of_nat (tot g2 (RP u :: L) i)) (Some o')) /\ (In i [] \/ o' = o) | None => tot g2 (RP u :: L) i = O end).
      destruct (Nat.eq_dec i c) as [->|Nc].
      * rewrite Hc2. rewrite Gc2 in I2. destruct I2 as (o' & A & _). unfold hget in Hc2. rewrite A in Hc2. cbn [body] in Hc2. injection Hc2 as ->. eauto.
      * assert (X : hget h2 i = gget g2 i).
        { rewrite <- (gget_upd_other g2 c i (Some (OList (us1 ++ RP u :: us2) None))) by auto. rewrite <- E3, gget_G. unfold hget. rewrite H3 by exact Nu. reflexivity. }
        rewrite X. destruct (gget g2 i) as [o|] eqn:Qi; [|exact I2]. destruct I2 as (o' & A & B). exists o'. split; [exact A|]. right. destruct B as [[<-|[<-|[]]]|B]; congruence.
  - intros i o Ho. assert (HG : exists o1, gget g i = Some o1 /\ gget g2 i <> None).
    { specialize (M5 i). destruct (Nat.eq_dec i u) as [->|Nu]; [exists ou; split; [exact Gu|congruence]|]. destruct (Nat.eq_dec i c) as [->|Nc]; [exists oc; split; [exact Gc|congruence]|].
      unfold hget in Ho. rewrite H3 in Ho by exact Nu. change (hget h2 i = Some o) in Ho. destruct (gget g i) as [o1|] eqn:Qi.
      - exists o1. split; [reflexivity|]. destruct M5 as [(A & _)|(A & B & _)]; congruence.
      - destruct M5 as [A B]. rewrite Go in Qi by auto. exfalso. unfold hget in Ho, Qi. rewrite A in Ho. congruence. }
    destruct HG as (o1 & Gi & Gi2). specialize (M5 i). rewrite Gi in M5. destruct M5 as [(A & B & C & D)|(A & _)]; [|congruence].
    assert (EC : count_of h3 i = count_of h2 i). { unfold count_of. destruct (Nat.eq_dec i u) as [->|Nu]; [rewrite H3u, Q; reflexivity|rewrite H3 by exact Nu; reflexivity]. }
    rewrite EC. destruct D as [D|D]; [left; exact D|]. assert (Li : exists x, hget h1 i = Some x).
    { destruct (Nat.eq_dec i u) as [->|Nu]; [eauto|]. destruct (Nat.eq_dec i c) as [->|Nc]; [eauto|]. rewrite <- Go by auto. eauto. }
    destruct Li as [x Li]. destruct (X1 i x Li) as [Y|Y]; [lia|right; exact Y].
Qed.

Lemma cslot_in s i : length (cstk s) = STACK_SIZE -> (i < STACK_SIZE)%nat -> exists v, nth_error (cstk s) i = Some v /\ cslot s i = Ok v /\ In v (cstk s).
Proof. intros L H. exact (slot_ok (encs s) i L H). Qed.
Lemma cpeek_in s k : length (cstk s) = STACK_SIZE -> (csz s <= STACK_SIZE)%nat -> (k < csz s)%nat ->
  exists v, cpeek s k = Ok v /\ nth_error (cstk s) (csz s - 1 - k) = Some v /\ In v (cstk s).
Proof. intros L1 L2 H. exact (peek_ok (encs s) k L1 L2 H). Qed.
Lemma kept_ups s s' p : cpend s' = p -> p = cpend s -> cpend s' = cpend s. Proof. congruence. Qed.

(** Storing into a slot: O_LSTORE and O_USTORE on an open variable, in either order of counting. *)
Lemma store_W h E L k i old v R : W h None E L -> (forall j, cnt j L = cnt j (k ++ R)) -> nth_error k i = Some old -> livev h v ->
  exists h1 h2, inc h v = Ok h1 /\ dec h1 old = Ok h2 /\ W h2 None E (upd k i v ++ R).
Proof.
  intros HW HL Ho Hv. destruct (W_inc h None E v L HW Hv) as (h1 & E1 & W1 & _).
  destruct (W_dec h1 None E old (upd k i v ++ R)) as (h2 & E2 & W2 & _); [|exact I|eauto].
  eapply W_ext; [|exact W1]. intros j. rewrite !cnt_cons, HL, !cnt_app. pose proof (cnt_upd j k i v old Ho). lia.
Qed.

Lemma cstep_good s i : cinv [] s -> cfits s i -> cgood (cstep true s i).
Proof.
  intros HI HF. pose proof HI as (HO & HP1 & HP2). pose proof HO as (HW & HL & HS & HM). cbn [stk sz encs] in HL, HS.
  assert (LV : forall v, In v (cstk s) -> livev (enc (chp s)) v) by (intros v Hv; exact (in_stk_live _ _ _ HO Hv)).
  destruct i as [v|t|k|i|i| | | | |xs|fp n|fp n|fp len nr|fp len nr]; cbn [cstep cfits] in *.
  - (* KPush *) apply cpush_good; [exact HI|]. apply surv_unboxed. exact HF.
  - (* KFresh *) unfold calloc. set (s1 := cwith s (cstk s, chp s ++ [CCell 0 (Some (CData (OStr t)))]) (csz s)).
    assert (K : kept (chp s) (chp s1)) by apply kept_alloc.
    assert (X : with_hp (encs s) (hp (encs s) ++ [Cell 0 (Some (OStr t))]) = encs s1) by (unfold s1; rewrite encs_with, enc_app; reflexivity).
    eapply follows_good; [exact HP1|exact HP2| |eapply follows_from; [exact K|reflexivity|apply cpush_sim]]. rewrite <- X.
    pose proof (step_good (encs s) (IFresh 0 t) HO) as SG. cbn [fits step] in SG. unfold RefSpec.room in SG. specialize (SG ltac:(lia)). rewrite popn_ok in SG by lia. cbn [bind alloc] in SG.
    rewrite Nat.sub_0_r in SG. cbn [hp with_stk encs] in SG. rewrite enc_len in SG. exact SG.
  - (* KPop *) rewrite cpopn_ok by exact HF. cbn [bind]. apply cgood_fine. apply cinv_sp; [exact HI|lia].
  - (* KLoad *) destruct (cslot_in s i HL ltac:(lia)) as (v & E1 & -> & I1). cbn [bind]. apply cpush_good; [exact HI|]. eapply surv_slot; [exact E1|cbn [sz encs]; lia].
  - (* KStore *) pose proof (step_good (encs s) (IStore i) HO HF) as SG. cbn [step] in SG. eapply follows_good; [exact HP1|exact HP2|exact SG|]. clear SG.
    intros t e. rewrite slot_enc. destruct (cslot s i) as [old|x| |]; cbn [bind]; try discriminate. change (hp (encs s)) with (enc (chp s)).
    destruct (dec (enc (chp s)) old) as [h1|x| |] eqn:D; cbn [bind]; try discriminate.
    unfold cmem. destruct (cdec_sim _ _ _ (cstk s) D) as [->|(c1 & -> & <- & K1)]; cbn [bind]; [left; reflexivity|]. rewrite peek_enc.
    destruct (cpeek s 0) as [v|x| |]; cbn [bind]; try discriminate. destruct (inc (enc c1) v) as [h2|x| |] eqn:Q; cbn [bind]; try discriminate.
    destruct (cinc_sim _ _ _ Q) as (c2 & -> & <- & K2). cbn [bind]. destruct (popn (encs s) 1) as [t1|x| |] eqn:QP; cbn [bind]; try discriminate.
    destruct (popn_sim _ _ _ QP) as [-> <-]. cbn [bind]. intros [= <- <-]. right. eexists. split; [reflexivity|]. split; [reflexivity|]. split; [eapply kept_trans; eassumption|reflexivity].
  - (* KNewList *) pose proof (new_list_good (encs s) HO HF) as SG. eapply follows_good; [exact HP1|exact HP2|exact SG|]. clear SG. unfold new_list, cnew_list. cbn [sz stk encs].
    destruct (above_end (rev (firstn (csz s) (cstk s)))) as [items|]; [|intros t e; discriminate]. unfold newlist, alloc, calloc.
    set (s1 := cwith s (cstk s, chp s ++ [CCell 0 (Some (CData (OList [] None)))]) (csz s)).
    assert (X : with_hp (encs s) (hp (encs s) ++ [Cell 0 (Some (OList [] None))]) = encs s1) by (unfold s1; rewrite encs_with, enc_app; reflexivity). rewrite X.
    assert (K1 : kept (chp s) (chp s1)) by apply kept_alloc.
    assert (LE : length (hp (encs s)) = length (chp s)) by apply enc_len. rewrite LE.
    assert (LE1 : (length (hp (encs s1)) - 1)%nat = length (chp s)) by (cbn [hp encs]; rewrite enc_len; unfold s1; cbn [chp cwith snd]; rewrite app_length; cbn [length]; lia). rewrite LE1.
    assert (Gn : cget (chp s1) (length (chp s)) = Some (CData (OList [] None))) by (exact (cget_app_new (chp s) (CCell 0 (Some (CData (OList [] None)))))).
    set (a := length (chp s)) in *. intros t e. unfold setmt. change (hget (hp (encs s1)) a) with (hget (enc (chp s1)) a). rewrite enc_get, Gn. cbn [option_map enc_o mt_of of_mt setmt_obj].
    cbn [mfold]. change (hp (encs s1)) with (enc (chp s1)). destruct (inc (enc (chp s1)) (RP LIST_MT)) as [h1|x| |] eqn:Q1; cbn [bind]; try discriminate.
    destruct (cinc_same _ _ _ Q1) as (c1 & -> & <- & L1 & S1). cbn [bind].
    destruct (set_body (enc c1) a (OList [] (Some LIST_MT))) as [h2|x| |] eqn:Q2; cbn [bind]; try discriminate. change (OList [] (Some LIST_MT)) with (enc_o (CData (OList [] (Some LIST_MT)))) in Q2.
    destruct (cset_sim _ _ _ _ Q2) as (c2 & -> & <- & L2 & S2 & S2'). cbn [bind].
    assert (K2 : kept (chp s) c2). { eapply kept_trans; [exact K1|]. eapply kept_data; [congruence|exact Gn|exact S2|]. intros b Nb. rewrite S2' by exact Nb. apply S1. }
    assert (AP : forall its s0 l m t0, cget (chp s0) a = Some (CData (OList l m)) -> mfold (fun s x => append s a x) its (encs s0) = Ok t0 ->
      exists s', mfold (fun s x => cappend s a x) its s0 = Ok s' /\ encs s' = t0 /\ kept (chp s0) (chp s') /\ cpend s' = cpend s0).
    { clear. induction its as [|v its IH]; intros s0 l m t0 Hg; cbn [mfold].
      - intros [= <-]. exists s0. split; [reflexivity|]. split; [reflexivity|]. split; [apply kept_refl|reflexivity].
      - unfold append at 1, cappend at 1. cbn [hp encs]. rewrite enc_get, Hg. cbn [option_map enc_o].
        destruct (set_body (enc (chp s0)) a (OList (l ++ [v]) m)) as [h1|x| |] eqn:Q1; cbn [bind]; try discriminate. change (OList (l ++ [v]) m) with (enc_o (CData (OList (l ++ [v]) m))) in Q1.
        destruct (cset_sim _ _ _ _ Q1) as (c1 & -> & <- & L1 & S1 & S1'). cbn [bind]. destruct (inc (enc c1) v) as [h2|x| |] eqn:Q2; cbn [bind]; try discriminate.
        destruct (cinc_same _ _ _ Q2) as (c2 & -> & <- & L2 & S2). cbn [bind]. intros M.
        destruct (IH (cwith s0 (cstk s0, c2) (csz s0)) (l ++ [v]) m t0) as (s' & A & B & C & D); [cbn [chp cwith snd]; rewrite S2; exact S1|exact M|].
        exists s'. split; [exact A|]. split; [exact B|]. split; [|exact D]. eapply kept_trans; [|exact C]. cbn [chp cwith snd]. eapply kept_data; [congruence|exact Hg|rewrite S2; exact S1|].
        intros b Nb. rewrite S2. auto. }
    change (with_hp (encs s1) (enc c2)) with (encs (cwith s1 (cstk s1, c2) (csz s1))).
    destruct (mfold (fun s0 x => append s0 a x) items (encs (cwith s1 (cstk s1, c2) (csz s1)))) as [t3|x| |] eqn:Q3; cbn [bind]; try discriminate.
    destruct (AP items (cwith s1 (cstk s1, c2) (csz s1)) [] (Some LIST_MT) t3 S2 Q3) as (s3 & -> & <- & K3 & P3). cbn [bind].
    destruct (popn (encs s3) (length items + 1)) as [t4|x| |] eqn:Q4; cbn [bind]; try discriminate. destruct (popn_sim _ _ _ Q4) as [-> <-]. cbn [bind]. intros Q5.
    assert (K4 : kept (chp s) (chp s3)) by (eapply kept_trans; [exact K2|exact K3]).
    destruct (cpush_sim _ _ _ _ Q5) as [->|(s5 & -> & <- & K5 & P5)]; [left; reflexivity|]. right. exists s5. split; [reflexivity|]. split; [reflexivity|]. split; [eapply kept_trans; [exact K4|exact K5]|].
    rewrite P5. exact P3.
  - (* KListGet *) destruct (cpeek_in s 1 HL HS ltac:(lia)) as (x & -> & E1 & I1). cbn [bind]. destruct (cpeek_in s 0 HL HS ltac:(lia)) as (y & -> & E2 & I2). cbn [bind].
    unfold as_clist. destruct x as [| |z|a]; try (apply cgood_fail; exact HI). destruct (cget (chp s) a) as [[[|l m|]| |]|] eqn:Q; try (apply cgood_fail; exact HI).
    destruct y as [| |z|b]; try (apply cgood_fail; exact HI). destruct (lindex l z) as [j|] eqn:EL; [|apply cgood_fail; exact HI]. apply lindex_lt in EL.
    destruct (nth_error l j) as [v|] eqn:EN; [|apply nth_error_None in EN; lia]. apply cpush_good; [exact HI|].
    eapply surv_kid with (a := a) (o := OList l m); [right; eexists; split; [exact E1|cbn [sz encs]; lia]|cbn [hp encs]; rewrite enc_get, Q; reflexivity|]. apply kids_in_list. eapply nth_error_In; exact EN.
  - (* KListSet *) destruct (cpeek_in s 0 HL HS ltac:(lia)) as (v & -> & E1 & I1). cbn [bind]. rewrite cpopn_ok by lia. cbn [bind].
    set (s1 := cwith s (cmem s) (csz s - 1)). assert (H1 : cinv [] s1) by (apply cinv_sp; [exact HI|lia]). assert (Z1 : csz s1 = (csz s - 1)%nat) by reflexivity.
    destruct (cpeek_in s1 1 HL ltac:(lia) ltac:(lia)) as (x & -> & E2 & I2). cbn [bind]. destruct (cpeek_in s1 0 HL ltac:(lia) ltac:(lia)) as (y & -> & E3 & I3). cbn [bind].
    unfold as_clist. destruct x as [| |z|a]; try (apply cgood_fail; exact H1). destruct (cget (chp s1) a) as [[[|l m|]| |]|] eqn:Q; try (apply cgood_fail; exact H1).
    destruct y as [| |z|b]; try (apply cgood_fail; exact H1). destruct (lindex l z) as [j|] eqn:EL; [|apply cgood_fail; exact H1]. apply lindex_lt in EL.
    destruct (nth_error l j) as [old|] eqn:EN; [|apply nth_error_None in EN; lia]. pose proof H1 as (HO1 & HP11 & HP21).
    destruct (change_good (encs s1) a (OList l m) (OList (upd l j v) m) [v] [old] HO1) as (h1 & h2 & h3 & X1 & X2 & X3 & H3).
    { cbn [hp encs]. rewrite enc_get, Q. reflexivity. } { exact I2. } { constructor; [|constructor]. exact (LV v I1). }
    { intros q. rewrite !kids_list, !cnt_cons, !cnt_nil. pose proof (cnt_upd q l j v old EN). lia. }
    apply mfold1 in X1, X2. cbn [hp encs] in X1. destruct (cinc_same _ _ _ X1) as (c1 & -> & <- & L1 & S1). cbn [bind].
    destruct (cdec_sim _ _ _ (cstk s1) X2) as [->|(c2 & -> & <- & K2)]; [left; reflexivity|]. cbn [bind]. change (OList (upd l j v) m) with (enc_o (CData (OList (upd l j v) m))) in X3.
    destruct (cset_sim _ _ _ _ X3) as (c3 & -> & <- & L3 & S3 & S3'). cbn [bind]. apply cgood_fine.
    assert (Q2 : cget c2 a = Some (CData (OList l m)) \/ exists o, cget c2 a = Some (CData o)).
    { destruct K2 as [_ K2]. destruct (K2 a) as [E|[[E N]|(o' & E & N)]]; [left; congruence| |right; eauto]. exfalso.
      unfold set_body in X3. rewrite enc_nth in X3. unfold cget in E. destruct (nth_error c2 a) as [[r [b|]]|]; cbn in *; try discriminate. }
    assert (exists o, cget c2 a = Some (CData o)) as [o Qo] by (destruct Q2 as [Q2|[o Q2]]; eauto).
    eapply cinv_kept with (s := s1); [|reflexivity|exact HP11|exact HP21|exact H3]. cbn [chp cwith snd].
    eapply kept_trans; [apply kept_same; [|exact S1]; lia|]. eapply kept_trans; [exact K2|]. eapply kept_data; eauto.
  - (* KListPush *) destruct (cpeek_in s 1 HL HS ltac:(lia)) as (x & -> & E1 & I1). cbn [bind]. unfold as_clist. destruct x as [| |z|a]; try (apply cgood_fail; exact HI).
    destruct (cget (chp s) a) as [[[|l m|]| |]|] eqn:Q; try (apply cgood_fail; exact HI). destruct (cpeek_in s 0 HL HS ltac:(lia)) as (v & -> & E2 & I2). cbn [bind]. rewrite cpopn_ok by lia. cbn [bind].
    destruct (append_ok (encs s) [] (places (encs s)) a l m v HW) as (h' & A & W1 & _).
    { cbn [hp encs]. rewrite enc_get, Q. reflexivity. } { exact (LV v I2). } { left. eapply stk_safe; [exact HO|exact I1]. } { intros C. pose proof (stk_safe _ _ _ HO I1). lia. }
    unfold append in A. cbn [hp encs] in A. rewrite enc_get, Q in A. cbn [option_map enc_o] in A. unfold cappend. cbn [chp cwith cmem snd]. rewrite Q.
    destruct (set_body (enc (chp s)) a (OList (l ++ [v]) m)) as [h1|e| |] eqn:Q1; cbn [bind] in A; try discriminate. change (OList (l ++ [v]) m) with (enc_o (CData (OList (l ++ [v]) m))) in Q1.
    destruct (cset_sim _ _ _ _ Q1) as (c1 & -> & <- & L1 & S1 & S1'). cbn [bind]. destruct (inc (enc c1) v) as [h2|e| |] eqn:Q2; cbn [bind] in A; try discriminate.
    destruct (cinc_same _ _ _ Q2) as (c2 & -> & <- & L2 & S2). cbn [bind]. injection A as <-. apply cgood_fine.
    eapply cinv_kept with (s := s); [|reflexivity|exact HP1|exact HP2|].
    + cbn [chp cwith snd]. eapply kept_data; [congruence|exact Q|rewrite S2; exact S1|]. intros b Nb. rewrite S2. auto.
    + split; [exact W1|]. split; [exact HL|]. split; [cbn [sz encs cwith csz]; lia|exact HM].
  - (* KClosure *) apply cconst_good; assumption.
  - (* KUload *) destruct HF as [(a & us & L1 & E1 & Q1 & L2) HR]. unfold upvalue_of. unfold cslot at 1. rewrite E1. cbn [bind]. rewrite Q1. destruct (nth_error us n) as [u|] eqn:Qu; [|apply nth_error_None in Qu; lia]. cbn [bind].
    destruct (HP2 a us u Q1 (nth_error_In _ _ Qu)) as [[i|v] Hl]; rewrite Hl.
    + pose proof (HR a us u i E1 Q1 Qu Hl) as Hi. destruct (cslot_in s i HL ltac:(lia)) as (v & E2 & -> & I2). cbn [bind]. apply cpush_good; [exact HI|]. eapply surv_slot; [exact E2|cbn [sz encs]; lia].
    + apply cpush_good; [exact HI|]. intros E h1 W1 S1.
      assert (Ia : In (RP a) (upd (stk (encs s)) (sz (encs s)) RU ++ rest (encs s))) by (apply in_or_app; left; eapply in_upd; [exact E1|cbn [sz encs]; lia]).
      assert (Ha : hget h1 a = Some (OList (map RP us) None)) by (eapply shrink_live; [exact W1|exact S1|exact Ia|]; cbn [hp encs]; rewrite enc_get, Q1; reflexivity).
      assert (Lu : livev h1 (RP u)) by (eapply W_kid; [exact W1|exact Ha|]; cbn [kids of_mt app]; apply in_map; eapply nth_error_In; exact Qu).
      destruct Lu as [o Ho]. destruct S1 as [_ S1]. destruct (S1 u) as [[X|[X _]] _]; [|congruence]. cbn [hp encs] in X. rewrite enc_get, Hl in X. cbn [option_map enc_o] in X.
      eapply W_kid; [exact W1|exact X|]. cbn [kids of_mt app]. left. reflexivity.
  - (* KUstore *) destruct HF as [(a & us & L1 & E1 & Q1 & L2) L3]. destruct (cpeek_in s 0 HL HS ltac:(lia)) as (v & -> & Ev & Iv). cbn [bind].
    unfold upvalue_of. unfold cslot at 1. rewrite E1. cbn [bind]. rewrite Q1. destruct (nth_error us n) as [u|] eqn:Qu; [|apply nth_error_None in Qu; lia]. cbn [bind].
    pose proof (nth_error_In _ _ Qu) as Iu. destruct (HP2 a us u Q1 Iu) as [[i|old] Hl]; rewrite Hl.
    + pose proof (proj2 HP1 u i Hl) as Hi. destruct (cslot_in s i HL Hi) as (old & Eo & -> & Io).
      destruct (store_W (enc (chp s)) [] (places (encs s)) (cstk s) i old v (rest (encs s)) HW) as (h1 & h2 & X1 & X2 & W2); [intros j; rewrite places_stk; reflexivity|exact Eo|exact (LV v Iv)|].
      destruct (cinc_same _ _ _ X1) as (c1 & -> & <- & M1 & S1). cbn [bind]. rewrite cpopn_ok by lia. cbn [bind].
      destruct (cdec_sim _ _ _ (cstk s) X2) as [->|(c2 & -> & <- & K2)]; [left; reflexivity|]. cbn [bind]. apply cgood_fine.
      eapply cinv_kept with (s := s); [|reflexivity|exact HP1|exact HP2|].
      * cbn [chp cwith snd]. eapply kept_trans; [apply kept_same; [|exact S1]; lia|exact K2].
      * split; [exact W2|]. split; [cbn [stk encs cwith cstk fst]; rewrite upd_len; exact HL|]. split; [cbn [sz encs cwith csz]; lia|exact HM].
    + assert (In (RP u) (map RP us)) as Im by (apply in_map; exact Iu). apply in_split in Im. destruct Im as (us1 & us2 & Em).
      destruct (change_inner (enc (chp s)) [] (places (encs s)) a u us1 us2 old v HW) as (h1 & h2 & h3 & X1 & X2 & X3 & W3).
      { intros ->. congruence. } { rewrite enc_get, Q1, <- Em. reflexivity. } { rewrite enc_get, Hl. reflexivity. } { apply in_places. eapply nth_error_In; exact E1. } { exact (LV v Iv). }
      destruct (cinc_same _ _ _ X1) as (c1 & -> & <- & M1 & S1). cbn [bind]. rewrite cpopn_ok by lia. cbn [bind].
      destruct (cdec_sim _ _ _ (cstk s) X2) as [->|(c2 & -> & <- & K2)]; [left; reflexivity|]. cbn [bind]. change (OList [v] None) with (enc_o (CUp (LClosed v))) in X3.
      destruct (cset_sim _ _ _ _ X3) as (c3 & -> & <- & M3 & S3 & S3'). cbn [bind]. apply cgood_fine.
      assert (K3 : kept (chp s) c2) by (eapply kept_trans; [apply kept_same; [|exact S1]; lia|exact K2]).
      assert (Hu2 : cget c2 u = Some (CUp (LClosed old))).
      { destruct K3 as [_ K3]. destruct (K3 u) as [E|[[E N]|(o' & E & N)]]; [congruence| |].
        - exfalso. unfold set_body in X3. rewrite enc_nth in X3. unfold cget in E. destruct (nth_error c2 u) as [[r [b|]]|]; cbn in *; try discriminate.
        - destruct N as [N|[o N]]; [apply cget_len in Hl; lia|congruence]. }
      split; [split; [exact W3|split; [exact HL|split; [cbn [sz encs cwith csz]; lia|exact HM]]]|].
      assert (P1c : P1 (CSt c2 (cstk s) (csz s) (cpend s))) by (eapply (P1_kept s); [exact K3|reflexivity|exact HP1]).
      split.
      * destruct P1c as ((ND & HP) & HB). cbn [chp cpend] in HP, HB, ND. split; [split|]; cbn [chp cpend cwith snd].
        -- exact ND.
        -- intros y. rewrite HP. destruct (Nat.eq_dec y u) as [->|Ny]; [rewrite S3, Hu2; split; intros [j X]; discriminate|rewrite S3' by exact Ny; reflexivity].
        -- intros y j Hy. destruct (Nat.eq_dec y u) as [->|Ny]; [congruence|]. rewrite S3' in Hy by exact Ny. eapply HB; exact Hy.
      * cbn [chp cwith snd]. intros b vs y Hb Hy. destruct (Nat.eq_dec b u) as [->|Nb]; [congruence|].
        assert (Gy : livev (enc c3) (RP y)). { eapply W_kid with (a := b) (o := OList (map RP vs) None); [exact W3|rewrite enc_get, Hb; reflexivity|]. cbn [kids of_mt app]. apply in_map. exact Hy. }
        apply live_enc in Gy. destruct Gy as [oy Gy]. rewrite S3' in Hb by exact Nb.
        destruct (Nat.eq_dec y u) as [->|Ny]; [eauto|]. rewrite S3' in Gy |- * by exact Ny.
        destruct K3 as [_ K3]. destruct (K3 b) as [Eb|[[Eb N]|(o' & Eb & N)]]; try congruence. rewrite Hb in Eb. symmetry in Eb. destruct (HP2 b vs y Eb Hy) as [l' Hl'].
        destruct (K3 y) as [Ey|[[Ey N]|(o' & Ey & [N|[o N]])]]; [exists l'; congruence|congruence|apply cget_len in Hl'; lia|congruence].
  - (* KRet *) eapply follows_good; [exact HP1|exact HP2| |apply cexit_sim; assumption]. apply exitframe_good; [exact HO|exact HF].
  - (* KCret *) destruct (cclose_ok [] s fp HI) as (s1 & -> & (A1 & A2 & A3) & Ek & Ez & _). cbn [bind].
    eapply follows_good; [exact A2|exact A3| |apply cexit_sim; [rewrite Ek; exact HL|rewrite Ez; exact HS]]. apply exitframe_good; [exact A1|]. cbn [sz encs]. rewrite Ez. exact HF.
Qed.
