(** * RefClosureProofs: the machine with closures does what the machine of Refs.v does on encoded objects, until the watchpoint. *)
From Verif Require Import Base Refs RefSpec RefProofs RefProofs2 RefProofs3 RefProofs4 RefProofs5 RefProofs6 RefClosure RefClosureSpec.

(** A closure counts like a list of its upvalues, an open upvalue like an empty list, a closed one like a list of its value. *)
Definition enc_o (o : cobj) : obj :=
  match o with CData o => o | CClo us => OList (map RP us) None | CUp (LOpen _) => OList [] None | CUp (LClosed v) => OList [v] None end.
Definition enc_c (c : ccell) : cell := Cell (crefs c) (option_map enc_o (cbody c)).
Definition enc (h : cheap) : heap := map enc_c h.
Definition encs (s : cst) : st := St (enc (chp s)) (cstk s) (csz s) [] [] [] [RP LIST_MT; RP TABLE_MT].

Lemma enc_len h : length (enc h) = length h. Proof. apply map_length. Qed.
Lemma enc_nth h a : nth_error (enc h) a = option_map enc_c (nth_error h a).
Proof. revert a. induction h as [|c r IH]; intros [|a]; cbn; auto. Qed.
Lemma enc_upd h a c : enc (upd h a c) = upd (enc h) a (enc_c c). Proof. apply upd_map. Qed.
Lemma enc_app h c : enc (h ++ [c]) = enc h ++ [enc_c c]. Proof. unfold enc. rewrite map_app. reflexivity. Qed.
Lemma enc_get h a : hget (enc h) a = option_map enc_o (cget h a).
Proof. unfold hget, cget. rewrite enc_nth. destruct (nth_error h a); reflexivity. Qed.
Lemma kids_enc o : kids (enc_o o) = ckids o.
Proof. destruct o as [o|us|[i|v]]; reflexivity. Qed.
Lemma holds_kids o : holds o = ckids o. Proof. destruct o as [[| |]|us|[i|v]]; reflexivity. Qed.

(** What may happen to the objects: unchanged; freed, unless it is an open upvalue; new contents of a string, list or table; a new one of these. *)
Definition kept (h h' : cheap) : Prop :=
  (length h <= length h')%nat /\
  forall a, cget h' a = cget h a \/ (cget h' a = None /\ forall i, cget h a <> Some (CUp (LOpen i))) \/
            exists o', cget h' a = Some (CData o') /\ ((length h <= a)%nat \/ exists o, cget h a = Some (CData o)).
Lemma cget_out h a : (length h <= a)%nat -> cget h a = None.
Proof. intros H. unfold cget. rewrite (proj2 (nth_error_None h a)) by exact H. reflexivity. Qed.
Lemma kept_refl h : kept h h. Proof. split; auto. Qed.
Lemma kept_trans h h1 h2 : kept h h1 -> kept h1 h2 -> kept h h2.
Proof.
  intros [L1 A] [L2 B]. split; [lia|]. intros a. destruct (B a) as [E|[[E N]|(o' & E & N)]].
  - rewrite E. apply A.
  - right. left. split; [exact E|]. destruct (A a) as [F|[[F M]|(o1 & F & M)]]; [rewrite <- F; exact N|exact M|].
    intros i C. destruct M as [M|[o M]]; [rewrite cget_out in C by exact M|]; congruence.
  - right. right. exists o'. split; [exact E|]. destruct N as [N|[o N]]; [left; lia|]. destruct (A a) as [F|[[F M]|(o1 & F & M)]]; [right; exists o; congruence|congruence|exact M].
Qed.
Lemma kept_same h h' : (length h <= length h')%nat -> (forall b, cget h' b = cget h b) -> kept h h'. Proof. intros L H. split; [exact L|]. intros a. left. apply H. Qed.
Lemma same_count h a r r' o : nth_error h a = Some (CCell r o) -> forall b, cget (upd h a (CCell r' o)) b = cget h b.
Proof.
  intros H b. unfold cget. destruct (Nat.eq_dec a b) as [->|N].
  - rewrite upd_same by (eapply nth_some; exact H). rewrite H. reflexivity.
  - rewrite upd_other by exact N. reflexivity.
Qed.
Lemma kept_count h a r r' o : nth_error h a = Some (CCell r o) -> kept h (upd h a (CCell r' o)).
Proof. intros H. apply kept_same; [rewrite upd_len; lia|]. eapply same_count; exact H. Qed.

Lemma cinc_same h v h' : inc (enc h) v = Ok h' -> exists h'', cinc h v = Ok h'' /\ enc h'' = h' /\ length h'' = length h /\ forall b, cget h'' b = cget h b.
Proof.
  destruct v as [| |z|a]; cbn [inc cinc]; try (intros [= <-]; exists h; split; [reflexivity|]; split; [reflexivity|split; reflexivity]).
  rewrite enc_nth. destruct (nth_error h a) as [[r [o|]]|] eqn:Q; cbn; try discriminate. intros [= <-].
  eexists. split; [reflexivity|]. split; [rewrite enc_upd; reflexivity|]. split; [apply upd_len|]. eapply same_count; exact Q.
Qed.
Lemma cinc_sim h v h' : inc (enc h) v = Ok h' -> exists h'', cinc h v = Ok h'' /\ enc h'' = h' /\ kept h h''.
Proof. intros H. destruct (cinc_same _ _ _ H) as (h2 & A & B & C & D). exists h2. split; [exact A|]. split; [exact B|]. apply kept_same; [lia|exact D]. Qed.
Lemma cset_sim h a o h' : set_body (enc h) a (enc_o o) = Ok h' -> exists h'', cset_body h a o = Ok h'' /\ enc h'' = h' /\ length h'' = length h /\
  cget h'' a = Some o /\ (forall b, b <> a -> cget h'' b = cget h b).
Proof.
  unfold set_body, cset_body. rewrite enc_nth. destruct (nth_error h a) as [[r [x|]]|] eqn:Q; cbn; try discriminate. intros [= <-].
  eexists. split; [reflexivity|]. split; [rewrite enc_upd; reflexivity|]. split; [apply upd_len|]. unfold cget. split.
  - rewrite upd_same by (eapply nth_some; exact Q). reflexivity.
  - intros b N. rewrite upd_other by auto. reflexivity.
Qed.

Lemma kept_data h a o0 o h' : length h' = length h -> cget h a = Some (CData o0) -> cget h' a = Some (CData o) -> (forall b, b <> a -> cget h' b = cget h b) -> kept h h'.
Proof. intros L A B C. split; [lia|]. intros b. destruct (Nat.eq_dec b a) as [->|N]; [right; right; eauto|left; auto]. Qed.
Lemma cget_app_old h c a : (a < length h)%nat -> cget (h ++ [c]) a = cget h a. Proof. intros H. unfold cget. rewrite nth_error_app1 by exact H. reflexivity. Qed.
Lemma cget_app_new h c : cget (h ++ [c]) (length h) = cbody c. Proof. unfold cget. rewrite nth_error_app2, Nat.sub_diag by lia. reflexivity. Qed.
Lemma cget_len h a o : cget h a = Some o -> (a < length h)%nat.
Proof. unfold cget. destruct (nth_error h a) eqn:Q; [|discriminate]. intros _. eapply nth_some; exact Q. Qed.
Lemma kept_alloc h o : kept h (h ++ [CCell 0 (Some (CData o))]).
Proof.
  split; [rewrite app_length; cbn [length]; lia|]. intros a. destruct (Nat.lt_trichotomy a (length h)) as [L|[->|L]].
  - left. apply cget_app_old. exact L.
  - right. right. exists o. rewrite cget_app_new. split; [reflexivity|left; lia].
  - left. rewrite !cget_out; [reflexivity|lia|rewrite app_length; cbn [length]; lia].
Qed.

Lemma cdecf_sim : forall f h v h' k, decf f (enc h) v = Ok h' ->
  cdecf true f (k, h) v = Err EAssert \/ exists h'', cdecf true f (k, h) v = Ok (k, h'') /\ enc h'' = h' /\ kept h h''.
Proof.
  induction f as [|f IH]; intros h v h' k.
  - destruct v as [| |z|a]; cbn [decf cdecf]; try (intros [= <-]; right; exists h; split; [reflexivity|]; split; [reflexivity|apply kept_refl]).
    rewrite enc_nth. destruct (nth_error h a) as [[r [o|]]|] eqn:Q; cbn [option_map enc_c crefs cbody]; try discriminate.
    destruct ((if r =? 0 then two64 - 1 else r - 1) =? 0); [discriminate|]. intros [= <-]. right. eexists. split; [reflexivity|]. split; [rewrite enc_upd; reflexivity|].
    eapply kept_count; exact Q.
  - assert (Fold : forall vs h h' , mfold (decf f) vs (enc h) = Ok h' ->
       mfold (cdecf true f) vs (k, h) = Err EAssert \/ exists h'', mfold (cdecf true f) vs (k, h) = Ok (k, h'') /\ enc h'' = h' /\ kept h h'').
    { clear h v h'. induction vs as [|x vs IHv]; intros h h'; cbn [mfold].
      - intros [= <-]. right. exists h. split; [reflexivity|]. split; [reflexivity|apply kept_refl].
      - destruct (decf f (enc h) x) as [h1|e| |] eqn:D; cbn [bind]; try discriminate. intros M.
        destruct (IH _ _ _ k D) as [->|(h2 & -> & E2 & K2)]; cbn [bind]; [left; reflexivity|]. subst h1.
        destruct (IHv _ _ M) as [->|(h3 & -> & E3 & K3)]; [left; reflexivity|]. right. exists h3. split; [reflexivity|]. split; [exact E3|]. eapply kept_trans; eassumption. }
    destruct v as [| |z|a]; cbn [decf cdecf]; try (intros [= <-]; right; exists h; split; [reflexivity|]; split; [reflexivity|apply kept_refl]).
    rewrite enc_nth. destruct (nth_error h a) as [[r [o|]]|] eqn:Q; cbn [option_map enc_c crefs cbody]; try discriminate.
    set (r' := if r =? 0 then two64 - 1 else r - 1). destruct (r' =? 0) eqn:Z0.
    2:{ intros [= <-]. right. eexists. split; [reflexivity|]. split; [rewrite enc_upd; reflexivity|]. eapply kept_count; exact Q. }
    change (Cell r' (Some (enc_o o))) with (enc_c (CCell r' (Some o))). rewrite <- enc_upd, kids_enc.
    assert (O1 : forall x, cget h a = Some x -> x = o) by (intros x; unfold cget; rewrite Q; cbn; congruence).
    set (h1 := upd h a (CCell r' (Some o))). assert (K1 : kept h h1) by (eapply kept_count; exact Q).
    destruct (mfold (decf f) (ckids o) (enc h1)) as [h2|e| |] eqn:M; cbn [bind]; try discriminate. intros D.
    assert (G : (exists i, o = CUp (LOpen i)) \/ forall i, o <> CUp (LOpen i)) by (destruct o as [|?|[i|]]; [right; discriminate|right; discriminate|left; eauto|right; discriminate]).
    destruct G as [[i ->]|G]; [left; reflexivity|].
    destruct (Fold _ _ _ M) as [F|(h3 & F & E3 & K3)].
    { left. destruct o as [|?|[i|]]; try (rewrite F; reflexivity). destruct (G i eq_refl). }
    subst h2. rewrite enc_nth in D. destruct (nth_error h3 a) as [[r3 [o3|]]|] eqn:Q3; cbn in D; try discriminate. injection D as <-.
    right. exists (upd h3 a (CCell r3 None)). split.
    { unfold set_cell. destruct o as [|?|[i|]]; try (rewrite F; cbn [bind]; rewrite Q3; reflexivity). destruct (G i eq_refl). }
    split; [rewrite enc_upd; reflexivity|]. destruct (kept_trans _ _ _ K1 K3) as [KL KA]. split; [rewrite upd_len; exact KL|]. intros b. destruct (Nat.eq_dec a b) as [<-|N].
    + right. left. unfold cget at 1. rewrite upd_same by (eapply nth_some; exact Q3). split; [reflexivity|]. intros i C. apply O1 in C. symmetry in C. destruct (G i C).
    + assert (X : cget (upd h3 a (CCell r3 None)) b = cget h3 b) by (unfold cget; rewrite upd_other by exact N; reflexivity). rewrite X. exact (KA b).
Qed.
Lemma cdec_sim h v h' k : dec (enc h) v = Ok h' ->
  cdec true (k, h) v = Err EAssert \/ exists h'', cdec true (k, h) v = Ok (k, h'') /\ enc h'' = h' /\ kept h h''.
Proof. unfold dec, cdec. rewrite enc_len. apply cdecf_sim. Qed.
Lemma cincs_sim : forall vs h h', mfold inc vs (enc h) = Ok h' -> exists h'', mfold cinc vs h = Ok h'' /\ enc h'' = h' /\ kept h h''.
Proof.
  induction vs as [|x vs IHv]; intros h h'; cbn [mfold].
  - intros [= <-]. exists h. split; [reflexivity|]. split; [reflexivity|apply kept_refl].
  - destruct (inc (enc h) x) as [h1|e| |] eqn:D; cbn [bind]; try discriminate. intros M.
    destruct (cinc_sim _ _ _ D) as (h2 & -> & E2 & K2). cbn [bind]. subst h1.
    destruct (IHv _ _ M) as (h3 & -> & E3 & K3). exists h3. split; [reflexivity|]. split; [exact E3|]. eapply kept_trans; eassumption.
Qed.
Lemma seg_cons {A} (k : list A) a n x : nth_error k a = Some x -> seg k a (S n) = x :: seg k (S a) n.
Proof.
  unfold seg. revert a. induction k as [|y r IH]; intros [|a]; cbn [nth_error]; try discriminate.
  - intros [= ->]. reflexivity.
  - intros H. cbn [skipn]. rewrite (IH a H). reflexivity.
Qed.
Lemma cslots_sim k : forall n a h h', (a + n <= length k)%nat -> mfold dec (seg k a n) (enc h) = Ok h' ->
  mfold (dec_slot true) (seq a n) (k, h) = Err EAssert \/ exists h'', mfold (dec_slot true) (seq a n) (k, h) = Ok (k, h'') /\ enc h'' = h' /\ kept h h''.
Proof.
  induction n as [|n IH]; intros a h h' HL.
  - unfold seg. cbn [seq mfold firstn]. intros [= <-]. right. exists h. split; [reflexivity|]. split; [reflexivity|apply kept_refl].
  - destruct (nth_error k a) as [x|] eqn:Q; [|apply nth_error_None in Q; lia]. rewrite (seg_cons _ _ _ _ Q). cbn [seq mfold].
    destruct (dec (enc h) x) as [h1|e| |] eqn:D; cbn [bind]; try discriminate. intros M.
    unfold dec_slot at 1 3. cbn [fst]. rewrite Q. destruct (cdec_sim _ _ _ k D) as [->|(h2 & -> & E2 & K2)]; cbn [bind]; [left; reflexivity|]. subst h1.
    destruct (IH (S a) h2 h' ltac:(lia) M) as [->|(h3 & -> & E3 & K3)]; [left; reflexivity|]. right. exists h3. split; [reflexivity|]. split; [exact E3|]. eapply kept_trans; eassumption.
Qed.

(** Operations on states. *)
Definition follows (s : cst) (rc : cres) (r : res) : Prop :=
  forall t e, r = Ok (t, e) -> rc = Err EAssert \/ exists s', rc = Ok (s', e) /\ encs s' = t /\ kept (chp s) (chp s') /\ cpend s' = cpend s.
Lemma follows_here s s' e : kept (chp s) (chp s') -> cpend s' = cpend s -> follows s (Ok (s', e)) (Ok (encs s', e)).
Proof. intros K P t e' [= <- <-]. right. exists s'. auto. Qed.
Lemma encs_with s k h n : encs (cwith s (k, h) n) = with_stk (with_hp (encs s) (enc h)) k n. Proof. reflexivity. Qed.
Lemma slot_enc s i : slot (encs s) i = cslot s i. Proof. reflexivity. Qed.
Lemma peek_enc s i : peek (encs s) i = cpeek s i. Proof. reflexivity. Qed.
Lemma popn_sim s n t : popn (encs s) n = Ok t -> cpopn s n = Ok (cwith s (cmem s) (csz s - n)) /\ encs (cwith s (cmem s) (csz s - n)) = t.
Proof. unfold popn, cpopn. cbn [sz encs]. destruct (n <=? csz s)%nat; [|discriminate]. intros [= <-]. split; reflexivity. Qed.
Lemma follows_from s s0 rc r : kept (chp s) (chp s0) -> cpend s0 = cpend s -> follows s0 rc r -> follows s rc r.
Proof.
  intros K P F t e E. destruct (F t e E) as [C|(s' & A & B & D & G)]; [left; exact C|]. right. exists s'. split; [exact A|]. split; [exact B|]. split; [|congruence].
  eapply kept_trans; eassumption.
Qed.
Lemma follows_then s rc r f g : follows s rc r -> (forall s', kept (chp s) (chp s') -> cpend s' = cpend s -> length (cstk s') = length (stk (encs s')) -> follows s' (f s') (g (encs s'))) -> follows s (cthen rc f) (andthen r g).
Proof.
  intros F H t e. unfold cthen, andthen. destruct r as [[t1 e1]|x| |] eqn:Q; cbn [bind]; try discriminate.
  destruct (F t1 e1 eq_refl) as [->|(s1 & -> & <- & K & P)]; cbn [bind]; [left; reflexivity|]. destruct e1 as [e1|].
  - intros [= <- <-]. right. exists s1. auto.
  - intros E. exact (follows_from _ _ _ _ K P (H s1 K P eq_refl) t e E).
Qed.

Lemma cpush_sim s v : follows s (cpush true s v) (push (encs s) v).
Proof.
  intros t e. unfold push, cpush. cbn [sz encs]. destruct (STACK_SIZE <=? csz s)%nat.
  - intros [= <- <-]. right. exists s. split; [reflexivity|]. split; [reflexivity|]. split; [apply kept_refl|reflexivity].
  - change (slot (encs s)) with (cslot s). destruct (cslot s (csz s)) as [old|x| |]; cbn [bind]; try discriminate.
    change (hp (encs s)) with (enc (chp s)). destruct (dec (enc (chp s)) old) as [h1|x| |] eqn:D; cbn [bind]; try discriminate.
    unfold cmem. destruct (cdec_sim _ _ _ (cstk s) D) as [->|(h2 & -> & E2 & K2)]; cbn [bind]; [left; reflexivity|]. subst h1.
    destruct (inc (enc h2) v) as [h1|x| |] eqn:I; cbn [bind]; try discriminate. intros [= <- <-].
    destruct (cinc_sim _ _ _ I) as (h3 & -> & E3 & K3). cbn [bind]. right. eexists. split; [reflexivity|]. subst h1. split; [reflexivity|]. split; [eapply kept_trans; eassumption|reflexivity].
Qed.
Lemma crm_range_sim s a b : length (cstk s) = STACK_SIZE -> (csz s <= STACK_SIZE)%nat -> follows s (crm_range true s a b) (rm_range (encs s) a b).
Proof.
  intros HL HS t e. unfold rm_range, crm_range. cbn [sz stk encs]. destruct ((csz s <? b) || (b <? a))%nat eqn:C; [discriminate|].
  set (n := Nat.min (csz s - b) (b - a)). change (hp (encs s)) with (enc (chp s)).
  destruct (mfold dec (seg (cstk s) a n) (enc (chp s))) as [h1|x| |] eqn:D; cbn [bind]; try discriminate.
  unfold cmem. destruct (cslots_sim (cstk s) n a (chp s) h1 ltac:(unfold n; lia) D) as [->|(h2 & -> & E2 & K2)]; cbn [bind]; [left; reflexivity|]. subst h1.
  destruct (mfold inc (rev (seg (cstk s) (csz s - n) n)) (enc h2)) as [h1|x| |] eqn:I; cbn [bind]; try discriminate.
  destruct (cincs_sim _ _ _ I) as (h3 & -> & E3 & K3). cbn [bind]. subst h1.
  destruct (memmove (cstk s) a b (csz s - b)) as [l1|x| |]; cbn [bind]; try discriminate. intros [= <- <-].
  right. eexists. split; [reflexivity|]. split; [reflexivity|]. split; [eapply kept_trans; eassumption|reflexivity].
Qed.
Lemma cnth_sim f g : (forall s, follows s (f s) (g (encs s))) -> forall n s, follows s (cnth n f s) (nth_res n g (encs s)).
Proof.
  intros H. induction n as [|n IH]; intros s; cbn [cnth nth_res].
  - apply follows_here; [apply kept_refl|reflexivity].
  - eapply follows_then; [apply H|]. intros s' _ _ _. apply IH.
Qed.
Lemma andthen_fine r : andthen r fine = r. Proof. destruct r as [[s [e|]]|e| |]; reflexivity. Qed.
Lemma cexit_sim s fp len nr : length (cstk s) = STACK_SIZE -> (csz s <= STACK_SIZE)%nat -> follows s (cexit true s fp len nr) (exitframe (encs s) fp len nr 0).
Proof.
  intros HL HS. unfold cexit, exitframe. eapply follows_then; [apply crm_range_sim; assumption|]. intros s1 _ _ _.
  assert (G : forall r, (forall s2, r = Ok (s2, None) -> loops s2 = []) -> andthen r (fun s2 => nth_res (length (loops s2) - 0) endfor s2) = r).
  { intros r H. destruct r as [[s2 [e|]]|e| |]; try reflexivity. unfold andthen. cbn [bind]. rewrite (H s2 eq_refl). reflexivity. }
  assert (L : forall n s s2, loops s = [] -> nth_res n (fun s => push s RU) s = Ok (s2, None) -> loops s2 = []).
  { induction n as [|n IH]; intros x s2 Hx; cbn [nth_res]; [intros [= <-]; exact Hx|]. unfold andthen. destruct (push x RU) as [[y [e|]]|e| |] eqn:Q; cbn [bind]; try discriminate.
    apply IH. revert Q. unfold push. destruct (STACK_SIZE <=? sz x)%nat; [discriminate|]. destruct (slot x (sz x)) as [o|?| |]; cbn [bind]; try discriminate.
    destruct (dec (hp x) o) as [h1|?| |]; cbn [bind]; try discriminate. cbn [inc bind]. intros [= <-]. exact Hx. }
  rewrite G.
  - destruct nr as [k|]; [|apply follows_here; [apply kept_refl|reflexivity]]. cbn [sz encs].
    destruct (csz s1 <? fp + k)%nat; [apply cnth_sim; intros s0; apply cpush_sim|].
    intros t e. destruct (popn (encs s1) (csz s1 - (fp + k))) as [t1|x| |] eqn:Q; cbn [bind]; try discriminate. intros [= <- <-].
    destruct (popn_sim _ _ _ Q) as [-> <-]. cbn [bind]. right. eexists. split; [reflexivity|]. split; [reflexivity|]. split; [apply kept_refl|reflexivity].
  - intros s2. destruct nr as [k|]; [|intros [= <-]; reflexivity]. destruct (sz (encs s1) <? fp + k)%nat; [apply L; reflexivity|].
    unfold popn. destruct (sz (encs s1) - (fp + k) <=? sz (encs s1))%nat; cbn [bind]; [|discriminate]. intros [= <-]. reflexivity.
Qed.
