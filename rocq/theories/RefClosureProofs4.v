(** * RefClosureProofs4: whole runs, the machine without the watchpoint, vm_cleanup, a checker for [cfits_all]. *)
From Verif Require Import Base Refs RefSpec RefProofs RefProofs2 RefProofs3 RefProofs4 RefProofs5 RefProofs6 RefProofs7 RefCheck RefClosure RefClosureSpec RefClosureProofs RefClosureProofs2 RefClosureProofs3.

Lemma crun_good : forall p s, cinv [] s -> cfits_all s p -> cgood (crun true s p).
Proof.
  induction p as [|i r IH]; intros s H HF; cbn [crun]; [apply cgood_fine; exact H|]. destruct HF as [HF1 HF2].
  destruct (cstep_good s i H HF1) as [E|(s1 & e & E & H1 & H2)]; rewrite E; unfold cthen; cbn [bind]; [left; reflexivity|]. destruct e as [e|].
  - right. exists s1, (Some e). split; [reflexivity|]. split; [discriminate|exact H2].
  - apply IH; [auto|]. apply HF2. exact E.
Qed.
Lemma cinit_ok : cinv [] cinit.
Proof.
  split; [exact (init_ok [])|]. split; [split; [split; [constructor|]|]|].
  - intros u. cbn [cpend cinit]. split; [intros []|]. intros [i H]. destruct u as [|[|u]]; cbn in H; try discriminate. destruct u; discriminate.
  - intros u i H. destruct u as [|[|u]]; cbn in H; try discriminate. destruct u; discriminate.
  - intros a us u H. destruct a as [|[|a]]; cbn in H; try discriminate. destruct a; discriminate.
Qed.

(** ** The watchpoint changes nothing until it is reached. *)
Definition ag {A} (t f : outcome A) : Prop := t = Err EAssert \/ f = t.
Lemma ag_refl {A} (x : outcome A) : ag x x. Proof. right. reflexivity. Qed.
Lemma ag_bind {A B} (t f : outcome A) (g1 g2 : A -> outcome B) : ag t f -> (forall a, ag (g1 a) (g2 a)) -> ag (bind t g1) (bind f g2).
Proof. intros [-> | ->] H; [left; reflexivity|]. destruct t as [a|e| |]; cbn [bind]; [apply H|right; reflexivity|right; reflexivity|right; reflexivity]. Qed.
Lemma ag_then t f g1 g2 : ag t f -> (forall a, ag (g1 a) (g2 a)) -> ag (cthen t g1) (cthen f g2).
Proof. intros H1 H2. unfold cthen. apply ag_bind; [exact H1|]. intros [s [e|]]; [apply ag_refl|apply H2]. Qed.
Lemma ag_mfold {A B} (f1 f2 : A -> B -> outcome A) : (forall a b, ag (f1 a b) (f2 a b)) -> forall l a, ag (mfold f1 l a) (mfold f2 l a).
Proof. intros H. induction l as [|x l IH]; intros a; cbn [mfold]; [apply ag_refl|]. apply ag_bind; auto. Qed.
Lemma ag_cdecf : forall f m v, ag (cdecf true f m v) (cdecf false f m v).
Proof.
  induction f as [|f IH]; intros [k h] v; destruct v as [| |z|a]; cbn [cdecf]; try apply ag_refl;
    (destruct (nth_error h a) as [[r [o|]]|]; try apply ag_refl); (destruct ((if r =? 0 then two64 - 1 else r - 1) =? 0); try apply ag_refl).
  destruct o as [o|us|[i|v]]; [| |left; reflexivity|]; (apply ag_bind; [apply ag_mfold; intros; apply IH|]; intros [k2 h2]; apply ag_refl).
Qed.
Lemma ag_cdec m v : ag (cdec true m v) (cdec false m v). Proof. apply ag_cdecf. Qed.
Lemma ag_slot m i : ag (dec_slot true m i) (dec_slot false m i). Proof. unfold dec_slot. destruct (nth_error (fst m) i); [apply ag_cdec|apply ag_refl]. Qed.
Ltac agr := repeat first
  [ apply ag_cdec | apply ag_refl | apply ag_bind; [first [apply ag_cdec|apply ag_refl]|intros []]; cbn beta iota | apply ag_bind; [first [apply ag_cdec|apply ag_refl]|intros ?]; cbn beta iota ].
Lemma ag_push s v : ag (cpush true s v) (cpush false s v).
Proof. unfold cpush. destruct (STACK_SIZE <=? csz s)%nat; [apply ag_refl|]. apply ag_bind; [apply ag_refl|]. intros old. apply ag_bind; [apply ag_cdec|]. intros [k1 h1]. apply ag_refl. Qed.
Lemma ag_nth n : forall s, ag (cnth n (fun s => cpush true s RU) s) (cnth n (fun s => cpush false s RU) s).
Proof. induction n as [|n IH]; intros s; cbn [cnth]; [apply ag_refl|]. apply ag_then; [apply ag_push|exact IH]. Qed.
Lemma ag_exit s fp len nr : ag (cexit true s fp len nr) (cexit false s fp len nr).
Proof.
  unfold cexit. apply ag_then.
  - unfold crm_range. destruct ((csz s <? fp + len + 1) || (fp + len + 1 <? fp))%nat; [apply ag_refl|]. apply ag_bind; [apply ag_mfold; intros; apply ag_slot|]. intros [k1 h1]. apply ag_refl.
  - intros s1. destruct nr as [k|]; [|apply ag_refl]. destruct (csz s1 <? fp + k)%nat; [apply ag_nth|apply ag_refl].
Qed.
Lemma ag_step s i : ag (cstep true s i) (cstep false s i).
Proof.
  destruct i as [v|t|k|i|i| | | | |xs|fp n|fp n|fp len nr|fp len nr]; cbn [cstep].
  - apply ag_push.
  - unfold calloc. apply ag_push.
  - apply ag_refl.
  - apply ag_bind; [apply ag_refl|]. intros v. apply ag_push.
  - apply ag_bind; [apply ag_refl|]. intros old. apply ag_bind; [apply ag_cdec|]. intros [k1 h1]. apply ag_refl.
  - unfold cnew_list. destruct (above_end (rev (firstn (csz s) (cstk s)))); [|apply ag_refl]. unfold calloc.
    do 4 (apply ag_bind; [apply ag_refl|]; intros ?). apply ag_push.
  - do 2 (apply ag_bind; [apply ag_refl|]; intros ?). destruct (as_clist s a) as [[[b l] m]|]; [|apply ag_refl]. destruct a0 as [| |z|]; try apply ag_refl.
    destruct (lindex l z) as [j|]; [|apply ag_refl]. destruct (nth_error l j); [apply ag_push|apply ag_refl].
  - do 4 (apply ag_bind; [apply ag_refl|]; intros ?). destruct (as_clist a0 a1) as [[[b l] m]|]; [|apply ag_refl]. destruct a2 as [| |z|]; try apply ag_refl.
    destruct (lindex l z) as [j|]; [|apply ag_refl]. do 2 (apply ag_bind; [apply ag_refl|]; intros ?). apply ag_bind; [apply ag_cdec|]. intros [k2 h2]. apply ag_refl.
  - apply ag_refl.
  - unfold cconst, calloc. apply ag_bind; [apply ag_refl|]. intros s2. apply ag_push.
  - apply ag_bind; [apply ag_refl|]. intros u. destruct (cget (chp s) u) as [[|?|[i|v]]|]; try apply ag_refl; [apply ag_bind; [apply ag_refl|]; intros ?|]; apply ag_push.
  - do 4 (apply ag_bind; [apply ag_refl|]; intros ?). destruct (cget (chp s) a2) as [[|?|[i|v]]|]; try apply ag_refl.
    + apply ag_bind; [apply ag_refl|]. intros old. apply ag_bind; [apply ag_cdec|]. intros [k2 h2]. apply ag_refl.
    + apply ag_bind; [apply ag_cdec|]. intros [k2 h2]. apply ag_refl.
  - apply ag_exit.
  - apply ag_bind; [apply ag_refl|]. intros s1. apply ag_exit.
Qed.
Lemma ag_run p : forall s, ag (crun true s p) (crun false s p).
Proof. induction p as [|i r IH]; intros s; cbn [crun]; [apply ag_refl|]. apply ag_then; [apply ag_step|exact IH]. Qed.
Lemma ag_ok {A} (t f : outcome A) x : ag t f -> t = Ok x -> f = Ok x. Proof. intros [E|E] H; congruence. Qed.

(** ** From the encoding back to the specification. *)
Lemma inside_enc h : inside (enc h) = cinside h.
Proof. unfold inside, enc, cinside. induction h as [|[r [o|]] h IH]; [reflexivity| |]; cbn [map flat_map enc_c cbody body option_map crefs]; rewrite IH; [rewrite holds_kids, kids_enc; reflexivity|reflexivity]. Qed.
Lemma places_enc s : places (encs s) = cplaces s. Proof. unfold places, cplaces. cbn [stk loops cons_ globs mts encs map flat flat_map app]. reflexivity. Qed.
Lemma refs_enc s a : references (encs s) a = creferences s a.
Proof. unfold references, creferences. rewrite places_enc. cbn [hp encs]. rewrite inside_enc. reflexivity. Qed.
Lemma live_iff h a : live (enc h) a <-> clive h a.
Proof. split; [apply live_enc|]. intros [o H]. exists (enc_o o). rewrite enc_get, H. reflexivity. Qed.
Lemma count_enc h a : count_of (enc h) a = ccount h a.
Proof. unfold count_of, ccount. rewrite enc_nth. destruct (nth_error h a); reflexivity. Qed.
Lemma csound_of s : sound (encs s) -> csound s.
Proof. intros H a. destruct (H a) as [A B]. rewrite refs_enc in A, B. cbn [hp encs] in A, B. rewrite live_iff in A, B. rewrite count_enc in A. auto. Qed.
Lemma cexact_of s : exact (encs s) -> cexact s.
Proof. intros H a. destruct (H a) as [A B]. rewrite refs_enc in A, B. cbn [hp encs] in A, B. rewrite live_iff in A, B. rewrite count_enc in A. auto. Qed.

(** ** vm_cleanup: once everything is closed the watchpoint cannot be reached. *)
Lemma no_open_dec : forall f h v h' k, (forall u i, cget h u <> Some (CUp (LOpen i))) -> decf f (enc h) v = Ok h' -> cdecf true f (k, h) v <> Err EAssert.
Proof.
  induction f as [|f IH]; intros h v h' k NO D.
  - destruct v as [| |z|a]; cbn [decf cdecf] in *; try discriminate. rewrite enc_nth in D. destruct (nth_error h a) as [[r [o|]]|]; cbn [option_map enc_c crefs cbody] in D; try discriminate.
    destruct ((if r =? 0 then two64 - 1 else r - 1) =? 0); discriminate.
  - assert (Fold : forall vs h h', (forall u i, cget h u <> Some (CUp (LOpen i))) -> mfold (decf f) vs (enc h) = Ok h' -> mfold (cdecf true f) vs (k, h) <> Err EAssert).
    { clear -IH. induction vs as [|x vs IHv]; intros h h' NO; cbn [mfold]; [discriminate|]. destruct (decf f (enc h) x) as [h1|e| |] eqn:D; cbn [bind]; try discriminate. intros M.
      pose proof (IH _ _ _ k NO D) as N. destruct (cdecf_sim _ _ _ _ k D) as [C|(h2 & -> & <- & K2)]; [contradiction|]. cbn [bind]. apply (IHv h2 h'); [|exact M].
      intros u i C. destruct K2 as [_ K2]. destruct (K2 u) as [E|[[E _]|(o & E & _)]]; try congruence. apply (NO u i). congruence. }
    destruct v as [| |z|a]; cbn [decf cdecf] in *; try discriminate. rewrite enc_nth in D. destruct (nth_error h a) as [[r [o|]]|] eqn:Q; cbn [option_map enc_c crefs cbody] in D; try discriminate.
    set (r' := if r =? 0 then two64 - 1 else r - 1) in *. destruct (r' =? 0) eqn:Z0; [|discriminate].
    change (Cell r' (Some (enc_o o))) with (enc_c (CCell r' (Some o))) in D. rewrite <- enc_upd, kids_enc in D.
    set (h1 := upd h a (CCell r' (Some o))) in *.
    assert (NO1 : forall u i, cget h1 u <> Some (CUp (LOpen i))) by (intros u i; unfold h1; rewrite (same_count _ _ _ _ _ Q); apply NO).
    destruct (mfold (decf f) (ckids o) (enc h1)) as [h2|e| |] eqn:M; cbn [bind] in D; try discriminate.
    pose proof (Fold _ _ _ NO1 M) as N. assert (G : forall i, o <> CUp (LOpen i)). { intros i ->. apply (NO a i). unfold cget. rewrite Q. reflexivity. }
    assert (X : do (k2, h0) <- mfold (cdecf true f) (ckids o) (k, h1); do h3 <- set_cell h0 a; Ok (k2, h3) <> Err EAssert).
    { destruct (mfold (cdecf true f) (ckids o) (k, h1)) as [[k2 h0]|e| |]; cbn [bind]; try discriminate; [|congruence]. unfold set_cell. destruct (nth_error h0 a) as [[r3 [o3|]]|]; cbn [bind]; discriminate. }
    destruct o as [o|us|[i|v]]; try exact X. destruct (G i eq_refl).
Qed.
Lemma no_open_slots k : forall n a h h', (a + n <= length k)%nat -> (forall u i, cget h u <> Some (CUp (LOpen i))) -> mfold dec (seg k a n) (enc h) = Ok h' ->
  exists h'', mfold (dec_slot true) (seq a n) (k, h) = Ok (k, h'') /\ enc h'' = h' /\ kept h h''.
Proof.
  induction n as [|n IH]; intros a h h' HL NO.
  - unfold seg. cbn [seq mfold firstn]. intros [= <-]. exists h. split; [reflexivity|]. split; [reflexivity|apply kept_refl].
  - destruct (nth_error k a) as [x|] eqn:Q; [|apply nth_error_None in Q; lia]. rewrite (seg_cons _ _ _ _ Q). cbn [seq mfold].
    destruct (dec (enc h) x) as [h1|e| |] eqn:D; cbn [bind]; try discriminate. intros M.
    unfold dec_slot at 1. cbn [fst]. rewrite Q. pose proof D as D'. unfold dec in D'. rewrite enc_len in D'. pose proof (no_open_dec _ _ _ _ k NO D') as N.
    destruct (cdec_sim _ _ _ k D) as [C|(h2 & -> & <- & K2)]; [contradiction|]. cbn [bind].
    destruct (IH (S a) h2 h' ltac:(lia)) as (h3 & -> & E3 & K3); [|exact M|].
    { intros u i C. destruct K2 as [_ K2]. destruct (K2 u) as [E|[[E _]|(o & E & _)]]; try congruence. apply (NO u i). congruence. }
    exists h3. split; [reflexivity|]. split; [exact E3|]. eapply kept_trans; eassumption.
Qed.
Lemma kept_no_open h h' : kept h h' -> (forall u i, cget h u <> Some (CUp (LOpen i))) -> forall u i, cget h' u <> Some (CUp (LOpen i)).
Proof. intros [_ K] NO u i C. destruct (K u) as [E|[[E _]|(o & E & _)]]; try congruence. apply (NO u i). congruence. Qed.
Lemma no_open_decs k : forall vs h h', (forall u i, cget h u <> Some (CUp (LOpen i))) -> mfold dec vs (enc h) = Ok h' ->
  exists h'', mfold (cdec true) vs (k, h) = Ok (k, h'') /\ enc h'' = h' /\ kept h h''.
Proof.
  induction vs as [|x vs IH]; intros h h' NO; cbn [mfold].
  - intros [= <-]. exists h. split; [reflexivity|]. split; [reflexivity|apply kept_refl].
  - destruct (dec (enc h) x) as [h1|e| |] eqn:D; cbn [bind]; try discriminate. intros M.
    pose proof D as D'. unfold dec in D'. rewrite enc_len in D'. pose proof (no_open_dec _ _ _ _ k NO D') as N.
    destruct (cdec_sim _ _ _ k D) as [C|(h2 & -> & <- & K2)]; [contradiction|]. cbn [bind].
    destruct (IH h2 h') as (h3 & -> & E3 & K3); [eapply kept_no_open; eassumption|exact M|]. exists h3. split; [reflexivity|]. split; [exact E3|]. eapply kept_trans; eassumption.
Qed.
Lemma seg_all {A} (k : list A) n : length k = n -> seg k 0 n = k. Proof. intros <-. unfold seg. cbn [skipn]. apply firstn_all. Qed.
Lemma ccleanup_ok E s : cinv E s -> exists s1 h, cclose s 0 = Ok s1 /\ ccleanup true s = Ok h /\ W (enc h) None E [] /\ shrink (enc (chp s1)) (enc h).
Proof.
  intros HI. destruct (cclose_ok E s 0 HI) as (s1 & C & (A1 & A2 & A3) & Ek & Ez & NP & _). unfold ccleanup. rewrite C. cbn [bind]. exists s1.
  pose proof A1 as (HW & HL & HS & HM). cbn [stk encs] in HL.
  assert (NO : forall u i, cget (chp s1) u <> Some (CUp (LOpen i))). { intros u i X. destruct A2 as ((_ & HP) & _). assert (Y : In u (cpend s1)) by (apply HP; eauto). rewrite (NP eq_refl) in Y. destruct Y. }
  destruct (W_decs (enc (chp s1)) None E (cstk s1) [RP LIST_MT; RP TABLE_MT]) as (h1 & D1 & W1 & S1); [|exact I|].
  { eapply W_ext; [|exact HW]. intros i. rewrite places_enc. reflexivity. }
  rewrite <- (seg_all (cstk s1) STACK_SIZE HL) in D1. destruct (no_open_slots (cstk s1) STACK_SIZE 0 (chp s1) h1 ltac:(lia) NO D1) as (c1 & X1 & <- & K1). unfold cmem. rewrite X1. cbn [bind].
  destruct (W_decs (enc c1) None E [RP LIST_MT; RP TABLE_MT] [] ltac:(rewrite app_nil_r; exact W1) I) as (h2 & D2 & W2 & S2).
  destruct (no_open_decs (cstk s1) [RP LIST_MT; RP TABLE_MT] c1 h2 ltac:(eapply kept_no_open; eassumption) D2) as (c2 & X2 & <- & K2). rewrite X2. cbn [bind].
  exists c2. split; [reflexivity|]. split; [reflexivity|]. split; [exact W2|]. eapply shrink_trans; eassumption.
Qed.
Lemma ag_cleanup s : ag (ccleanup true s) (ccleanup false s).
Proof.
  unfold ccleanup. apply ag_bind; [apply ag_refl|]. intros s1. apply ag_bind; [apply ag_mfold; intros; apply ag_slot|]. intros [k h1]. apply ag_bind; [apply ag_mfold; intros; apply ag_cdec|]. intros [k2 h2]. apply ag_refl.
Qed.

(** ** A checker for [cfits]. *)
Definition is_unboxed (v : rv) : bool := match v with RP _ => false | _ => true end.
Definition runs_closureb (s : cst) (fp n : nat) : bool :=
  (fp <? csz s)%nat && match nth_error (cstk s) fp with Some (RP a) => match cget (chp s) a with Some (CClo us) => (n <? length us)%nat | _ => false end | _ => false end.
Definition in_reachb (s : cst) (fp n : nat) : bool :=
  match nth_error (cstk s) fp with
  | Some (RP a) => match cget (chp s) a with
                   | Some (CClo us) => match nth_error us n with
                                       | Some u => match cget (chp s) u with Some (CUp (LOpen i)) => (i <? csz s)%nat | _ => true end
                                       | None => true end
                   | _ => true end
  | _ => true end.
Definition can_captureb (s : cst) (x : src) : bool := match x with SLocal i => (i <? csz s)%nat | SParent fp n => runs_closureb s fp n end.
Definition is_end (v : rv) : bool := match v with RE => true | _ => false end.
Definition cfitsb (s : cst) (i : cins) : bool :=
  match i with
  | KPush v => is_unboxed v
  | KFresh _ => true
  | KPop k => (k <=? csz s)%nat
  | KLoad i => (i <? csz s)%nat
  | KStore i => (i + 1 <? csz s)%nat
  | KNewList => existsb is_end (firstn (csz s) (cstk s))
  | KListGet | KListPush => (2 <=? csz s)%nat
  | KListSet => (3 <=? csz s)%nat
  | KClosure xs => forallb (can_captureb s) xs
  | KUload fp n => runs_closureb s fp n && in_reachb s fp n
  | KUstore fp n => runs_closureb s fp n && (fp + 1 <? csz s)%nat
  | KRet fp len _ | KCret fp len _ => (fp + len + 1 <=? csz s)%nat
  end.
Lemma runs_ok s fp n : runs_closureb s fp n = true -> runs_closure s fp n.
Proof.
  unfold runs_closureb, runs_closure. intros H. apply andb_prop in H. destruct H as [A B]. destruct (nth_error (cstk s) fp) as [[| |z|a]|] eqn:Q; try discriminate.
  destruct (cget (chp s) a) as [[|us|]|] eqn:Q2; try discriminate. exists a, us. split; [lia|]. split; [reflexivity|]. split; [exact Q2|lia].
Qed.
Lemma reach_ok s fp n : in_reachb s fp n = true -> in_reach s fp n.
Proof. unfold in_reachb, in_reach. intros H a us u i A B C D. rewrite A, B, C, D in H. lia. Qed.
Lemma cfitsb_ok s i : cfitsb s i = true -> cfits s i.
Proof.
  destruct i; cbn [cfitsb cfits]; intros H; try lia.
  - destruct v; [exact I|exact I|exact I|discriminate].
  - apply existsb_exists in H. destruct H as (v & A & B). destruct v; try discriminate. exact A.
  - rewrite forallb_forall in H. apply Forall_forall. intros x Hx. specialize (H x Hx). destruct x; cbn [can_captureb can_capture] in *; [lia|apply runs_ok; exact H].
  - apply andb_prop in H. destruct H as [A B]. split; [apply runs_ok; exact A|apply reach_ok; exact B].
  - apply andb_prop in H. destruct H as [A B]. split; [apply runs_ok; exact A|lia].
Qed.
Fixpoint cfits_allb (s : cst) (p : list cins) : bool :=
  match p with [] => true | i :: r => cfitsb s i && match cstep true s i with Ok (s1, None) => cfits_allb s1 r | _ => true end end.
Lemma cfits_allb_ok : forall p s, cfits_allb s p = true -> cfits_all s p.
Proof.
  induction p as [|i r IH]; intros s; cbn [cfits_allb cfits_all]; [auto|]. intros H. apply andb_prop in H. destruct H as [A B]. split; [apply cfitsb_ok; exact A|].
  intros s1 E. rewrite E in B. apply IH. exact B.
Qed.
