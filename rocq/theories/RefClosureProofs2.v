(** * RefClosureProofs2: capturing, closing, reading and writing captured variables; every instruction; whole runs. *)
From Verif Require Import Base Refs RefSpec RefProofs RefProofs2 RefProofs3 RefProofs4 RefProofs5 RefProofs6 RefProofs7 RefClosure RefClosureSpec RefClosureProofs.

Definition P1 (s : cst) : Prop := pending_right s /\ forall u i, cget (chp s) u = Some (CUp (LOpen i)) -> (i < STACK_SIZE)%nat.
Definition P2 (h : list ccell) : Prop := forall a us u, cget h a = Some (CClo us) -> In u us -> exists l, cget h u = Some (CUp l).
Definition cinv (E : list nat) (s : cst) : Prop := okE E (encs s) /\ P1 s /\ P2 (chp s).
Definition cgood (r : cres) : Prop :=
  r = Err EAssert \/ exists s e, r = Ok (s, e) /\ (e = None -> cinv [] s) /\ exists E, cinv E s /\ (length E <= 1)%nat.
Lemma cgood_fine s : cinv [] s -> cgood (cfine s). Proof. intros H. right. exists s, None. split; [reflexivity|]. split; [auto|]. exists []. cbn [length]. auto. Qed.
Lemma cgood_fail s e : cinv [] s -> cgood (cfail s e). Proof. intros H. right. exists s, (Some e). split; [reflexivity|]. split; [discriminate|]. exists []. cbn [length]. auto. Qed.

Lemma live_enc h a : live (enc h) a -> clive h a.
Proof. intros [o H]. rewrite enc_get in H. destruct (cget h a) as [x|] eqn:Q; [|discriminate]. exists x. exact Q. Qed.
Lemma P1_kept s s' : kept (chp s) (chp s') -> cpend s' = cpend s -> P1 s -> P1 s'.
Proof.
  intros [KL K] EP [[HN HP] HB]. split; [split|].
  - rewrite EP. exact HN.
  - intros u. rewrite EP, HP. split; intros [i H].
    + exists i. destruct (K u) as [E|[[E N]|(o & E & [L|[o' E']])]]; [congruence|destruct (N i H)|rewrite cget_out in H by exact L; discriminate|congruence].
    + exists i. destruct (K u) as [E|[[E N]|(o & E & _)]]; congruence.
  - intros u i H. apply (HB u). destruct (K u) as [E|[[E N]|(o & E & _)]]; congruence.
Qed.
Lemma P2_kept h h' E L : kept h h' -> W (enc h') None E L -> P2 h -> P2 h'.
Proof.
  intros [KL K] HW H a us u Ha Hu. destruct (K a) as [E1|[[E1 N]|(o & E1 & _)]]; try congruence. rewrite Ha in E1. symmetry in E1. destruct (H a us u E1 Hu) as [l Hl].
  destruct (K u) as [E2|[[E2 N]|(o & E2 & [M|[o' M]])]].
  - exists l. congruence.
  - exfalso. assert (G : livev (enc h') (RP u)).
    { eapply W_kid with (a := a) (o := OList (map RP us) None); [exact HW|rewrite enc_get, Ha; reflexivity|]. cbn [kids of_mt app]. apply in_map. exact Hu. }
    destruct (live_enc _ _ G) as [x X]. congruence.
  - rewrite cget_out in Hl by exact M. discriminate.
  - congruence.
Qed.
Lemma cinv_kept E s s' : kept (chp s) (chp s') -> cpend s' = cpend s -> P1 s -> P2 (chp s) -> okE E (encs s') -> cinv E s'.
Proof. intros K EP H1 H2 H. split; [exact H|]. split; [eapply P1_kept; eassumption|]. destruct H as (HW & _). eapply P2_kept; eassumption. Qed.
Lemma follows_good s rc r : P1 s -> P2 (chp s) -> good r -> follows s rc r -> cgood rc.
Proof.
  intros H1 H2 (t & e & -> & A & E & B & C) F. destruct (F t e eq_refl) as [->|(s' & -> & <- & K & EP)]; [left; reflexivity|]. right. exists s', e. split; [reflexivity|]. split.
  - intros Q. eapply cinv_kept; eauto.
  - exists E. split; [eapply cinv_kept; eassumption|exact C].
Qed.
Lemma cinv_sp E s n : cinv E s -> (n <= STACK_SIZE)%nat -> cinv E (cwith s (cmem s) n).
Proof. intros (A & B & C) H. split; [|split; [exact B|exact C]]. exact (okE_sp E (encs s) n A H). Qed.
Lemma cpush_good s v : cinv [] s -> survives (encs s) v -> cgood (cpush true s v).
Proof. intros (A & B & C) H. eapply follows_good; [exact B|exact C|apply push_good; [exact A|exact H]|apply cpush_sim]. Qed.
Lemma cpopn_ok s k : (k <= csz s)%nat -> cpopn s k = Ok (cwith s (cmem s) (csz s - k)).
Proof. intros H. unfold cpopn. replace (k <=? csz s)%nat with true by lia. reflexivity. Qed.

(** ** vm_close_all *)
Lemma close_ok k fp E L : (forall v, In v k -> In v L) -> forall p h, W (enc h) None E L -> NoDup p ->
  (forall u, In u p -> exists i, cget h u = Some (CUp (LOpen i)) /\ (i < length k)%nat) ->
  exists h' p' q, close_all k h p fp = Ok (h', p') /\ W (enc h') None E L /\ length h' = length h /\ p = q ++ p' /\ (fp = O -> p' = []) /\
    (forall u, In u q -> exists v, cget h' u = Some (CUp (LClosed v)) /\ In v k) /\ (forall u, ~ In u q -> cget h' u = cget h u).
Proof.
  intros HK. induction p as [|u r IH]; intros h HW ND HP.
  - exists h, [], []. split; [reflexivity|]. split; [exact HW|]. split; [reflexivity|]. split; [reflexivity|]. split; [auto|]. split; [intros u []|auto].
  - cbn [close_all]. destruct (HP u (or_introl eq_refl)) as (i & Hi & Li). rewrite Hi. destruct (i <? fp)%nat eqn:C.
    + exists h, (u :: r), []. split; [reflexivity|]. split; [exact HW|]. split; [reflexivity|]. split; [reflexivity|]. split; [lia|]. split; [intros x []|auto].
    + destruct (nth_error k i) as [v|] eqn:Q; [|apply nth_error_None in Q; lia]. pose proof (nth_error_In _ _ Q) as Iv.
      destruct (W_inc (enc h) None E v L HW) as (h1 & E1 & W1 & G1); [eapply W_livev; [exact HW|apply HK; exact Iv]|].
      destruct (cinc_same _ _ _ E1) as (c1 & -> & <- & L1 & S1). cbn [bind].
      assert (W2 : W (enc c1) (Some (u, OList [v] None)) E L).
      { eapply W_begin; [exact W1|rewrite enc_get, S1, Hi; reflexivity|]. intros j. rewrite cnt_cons. cbn [enc_o kids of_mt app]. rewrite cnt_cons, cnt_nil. lia. }
      destruct (W_end _ _ _ _ _ W2) as (h2 & E2 & W3 & _). change (OList [v] None) with (enc_o (CUp (LClosed v))) in E2.
      destruct (cset_sim _ _ _ _ E2) as (c2 & -> & <- & L2 & S2 & S3). cbn [bind]. inversion ND as [|? ? N1 N2]; subst.
      destruct (IH c2 W3 N2) as (h' & p' & q & A & B & C' & D & F & G & H).
      { intros x Hx. destruct (HP x (or_intror Hx)) as (j & Hj & Lj). exists j. split; [|exact Lj]. rewrite S3 by (intros ->; auto). rewrite S1. exact Hj. }
      exists h', p', (u :: q). split; [exact A|]. split; [exact B|]. split; [congruence|]. split; [rewrite D; reflexivity|]. split; [exact F|]. split.
      * intros x [<-|Hx]; [|auto]. assert (NQ : ~ In u q) by (intros X; apply N1; rewrite D; apply in_or_app; auto). rewrite (H u NQ), S2. eauto.
      * intros x Nx. cbn [In] in Nx. rewrite H by tauto. rewrite S3 by (intros ->; tauto). apply S1.
Qed.
Lemma in_places s v : In v (cstk s) -> In v (places (encs s)). Proof. intros H. rewrite places_stk. apply in_or_app. auto. Qed.
Lemma cclose_ok E s fp : cinv E s -> exists s', cclose s fp = Ok s' /\ cinv E s' /\ cstk s' = cstk s /\ csz s' = csz s /\ (fp = O -> cpend s' = []) /\
  (forall u i, cget (chp s') u = Some (CUp (LOpen i)) -> cget (chp s) u = Some (CUp (LOpen i))) /\ length (chp s') = length (chp s).
Proof.
  intros ((HW & HL & HS & HM) & ((HN & HP) & HB) & H2). cbn [stk encs] in HL.
  destruct (close_ok (cstk s) fp E (places (encs s)) (in_places s) (cpend s) (chp s) HW HN) as (h' & p' & q & A & B & C & D & F & G & H).
  { intros u Hu. apply HP in Hu. destruct Hu as [i Hi]. exists i. split; [exact Hi|]. rewrite HL. eapply HB; exact Hi. }
  unfold cclose. rewrite A. cbn [bind]. eexists. split; [reflexivity|]. split; [|split; [reflexivity|split; [reflexivity|split; [exact F|]]]].
  - split; [split; [exact B|split; [exact HL|split; [exact HS|exact HM]]]|]. split.
    + split; [split|].
      * cbn [cpend]. rewrite D in HN. clear -HN. induction q as [|x q IH]; [exact HN|]. inversion HN; auto.
      * cbn [cpend chp]. intros u. split.
        -- intros Hu. assert (Hq : ~ In u q). { intros X. rewrite D in HN. clear -HN X Hu. induction q as [|x q IH]; [destruct X|]. cbn [app] in HN. inversion HN as [|? ? N1 N2]; subst. destruct X as [->|X]; [apply N1; apply in_or_app; auto|auto]. }
           rewrite (H u Hq). apply HP. rewrite D. apply in_or_app. auto.
        -- intros [i Hi]. destruct (in_dec Nat.eq_dec u q) as [Q|Q]; [destruct (G u Q) as (v & V & _); congruence|]. rewrite (H u Q) in Hi.
           assert (X : In u (cpend s)) by (apply HP; eauto). rewrite D in X. apply in_app_or in X. tauto.
      * cbn [chp]. intros u i Hi. destruct (in_dec Nat.eq_dec u q) as [Q|Q]; [destruct (G u Q) as (v & V & _); congruence|]. rewrite (H u Q) in Hi. eapply HB; exact Hi.
    + cbn [chp]. intros a us u Ha Hu. destruct (in_dec Nat.eq_dec a q) as [Q|Q]; [destruct (G a Q) as (v & V & _); congruence|]. rewrite (H a Q) in Ha.
      destruct (H2 a us u Ha Hu) as [l Hl]. destruct (in_dec Nat.eq_dec u q) as [Q'|Q']; [destruct (G u Q') as (v & V & _); eauto|]. rewrite (H u Q'). eauto.
  - cbn [chp]. split; [|exact C]. intros u i Hi. destruct (in_dec Nat.eq_dec u q) as [Q|Q]; [destruct (G u Q) as (v & V & _); congruence|]. rewrite (H u Q) in Hi. exact Hi.
Qed.

(** ** vm_CCONST *)
Lemma walk_ok h i new : forall p, (forall u, In u p -> exists j, cget h u = Some (CUp (LOpen j))) -> NoDup p -> ~ In new p ->
  (exists u, walk h p i new = Ok (AShared u) /\ In u p) \/
  (exists q, walk h p i new = Ok (ANew q) /\ NoDup q /\ forall x, In x q <-> x = new \/ In x p).
Proof.
  induction p as [|u r IH]; intros HP ND NN; cbn [walk].
  - right. exists [new]. split; [reflexivity|]. split; [constructor; [intros []|constructor]|]. intros x. cbn [In]. intuition congruence.
  - destruct (HP u (or_introl eq_refl)) as [j Hj]. rewrite Hj. inversion ND as [|? ? N1 N2]; subst. destruct (i <? j)%nat.
    + destruct IH as [(v & E & I)|(q & E & D & Q)]; [intros; apply HP; right; assumption|exact N2|intros X; apply NN; right; exact X| |].
      * left. exists v. rewrite E. split; [reflexivity|right; exact I].
      * right. exists (u :: q). rewrite E. split; [reflexivity|]. split.
        -- constructor; [|exact D]. rewrite Q. intros [->|X]; [apply NN; left; reflexivity|auto].
        -- intros x. cbn [In]. rewrite Q. intuition congruence.
    + destruct (j =? i)%nat; [left; exists u; split; [reflexivity|left; reflexivity]|]. right. exists (u :: new :: r). split; [reflexivity|]. split.
      * constructor; [|constructor; [|exact N2]].
        -- intros [X|X]; [apply NN; left; congruence|auto].
        -- intros X. apply NN. right. exact X.
      * intros x. cbn [In]. intuition congruence.
Qed.
Definition filling (a : nat) (s : cst) (us : list nat) : Prop :=
  okE [a] (encs s) /\ P1 s /\ P2 (chp s) /\ cget (chp s) a = Some (CClo us) /\ cnt a (places (encs s)) = O /\ cnt a (inside (enc (chp s))) = O.
Lemma capture_ok a s us x : filling a s us -> can_capture s x ->
  exists s1 u, capture s x = Ok (s1, u) /\ cstk s1 = cstk s /\ csz s1 = csz s /\ W (enc (chp s1)) None [u; a] (places (encs s)) /\ P1 s1 /\
    (forall b, (b < length (chp s))%nat -> cget (chp s1) b = cget (chp s) b) /\ (exists l, cget (chp s1) u = Some (CUp l)) /\ u <> a /\
    cnt a (inside (enc (chp s1))) = O /\ (length (chp s) <= length (chp s1))%nat /\ (forall b o, cget (chp s1) b = Some o -> cget (chp s) b = Some o \/ exists i, o = CUp (LOpen i)).
Proof.
  intros (HO & HP1 & HP2 & Ha & N1 & N2) HC. pose proof HO as (HW & HL & HS & HM). cbn [stk sz encs] in HL, HS.
  assert (Wk : forall u, W (enc (chp s)) None [u; a] (places (encs s))) by (intros u; eapply W_weaken; [|exact HW]; intros y [<-|[]]; right; left; reflexivity).
  destruct x as [i|fp n]; cbn [capture can_capture] in *.
  - unfold add_upvalue. destruct HP1 as ((ND & HP) & HB).
    destruct (walk_ok (chp s) i (length (chp s)) (cpend s)) as [(u & E & I)|(q & E & D & Q)].
    { intros u Hu. apply HP. exact Hu. } { exact ND. } { intros Hu. apply HP in Hu. destruct Hu as [j Hj]. apply cget_len in Hj. lia. }
    + rewrite E. cbn [bind]. apply HP in I. destruct I as [j Hj]. exists s, u. split; [reflexivity|]. split; [reflexivity|]. split; [reflexivity|]. split; [apply Wk|].
      split; [split; [split|]; assumption|]. split; [reflexivity|]. split; [eauto|]. split; [intros ->; congruence|]. split; [exact N2|]. split; [lia|]. auto.
    + rewrite E. cbn [bind calloc]. eexists _, _. split; [reflexivity|]. cbn [cstk csz chp cpended cwith snd fst].
      assert (Old : forall b, (b < length (chp s))%nat -> cget (chp s ++ [CCell 0 (Some (CUp (LOpen i)))]) b = cget (chp s) b) by (intros; apply cget_app_old; assumption).
      pose proof (cget_app_new (chp s) (CCell 0 (Some (CUp (LOpen i))))) as New. cbn [cbody] in New.
      assert (Inv : forall b o, cget (chp s ++ [CCell 0 (Some (CUp (LOpen i)))]) b = Some o -> cget (chp s) b = Some o \/ (b = length (chp s) /\ o = CUp (LOpen i))).
      { intros b o Hb. pose proof (cget_len _ _ _ Hb) as Hl. rewrite app_length in Hl. cbn [length] in Hl. destruct (Nat.eq_dec b (length (chp s))) as [->|Nb]; [right; rewrite New in Hb; split; congruence|]. left. rewrite <- (Old b) by lia. exact Hb. }
      split; [reflexivity|]. split; [reflexivity|]. split.
      { rewrite enc_app. pose proof (W_alloc (enc (chp s)) [a] _ (OList [] None) HW eq_refl) as WA. rewrite enc_len in WA. exact WA. }
      split.
      { split; [split|]; cbn [cpend cpended chp cwith snd].
        - exact D.
        - intros u. rewrite Q. split.
          + intros [->|Hu]; [eauto|]. apply HP in Hu. destruct Hu as [j Hj]. exists j. rewrite Old by (eapply cget_len; exact Hj). exact Hj.
          + intros [j Hj]. destruct (Inv _ _ Hj) as [Hj'|[-> _]]; [right; apply HP; eauto|left; reflexivity].
        - intros u j Hj. destruct (Inv _ _ Hj) as [Hj'|[_ [= <-]]]; [eapply HB; exact Hj'|lia]. }
      split; [exact Old|]. split; [eauto|]. split; [apply cget_len in Ha; lia|]. split.
      { rewrite enc_app. pose proof (inside_app (enc (chp s)) (OList [] None)) as IA; etransitivity; [exact (f_equal (cnt _) IA)|]. rewrite cnt_app, N2. reflexivity. }
      split; [rewrite app_length; lia|]. intros b o Hb. destruct (Inv _ _ Hb) as [Hb'|[_ ->]]; eauto.
  - destruct HC as (c & vs & Lf & Hf & Hc & Ln). unfold upvalue_of, cslot. rewrite Hf. cbn [bind]. rewrite Hc. destruct (nth_error vs n) as [u|] eqn:Q; [|apply nth_error_None in Q; lia]. cbn [bind].
    destruct (HP2 c vs u Hc (nth_error_In _ _ Q)) as [l Hl].
    exists s, u. split; [reflexivity|]. split; [reflexivity|]. split; [reflexivity|]. split; [apply Wk|]. split; [exact HP1|]. split; [reflexivity|]. split; [eauto|]. split; [intros ->; congruence|].
    split; [exact N2|]. split; [lia|]. auto.
Qed.
Lemma fill_ok a : forall xs s us, filling a s us -> Forall (can_capture s) xs ->
  exists s' us', fill s a xs us = Ok s' /\ filling a s' us'.
Proof.
  induction xs as [|x xs IH]; intros s us HF HC; [exists s, us; split; [reflexivity|exact HF]|]. inversion HC as [|? ? C1 C2]; subst. cbn [fill].
  destruct (capture_ok a s us x HF C1) as (s1 & u & -> & K1 & Z1 & W1 & PP & Old & (l & Hu) & Nu & NI & LL & Inv). cbn [bind].
  destruct HF as (HO & HP1 & HP2 & Ha & N1 & N2). pose proof HO as (HW & HL & HS & HM).
  assert (Ha1 : cget (chp s1) a = Some (CClo us)) by (rewrite Old by (eapply cget_len; exact Ha); exact Ha).
  assert (EP : places (encs s1) = places (encs s)) by (unfold encs, places; cbn [stk loops cons_ globs mts]; rewrite K1; reflexivity).
  destruct (appends [u; a] (places (encs s)) a [RP u] (encs s1) (map RP us) None) as (h' & A & B & C & D & F).
  { exact W1. } { cbn [hp encs]. rewrite enc_get, Ha1. reflexivity. } { exact N1. } { exact NI. }
  { constructor; [|constructor]. exists (enc_o (CUp l)). cbn [hp encs]. rewrite enc_get, Hu. reflexivity. } { constructor; [|constructor]. apply is_ref_other. auto. }
  apply mfold1 in A. unfold append in A. cbn [hp encs] in A. rewrite enc_get, Ha1 in A. cbn [option_map enc_o] in A.
  assert (EM : map RP us ++ [RP u] = map RP (us ++ [u])) by (rewrite map_app; reflexivity). rewrite EM in A, D. change (OList (map RP (us ++ [u])) None) with (enc_o (CClo (us ++ [u]))) in A, D.
  destruct (set_body (enc (chp s1)) a (enc_o (CClo (us ++ [u])))) as [h1|e| |] eqn:Q1; cbn [bind] in A; try discriminate.
  destruct (cset_sim _ _ _ _ Q1) as (c1 & -> & <- & L1 & S1 & S1'). cbn [bind].
  destruct (inc (enc c1) (RP u)) as [h2|e| |] eqn:Q2; cbn [bind] in A; try discriminate. injection A as <-.
  destruct (cinc_same _ _ _ Q2) as (c2 & -> & <- & L2 & S2). cbn [bind].
  apply (IH _ (us ++ [u])).
  - assert (Ga : cget c2 a = Some (CClo (us ++ [u]))) by (rewrite S2; exact S1).
    assert (Go : forall b, b <> a -> cget c2 b = cget (chp s1) b) by (intros b Nb; rewrite S2; auto).
    assert (WB : W (enc c2) None [a] (places (encs s))).
    { eapply W_settle; [exact B|]. assert (X : In (RP u) (inside (enc c2))). { eapply in_inside; [exact D|]. rewrite kids_enc. cbn [ckids]. apply in_map. apply in_or_app. right. left. reflexivity. } apply cnt_in in X. lia. }
    split; [split; [change (places (encs (cwith s1 (cstk s1, c2) (csz s1)))) with (places (encs s1)); rewrite EP; exact WB|]|].
    { split; [cbn [stk encs cwith cstk fst] in *; rewrite K1; exact HL|]. split; [cbn [sz encs cwith csz] in *; rewrite Z1; exact HS|reflexivity]. }
    split.
    { destruct PP as ((ND & HP) & HB). split; [split|]; cbn [cpend chp cwith snd].
      - exact ND.
      - intros y. rewrite HP. destruct (Nat.eq_dec y a) as [->|Ny]; [rewrite Ga, Ha1; split; intros [i X]; discriminate|rewrite Go by exact Ny; reflexivity].
      - intros y i Hy. destruct (Nat.eq_dec y a) as [->|Ny]; [congruence|]. rewrite Go in Hy by exact Ny. eapply HB; exact Hy. }
    split.
    { cbn [chp cwith snd]. intros b vs y Hb Hy. destruct (Nat.eq_dec b a) as [->|Nb].
      - assert (vs = us ++ [u]) by congruence. subst vs. apply in_app_or in Hy. destruct Hy as [Hy|[<-|[]]].
        + destruct (HP2 a us y Ha Hy) as [l' Hl']. exists l'. rewrite Go by (intros ->; congruence). rewrite Old by (eapply cget_len; exact Hl'). exact Hl'.
        + exists l. rewrite Go by exact Nu. exact Hu.
      - rewrite Go in Hb by exact Nb. destruct (Inv _ _ Hb) as [Hb'|[i Hi]]; [|discriminate]. destruct (HP2 b vs y Hb' Hy) as [l' Hl']. exists l'.
        rewrite Go by (intros ->; congruence). rewrite Old by (eapply cget_len; exact Hl'). exact Hl'. }
    split; [exact Ga|]. split; [change (places (encs (cwith s1 (cstk s1, c2) (csz s1)))) with (places (encs s1)); rewrite EP; exact N1|]. cbn [chp cwith snd].
    assert (X : live (enc c2) a) by (exists (enc_o (CClo (us ++ [u]))); exact D). pose proof (W_count _ _ _ _ WB X) as Y. rewrite F, N1 in Y. lia.
  - eapply Forall_impl; [|exact C2]. intros [i|fp n]; cbn [can_capture]; [cbn [csz cwith]; lia|]. intros (c & vs & Lf & Hf & Hc & Ln).
    exists c, vs. cbn [csz cstk chp cwith fst snd]. split; [lia|]. split; [rewrite K1; exact Hf|]. split; [|exact Ln].
    rewrite S2. rewrite S1'; [rewrite Old by (eapply cget_len; exact Hc); exact Hc|]. intros ->. pose proof (cnt_in a (places (encs s))) as X. rewrite places_stk in X at 1.
    specialize (X ltac:(apply in_or_app; left; eapply nth_error_In; exact Hf)). lia.
Qed.
Lemma cconst_good s xs : cinv [] s -> Forall (can_capture s) xs -> cgood (cconst true s xs).
Proof.
  intros (HO & HP1 & HP2) HC. pose proof HO as (HW & HL & HS & HM). unfold cconst, calloc.
  set (s1 := cwith s (cstk s, chp s ++ [CCell 0 (Some (CClo []))]) (csz s)).
  pose proof (cget_app_new (chp s) (CCell 0 (Some (CClo [])))) as New. cbn [cbody] in New.
  assert (Old : forall b, (b < length (chp s))%nat -> cget (chp s1) b = cget (chp s) b) by (intros; apply cget_app_old; assumption).
  assert (Inv : forall b o, cget (chp s1) b = Some o -> cget (chp s) b = Some o \/ (b = length (chp s) /\ o = CClo [])).
  { intros b o Hb. pose proof (cget_len _ _ _ Hb) as Hl. unfold s1 in Hl. cbn [chp cwith snd] in Hl. rewrite app_length in Hl. cbn [length] in Hl.
    destruct (Nat.eq_dec b (length (chp s))) as [->|Nb]; [right; unfold s1 in Hb; cbn [chp cwith snd] in Hb; split; congruence|]. left. rewrite <- Old by lia. exact Hb. }
  assert (HF : filling (length (chp s)) s1 []).
  { pose proof (fresh_unref _ _ _ HW) as FU. cbn [hp encs] in FU. rewrite enc_len in FU.
    split; [split; [|split; [exact HL|split; [exact HS|exact HM]]]|].
    - cbn [hp encs s1 chp cwith snd]. rewrite enc_app. pose proof (W_alloc (enc (chp s)) [] _ (OList [] None) HW eq_refl) as WA. rewrite enc_len in WA. exact WA.
    - destruct HP1 as ((ND & HP) & HB). split; [split; [split|]|split; [|split; [exact New|split]]].
      + exact ND.
      + intros u. change (cpend s1) with (cpend s). rewrite HP. split; intros [i Hi]; exists i; [rewrite Old by (eapply cget_len; exact Hi); exact Hi|]. destruct (Inv _ _ Hi) as [X|[_ X]]; [exact X|discriminate].
      + intros u i Hi. destruct (Inv _ _ Hi) as [X|[_ X]]; [eapply HB; exact X|discriminate].
      + intros b vs y Hb Hy. destruct (Inv _ _ Hb) as [X|[_ [= ->]]]; [|destruct Hy]. destruct (HP2 _ _ _ X Hy) as [l Hl]. exists l. rewrite Old by (eapply cget_len; exact Hl). exact Hl.
      + change (places (encs s1)) with (places (encs s)). lia.
      + cbn [s1 chp cwith snd]. rewrite enc_app. pose proof (inside_app (enc (chp s)) (OList [] None)) as IA; etransitivity; [exact (f_equal (cnt _) IA)|]. rewrite cnt_app. cbn [kids of_mt app]. rewrite cnt_nil. lia. }
  destruct (fill_ok _ xs s1 [] HF) as (s2 & us & -> & HF2).
  { eapply Forall_impl; [|exact HC]. intros [i|fp n]; cbn [can_capture]; [auto|]. intros (c & vs & Lf & Hf & Hc & Ln). exists c, vs. split; [exact Lf|]. split; [exact Hf|]. split; [|exact Ln].
    rewrite Old by (eapply cget_len; exact Hc). exact Hc. }
  cbn [bind]. destruct HF2 as (H1 & H2 & H3 & H4 & H5 & H6). eapply follows_good; [exact H2|exact H3| |apply cpush_sim].
  apply push_fresh; [exact H1|cbn [hp encs]; rewrite enc_get, H4; discriminate|].
  destruct H1 as (W1 & _). assert (X : live (enc (chp s2)) (length (chp s))) by (exists (enc_o (CClo us)); rewrite enc_get, H4; reflexivity). pose proof (W_count _ _ _ _ W1 X) as Y. cbn [hp encs] in *. rewrite Y. lia.
Qed.
