From Verif Require Import Base Bytes BytesProofs Value Table Ops Ast Stmt Limits Constants VM Compiler ValueProofs TableSpec TableProofs TableProofs2 TableProofs3 ConstSpec ConstProofs Gen.

Record pool_inv (p : cpool) (cs : list value) (m : amap) : Prop := {
  pi_w : WF (cp_tab p);
  pi_c : counted (cp_tab p);
  pi_r : repr (cp_tab p) m;
  pi_in : forall v i, nth_error cs i = Some v -> m v = Some (VInt (Z.of_nat i));
  pi_dom : forall v, good_key v -> m v <> None -> In v cs;
  pi_nd : NoDup cs;
  pi_lit : Forall literal cs;
  pi_hdr : cp_hdr p = concat (map enc_const cs) }.
Definition pooled (p : cpool) (cs : list value) : Prop := exists m, pool_inv p cs m.

Lemma pool_new_inv p : pool_new = Ok p -> pooled p [].
Proof.
  destruct pool_new_ok as (p0 & k & m & E & P). rewrite E. intros [= <-]. exists m. destruct P. constructor; auto; apply po_t.
Qed.

Lemma pool_inv_count p cs m : pool_inv p cs m -> t_count (cp_tab p) = Z.of_nat (length cs).
Proof.
  intros P. pose proof (pi_w _ _ _ P) as W. destruct (keys_spec (cp_tab p) m W (pi_r _ _ _ P)) as (N & K).
  rewrite (pi_c _ _ _ P). unfold live_count. rewrite <- (for_table_live _ W). rewrite <- (map_length ik).
  change (map ik (for_table (cp_tab p))) with (table_keys (cp_tab p)).
  f_equal. apply Nat.le_antisymm; apply NoDup_incl_length; [exact N| |apply (pi_nd _ _ _ P)|].
  - intros v Hv. apply K in Hv. destruct Hv. eapply pi_dom; eassumption.
  - intros v Hv. apply K. pose proof (pi_lit _ _ _ P) as F. rewrite Forall_forall in F. split; [apply literal_good, F, Hv|].
    apply In_nth_error in Hv. destruct Hv as (i & Hi). rewrite (pi_in _ _ _ P v i Hi). discriminate.
Qed.

Lemma index_of_nth cs : forall i v, NoDup cs -> nth_error cs i = Some v -> forall more, index_of (cs ++ more) v = Z.of_nat i.
Proof.
  induction cs as [|u cs IH]; intros i v N H more; [destruct i; discriminate|]. inversion N; subst. destruct i; cbn in H.
  - injection H as ->. cbn [app index_of]. destruct (value_eq_dec v v); [reflexivity|congruence].
  - cbn [app index_of]. destruct (value_eq_dec u v) as [->|]; [exfalso; apply H2; eapply nth_error_In; eassumption|].
    rewrite (IH i v) by assumption. lia.
Qed.
Lemma index_of_in cs v : In v cs -> forall more, 0 <= index_of (cs ++ more) v < Z.of_nat (length cs) /\ nthZ (cs ++ more) (index_of (cs ++ more) v) = Some v.
Proof.
  intros H more. induction cs as [|u cs IH]; [destruct H|]. cbn [app index_of length]. destruct (value_eq_dec u v) as [->|N].
  - split; [lia|reflexivity].
  - destruct H as [->|H]; [congruence|]. destruct (IH H) as (A & B). split; [lia|].
    unfold nthZ in *. destruct (Z.ltb_spec (index_of (cs ++ more) v) 0); [lia|]. destruct (Z.ltb_spec (1 + index_of (cs ++ more) v) 0); [lia|].
    replace (Z.to_nat (1 + index_of (cs ++ more) v)) with (S (Z.to_nat (index_of (cs ++ more) v))) by lia. exact B.
Qed.

Lemma search_pool fuel p cs m v r : pool_inv p cs m -> good_key v -> table_search fuel (cp_tab p) v = Ok r ->
  (In v cs /\ forall more, r = VInt (index_of (cs ++ more) v)) \/ (~ In v cs /\ r = VEnd).
Proof.
  intros P G E. pose proof (search_ok _ _ _ _ _ (pi_w _ _ _ P) (pi_r _ _ _ P) G E) as Hr. destruct (m v) as [x|] eqn:Em.
  - left. assert (Hin : In v cs) by (eapply pi_dom; [eassumption..|congruence]). split; [exact Hin|]. intros more.
    apply In_nth_error in Hin. destruct Hin as (i & Hi). rewrite (index_of_nth cs i v (pi_nd _ _ _ P) Hi).
    rewrite (pi_in _ _ _ P v i Hi) in Em. congruence.
  - right. split; [|exact Hr]. intros Hin. apply In_nth_error in Hin. destruct Hin as (i & Hi). rewrite (pi_in _ _ _ P v i Hi) in Em. discriminate.
Qed.

Lemma intern_part fuel p cs v i p' : pooled p cs -> literal v -> intern fuel p v = Ok (i, p') ->
  exists ext, pooled p' (cs ++ ext) /\ In v (cs ++ ext) /\ forall more, i = index_of ((cs ++ ext) ++ more) v.
Proof.
  intros (m & P) L E. pose proof (literal_good v L) as G. unfold intern in E. destruct (table_search fuel (cp_tab p) v) as [r| | |] eqn:S; try discriminate.
  cbn [bind] in E. destruct (search_pool _ _ _ _ _ _ P G S) as [(Hin & Hr)|(Hin & ->)].
  - pose proof (Hr []) as Hr0. subst r. cbn [is_end] in E. injection E as <- <-. exists []. rewrite app_nil_r. split; [exists m; exact P|]. split; [exact Hin|].
    intros more. cbn [raw_bits]. specialize (Hr more). injection Hr as Hr. rewrite app_nil_r in Hr. exact Hr.
  - cbn [is_end] in E. rewrite (pool_inv_count _ _ _ P) in E. destruct (insert_fast fuel (cp_tab p) v (VInt (Z.of_nat (length cs)))) as [t'| | |] eqn:I; try discriminate.
    cbn [bind] in E. injection E as <- <-.
    destruct (insert_fast_ok fuel _ _ (VInt (Z.of_nat (length cs))) _ (pi_w _ _ _ P) G ltac:(split; discriminate) I) as (W' & R' & C').
    exists [v]. assert (N : NoDup (cs ++ [v])) by (apply NoDup_app_snoc; [apply (pi_nd _ _ _ P)|exact Hin]). split; [|split].
    + assert (Em : m v = None). { destruct (m v) eqn:Em; [|reflexivity]. exfalso. apply Hin. eapply pi_dom; [eassumption..|congruence]. }
      exists (mset m v (VInt (Z.of_nat (length cs)))). constructor; cbn [cp_tab cp_hdr]; auto.
      * apply C', (pi_c _ _ _ P).
      * apply R', (pi_r _ _ _ P).
      * intros q j Hj. unfold mset. destruct (value_eq_dec q v) as [->|Nq].
        -- destruct (Nat.lt_ge_cases j (length cs)).
           ++ rewrite nth_error_app1 in Hj by lia. exfalso. apply Hin. eapply nth_error_In. eassumption.
           ++ assert (j < length (cs ++ [v]))%nat by (apply nth_error_Some; congruence). rewrite app_length in *. cbn in *. do 3 f_equal. lia.
        -- destruct (Nat.lt_ge_cases j (length cs)).
           ++ rewrite nth_error_app1 in Hj by lia. apply (pi_in _ _ _ P q j Hj).
           ++ rewrite nth_error_app2 in Hj by lia. destruct (j - length cs)%nat as [|[|?]]; cbn in Hj; congruence.
      * intros q Gq. unfold mset. destruct (value_eq_dec q v) as [->|Nq]; intros Hq; apply in_or_app; [right; left; reflexivity|left].
        eapply pi_dom; eassumption.
      * apply Forall_app. split; [apply (pi_lit _ _ _ P)|constructor; auto].
      * rewrite (pi_hdr _ _ _ P), map_app, concat_app. cbn. rewrite app_nil_r. reflexivity.
    + apply in_or_app. right. left. reflexivity.
    + intros more. symmetry. apply index_of_nth; [exact N|]. rewrite nth_error_app2, Nat.sub_diag by lia. reflexivity.
Qed.

(** ** Buffers. *)
Lemma rewrite8_mid a x y b : length x = 8%nat -> rewrite8 (a ++ x ++ b) (length a) y = a ++ enc8 y ++ b.
Proof.
  intros L. unfold rewrite8. rewrite firstn_app, firstn_all, Nat.sub_diag, firstn_O, app_nil_r. f_equal. f_equal.
  rewrite <- L, <- app_length, app_assoc, skipn_app, skipn_all, Nat.sub_diag. reflexivity.
Qed.
Lemma exit_jmp_buf c c0 o g : c_buf c = (c_buf c0 ++ op o ++ enc8 0) ++ g ->
  exit_jmp c (count (emit c0 (op o))) = set_buf c (c_buf c0 ++ op o ++ enc8 (len g) ++ g).
Proof.
  intros E. unfold exit_jmp, patch. f_equal.
  assert (L : count (emit c0 (op o)) = Z.of_nat (length (c_buf c0 ++ op o))) by reflexivity.
  assert (C : count c - count (emit c0 (op o)) - 8 = len g).
  { rewrite L. unfold count, len. rewrite E, !app_length, enc8_length. lia. }
  rewrite C, L, Nat2Z.id, E. rewrite <- !app_assoc. rewrite (app_assoc (c_buf c0) (op o)).
  rewrite rewrite8_mid by apply enc8_length. rewrite <- app_assoc. reflexivity.
Qed.

(** What a compilation step did: pool, scopes, and the code it added for the final constants [K]. *)
Definition ran (c c' : cst) (cs cs' : list value) (ss' : list scope) (g : list value -> list Z) : Prop :=
  pooled (c_pool c') cs' /\ (exists ext, cs' = cs ++ ext) /\ c_scopes c' = ss' /\ c_globals c' = c_globals c /\ c_cps c' = c_cps c
  /\ forall K, (exists more, K = cs' ++ more) -> c_buf c' = c_buf c ++ g K.
(** The names of all globals are in the pool. *)
Definition gl_in (G : scope) (cs : list value) : Prop := forall x z, assoc G x = Some z -> In (VStr x) cs.
Lemma gl_in_ext G cs ext : gl_in G cs -> gl_in G (cs ++ ext).
Proof. intros H x z E. apply in_or_app. left. eapply H. eassumption. Qed.

Lemma incl_step c c' a b ss g X : ran c c' a b ss g -> incl X a -> incl X b.
Proof. intros (_ & (e & ->) & _) H v Hv. apply in_or_app. left. auto. Qed.
Ltac lits := first [solve [cbn [lits_s quiet]; eauto 8 using incl_step]|idtac]; cbn [lits_e lits_s quiet]; repeat (match goal with |- context [if ?b then _ else _] => match goal with H : b = _ |- _ => rewrite H end | H : ?b = _ |- context [if ?b || _ then _ else _] => rewrite H end; cbn [orb]);
  repeat (apply incl_app); solve [apply incl_nil_l | eauto 8 using incl_step].

Section F.
Variable fuel : nat.

Lemma lit_gen c v c' cs : add_literal fuel c v = Ok c' -> pooled (c_pool c) cs -> literal v ->
  exists cs', ran c c' cs cs' (c_scopes c) (fun K => lit_code K v) /\ incl [v] cs'.
Proof.
  unfold add_literal. intros E P L. destruct (intern fuel (c_pool c) v) as [[i p']| | |] eqn:I; try discriminate. cbn [bind fst snd] in E. injection E as <-.
  destruct (intern_part _ _ _ _ _ _ P L I) as (ext & P' & Hin & Hi). exists (cs ++ ext).
  split; [|intros u [<-|[]]; exact Hin]. split; [exact P'|]. split; [eauto|]. split; [reflexivity|]. split; [reflexivity|]. split; [reflexivity|].
  intros K (more & ->). cbn [emit c_buf set_buf set_pool]. unfold lit_code. rewrite <- (Hi more). reflexivity.
Qed.

Lemma pool_index_gen c x i cs : pool_index fuel c x = Ok i -> pooled (c_pool c) cs -> In (VStr x) cs -> forall more, i = index_of (cs ++ more) (VStr x).
Proof.
  unfold pool_index. intros E (m & P) Hin more. destruct (table_search fuel (cp_tab (c_pool c)) (VStr x)) as [r| | |] eqn:S; try discriminate. cbn in E. injection E as <-.
  destruct (search_pool fuel _ _ _ (VStr x) r P) as [(_ & H)|(H & _)]; [exact I|exact S| |tauto]. rewrite (H more). reflexivity.
Qed.

Lemma ran_trans c1 c2 c3 cs1 cs2 cs3 s2 s3 g1 g2 : ran c1 c2 cs1 cs2 s2 g1 -> ran c2 c3 cs2 cs3 s3 g2 -> ran c1 c3 cs1 cs3 s3 (fun K => g1 K ++ g2 K).
Proof.
  intros (P1 & (x1 & ->) & S1 & G1 & C1 & B1) (P2 & (x2 & ->) & S2 & G2 & C2 & B2). split; [exact P2|]. split; [exists (x1 ++ x2); apply app_assoc_reverse|].
  split; [exact S2|]. split; [congruence|]. split; [congruence|]. intros K (more & ->). rewrite (B2 _ (ex_intro _ more eq_refl)), (B1 ((((cs1 ++ x1) ++ x2) ++ more))).
  - rewrite app_assoc. reflexivity.
  - exists (x2 ++ more). rewrite <- !app_assoc. reflexivity.
Qed.
Lemma ran_emit c cs ss bs : pooled (c_pool c) cs -> c_scopes c = ss -> ran c (emit c bs) cs cs ss (fun _ => bs).
Proof. intros P S. split; [exact P|]. split; [exists []; rewrite app_nil_r; reflexivity|]. auto. Qed.
Lemma ran_pool c c' cs cs' ss g : ran c c' cs cs' ss g -> pooled (c_pool c') cs'.
Proof. intros R. apply R. Qed.
Lemma ran_scopes c c' cs cs' ss g : ran c c' cs cs' ss g -> c_scopes c' = ss.
Proof. intros R. apply R. Qed.
Lemma ran_gl c c' cs cs' ss g : ran c c' cs cs' ss g -> c_globals c' = c_globals c.
Proof. intros R. apply R. Qed.
Lemma ran_gl_in c c' cs cs' ss g : ran c c' cs cs' ss g -> gl_in (c_globals c) cs -> gl_in (c_globals c') cs'.
Proof. intros (_ & (e & ->) & _ & -> & _) H. apply gl_in_ext, H. Qed.
Definition extends (cs K : list value) : Prop := exists more, K = cs ++ more.
Lemma ran_ext c c' cs cs' ss g g' : ran c c' cs cs' ss g -> (forall K, extends cs' K -> g K = g' K) -> ran c c' cs cs' ss g'.
Proof. intros (A & B & C & D & E & F) H. repeat split; auto. intros K HK. rewrite <- H by exact HK. auto. Qed.
Lemma ran_count c c' cs cs' ss g K : ran c c' cs cs' ss g -> extends cs' K -> count c' = count c + len (g K).
Proof. intros (_ & _ & _ & _ & _ & F) HK. unfold count, len. rewrite (F K HK), app_length. lia. Qed.
Lemma ran_extends c c' cs cs' ss g K : ran c c' cs cs' ss g -> extends cs' K -> extends cs K.
Proof. intros (_ & (x & ->) & _) (m & ->). exists (x ++ m). apply app_assoc_reverse. Qed.

(** A forward jump around a piece of code. *)
Lemma ran_jump c o c1 c2 cs cs' ss (g : list value -> list Z) : enter_jmp c o = (c1, count (emit c (op o))) ->
  ran c1 c2 cs cs' ss g -> ran c (exit_jmp c2 (count (emit c (op o)))) cs cs' ss (fun K => op o ++ enc8 (len (g K)) ++ g K).
Proof.
  intros E (P & X & S & G & C & B). injection E as <-.
  assert (Q : forall K, (exists more, K = cs' ++ more) -> exit_jmp c2 (count (emit c (op o))) = set_buf c2 (c_buf c ++ op o ++ enc8 (len (g K)) ++ g K)).
  { intros K HK. apply exit_jmp_buf. rewrite (B K HK). cbn [emit c_buf set_buf]. rewrite <- !app_assoc. reflexivity. }
  rewrite (Q (cs' ++ []) (ex_intro _ [] eq_refl)). split; [exact P|]. split; [exact X|]. split; [exact S|]. split; [exact G|]. split; [exact C|].
  intros K HK. pose proof (Q K HK) as Q2. rewrite (Q (cs' ++ []) (ex_intro _ [] eq_refl)) in Q2. apply (f_equal c_buf) in Q2. exact Q2.
Qed.

(** if-else: a forward jump over a piece ending in a second forward jump. *)
Lemma ran_ifelse c o1 o2 c1 c2 cs cs1 cs2 s1 s2 (g1 g2 : list value -> list Z) :
  ran (emit (emit c (op o1)) (enc8 0)) c1 cs cs1 s1 g1 ->
  ran (exit_jmp (emit (emit c1 (op o2)) (enc8 0)) (count (emit c (op o1)))) c2 cs1 cs2 s2 g2 ->
  ran c (exit_jmp c2 (count (emit c1 (op o2)))) cs cs2 s2 (fun K => op o1 ++ enc8 (len (g1 K) + 9) ++ g1 K ++ op o2 ++ enc8 (len (g2 K)) ++ g2 K).
Proof.
  intros R1 R2. set (j1 := emit (emit c (op o1)) (enc8 0)) in *. set (e2 := emit (emit c1 (op o2)) (enc8 0)) in *. set (x1 := count (emit c (op o1))) in *.
  assert (R12 : ran j1 e2 cs cs1 s1 (fun K => g1 K ++ op o2 ++ enc8 0)).
  { eapply ran_ext; [eapply ran_trans; [exact R1|]|intros K _; reflexivity].
    destruct R1 as (X1 & X2 & X3 & X4 & X5 & X6). split; [exact X1|]. split; [exists []; rewrite app_nil_r; reflexivity|]. split; [exact X3|]. do 2 (split; [reflexivity|]).
    intros K _. cbn [emit c_buf set_buf]. unfold e2. cbn [emit c_buf set_buf]. rewrite <- app_assoc. reflexivity. }
  pose proof (ran_jump c o1 j1 e2 cs cs1 s1 _ eq_refl R12) as J1. fold x1 in J1.
  destruct J1 as (PJ & (xJ & EXJ) & SJ & GJ & CJ & BJ). destruct R2 as (P3 & (x3 & EX3) & S3 & G3 & C3 & B3).
  assert (Z : forall K, (exists more, K = cs2 ++ more) -> exit_jmp c2 (count (emit c1 (op o2))) =
     set_buf c2 (c_buf c ++ op o1 ++ enc8 (len (g1 K) + 9) ++ g1 K ++ op o2 ++ enc8 (len (g2 K)) ++ g2 K)).
  { intros K (more & ->). set (K := cs2 ++ more) in *.
    assert (HK2 : exists more, K = cs2 ++ more) by (eexists; reflexivity).
    assert (HK1 : exists more, K = cs1 ++ more) by (exists (x3 ++ more); unfold K; rewrite EX3, <- app_assoc; reflexivity).
    specialize (BJ K HK1). specialize (B3 K HK2). pose proof R12 as (_ & _ & _ & _ & _ & B12). specialize (B12 K HK1).
    unfold j1, e2 in B12. cbn [emit c_buf set_buf] in B12.
    (* a virtual state holding everything before the second jump *)
    set (v := set_buf c1 (c_buf c ++ op o1 ++ enc8 (len (g1 K) + 9) ++ g1 K)).
    assert (LV : count (emit c1 (op o2)) = count (emit v (op o2))).
    { unfold count, emit, v. cbn [c_buf set_buf]. apply (f_equal (@length Z)) in B12. repeat rewrite app_length in B12. repeat rewrite app_length. rewrite !enc8_length in *. lia. }
    rewrite LV. rewrite (exit_jmp_buf c2 v o2 (g2 K)).
    - unfold v. cbn [c_buf set_buf]. rewrite <- !app_assoc. reflexivity.
    - rewrite B3, BJ. unfold v. cbn [c_buf set_buf]. rewrite <- !app_assoc. do 3 f_equal. unfold len. rewrite !app_length, enc8_length. cbn [length op]. f_equal. lia. }
  rewrite (Z (cs2 ++ []) (ex_intro _ [] eq_refl)). split; [exact P3|]. split; [exists (xJ ++ x3); rewrite EX3, EXJ, <- app_assoc; reflexivity|].
  split; [exact S3|]. split; [cbn [c_globals set_buf]; congruence|]. split; [cbn [c_cps set_buf]; congruence|].
  intros K HK. pose proof (Z K HK) as Z2. rewrite (Z (cs2 ++ []) (ex_intro _ [] eq_refl)) in Z2. apply (f_equal c_buf) in Z2. exact Z2.
Qed.

Ltac inv_bind H :=
  match type of H with
  | bind ?x _ = Ok _ => let c := fresh "c" in let E := fresh "E" in destruct x as [c| | |] eqn:E; [cbn [bind] in H|discriminate H..]
  end.

Lemma visit_e_gen e : forall c c' cs, visit_e fuel e c = Ok c' -> pooled (c_pool c) cs -> gl_in (c_globals c) cs -> Forall literal (lits_e e) ->
  ok_e (c_globals c) (c_scopes c) e = true /\ exists cs', ran c c' cs cs' (c_scopes c) (fun K => gen_e K (c_scopes c) e) /\ incl (lits_e e) cs'.
Proof.
  induction e as [|b|i|f|s|x|o e IH|o l IHl r IHr|o l IHl r IHr|a IHa b IHb d IHd]; intros c c' cs E P G L; cbn [visit_e gen_e ok_e lits_e] in *.
  - injection E as <-. split; [reflexivity|]. eexists. split; [apply ran_emit; auto|apply incl_nil_l].
  - injection E as <-. split; [reflexivity|]. eexists. split; [apply ran_emit; auto|apply incl_nil_l].
  - split; [reflexivity|]. inversion L; subst. eapply lit_gen; eauto.
  - split; [reflexivity|]. inversion L; subst. eapply lit_gen; eauto.
  - split; [reflexivity|]. inversion L; subst. eapply lit_gen; eauto.
  - unfold load_var, load_code, known in *. destruct (scope_get (c_scopes c) x) as [z|].
    + injection E as <-. split; [reflexivity|]. eexists. split; [apply ran_emit; auto|apply incl_nil_l].
    + destruct (assoc (c_globals c) x) as [z|] eqn:A; [|discriminate]. split; [reflexivity|].
      destruct (pool_index fuel c x) as [i| | |] eqn:Q; try discriminate. cbn [bind] in E. injection E as <-.
      pose proof (pool_index_gen _ _ _ _ Q P (G _ _ A)) as HI.
      exists cs. split; [|lits]. split; [exact P|]. split; [exists []; rewrite app_nil_r; reflexivity|]. do 3 (split; [reflexivity|]). intros K (more & ->). cbn [emit c_buf set_buf]. rewrite <- HI. reflexivity.
  - inv_bind E. injection E as <-. destruct (IH _ _ _ E0 P G L) as (A & cs1 & R & I). split; [exact A|]. exists cs1. split; [|lits].
    eapply ran_trans; [exact R|]. apply ran_emit; apply R.
  - apply Forall_app in L. destruct L as (L1 & L2). inv_bind E. inv_bind E. injection E as <-.
    destruct (IHl _ _ _ E0 P G L1) as (A & cs1 & R1 & I1). destruct (IHr _ _ _ E1 (ran_pool _ _ _ _ _ _ R1) (ran_gl_in _ _ _ _ _ _ R1 G) L2) as (B & cs2 & R2 & I2).
    rewrite (ran_scopes _ _ _ _ _ _ R1), (ran_gl _ _ _ _ _ _ R1) in *. split; [rewrite A, B; reflexivity|]. exists cs2. split; [|lits].
    eapply ran_trans; [exact R1|]. eapply ran_trans; [exact R2|]. apply ran_emit; apply R2.
  - apply Forall_app in L. destruct L as (L1 & L2). inv_bind E. cbn [enter_jmp] in E. inv_bind E. injection E as <-.
    destruct (IHl _ _ _ E0 P G L1) as (A & cs1 & R1 & I1).
    assert (R1' : ran c (emit c0 (op O_DUP)) cs cs1 (c_scopes c) (fun K => gen_e K (c_scopes c) l ++ op O_DUP)) by (eapply ran_trans; [exact R1|apply ran_emit; apply R1]).
    set (c2 := emit c0 (op O_DUP)) in *.
    destruct (IHr _ _ cs1 E1) as (B & cs2 & R2 & I2); [apply R1|apply (ran_gl_in _ _ _ _ _ _ R1' G)|exact L2|].
    cbn [emit c_scopes c_globals set_buf] in *. change (c_scopes c0) with (c_scopes c2) in *. change (c_globals c0) with (c_globals c2) in *.
    rewrite (ran_scopes _ _ _ _ _ _ R1') in *. rewrite (ran_gl _ _ _ _ _ _ R1') in *. split; [rewrite A, B; reflexivity|]. exists cs2. split; [|lits].
    eapply ran_ext; [eapply ran_trans; [exact R1'|]|].
    + eapply ran_jump; [reflexivity|]. eapply ran_trans; [apply ran_emit with (cs := cs1); [apply R1'|apply R1']|exact R2].
    + intros K _. cbn beta. rewrite <- !app_assoc. unfold len. rewrite app_length. do 4 f_equal. f_equal. cbn [length op]. f_equal. lia.
  - apply Forall_app in L. destruct L as (L1 & L2). apply Forall_app in L2. destruct L2 as (L2 & L3).
    inv_bind E. cbn [enter_jmp] in E. inv_bind E. inv_bind E. injection E as <-.
    destruct (IHa _ _ _ E0 P G L1) as (A & cs1 & R1 & I1).
    destruct (IHb _ _ cs1 E1) as (B & cs2 & R2 & I2); [apply R1|apply (ran_gl_in _ _ _ _ _ _ R1 G)|exact L2|]. cbn [emit c_scopes c_globals set_buf] in R2, B.
    assert (J : ran c0 (exit_jmp (emit (emit c1 (op O_BR_8)) (enc8 0)) (count (emit c0 (op O_BRF_8)))) cs1 cs2 (c_scopes c0)
        (fun K => op O_BRF_8 ++ enc8 (len (gen_e K (c_scopes c0) b ++ op O_BR_8 ++ enc8 0)) ++ gen_e K (c_scopes c0) b ++ op O_BR_8 ++ enc8 0)).
    { eapply ran_jump; [reflexivity|]. eapply ran_trans; [exact R2|]. destruct R2 as (X1 & X2 & X3 & X4 & X5 & X6). split; [exact X1|]. split; [exists []; rewrite app_nil_r; reflexivity|].
      split; [exact X3|]. do 2 (split; [reflexivity|]). intros K _. cbn [emit c_buf set_buf]. rewrite <- app_assoc. reflexivity. }
    destruct (IHd _ _ cs2 E2) as (D & cs3 & R3 & I3); [apply J|eapply ran_gl_in; [exact J|apply (ran_gl_in _ _ _ _ _ _ R1 G)]|exact L3|].
    rewrite (ran_scopes _ _ _ _ _ _ J), (ran_gl _ _ _ _ _ _ J) in *.
    pose proof (ran_ifelse _ _ _ _ _ _ _ _ _ _ _ _ R2 R3) as J2.
    rewrite (ran_scopes _ _ _ _ _ _ R1) in *. rewrite (ran_gl _ _ _ _ _ _ R1) in *. split; [rewrite A, B, D; reflexivity|]. exists cs3. split; [|lits].
    eapply ran_trans; [exact R1|exact J2].
Qed.
End F.
