From Verif Require Import Base Bytes BytesProofs Value Table Ops Ast Stmt Limits Constants VM Compiler ValueProofs TableSpec ConstSpec ConstProofs Gen GenProofs GenProofs2 SimBase Sim MatchSpec Match MatchProofs MatchProofs2 MatchProofs3 MatchProofs4.

(** ** Running the extended machine. *)
Section X.
Variable P : prog.
Variable T : Z -> table.
Variables (tfuel depth : nat).
Notation xrun := (xrun P T tfuel depth).
Notation xstep := (xstep P T tfuel depth).

Lemma xrun_app n : forall m x, xrun (n + m) x = match xrun n x with XNext x' => xrun m x' | r => r end.
Proof. induction n; intros m x; [reflexivity|]. cbn [Nat.add Match.xrun]. destruct (xstep x); [apply IHn|reflexivity..]. Qed.
(** at least [k] steps from [s] to [s'], whatever is above the stack *)
Definition xgoes (k : nat) (x x' : xstate) : Prop := exists n, (k <= n)%nat /\ xrun n x = XNext x'.
Definition xto (k : nat) (s s' : vstate) : Prop := forall m, exists m', xgoes k (XS s m) (XS s' m').
Definition xhalts (s : vstate) (o : outcome unit) (out : list Z) : Prop := forall m, exists n s', xrun n (XS s m) = XEnd o s' /\ v_out s' = out.
Definition xruns (s : vstate) (k : nat) : Prop := forall m, exists n x', (k <= n)%nat /\ xrun n (XS s m) = XNext x'.
Lemma xgoes_trans i j x y z : xgoes i x y -> xgoes j y z -> xgoes (i + j) x z.
Proof. intros (n & L & E) (m & L2 & E2). exists (n + m)%nat. split; [lia|]. rewrite xrun_app, E. exact E2. Qed.
Lemma xgoes_le i j x y : xgoes i x y -> (j <= i)%nat -> xgoes j x y.
Proof. intros (n & L & E) H. exists n. split; [lia|exact E]. Qed.
Lemma xto_trans i j a b c : xto i a b -> xto j b c -> xto (i + j) a c.
Proof. intros H1 H2 m. destruct (H1 m) as (m1 & G1). destruct (H2 m1) as (m2 & G2). exists m2. eapply xgoes_trans; eassumption. Qed.
Lemma xto_le i j a b : xto i a b -> (j <= i)%nat -> xto j a b.
Proof. intros H L m. destruct (H m) as (m1 & G1). exists m1. eapply xgoes_le; eassumption. Qed.
Lemma xto_halts i a b o out : xto i a b -> xhalts b o out -> xhalts a o out.
Proof. intros H1 H2 m. destruct (H1 m) as (m1 & n & L & E). destruct (H2 m1) as (k & s' & E2 & Q). exists (n + k)%nat, s'. split; [rewrite xrun_app, E; exact E2|exact Q]. Qed.
Lemma xto_runs i k a b : xto i a b -> xruns b k -> xruns a k.
Proof. intros H1 H2 m. destruct (H1 m) as (m1 & n & L & E). destruct (H2 m1) as (j & x' & L2 & E2). exists (n + j)%nat, x'. split; [lia|]. rewrite xrun_app, E. exact E2. Qed.

(** The other instructions work as before. *)
Lemma xstep_next s s' m : step P s = Next s' -> xstep (XS s m) = XNext (XS s' no_slots).
Proof.
  intros E. unfold Match.xstep. cbn [x_vm]. pose proof E as E'. unfold step, rd1 in E'. destruct (nthZ (p_code P) (v_pc s)) as [b|]; [|discriminate].
  destruct (op_of_byte b) as [o|]; [|rewrite E; reflexivity]. destruct o; try (rewrite E; reflexivity); cbn [VM.exec] in E'; discriminate.
Qed.
Lemma xstep_stop s o s' m : step P s = Stop o s' -> xstep (XS s m) = XEnd o s'.
Proof.
  intros E. unfold Match.xstep. cbn [x_vm]. pose proof E as E'. unfold step, rd1 in E'. destruct (nthZ (p_code P) (v_pc s)) as [b|]; [|injection E' as <- <-; reflexivity].
  destruct (op_of_byte b) as [op|]; [|rewrite E; reflexivity]. destruct op; try (rewrite E; reflexivity); cbn [VM.exec] in E'; discriminate.
Qed.
Lemma lift_run n : forall s s' m, run n P s = Next s' -> exists m', xrun n (XS s m) = XNext (XS s' m').
Proof.
  induction n as [|n IH]; intros s s' m E; cbn [run Match.xrun] in *; [injection E as ->; eauto|]. destruct (step P s) as [s1|o s1|s1] eqn:Es; try discriminate.
  rewrite (xstep_next _ _ m Es). apply IH, E.
Qed.
Lemma lift_stop n : forall s o s' m, run n P s = Stop o s' -> xrun n (XS s m) = XEnd o s'.
Proof.
  induction n as [|n IH]; intros s o s' m E; cbn [run Match.xrun] in *; [discriminate|]. destruct (step P s) as [s1|o1 s1|s1] eqn:Es; try discriminate.
  - rewrite (xstep_next _ _ m Es). apply IH, E.
  - injection E as <- <-. rewrite (xstep_stop _ _ _ m Es). reflexivity.
Qed.
Lemma lift_goes k s s' : goes P k s s' -> xto k s s'.
Proof. intros (n & L & E) m. destruct (lift_run n s s' m E) as (m' & E'). exists m', n. auto. Qed.
Lemma lift_halts s o out : halts P s o out -> xhalts s o out.
Proof. intros (n & s' & E & Q) m. exists n, s'. split; [apply lift_stop, E|exact Q]. Qed.
Lemma lift_runs s k : runs_on P s k -> xruns s k.
Proof. intros (n & s' & L & E) m. destruct (lift_run n s s' m E) as (m' & E'). exists n, (XS s' m'). auto. Qed.
End X.

(** ** Slots of the variables of a pattern. *)
Lemma declp_off xs : forall ss x, ss <> [] -> ~ In x (map fst xs) -> slot_in (declp ss xs) x = slot_in ss x.
Proof.
  induction xs as [|(y, k) xs IH]; intros ss x N H; [reflexivity|]. cbn [declp fold_left fst snd]. unfold declp in IH. rewrite IH by (try (apply decl_nonempty, N); intros I; apply H; right; exact I).
  destruct ss as [|t r]; [congruence|]. unfold slot_in, decl. cbn [scope_get assoc]. unfold name_eqb. destruct (list_eq_dec Z.eq_dec y x) as [->|]; [exfalso; apply H; left; reflexivity|reflexivity].
Qed.
Lemma declp_slot xs : forall ss i x k, ss <> [] -> NoDup (map fst xs) -> nth_error xs i = Some (x, k) -> slot_in (declp ss xs) x = scope_len ss + Z.of_nat i.
Proof.
  induction xs as [|(y, j) xs IH]; intros ss i x k N ND E; [destruct i; discriminate|]. inversion ND; subst. cbn [declp fold_left fst snd]. destruct i as [|i].
  - injection E as -> ->. unfold declp in *. pose proof (declp_off xs (decl ss x k) x (decl_nonempty _ _ _ N) H1) as Q. unfold declp in Q. rewrite Q. destruct ss as [|t r]; [congruence|]. unfold slot_in, decl. cbn [scope_get assoc].
    rewrite name_eqb_refl. pose proof (scope_len_nonneg (t :: r)). destruct (entry_index k (scope_len (t :: r)) _ H eq_refl) as (_ & I). rewrite I. lia.
  - specialize (IH (decl ss y j) i x k (decl_nonempty _ _ _ N) H2 E). unfold declp in IH. rewrite IH, scope_len_decl by exact N. lia.
Qed.
Lemma agree_declp (f : name * bool -> value) xs : forall t ss b es, agree (t :: ss) (b :: es) -> agree (declp (t :: ss) xs) ((rev (map (fun xk => (fst xk, (snd xk, f xk))) xs) ++ b) :: es).
Proof.
  induction xs as [|(y, k) xs IH]; intros t ss b es A; [exact A|]. cbn [declp fold_left fst snd map rev]. rewrite <- app_assoc. cbn [app].
  pose proof (agree_decl (t :: ss) (b :: es) y k (f (y, k)) A) as Q. cbn [decl] in *. apply IH. exact Q.
Qed.
Lemma distinct_nodup xs : distinct xs = true -> NoDup xs.
Proof.
  induction xs as [|x xs IH]; intros H; [constructor|]. cbn [distinct] in H. apply andb_true_iff in H. destruct H as (H1 & H2). constructor; [|apply IH, H2].
  intros I. apply existsb_name in I. rewrite I in H1. discriminate.
Qed.
Lemma legal_distinct p : legal_pat p = true -> NoDup (map fst (pvars p)).
Proof. intros H. apply distinct_nodup. destruct p; cbn [legal_pat] in H; apply andb_true_iff in H; apply H. Qed.

(** The bindings of a match are distinct. *)
Lemma nodup_app_iff {A} (a b : list A) : NoDup (a ++ b) <-> NoDup a /\ NoDup b /\ forall x, In x a -> ~ In x b.
Proof.
  induction a as [|x a IH]; cbn; [split; [intros H; repeat split; auto; constructor|tauto]|]. rewrite !NoDup_cons_iff, IH, in_app_iff. split.
  - intros (H1 & H2 & H3 & H4). repeat split; auto. intros y [<-|Hy]; auto.
  - intros ((H1 & H2) & H3 & H4). split; [intros [I|I]; [auto|exact (H4 x (or_introl eq_refl) I)]|]. repeat split; auto.
Qed.
Section B.
Variables (lists : Z -> list value) (tables : Z -> list (value * value)).
Notation pm := (pmatch lists tables).
Lemma pm_nodup p : legal_pat p = true -> forall v b, pm p v = Some b -> NoDup (map fst b).
Proof.
  induction p as [|b|i|f|s|t| |k y|more ps IH|more kvs IH|l r IHl IHr] using pat_ind'; intros L v b0 E;
    try (cbn [pmatch] in E; match type of E with (if ?c then _ else _) = _ => destruct c; [injection E as <-; constructor|discriminate] end).
  - injection E as <-. constructor.
  - injection E as <-. constructor; [intros []|constructor].
  - destruct v; try discriminate. rewrite pm_list in E. pose proof (legal_distinct _ L) as ND. apply legal_list in L. cbn [pvars] in ND. generalize dependent b0. generalize (lists p). clear p.
    induction IH as [|p ps H F I]; intros vs b0 E.
    + cbn in E. destruct vs; [injection E as <-; constructor|]. destruct more; [injection E as <-; constructor|discriminate].
    + inversion L; subst. destruct vs as [|v vs]; [discriminate|]. rewrite each_item_cons in E. destruct (pm p v) as [b1|] eqn:E1; [|discriminate].
      destruct (each_item lists tables more ps vs) as [b2|] eqn:E2; [|discriminate]. injection E as <-. cbn [map concat] in ND. rewrite map_app in *. apply nodup_app_iff in ND. destruct ND as (N1 & N2 & N3).
      apply nodup_app_iff. split; [exact (H H2 _ _ E1)|]. split; [exact (I H3 N2 vs b2 E2)|]. intros x Hx Hy. apply (pm_dom _ _ p H2 _ _ E1) in Hx. apply (N3 x Hx).
      clear - E2 Hy H3. revert vs b2 E2 Hy. induction ps as [|q ps IH]; intros vs b2 E2 Hy.
      * cbn in E2. destruct vs; [injection E2 as <-; exact Hy|]. destruct more; [injection E2 as <-; exact Hy|discriminate].
      * inversion H3; subst. destruct vs as [|u vs]; [discriminate|]. rewrite each_item_cons in E2. destruct (pm q u) as [c1|] eqn:Q1; [|discriminate]. destruct (each_item lists tables more ps vs) as [c2|] eqn:Q2; [|discriminate]. injection E2 as <-.
        cbn [map concat]. rewrite map_app in *. apply in_or_app. apply in_app_or in Hy. destruct Hy as [Hy|Hy]; [left; exact (proj1 (pm_dom _ _ q H1 _ _ Q1 x) Hy)|right; exact (IH H2 vs c2 Q2 Hy)].
  - destruct v; try discriminate. rewrite pm_table in E. pose proof (legal_distinct _ L) as ND. apply legal_table in L. cbn [pvars] in ND. destruct (more || _); [|discriminate]. generalize dependent b0.
    induction IH as [|(k, q) kvs (_ & H) F I]; intros b0 E.
    + injection E as <-. constructor.
    + inversion L as [|? ? ((kv & Ek) & Lq) L']; subst. rewrite each_entry_cons in E. cbn [fst snd] in *. rewrite Ek in E. destruct (entry (tables p) kv) as [u|]; [|discriminate]. destruct (pm q u) as [b1|] eqn:E1; [|discriminate].
      destruct (each_entry lists tables (tables p) kvs) as [b2|] eqn:E2; [|discriminate]. injection E as <-. cbn [map concat snd] in ND. rewrite map_app in *. apply nodup_app_iff in ND. destruct ND as (N1 & N2 & N3).
      apply nodup_app_iff. split; [exact (H Lq _ _ E1)|]. split; [exact (I L' N2 b2 eq_refl)|]. intros x Hx Hy. apply (pm_dom _ _ q Lq _ _ E1) in Hx. apply (N3 x Hx).
      clear - E2 Hy L'. revert b2 E2 Hy. induction kvs as [|(k', q') kvs IH]; intros b2 E2 Hy.
      * injection E2 as <-. exact Hy.
      * inversion L' as [|? ? ((kv & Ek) & Lq) L'']; subst. rewrite each_entry_cons in E2. cbn [fst snd] in *. rewrite Ek in E2. destruct (entry (tables p) kv) as [u|]; [|discriminate]. destruct (pm q' u) as [c1|] eqn:Q1; [|discriminate].
        destruct (each_entry lists tables (tables p) kvs) as [c2|] eqn:Q2; [|discriminate]. injection E2 as <-.
        cbn [map concat snd]. rewrite map_app in *. apply in_or_app. apply in_app_or in Hy. destruct Hy as [Hy|Hy]; [left; exact (proj1 (pm_dom _ _ q' Lq _ _ Q1 x) Hy)|right; exact (IH L'' c2 eq_refl Hy)].
  - cbn [legal_pat] in L. apply andb_true_iff in L. destruct L as (_ & L). apply andb_true_iff in L. destruct L as (L & S). apply andb_true_iff in L. destruct L as (Ll & Lr). cbn [pmatch] in E.
    destruct (pm l v) as [b1|] eqn:E1; [injection E as <-; apply (IHl Ll _ _ E1)|exact (IHr Lr _ _ E)].
Qed.
End B.

Lemma wr_get fp sl b : (forall x y, In x (map fst b) -> In y (map fst b) -> slot_of fp sl x = slot_of fp sl y -> x = y) -> NoDup (map fst b) ->
  forall m x, In x (map fst b) -> wr fp sl m b (slot_of fp sl x) = Some (bound b x).
Proof.
  induction b as [|(y, v) b IH]; intros Inj ND m x I; [destruct I|]. cbn [map fst] in *. inversion ND; subst. cbn [wr fold_left fst snd bound]. unfold name_eqb.
  destruct (list_eq_dec Z.eq_dec y x) as [->|N].
  - pose proof (wr_off fp sl b (write_slot m (slot_of fp sl x) v) (slot_of fp sl x)) as Q. unfold wr in Q. rewrite Q; [unfold write_slot; rewrite Z.eqb_refl; reflexivity|].
    intros z Hz E. apply Inj in E; [subst z; auto|left; reflexivity|right; exact Hz].
  - destruct I as [I|I]; [congruence|]. apply (IH (fun a c Ha Hc => Inj a c (or_intror Ha) (or_intror Hc)) H2 (write_slot m (slot_of fp sl y) v) x I).
Qed.
Lemma raise_ok vs : forall stk m, (forall i v, nth_error vs i = Some v -> m (Z.of_nat (length stk) + Z.of_nat i) = Some v) -> raise (length vs) stk m = Some (rev vs ++ stk).
Proof.
  induction vs as [|v vs IH]; intros stk m H; [reflexivity|]. cbn [length raise rev]. pose proof (H O v eq_refl) as H0. rewrite Z.add_0_r in H0. rewrite H0. rewrite IH; [rewrite <- app_assoc; reflexivity|].
  intros i u E. specialize (H (S i) u E). cbn [length]. replace (Z.of_nat (S (length stk)) + Z.of_nat i) with (Z.of_nat (length stk) + Z.of_nat (S i)) by lia. exact H.
Qed.
Lemma delete_ok (ts : list value) v vs below i : i = Z.of_nat (length below) + Z.of_nat (length vs) -> delete_slot (ts ++ v :: vs ++ below) i = Some (ts ++ vs ++ below).
Proof.
  intros ->. unfold delete_slot, slot_get. unfold from_top. rewrite app_length. cbn [length]. rewrite app_length.
  match goal with |- context [if ?b then _ else _] => assert (Hb : b = true) by lia; rewrite Hb end.
  replace (Z.to_nat _) with (length ts) by lia. rewrite nth_error_app2, Nat.sub_diag by lia. cbn [nth_error].
  rewrite firstn_app, firstn_all, Nat.sub_diag, firstn_O, app_nil_r. rewrite skipn_app, (skipn_all2 ts) by lia. replace (S (length ts) - length ts)%nat with 1%nat by lia. reflexivity.
Qed.
