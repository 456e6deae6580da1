(** C08: sets. The specification (mathematical sets, universes, histories) is in SetSpec.v, the model in Sets.v. *)
From Verif Require Import Base Value ValueProofs Hash Table TableSpec TableProofs TableProofs2 TableProofs3 TableProofs4
  Sets SetSpec SetProofs.

(** After any history of additions and removals, [s[v]] answers whether [v] is a member. *)
Theorem C08_membership : forall U fuel fuel' ops s q b,
  universe U -> Forall (sop_in U) ops -> U q ->
  run_new_set fuel ops = Ok s -> set_search fuel' s q = Ok b -> b = contents ops q.
Proof. intros U fuel fuel' ops s q b HU HF Hq E S. destruct (run_srep U HU fuel ops s HF E) as [R _]. eapply srep_search; eassumption. Qed.
Print Assumptions C08_membership.

(** [tolist()] lists each member exactly once, and [len] is their number if only members were removed. *)
Theorem C08_members_and_length : forall U fuel ops s,
  universe U -> Forall (sop_in U) ops -> run_new_set fuel ops = Ok s ->
  listing U (contents ops) (set_tolist s) /\
  (removes_members s_empty ops -> forall l, listing U (contents ops) l -> set_length s = Z.of_nat (length l)).
Proof.
  intros U fuel ops s HU HF E. destruct (run_srep U HU fuel ops s HF E) as [R C]. split; [apply srep_listing; assumption|].
  intros HM l Hl. rewrite (srep_length U s _ R (C HM)). f_equal.
  apply (listing_length U _ _ _ (srep_listing U HU s _ R) Hl).
Qed.
Print Assumptions C08_members_and_length.

(** Union, intersection, difference and symmetric difference. The operands are untouched (the model's
    operators return a new set), the result has the right members, the right length, and is itself a set
    on which every further operation is right (its contents are listed exactly once). *)
Definition result_is (U : value -> Prop) (t : yset) (A : vset) : Prop :=
  (forall fuel q b, U q -> set_search fuel t q = Ok b -> b = A q) /\
  listing U A (set_tolist t) /\ set_length t = Z.of_nat (length (set_tolist t)).

Theorem C08_operators : forall U fuel ops1 ops2 l r,
  universe U -> Forall (sop_in U) ops1 -> Forall (sop_in U) ops2 ->
  run_new_set fuel ops1 = Ok l -> run_new_set fuel ops2 = Ok r ->
  (forall t, set_union fuel l r = Ok t -> result_is U t (fun q => contents ops1 q || contents ops2 q)) /\
  (forall t, set_intersection fuel l r = Ok t -> result_is U t (fun q => contents ops1 q && contents ops2 q)) /\
  (forall t, set_difference fuel l r = Ok t -> result_is U t (fun q => contents ops1 q && negb (contents ops2 q))) /\
  (forall t, set_symmetric_difference fuel l r = Ok t -> result_is U t (fun q => xorb (contents ops1 q) (contents ops2 q))) /\
  (forall t, set_copy fuel l = Ok t -> result_is U t (contents ops1)).
Proof.
  intros U fuel ops1 ops2 l r HU F1 F2 E1 E2.
  destruct (run_srep U HU fuel ops1 l F1 E1) as [R1 _]. destruct (run_srep U HU fuel ops2 r F2 E2) as [R2 _].
  assert (K : forall t A, srep U t A /\ counted (enc t) -> result_is U t A).
  { intros t A [R C]. split; [intros; eapply srep_search; eassumption|]. split; [apply srep_listing; assumption|].
    apply (srep_length U t A R C). }
  split; [|split; [|split; [|split]]]; intros t Et; apply K.
  - eapply union_ok; eassumption.
  - eapply intersection_ok; eassumption.
  - eapply difference_ok; eassumption.
  - eapply symmetric_ok; eassumption.
  - eapply copy_srep; eassumption.
Qed.
Print Assumptions C08_operators.

(** The constructors: [collections.set(a, b, ...)] and [collections.set(list)] hold exactly the values given. *)
Theorem C08_constructors : forall U fuel args t,
  universe U -> Forall U args -> set_of_args fuel args = Ok t \/ set_of_list fuel args = Ok t ->
  result_is U t (fun q => if in_dec value_eq_dec q args then true else false).
Proof.
  intros U fuel args t HU HF E.
  assert (K : srep U t (fun q => if in_dec value_eq_dec q args then true else false) /\ counted (enc t)).
  { destruct E as [E|E]; [eapply of_args_ok; eassumption|eapply of_list_ok; eassumption]. }
  destruct K as [R C]. split; [intros fuel0 q b Hq S; exact (srep_search U HU fuel0 t _ q b R Hq S)|]. split; [apply srep_listing; assumption|].
  apply (srep_length U t _ R C).
Qed.
Print Assumptions C08_constructors.

(** The comparisons are inclusion, proper inclusion and equality. *)
Theorem C08_comparisons : forall U fuel ops1 ops2 l r,
  universe U -> Forall (sop_in U) ops1 -> Forall (sop_in U) ops2 ->
  removes_members s_empty ops1 -> removes_members s_empty ops2 ->
  run_new_set fuel ops1 = Ok l -> run_new_set fuel ops2 = Ok r ->
  let A := contents ops1 in let B := contents ops2 in
  (forall b, set_le fuel l r = Ok b -> (b = true <-> subset U A B)) /\
  (forall b, set_lt fuel l r = Ok b -> (b = true <-> subset U A B /\ ~ subset U B A)) /\
  (forall b, set_ge fuel l r = Ok b -> (b = true <-> subset U B A)) /\
  (forall b, set_gt fuel l r = Ok b -> (b = true <-> subset U B A /\ ~ subset U A B)) /\
  (forall b, set_eq fuel l r = Ok b -> (b = true <-> same_set U A B)).
Proof.
  intros U fuel ops1 ops2 l r HU F1 F2 M1 M2 E1 E2.
  destruct (run_srep U HU fuel ops1 l F1 E1) as [R1 C1]. destruct (run_srep U HU fuel ops2 r F2 E2) as [R2 C2].
  apply compare_ok; auto.
Qed.
Print Assumptions C08_comparisons.

(** Adding twice is adding once. *)
Theorem C08_add_idempotent : forall U fuel fuel' ops v s1 s2,
  universe U -> Forall (sop_in U) ops -> U v -> removes_members s_empty ops ->
  run_new_set fuel (ops ++ [SAdd v]) = Ok s1 -> run_new_set fuel (ops ++ [SAdd v; SAdd v]) = Ok s2 ->
  set_length s2 = set_length s1 /\
  (forall q b1 b2, U q -> set_search fuel' s1 q = Ok b1 -> set_search fuel' s2 q = Ok b2 -> b1 = b2).
Proof.
  intros U fuel fuel' ops v s1 s2 HU HF Hv HM E1 E2.
  assert (F1 : Forall (sop_in U) (ops ++ [SAdd v])) by (apply Forall_app; split; [assumption|repeat constructor; assumption]).
  assert (F2 : Forall (sop_in U) (ops ++ [SAdd v; SAdd v])) by (apply Forall_app; split; [assumption|repeat constructor; assumption]).
  assert (HMA : forall ops A l, removes_members A ops -> removes_members A (ops ++ map SAdd l)).
  { clear. induction ops as [|o ops IH]; intros A l H; cbn [app removes_members] in *; [apply adds_members|]. destruct H. split; auto. }
  destruct (run_srep U HU fuel _ s1 F1 E1) as [R1 C1]. destruct (run_srep U HU fuel _ s2 F2 E2) as [R2 C2].
  assert (EQ : forall q, contents (ops ++ [SAdd v; SAdd v]) q = contents (ops ++ [SAdd v]) q).
  { intros q. unfold contents. rewrite !fold_left_app. cbn. unfold s_add. destruct (value_eq_dec q v); reflexivity. }
  specialize (C1 (HMA ops s_empty [v] HM)). specialize (C2 (HMA ops s_empty [v; v] HM)). split.
  - rewrite (srep_length U s1 _ R1 C1), (srep_length U s2 _ R2 C2). f_equal.
    apply (listing_length U (contents (ops ++ [SAdd v]))); [|apply srep_listing; assumption].
    apply srep_listing; [assumption|]. apply (srep_ext U s2 _ _ R2). intros; apply EQ.
  - intros q b1 b2 Hq S1 S2. rewrite (srep_search U HU _ _ _ _ _ R1 Hq S1), (srep_search U HU _ _ _ _ _ R2 Hq S2). symmetry. apply EQ.
Qed.
Print Assumptions C08_add_idempotent.

(** Sets built by insertions (up to 2^28 each): every operation above does finish, so the answers are total. *)
Theorem C08_total : forall U fuel a b,
  universe U -> FUEL_BOUND <= Z.of_nat fuel -> Forall U a -> Forall U b ->
  Z.of_nat (length a) <= 2 ^ 28 -> Z.of_nat (length b) <= 2 ^ 28 ->
  exists l r, run_new_set fuel (map SAdd a) = Ok l /\ run_new_set fuel (map SAdd b) = Ok r /\
    (forall q, U q -> exists x, set_search fuel l q = Ok x) /\
    (exists t, set_union fuel l r = Ok t) /\ (exists t, set_intersection fuel l r = Ok t) /\
    (exists t, set_difference fuel l r = Ok t) /\ (exists t, set_symmetric_difference fuel l r = Ok t) /\
    (exists x, set_le fuel l r = Ok x) /\ (exists x, set_lt fuel l r = Ok x) /\ (exists x, set_ge fuel l r = Ok x) /\
    (exists x, set_gt fuel l r = Ok x) /\ (exists x, set_eq fuel l r = Ok x).
Proof.
  intros U fuel a b HU Hf Ha Hb La Lb. change (2 ^ 28) with 268435456 in *.
  destruct (new_adds_total U HU fuel a Hf Ha) as (l & El & Tl); [change (2 ^ 29) with 536870912; lia|].
  destruct (new_adds_total U HU fuel b Hf Hb) as (r & Er & Tr); [change (2 ^ 29) with 536870912; lia|].
  exists l, r. split; [assumption|]. split; [assumption|].
  destruct (run_srep U HU fuel _ l (adds_in U a Ha) El) as [Rl _]. destruct (run_srep U HU fuel _ r (adds_in U b Hb) Er) as [Rr _].
  split; [intros q Hq; apply (search_tot U HU fuel l q Hf (sr_good _ _ _ Rl) Tl Hq)|].
  assert (LEN : forall s c, Forall U c -> srep U s (contents (map SAdd c)) -> (length (for_set s) <= length c)%nat).
  { intros s c Hc R. destruct (srep_listing U HU s _ R) as (N & I & F). apply NoDup_incl_length; [assumption|].
    intros q Hq. pose proof (proj1 (Forall_forall _ _) F q Hq) as Uq. apply I in Hq; [|assumption].
    unfold contents in Hq. rewrite contents_adds in Hq. destruct (in_dec value_eq_dec q c); [assumption|discriminate]. }
  pose proof (LEN l a Ha Rl). pose proof (LEN r b Hb Rr).
  destruct (ops_total U HU fuel l r _ _ Hf Rl Rr Tl Tr) as ((t1 & O1 & _) & (t2 & O2 & _) & (t3 & O3 & _) & (t4 & O4 & _) & O5 & O6 & O7 & O8 & O9);
    [change (2 ^ 29) with 536870912; lia|].
  split; [eauto|]. split; [eauto|]. split; [eauto|]. split; [eauto|]. auto.
Qed.
Print Assumptions C08_total.

(** A universe. *)
Definition plain (v : value) : Prop := match v with VInt _ | VStr _ | VBool _ | VUserPtr _ => True | _ => False end.
Lemma plain_universe : universe plain.
Proof. split; [intros v; destruct v; cbn; tauto|intros i f _ []]. Qed.

Definition ex_ops1 : list sop := [SAdd (VInt 1); SAdd (VStr [97]); SAdd (VInt 2); SAdd (VInt 1); SRm (VStr [97]); SAdd (VBool true)].
Definition ex_ops2 : list sop := map (fun n => SAdd (VInt (Z.of_nat n))) (seq 0 40).
Example C08_nonvacuous :
  universe plain /\ Forall (sop_in plain) ex_ops1 /\ Forall (sop_in plain) ex_ops2 /\ removes_members s_empty ex_ops1 /\
  (exists l r, run_new_set 200 ex_ops1 = Ok l /\ run_new_set 200 ex_ops2 = Ok r /\ set_length l = 3 /\ set_length r = 40 /\ s_size r = 61 /\
     omap set_length (set_union 200 l r) = Ok 41 /\ omap set_length (set_intersection 200 l r) = Ok 2 /\
     omap set_length (set_difference 200 l r) = Ok 1 /\ omap set_length (set_symmetric_difference 200 l r) = Ok 39 /\
     set_le 200 l r = Ok false /\ set_eq 200 l l = Ok true).
Proof.
  split; [exact plain_universe|]. split; [unfold ex_ops1; repeat constructor|].
  split; [unfold ex_ops2; cbn [seq map]; repeat constructor|]. split; [cbn; repeat split|].
  eexists. eexists. split; [vm_compute; reflexivity|]. split; [vm_compute; reflexivity|].
  split; [vm_compute; reflexivity|]. split; [vm_compute; reflexivity|]. split; [vm_compute; reflexivity|].
  split; [vm_compute; reflexivity|]. split; [vm_compute; reflexivity|]. split; [vm_compute; reflexivity|].
  split; [vm_compute; reflexivity|]. split; vm_compute; reflexivity.
Qed.

(** ** Findings: what is false of the code. *)

(** Mixing ints and floats: [1 == 1.0] and [0 == 0.0], but the first pair makes two members and the
    second one. *)
Theorem C08_mixed_numbers_refuted :
  is_equal (VInt 1) (VFloat (f_of_int 1)) = true /\ is_equal (VInt 0) (VFloat (f_of_int 0)) = true /\
  omap set_length (set_of_args 100 [VInt 1; VFloat (f_of_int 1)]) = Ok 2 /\
  omap set_length (set_of_args 100 [VInt 0; VFloat (f_of_int 0)]) = Ok 1.
Proof. split; [vm_compute; reflexivity|]. split; [vm_compute; reflexivity|]. split; vm_compute; reflexivity. Qed.
Print Assumptions C08_mixed_numbers_refuted.

(** Removing a value that is not a member decrements the length; an empty set then has length -1, is not
    equal to the empty set, and is not included in it. *)
Theorem C08_remove_absent_refuted :
  exists e s, set_new = Ok e /\ run_new_set 100 [SRm (VInt 7)] = Ok s /\
    set_tolist s = [] /\ set_length s = -1 /\ set_eq 100 s e = Ok false /\ set_le 100 s e = Ok false.
Proof.
  eexists. eexists. split; [vm_compute; reflexivity|]. split; [vm_compute; reflexivity|].
  split; [vm_compute; reflexivity|]. split; [vm_compute; reflexivity|]. split; vm_compute; reflexivity.
Qed.
Print Assumptions C08_remove_absent_refuted.

(** [clear()] does not clear: of 95 ints, 23 survive. *)
Theorem C08_clear_refuted : exists s t,
  run_new_set 300 (map (fun n => SAdd (VInt (Z.of_nat n))) (seq 0 95)) = Ok s /\ set_length s = 95 /\
  set_clear 300 s = Ok t /\ set_length t = 23 /\ set_search 300 t (VInt 14) = Ok true.
Proof.
  eexists. eexists. split; [vm_compute; reflexivity|]. split; [vm_compute; reflexivity|].
  split; [vm_compute; reflexivity|]. split; vm_compute; reflexivity.
Qed.
Print Assumptions C08_clear_refuted.

(** Thirty add/remove cycles and one addition leave a set on which looking up an absent value, adding it,
    and removing the one member never return. *)
Definition churn_set : list sop :=
  concat (map (fun n => [SAdd (VInt (Z.of_nat n)); SRm (VInt (Z.of_nat n))]) (seq 0 30)) ++ [SAdd (VInt 30)].
Theorem C08_tombstones_refuted : exists s,
  run_new_set 100 churn_set = Ok s /\ set_length s = 1 /\
  (forall q fuel, plain q -> q <> VInt 30 -> set_search fuel s q = NoFuel /\ set_add fuel s q = NoFuel) /\
  (forall fuel, set_rm fuel s (VInt 30) = NoFuel).
Proof.
  assert (HF : Forall (sop_in plain) churn_set).
  { unfold churn_set. apply Forall_app. split; [|repeat constructor].
    apply Forall_forall. intros o Ho. apply in_concat in Ho. destruct Ho as (l & Hl & Ho).
    apply in_map_iff in Hl. destruct Hl as (n & <- & _). destruct Ho as [<-|[<-|[]]]; exact I. }
  destruct (run_new_set 100 churn_set) as [s|e| |] eqn:E; [|vm_compute in E; discriminate E..].
  exists s. split; [reflexivity|].
  destruct (run_srep plain plain_universe 100 _ s HF E) as [R C].
  assert (Es : enc s = churned) by (vm_compute in E; injection E as <-; vm_compute; reflexivity).
  split; [vm_compute in E; injection E as <-; vm_compute; reflexivity|].
  split.
  - intros q fuel Hq Hne. pose proof (proj1 plain_universe q Hq) as Gq. destruct (churn_hangs q Gq Hne fuel) as [H1 H2].
    rewrite <- Es in H1, H2. split.
    + unfold table_get in H1. rewrite (enc_search plain plain_universe fuel s q (sr_good _ _ _ R) Hq) in H1.
      destruct (set_search fuel s q) as [b|e| |]; cbn in H1; try discriminate H1. reflexivity.
    + destruct (enc_insert plain plain_universe fuel s q (sr_good _ _ _ R) Hq) as [A _]. change (VBool true) with TT in H2. rewrite H2 in A.
      unfold set_add. destruct (set_insert fuel s q) as [[b s']|e| |]; cbn in A; try discriminate A. reflexivity.
  - intros fuel. pose proof (churn_rm_hangs fuel) as H. rewrite <- Es in H.
    destruct (enc_rm plain plain_universe fuel s (VInt 30) (sr_good _ _ _ R) I) as [A _]. rewrite H in A.
    destruct (set_rm fuel s (VInt 30)) as [s'|e| |]; cbn in A; try discriminate A. reflexivity.
Qed.
Print Assumptions C08_tombstones_refuted.

(** Lists, tables, functions and user data cannot be members: adding one is a type error, whatever is in the set, and so are the constructors. *)
Definition not_a_member (v : value) : Prop := match v with VList _ | VTable _ | VFn _ | VClosure _ | VCfn _ | VUserData _ => True | _ => False end.
Theorem C08_unhashable : forall fuel ops s v rest args elems, not_a_member v -> run_new_set (S fuel) ops = Ok s ->
  run_new_set (S fuel) (ops ++ SAdd v :: rest) = Err EType /\ set_of_args (S fuel) (args ++ [v]) = Err EType /\ set_of_list (S fuel) (v :: elems) = Err EType.
Proof.
  intros fuel ops s v rest args elems N E.
  assert (A : forall t, set_add (S fuel) t v = Err EType) by (intros t; destruct v; try destruct N; reflexivity).
  assert (R : forall l t, run_set (S fuel) l t = Ok s -> run_set (S fuel) (l ++ SAdd v :: rest) t = Err EType).
  { induction l as [|[x|x] l IH]; intros t Q; cbn [run_set app] in *.
    - rewrite A. reflexivity.
    - destruct (set_add (S fuel) t x) as [t'| | |]; try discriminate Q. cbn [bind] in *. apply IH, Q.
    - destruct (set_rm (S fuel) t x) as [t'| | |]; try discriminate Q. cbn [bind] in *. apply IH, Q. }
  assert (W : exists t, set_new = Ok t) by (eexists; vm_compute; reflexivity). destruct W as [t W].
  unfold run_new_set, set_of_args, set_of_list in *. rewrite W in *. cbn [bind] in *. split; [apply R, E|].
  split; [rewrite rev_app_distr; cbn [rev app set_add_all]; rewrite A; reflexivity|cbn [set_add_all]; rewrite A; reflexivity].
Qed.
Print Assumptions C08_unhashable.
Example C08_unhashable_nonvacuous : exists s, run_new_set 50 [SAdd (VInt 1); SAdd (VStr [97])] = Ok s /\ not_a_member (VList 3).
Proof. eexists. split; [vm_compute; reflexivity|exact I]. Qed.
