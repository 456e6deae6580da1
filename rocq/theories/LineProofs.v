From Verif Require Import Base Bytes BytesProofs Varint VarintProofs Table Constants ConstProofs Lines LineSpec.

(** The table as a list of positions. *)
Definition venc (v : Z) : list Z := match vint_encode 11 v with Ok bs => bs | _ => [] end.
Definition vencs (l : list Z) : list Z := concat (map venc l).
Lemma venc_ok v : in_u64 v -> vint_encode 11 v = Ok (venc v) /\ (forall r, vint_decode (venc v ++ r) = Ok v) /\ (forall r, vint_next (venc v ++ r) = Ok r).
Proof.
  intros H. destruct (vint_roundtrip v H) as (bs & E & _ & _ & D & N & _). unfold venc. rewrite E by lia. auto.
Qed.

(** First index whose entry is at least [off]. *)
Fixpoint find_ge (l : list Z) (off : Z) : option nat :=
  match l with [] => None | v :: l' => if v <? off then option_map S (find_ge l' off) else Some O end.
Lemma getline_find l : forall fuel rest off i n, Forall in_u64 l -> find_ge l off = Some n -> (n < fuel)%nat ->
  getline_loop fuel (vencs l ++ rest) off i = Ok (i + Z.of_nat n).
Proof.
  induction l as [|v l IH]; intros fuel rest off i n F H L; [discriminate|]. inversion F as [|? ? Hv Fl]; subst.
  destruct fuel as [|fuel]; [lia|]. destruct (venc_ok v Hv) as (_ & D & N). cbn [getline_loop].
  unfold vencs in *. cbn [map concat]. rewrite <- app_assoc, D. cbn [bind find_ge] in *. destruct (v <? off).
  - destruct (find_ge l off) as [m|] eqn:E; [|discriminate]. injection H as <-. rewrite N. cbn [bind].
    rewrite (IH fuel rest off (i + 1) m Fl E) by lia. f_equal. lia.
  - injection H as <-. f_equal. lia.
Qed.

(** Positions pushed by events. *)
Definition st_ok (s : lstate) (l : list Z) : Prop :=
  ls_bytes s = vencs l /\ Z.of_nat (length l) = ls_line s /\ Forall (fun v => 0 <= v <= ls_pos s) l.
Lemma advance_ok n : forall s l, st_ok s l -> in_u64 (ls_pos s) ->
  ls_advance n s = Ok (LS (ls_pos s) (ls_line s + Z.of_nat n) (ls_bytes s ++ vencs (repeat (ls_pos s) n))) /\
  st_ok (LS (ls_pos s) (ls_line s + Z.of_nat n) (ls_bytes s ++ vencs (repeat (ls_pos s) n))) (l ++ repeat (ls_pos s) n).
Proof.
  induction n as [|n IH]; intros s l (S1 & S2 & S3) H.
  - cbn [ls_advance repeat]. unfold vencs at 1. cbn [map concat]. unfold vencs at 1. cbn. rewrite !app_nil_r, Z.add_0_r. destruct s; cbn in *. split; [reflexivity|]. split; auto.
  - cbn [ls_advance]. destruct (venc_ok _ H) as (E & _). rewrite E. cbn [bind].
    destruct (IH (LS (ls_pos s) (ls_line s + 1) (ls_bytes s ++ venc (ls_pos s))) (l ++ [ls_pos s])) as (E1 & E2); [|exact H|].
    + split; cbn; [unfold vencs in *; rewrite map_app, concat_app, S1; cbn; rewrite app_nil_r; reflexivity|].
      split; [rewrite app_length; cbn; lia|]. apply Forall_app. split; [assumption|]. constructor; [|constructor]. destruct H. lia.
    + cbn [ls_pos ls_line ls_bytes] in *. rewrite <- !app_assoc in *. cbn [app] in *.
      change (venc (ls_pos s) ++ vencs (repeat (ls_pos s) n)) with (vencs (repeat (ls_pos s) (S n))) in *.
      replace (ls_line s + 1 + Z.of_nat n) with (ls_line s + Z.of_nat (S n)) in * by lia. split; assumption.
Qed.
Lemma find_ge_app_lt l l' off : Forall (fun v => v < off) l -> find_ge (l ++ l') off = option_map (fun n => (length l + n)%nat) (find_ge l' off).
Proof.
  induction 1 as [|v l Hv Hl IH]; cbn; [destruct (find_ge l' off); reflexivity|].
  destruct (Z.ltb_spec v off); [|lia]. rewrite IH. destruct (find_ge l' off); reflexivity.
Qed.
Lemma fold_emitted_mono es : forall n, Forall lev_ok es -> n <= fold_left (fun n e => match e with LEmit k => n + k | LVisit _ => n end) es n.
Proof.
  induction es as [|e es IH]; intros n F; cbn; [lia|]. inversion F as [|? ? He Fe]; subst.
  destruct e; cbn in He; [apply IH, Fe|]. specialize (IH (n + n0) Fe). lia.
Qed.
(** Running events appends entries that all are at least the position at the start. *)
Lemma run_ok es : forall s l, Forall lev_ok es -> st_ok s l -> 0 <= ls_pos s ->
  fold_left (fun n e => match e with LEmit k => n + k | LVisit _ => n end) es (ls_pos s) < two64 ->
  exists s' l', ls_run s es = Ok s' /\ st_ok s' (l ++ l') /\ Forall (fun v => ls_pos s <= v) l' /\
    ls_pos s' = fold_left (fun n e => match e with LEmit k => n + k | LVisit _ => n end) es (ls_pos s) /\
    ls_line s' = fold_left (fun l e => match e with LVisit k => Z.max l k | LEmit _ => l end) es (ls_line s).
Proof.
  induction es as [|e es IH]; intros s l F S P B.
  - exists s, []. cbn. rewrite app_nil_r. auto.
  - inversion F as [|? ? He Fe]; subst. cbn [fold_left] in *. destruct e as [k|n]; cbn [ls_run ls_step].
    + assert (U : in_u64 (ls_pos s)) by (pose proof (fold_emitted_mono es (ls_pos s) Fe); unfold in_u64; lia).
      destruct (advance_ok (Z.to_nat (k - ls_line s)) s l S U) as (E & S1). rewrite E. cbn [bind].
      set (s1 := LS _ _ _) in *.
      destruct (IH s1 _ Fe S1) as (s' & l' & E' & S' & F' & P' & L'); [exact P|exact B|].
      exists s', (repeat (ls_pos s) (Z.to_nat (k - ls_line s)) ++ l'). split; [exact E'|]. split; [rewrite app_assoc; exact S'|].
      split; [|split; [exact P'|]].
      * apply Forall_app. split; [|exact F']. apply Forall_forall. intros x Hx. apply repeat_spec in Hx. lia.
      * rewrite L'. f_equal. cbn. lia.
    + cbn [bind]. destruct S as (S1 & S2 & S3). cbn in He.
      destruct (IH (LS (ls_pos s + n) (ls_line s) (ls_bytes s)) l Fe) as (s' & l' & E' & S' & F' & P' & L').
      * split; cbn; [assumption|]. split; [assumption|]. eapply Forall_impl; [|exact S3]. cbn. lia.
      * cbn. lia.
      * exact B.
      * exists s', l'. split; [exact E'|]. split; [exact S'|]. split; [|split; assumption].
        eapply Forall_impl; [|exact F']. cbn. lia.
Qed.

Lemma ls_run_app es1 es2 s : ls_run s (es1 ++ es2) = do s' <- ls_run s es1; ls_run s' es2.
Proof.
  revert s. induction es1 as [|e es1 IH]; intros s; cbn; [reflexivity|]. destruct (ls_step s e); cbn; auto.
Qed.
Lemma find_ge_first l off : (exists v, nth_error l 0 = Some v /\ off <= v) -> find_ge l off = Some O.
Proof. intros (v & H & L). destruct l; [discriminate|]. injection H as ->. cbn. destruct (Z.ltb_spec v off); [lia|reflexivity]. Qed.

Lemma table_lookup pre n post lines s off : Forall lev_ok (pre ++ LEmit n :: post) -> emitted (pre ++ LEmit n :: post) < two64 ->
  ls_run ls_new (pre ++ LEmit n :: post) = Ok s -> ls_finish s = Ok lines ->
  emitted pre < off <= emitted pre + n ->
  exists l, lines = vencs l /\ Forall in_u64 l /\ find_ge l off = Some (Z.to_nat (current_line pre)) /\ 0 <= current_line pre.
Proof.
  intros F B R Fin O. apply Forall_app in F. destruct F as (F1 & F2). inversion F2 as [|? ? Hn F3]; subst.
  assert (N0 : st_ok ls_new []) by (split; [reflexivity|split; [reflexivity|constructor]]).
  unfold emitted, current_line in *. rewrite fold_left_app in B. cbn [fold_left] in B.
  rewrite ls_run_app in R.
  assert (B1 : fold_left (fun n e => match e with LEmit k => n + k | LVisit _ => n end) pre 0 < two64).
  { pose proof (fold_emitted_mono post (fold_left (fun n e => match e with LEmit k => n + k | LVisit _ => n end) pre 0 + n) F3). cbn in Hn. lia. }
  destruct (run_ok pre ls_new [] F1 N0 ltac:(cbn; lia) B1) as (s1 & l1 & E1 & S1 & _ & P1 & L1).
  rewrite E1 in R. cbn [bind ls_run ls_step app] in R, S1. cbn [ls_pos ls_line ls_new] in P1, L1.
  destruct S1 as (S1a & S1b & S1c). cbn in Hn.
  assert (P1n : 0 <= ls_pos s1) by (rewrite P1; apply fold_emitted_mono, F1).
  destruct (run_ok post (LS (ls_pos s1 + n) (ls_line s1) (ls_bytes s1)) l1 F3) as (s2 & l2 & E2 & S2 & F2' & P2 & L2).
  { split; cbn; [assumption|]. split; [assumption|]. eapply Forall_impl; [|exact S1c]. cbn. lia. }
  { cbn. lia. } { cbn. rewrite P1. exact B. }
  cbn [ls_pos] in *. rewrite R in E2. injection E2 as <-.
  assert (Ps : ls_pos s1 + n <= ls_pos s) by (rewrite P2; apply fold_emitted_mono, F3).
  assert (U : in_u64 (ls_pos s)) by (split; [lia|rewrite P2, P1; exact B]).
  unfold ls_finish in Fin. destruct (venc_ok _ U) as (E & _). rewrite E in Fin. cbn [bind] in Fin. injection Fin as <-.
  destruct S2 as (S2a & S2b & S2c).
  exists ((l1 ++ l2) ++ [ls_pos s]). split; [unfold vencs in *; rewrite map_app, concat_app, S2a; cbn; rewrite app_nil_r; reflexivity|].
  split; [|split].
  - apply Forall_app. split; [|repeat constructor; apply U]. eapply Forall_impl; [|exact S2c]. cbn. intros a Ha. destruct U. split; lia.
  - rewrite <- app_assoc. rewrite find_ge_app_lt.
    + rewrite find_ge_first; [cbn [option_map]; f_equal; rewrite <- L1; lia|].
      destruct l2 as [|x l2]; cbn; [exists (ls_pos s); split; [reflexivity|lia]|]. inversion F2'; subst. exists x. split; [reflexivity|lia].
    + eapply Forall_impl; [|exact S1c]. cbn. lia.
  - rewrite <- L1, <- S1b. lia.
Qed.

Lemma line_ok fuel pre n post s lines p code pc :
  Forall lev_ok (pre ++ LEmit n :: post) -> emitted (pre ++ LEmit n :: post) = Z.of_nat (length code) ->
  Z.of_nat (length (return_bytes p code lines)) <= int_max ->
  ls_run ls_new (pre ++ LEmit n :: post) = Ok s -> ls_finish s = Ok lines ->
  24 + Z.of_nat (length (cp_hdr p)) + emitted pre < pc <= 24 + Z.of_nat (length (cp_hdr p)) + emitted pre + n ->
  current_line pre < Z.of_nat fuel ->
  getcurrline fuel (return_bytes p code lines) pc = Ok (current_line pre).
Proof.
  intros F Em Len R Fin O Fu.
  assert (Hl : forall ls, Z.of_nat (length (return_bytes p code ls)) = 24 + Z.of_nat (length (cp_hdr p)) + Z.of_nat (length code) + 1 + Z.of_nat (length ls)).
  { intros ls. unfold return_bytes. rewrite !app_length, !enc8_length. cbn [length]. lia. }
  rewrite Hl in Len.
  assert (E0 : 0 <= emitted pre). { unfold emitted. apply fold_emitted_mono. apply Forall_app in F. apply F. }
  assert (E1 : emitted pre + n <= emitted (pre ++ LEmit n :: post)).
  { unfold emitted. rewrite fold_left_app. cbn [fold_left]. apply fold_emitted_mono. apply Forall_app in F. destruct F as (_ & F). inversion F; assumption. }
  unfold int_max in *.
  destruct (table_lookup pre n post lines s (pc - (24 + Z.of_nat (length (cp_hdr p)))) F) as (l & -> & U & G & C0); [unfold two64; lia|assumption|assumption|lia|].
  unfold getcurrline. specialize (Hl (vencs l)).
  set (hc := 24 + Z.of_nat (length (cp_hdr p))) in *.
  assert (R0 : read8 (return_bytes p code (vencs l)) 0 = Ok hc).
  { unfold return_bytes. fold hc.
    pose proof (read8_app [] hc (enc8 (Z.of_nat (length code) + hc + 1) ++ enc8 (t_count (cp_tab p)) ++ cp_hdr p ++ code ++ [O_HALT] ++ vencs l)) as H.
    change (Z.of_nat (length (@nil Z))) with 0 in H. rewrite app_nil_l in H. rewrite H. rewrite i64_id by (unfold in_i64, int_min, int_max; lia). reflexivity. }
  assert (R1 : read8 (return_bytes p code (vencs l)) 8 = Ok (Z.of_nat (length code) + hc + 1)).
  { unfold return_bytes. fold hc.
    pose proof (read8_app (enc8 hc) (Z.of_nat (length code) + hc + 1) (enc8 (t_count (cp_tab p)) ++ cp_hdr p ++ code ++ [O_HALT] ++ vencs l)) as H.
    rewrite enc8_length in H. change (Z.of_nat 8) with 8 in H. rewrite H. rewrite i64_id by (unfold in_i64, int_min, int_max; lia). reflexivity. }
  rewrite R0, R1. cbn [bind]. rewrite Hl.
  destruct (Z.ltb_spec (Z.of_nat (length code) + hc + 1) 0); [lia|].
  destruct (Z.ltb_spec (hc + Z.of_nat (length code) + 1 + Z.of_nat (length (vencs l))) (Z.of_nat (length code) + hc + 1)); [lia|]. cbn [orb].
  assert (Sk : skipn (Z.to_nat (Z.of_nat (length code) + hc + 1)) (return_bytes p code (vencs l)) = vencs l ++ []).
  { unfold return_bytes. fold hc. rewrite !app_assoc. rewrite skipn_app.
    rewrite skipn_all2 by (rewrite !app_length, !enc8_length; cbn [length]; unfold hc; lia).
    match goal with |- context [skipn ?k (vencs l)] => replace k with 0%nat by (rewrite !app_length, !enc8_length; cbn [length]; unfold hc; lia) end. cbn [skipn app]. rewrite app_nil_r. reflexivity. }
  rewrite Sk. unfold u64. rewrite Z.mod_small by (unfold two64; lia).
  rewrite (getline_find l fuel [] _ 0 _ U G) by lia. f_equal. lia.
Qed.

Lemma lines_total es : Forall lev_ok es -> emitted es < two64 -> exists s lines, ls_run ls_new es = Ok s /\ ls_finish s = Ok lines.
Proof.
  intros F B. destruct (run_ok es ls_new [] F) as (s & l & E & _ & _ & P & _); [split; [reflexivity|split; [reflexivity|constructor]]|cbn; lia|exact B|].
  exists s. unfold ls_finish. assert (U : in_u64 (ls_pos s)).
  { split; [rewrite P; apply (fold_emitted_mono es 0 F)|rewrite P; exact B]. }
  destruct (venc_ok _ U) as (E' & _). rewrite E'. cbn [bind]. eauto.
Qed.
