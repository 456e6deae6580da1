From Verif Require Import Base Value Ops Ast Fold FoldSpec FloatOrder.
From Coq Require Import Floats.SpecFloat.

Definition is_float_lit (e : expr) : bool := match e with EFloat _ => true | _ => false end.
Definition is_num_lit (e : expr) : bool := match e with EFloat _ | EInt _ => true | _ => false end.
Lemma guard_sub w rho e s : fold_guard w rho e -> sub s e -> fold_guard w rho s.
Proof.
  intros G Hs t Ht. apply G. clear G. revert t Ht. induction Hs; intros t Ht; eauto using sub.
Qed.

Lemma f_eqb_self f : f_eqb f f = negb (f_is_nan f).
Proof.
  destruct f as [s|s| |s m e]; try reflexivity; try (destruct s; reflexivity).
  unfold f_eqb, SFeqb. rewrite fcompare_key by discriminate. rewrite (proj2 (kcmp_eq _ _) eq_refl). reflexivity.
Qed.

Lemma is_equal_int x y : is_equal (VInt x) (VInt y) = (x =? y).
Proof. reflexivity. Qed.

Ltac fb := cbn; try reflexivity.

Lemma fold_bin_ok w rho op l r e' a b : eval w rho l = Ok a -> eval w rho r = Ok b -> fold_bin op l r = Ok e' ->
  match op with BOp BId | BNi => is_num_lit l && is_num_lit r = true -> is_float_lit l || is_float_lit r = false | _ => True end ->
  eval w rho e' = eval_bop w op a b.
Proof.
  intros Ha Hb Hf G.
  assert (K : e' = EBin op l r -> eval w rho e' = eval_bop w op a b) by (intros ->; cbn; rewrite Ha, Hb; reflexivity).
  destruct l; destruct r; cbn [fold_bin] in Hf; try (injection Hf as <-; apply K; reflexivity).
  - (* int int *)
    cbn in Ha, Hb. injection Ha as <-. injection Hb as <-.
    destruct op as [o| |]; [destruct o| |]; cbn [fold_int_int] in Hf; unfold mk_int in Hf;
    try (injection Hf as <-; cbn; reflexivity);
    try (injection Hf as <-; apply K; reflexivity).
    + (* shl *) cbn. unfold sint. destruct ((0 <=? i0) && (i0 <? 64) && (0 <=? i)); [|discriminate].
      destruct (in_i64b (Z.shiftl i i0)); [injection Hf as <-; reflexivity|discriminate].
    + cbn. destruct ((0 <=? i0) && (i0 <? 64)); [injection Hf as <-; reflexivity|discriminate].
    + cbn. unfold sint. destruct (in_i64b (i + i0)); [injection Hf as <-; reflexivity|discriminate].
    + cbn. unfold sint. destruct (in_i64b (i - i0)); [injection Hf as <-; reflexivity|discriminate].
    + cbn. unfold sint. destruct (in_i64b (i * i0)); [injection Hf as <-; reflexivity|discriminate].
    + destruct (i0 =? 0) eqn:E0; [injection Hf as <-; apply K; reflexivity|].
      cbn. rewrite E0. unfold sint. destruct (in_i64b (Z.quot i i0)); [injection Hf as <-; reflexivity|discriminate].
    + destruct (i0 =? 0) eqn:E0; [injection Hf as <-; apply K; reflexivity|].
      cbn. rewrite E0. destruct (in_i64b (Z.quot i i0)); [injection Hf as <-; reflexivity|discriminate].
  - (* int float *)
    cbn in Ha, Hb. injection Ha as <-. injection Hb as <-. injection Hf as <-.
    destruct op as [o| |]; [destruct o| |]; cbn [fold_float] in *; try (apply K; reflexivity); try reflexivity;
    cbn in G; specialize (G eq_refl); discriminate.
  - (* float int *)
    cbn in Ha, Hb. injection Ha as <-. injection Hb as <-. injection Hf as <-.
    destruct op as [o| |]; [destruct o| |]; cbn [fold_float] in *; try (apply K; reflexivity); try reflexivity;
    cbn in G; specialize (G eq_refl); discriminate.
  - (* float float *)
    cbn in Ha, Hb. injection Ha as <-. injection Hb as <-. injection Hf as <-.
    destruct op as [o| |]; [destruct o| |]; cbn [fold_float] in *; try (apply K; reflexivity); try reflexivity;
    cbn in G; specialize (G eq_refl); discriminate.
Qed.

Lemma fold_un_ok w rho op e e' a : eval w rho e = Ok a -> fold_un op e = Ok e' ->
  (op = UNot -> e <> EFloat S754_nan) -> eval w rho e' = exec_unop w op a.
Proof.
  intros Ha Hf G.
  assert (K : e' = EUn op e -> eval w rho e' = exec_unop w op a) by (intros ->; cbn; rewrite Ha; reflexivity).
  destruct e; destruct op; cbn [fold_un] in Hf; try (injection Hf as <-; apply K; reflexivity);
  cbn in Ha; injection Ha as <-; try (injection Hf as <-; reflexivity).
  - cbn. unfold mk_int, sint in *. destruct (in_i64b (- i)); [injection Hf as <-; reflexivity|discriminate].
  - injection Hf as <-. cbn. rewrite f_eqb_self. destruct f; try reflexivity. exfalso. apply G; reflexivity.
Qed.

(** Non-[Ok] results of operands propagate. *)
Lemma fold_bin_strict w rho op l r e' : fold_bin op l r = Ok e' ->
  (eval w rho l = Err EError -> True) -> 
  (forall a b, eval w rho l = Ok a -> eval w rho r = Ok b -> eval w rho e' = eval_bop w op a b) ->
  eval w rho e' = (do a <- eval w rho l; do b <- eval w rho r; eval_bop w op a b).
Proof.
  intros Hf _ H.
  assert (N : (exists a, eval w rho l = Ok a) /\ (exists b, eval w rho r = Ok b) \/ e' = EBin op l r).
  { destruct l; destruct r; cbn [fold_bin] in Hf; try (injection Hf as <-; right; reflexivity); left; split; eexists; reflexivity. }
  destruct N as [((a & Ha) & (b & Hb)) | ->]; [|reflexivity].
  rewrite Ha, Hb. cbn. apply H; assumption.
Qed.
Lemma fold_un_strict w rho op e e' : fold_un op e = Ok e' ->
  (forall a, eval w rho e = Ok a -> eval w rho e' = exec_unop w op a) ->
  eval w rho e' = (do a <- eval w rho e; exec_unop w op a).
Proof.
  intros Hf H.
  assert (N : (exists a, eval w rho e = Ok a) \/ e' = EUn op e).
  { destruct e; destruct op; cbn [fold_un] in Hf; try (injection Hf as <-; right; reflexivity); left; eexists; reflexivity. }
  destruct N as [(a & Ha) | ->]; [|reflexivity]. rewrite Ha. cbn. apply H, Ha.
Qed.

(** Only expressions without variables fold to a number. *)
Definition is_lit (e : expr) : bool := match e with EUndef | EBool _ | EInt _ | EFloat _ | EStr _ => true | _ => false end.
Lemma fold_constant e : forall e', fold e = Ok e' -> constant e' = constant e.
Proof.
  induction e as [| | | | | |op e1 IH|op l IHl r IHr|op l IHl r IHr|c IHc a IHa b IHb]; intros e' Hf; try (cbn in Hf; injection Hf as <-; reflexivity); cbn [fold] in Hf.
  - destruct (fold e1) as [e1'| | |] eqn:E1; try discriminate. cbn [bind] in Hf. cbn [constant]. rewrite <- (IH _ eq_refl). destruct e1', op; cbn [fold_un] in Hf; unfold mk_int in Hf; try (injection Hf as <-; reflexivity). destruct (in_i64b _); [injection Hf as <-; reflexivity|discriminate].
  - destruct (fold l) as [l'| | |] eqn:El; try discriminate. cbn [bind] in Hf. destruct (fold r) as [r'| | |] eqn:Er; try discriminate. cbn [bind] in Hf. cbn [constant]. rewrite <- (IHl _ eq_refl), <- (IHr _ eq_refl).
    destruct l'; destruct r'; cbn [fold_bin] in Hf; try (injection Hf as <-; reflexivity); cbn [constant].
    + destruct op as [[]| |]; cbn [fold_int_int] in Hf; unfold mk_int in Hf; repeat match type of Hf with (if ?c then _ else _) = _ => destruct c end; try discriminate; injection Hf as <-; reflexivity.
    + injection Hf as <-. destruct op as [[]| |]; reflexivity.
    + injection Hf as <-. destruct op as [[]| |]; reflexivity.
    + injection Hf as <-. destruct op as [[]| |]; reflexivity.
  - destruct (fold l) as [l'| | |] eqn:El; try discriminate. cbn [bind] in Hf. destruct (fold r) as [r'| | |] eqn:Er; try discriminate. cbn [bind] in Hf. injection Hf as <-. cbn [constant]. rewrite (IHl _ eq_refl), (IHr _ eq_refl). reflexivity.
  - destruct (fold c) as [c'| | |] eqn:Ec; try discriminate. cbn [bind] in Hf. destruct (fold a) as [a'| | |] eqn:Ea; try discriminate. cbn [bind] in Hf. destruct (fold b) as [b'| | |] eqn:Eb; try discriminate. cbn [bind] in Hf. injection Hf as <-. cbn [constant]. rewrite (IHc _ eq_refl), (IHa _ eq_refl), (IHb _ eq_refl). reflexivity.
Qed.
Lemma fold_correct w rho e : forall e', fold_guard w rho e -> fold e = Ok e' -> eval w rho e' = eval w rho e.
Proof.
  induction e as [| | | | | |op e1 IH|op l IHl r IHr|op l IHl r IHr|c IHc a IHa b IHb]; intros e' G Hf;
  try (cbn in Hf; injection Hf as <-; reflexivity); cbn [fold] in Hf.
  - destruct (fold e1) as [e1'| | |] eqn:E1; try discriminate. cbn [bind] in Hf.
    assert (G1 : fold_guard w rho e1) by (eapply guard_sub; [exact G|eauto using sub]).
    rewrite (fold_un_strict w rho op e1' e' Hf).
    + rewrite (IH e1' G1 eq_refl). reflexivity.
    + intros a Ha. eapply fold_un_ok; eauto. intros -> ->. apply (G _ (sub_refl _)); [rewrite <- (fold_constant _ _ E1); reflexivity|]. rewrite <- (IH _ G1 eq_refl). reflexivity.
  - destruct (fold l) as [l'| | |] eqn:El; try discriminate. cbn [bind] in Hf.
    destruct (fold r) as [r'| | |] eqn:Er; try discriminate. cbn [bind] in Hf.
    assert (Gl : fold_guard w rho l) by (eapply guard_sub; [exact G|eauto using sub]).
    assert (Gr : fold_guard w rho r) by (eapply guard_sub; [exact G|eauto using sub]).
    rewrite (fold_bin_strict w rho op l' r' e' Hf (fun _ => I)).
    + rewrite (IHl l' Gl eq_refl), (IHr r' Gr eq_refl). reflexivity.
    + intros a b Ha Hb. eapply fold_bin_ok; eauto. specialize (G _ (sub_refl _)). cbn in G.
      rewrite (IHl l' Gl eq_refl) in Ha; rewrite (IHr r' Gr eq_refl) in Hb.
      rewrite <- (fold_constant _ _ El), <- (fold_constant _ _ Er) in G.
      destruct op as [[]| |]; try exact I; rewrite <- (IHl l' Gl eq_refl) in Ha; rewrite <- (IHr r' Gr eq_refl) in Hb;
      (destruct l'; try discriminate; destruct r'; try discriminate; specialize (G eq_refl eq_refl _ _ ltac:(rewrite <- (IHl _ Gl eq_refl); exact Ha) ltac:(rewrite <- (IHr _ Gr eq_refl); exact Hb)); cbn in Ha, Hb; injection Ha as <-; injection Hb as <-; intros _; try reflexivity; exfalso; apply G; unfold float_pair; cbn; eauto).
  - destruct (fold l) as [l'| | |] eqn:El; try discriminate. cbn [bind] in Hf.
    destruct (fold r) as [r'| | |] eqn:Er; try discriminate. cbn [bind] in Hf. injection Hf as <-.
    assert (Gl : fold_guard w rho l) by (eapply guard_sub; [exact G|eauto using sub]).
    assert (Gr : fold_guard w rho r) by (eapply guard_sub; [exact G|eauto using sub]).
    cbn [eval]. rewrite (IHl l' Gl eq_refl), (IHr r' Gr eq_refl). reflexivity.
  - destruct (fold c) as [c'| | |] eqn:Ec; try discriminate. cbn [bind] in Hf.
    destruct (fold a) as [a'| | |] eqn:Ea; try discriminate. cbn [bind] in Hf.
    destruct (fold b) as [b'| | |] eqn:Eb; try discriminate. cbn [bind] in Hf. injection Hf as <-.
    assert (Gc : fold_guard w rho c) by (eapply guard_sub; [exact G|eauto using sub]).
    assert (Ga : fold_guard w rho a) by (eapply guard_sub; [exact G|eauto using sub]).
    assert (Gb : fold_guard w rho b) by (eapply guard_sub; [exact G|eauto using sub]).
    cbn [eval]. rewrite (IHc c' Gc eq_refl), (IHa a' Ga eq_refl), (IHb b' Gb eq_refl). reflexivity.
Qed.

(** Compile-time undefined behaviour comes from an operation that is undefined at run time. *)
Lemma fold_total e : (exists e', fold e = Ok e') \/ fold e = UB.
Proof.
  induction e as [| | | | | |op e1 IH|op l IHl r IHr|op l IHl r IHr|c IHc a IHa b IHb]; try (left; eexists; reflexivity); cbn [fold].
  - destruct IH as [(e1' & E)|E]; rewrite E; [|right; reflexivity]. cbn [bind].
    destruct e1'; destruct op; cbn [fold_un]; unfold mk_int; eauto. destruct (in_i64b _); eauto.
  - destruct IHl as [(l' & E)|E]; rewrite E; [|right; reflexivity]. cbn [bind].
    destruct IHr as [(r' & E')|E']; rewrite E'; [|right; reflexivity]. cbn [bind].
    destruct l'; destruct r'; cbn [fold_bin]; eauto.
    destruct op as [[]| |]; cbn [fold_int_int]; unfold mk_int; eauto;
    try (destruct (in_i64b _); eauto; fail).
    + destruct ((0 <=? i0) && (i0 <? 64) && (0 <=? i)); [|eauto]. destruct (in_i64b _); eauto.
    + destruct ((0 <=? i0) && (i0 <? 64)); eauto.
    + destruct (i0 =? 0); [eauto|]. destruct (in_i64b _); eauto.
    + destruct (i0 =? 0); [eauto|]. destruct (in_i64b _); eauto.
  - destruct IHl as [(l' & E)|E]; rewrite E; [|right; reflexivity]. cbn [bind].
    destruct IHr as [(r' & E')|E']; rewrite E'; [|right; reflexivity]. cbn [bind]. eauto.
  - destruct IHc as [(l' & E)|E]; rewrite E; [|right; reflexivity]. cbn [bind].
    destruct IHa as [(r' & E')|E']; rewrite E'; [|right; reflexivity]. cbn [bind].
    destruct IHb as [(b' & E'')|E'']; rewrite E''; [|right; reflexivity]. cbn [bind]. eauto.
Qed.

Lemma fold_un_ub w rho op e : fold_un op e = UB -> eval w rho (EUn op e) = UB.
Proof.
  destruct e; destruct op; cbn [fold_un]; try discriminate. unfold mk_int. cbn. unfold sint. destruct (in_i64b _); [discriminate|reflexivity].
Qed.
Lemma fold_bin_ub w rho op l r : fold_bin op l r = UB -> eval w rho (EBin op l r) = UB.
Proof.
  destruct l; destruct r; cbn [fold_bin]; try discriminate.
  destruct op as [[]| |]; cbn [fold_int_int]; try discriminate; unfold mk_int; cbn; unfold sint.
  - destruct ((0 <=? i0) && (i0 <? 64) && (0 <=? i)); [|reflexivity]. destruct (in_i64b _); [discriminate|reflexivity].
  - destruct ((0 <=? i0) && (i0 <? 64)); [discriminate|reflexivity].
  - destruct (in_i64b _); [discriminate|reflexivity].
  - destruct (in_i64b _); [discriminate|reflexivity].
  - destruct (in_i64b _); [discriminate|reflexivity].
  - destruct (i0 =? 0); [discriminate|]. destruct (in_i64b _); [discriminate|reflexivity].
  - destruct (i0 =? 0); [discriminate|]. cbn. destruct (in_i64b _); [discriminate|reflexivity].
Qed.
Lemma fold_ub_has_cause w rho e : fold_guard w rho e -> fold e = UB -> exists s, sub s e /\ eval w rho s = UB.
Proof.
  induction e as [| | | | | |op e1 IH|op l IHl r IHr|op l IHl r IHr|c IHc a IHa b IHb]; intros G Hf; try discriminate; cbn [fold] in Hf.
  - assert (G1 : fold_guard w rho e1) by (eapply guard_sub; [exact G|eauto using sub]).
    destruct (fold_total e1) as [(e1' & E)|E].
    + rewrite E in Hf. cbn [bind] in Hf. exists (EUn op e1). split; [constructor|].
      pose proof (fold_un_ub w rho op e1' Hf) as U. cbn [eval] in *. rewrite <- (fold_correct w rho e1 e1' G1 E). exact U.
    + destruct (IH G1 E) as (s & S & U). eauto using sub.
  - assert (Gl : fold_guard w rho l) by (eapply guard_sub; [exact G|eauto using sub]).
    assert (Gr : fold_guard w rho r) by (eapply guard_sub; [exact G|eauto using sub]).
    destruct (fold_total l) as [(l' & E)|E]; [|destruct (IHl Gl E) as (s & S & U); eauto using sub].
    destruct (fold_total r) as [(r' & E')|E']; [|destruct (IHr Gr E') as (s & S & U); eauto using sub].
    rewrite E, E' in Hf. cbn [bind] in Hf. exists (EBin op l r). split; [constructor|].
    pose proof (fold_bin_ub w rho op l' r' Hf) as U. cbn [eval] in *.
    rewrite <- (fold_correct w rho l l' Gl E), <- (fold_correct w rho r r' Gr E'). exact U.
  - assert (Gl : fold_guard w rho l) by (eapply guard_sub; [exact G|eauto using sub]).
    assert (Gr : fold_guard w rho r) by (eapply guard_sub; [exact G|eauto using sub]).
    destruct (fold_total l) as [(l' & E)|E]; [|destruct (IHl Gl E) as (s & S & U); eauto using sub].
    destruct (fold_total r) as [(r' & E')|E']; [|destruct (IHr Gr E') as (s & S & U); eauto using sub].
    rewrite E, E' in Hf. discriminate.
  - assert (Gc : fold_guard w rho c) by (eapply guard_sub; [exact G|eauto using sub]).
    assert (Ga : fold_guard w rho a) by (eapply guard_sub; [exact G|eauto using sub]).
    assert (Gb : fold_guard w rho b) by (eapply guard_sub; [exact G|eauto using sub]).
    destruct (fold_total c) as [(l' & E)|E]; [|destruct (IHc Gc E) as (s & S & U); eauto using sub].
    destruct (fold_total a) as [(r' & E')|E']; [|destruct (IHa Ga E') as (s & S & U); eauto using sub].
    destruct (fold_total b) as [(b' & E'')|E'']; [|destruct (IHb Gb E'') as (s & S & U); eauto using sub].
    rewrite E, E', E'' in Hf. discriminate.
Qed.
