From Verif Require Import Base Bytes BytesProofs Value Table Ops Ast Stmt Limits Constants VM Compiler ValueProofs TableSpec ConstSpec ConstProofs Gen GenProofs GenProofs2 SimBase Sim MatchSpec Match MatchProofs MatchProofs2.

(** ** The code generator for patterns emits [gen_pat]. *)
Definition declp (ss : list scope) (xs : list (name * bool)) : list scope := fold_left (fun ss xk => decl ss (fst xk) (snd xk)) xs ss.
Lemma declp_app ss a b : declp ss (a ++ b) = declp (declp ss a) b.
Proof. apply fold_left_app. Qed.

Section V.
Variable fuel : nat.
Definition vcoll : list pat -> bool -> pst -> outcome pst :=
  fix coll (ps : list pat) (old : bool) (s : pst) : outcome pst :=
    match ps with [] => Ok s | p :: r => do s <- visit_pat fuel p s; coll r old (PS (ps_c s) old (ps_seen s)) end.
Definition ventries : list (pat * pat) -> bool -> pst -> outcome pst :=
  fix entries (kvs : list (pat * pat)) (old : bool) (s : pst) : outcome pst :=
    match kvs with
    | [] => Ok s
    | (k, v) :: r => do s <- visit_pat fuel k s; do s <- visit_pat fuel v (PS (ps_c s) old (ps_seen s)); entries r old (PS (ps_c s) old (ps_seen s))
    end.
Lemma visit_list more ps s : visit_pat fuel (PList more ps) s = vcoll ps (ps_left s) (pemit s ((if more then P_VLS else P_LS) :: enc8 (Z.of_nat (length ps)))).
Proof. reflexivity. Qed.
Lemma visit_table more kvs s : visit_pat fuel (PTable more kvs) s = ventries kvs (ps_left s) (pemit s ((if more then P_VTABLE else P_TABLE) :: enc8 (Z.of_nat (2 * length kvs)))).
Proof. reflexivity. Qed.

Definition mono (t t' : scope) : Prop := forall x z, assoc t x = Some z -> assoc t' x = Some z.
Definition slots_of (t : scope) (sl : name -> Z) : Prop := forall x z, assoc t x = Some z -> sl x = get_index z.
Lemma slots_mono t t' sl : mono t t' -> slots_of t' sl -> slots_of t sl.
Proof. intros M S x z E. apply S, M, E. Qed.
(** [s] to [s']: variables [xs] declared if on the leftmost branch, code [g]. *)
Definition pran (s s' : pst) (cs cs' : list value) (t t' : scope) (r : list scope) (left : bool) (xs : list (name * bool)) (g : list value -> (name -> Z) -> list Z) : Prop :=
  mono t t' /\ t' :: r = (if left then declp (t :: r) xs else t :: r) /\
  forall sl, slots_of t' sl -> ran (ps_c s) (ps_c s') cs cs' (t' :: r) (fun K => g K sl).
Lemma pran_trans s1 s2 s3 a b c t1 t2 t3 r left x y g k : pran s1 s2 a b t1 t2 r left x g -> pran s2 s3 b c t2 t3 r left y k ->
  pran s1 s3 a c t1 t3 r left (x ++ y) (fun K sl => g K sl ++ k K sl).
Proof.
  intros (M1 & D1 & R1) (M2 & D2 & R2). split; [intros u z E; apply M2, M1, E|]. split.
  - destruct left; [rewrite D2, D1, declp_app; reflexivity|congruence].
  - intros sl S. eapply ran_trans; [apply R1, (slots_mono _ _ _ M2 S)|apply R2, S].
Qed.
Lemma pran_emit s cs t r left bs : c_scopes (ps_c s) = t :: r -> pooled (c_pool (ps_c s)) cs -> pran s (pemit s bs) cs cs t t r left [] (fun _ _ => bs).
Proof. intros S P. split; [intros x z E; exact E|]. split; [destruct left; reflexivity|]. intros sl _. apply ran_emit; assumption. Qed.
Lemma pran_c s s' s1 s2 a b t t' r left x g : pran s s' a b t t' r left x g -> ps_c s1 = ps_c s -> ps_c s2 = ps_c s' -> pran s1 s2 a b t t' r left x g.
Proof. unfold pran. intros H -> ->. exact H. Qed.
Lemma some_slots t : exists sl, slots_of t sl.
Proof. exists (fun x => match assoc t x with Some z => get_index z | None => 0 end). intros x z E. rewrite E. reflexivity. Qed.
Lemma pran_scopes s s' a b t t' r left x g : pran s s' a b t t' r left x g -> c_scopes (ps_c s') = t' :: r.
Proof. intros (_ & _ & H). destruct (some_slots t') as (sl & S). exact (ran_scopes _ _ _ _ _ _ (H sl S)). Qed.
Lemma pran_pool s s' a b t t' r left x g : pran s s' a b t t' r left x g -> pooled (c_pool (ps_c s')) b.
Proof. intros (_ & _ & H). destruct (some_slots t') as (sl & S). exact (ran_pool _ _ _ _ _ _ (H sl S)). Qed.
Lemma pran_incl s s' a b t t' r left x g X : pran s s' a b t t' r left x g -> incl X a -> incl X b.
Proof. intros (_ & _ & H). destruct (some_slots t') as (sl & S). exact (incl_step _ _ _ _ _ _ _ (H sl S)). Qed.
Lemma pran_ext s s' a b t t' r left x y g k : pran s s' a b t t' r left x g -> x = y -> (forall K sl, g K sl = k K sl) -> pran s s' a b t t' r left y k.
Proof. intros (M & D & R) <- E. split; [exact M|]. split; [exact D|]. intros sl S. eapply ran_ext; [apply R, S|]. intros K _. apply E. Qed.

Definition vgood (p : pat) : Prop := forall s s' cs t r, visit_pat fuel p s = Ok s' -> c_scopes (ps_c s) = t :: r -> pooled (c_pool (ps_c s)) cs -> Forall literal (plits p) ->
  exists cs' t', pran s s' cs cs' t t' r (ps_left s) (pvars p) (fun K sl => gen_pat K sl p) /\ incl (plits p) cs'.

Lemma vlit p v : (forall s, visit_pat fuel p s = plit fuel s v) -> plits p = [v] -> pvars p = [] -> (forall K sl, gen_pat K sl p = lit_code K v) -> vgood p.
Proof.
  intros V L N G s s' cs t r E S P F. rewrite V in E. unfold plit in E. destruct (add_literal fuel (ps_c s) v) as [c| | |] eqn:A; try discriminate. cbn [bind] in E. injection E as <-.
  rewrite L in F. inversion F; subst. destruct (lit_gen fuel _ _ _ _ A P H1) as (cs' & R & I). exists cs', t. rewrite L, N. split; [|exact I].
  split; [intros x z Ex; exact Ex|]. split; [destruct (ps_left s); reflexivity|]. intros sl _. cbn [on_c ps_c]. rewrite S in R. eapply ran_ext; [exact R|]. intros K _. rewrite G. reflexivity.
Qed.
Lemma vemit p bs : (forall s, visit_pat fuel p s = Ok (pemit s bs)) -> plits p = [] -> pvars p = [] -> (forall K sl, gen_pat K sl p = bs) -> vgood p.
Proof.
  intros V L N G s s' cs t r E S P F. rewrite V in E. injection E as <-. exists cs, t. rewrite L, N. split; [|apply incl_nil_l]. eapply pran_ext; [apply pran_emit; assumption|reflexivity|]. intros K sl. rewrite G. reflexivity.
Qed.
Lemma vbind k x : vgood (PBind k x).
Proof.
  intros s s' cs t r E S P _. cbn [visit_pat] in E. unfold pdecl in E. cbn [ps_left ps_c] in E. unfold in_current in E. rewrite S in E.
  destruct (assoc t x) as [z0|] eqn:A.
  - (* known in the current scope *)
    destruct (ps_left s) eqn:Lf; [discriminate|]. cbn [bind pemit on_c ps_c emit set_buf c_scopes] in E. rewrite S in E. cbn [scope_get] in E. rewrite A in E.
    destruct (Bool.eqb (is_const z0) k); [|discriminate]. injection E as <-. exists cs, t. split; [|apply incl_nil_l]. split; [intros y z Ey; exact Ey|]. split; [reflexivity|].
    intros sl Sl. cbn [pemit on_c ps_c]. eapply ran_ext; [eapply ran_trans; [apply ran_emit; [exact P|exact S]|apply ran_emit; [exact P|exact S]]|].
    intros K _. cbn [gen_pat]. rewrite (Sl x z0 A). reflexivity.
  - destruct (ps_left s) eqn:Lf; [|discriminate]. cbn [bind] in E. destruct (decl_var fuel (ps_c s) x) as [c| | |] eqn:D; try discriminate. cbn [bind] in E.
    assert (Fr : fresh (c_scopes (ps_c s)) x = true) by (rewrite S; unfold fresh; rewrite A; reflexivity).
    destruct (decl_var_gen fuel _ _ _ D ltac:(rewrite S; discriminate) Fr) as (Ec & _).
    assert (Ek : (if k then make_const c x else c) = set_scopes (ps_c s) (decl (t :: r) x k)).
    { destruct k; rewrite Ec; [rewrite make_const_decl by (try exact Fr; rewrite S; discriminate)|]; rewrite S; reflexivity. }
    cbn [on_c ps_c ps_left ps_seen] in E. rewrite Ek in E. cbn [pemit on_c ps_c emit set_buf set_scopes c_scopes decl scope_get assoc] in E. rewrite name_eqb_refl in E. pose proof (scope_len_nonneg (t :: r)) as SN.
    destruct (entry_index k (scope_len (t :: r)) _ SN eq_refl) as (Ic & Ii). rewrite Ic in E. rewrite eqb_reflx in E. injection E as <-.
    exists cs, ((x, if k then Z.lnot (scope_len (t :: r)) else scope_len (t :: r)) :: t). split; [|apply incl_nil_l]. split; [|split; [reflexivity|]].
    + intros y z Ey. cbn [assoc]. destruct (name_eqb x y) eqn:Q; [|exact Ey]. unfold name_eqb in Q. destruct (list_eq_dec Z.eq_dec x y); [|discriminate]. subst y. congruence.
    + intros sl Sl. cbn [ps_c]. eapply ran_ext; [eapply ran_trans; [apply ran_scope, P|eapply ran_trans; [apply ran_emit; [exact P|reflexivity]|apply ran_emit; [exact P|reflexivity]]]|].
      intros K _. cbn [gen_pat app]. rewrite (Sl x (if k then Z.lnot (scope_len (t :: r)) else scope_len (t :: r)) ltac:(cbn [assoc]; rewrite name_eqb_refl; reflexivity)). reflexivity.
Qed.
Lemma vcoll_gen ps old : Forall vgood ps -> forall s s' cs t r, vcoll ps old s = Ok s' -> ps_left s = old -> c_scopes (ps_c s) = t :: r -> pooled (c_pool (ps_c s)) cs -> Forall literal (concat (map plits ps)) ->
  exists cs' t', pran s s' cs cs' t t' r old (concat (map pvars ps)) (fun K sl => gens K sl ps) /\ incl (concat (map plits ps)) cs'.
Proof.
  induction 1 as [|p ps V F IH]; intros s s' cs t r E O S P L; cbn [vcoll map concat] in *.
  - injection E as <-. exists cs, t. split; [|apply incl_nil_l]. split; [intros x z Ex; exact Ex|]. split; [destruct old; reflexivity|]. intros sl _. rewrite <- S. apply ran_refl, P.
  - apply Forall_app in L. destruct L as (L1 & L2). destruct (visit_pat fuel p s) as [s1| | |] eqn:E1; try discriminate. cbn [bind] in E.
    destruct (V _ _ _ _ _ E1 S P L1) as (cs1 & t1 & R1 & I1). rewrite O in R1.
    destruct (IH (PS (ps_c s1) old (ps_seen s1)) _ cs1 t1 r E eq_refl (pran_scopes _ _ _ _ _ _ _ _ _ _ R1) (pran_pool _ _ _ _ _ _ _ _ _ _ R1) L2) as (cs2 & t2 & R2 & I2).
    exists cs2, t2. split; [|apply incl_app; [eapply pran_incl; eassumption|exact I2]].
    eapply pran_trans; [exact R1|eapply pran_c; [exact R2|reflexivity|reflexivity]].
Qed.
Lemma key_vars k v : key_value k = Some v -> pvars k = [].
Proof. destruct k; discriminate || reflexivity. Qed.
Lemma ventries_gen kvs old : Forall (fun kv => vgood (fst kv) /\ vgood (snd kv)) kvs -> Forall (fun kv => exists v, key_value (fst kv) = Some v) kvs -> forall s s' cs t r, ventries kvs old s = Ok s' -> ps_left s = old -> c_scopes (ps_c s) = t :: r -> pooled (c_pool (ps_c s)) cs ->
  Forall literal (concat (map (fun kv => plits (fst kv) ++ plits (snd kv)) kvs)) ->
  exists cs' t', pran s s' cs cs' t t' r old (concat (map (fun kv => pvars (snd kv)) kvs)) (fun K sl => gens K sl (flat kvs)) /\ incl (concat (map (fun kv => plits (fst kv) ++ plits (snd kv)) kvs)) cs'.
Proof.
  induction 1 as [|(k, p) kvs (Vk & V) F IH]; intros KV s s' cs t r E O S P L; cbn [ventries map concat fst snd] in *.
  - injection E as <-. exists cs, t. split; [|apply incl_nil_l]. split; [intros x z Ex; exact Ex|]. split; [destruct old; reflexivity|]. intros sl _. rewrite <- S. apply ran_refl, P.
  - inversion KV as [|? ? (v & Kk) KV']; subst. cbn [fst] in Kk. apply Forall_app in L. destruct L as (L1 & L2). apply Forall_app in L1. destruct L1 as (L0 & L1). destruct (visit_pat fuel k s) as [s0| | |] eqn:E0; try discriminate. cbn [bind] in E.
    destruct (visit_pat fuel p (PS (ps_c s0) (ps_left s) (ps_seen s0))) as [s1| | |] eqn:E1; try discriminate. cbn [bind] in E.
    destruct (Vk _ _ _ _ _ E0 S P L0) as (cs0 & t0 & R0 & I0).
    destruct (V _ _ _ _ _ E1 (pran_scopes _ _ _ _ _ _ _ _ _ _ R0) (pran_pool _ _ _ _ _ _ _ _ _ _ R0) L1) as (cs1 & t1 & R1 & I1). cbn [ps_left] in R1.
    destruct (IH KV' (PS (ps_c s1) (ps_left s) (ps_seen s1)) _ cs1 t1 r E eq_refl (pran_scopes _ _ _ _ _ _ _ _ _ _ R1) (pran_pool _ _ _ _ _ _ _ _ _ _ R1) L2) as (cs2 & t2 & R2 & I2).
    exists cs2, t2. split; [|apply incl_app; [eapply pran_incl; [exact R2|apply incl_app; [eapply pran_incl; [exact R1|exact I0]|exact I1]]|exact I2]].
    eapply pran_ext; [eapply pran_trans; [exact R0|eapply pran_trans; [eapply pran_c; [exact R1|reflexivity|reflexivity]|eapply pran_c; [exact R2|reflexivity|reflexivity]]]| |reflexivity].
    rewrite (key_vars _ _ Kk). reflexivity.
Qed.
Theorem visit_pat_gen p : legal_pat p = true -> vgood p.
Proof.
  induction p as [|b|i|f|s|t| |k y|more ps IH|more kvs IH|l r IHl IHr] using pat_ind'; intros LG.
  - eapply vemit; reflexivity.
  - eapply vemit; reflexivity.
  - eapply vlit; reflexivity.
  - eapply vlit; reflexivity.
  - eapply vlit; reflexivity.
  - eapply vemit; reflexivity.
  - eapply vemit; reflexivity.
  - apply vbind.
  - intros s s' cs t r E S P L. rewrite visit_list in E. apply legal_list in LG.
    assert (Vs : Forall vgood ps) by (rewrite Forall_forall in *; intros q Hq; apply IH; [exact Hq|apply LG, Hq]).
    destruct (vcoll_gen ps _ Vs (pemit s _) _ cs t r E eq_refl S P L) as (cs' & t' & R & I). exists cs', t'. split; [|exact I].
    eapply pran_ext; [eapply pran_trans; [apply pran_emit; [exact S|exact P]|exact R]|reflexivity|]. intros K sl. reflexivity.
  - intros s s' cs t r E S P L. rewrite visit_table in E. pose proof (legal_table _ _ LG) as LT.
    assert (Vs : Forall (fun kv => vgood (fst kv) /\ vgood (snd kv)) kvs).
    { rewrite Forall_forall in *. intros q Hq. destruct (IH q Hq) as (A & B). destruct (LT q Hq) as ((v & Ev) & Lq). split; [apply A|apply B, Lq]. destruct (fst q); try discriminate; reflexivity. }
    destruct (ventries_gen kvs _ Vs ltac:(rewrite Forall_forall in *; intros q Hq; apply LT, Hq) (pemit s _) _ cs t r E eq_refl S P L) as (cs' & t' & R & I). exists cs', t'. split; [|exact I].
    eapply pran_ext; [eapply pran_trans; [apply pran_emit; [exact S|exact P]|exact R]|reflexivity|]. intros K sl. cbn [gen_pat]. rewrite gens_flat. reflexivity.
  - intros s s' cs t r0 E S P L. cbn [legal_pat] in LG. apply andb_true_iff in LG. destruct LG as (_ & LG). apply andb_true_iff in LG. destruct LG as (LG & _). apply andb_true_iff in LG. destruct LG as (Ll & Lr).
    cbn [visit_pat] in E. cbn [plits] in L. apply Forall_app in L. destruct L as (L1 & L2).
    destruct (visit_pat fuel l _) as [s1| | |] eqn:E1 in E; try discriminate. cbn [bind] in E. destruct (visit_pat fuel r _) as [s2| | |] eqn:E2 in E; try discriminate. cbn [bind] in E.
    destruct (forallb _ _); [|discriminate]. injection E as <-.
    pose proof (pran_emit s cs t r0 (ps_left s) [P_ALT] S P) as R0.
    destruct (IHl Ll _ _ cs t r0 E1 S P L1) as (cs1 & t1 & R1 & I1). cbn [ps_left] in R1.
    destruct (IHr Lr _ _ cs1 t1 r0 E2 (pran_scopes _ _ _ _ _ _ _ _ _ _ R1) (pran_pool _ _ _ _ _ _ _ _ _ _ R1) L2) as (cs2 & t2 & R2 & I2). cbn [ps_left] in R2.
    assert (t2 = t1) by (destruct R2 as (_ & D & _); congruence). subst t2.
    exists cs2, t1. split; [|apply incl_app; [eapply pran_incl; eassumption|exact I2]].
    assert (R2' : pran s1 s2 cs1 cs2 t1 t1 r0 (ps_left s) [] (fun K sl => gen_pat K sl r)).
    { destruct R2 as (M & _ & R2). split; [exact M|]. split; [destruct (ps_left s); reflexivity|exact R2]. }
    eapply pran_c; [|reflexivity|]. 2:{ instantiate (1 := s2). reflexivity. }
    eapply pran_ext; [eapply pran_trans; [exact R0|eapply pran_trans; [eapply pran_c; [exact R1|reflexivity|reflexivity]|exact R2']]| |reflexivity].
    cbn [app pvars]. rewrite app_nil_r. reflexivity.
Qed.
End V.
