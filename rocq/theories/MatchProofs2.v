From Verif Require Import Base Bytes BytesProofs Value Table Ops Ast Stmt Limits Constants VM Compiler ValueProofs TableSpec ConstSpec ConstProofs Gen GenProofs GenProofs2 SimBase Sim MatchSpec Match MatchProofs.

Section Spec.
Variables (lists : Z -> list value) (tables : Z -> list (value * value)).
Notation pm := (pmatch lists tables).
Definition each_item (more : bool) : list pat -> list value -> option (list (name * value)) :=
  fix each (ps : list pat) (vs : list value) : option (list (name * value)) :=
    match ps, vs with
    | [], [] => Some []
    | [], _ :: _ => if more then Some [] else None
    | _ :: _, [] => None
    | p :: ps, v :: vs => glue (pm p v) (each ps vs)
    end.
Definition each_entry (kvals : list (value * value)) : list (pat * pat) -> option (list (name * value)) :=
  fix each (kvs : list (pat * pat)) : option (list (name * value)) :=
    match kvs with
    | [] => Some []
    | (k, p) :: kvs =>
        match key_value k with
        | Some kv => match entry kvals kv with Some u => glue (pm p u) (each kvs) | None => None end
        | None => None
        end
    end.
Lemma pm_list more ps a : pm (PList more ps) (VList a) = each_item more ps (lists a).
Proof. reflexivity. Qed.
Lemma pm_table more kvs a : pm (PTable more kvs) (VTable a) = if more || (length (tables a) =? length kvs)%nat then each_entry (tables a) kvs else None.
Proof. reflexivity. Qed.

Lemma each_item_short (more : bool) : forall ps vs, (if more then (length vs <? length ps)%nat else negb (length vs =? length ps)%nat) = true -> each_item more ps vs = None.
Proof.
  induction ps as [|p ps IH]; intros [|v vs] H; cbn in *; try (destruct more; discriminate); [destruct more; [discriminate|reflexivity]|reflexivity|].
  unfold glue. destruct (pm p v); [|reflexivity]. cbn in IH. specialize (IH vs). destruct more; cbn in H; rewrite IH by exact H; reflexivity.
Qed.

Lemma each_item_cons more p ps v vs : each_item more (p :: ps) (v :: vs) = glue (pm p v) (each_item more ps vs).
Proof. reflexivity. Qed.
Lemma each_entry_cons es k p kvs : each_entry es ((k, p) :: kvs) = match key_value k with Some kv => match entry es kv with Some u => glue (pm p u) (each_entry es kvs) | None => None end | None => None end.
Proof. reflexivity. Qed.
(** A successful match binds all the variables of the pattern. *)
Lemma existsb_name x xs : existsb (name_eqb x) xs = true <-> In x xs.
Proof. rewrite existsb_exists. unfold name_eqb. split; [intros (y & H & E); destruct (list_eq_dec Z.eq_dec x y); [subst; exact H|discriminate]|intros H; exists x; split; [exact H|destruct (list_eq_dec Z.eq_dec x x); congruence]]. Qed.
Lemma same_vars_spec a b : same_vars a b = true -> forall v, In v a <-> In v b.
Proof.
  unfold same_vars. rewrite andb_true_iff, !forallb_forall. intros (H1 & H2) (x, k).
  assert (Q : forall l, existsb (fun u : name * bool => name_eqb (fst u) x && Bool.eqb (snd u) k) l = true -> In (x, k) l).
  { intros l H. apply existsb_exists in H. destruct H as ((y, j) & I & E). cbn [fst snd] in E. apply andb_true_iff in E. destruct E as (E1 & E2). unfold name_eqb in E1. destruct (list_eq_dec Z.eq_dec y x); [|discriminate]. apply eqb_prop in E2. subst. exact I. }
  split; intros I; [apply Q, (H1 _ I)|apply Q, (H2 _ I)].
Qed.
Lemma same_names a b : same_vars a b = true -> forall x, In x (map fst a) <-> In x (map fst b).
Proof.
  intros H x. pose proof (same_vars_spec a b H) as S. rewrite !in_map_iff. split; intros ((y, k) & E & I); exists (y, k); (split; [exact E|apply S; exact I]).
Qed.
Lemma legal_list more ps : legal_pat (PList more ps) = true -> Forall (fun p => legal_pat p = true) ps.
Proof. cbn [legal_pat]. rewrite andb_true_iff, forallb_forall, Forall_forall. tauto. Qed.
Lemma legal_table more kvs : legal_pat (PTable more kvs) = true -> Forall (fun kv => (exists v, key_value (fst kv) = Some v) /\ legal_pat (snd kv) = true) kvs.
Proof.
  cbn [legal_pat]. rewrite andb_true_iff, forallb_forall, Forall_forall. intros (_ & H) kv I. specialize (H kv I). apply andb_true_iff in H. destruct H as (H1 & H2). split; [|exact H2].
  destruct (key_value (fst kv)); [eauto|discriminate].
Qed.
Lemma pm_dom p : legal_pat p = true -> forall v b, pm p v = Some b -> forall x, In x (map fst b) <-> In x (map fst (pvars p)).
Proof.
  induction p as [|b|i|f|s|t| |k y|more ps IH|more kvs IH|l r IHl IHr] using pat_ind'; intros L v b0 E x;
    try (cbn [pmatch] in E; match type of E with (if ?c then _ else _) = _ => destruct c; [injection E as <-; reflexivity|discriminate] end).
  - injection E as <-. reflexivity.
  - injection E as <-. reflexivity.
  - destruct v; try discriminate. rewrite pm_list in E. apply legal_list in L. cbn [pvars]. generalize dependent b0. generalize (lists p). clear p.
    induction IH as [|p ps H F I]; intros vs b0 E.
    + cbn in E. destruct vs; [injection E as <-; reflexivity|]. destruct more; [injection E as <-; reflexivity|discriminate].
    + inversion L; subst. destruct vs as [|v vs]; [discriminate|]. rewrite each_item_cons in E. destruct (pm p v) as [b1|] eqn:E1; [|discriminate].
      destruct (each_item more ps vs) as [b2|] eqn:E2; [|discriminate]. injection E as <-. cbn [map concat]. rewrite !map_app, !in_app_iff.
      rewrite (H H2 _ _ E1 x). rewrite (I H3 vs b2 E2). reflexivity.
  - destruct v; try discriminate. rewrite pm_table in E. apply legal_table in L. cbn [pvars]. destruct (more || _); [|discriminate]. generalize dependent b0.
    induction IH as [|(k, q) kvs (_ & H) F I]; intros b0 E.
    + injection E as <-. reflexivity.
    + inversion L as [|? ? ((kv & Ek) & Lq) L']; subst. rewrite each_entry_cons in E. cbn [fst snd] in *. rewrite Ek in E. destruct (entry (tables p) kv) as [u|]; [|discriminate]. destruct (pm q u) as [b1|] eqn:E1; [|discriminate].
      destruct (each_entry (tables p) kvs) as [b2|] eqn:E2; [|discriminate]. injection E as <-. cbn [map concat fst snd]. rewrite !map_app, !in_app_iff.
      rewrite (H Lq _ _ E1 x). rewrite (I L' b2 eq_refl). reflexivity.
  - cbn [legal_pat] in L. apply andb_true_iff in L. destruct L as (_ & L). apply andb_true_iff in L. destruct L as (L & S). apply andb_true_iff in L. destruct L as (Ll & Lr). cbn [pmatch] in E. cbn [pvars].
    destruct (pm l v) as [b1|] eqn:E1; [injection E as <-; apply (IHl Ll _ _ E1)|]. rewrite (IHr Lr _ _ E x). symmetry. apply same_names, S.
Qed.
End Spec.

Section M.
Variable P : prog.
Variable T : Z -> table.
Variable fuel : nat.
Variables (fp sp : Z).
Variable sl : name -> Z.
Variable tables : Z -> list (value * value).
Notation K := (p_consts P).
Notation g := (gen_pat K sl).
Notation gs := (gens K sl).
Notation code_at := (code_at P).
Notation pm := (pmatch (p_list P) tables).
Hypothesis HKlen : len (p_code P) <= int_max /\ Z.of_nat (length K) <= int_max.
Hypothesis HT : forall a k, good_key k -> table_search fuel (T a) k = Ok (match entry (tables a) k with Some v => v | None => VEnd end).
Hypothesis HTv : forall a k v, entry (tables a) k = Some v -> v <> VEnd.
Hypothesis HTc : forall a, u64 (t_count (T a)) = Z.of_nat (length (tables a)).

Definition slot_of (x : name) : Z := fp + sl x + 2.
Definition wr (m : slots) (b : list (name * value)) : slots := fold_left (fun m xv => write_slot m (slot_of (fst xv)) (snd xv)) b m.
Lemma wr_ext b : forall m m', (forall i, m i = m' i) -> forall i, wr m b i = wr m' b i.
Proof. induction b as [|(x, v) b IH]; intros m m' H i; cbn [wr fold_left]; [apply H|]. apply IH. intros j. unfold write_slot. destruct (j =? _); auto. Qed.
Lemma wr_off b : forall m i, (forall x, In x (map fst b) -> i <> slot_of x) -> wr m b i = m i.
Proof.
  induction b as [|(x, v) b IH]; intros m i H; cbn [wr fold_left]; [reflexivity|]. unfold wr in IH. rewrite IH by (intros y Hy; apply H; right; exact Hy).
  unfold write_slot. cbn [fst snd]. destruct (Z.eqb_spec i (slot_of x)); [|reflexivity]. exfalso. exact (H x (or_introl eq_refl) e).
Qed.
Lemma wr_base b : forall m m' i, (forall j, (forall x, In x (map fst b) -> j <> slot_of x) -> m j = m' j) -> wr m b i = wr m' b i.
Proof.
  induction b as [|(x, v) b IH]; intros m m' i H; cbn [wr fold_left]; [apply H; intros ? []|]. apply IH. intros j Hj. unfold write_slot. cbn [fst snd]. destruct (Z.eqb_spec j (slot_of x)); [reflexivity|].
  apply H. intros y [<-|Hy]; [exact n|exact (Hj y Hy)].
Qed.
Lemma wr_app m a b i : wr m (a ++ b) i = wr (wr m a) b i.
Proof. unfold wr. rewrite fold_left_app. reflexivity. Qed.

Definition slots_ok (p : pat) : Prop := forall x, In x (map fst (pvars p)) -> 0 <= sl x < 256 /\ sp < slot_of x < 1024.
Definition msub := match_sub P T fuel fp sp.
Definition short (d : nat) (qs : list pat) : Prop := Forall (fun p => plits_in P p /\ (pdepth p <= d)%nat) qs.

Definition good (d : nat) (p : pat) : Prop := forall pc m v bs, code_at pc (g p ++ bs) ->
  match pm p v with
  | Some b => exists m', msub d pc m v = Ok (true, pc + len (g p), m') /\ forall i, m' i = wr m b i
  | None => exists pc' m' qs, msub d pc m v = Ok (false, pc', m') /\ code_at pc' (gs qs ++ bs) /\ pc' + len (gs qs) = pc + len (g p) /\ short d qs /\ (entry_free p = true -> qs = [])
      /\ forall i, (forall x, In x (map fst (pvars p)) -> i <> slot_of x) -> m' i = m i
  end.
Lemma short_le d e qs : short d qs -> (d <= e)%nat -> short e qs.
Proof. unfold short. intros H L. eapply Forall_impl; [|exact H]. cbn. intros p (A & B). split; [exact A|lia]. Qed.
Lemma short_app d a b : short d a -> short d b -> short d (a ++ b).
Proof. apply (fun A B => proj2 (Forall_app _ a b) (conj A B)). Qed.
Lemma short_skip d n qs : short d qs -> short d (skipn n qs).
Proof. unfold short. rewrite !Forall_forall. intros H p I. apply H. rewrite <- (firstn_skipn n qs). apply in_or_app. auto. Qed.

(** A leaf: one result, no bindings, no slots written. *)
Lemma leaf d p : (forall pc m v bs, code_at pc (g p ++ bs) -> msub d pc m v = Ok (match pm p v with Some _ => true | None => false end, pc + len (g p), m)) ->
  (forall v bs, pm p v = Some bs -> bs = []) -> good d p.
Proof.
  intros H N pc m v bs C. specialize (H pc m v bs C). specialize (N v). destruct (pm p v) as [b0|].
  - rewrite (N b0 eq_refl). exists m. split; [exact H|reflexivity].
  - exists (pc + len (g p)), m, []. split; [exact H|]. split; [exact (code_at_r P _ _ _ C)|]. split; [unfold len; cbn; lia|]. split; [constructor|]. auto.
Qed.

Lemma good_lit d v0 (p : pat) : In v0 K -> g p = lit_code K v0 -> (forall v, pm p v = if is_equal v0 v then Some [] else None) -> good (S d) p.
Proof.
  intros I E Hp. apply leaf.
  - intros pc m v bs C. rewrite E in *. destruct (index_in P v0 I) as (B & N). unfold msub, lit_code in *. rewrite Hp. destruct (Z.ltb_spec (index_of K v0) 128).
    + cbn [op app op_byte] in C. cbn [match_sub]. rewrite (code1_at P _ _ _ C). cbn [bind head_of]. apply code_tl in C. rewrite (code1_at P _ _ _ C). cbn [bind]. unfold const_at. rewrite Z.mod_small by lia. rewrite N. cbn [bind].
      replace (pc + 1 + 1) with (pc + len (op O_LIT ++ [index_of K v0 mod 256])) by (unfold len; cbn; lia). destruct (is_equal v0 v); reflexivity.
    + rewrite <- app_assoc in C. cbn [op app op_byte] in C. cbn [match_sub]. rewrite (code1_at P _ _ _ C). cbn [bind head_of]. apply code_tl in C.
      rewrite (read8_at P _ _ _ C) by (destruct HKlen; unfold in_i64, int_min, int_max in *; lia). cbn [bind]. unfold const_at. rewrite N. cbn [bind].
      rewrite len_app, len_op, len_enc8. replace (pc + 1 + 8) with (pc + (1 + 8)) by lia. destruct (is_equal v0 v); reflexivity.
  - intros v bs H. rewrite Hp in H. destruct (is_equal v0 v); congruence.
Qed.

Lemma items_ok d (more : bool) ps : Forall (good d) ps -> short d ps -> Forall (fun p => legal_pat p = true) ps -> forall vs pc m bs, code_at pc (gs ps ++ bs) ->
  (if more then (length vs <? length ps)%nat else negb (length vs =? length ps)%nat) = false ->
  match each_item (p_list P) tables more ps vs with
  | Some b => exists m', match_items (msub d) (ff P d) (length ps) pc m vs = Ok (true, pc + len (gs ps), m') /\ forall i, m' i = wr m b i
  | None => exists pc' m' qs, match_items (msub d) (ff P d) (length ps) pc m vs = Ok (false, pc', m') /\ code_at pc' (gs qs ++ bs) /\ pc' + len (gs qs) = pc + len (gs ps) /\ short d qs /\ (forallb entry_free ps = true -> qs = [])
      /\ forall i, (forall x, In x (map fst (concat (map pvars ps))) -> i <> slot_of x) -> m' i = m i
  end.
Proof.
  intros F. induction F as [|p ps G F IH]; intros Sh Lg vs pc m bs C Ln.
  - cbn [each_item]. cbn [length match_items]. unfold gens, len. cbn [map concat length]. rewrite Z.add_0_r. destruct vs as [|v vs]; [exists m; split; reflexivity|]. destruct more; [exists m; split; reflexivity|cbn in Ln; discriminate].
  - destruct vs as [|v vs]; [destruct more; cbn in Ln; discriminate|]. inversion Sh as [|? ? Hp Sh']; subst. inversion Lg as [|? ? Lp Lg']; subst. rewrite each_item_cons.
    assert (Eg : gs (p :: ps) = g p ++ gs ps) by reflexivity. rewrite Eg in *. rewrite <- app_assoc in C. pose proof (G pc m v _ C) as Gp. cbn [length match_items]. rewrite len_app.
    destruct (pm p v) as [b1|] eqn:E1.
    + destruct Gp as (m1 & M1 & W1). rewrite M1. cbn [bind]. specialize (IH Sh' Lg' vs _ m1 bs (code_at_r P _ _ _ C) ltac:(destruct more; exact Ln)). cbn [glue].
      destruct (each_item (p_list P) tables more ps vs) as [b2|].
      * destruct IH as (m2 & M2 & W2). exists m2. rewrite M2. rewrite Z.add_assoc. split; [reflexivity|]. intros i. rewrite W2, wr_app. apply wr_ext, W1.
      * destruct IH as (pc' & m2 & qs & M2 & C2 & L2 & S2 & E2 & W2). exists pc', m2, qs. rewrite M2. split; [reflexivity|]. split; [exact C2|]. split; [lia|]. split; [exact S2|].
        split; [cbn [forallb]; intros H; apply andb_true_iff in H; apply E2, H|]. intros i H. cbn [map concat] in H. rewrite map_app in H. rewrite W2 by (intros x Hx; apply H, in_or_app; auto). rewrite W1. apply wr_off.
        intros x Hx. apply (pm_dom _ _ p Lp _ _ E1) in Hx. apply H, in_or_app. auto.
    + destruct Gp as (pc1 & m1 & qs & M1 & C1 & L1 & S1 & En & W1). rewrite M1. cbn [bind].
      assert (C1' : code_at pc1 (gs (qs ++ ps) ++ bs)) by (rewrite gens_app, <- app_assoc; exact C1).
      destruct (ff_skip P sl HKlen d (qs ++ ps) (length ps) pc1 bs (short_app _ _ _ S1 Sh') ltac:(rewrite app_length; lia) C1') as (pc' & Ef & Ep & C').
      rewrite Ef. cbn [bind glue]. exists pc', m1, (skipn (length ps) (qs ++ ps)). split; [reflexivity|]. split; [exact C'|].
      assert (LL : len (gs (firstn (length ps) (qs ++ ps))) + len (gs (skipn (length ps) (qs ++ ps))) = len (gs qs) + len (gs ps)) by (rewrite <- !len_app, <- !gens_app, firstn_skipn; reflexivity).
      split; [lia|]. split; [apply short_skip, short_app; assumption|]. split; [|intros i H; cbn [map concat] in H; rewrite map_app in H; apply W1; intros x Hx; apply H, in_or_app; auto].
      cbn [forallb]. intros H. apply andb_true_iff in H. rewrite (En (proj1 H)). cbn [app]. apply skipn_all.
Qed.

Lemma key_lit v a pc bs : In v K -> literal v -> code_at pc (lit_code K v ++ bs) ->
  match_key P fuel pc (T a) = Ok (match entry (tables a) v with Some v => v | None => VEnd end, pc + len (lit_code K v)).
Proof.
  intros I L C. destruct (index_in P v I) as (B & N). unfold match_key, lit_code in *. destruct (Z.ltb_spec (index_of K v) 128).
  - cbn [op app op_byte] in C. rewrite (code1_at P _ _ _ C). cbn [bind head_of]. apply code_tl in C. rewrite (code1_at P _ _ _ C). cbn [bind]. unfold const_at. rewrite Z.mod_small by lia. rewrite N. cbn [bind].
    rewrite HT by (apply literal_good, L). cbn [bind]. unfold len. cbn [op app length]. do 2 f_equal. lia.
  - rewrite <- app_assoc in C. cbn [op app op_byte] in C. rewrite (code1_at P _ _ _ C). cbn [bind head_of]. apply code_tl in C.
    rewrite (read8_at P _ _ _ C) by (destruct HKlen; unfold in_i64, int_min, int_max in *; lia). cbn [bind]. unfold const_at. rewrite N. cbn [bind].
    rewrite HT by (apply literal_good, L). cbn [bind]. rewrite len_app, len_op, len_enc8. do 2 f_equal. lia.
Qed.
Lemma key_ok k kv a pc bs : key_value k = Some kv -> incl (plits k) K -> Forall literal (plits k) -> code_at pc (g k ++ bs) ->
  match_key P fuel pc (T a) = Ok (match entry (tables a) kv with Some v => v | None => VEnd end, pc + len (g k)).
Proof.
  intros E I L C. unfold match_key. destruct k as [|b|i|f|s|t| |kk y|more ps|more kvs|l r]; try discriminate; injection E as <-; cbn [gen_pat] in *.
  - cbn [app] in C. rewrite (code1_at P _ _ _ C). cbn [bind head_of P_BOOL]. apply code_tl in C. rewrite (code1_at P _ _ _ C). cbn [bind].
    replace (negb ((if b then 1 else 0) =? 0)) with b by (destruct b; reflexivity). rewrite HT by exact Logic.I. cbn [bind]. unfold len. cbn [length]. do 2 f_equal. lia.
  - apply (key_lit _ a pc bs); [apply I; left; reflexivity|inversion L; assumption|exact C].
  - apply (key_lit _ a pc bs); [apply I; left; reflexivity|inversion L; assumption|exact C].
  - apply (key_lit _ a pc bs); [apply I; left; reflexivity|inversion L; assumption|exact C].
Qed.

Lemma entries_ok d a kvs : Forall (fun kv => good d (snd kv)) kvs -> short d (flat kvs) -> Forall (fun kv => (exists v, key_value (fst kv) = Some v) /\ legal_pat (snd kv) = true) kvs ->
  Forall (fun kv => Forall literal (plits (fst kv))) kvs -> forall pc m bs, code_at pc (gs (flat kvs) ++ bs) ->
  match each_entry (p_list P) tables (tables a) kvs with
  | Some b => exists m', match_entries P fuel (msub d) (ff P d) (length kvs) pc m (T a) = Ok (true, pc + len (gs (flat kvs)), m') /\ forall i, m' i = wr m b i
  | None => exists pc' m' qs, match_entries P fuel (msub d) (ff P d) (length kvs) pc m (T a) = Ok (false, pc', m') /\ code_at pc' (gs qs ++ bs) /\ pc' + len (gs qs) = pc + len (gs (flat kvs)) /\ short d qs
      /\ forall i, (forall x, In x (map fst (concat (map (fun kv => pvars (snd kv)) kvs))) -> i <> slot_of x) -> m' i = m i
  end.
Proof.
  intros F. induction F as [|(k, p) kvs G F IH]; intros Sh Lg Lt pc m bs C.
  - cbn. exists m. split; [|reflexivity]. unfold len. cbn. rewrite Z.add_0_r. reflexivity.
  - inversion Lg as [|? ? ((kv & Ek) & Lp) Lg']; subst. inversion Lt as [|? ? Lk Lt']; subst. cbn [fst snd] in *.
    assert (Fl : flat ((k, p) :: kvs) = k :: p :: flat kvs) by reflexivity. rewrite Fl in *.
    inversion Sh as [|? ? Hk Sh1]; subst. inversion Sh1 as [|? ? Hp Sh']; subst. rewrite each_entry_cons, Ek.
    assert (Eg : gs (k :: p :: flat kvs) = g k ++ g p ++ gs (flat kvs)) by reflexivity. rewrite Eg in *. rewrite <- !app_assoc in C. rewrite !len_app.
    cbn [length match_entries]. rewrite (key_ok k kv a pc _ Ek (proj1 Hk) Lk C). cbn [bind]. pose proof (code_at_r P _ _ _ C) as Cp.
    destruct (entry (tables a) kv) as [u|] eqn:Eu.
    + assert (Ne : is_end u = false) by (pose proof (HTv a kv u Eu); destruct u; try reflexivity; congruence). rewrite Ne.
      pose proof (G (pc + len (g k)) m u _ Cp) as Gp. destruct (pm p u) as [b1|] eqn:E1.
      * destruct Gp as (m1 & M1 & W1). rewrite M1. cbn [bind]. specialize (IH Sh' Lg' Lt' _ m1 bs (code_at_r P _ _ _ Cp)). cbn [glue].
        destruct (each_entry (p_list P) tables (tables a) kvs) as [b2|].
        -- destruct IH as (m2 & M2 & W2). exists m2. rewrite M2. rewrite !Z.add_assoc. split; [reflexivity|]. intros i. rewrite W2, wr_app. apply wr_ext, W1.
        -- destruct IH as (pc' & m2 & qs & M2 & C2 & L2 & S2 & W2). exists pc', m2, qs. rewrite M2. split; [reflexivity|]. split; [exact C2|]. split; [lia|]. split; [exact S2|].
           intros i H. cbn [map concat snd] in H. rewrite map_app in H. rewrite W2 by (intros x Hx; apply H, in_or_app; auto). rewrite W1. apply wr_off.
           intros x Hx. apply (pm_dom _ _ p Lp _ _ E1) in Hx. apply H, in_or_app. auto.
      * destruct Gp as (pc1 & m1 & qs & M1 & C1 & L1 & S1 & En & W1). rewrite M1. cbn [bind glue].
        assert (C1' : code_at pc1 (gs (qs ++ flat kvs) ++ bs)) by (rewrite gens_app, <- app_assoc; exact C1).
        destruct (ff_skip P sl HKlen d (qs ++ flat kvs) (2 * length kvs) pc1 bs (short_app _ _ _ S1 Sh') ltac:(rewrite app_length, flat_length; lia) C1') as (pc' & Ef & Ep & C').
        rewrite Ef. cbn [bind]. exists pc', m1, (skipn (2 * length kvs) (qs ++ flat kvs)). split; [reflexivity|]. split; [exact C'|].
        assert (LL : len (gs (firstn (2 * length kvs) (qs ++ flat kvs))) + len (gs (skipn (2 * length kvs) (qs ++ flat kvs))) = len (gs qs) + len (gs (flat kvs))) by (rewrite <- !len_app, <- !gens_app, firstn_skipn; reflexivity).
        split; [lia|]. split; [apply short_skip, short_app; assumption|]. intros i H. cbn [map concat snd] in H. rewrite map_app in H. apply W1. intros x Hx. apply H, in_or_app. auto.
    + cbn [is_end glue]. assert (C1' : code_at (pc + len (g k)) (gs (p :: flat kvs) ++ bs)) by (change (gs (p :: flat kvs)) with (g p ++ gs (flat kvs)); rewrite <- app_assoc; exact Cp).
      destruct (ff_skip P sl HKlen d (p :: flat kvs) (2 * length kvs) _ bs Sh1 ltac:(cbn [length]; rewrite flat_length; lia) C1') as (pc' & Ef & Ep & C').
      rewrite Ef. cbn [bind]. exists pc', m, (skipn (2 * length kvs) (p :: flat kvs)). split; [reflexivity|]. split; [exact C'|].
      assert (LL : len (gs (firstn (2 * length kvs) (p :: flat kvs))) + len (gs (skipn (2 * length kvs) (p :: flat kvs))) = len (g p) + len (gs (flat kvs))) by (rewrite <- !len_app, <- gens_app, firstn_skipn; reflexivity).
      split; [lia|]. split; [apply short_skip, Sh1|]. reflexivity.
Qed.

Lemma slots_list (more : bool) ps : slots_ok (PList more ps) -> Forall slots_ok ps.
Proof. unfold slots_ok. cbn [pvars]. rewrite Forall_forall. intros H p I x Hx. apply H. rewrite concat_map, map_map. apply in_concat. exists (map fst (pvars p)). split; [apply in_map_iff; exists p; auto|exact Hx]. Qed.
Lemma slots_table (more : bool) kvs : slots_ok (PTable more kvs) -> Forall (fun kv => slots_ok (snd kv)) kvs.
Proof. unfold slots_ok. cbn [pvars]. rewrite Forall_forall. intros H p I x Hx. apply H. rewrite concat_map, map_map. apply in_concat. exists (map fst (pvars (snd p))). split; [apply in_map_iff; exists p; auto|exact Hx]. Qed.

Lemma skip_all d ps pc bs : short d ps -> code_at pc (gs ps ++ bs) -> ff_many (ff P d) (length ps) pc = Ok (pc + len (gs ps)) /\ code_at (pc + len (gs ps)) bs.
Proof.
  intros S C. destruct (ff_skip P sl HKlen d ps (length ps) pc bs S ltac:(lia) C) as (pc' & E & Q & C'). rewrite firstn_all in Q. subst pc'. split; [exact E|]. exact (code_at_r P _ _ _ C).
Qed.

Theorem match_sub_ok p : forall d, legal_pat p = true -> alts_ok p = true -> incl (plits p) K -> Forall literal (plits p) -> slots_ok p -> (pdepth p <= d)%nat -> good d p.
Proof.
  induction p as [|b|i|f|s|t| |k y|more ps IH|more kvs IH|l r IHl IHr] using pat_ind'; intros d Lg Al In1 Lt So D; (destruct d as [|d]; [cbn [pdepth] in D; lia|]).
  - apply leaf; [|intros v bs; cbn; destruct v; congruence]. intros pc m v bs C. unfold msub. cbn [gen_pat app match_sub] in *. rewrite (code1_at P _ _ _ C). cbn [bind head_of P_UNDEF]. destruct v; reflexivity.
  - apply leaf; [|intros v bs; cbn; destruct v; try congruence; destruct (Bool.eqb _ _); congruence]. intros pc m v bs C. unfold msub. cbn [gen_pat app match_sub] in *. rewrite (code1_at P _ _ _ C). cbn [bind head_of P_BOOL]. apply code_tl in C. rewrite (code1_at P _ _ _ C). cbn [bind].
    unfold len. cbn [length]. replace (pc + 1 + 1) with (pc + Z.of_nat 2) by lia. destruct v, b; try reflexivity; destruct b0; reflexivity.
  - eapply good_lit; [apply In1; left; reflexivity|reflexivity|reflexivity].
  - eapply good_lit; [apply In1; left; reflexivity|reflexivity|reflexivity].
  - eapply good_lit; [apply In1; left; reflexivity|reflexivity|reflexivity].
  - apply leaf; [|intros v bs; cbn [pmatch]; destruct (has_type t v); congruence]. intros pc m v bs C. unfold msub. cbn [gen_pat app match_sub] in *. rewrite (code1_at P _ _ _ C). cbn [bind].
    replace (head_of (ptype_byte t)) with (Some (HType t)) by (destruct t; reflexivity). cbn [pmatch]. change (type_is t v) with (has_type t v). destruct (has_type t v); reflexivity.
  - apply leaf; [|intros v bs; cbn; congruence]. intros pc m v bs C. unfold msub. cbn [gen_pat app match_sub] in *. rewrite (code1_at P _ _ _ C). cbn [bind head_of P_ANY]. reflexivity.
  - intros pc m v bs C. cbn [pmatch]. unfold msub. cbn [gen_pat app match_sub] in *. rewrite (code1_at P _ _ _ C). cbn [bind head_of P_BIND]. apply code_tl in C. rewrite (code1_at P _ _ _ C). cbn [bind].
    destruct (So y (or_introl eq_refl)) as (B & R). rewrite Z.mod_small by exact B. fold (slot_of y). unfold STACK_SIZE.
    replace ((sp <? slot_of y) && (slot_of y <? 1024)) with true by (symmetry; rewrite andb_true_iff, !Z.ltb_lt; exact R).
    exists (write_slot m (slot_of y) v). split; [unfold len; cbn [length]; do 3 f_equal; lia|reflexivity].
  - intros pc m v bs C. pose proof (legal_list more ps Lg) as Lgs. cbn [alts_ok] in Al. rewrite forallb_forall in Al. pose proof (plits_list P ps In1) as Ins. pose proof (depth_list more ps d D) as Ds.
    assert (Gd : Forall (good d) ps).
    { pose proof (slots_list more ps So) as Ss. rewrite Forall_forall in *. intros q Hq. apply (IH q Hq); [apply Lgs, Hq|apply Al, Hq|apply Ins, Hq| |apply Ss, Hq|apply Ds, Hq].
      rewrite Forall_forall. intros u Hu. apply Lt. cbn [plits]. apply in_concat. exists (plits q). split; [apply in_map, Hq|exact Hu]. }
    assert (Sh : short d ps) by (unfold short; rewrite Forall_forall in *; intros q Hq; split; [apply Ins, Hq|apply Ds, Hq]).
    cbn [gen_pat] in *. unfold msub. cbn [match_sub]. cbn [app] in C. rewrite (code1_at P _ _ _ C). cbn [bind]. replace (head_of (if more then P_VLS else P_LS)) with (Some (HList more)) by (destruct more; reflexivity).
    apply code_tl in C. rewrite <- app_assoc in C. fold (gs ps) in *. pose proof (code_at_r P _ _ _ C) as C2. rewrite len_enc8 in C2. destruct (count_i64 P sl HKlen _ (length ps) ps bs (gens_pos K sl ps) C2) as (I1 & I2).
    rewrite (read8_at P _ _ _ C I1). cbn [bind]. rewrite I2, Nat2Z.id. destruct (skip_all d ps _ bs Sh C2) as (Sk & Ck).
    assert (EL : len ((if more then P_VLS else P_LS) :: enc8 (Z.of_nat (length ps)) ++ gs ps) = 9 + len (gs ps)) by (unfold len; cbn [length]; rewrite app_length, enc8_length; lia).
    rewrite EL. replace (pc + (9 + len (gs ps))) with (pc + 1 + 8 + len (gs ps)) by lia.
    assert (Fail : exists pc' m' qs, Ok (false, pc + 1 + 8 + len (gs ps), m) = Ok (false, pc', m') /\ code_at pc' (gs qs ++ bs) /\ pc' + len (gs qs) = pc + 1 + 8 + len (gs ps) /\ short (S d) qs /\ (entry_free (PList more ps) = true -> qs = [])
       /\ forall i, (forall x, In x (map fst (pvars (PList more ps))) -> i <> slot_of x) -> m' i = m i).
    { exists (pc + 1 + 8 + len (gs ps)), m, []. split; [reflexivity|]. split; [exact Ck|]. split; [unfold len; cbn; lia|]. split; [constructor|]. auto. }
    destruct v as [| | | | | |a|a| | | | |]; try (rewrite Sk; cbn [bind pmatch]; exact Fail).
    rewrite pm_list. remember (if more then Z.of_nat (length (p_list P a)) <? Z.of_nat (length ps) else negb (Z.of_nat (length (p_list P a)) =? Z.of_nat (length ps))) as c eqn:Ec.
    assert (Ec' : (if more then (length (p_list P a) <? length ps)%nat else negb (length (p_list P a) =? length ps)%nat) = c).
    { rewrite Ec. destruct more; [|f_equal]; apply eq_true_iff_eq; [rewrite Nat.ltb_lt, Z.ltb_lt|rewrite Nat.eqb_eq, Z.eqb_eq]; lia. }
    destruct c.
    + rewrite Sk. cbn [bind]. rewrite (each_item_short _ _ more ps (p_list P a) Ec'). exact Fail.
    + pose proof (items_ok d more ps Gd Sh Lgs (p_list P a) _ m bs C2 Ec') as H. destruct (each_item (p_list P) tables more ps (p_list P a)) as [b|]; [exact H|].
      destruct H as (pc' & m' & qs & H1 & H2 & H3 & H4 & H5 & H6). exists pc', m', qs. split; [exact H1|]. split; [exact H2|]. split; [exact H3|]. split; [eapply short_le; [exact H4|lia]|]. split; [exact H5|exact H6].
  - intros pc m v bs C. pose proof (legal_table more kvs Lg) as Lgs. cbn [alts_ok] in Al. rewrite forallb_forall in Al. pose proof (plits_flat P kvs In1) as Ins. pose proof (depth_table more kvs d D) as Ds.
    assert (Fs : forall kv, In kv kvs -> In (fst kv) (flat kvs) /\ In (snd kv) (flat kvs)).
    { intros kv H. unfold flat. split; apply in_concat; exists [fst kv; snd kv]; (split; [apply in_map_iff; exists kv; auto|cbn; auto]). }
    assert (Lts : forall kv, In kv kvs -> Forall literal (plits (fst kv)) /\ Forall literal (plits (snd kv))).
    { intros kv H. rewrite <- Forall_app. rewrite Forall_forall in *. intros u Hu. apply Lt. cbn [plits]. apply in_concat. eexists. split; [apply in_map_iff; exists kv; split; [reflexivity|exact H]|exact Hu]. }
    assert (Gd : Forall (fun kv => good d (snd kv)) kvs).
    { pose proof (slots_table more kvs So) as Ss. rewrite Forall_forall in *. intros q Hq. destruct (Fs q Hq) as (F1 & F2). apply (IH q Hq); [apply Lgs, Hq|apply Al, Hq|apply Ins, F2|apply Lts, Hq|apply Ss, Hq|apply Ds, F2]. }
    assert (Sh : short d (flat kvs)) by (unfold short; rewrite Forall_forall in *; intros q Hq; split; [apply Ins, Hq|apply Ds, Hq]).
    cbn [gen_pat] in *. rewrite gens_flat in *. unfold msub. cbn [match_sub]. cbn [app] in C. rewrite (code1_at P _ _ _ C). cbn [bind]. replace (head_of (if more then P_VTABLE else P_TABLE)) with (Some (HTable more)) by (destruct more; reflexivity).
    apply code_tl in C. rewrite <- app_assoc in C. pose proof (code_at_r P _ _ _ C) as C2. rewrite len_enc8 in C2. rewrite <- flat_length in *. destruct (count_i64 P sl HKlen _ (length (flat kvs)) (flat kvs) bs (gens_pos K sl _) C2) as (I1 & I2).
    rewrite (read8_at P _ _ _ C I1). cbn [bind]. rewrite I2. destruct (skip_all d (flat kvs) _ bs Sh C2) as (Sk & Ck).
    assert (E2 : Z.of_nat (length (flat kvs)) / 2 = Z.of_nat (length kvs)) by (rewrite flat_length, Nat2Z.inj_mul, Z.mul_comm, Z.div_mul; lia).
    rewrite E2. replace (Z.to_nat (Z.of_nat (length kvs) * 2)) with (length (flat kvs)) by (rewrite flat_length; lia). rewrite Nat2Z.id.
    assert (EL : len ((if more then P_VTABLE else P_TABLE) :: enc8 (Z.of_nat (length (flat kvs))) ++ gs (flat kvs)) = 9 + len (gs (flat kvs))) by (unfold len; cbn [length]; rewrite app_length, enc8_length; lia).
    rewrite EL. replace (pc + (9 + len (gs (flat kvs)))) with (pc + 1 + 8 + len (gs (flat kvs))) by lia.
    assert (Fail : exists pc' m' qs, Ok (false, pc + 1 + 8 + len (gs (flat kvs)), m) = Ok (false, pc', m') /\ code_at pc' (gs qs ++ bs) /\ pc' + len (gs qs) = pc + 1 + 8 + len (gs (flat kvs)) /\ short (S d) qs /\ (entry_free (PTable more kvs) = true -> qs = [])
       /\ forall i, (forall x, In x (map fst (pvars (PTable more kvs))) -> i <> slot_of x) -> m' i = m i).
    { exists (pc + 1 + 8 + len (gs (flat kvs))), m, []. split; [reflexivity|]. split; [exact Ck|]. split; [unfold len; cbn; lia|]. split; [constructor|]. auto. }
    destruct v as [| | | | | |a|a| | | | |]; try (rewrite Sk; cbn [bind pmatch]; exact Fail).
    rewrite pm_table. rewrite HTc.
    replace (negb more && negb (Z.of_nat (length (tables a)) =? Z.of_nat (length kvs))) with (negb (more || (length (tables a) =? length kvs)%nat)).
    2:{ rewrite negb_orb. do 2 f_equal. apply eq_true_iff_eq. rewrite Nat.eqb_eq, Z.eqb_eq. lia. }
    destruct (more || (length (tables a) =? length kvs)%nat); cbn [negb].
    + pose proof (entries_ok d a kvs Gd Sh Lgs ltac:(rewrite Forall_forall; intros kv Hk; apply Lts, Hk) _ m bs C2) as H. destruct (each_entry (p_list P) tables (tables a) kvs) as [b|] eqn:Ee; [exact H|].
      destruct H as (pc' & m' & qs & H1 & H2 & H3 & H4 & H6). exists pc', m', qs. split; [exact H1|]. split; [exact H2|]. split; [exact H3|]. split; [eapply short_le; [exact H4|lia]|]. split; [|exact H6].
      destruct kvs; [discriminate|]. discriminate.
    + rewrite Sk. cbn [bind]. exact Fail.
  - intros pc m v bs C. cbn [legal_pat] in Lg. apply andb_true_iff in Lg. destruct Lg as (_ & Lg). apply andb_true_iff in Lg. destruct Lg as (Lg & Sv). apply andb_true_iff in Lg. destruct Lg as (Ll & Lr).
    cbn [alts_ok] in Al. apply andb_true_iff in Al. destruct Al as (Al & Ar). apply andb_true_iff in Al. destruct Al as (Ef & Al). cbn [plits pdepth] in *. apply Forall_app in Lt. destruct Lt as (Tl & Tr).
    assert (Il : incl (plits l) K) by (intros u Hu; apply In1, in_or_app; auto). assert (Ir : incl (plits r) K) by (intros u Hu; apply In1, in_or_app; auto).
    assert (Sr : slots_ok r) by (intros x Hx; apply So; cbn [pvars]; apply (same_names _ _ Sv), Hx).
    pose proof (IHl d Ll Al Il Tl So ltac:(lia)) as Gl. pose proof (IHr d Lr Ar Ir Tr Sr ltac:(lia)) as Gr.
    cbn [gen_pat] in *. unfold msub. cbn [match_sub]. cbn [app] in C. rewrite (code1_at P _ _ _ C). cbn [bind head_of P_ALT]. apply code_tl in C. rewrite <- app_assoc in C. pose proof (code_at_r P _ _ _ C) as C2.
    specialize (Gl (pc + 1) m v _ C). cbn [pmatch]. unfold msub in Gl.
    assert (EL : len (P_ALT :: g l ++ g r) = 1 + (len (g l) + len (g r))) by (unfold len; cbn [length]; rewrite app_length; lia). rewrite EL.
    destruct (pm l v) as [b|].
    + destruct Gl as (m1 & M1 & W1). rewrite M1. cbn [bind]. rewrite (ff_ok P sl HKlen r d _ bs Ir ltac:(lia) C2). cbn [bind]. exists m1. split; [do 3 f_equal; lia|exact W1].
    + destruct Gl as (pc1 & m1 & qs & M1 & C1 & L1 & _ & En & W1). rewrite M1. cbn [bind]. rewrite (En Ef) in *. cbn [gens map concat app] in C1. assert (pc1 = pc + 1 + len (g l)) by (unfold len in L1; cbn in L1; unfold len; lia). subst pc1.
      specialize (Gr _ m1 v bs C2). destruct (pm r v) as [b|] eqn:Er.
      * destruct Gr as (m2 & M2 & W2). exists m2. unfold msub in M2. rewrite M2. split; [do 3 f_equal; lia|]. intros i. rewrite W2. apply wr_base. intros j Hj. apply W1. intros x Hx. apply Hj, (pm_dom _ _ r Lr _ _ Er), (same_names _ _ Sv), Hx.
      * destruct Gr as (pc2 & m2 & qs2 & M2 & C3 & L3 & S3 & E3 & W2). exists pc2, m2, qs2. split; [exact M2|]. split; [exact C3|]. split; [lia|]. split; [eapply short_le; [exact S3|lia]|].
        split; [cbn [entry_free]; rewrite andb_true_iff; intros (_ & H); apply E3, H|]. intros i H. cbn [pvars] in H. rewrite W2 by (intros x Hx; apply H, (same_names _ _ Sv), Hx). apply W1, H.
Qed.
End M.
