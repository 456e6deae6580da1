From Coq Require Import Permutation.
From Verif Require Import Base Bytes Value ValueProofs Hash Table TableSpec ListFacts TableProofs TableProofs2 TableProofs3 TableProofs4.
From Verif Require Import Lists ListSpec ListProofs Api ApiSpec ApiProofs.
From Verif Require Import Ops Text VM CallSpec CallProofs Names Heap HeapSpec HeapSpec2 HeapProofs HeapProofs2 HeapProofs3 HeapProofs4.
Local Open Scope list_scope.
Local Open Scope Z_scope.

(** ** Text. *)
Definition text_ok {A} (o : outcome A) (Q : A -> Prop) : Prop := match o with Ok t => Q t | Err EStackOverflow => True | _ => False end.
Lemma text_bind {A B} (o : outcome A) (f : A -> outcome B) Q R : text_ok o Q -> (forall t, Q t -> text_ok (f t) R) -> text_ok (bind o f) R.
Proof. destruct o as [t|e| |]; cbn; intros T G; try contradiction; [apply G, T|]. destruct e; auto. Qed.

Lemma comma_join ts : ts <> [] -> concat (map (fun t => t ++ comma) ts) = commas ts ++ comma.
Proof.
  induction ts as [|t ts IH]; [congruence|]. intros _. destruct ts as [|u ts]; [cbn; apply app_nil_r|]. cbn [map concat commas] in *. rewrite IH by discriminate. unfold comma. rewrite <- !app_assoc. reflexivity.
Qed.
Lemma close_ok c0 ts c : ts <> [] -> close ([c0] ++ concat (map (fun t => t ++ comma) ts)) c = Ok ([c0] ++ commas ts ++ [c]).
Proof.
  intros N. rewrite (comma_join ts N). unfold close. cbn [app]. cbn [length]. rewrite app_length. change (length comma) with 2%nat.
  destruct (Nat.ltb_spec (S (length (commas ts) + 2)) 2); [lia|]. f_equal. replace (S (length (commas ts) + 2) - 2)%nat with (S (length (commas ts))) by lia. cbn [firstn]. rewrite firstn_app, Nat.sub_diag, firstn_all. cbn [firstn]. rewrite app_nil_r. reflexivity.
Qed.
Lemma text_items_ok f (Q : value -> list Z -> Prop) xs : (forall x, In x xs -> text_ok (f x) (Q x)) -> forall bb,
  text_ok (text_items f xs bb) (fun b => exists ts, Forall2 Q xs ts /\ b = bb ++ concat (map (fun t => t ++ comma) ts)).
Proof.
  induction xs as [|x xs IH]; intros G bb; cbn [text_items]; [exists []; split; [constructor|rewrite app_nil_r; reflexivity]|].
  apply (text_bind _ _ (Q x)); [apply G; left; reflexivity|]. intros t Ht. specialize (IH (fun y HI => G y (or_intror HI)) (bb ++ t ++ comma)).
  destruct (text_items f xs (bb ++ t ++ comma)) as [b|e| |]; cbn [text_ok] in *; try contradiction; [|exact IH]. destruct IH as (ts & F & ->). exists (t :: ts). split; [constructor; assumption|]. cbn [map concat]. rewrite <- !app_assoc. reflexivity.
Qed.
Lemma text_entries_ok fk fv (Q : value * value -> list Z -> Prop) its : (forall it, In it its -> exists K V, text_ok (fk (ik it)) K /\ text_ok (fv (iv it)) V /\ forall a b, K a -> V b -> Q (TableProofs.kv it) (a ++ colon ++ b)) -> forall bb,
  text_ok (text_entries fk fv its bb) (fun b => exists ts, Forall2 Q (map TableProofs.kv its) ts /\ b = bb ++ concat (map (fun t => t ++ comma) ts)).
Proof.
  induction its as [|it its IH]; intros G bb; cbn [text_entries]; [exists []; split; [constructor|rewrite app_nil_r; reflexivity]|].
  destruct (G it (or_introl eq_refl)) as (K & V & G1 & G2 & G3). apply (text_bind _ _ K _ G1). intros k Hk. apply (text_bind _ _ V _ G2). intros v Hv.
  specialize (IH (fun y HI => G y (or_intror HI)) (bb ++ k ++ colon ++ v ++ comma)).
  destruct (text_entries fk fv its _) as [b|e| |]; cbn [text_ok] in *; try contradiction; [|exact IH]. destruct IH as (ts & F & ->). exists ((k ++ colon ++ v) :: ts). split; [constructor; [apply G3; assumption|exact F]|]. cbn [map concat]. unfold colon, comma. rewrite <- !app_assoc. reflexivity.
Qed.

Definition buf_ok (buf : seen_buf) (around : list Z) : Prop := (1 <= length (snd buf) <= fst buf)%nat /\ forall q, In q (snd buf) <-> In q around.
Lemma contains_in buf around q : buf_ok buf around -> contains buf q = true <-> In q around.
Proof.
  intros (_ & G). unfold contains. rewrite <- G, existsb_exists. split.
  - intros (x & HI & E). apply Z.eqb_eq in E. subst x. exact HI.
  - intros HI. exists q. split; [exact HI|apply Z.eqb_refl].
Qed.
Lemma grow_ok buf around q : buf_ok buf around -> exists buf', grow buf q = Ok buf' /\ buf_ok buf' (q :: around).
Proof.
  destruct buf as (size, l). intros ((A & B) & G). cbn [fst snd] in *. unfold grow.
  assert (M : forall z, In z (l ++ [q]) <-> In z (q :: around)) by (intros z; rewrite in_app_iff; cbn [In]; rewrite G; tauto).
  destruct (Nat.eqb_spec (length l) size) as [E|NE].
  - destruct (Nat.ltb_spec (length l) (size * 2)); [|lia]. eexists. split; [reflexivity|]. split; [cbn [fst snd]; rewrite app_length; cbn; lia|exact M].
  - destruct (Nat.ltb_spec (length l) size); [|lia]. eexists. split; [reflexivity|]. split; [cbn [fst snd]; rewrite app_length; cbn; lia|exact M].
Qed.

Section Fuel.
Variable fuel : nat.
Hypothesis HF : FUEL_BOUND <= Z.of_nat fuel.
Variable w : world.
Hypothesis Hw : forall f, exists t, w_tostr w (VFloat f) = Ok t.

Lemma prim_text_ok v : is_atom v = true -> exists t, prim_text w v = Ok t /\ atom_text w v t.
Proof.
  intros A. destruct v; try discriminate A; unfold prim_text; cbn [prim_tostr].
  - eexists. split; [reflexivity|]. left. reflexivity.
  - destruct (Hw f) as (t & E). exists t. split; [exact E|]. right. eauto.
  - eexists. split; [reflexivity|]. left. reflexivity.
  - destruct b; eexists; (split; [reflexivity|]); left; reflexivity.
  - eexists. split; [reflexivity|]. left. reflexivity.
Qed.
Lemma text_prim_cases room frames h v : meta_ok h -> is_atom v = true ->
  text_ok (text_prim fuel w room frames h v) (atom_text w v) /\ ((2 <= room)%nat -> (1 <= frames)%nat -> exists t, text_prim fuel w room frames h v = Ok t).
Proof.
  intros M A. destruct (prim_text_ok v A) as (t & E & T).
  assert (G : exists mt names id, In (mt, names) metas /\ metatable h v = Ok (Some mt) /\ meth_id (mt * 100) names n_tostr = Some id /\ cfn_of id = Some (CTostr (vtype v), 1)).
  { destruct v; try discriminate A; [exists MT_UNDEF, undef_names, 0|exists MT_FLOAT, float_names, 103|exists MT_INT, int_names, 203|exists MT_BOOL, bool_names, 300|exists MT_STR, str_names, 408]; (split; [auto with metas|]); repeat split; reflexivity. }
  destruct G as (mt & names & id & HI & Em & Ei & Ec).
  assert (TE : text_prim fuel w room frames h v = match room with S r => match frames with O => Err EStackOverflow | S _ => match v with VStr _ => prim_text w v | _ => need1 r (fun _ => prim_text w v) end end | O => Err EStackOverflow end).
  { assert (U : text_prim fuel w room frames h v = need1 room (fun r => do m <- method fuel h v n_tostr; match m with None => Err EType | Some (VCfn id) => match frames with O => Err EStackOverflow | S _ => match cfn_of id with Some (CTostr t, _) => if ytype_eqb t (vtype v) then match v with VStr _ => prim_text w v | _ => need1 r (fun _ => prim_text w v) end else Err EType | _ => NoFuel end end | Some _ => NoFuel end)) by (destruct v; try discriminate A; reflexivity).
    rewrite U. destruct room as [|r]; [reflexivity|]. cbn [need1]. rewrite (method_name fuel HF h v mt names n_tostr M HI Em), Ei. cbn [option_map bind]. destruct frames; [reflexivity|]. rewrite Ec.
    assert (Y : ytype_eqb (vtype v) (vtype v) = true) by (destruct v; reflexivity). rewrite Y. reflexivity. }
  rewrite TE. split.
  - destruct room as [|r]; [exact I|]. destruct frames; [exact I|]. destruct v; try discriminate A; try (destruct r; [exact I|]; cbn [need1]); rewrite E; exact T.
  - intros R F. destruct room as [|[|r]]; try lia. destruct frames; [lia|]. exists t. destruct v; try discriminate A; cbn [need1]; exact E.
Qed.

Section Mem.
Variables (h : heap) (m : mem).
Hypothesis Sh : shows h m.
Let item_text (r frames : nat) (buf : seen_buf) (x : value) : outcome (list Z) :=
  match x with
  | VList q => if contains buf q then Ok found_list else do buf' <- grow buf q; text_of fuel w r frames h buf' x
  | VTable q => if contains buf q then Ok found_table else do buf' <- grow buf q; text_of fuel w r frames h buf' x
  | _ => text_prim fuel w r frames h x
  end.
Definition addr (v : value) : option Z := match v with VList p | VTable p => Some p | _ => None end.
Lemma tab_count t kv : holds t kv -> (u64 (t_count t) =? 0) = (length kv =? 0)%nat.
Proof.
  intros Ht. destruct Ht as [(k & I) _ _ _ C]. pose proof (ti_cnt _ _ I) as Cn. unfold counted in Cn. rewrite Cn, C.
  pose proof (count_bound t (ti_wf _ _ I)). pose proof (wf_lim t (ti_wf _ _ I)). unfold ALLOC_LIMIT in *. unfold u64, two64. rewrite Z.mod_small by lia. destruct (Nat.eqb_spec (length kv) 0), (Z.eqb_spec (Z.of_nat (length kv)) 0); lia.
Qed.
Lemma entry_in t l it : holds t l -> In it (for_table t) -> In (TableProofs.kv it) l.
Proof. intros Ht HI. eapply Permutation_in; [apply kv_perm, Ht|]. apply in_map, HI. Qed.
(** never undefined behaviour, and the text is right *)
Lemma text_of_safe : complete m -> forall room frames buf around v p, there m v -> addr v = Some p -> ~ In p around -> buf_ok buf (p :: around) ->
  text_ok (text_of fuel w room frames h buf v) (shown w m around v).
Proof.
  intros CP. induction room as [|room IH]; intros frames buf around v p Th Ad NI B.
  - destruct v; try discriminate Ad; injection Ad as ->; cbn [there] in Th.
    + destruct (m_list m p) as [xs|] eqn:E; [|congruence]. destruct (sh_list _ _ Sh _ _ E) as (E1 & _). cbn [text_of]. unfold list_at. rewrite E1. cbn [bind]. destruct xs; [|exact I]. exact (ShList w m around p [] [] NI E (Forall2_nil _)).
    + destruct (m_tab m p) as [l|] eqn:E; [|congruence]. destruct (sh_tab _ _ Sh _ _ E) as (_ & _ & t & E1 & Ht). cbn [text_of]. unfold tab_at. rewrite E1. cbn [bind]. rewrite (tab_count t l Ht).
      pose proof (kv_len _ _ Ht) as Lk. destruct l as [|e l]; cbn [length Nat.eqb]; [exact (ShTable w m around p [] [] [] NI E (Permutation_refl _) (Forall2_nil _))|]. destruct (for_table t); [discriminate Lk|exact I].
  - assert (IT : forall x, there m x -> text_ok (item_text room frames buf x) (shown w m (p :: around) x)).
    { intros x Tx. unfold item_text.
      assert (GC : forall q, addr x = Some q -> contains buf q = false -> text_ok (do buf' <- grow buf q; text_of fuel w room frames h buf' x) (shown w m (p :: around) x)).
      { intros q Aq Cq. destruct (grow_ok buf (p :: around) q B) as (buf' & Eb & Bb). rewrite Eb. cbn [bind]. apply (IH frames buf' (p :: around) x q); [exact Tx|exact Aq| |exact Bb].
        intros HI. apply (contains_in buf (p :: around) q B) in HI. congruence. }
      assert (GA : is_atom x = true -> text_ok (text_prim fuel w room frames h x) (shown w m (p :: around) x)).
      { intros A. destruct (text_prim_cases room frames h x (sh_meta _ _ Sh) A) as (T & _). destruct (text_prim fuel w room frames h x) as [t|e| |]; cbn in *; try exact T. apply ShAtom, T. }
      destruct x; try (apply GA; exact Tx).
      - destruct (contains buf p0) eqn:C; [|apply (GC p0 eq_refl C)]. apply ShListIn. apply (contains_in _ _ _ B), C.
      - destruct (contains buf p0) eqn:C; [|apply (GC p0 eq_refl C)]. apply ShTableIn. apply (contains_in _ _ _ B), C. }
    destruct v; try discriminate Ad; injection Ad as ->; cbn [there] in Th.
    + destruct (m_list m p) as [xs|] eqn:E; [|congruence]. destruct (sh_list _ _ Sh _ _ E) as (E1 & _). destruct (c_lists _ CP _ _ E) as (_ & FT). cbn [text_of]. unfold list_at. rewrite E1. cbn [bind].
      destruct xs as [|x xs]; [exact (ShList w m around p [] [] NI E (Forall2_nil _))|]. set (ys := x :: xs) in *. fold (item_text room frames buf).
      refine (text_bind _ _ _ _ (text_items_ok _ (shown w m (p :: around)) ys _ _) _).
      * intros y HI. apply IT. rewrite Forall_forall in FT. apply FT, HI.
      * intros b (ts & F2 & ->). rewrite close_ok by (intros ->; inversion F2). exact (ShList w m around p ys ts NI E F2).
    + destruct (m_tab m p) as [l|] eqn:E; [|congruence]. destruct (sh_tab _ _ Sh _ _ E) as (_ & _ & t & E1 & Ht). destruct (c_tables _ CP _ _ E) as (_ & FT). cbn [text_of]. unfold tab_at. rewrite E1. cbn [bind]. rewrite (tab_count t l Ht).
      pose proof (kv_len _ _ Ht) as Lk. destruct (Nat.eqb_spec (length l) 0) as [L0|L0].
      { destruct l; [|discriminate L0]. exact (ShTable w m around p [] [] [] NI E (Permutation_refl _) (Forall2_nil _)). }
      destruct (for_table t) as [|it its] eqn:EF; [cbn in Lk; lia|]. rewrite <- EF. fold (item_text room frames buf).
      refine (text_bind _ _ _ _ (text_entries_ok _ _ (shown_entry w m (p :: around)) (for_table t) _ _) _).
      * intros it' HI. rewrite Forall_forall in FT. destruct (FT _ (entry_in t l it' Ht HI)) as (A1 & A2). cbn [TableProofs.kv fst snd] in A1, A2. exists (atom_text w (ik it')), (shown w m (p :: around) (iv it')).
        split; [apply (text_prim_cases room frames h _ (sh_meta _ _ Sh) A1)|]. split; [apply IT, A2|]. intros a b Ha Hb. exact (ShEntry w m (p :: around) (ik it') (iv it') a b Ha Hb).
      * intros b (ts & F2 & ->). rewrite close_ok by (intros ->; rewrite EF in F2; inversion F2). apply (ShTable w m around p l (map TableProofs.kv (for_table t)) ts NI E); [|exact F2]. apply Permutation_sym, kv_perm, Ht.
Qed.
Lemma text_items_total f xs : (forall x, In x xs -> exists t, f x = Ok t) -> forall bb, exists b, text_items f xs bb = Ok b.
Proof.
  induction xs as [|x xs IH]; intros G bb; cbn [text_items]; [eauto|]. destruct (G x (or_introl eq_refl)) as (t & ->). cbn [bind]. apply IH. intros y HI. apply G. right. exact HI.
Qed.
Lemma text_entries_total fk fv its : (forall it, In it its -> (exists t, fk (ik it) = Ok t) /\ (exists t, fv (iv it) = Ok t)) -> forall bb, exists b, text_entries fk fv its bb = Ok b.
Proof.
  induction its as [|x xs IH]; intros G bb; cbn [text_entries]; [eauto|]. destruct (G x (or_introl eq_refl)) as ((t & ->) & (u & ->)). cbn [bind]. apply IH. intros y HI. apply G. right. exact HI.
Qed.
(** enough room *)
Lemma not_overflow {A} (o : outcome A) Q : text_ok o Q -> o <> Err EStackOverflow -> exists t, o = Ok t /\ Q t.
Proof. destruct o as [t|e| |]; cbn; intros T N; try contradiction; [eauto|]. destruct e; try contradiction; congruence. Qed.
Lemma text_of_total : forall n room frames buf around v p, nested_below m n around v = true -> addr v = Some p -> ~ In p around -> buf_ok buf (p :: around) -> (n + 2 <= room)%nat -> (1 <= frames)%nat ->
  text_of fuel w room frames h buf v <> Err EStackOverflow.
Proof.
  induction n as [|n IH]; intros room frames buf around v p NB Ad NI B R F.
  - destruct v; try discriminate Ad; injection Ad as ->; cbn [nested_below] in NB; destruct (in_dec Z.eq_dec p around); try contradiction; discriminate NB.
  - destruct room as [|room]; [lia|].
    assert (IT : forall x, nested_below m n (p :: around) x = true -> item_text room frames buf x <> Err EStackOverflow).
    { intros x Nx. unfold item_text.
      assert (GC : forall q, addr x = Some q -> contains buf q = false -> (do buf' <- grow buf q; text_of fuel w room frames h buf' x) <> Err EStackOverflow).
      { intros q Aq Cq. destruct (grow_ok buf (p :: around) q B) as (buf' & Eb & Bb). rewrite Eb. cbn [bind]. apply (IH room frames buf' (p :: around) x q); [exact Nx|exact Aq| |exact Bb|lia|exact F].
        intros HI. apply (contains_in buf (p :: around) q B) in HI. congruence. }
      assert (GA : is_atom x = true -> text_prim fuel w room frames h x <> Err EStackOverflow).
      { intros A. destruct (text_prim_cases room frames h x (sh_meta _ _ Sh) A) as (_ & T). destruct T as (t & ->); [lia|lia|discriminate]. }
      destruct x; try (apply GA; destruct n; exact Nx).
      - destruct (contains buf p0) eqn:C; [discriminate|apply (GC p0 eq_refl C)].
      - destruct (contains buf p0) eqn:C; [discriminate|apply (GC p0 eq_refl C)]. }
    assert (TI : forall (f : value -> outcome (list Z)) xs bb, (forall x, In x xs -> f x <> Err EStackOverflow) -> text_items f xs bb <> Err EStackOverflow).
    { clear. induction xs as [|x xs IH]; intros bb G; cbn [text_items]; [discriminate|]. pose proof (G x (or_introl eq_refl)) as Gx. destruct (f x); cbn [bind]; try discriminate; [|congruence]. apply IH. intros y HI. apply G. right. exact HI. }
    assert (TE : forall (fk fv : value -> outcome (list Z)) its bb, (forall it, In it its -> fk (ik it) <> Err EStackOverflow /\ fv (iv it) <> Err EStackOverflow) -> text_entries fk fv its bb <> Err EStackOverflow).
    { clear. induction its as [|it its IH]; intros bb G; cbn [text_entries]; [discriminate|]. destruct (G it (or_introl eq_refl)) as (G1 & G2). destruct (fk (ik it)); cbn [bind]; try discriminate; [|congruence]. destruct (fv (iv it)); cbn [bind]; try discriminate; [|congruence]. apply IH. intros y HI. apply G. right. exact HI. }
    assert (CL : forall o c, o <> Err EStackOverflow -> (do bb <- o; close bb c) <> Err EStackOverflow).
    { clear. intros o c N. destruct o; cbn [bind]; try discriminate; [|congruence]. unfold close. destruct (length a <? 2)%nat; discriminate. }
    destruct v; try discriminate Ad; injection Ad as ->; cbn [nested_below] in NB; destruct (in_dec Z.eq_dec p around); try contradiction.
    + destruct (m_list m p) as [xs|] eqn:E; [|discriminate NB]. destruct (sh_list _ _ Sh _ _ E) as (E1 & _). cbn [text_of]. unfold list_at. rewrite E1. cbn [bind]. destruct xs as [|x xs]; [discriminate|]. fold (item_text room frames buf).
      apply CL, TI. intros y HI. apply IT. rewrite forallb_forall in NB. apply NB, HI.
    + destruct (m_tab m p) as [l|] eqn:E; [|discriminate NB]. destruct (sh_tab _ _ Sh _ _ E) as (_ & _ & t & E1 & Ht). cbn [text_of]. unfold tab_at. rewrite E1. cbn [bind]. destruct (u64 (t_count t) =? 0); [discriminate|].
      destruct (for_table t) as [|it its] eqn:EF; [discriminate|]. rewrite <- EF. fold (item_text room frames buf). apply CL, TE. intros it' HI. rewrite forallb_forall in NB. specialize (NB _ (entry_in t l it' Ht HI)). apply andb_true_iff in NB. destruct NB as (A1 & A2). cbn [TableProofs.kv fst snd] in A1, A2.
      split; [|apply IT, A2]. destruct (text_prim_cases room frames h (ik it') (sh_meta _ _ Sh) A1) as (_ & T). destruct T as (u & ->); [lia|lia|discriminate].
Qed.
Lemma stringify_unfold room frames v p : there m v -> addr v = Some p -> stringify fuel w room frames h v = match room with S r => match frames with S f => text_of fuel w r f h (8%nat, [p]) v | O => Err EStackOverflow end | O => Err EStackOverflow end.
Proof.
  intros Th Ad. pose proof (sh_meta _ _ Sh) as M. destruct v; try discriminate Ad; injection Ad as ->; cbn [there] in Th; unfold stringify; destruct room as [|r]; try reflexivity; cbn [need1].
  - destruct (m_list m p) as [xs|] eqn:E; [|congruence]. rewrite (method_name fuel HF h (VList p) _ _ n_tostr M m_lists (mt_list _ _ _ _ Sh E)). replace (meth_id (MT_LIST * 100) list_names n_tostr) with (Some 608) by reflexivity. cbn [option_map bind].
    destruct frames; [reflexivity|]. replace (cfn_of 608) with (Some (CList LTostr, 1)) by reflexivity. reflexivity.
  - destruct (m_tab m p) as [xs|] eqn:E; [|congruence]. rewrite (method_name fuel HF h (VTable p) _ _ n_tostr M m_tables (mt_tab _ _ _ _ Sh E)). replace (meth_id (MT_TABLE * 100) table_names n_tostr) with (Some 805) by reflexivity. cbn [option_map bind].
    destruct frames; [reflexivity|]. replace (cfn_of 805) with (Some (CTable TTostr, 1)) by reflexivity. reflexivity.
Qed.
Lemma stringify_atom room frames v : is_atom v = true -> stringify fuel w room frames h v = text_prim fuel w room frames h v.
Proof. destruct v; try discriminate; reflexivity. Qed.
Lemma there_cases v : there m v -> is_atom v = true \/ exists p, addr v = Some p.
Proof. destruct v; cbn; intros T; try discriminate T; eauto. Qed.
Lemma buf_start p : buf_ok (8%nat, [p]) [p].
Proof. split; [cbn; lia|]. intros q. reflexivity. Qed.
Lemma stringify_safe room frames v : complete m -> there m v -> text_ok (stringify fuel w room frames h v) (shown w m [] v).
Proof.
  intros CP Th. destruct (there_cases v Th) as [A|(p & Ad)].
  - rewrite (stringify_atom _ _ _ A). destruct (text_prim_cases room frames h v (sh_meta _ _ Sh) A) as (T & _). destruct (text_prim fuel w room frames h v); cbn in *; try exact T. apply ShAtom, T.
  - rewrite (stringify_unfold room frames v p Th Ad). destruct room as [|r]; [exact I|]. destruct frames as [|f]; [exact I|]. apply (text_of_safe CP r f _ [] v p Th Ad); [intros []|apply buf_start].
Qed.
Lemma stringify_total n room frames v : complete m -> there m v -> nested_below m n [] v = true -> (n + 3 <= room)%nat -> (2 <= frames)%nat ->
  exists t, stringify fuel w room frames h v = Ok t /\ shown w m [] v t.
Proof.
  intros CP Th NB R F. apply not_overflow; [apply stringify_safe; assumption|]. destruct (there_cases v Th) as [A|(p & Ad)].
  - rewrite (stringify_atom _ _ _ A). destruct (text_prim_cases room frames h v (sh_meta _ _ Sh) A) as (_ & T). destruct T as (t & ->); [lia|lia|discriminate].
  - rewrite (stringify_unfold room frames v p Th Ad). destruct room as [|r]; [lia|]. destruct frames as [|f]; [lia|]. apply (text_of_total n r f _ [] v p NB Ad); [intros []|apply buf_start|lia|lia].
Qed.
End Mem.
End Fuel.
Lemma nested_objects m : complete m -> forall n around v, there m v -> NoDup around -> (forall p, In p around -> 16 <= p < m_next m) -> (objects m <= n + length around)%nat -> nested_below m n around v = true.
Proof.
  intros CP.
  assert (PG : forall l, NoDup l -> (forall p, In p l -> 16 <= p < m_next m) -> (length l <= objects m)%nat).
  { intros l ND G. assert (I2 : incl l (map (fun i => 16 + Z.of_nat i) (seq 0 (objects m)))).
    { intros p HI. apply in_map_iff. exists (Z.to_nat (p - 16)). specialize (G p HI). unfold objects. split; [lia|]. apply in_seq. lia. }
    pose proof (NoDup_incl_length ND I2) as L. rewrite map_length, seq_length in L. exact L. }
  induction n as [|n IH]; intros around v Th ND G L.
  - destruct v; try exact Th; cbn [nested_below there] in *; destruct (in_dec Z.eq_dec p around) as [HI|NI]; auto; exfalso.
    + destruct (m_list m p) as [xs|] eqn:E; [|congruence]. destruct (c_lists _ CP _ _ E) as (Rg & _). specialize (PG (p :: around) ltac:(constructor; assumption)). cbn [length] in PG. assert (S (length around) <= objects m)%nat; [|lia]. apply PG. intros q [<-|HI]; [exact Rg|apply G, HI].
    + destruct (m_tab m p) as [xs|] eqn:E; [|congruence]. destruct (c_tables _ CP _ _ E) as (Rg & _). specialize (PG (p :: around) ltac:(constructor; assumption)). cbn [length] in PG. assert (S (length around) <= objects m)%nat; [|lia]. apply PG. intros q [<-|HI]; [exact Rg|apply G, HI].
  - destruct v; try exact Th; cbn [nested_below there] in *; destruct (in_dec Z.eq_dec p around) as [HI|NI]; auto.
    + destruct (m_list m p) as [xs|] eqn:E; [|congruence]. destruct (c_lists _ CP _ _ E) as (Rg & FT). apply forallb_forall. intros x HI. rewrite Forall_forall in FT. apply IH; [apply FT, HI|constructor; assumption|intros q [<-|HQ]; [exact Rg|apply G, HQ]|cbn [length]; lia].
    + destruct (m_tab m p) as [l|] eqn:E; [|congruence]. destruct (c_tables _ CP _ _ E) as (Rg & FT). apply forallb_forall. intros x HI. rewrite Forall_forall in FT. destruct (FT _ HI) as (A1 & A2). rewrite A1. cbn [andb]. apply IH; [exact A2|constructor; assumption|intros q [<-|HQ]; [exact Rg|apply G, HQ]|cbn [length]; lia].
Qed.
