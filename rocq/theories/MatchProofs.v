From Verif Require Import Base Bytes BytesProofs Value Table Ops Ast Stmt Limits Constants VM Compiler ValueProofs TableSpec ConstSpec ConstProofs Gen GenProofs GenProofs2 SimBase Sim MatchSpec Match.

(** ** Induction on patterns. *)
Lemma pat_ind' (Q : pat -> Prop) :
  Q PUndef -> (forall b, Q (PBool b)) -> (forall i, Q (PInt i)) -> (forall f, Q (PFloat f)) -> (forall s, Q (PStr s)) -> (forall t, Q (PType t)) -> Q PAny ->
  (forall k x, Q (PBind k x)) -> (forall more ps, Forall Q ps -> Q (PList more ps)) ->
  (forall more kvs, Forall (fun kv => Q (fst kv) /\ Q (snd kv)) kvs -> Q (PTable more kvs)) -> (forall l r, Q l -> Q r -> Q (PAlt l r)) -> forall p, Q p.
Proof.
  intros H1 H2 H3 H4 H5 H6 H7 H8 H9 H10 H11. fix IH 1. intros [|b|i|f|s|t| |k x|more ps|more kvs|l r];
    [exact H1|apply H2|apply H3|apply H4|apply H5|apply H6|exact H7|apply H8|apply H9|apply H10|apply H11; apply IH].
  - induction ps as [|p ps I]; constructor; [apply IH|exact I].
  - induction kvs as [|[k v] kvs I]; constructor; [split; apply IH|exact I].
Qed.

(** ** The code of a pattern, with [sl] the slot of a variable. *)
Section Code.
Variable K : list value.
Variable sl : name -> Z.
Fixpoint gen_pat (p : pat) : list Z :=
  match p with
  | PUndef => [P_UNDEF]
  | PBool b => [P_BOOL; if b then 1 else 0]
  | PInt i => lit_code K (VInt i)
  | PFloat f => lit_code K (VFloat f)
  | PStr s => lit_code K (VStr s)
  | PType t => [ptype_byte t]
  | PAny => [P_ANY]
  | PBind _ x => [P_BIND; sl x mod 256]
  | PList more ps => (if more then P_VLS else P_LS) :: enc8 (Z.of_nat (length ps)) ++ concat (map gen_pat ps)
  | PTable more kvs => (if more then P_VTABLE else P_TABLE) :: enc8 (Z.of_nat (2 * length kvs)) ++ concat (map (fun kv => gen_pat (fst kv) ++ gen_pat (snd kv)) kvs)
  | PAlt l r => P_ALT :: gen_pat l ++ gen_pat r
  end.
Definition gens (ps : list pat) : list Z := concat (map gen_pat ps).
Definition flat (kvs : list (pat * pat)) : list pat := concat (map (fun kv => [fst kv; snd kv]) kvs).
Lemma gens_flat kvs : concat (map (fun kv => gen_pat (fst kv) ++ gen_pat (snd kv)) kvs) = gens (flat kvs).
Proof. unfold gens, flat. induction kvs as [|[k v] kvs IH]; [reflexivity|]. cbn [map concat app fst snd]. rewrite IH, app_assoc. reflexivity. Qed.
Lemma flat_length kvs : length (flat kvs) = (2 * length kvs)%nat.
Proof. unfold flat. induction kvs as [|[k v] kvs IH]; [reflexivity|]. cbn [map concat app length]. unfold flat in IH. rewrite IH. lia. Qed.
Lemma gen_pos p : 1 <= len (gen_pat p).
Proof.
  unfold len. destruct p as [|b|i|f|s|t| |k x|more ps|more kvs|l r]; cbn [gen_pat]; try (unfold lit_code; destruct (_ <? 128)); cbn [length app op]; lia.
Qed.
Lemma gens_pos ps : Z.of_nat (length ps) <= len (gens ps).
Proof. unfold gens. induction ps as [|p ps IH]; [unfold len; cbn; lia|]. cbn [map concat length]. rewrite len_app. pose proof (gen_pos p). lia. Qed.
Lemma gens_app a b : gens (a ++ b) = gens a ++ gens b.
Proof. unfold gens. rewrite map_app, concat_app. reflexivity. Qed.
End Code.

Lemma list_max_le l n : (list_max l <= n)%nat <-> Forall (fun k => (k <= n)%nat) l.
Proof. apply list_max_le. Qed.
Lemma depth_list more ps d : (pdepth (PList more ps) <= S d)%nat -> Forall (fun p => (pdepth p <= d)%nat) ps.
Proof. cbn [pdepth]. intros H. assert (L : (list_max (map pdepth ps) <= d)%nat) by lia. apply list_max_le in L. rewrite Forall_map in L. exact L. Qed.
Lemma depth_table more kvs d : (pdepth (PTable more kvs) <= S d)%nat -> Forall (fun p => (pdepth p <= d)%nat) (flat kvs).
Proof.
  cbn [pdepth]. intros H. assert (L : (list_max (map (fun kv => Nat.max (pdepth (fst kv)) (pdepth (snd kv))) kvs) <= d)%nat) by lia. apply list_max_le in L. rewrite Forall_map in L.
  unfold flat. clear H. induction L as [|[k v] kvs A B IH]; cbn [map concat app]; [constructor|]. cbn [fst snd] in *. constructor; [lia|]. constructor; [lia|exact IH].
Qed.

(** ** Skipping. *)
Section M.
Variable P : prog.
Variable sl : name -> Z.
Notation K := (p_consts P).
Notation g := (gen_pat K sl).
Notation gs := (gens K sl).
Notation code_at := (code_at P).
Hypothesis HKlen : len (p_code P) <= int_max /\ Z.of_nat (length K) <= int_max.

Lemma code1_at pc b bs : code_at pc (b :: bs) -> code1 P pc = Ok b.
Proof. intros (pre & post & E & L). unfold code1. rewrite L, E. unfold len. cbn [app]. rewrite nthZ_app. reflexivity. Qed.
Lemma read8_at pc v bs : code_at pc (enc8 v ++ bs) -> in_i64 v -> read8 (p_code P) pc = Ok v.
Proof. intros (pre & post & E & L) H. rewrite L, E. unfold len. rewrite <- app_assoc, read8_app, i64_id by exact H. reflexivity. Qed.
Lemma code_tl pc b bs : code_at pc (b :: bs) -> code_at (pc + 1) bs.
Proof. intros C. exact (code_at_r P pc [b] bs C). Qed.
Lemma count_i64 pc n ps bs : Z.of_nat n <= len (gs ps) -> code_at pc (gs ps ++ bs) -> in_i64 (Z.of_nat n) /\ u64 (Z.of_nat n) = Z.of_nat n.
Proof.
  intros H C. apply code_at_len in C. rewrite len_app in C. pose proof (len_nonneg bs). destruct HKlen as (L & _). unfold in_i64, int_min, int_max in *.
  split; [lia|]. unfold u64. rewrite Z.mod_small; [reflexivity|unfold two64; lia].
Qed.

Lemma index_in v : In v K -> 0 <= index_of K v < Z.of_nat (length K) /\ nthZ K (index_of K v) = Some v.
Proof. intros H. pose proof (index_of_in K v H []) as A. rewrite app_nil_r in A. exact A. Qed.

Definition plits_in (p : pat) : Prop := incl (plits p) K.
Lemma plits_flat kvs : incl (concat (map (fun kv => plits (fst kv) ++ plits (snd kv)) kvs)) K -> Forall plits_in (flat kvs).
Proof.
  unfold flat. induction kvs as [|[k v] kvs IH]; cbn [map concat app fst snd]; intros H; [constructor|].
  constructor; [intros x Hx; apply H; rewrite <- app_assoc; apply in_or_app; auto|]. constructor; [intros x Hx; apply H; rewrite <- app_assoc; apply in_or_app; right; apply in_or_app; auto|].
  apply IH. intros x Hx. apply H. apply in_or_app. auto.
Qed.
Lemma plits_list ps : incl (concat (map plits ps)) K -> Forall plits_in ps.
Proof. induction ps as [|p ps IH]; cbn [map concat]; intros H; constructor; [intros x Hx|apply IH; intros x Hx]; apply H, in_or_app; auto. Qed.

Lemma ff_lit d pc v bs : In v K -> code_at pc (lit_code K v ++ bs) -> ff P (S d) pc = Ok (pc + len (lit_code K v)).
Proof.
  intros I C. destruct (index_in v I) as (B & N). unfold lit_code in *. destruct (Z.ltb_spec (index_of K v) 128).
  - cbn [op app op_byte] in C. cbn [ff]. rewrite (code1_at _ _ _ C). cbn [bind head_of]. apply code_tl in C. rewrite (code1_at _ _ _ C). cbn [bind]. unfold len. cbn [op app length]. f_equal. lia.
  - rewrite <- app_assoc in C. cbn [op app op_byte] in C. cbn [ff]. rewrite (code1_at _ _ _ C). cbn [bind head_of]. apply code_tl in C.
    rewrite (read8_at _ _ _ C) by (destruct HKlen; unfold in_i64, int_min, int_max in *; lia). cbn [bind]. rewrite len_app, len_op, len_enc8. f_equal. lia.
Qed.
Lemma ff_many_ok (f : Z -> outcome Z) ps : (forall p pc bs, In p ps -> code_at pc (g p ++ bs) -> f pc = Ok (pc + len (g p))) ->
  forall n pc bs, (n <= length ps)%nat -> code_at pc (gs ps ++ bs) ->
  exists pc', ff_many f n pc = Ok pc' /\ pc' = pc + len (gs (firstn n ps)) /\ code_at pc' (gs (skipn n ps) ++ bs).
Proof.
  intros H. induction ps as [|p ps IH]; intros n pc bs L C.
  - assert (n = O) by (cbn in L; lia). subst n. exists pc. split; [reflexivity|]. split; [unfold len; cbn; lia|exact C].
  - destruct n as [|n]; [exists pc; split; [reflexivity|]; split; [unfold len; cbn; lia|exact C]|].
    unfold gens in C. cbn [map concat] in C. rewrite <- app_assoc in C. cbn [ff_many]. rewrite (H p pc _ (or_introl eq_refl) C). cbn [bind].
    destruct (IH ltac:(intros; eapply H; [right; eassumption|eassumption]) n (pc + len (g p)) bs ltac:(cbn in L; lia) (code_at_r P _ _ _ C)) as (pc' & E & Q & C').
    exists pc'. split; [exact E|]. split; [|exact C']. rewrite Q. cbn [firstn]. unfold gens. cbn [map concat]. rewrite len_app. unfold gens. lia.
Qed.
Lemma ff_ok p : forall d pc bs, plits_in p -> (pdepth p <= d)%nat -> code_at pc (g p ++ bs) -> ff P d pc = Ok (pc + len (g p)).
Proof.
  induction p as [|b|i|f|s|t| |k x|more ps IH|more kvs IH|l r IHl IHr] using pat_ind'; intros d pc bs LI D C; (destruct d as [|d]; [cbn [pdepth] in D; lia|]); cbn [gen_pat] in *.
  - cbn [ff app] in *. rewrite (code1_at _ _ _ C). cbn [bind head_of]. reflexivity.
  - cbn [ff app] in *. rewrite (code1_at _ _ _ C). cbn [bind head_of P_BOOL]. apply code_tl in C. rewrite (code1_at _ _ _ C). cbn [bind]. unfold len. cbn [length]. f_equal. lia.
  - apply (ff_lit d pc _ bs); [apply LI; left; reflexivity|exact C].
  - apply (ff_lit d pc _ bs); [apply LI; left; reflexivity|exact C].
  - apply (ff_lit d pc _ bs); [apply LI; left; reflexivity|exact C].
  - cbn [ff app] in *. rewrite (code1_at _ _ _ C). cbn [bind]. destruct t; reflexivity.
  - cbn [ff app] in *. rewrite (code1_at _ _ _ C). cbn [bind head_of]. reflexivity.
  - cbn [ff app] in *. rewrite (code1_at _ _ _ C). cbn [bind head_of P_BIND]. apply code_tl in C. rewrite (code1_at _ _ _ C). cbn [bind]. unfold len. cbn [length]. f_equal. lia.
  - cbn [ff]. cbn [app] in C. rewrite (code1_at _ _ _ C). cbn [bind]. replace (head_of (if more then P_VLS else P_LS)) with (Some (HList more)) by (destruct more; reflexivity).
    apply code_tl in C. rewrite <- app_assoc in C. fold (gs ps) in C. pose proof (code_at_r P _ _ _ C) as C2. rewrite len_enc8 in C2. destruct (count_i64 _ (length ps) ps bs (gens_pos K sl ps) C2) as (I1 & I2).
    rewrite (read8_at _ _ _ C I1). cbn [bind]. rewrite I2, Nat2Z.id.
    pose proof (depth_list more ps d D) as DL. pose proof (plits_list ps LI) as LL.
    destruct (ff_many_ok (ff P d) ps ltac:(intros q pcq bq Hq Cq; rewrite Forall_forall in IH, DL, LL; eapply IH; [exact Hq|exact (LL _ Hq)|exact (DL _ Hq)|exact Cq]) (length ps) (pc + 1 + 8) bs ltac:(lia) C2) as (pc' & E & Q & _).
    rewrite E, Q, firstn_all. f_equal. fold (gs ps). unfold len in *. cbn [length]. rewrite app_length, enc8_length. lia.
  - cbn [ff]. cbn [app] in C. rewrite (code1_at _ _ _ C). cbn [bind]. replace (head_of (if more then P_VTABLE else P_TABLE)) with (Some (HTable more)) by (destruct more; reflexivity).
    rewrite gens_flat in *. apply code_tl in C. rewrite <- app_assoc in C. pose proof (code_at_r P _ _ _ C) as C2. rewrite len_enc8 in C2. rewrite <- flat_length in *.
    destruct (count_i64 _ (length (flat kvs)) (flat kvs) bs (gens_pos K sl _) C2) as (I1 & I2).
    rewrite (read8_at _ _ _ C I1). cbn [bind]. rewrite I2, Nat2Z.id.
    pose proof (depth_table more kvs d D) as DL. pose proof (plits_flat kvs LI) as LL.
    assert (IHf : Forall (fun p => forall d pc bs, plits_in p -> (pdepth p <= d)%nat -> code_at pc (g p ++ bs) -> ff P d pc = Ok (pc + len (g p))) (flat kvs)).
    { clear - IH. unfold flat. induction IH as [|[k v] kvs [A B] F I]; cbn [map concat app]; [constructor|]. repeat (constructor; auto). }
    destruct (ff_many_ok (ff P d) (flat kvs) ltac:(intros q pcq bq Hq Cq; rewrite Forall_forall in IHf, DL, LL; eapply IHf; [exact Hq|exact (LL _ Hq)|exact (DL _ Hq)|exact Cq]) (length (flat kvs)) (pc + 1 + 8) bs ltac:(lia) C2) as (pc' & E & Q & _).
    rewrite E, Q, firstn_all. f_equal. unfold len in *. cbn [length]. rewrite app_length, enc8_length. lia.
  - cbn [ff]. cbn [app] in C. rewrite (code1_at _ _ _ C). cbn [bind head_of P_ALT]. apply code_tl in C. cbn [pdepth] in D.
    assert (Ll : plits_in l) by (intros v Hv; apply LI; cbn [plits]; apply in_or_app; auto). assert (Lr : plits_in r) by (intros v Hv; apply LI; cbn [plits]; apply in_or_app; auto).
    cbn [ff_many]. rewrite <- app_assoc in C. rewrite (IHl d _ _ Ll ltac:(lia) C). cbn [bind]. rewrite (IHr d _ bs Lr ltac:(lia) (code_at_r P _ _ _ C)). cbn [bind]. f_equal. unfold len. cbn [length]. rewrite app_length. lia.
Qed.
(** Skipping [n] of the patterns that stand at [pc]. *)
Lemma ff_skip d qs n pc bs : Forall (fun p => plits_in p /\ (pdepth p <= d)%nat) qs -> (n <= length qs)%nat -> code_at pc (gs qs ++ bs) ->
  exists pc', ff_many (ff P d) n pc = Ok pc' /\ pc' = pc + len (gs (firstn n qs)) /\ code_at pc' (gs (skipn n qs) ++ bs).
Proof.
  intros F L C. eapply ff_many_ok; [|exact L|exact C]. intros p pcp bp Hp Cp. rewrite Forall_forall in F. destruct (F p Hp). eapply ff_ok; eassumption.
Qed.
End M.
