(** * RefProofs: dec_ref keeps the counts exact, however deep the release goes. *)
From Verif Require Import Base Refs RefSpec.

Lemma cnt_nil a : cnt a [] = O. Proof. reflexivity. Qed.
Lemma cnt_cons a v l : cnt a (v :: l) = (is_ref a v + cnt a l)%nat. Proof. reflexivity. Qed.
Lemma cnt_app a l m : cnt a (l ++ m) = (cnt a l + cnt a m)%nat.
Proof. unfold cnt. rewrite map_app, list_sum_app. reflexivity. Qed.
Lemma is_ref_self a : is_ref a (RP a) = 1%nat. Proof. cbn. rewrite Nat.eqb_refl. reflexivity. Qed.
Lemma is_ref_le a v : (is_ref a v <= 1)%nat. Proof. destruct v; cbn; try lia. destruct (Nat.eqb a a0); lia. Qed.
Lemma is_ref_other a b : a <> b -> is_ref a (RP b) = O. Proof. intros N. cbn. destruct (Nat.eqb_spec a b); lia. Qed.
Lemma is_ref_unboxed a v : unboxed v -> is_ref a v = O. Proof. destruct v; cbn; tauto. Qed.
Lemma cnt_in a l : In (RP a) l -> (0 < cnt a l)%nat.
Proof. induction l as [|v r IH]; [intros []|]. rewrite cnt_cons. intros [->|H]; [rewrite is_ref_self; lia|specialize (IH H); lia]. Qed.
Lemma cnt_rev a l : cnt a (rev l) = cnt a l.
Proof. induction l as [|v r IH]; [reflexivity|]. cbn [rev]. rewrite cnt_app, !cnt_cons, cnt_nil, IH. lia. Qed.

(** lists *)
Lemma upd_len {A} (l : list A) i x : length (upd l i x) = length l.
Proof. revert i. induction l as [|y r IH]; intros [|i]; cbn; auto. Qed.
Lemma upd_same {A} (l : list A) i x : (i < length l)%nat -> nth_error (upd l i x) i = Some x.
Proof. revert i. induction l as [|y r IH]; intros [|i] H; cbn in *; try lia; auto. apply IH. lia. Qed.
Lemma upd_other {A} (l : list A) i j x : i <> j -> nth_error (upd l i x) j = nth_error l j.
Proof. revert i j. induction l as [|y r IH]; intros [|i] [|j] H; cbn; auto; try congruence. Qed.
Lemma upd_upd {A} (l : list A) i x y : upd (upd l i x) i y = upd l i y.
Proof. revert i. induction l as [|z r IH]; intros [|i]; cbn; auto. f_equal. apply IH. Qed.
Lemma upd_map {A B} (f : A -> B) (l : list A) i x : map f (upd l i x) = upd (map f l) i (f x).
Proof. revert i. induction l as [|z r IH]; intros [|i]; cbn; auto. f_equal. apply IH. Qed.
Lemma nth_some {A} (l : list A) i x : nth_error l i = Some x -> (i < length l)%nat.
Proof. intros H. apply nth_error_Some. congruence. Qed.
Lemma cnt_upd a l i x y : nth_error l i = Some y -> (cnt a (upd l i x) + is_ref a y = cnt a l + is_ref a x)%nat.
Proof.
  revert i. induction l as [|z r IH]; intros [|i] H; cbn in H; try discriminate.
  - injection H as ->. cbn [upd]. rewrite !cnt_cons. lia.
  - cbn [upd]. rewrite !cnt_cons. specialize (IH _ H). lia.
Qed.

(** The ghost view of the heap: what each object holds; [None] for objects that are freed or being freed. *)
Definition okids (o : option obj) : list rv := match o with Some o => kids o | None => [] end.
Definition allkids (g : list (option obj)) : list rv := flat_map okids g.
Definition gget (g : list (option obj)) (i : nat) : option obj := match nth_error g i with Some x => x | None => None end.
Definition tot (g : list (option obj)) (L : list rv) (i : nat) : nat := (cnt i L + cnt i (allkids g))%nat.
Definition nlive (g : list (option obj)) : nat := length (filter (fun o => match o with Some _ => true | None => false end) g).

Lemma allkids_upd i g a x : (a < length g)%nat -> (cnt i (allkids (upd g a x)) + cnt i (okids (gget g a)) = cnt i (allkids g) + cnt i (okids x))%nat.
Proof.
  unfold gget. revert a. induction g as [|y r IH]; intros [|a] H; cbn in H; try lia.
  - cbn [upd nth_error]. unfold allkids. cbn [flat_map]. rewrite !cnt_app. lia.
  - cbn [upd nth_error]. unfold allkids in *. cbn [flat_map]. rewrite !cnt_app. specialize (IH a ltac:(lia)). lia.
Qed.
Lemma nlive_upd_none g a o : gget g a = Some o -> S (nlive (upd g a None)) = nlive g.
Proof.
  unfold gget, nlive. revert a. induction g as [|y r IH]; intros [|a]; cbn [upd nth_error]; try discriminate.
  - intros ->. cbn [filter]. reflexivity.
  - intros H. cbn [filter]. destruct y; cbn [length]; rewrite <- (IH a H); reflexivity.
Qed.
Lemma gget_upd_same g a x : (a < length g)%nat -> gget (upd g a x) a = x.
Proof. intros H. unfold gget. rewrite upd_same by exact H. reflexivity. Qed.
Lemma gget_upd_other g a b x : a <> b -> gget (upd g a x) b = gget g b.
Proof. intros H. unfold gget. rewrite upd_other by exact H. reflexivity. Qed.
Lemma gget_len g a o : gget g a = Some o -> (a < length g)%nat.
Proof. unfold gget. destruct (nth_error g a) eqn:E; [|discriminate]. intros _. eapply nth_some; eassumption. Qed.

(** The invariant: [L] is the multiset of references from outside; [P] lists objects whose stored contents may lag behind the ghost view. *)
Definition inv (h : heap) (g : list (option obj)) (P : list nat) (L : list rv) : Prop :=
  length g = length h /\
  forall i, match gget g i with
            | Some o => exists o', nth_error h i = Some (Cell (Z.of_nat (tot g L i)) (Some o')) /\ (In i P \/ o' = o)
            | None => tot g L i = O end.
Lemma inv_ext h g P L M : (forall i, cnt i L = cnt i M) -> inv h g P L -> inv h g P M.
Proof.
  intros E [H1 H2]. split; [exact H1|]. intros i. specialize (H2 i). unfold tot in *. rewrite <- (E i).
  destruct (gget g i); exact H2.
Qed.

(** What a release may change. *)
Definition mono (h : heap) (g : list (option obj)) (h' : heap) (g' : list (option obj)) : Prop :=
  length h' = length h /\ length g' = length g /\ (nlive g' <= nlive g)%nat /\
  (forall i, (cnt i (allkids g') <= cnt i (allkids g))%nat) /\
  forall i, match gget g i with
            | None => nth_error h' i = nth_error h i /\ gget g' i = None
            | Some o => (gget g' i = Some o /\ hget h' i = hget h i /\ count_of h' i <= count_of h i /\ (0 < count_of h' i \/ count_of h i = 0)) \/
                        (gget g' i = None /\ hget h' i = None /\ 0 < count_of h i) end.
Lemma mono_refl h g : (forall i o, gget g i = Some o -> 0 <= count_of h i) -> mono h g h g.
Proof.
  intros Hn. split; [auto|]. split; [auto|]. split; [lia|]. split; [lia|]. intros i. destruct (gget g i) as [o|] eqn:E; [|auto].
  left. split; [auto|]. split; [auto|]. specialize (Hn i o E). split; [lia|]. destruct (Z.eq_dec (count_of h i) 0); [auto|lia].
Qed.
Lemma mono_trans h g h1 g1 h2 g2 : mono h g h1 g1 -> mono h1 g1 h2 g2 -> mono h g h2 g2.
Proof.
  intros (A1 & A2 & A3 & A4 & A5) (B1 & B2 & B3 & B4 & B5).
  split; [congruence|]. split; [congruence|]. split; [lia|]. split; [intros i; specialize (A4 i); specialize (B4 i); lia|].
  intros i. specialize (A5 i). specialize (B5 i). destruct (gget g i) as [o|] eqn:E.
  - destruct A5 as [(C1 & C2 & C4 & C3)|(C1 & C2 & C3)]; rewrite C1 in B5.
    + destruct B5 as [(D1 & D2 & D4 & D3)|(D1 & D2 & D3)].
      * left. split; [auto|]. split; [congruence|]. lia.
      * right. split; [auto|]. split; [auto|]. lia.
    + destruct B5 as [D1 D2]. right. split; [auto|]. split; [|auto]. unfold hget in *. rewrite D1. exact C2.
  - destruct A5 as [C1 C2]. rewrite C2 in B5. destruct B5 as [D1 D2]. split; congruence.
Qed.
Lemma inv_nonneg h g P L : inv h g P L -> forall i o, gget g i = Some o -> 0 <= count_of h i.
Proof. intros [_ H] i o E. specialize (H i). rewrite E in H. destruct H as (o' & H & _). unfold count_of. rewrite H. cbn. lia. Qed.

(** Objects whose stored contents lag behind must not die: they are referenced by what stays, or by nothing at all. *)
Definition pins (P : list nat) (g : list (option obj)) (vs L : list rv) : Prop :=
  forall p, In p P -> (0 < cnt p L)%nat \/ tot g (vs ++ L) p = O.

Lemma decf_ok : forall f h g P v L, inv h g P (v :: L) -> pins P g [v] L -> (nlive g <= f)%nat ->
  exists h' g', decf f h v = Ok h' /\ inv h' g' P L /\ mono h g h' g'.
Proof.
  induction f as [f IH] using lt_wf_ind. intros h g P v L HI HP HF.
  assert (Hrefl : inv h g P L -> mono h g h g) by (intros Hi; apply mono_refl; eapply inv_nonneg; eassumption).
  destruct v as [| |z|a].
  1-3: exists h, g; (split; [destruct f; reflexivity|]); assert (HI' : inv h g P L) by (eapply inv_ext; [|exact HI]; intros i; reflexivity); split; auto.
  destruct HI as [HL HI]. pose proof (HI a) as Ha.
  assert (Tp : (0 < tot g (RP a :: L) a)%nat) by (unfold tot; rewrite cnt_cons, is_ref_self; lia).
  destruct (gget g a) as [o|] eqn:Ga; [|lia].
  destruct Ha as (o' & Hn & Ho).
  assert (La : (a < length g)%nat) by (eapply gget_len; eassumption).
  assert (Lh : (a < length h)%nat) by lia.
  set (r := tot g (RP a :: L) a) in *.
  assert (HT : r = S (tot g L a)) by (unfold r, tot; rewrite cnt_cons, is_ref_self; lia).
  assert (HTo : forall i, i <> a -> tot g (RP a :: L) i = tot g L i) by (intros i N; unfold tot; rewrite cnt_cons, is_ref_other by exact N; lia).
  assert (Er : (Z.of_nat r =? 0) = false) by lia.
  destruct (Z.eq_dec (Z.of_nat r - 1) 0) as [E0|E0].
  2:{ (* the object stays *)
    exists (upd h a (Cell (Z.of_nat r - 1) (Some o'))), g. split.
    { destruct f; cbn [decf]; rewrite Hn; rewrite Er; replace (Z.of_nat r - 1 =? 0) with false by lia; reflexivity. }
    split.
    { split; [rewrite upd_len; exact HL|]. intros i. destruct (Nat.eq_dec i a) as [->|N].
      - rewrite Ga. exists o'. rewrite upd_same by exact Lh. split; [|exact Ho]. do 2 f_equal. lia.
      - rewrite upd_other by auto. specialize (HI i). rewrite HTo in HI by exact N. exact HI. }
    split; [apply upd_len|]. split; [auto|]. split; [lia|]. split; [lia|]. intros i. destruct (Nat.eq_dec i a) as [->|N].
    - rewrite Ga. left. split; [auto|]. unfold hget, count_of. rewrite upd_same by exact Lh. rewrite Hn. cbn [refs body]. split; [auto|]. split; [lia|]. left. lia.
    - unfold hget, count_of. rewrite upd_other by auto. specialize (HI i). destruct (gget g i) eqn:Gi; [|auto]. left. split; [auto|]. split; [auto|].
      destruct HI as (o1 & HI & _). rewrite HI. cbn [refs]. split; [lia|]. destruct (Nat.eq_dec (tot g (RP a :: L) i) 0); [right|left]; lia. }
  (* the object dies *)
  assert (T0 : tot g L a = O) by lia.
  assert (Ho' : o' = o).
  { destruct Ho as [Hp|E]; [|exact E]. exfalso. destruct (HP a Hp) as [C|C]; [unfold tot in T0; lia|]. cbn [app] in C. fold r in C. lia. }
  subst o'. clear Ho.
  destruct f as [|f].
  { exfalso. pose proof (nlive_upd_none g a o Ga). lia. }
  set (g1 := upd g a None). set (h1 := upd h a (Cell (Z.of_nat r - 1) (Some o))).
  assert (HK : forall i, cnt i (allkids g) = (cnt i (kids o) + cnt i (allkids g1))%nat).
  { intros i. pose proof (allkids_upd i g a None La). rewrite Ga in H. cbn [okids] in H. rewrite cnt_nil in H. unfold g1. lia. }
  assert (Hn1 : S (nlive g1) = nlive g) by (apply (nlive_upd_none g a o Ga)).
  assert (HI1 : inv h1 g1 P (kids o ++ L)).
  { split; [unfold g1, h1; rewrite !upd_len; exact HL|]. intros i. unfold h1, g1. destruct (Nat.eq_dec i a) as [->|N].
    - rewrite gget_upd_same by exact La. fold g1. unfold tot in *. rewrite cnt_app. specialize (HK a). lia.
    - rewrite gget_upd_other, upd_other by auto. specialize (HI i). rewrite HTo in HI by exact N.
      fold g1. replace (tot g1 (kids o ++ L) i) with (tot g L i); [exact HI|]. unfold tot. rewrite cnt_app. specialize (HK i). lia. }
  assert (HP1 : pins P g1 (kids o) L).
  { intros p Hp. destruct (HP p Hp) as [C|C]; [auto|right]. cbn [app] in C. unfold tot in *. rewrite cnt_cons in C. rewrite cnt_app. specialize (HK p). lia. }
  assert (HF1 : (nlive g1 <= f)%nat) by lia.
  assert (Fold : forall ks h g, inv h g P (ks ++ L) -> pins P g ks L -> (nlive g <= f)%nat ->
      exists h' g', mfold (decf f) ks h = Ok h' /\ inv h' g' P L /\ mono h g h' g').
  { clear - IH. induction ks as [|k ks IHk]; intros h g HI HP HF.
    - exists h, g. split; [reflexivity|]. split; [exact HI|]. apply mono_refl. eapply inv_nonneg; exact HI.
    - destruct (IH f ltac:(lia) h g P k (ks ++ L) HI) as (h1 & g1 & E1 & I1 & M1).
      + intros p Hp. destruct (HP p Hp) as [C|C]; [left; rewrite cnt_app; lia|right; exact C].
      + exact HF.
      + destruct (IHk h1 g1 I1) as (h2 & g2 & E2 & I2 & M2).
        * intros p Hp. destruct (HP p Hp) as [C|C]; [auto|right]. unfold tot in *. cbn [app] in C. rewrite cnt_cons in C.
          destruct M1 as (_ & _ & _ & M & _). specialize (M p). lia.
        * destruct M1 as (_ & _ & M & _). lia.
        * exists h2, g2. cbn [mfold]. rewrite E1. cbn [bind]. split; [exact E2|]. split; [exact I2|]. eapply mono_trans; eassumption. }
  destruct (Fold (kids o) h1 g1 HI1 HP1 HF1) as (h2 & g2 & E2 & I2 & M2).
  destruct M2 as (A1 & A2 & A3 & A4 & A5).
  assert (Ga1 : gget g1 a = None) by (apply gget_upd_same; exact La).
  pose proof (A5 a) as Aa. rewrite Ga1 in Aa. destruct Aa as [Aa1 Aa2].
  assert (Hh1a : nth_error h1 a = Some (Cell (Z.of_nat r - 1) (Some o))) by (apply upd_same; exact Lh).
  rewrite Hh1a in Aa1.
  exists (upd h2 a (Cell (Z.of_nat r - 1) None)), g2. split.
  { cbn [decf]. rewrite Hn, Er. replace (Z.of_nat r - 1 =? 0) with true by lia. fold h1. rewrite E2. cbn [bind]. rewrite Aa1. reflexivity. }
  assert (Lg : length g1 = length g) by (unfold g1; apply upd_len).
  assert (Lh1 : length h1 = length h) by (unfold h1; apply upd_len).
  split.
  { destruct I2 as [I2a I2b]. split; [rewrite upd_len; exact I2a|]. intros i. destruct (Nat.eq_dec i a) as [->|N].
    - specialize (I2b a). rewrite Aa2 in I2b |- *. exact I2b.
    - rewrite upd_other by auto. exact (I2b i). }
  split; [rewrite upd_len; lia|]. split; [lia|]. split; [lia|].
  split; [intros i; specialize (A4 i); specialize (HK i); lia|].
  intros i. destruct (Nat.eq_dec i a) as [->|N].
  - rewrite Ga. right. split; [exact Aa2|]. unfold hget, count_of. rewrite upd_same by lia. rewrite Hn. cbn [refs body]. split; [auto|clear - HT; lia].
  - specialize (A5 i). unfold g1 in A5. rewrite gget_upd_other in A5 by auto.
    unfold hget, count_of in *. rewrite upd_other by auto. unfold h1 in A5. rewrite upd_other in A5 by auto. exact A5.
Qed.

Lemma nlive_len g : (nlive g <= length g)%nat.
Proof. unfold nlive. induction g as [|[o|] r IH]; cbn; lia. Qed.
Lemma dec_ok h g P v L : inv h g P (v :: L) -> pins P g [v] L -> exists h' g', dec h v = Ok h' /\ inv h' g' P L /\ mono h g h' g'.
Proof. intros HI HP. unfold dec. apply decf_ok; auto. destruct HI as [<- _]. apply nlive_len. Qed.
Lemma decs_ok P L : forall vs h g, inv h g P (vs ++ L) -> pins P g vs L -> exists h' g', mfold dec vs h = Ok h' /\ inv h' g' P L /\ mono h g h' g'.
Proof.
  induction vs as [|k ks IHk]; intros h g HI HP.
  - exists h, g. split; [reflexivity|]. split; [exact HI|]. apply mono_refl. eapply inv_nonneg; exact HI.
  - destruct (dec_ok h g P k (ks ++ L) HI) as (h1 & g1 & E1 & I1 & M1).
    + intros p Hp. destruct (HP p Hp) as [C|C]; [left; rewrite cnt_app; lia|right; exact C].
    + destruct (IHk h1 g1 I1) as (h2 & g2 & E2 & I2 & M2).
      * intros p Hp. destruct (HP p Hp) as [C|C]; [auto|right]. unfold tot in *. cbn [app] in C. rewrite cnt_cons in C.
        destruct M1 as (_ & _ & _ & M & _). specialize (M p). lia.
      * exists h2, g2. cbn [mfold]. rewrite E1. cbn [bind]. split; [exact E2|]. split; [exact I2|]. eapply mono_trans; eassumption.
Qed.

(** inc_ref on a value that is alive. *)
Definition alive (g : list (option obj)) (v : rv) : Prop := match v with RP a => exists o, gget g a = Some o | _ => True end.
Definition grown (h h' : heap) : Prop := length h' = length h /\ forall i, hget h' i = hget h i /\ count_of h i <= count_of h' i.
Lemma inc_ok h g P v L : inv h g P L -> alive g v -> exists h', inc h v = Ok h' /\ inv h' g P (v :: L) /\ grown h h'.
Proof.
  intros [HL HI] HA. destruct v as [| |z|a].
  1-3: exists h; split; [reflexivity|]; split; [|split; [auto|intros; split; [auto|lia]]]; eapply inv_ext with (L := L); [reflexivity|split; auto].
  destruct HA as [o Ga]. pose proof (HI a) as Ha. rewrite Ga in Ha. destruct Ha as (o' & Hn & Ho).
  assert (Lh : (a < length h)%nat) by (eapply nth_some; eassumption).
  exists (upd h a (Cell (Z.of_nat (tot g L a) + 1) (Some o'))). split; [cbn [inc]; rewrite Hn; reflexivity|]. split.
  - split; [rewrite upd_len; exact HL|]. intros i. destruct (Nat.eq_dec i a) as [->|N].
    + rewrite Ga. exists o'. rewrite upd_same by exact Lh. split; [|exact Ho]. do 2 f_equal. unfold tot. rewrite cnt_cons, is_ref_self. lia.
    + rewrite upd_other by auto. specialize (HI i). replace (tot g (RP a :: L) i) with (tot g L i); [exact HI|]. unfold tot. rewrite cnt_cons, is_ref_other by exact N. lia.
  - split; [apply upd_len|]. intros i. unfold hget, count_of. destruct (Nat.eq_dec i a) as [->|N].
    + rewrite upd_same by exact Lh. rewrite Hn. cbn [refs body]. split; [auto|lia].
    + rewrite upd_other by auto. split; [auto|lia].
Qed.
Lemma incs_ok g P : forall vs h L, inv h g P L -> Forall (alive g) vs -> exists h', mfold inc vs h = Ok h' /\ inv h' g P (vs ++ L) /\ grown h h'.
Proof.
  induction vs as [|v vs IH]; intros h L HI HA.
  - exists h. split; [reflexivity|]. split; [exact HI|]. split; [auto|intros; split; [auto|lia]].
  - inversion HA as [|? ? H1 H2]; subst. destruct (inc_ok h g P v L HI H1) as (h1 & E1 & I1 & G1).
    destruct (IH h1 (v :: L) I1 H2) as (h2 & E2 & I2 & G2). exists h2. cbn [mfold]. rewrite E1. cbn [bind]. split; [exact E2|]. split.
    + eapply inv_ext; [|exact I2]. intros i. cbn [app]. rewrite !cnt_app, !cnt_cons, cnt_app. lia.
    + destruct G1 as [G1 G1'], G2 as [G2 G2']. split; [congruence|]. intros i. specialize (G1' i). specialize (G2' i). split; [destruct G1', G2'; congruence|lia].
Qed.
Lemma alive_in h g P L v : inv h g P L -> In v L -> alive g v.
Proof.
  intros [_ HI] Hin. destruct v as [| |z|a]; cbn; auto. specialize (HI a). destruct (gget g a) as [o|]; [eauto|].
  unfold tot in HI. pose proof (cnt_in a L Hin). lia.
Qed.
