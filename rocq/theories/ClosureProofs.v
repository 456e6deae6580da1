(** * Proofs about captured variables. *)
From Verif Require Import Base Value VM Closures ClosureSpec.
From Coq Require Import Sorting.Sorted Sorting.Permutation.

Lemma slot_get_rev (k : list value) i : slot_get (rev k) (Z.of_nat i) = nth_error k i.
Proof.
  unfold slot_get, from_top. rewrite rev_length. destruct (Nat.lt_ge_cases i (length k)) as [L|L].
  - replace ((0 <=? Z.of_nat i) && (Z.of_nat i <? Z.of_nat (length k))) with true by (symmetry; lia). replace (Z.to_nat _) with (length k - S i)%nat by lia.
    assert (E : nth_error (rev k) (length k - S i) = nth_error (rev (rev k)) i).
    { clear -L. destruct (nth_error (rev (rev k)) i) as [v|] eqn:E; [|apply nth_error_None in E; rewrite !rev_length in E; lia]. rewrite (nth_error_nth' _ v) by (rewrite rev_length; lia).
      rewrite rev_involutive in E. f_equal. rewrite rev_nth by lia. replace (length k - S (length k - S i))%nat with i by lia. apply nth_error_nth. exact E. }
    rewrite E, rev_involutive. reflexivity.
  - replace ((0 <=? Z.of_nat i) && (Z.of_nat i <? Z.of_nat (length k))) with false by (symmetry; lia). symmetry. apply nth_error_None. exact L.
Qed.
Lemma put_app_last {A} (a : list A) x y b : put (a ++ x :: b) (length a) y = a ++ y :: b.
Proof. induction a; [reflexivity|]. cbn [app length put]. rewrite IHa. reflexivity. Qed.
Lemma slot_set_rev (a b : list value) x y : slot_set (rev (a ++ x :: b)) (Z.of_nat (length a)) y = Some (rev (a ++ y :: b)).
Proof.
  unfold slot_set, from_top. rewrite rev_length, app_length. cbn [length]. replace ((0 <=? _) && _) with true by (symmetry; lia).
  f_equal. rewrite !rev_app_distr. cbn [rev]. rewrite <- !app_assoc. cbn [app]. replace (Z.to_nat _) with (length (rev b)) by (rewrite rev_length; lia). apply put_app_last.
Qed.
Lemma nth_put {A} (l : list A) : forall n m v, nth_error (put l n v) m = if (n =? m)%nat then match nth_error l m with Some _ => Some v | None => None end else nth_error l m.
Proof.
  induction l as [|x l IH]; intros [|n] [|m] v; cbn [put nth_error Nat.eqb]; try reflexivity. - destruct (n =? m)%nat; reflexivity. - apply IH.
Qed.
Lemma nth_In_unique {A} (l : list A) i j x : NoDup l -> nth_error l i = Some x -> nth_error l j = Some x -> i = j.
Proof. intros N E F. apply (proj1 (NoDup_nth_error l) N); [|congruence]. apply nth_error_Some. congruence. Qed.

(** The pending list: [slots] are the slots of its entries. *)
Definition open_at (u : list upv) (id i : nat) : Prop := nth_error u id = Some (UOpen (Z.of_nat i)).
Lemma find_hit u id i : forall pend slots pre, Forall2 (open_at u) pend slots -> StronglySorted gt slots -> In id pend -> open_at u id i -> find_upv u pre pend (Z.of_nat i) = Some (inl id).
Proof.
  induction pend as [|c pend IH]; intros slots pre F Sx H O; [contradiction|]. inversion F as [|? j ? slots' Oc F']; subst. inversion Sx as [|? ? Sx' G]; subst. cbn [find_upv]. unfold open_at in Oc. rewrite Oc.
  destruct H as [->|H].
  - unfold open_at in O. assert (Ej : Z.of_nat i = Z.of_nat j) by congruence. rewrite Ej. rewrite Z.ltb_irrefl, Z.eqb_refl. reflexivity.
  - assert (Lt : (i < j)%nat).
    { clear IH. assert (X : exists j', In j' slots' /\ open_at u id j').
      { clear -F' H. induction F'; [contradiction|]. destruct H as [->|H]; [exists y; split; [left; reflexivity|assumption]|]. destruct (IHF' H) as (j' & I & O). exists j'. split; [right; exact I|exact O]. }
      destruct X as (j' & I & O'). unfold open_at in *. assert (j' = i) by (rewrite O in O'; injection O'; lia). subst. rewrite Forall_forall in G. specialize (G i I). lia. }
    replace (Z.of_nat i <? Z.of_nat j) with true by (symmetry; lia). eapply IH; eassumption.
Qed.

Lemma find_miss u i : forall pend slots pre, Forall2 (open_at u) pend slots -> Forall (fun j => (i < j)%nat) slots -> find_upv u pre pend (Z.of_nat i) = Some (inr (pre ++ pend, [])).
Proof.
  induction pend as [|c pend IH]; intros slots pre F G; [cbn [find_upv]; rewrite app_nil_r; reflexivity|]. inversion F as [|? j ? slots' Oc F']; subst. inversion G; subst. cbn [find_upv]. unfold open_at in Oc. rewrite Oc.
  replace (Z.of_nat i <? Z.of_nat j) with true by (symmetry; lia). rewrite (IH slots') by assumption. rewrite <- app_assoc. reflexivity.
Qed.
Lemma close_spec (k : list value) fp : forall pend slots u, Forall2 (open_at u) pend slots -> StronglySorted gt slots -> NoDup pend -> Forall (fun j => (j < length k)%nat) slots ->
  exists u' p' slots', close_pending (rev k) (Z.of_nat fp) u pend = Some (u', p') /\ length u' = length u /\
    Forall2 (open_at u') p' slots' /\ StronglySorted gt slots' /\ NoDup p' /\ Forall (fun j => (j < fp)%nat) slots' /\ incl slots' slots /\ incl p' pend /\
    forall id, (In id pend -> forall j, open_at u id j -> (fp <= j)%nat -> exists v, nth_error k j = Some v /\ nth_error u' id = Some (UClosed v)) /\
               (In id pend -> forall j, open_at u id j -> (j < fp)%nat -> nth_error u' id = nth_error u id /\ In id p') /\ (~ In id pend -> nth_error u' id = nth_error u id).
Proof.
  induction pend as [|c pend IH]; intros slots u F Sx N G.
  - inversion F; subst. exists u, [], []. repeat match goal with |- _ /\ _ => split end; auto using incl_refl; try constructor. + contradiction. + split; [contradiction|reflexivity].
  - inversion F as [|? j ? slots' Oc F']; subst. inversion Sx as [|? ? Sx' Gt]; subst. inversion N as [|? ? Nc N']; subst. inversion G as [|? ? Gj G']; subst. cbn [close_pending]. pose proof Oc as Oc0. unfold open_at in Oc. rewrite Oc.
    destruct (Z.ltb_spec (Z.of_nat j) (Z.of_nat fp)) as [L|L].
    + exists u, (c :: pend), (j :: slots'). assert (All : Forall (fun x => (x < fp)%nat) (j :: slots')) by (constructor; [lia|]; rewrite Forall_forall in Gt |- *; intros x Hx; specialize (Gt x Hx); lia).
      split; [reflexivity|]. split; [reflexivity|]. split; [exact F|]. split; [exact Sx|]. split; [exact N|]. split; [exact All|]. split; [apply incl_refl|]. split; [apply incl_refl|].
      intros id. split; [|split; [intros; split; [reflexivity|assumption]|reflexivity]].
      intros Hin i Oi Li. exfalso. assert (X : In i (j :: slots')).
      { clear -F Hin Oi. induction F as [|x y l l' O1 F1 IH]; [contradiction|]. destruct Hin as [->|Hin]; [|right; apply IH, Hin]. left. unfold open_at in *. rewrite Oi in O1. injection O1. lia. }
      rewrite Forall_forall in All. specialize (All i X). lia.
    + rewrite slot_get_rev. destruct (nth_error k j) as [v|] eqn:Ek; [|apply nth_error_None in Ek; lia].
      assert (F2 : Forall2 (open_at (put u c (UClosed v))) pend slots').
      { clear -F' Nc. induction F' as [|x y l l' O1 F1 IH]; constructor; [|apply IH; intros H; apply Nc; right; exact H]. unfold open_at in *. rewrite nth_put. destruct (Nat.eqb_spec c x); [subst; exfalso; apply Nc; left; reflexivity|exact O1]. }
      destruct (IH slots' (put u c (UClosed v)) F2 Sx' N' G') as (u' & p' & sl & E1 & E2 & E3 & E4 & E5 & E6 & E7 & E8 & E9).
      exists u', p', sl. split; [exact E1|]. split; [rewrite E2; clear; generalize c; induction u; intros [|n]; cbn [put length]; auto|].
      split; [exact E3|]. split; [exact E4|]. split; [exact E5|]. split; [exact E6|]. split; [intros x Hx; right; apply E7, Hx|]. split; [intros x Hx; right; apply E8, Hx|].
      intros id. destruct (E9 id) as (A & B & C). destruct (Nat.eq_dec c id) as [<-|Ne].
      * specialize (C Nc). rewrite nth_put, Nat.eqb_refl, Oc in C. split; [|split].
        -- intros _ i Oi _. unfold open_at in Oi. rewrite Oc in Oi. injection Oi as Oi. replace i with j by lia. exists v. auto.
        -- intros _ i Oi Li. unfold open_at in Oi. rewrite Oc in Oi. injection Oi as Oi. lia.
        -- intros H. exfalso. apply H. left. reflexivity.
      * assert (Eq : nth_error (put u c (UClosed v)) id = nth_error u id) by (rewrite nth_put; destruct (Nat.eqb_spec c id); [contradiction|reflexivity]). unfold open_at in *. rewrite Eq in *. split; [|split].
        -- intros [->|Hin]; [contradiction|]. apply A, Hin.
        -- intros [->|Hin]; [contradiction|]. apply B, Hin.
        -- intros H. apply C. intros X. apply H. right. exact X.
Qed.

(** ** The invariant. *)
Definition handle_ok (s : vstate) (a : vars) (id c : nat) : Prop :=
  (c < a_next a)%nat /\
  match nth_error (v_upv s) id with
  | Some (UOpen l) => exists i, l = Z.of_nat i /\ nth_error (a_vars a) i = Some c
  | Some (UClosed v) => v = a_val a c /\ ~ In c (a_vars a)
  | None => False
  end.
Record inv (s : vstate) (ids : list nat) (a : vars) : Prop := Inv {
  i_stk : v_stk s = rev (map (a_val a) (a_vars a));
  i_nd : NoDup (a_vars a);
  i_new : Forall (fun c => (c < a_next a)%nat) (a_vars a);
  i_len : length ids = length (a_caps a);
  i_h : forall h id c, nth_error ids h = Some id -> nth_error (a_caps a) h = Some c -> handle_ok s a id c;
  i_eq : forall h1 h2 id1 id2 c1 c2, nth_error ids h1 = Some id1 -> nth_error ids h2 = Some id2 -> nth_error (a_caps a) h1 = Some c1 -> nth_error (a_caps a) h2 = Some c2 -> (id1 = id2 <-> c1 = c2);
  i_pend : exists slots, Forall2 (open_at (v_upv s)) (v_pending s) slots /\ StronglySorted gt slots /\ Forall (fun j => (j < length (a_vars a))%nat) slots;
  i_pnd : NoDup (v_pending s);
  i_all : forall id l, nth_error (v_upv s) id = Some (UOpen l) -> In id (v_pending s);
  i_in : incl (v_pending s) ids }.

Lemma in_caps a c : existsb (Nat.eqb c) (a_caps a) = true <-> In c (a_caps a).
Proof. rewrite existsb_exists. split; [intros (x & H & E); apply Nat.eqb_eq in E; subst; exact H|intros H; exists c; split; [exact H|apply Nat.eqb_refl]]. Qed.
Lemma caps_id s ids a c : inv s ids a -> In c (a_caps a) -> exists h id, nth_error ids h = Some id /\ nth_error (a_caps a) h = Some c.
Proof.
  intros I H. apply In_nth_error in H. destruct H as (h & E). destruct (nth_error ids h) as [id|] eqn:F; [exists h, id; auto|]. apply nth_error_None in F. assert (h < length (a_caps a))%nat by (apply nth_error_Some; congruence). rewrite (i_len _ _ _ I) in F. lia.
Qed.
Lemma ids_cap s ids a id : inv s ids a -> In id ids -> exists h c, nth_error ids h = Some id /\ nth_error (a_caps a) h = Some c.
Proof.
  intros I H. apply In_nth_error in H. destruct H as (h & E). destruct (nth_error (a_caps a) h) as [c|] eqn:F; [exists h, c; auto|]. apply nth_error_None in F. assert (h < length ids)%nat by (apply nth_error_Some; congruence). rewrite (i_len _ _ _ I) in *. lia.
Qed.
(** a pending slot is captured *)
Lemma pending_captured s ids a id j : inv s ids a -> In id (v_pending s) -> open_at (v_upv s) id j -> captured a j = true.
Proof.
  intros I H O. destruct (ids_cap s ids a id I (i_in _ _ _ I _ H)) as (h & c & E & F). destruct (i_h _ _ _ I _ _ _ E F) as (_ & X). unfold open_at in O. rewrite O in X. destruct X as (i & Ei & V). assert (i = j) by lia. subst i.
  unfold captured. rewrite V. apply in_caps. eapply nth_error_In, F.
Qed.
Lemma captured_open s ids a i c : inv s ids a -> nth_error (a_vars a) i = Some c -> In c (a_caps a) -> exists h id, nth_error ids h = Some id /\ nth_error (a_caps a) h = Some c /\ open_at (v_upv s) id i /\ In id (v_pending s).
Proof.
  intros I V H. destruct (caps_id s ids a c I H) as (h & id & E & F). exists h, id. split; [exact E|]. split; [exact F|]. destruct (i_h _ _ _ I _ _ _ E F) as (_ & X).
  destruct (nth_error (v_upv s) id) as [[l|v]|] eqn:U; [|destruct X as (_ & X); exfalso; apply X; eapply nth_error_In, V|contradiction].
  destruct X as (j & -> & Vj). assert (i = j) by (eapply nth_In_unique; [apply (i_nd _ _ _ I)|exact V|exact Vj]). subst j. split; [exact U|]. eapply i_all; eassumption.
Qed.
Lemma slots_of s ids a slots (id : nat) : inv s ids a -> Forall2 (open_at (v_upv s)) (v_pending s) slots -> forall j, In j slots -> captured a j = true.
Proof.
  intros I F j H. assert (X : exists id, In id (v_pending s) /\ open_at (v_upv s) id j).
  { clear I. induction F as [|x y l l' O F IH]; [contradiction|]. destruct H as [->|H]; [exists x; split; [left; reflexivity|exact O]|]. destruct (IH H) as (z & A & B). exists z. split; [right; exact A|exact B]. }
  destruct X as (id' & A & B). eapply pending_captured; eassumption.
Qed.

Lemma map_assign_notin a c v l : ~ In c l -> map (a_val (assign a c v)) l = map (a_val a) l.
Proof. intros H. apply map_ext_in. intros x Hx. cbn [assign a_val]. destruct (Nat.eqb_spec x c); [subst; contradiction|reflexivity]. Qed.

(** writing the variable of a slot *)
Lemma inv_assign_open s ids a i c v k : inv s ids a -> nth_error (a_vars a) i = Some c -> slot_set (v_stk s) (Z.of_nat i) v = Some k -> inv (set_stk s k) ids (assign a c v).
Proof.
  intros I V E. destruct (nth_error_split _ _ V) as (l1 & l2 & S & L). assert (Nc : ~ In c l1 /\ ~ In c l2).
  { pose proof (i_nd _ _ _ I) as N. rewrite S in N. apply NoDup_remove_2 in N. rewrite in_app_iff in N. tauto. }
  constructor; cbn [a_vars a_next a_caps assign v_stk set_stk v_upv v_pending].
  - rewrite (i_stk _ _ _ I), S, map_app in E. cbn [map] in E. replace i with (length (map (a_val a) l1)) in E by (rewrite map_length; exact L). rewrite slot_set_rev in E. injection E as <-. f_equal.
    rewrite S, map_app. cbn [map]. change (a_val (Vars _ _ _ _)) with (a_val (assign a c v)). rewrite !map_assign_notin by tauto. cbn [assign a_val]. rewrite Nat.eqb_refl. reflexivity.
  - apply (i_nd _ _ _ I).
  - apply (i_new _ _ _ I).
  - apply (i_len _ _ _ I).
  - intros h id d Eh Ec. destruct (i_h _ _ _ I _ _ _ Eh Ec) as (A & B). split; [exact A|]. cbn [v_upv set_stk]. destruct (nth_error (v_upv s) id) as [[l|w]|]; [exact B| |exact B]. destruct B as (-> & Nv). split; [|exact Nv].
    cbn [a_val assign]. destruct (Nat.eqb_spec d c); [|reflexivity]. subst. exfalso. apply Nv. eapply nth_error_In, V.
  - apply (i_eq _ _ _ I).
  - apply (i_pend _ _ _ I).
  - apply (i_pnd _ _ _ I).
  - apply (i_all _ _ _ I).
  - apply (i_in _ _ _ I).
Qed.

Lemma step_inv s ids a o a' x : inv s ids a -> covered1 a o = true -> astep a o = Some (a', x) -> exists s' ids', ustep (s, ids) o = Some ((s', ids'), x) /\ inv s' ids' a'.
Proof.
  intros I Cv E. destruct o as [v| |i|i v|i|h|h v|fp]; cbn [astep] in E; cbn [ustep].
  - (* push *) injection E as <- <-. do 2 eexists. split; [reflexivity|]. constructor; cbn [a_vars a_val a_next a_caps v_stk set_stk v_upv v_pending].
    + rewrite map_app, rev_app_distr. cbn [map rev app]. rewrite Nat.eqb_refl. f_equal. rewrite (i_stk _ _ _ I). f_equal. apply map_ext_in. intros y Hy. pose proof (i_new _ _ _ I) as F. rewrite Forall_forall in F. specialize (F y Hy).
      destruct (Nat.eqb_spec y (a_next a)); [lia|reflexivity].
    + pose proof (i_new _ _ _ I) as F. rewrite Forall_forall in F. apply (Permutation_NoDup (Permutation_cons_append (a_vars a) (a_next a))). constructor; [|apply (i_nd _ _ _ I)]. intros H. specialize (F _ H). lia.
    + apply Forall_app. split; [|repeat constructor; lia]. eapply Forall_impl; [|apply (i_new _ _ _ I)]. cbn beta. lia.
    + apply (i_len _ _ _ I).
    + intros h id c Eh Ec. destruct (i_h _ _ _ I _ _ _ Eh Ec) as (A & B). split; [cbn [a_next]; lia|]. cbn [v_upv set_stk a_vars a_val]. destruct (nth_error (v_upv s) id) as [[l|w]|]; [| |exact B].
      * destruct B as (i & -> & B). exists i. split; [reflexivity|]. rewrite nth_error_app1; [exact B|]. apply nth_error_Some. congruence.
      * destruct B as (-> & B). split; [destruct (Nat.eqb_spec c (a_next a)); [lia|reflexivity]|]. rewrite in_app_iff. intros [H|[H|[]]]; [contradiction|]. lia.
    + apply (i_eq _ _ _ I).
    + destruct (i_pend _ _ _ I) as (sl & A & B & C). exists sl. split; [exact A|]. split; [exact B|]. rewrite app_length. eapply Forall_impl; [|exact C]. cbn beta. lia.
    + apply (i_pnd _ _ _ I).
    + apply (i_all _ _ _ I).
    + apply (i_in _ _ _ I).
  - (* pop *) assert (Ne : a_vars a <> []) by (intros H; rewrite H in E; discriminate). assert (E2 : Some (Vars (removelast (a_vars a)) (a_val a) (a_next a) (a_caps a), @None value) = Some (a', x)) by (destruct (a_vars a); [discriminate|exact E]). clear E. injection E2 as <- <-. destruct (exists_last Ne) as (l & c & El).
    assert (Sk : v_stk s = a_val a c :: rev (map (a_val a) l)) by (rewrite (i_stk _ _ _ I), El, map_app, rev_app_distr; reflexivity). rewrite Sk. do 2 eexists. split; [reflexivity|].
    assert (Rl : removelast (a_vars a) = l) by (rewrite El; apply removelast_last). rewrite Rl. cbn [covered1] in Cv. assert (Nc : captured a (length l) = false).
    { rewrite El, app_length in Cv. cbn [length] in Cv. replace (length l + 1 - 1)%nat with (length l) in Cv by lia. destruct (captured a (length l)); [discriminate|reflexivity]. }
    assert (Nl : nth_error (a_vars a) (length l) = Some c) by (rewrite El, nth_error_app2, Nat.sub_diag by lia; reflexivity).
    assert (Nl2 : ~ In c (a_caps a)) by (intros H; unfold captured in Nc; rewrite Nl in Nc; apply in_caps in H; congruence).
    constructor; cbn [a_vars a_val a_next a_caps v_stk set_stk v_upv v_pending].
    + reflexivity.
    + pose proof (i_nd _ _ _ I) as N. rewrite El in N. apply NoDup_remove_1 in N. rewrite app_nil_r in N. exact N.
    + pose proof (i_new _ _ _ I) as N. rewrite El in N. apply Forall_app in N. apply N.
    + apply (i_len _ _ _ I).
    + intros h id d Eh Ec. destruct (i_h _ _ _ I _ _ _ Eh Ec) as (A & B). split; [exact A|]. cbn [v_upv set_stk a_vars a_val]. destruct (nth_error (v_upv s) id) as [[l'|w]|]; [| |exact B].
      * destruct B as (i & -> & B). exists i. split; [reflexivity|]. rewrite El in B. destruct (Nat.lt_ge_cases i (length l)) as [L|L]; [rewrite nth_error_app1 in B by exact L; exact B|]. exfalso. rewrite nth_error_app2 in B by exact L.
        destruct (i - length l)%nat as [|z]; [|cbn [nth_error] in B; destruct z; discriminate]. injection B as <-. apply Nl2. eapply nth_error_In, Ec.
      * destruct B as (-> & B). split; [reflexivity|]. intros H. apply B. rewrite El. apply in_app_iff. left. exact H.
    + apply (i_eq _ _ _ I).
    + destruct (i_pend _ _ _ I) as (sl & A & B & C). exists sl. split; [exact A|]. split; [exact B|]. rewrite Forall_forall in C |- *. intros j Hj. specialize (C j Hj). rewrite El, app_length in C. cbn [length] in C.
      assert (j <> length l) by (intros ->; pose proof (slots_of s ids a sl 0%nat I A _ Hj); congruence). lia.
    + apply (i_pnd _ _ _ I).
    + apply (i_all _ _ _ I).
    + apply (i_in _ _ _ I).
  - (* load *) destruct (nth_error (a_vars a) i) as [c|] eqn:V; [|discriminate]. injection E as <- <-. rewrite (i_stk _ _ _ I), slot_get_rev, nth_error_map, V. cbn [option_map]. do 2 eexists. split; [reflexivity|exact I].
  - (* store *) destruct (nth_error (a_vars a) i) as [c|] eqn:V; [|discriminate]. injection E as <- <-. destruct (slot_set (v_stk s) (Z.of_nat i) v) as [k|] eqn:K.
    + do 2 eexists. split; [reflexivity|]. eapply inv_assign_open; eassumption.
    + exfalso. unfold slot_set in K. rewrite (i_stk _ _ _ I), rev_length, map_length in K. assert (i < length (a_vars a))%nat by (apply nth_error_Some; congruence). replace ((0 <=? Z.of_nat i) && (Z.of_nat i <? Z.of_nat (length (a_vars a)))) with true in K by (symmetry; lia). discriminate.
  - (* capture *) destruct (nth_error (a_vars a) i) as [c|] eqn:V; [|discriminate]. injection E as <- <-. destruct (i_pend _ _ _ I) as (sl & PA & PB & PC). unfold add_upvalue.
    destruct (existsb (Nat.eqb c) (a_caps a)) eqn:Cc.
    + apply in_caps in Cc. destruct (captured_open s ids a i c I V Cc) as (h & id & Eh & Ec & O & Pn). rewrite (find_hit (v_upv s) id i _ sl [] PA PB Pn O). do 2 eexists. split; [reflexivity|].
      constructor; cbn [a_vars a_val a_next a_caps v_stk set_stk v_upv v_pending]; try (apply I).
      * rewrite !app_length. cbn [length]. rewrite (i_len _ _ _ I). reflexivity.
      * intros h2 id2 c2 E2 C2. destruct (Nat.lt_ge_cases h2 (length ids)) as [L|L].
        -- rewrite nth_error_app1 in E2 by exact L. rewrite nth_error_app1 in C2 by (rewrite <- (i_len _ _ _ I); exact L). exact (i_h _ _ _ I _ _ _ E2 C2).
        -- rewrite nth_error_app2 in E2 by exact L. rewrite nth_error_app2 in C2 by (rewrite <- (i_len _ _ _ I); exact L). rewrite (i_len _ _ _ I) in E2. destruct (h2 - length (a_caps a))%nat as [|z]; [|destruct z; discriminate]. injection E2 as <-. injection C2 as <-. exact (i_h _ _ _ I _ _ _ Eh Ec).
      * assert (Old : forall h2 id2 c2, nth_error (ids ++ [id]) h2 = Some id2 -> nth_error (a_caps a ++ [c]) h2 = Some c2 -> exists h3, nth_error ids h3 = Some id2 /\ nth_error (a_caps a) h3 = Some c2).
        { intros h2 id2 c2 E2 C2. destruct (Nat.lt_ge_cases h2 (length ids)) as [L|L].
          - rewrite nth_error_app1 in E2 by exact L. rewrite nth_error_app1 in C2 by (rewrite <- (i_len _ _ _ I); exact L). exists h2; auto.
          - rewrite nth_error_app2 in E2 by exact L. rewrite nth_error_app2 in C2 by (rewrite <- (i_len _ _ _ I); exact L). rewrite (i_len _ _ _ I) in E2. destruct (h2 - length (a_caps a))%nat as [|z]; [|destruct z; discriminate]. injection E2 as <-. injection C2 as <-. exists h; auto. }
        intros h1 h2 id1 id2 c1 c2 A1 A2 B1 B2. destruct (Old _ _ _ A1 B1) as (k1 & X1 & Y1). destruct (Old _ _ _ A2 B2) as (k2 & X2 & Y2). exact (i_eq _ _ _ I _ _ _ _ _ _ X1 X2 Y1 Y2).
      * intros y Hy. apply in_app_iff. left. apply (i_in _ _ _ I), Hy.
    + assert (Nc : ~ In c (a_caps a)) by (intros H; apply in_caps in H; congruence). cbn [covered1] in Cv. assert (Cf : captured a i = false) by (unfold captured; rewrite V; exact Cc). rewrite Cf in Cv. cbn [orb] in Cv. rewrite forallb_forall in Cv.
      assert (Up : Forall (fun j => (i < j)%nat) sl).
      { rewrite Forall_forall. intros j Hj. pose proof (slots_of s ids a sl 0%nat I PA j Hj) as Cj. destruct (Nat.lt_trichotomy i j) as [?|[->|L]]; [assumption|congruence|]. specialize (Cv j). rewrite Cj in Cv. discriminate Cv. apply in_seq. lia. }
      rewrite (find_miss (v_upv s) i _ sl [] PA Up). cbn [app]. set (nid := length (v_upv s)). do 2 eexists. split; [reflexivity|].
      assert (Fresh : forall h id c2, nth_error ids h = Some id -> nth_error (a_caps a) h = Some c2 -> (id < nid)%nat).
      { intros h id c2 E2 C2. destruct (i_h _ _ _ I _ _ _ E2 C2) as (_ & B). unfold nid. apply nth_error_Some. destruct (nth_error (v_upv s) id); [discriminate|contradiction]. }
      assert (Same : forall id, (id < nid)%nat -> nth_error (v_upv s ++ [UOpen (Z.of_nat i)]) id = nth_error (v_upv s) id) by (intros id L; apply nth_error_app1; exact L).
      assert (Nw : nth_error (v_upv s ++ [UOpen (Z.of_nat i)]) nid = Some (UOpen (Z.of_nat i))) by (unfold nid; rewrite nth_error_app2, Nat.sub_diag by lia; reflexivity).
      assert (Pl : forall id, In id (v_pending s) -> (id < nid)%nat).
      { intros id H. destruct (ids_cap s ids a id I (i_in _ _ _ I _ H)) as (h & c2 & E2 & C2). eapply Fresh; eassumption. }
      assert (Split : forall h2 id2 c2, nth_error (ids ++ [nid]) h2 = Some id2 -> nth_error (a_caps a ++ [c]) h2 = Some c2 -> (nth_error ids h2 = Some id2 /\ nth_error (a_caps a) h2 = Some c2) \/ (id2 = nid /\ c2 = c)).
      { intros h2 id2 c2 E2 C2. destruct (Nat.lt_ge_cases h2 (length ids)) as [L|L].
        - left. rewrite nth_error_app1 in E2 by exact L. rewrite nth_error_app1 in C2 by (rewrite <- (i_len _ _ _ I); exact L). auto.
        - right. rewrite nth_error_app2 in E2 by exact L. rewrite nth_error_app2 in C2 by (rewrite <- (i_len _ _ _ I); exact L). rewrite (i_len _ _ _ I) in E2. destruct (h2 - length (a_caps a))%nat as [|z]; [|destruct z; discriminate]. injection E2 as <-. injection C2 as <-. auto. }
      constructor; cbn [a_vars a_val a_next a_caps v_stk set_upv v_upv v_pending]; try (apply I).
      * rewrite !app_length. cbn [length]. rewrite (i_len _ _ _ I). reflexivity.
      * intros h2 id2 c2 E2 C2. destruct (Split _ _ _ E2 C2) as [(E3 & C3)|(-> & ->)].
        -- destruct (i_h _ _ _ I _ _ _ E3 C3) as (A & B). split; [exact A|]. cbn [v_upv set_upv]. rewrite Same by (eapply Fresh; eassumption). exact B.
        -- split; [cbn [a_next]; pose proof (i_new _ _ _ I) as F; rewrite Forall_forall in F; apply F; eapply nth_error_In, V|]. cbn [v_upv set_upv]. rewrite Nw. exists i. auto.
      * intros h1 h2 id1 id2 c1 c2 A1 A2 B1 B2. destruct (Split _ _ _ A1 B1) as [(X1 & Y1)|(-> & ->)], (Split _ _ _ A2 B2) as [(X2 & Y2)|(-> & ->)].
        -- exact (i_eq _ _ _ I _ _ _ _ _ _ X1 X2 Y1 Y2).
        -- pose proof (Fresh _ _ _ X1 Y1). apply nth_error_In in Y1. split; intros; subst; [lia|contradiction].
        -- pose proof (Fresh _ _ _ X2 Y2). apply nth_error_In in Y2. split; intros; subst; [lia|contradiction].
        -- tauto.
      * exists (sl ++ [i]). split; [apply Forall2_app; [|constructor; [exact Nw|constructor]]|split].
        -- clear -PA Pl Same. induction PA as [|p q l l' O F IH]; constructor; [unfold open_at in *; rewrite Same by (apply Pl; left; reflexivity); exact O|apply IH; intros; apply Pl; right; assumption].
        -- clear -PB Up. induction PB as [|p l S IH F]; [repeat constructor|]. inversion Up; subst. cbn [app]. constructor; [apply IH; assumption|]. apply Forall_app. split; [exact F|repeat constructor; lia].
        -- apply Forall_app. split; [exact PC|]. repeat constructor. apply nth_error_Some. congruence.
      * apply (Permutation_NoDup (Permutation_cons_append (v_pending s) nid)). constructor; [|apply I]. intros H. apply Pl in H. lia.
      * intros id l H. apply in_app_iff. destruct (Nat.lt_ge_cases id nid) as [L|L]; [left; rewrite Same in H by exact L; eapply i_all; eassumption|]. right. unfold nid in *. rewrite nth_error_app2 in H by exact L. destruct (id - length (v_upv s))%nat eqn:D; [left; lia|]. cbn [nth_error] in H. destruct n; discriminate.
      * intros y Hy. apply in_app_iff in Hy. apply in_app_iff. destruct Hy as [Hy|Hy]; [left; apply (i_in _ _ _ I), Hy|right; exact Hy].
  - (* get *) destruct (nth_error (a_caps a) h) as [c|] eqn:C; [|discriminate]. injection E as <- <-. destruct (nth_error ids h) as [id|] eqn:Eh.
    + destruct (i_h _ _ _ I _ _ _ Eh C) as (A & B). unfold upval_get. destruct (nth_error (v_upv s) id) as [[l|w]|]; [| |contradiction].
      * destruct B as (i & -> & B). rewrite (i_stk _ _ _ I), slot_get_rev, nth_error_map, B. cbn [option_map]. do 2 eexists. split; [reflexivity|exact I].
      * destruct B as (-> & B). do 2 eexists. split; [reflexivity|exact I].
    + exfalso. apply nth_error_None in Eh. assert (h < length (a_caps a))%nat by (apply nth_error_Some; congruence). rewrite (i_len _ _ _ I) in Eh. lia.
  - (* set *) destruct (nth_error (a_caps a) h) as [c|] eqn:C; [|discriminate]. injection E as <- <-. destruct (nth_error ids h) as [id|] eqn:Eh.
    + destruct (i_h _ _ _ I _ _ _ Eh C) as (A & B). unfold upval_set. destruct (nth_error (v_upv s) id) as [[l|w]|] eqn:U; [| |contradiction].
      * destruct B as (i & -> & B). destruct (slot_set (v_stk s) (Z.of_nat i) v) as [k|] eqn:K; cbn [option_map].
        -- do 2 eexists. split; [reflexivity|]. eapply inv_assign_open; eassumption.
        -- exfalso. unfold slot_set in K. rewrite (i_stk _ _ _ I), rev_length, map_length in K. assert (i < length (a_vars a))%nat by (apply nth_error_Some; congruence). replace ((0 <=? Z.of_nat i) && (Z.of_nat i <? Z.of_nat (length (a_vars a)))) with true in K by (symmetry; lia). discriminate.
      * destruct B as (_ & B). do 2 eexists. split; [reflexivity|].
        assert (Np : forall x y, nth_error (v_upv s) x = Some (UOpen y) -> nth_error (put (v_upv s) id (UClosed v)) x = Some (UOpen y)) by (intros x0 y Hx; rewrite nth_put; destruct (Nat.eqb_spec id x0); [subst; congruence|exact Hx]).
        constructor; cbn [a_vars a_next a_caps assign v_stk set_upv v_upv v_pending]; try (apply I).
        -- rewrite (i_stk _ _ _ I). f_equal. symmetry. apply (map_assign_notin a c v). exact B.
        -- intros h2 id2 c2 E2 C2. destruct (i_h _ _ _ I _ _ _ E2 C2) as (A2 & B2). split; [exact A2|]. cbn [v_upv set_upv a_vars assign a_val]. rewrite nth_put. destruct (Nat.eqb_spec id id2) as [<-|Ne].
           ++ rewrite U in B2 |- *. assert (c = c2) by (apply (i_eq _ _ _ I h h2 id id c c2); auto). subst c2. rewrite Nat.eqb_refl. auto.
           ++ destruct (nth_error (v_upv s) id2) as [[l2|w2]|]; [exact B2| |exact B2]. destruct B2 as (-> & B2). split; [|exact B2]. destruct (Nat.eqb_spec c2 c); [|reflexivity]. subst c2. exfalso. apply Ne. apply (i_eq _ _ _ I h h2 id id2 c c); auto.
        -- destruct (i_pend _ _ _ I) as (sl & PA & PB & PC). exists sl. split; [|auto]. clear -PA Np. induction PA; constructor; [apply Np; assumption|assumption].
        -- intros x l Hx. rewrite nth_put in Hx. destruct (Nat.eqb_spec id x); [destruct (nth_error (v_upv s) x); discriminate|]. eapply i_all; eassumption.
    + exfalso. apply nth_error_None in Eh. assert (h < length (a_caps a))%nat by (apply nth_error_Some; congruence). rewrite (i_len _ _ _ I) in Eh. lia.
  - (* return *) injection E as <- <-. destruct (i_pend _ _ _ I) as (sl & PA & PB & PC). rewrite (i_stk _ _ _ I).
    destruct (close_spec (map (a_val a) (a_vars a)) fp (v_pending s) sl (v_upv s) PA PB (i_pnd _ _ _ I) ltac:(eapply Forall_impl; [|exact PC]; cbn beta; intros j Hj; rewrite map_length; exact Hj))
      as (u' & p' & sl' & K & Lu & K1 & K2 & K3 & K4 & K5 & K6 & K7).
    rewrite K. do 2 eexists. split; [reflexivity|]. constructor; cbn [a_vars a_val a_next a_caps v_stk set_stk set_upv v_upv v_pending]; try (apply I).
    + rewrite rev_length, map_length. rewrite <- firstn_map. rewrite <- (rev_involutive (map (a_val a) (a_vars a))) at 2. rewrite firstn_rev, rev_involutive, rev_length, map_length. reflexivity.
    + pose proof (i_nd _ _ _ I) as N. rewrite <- (firstn_skipn fp (a_vars a)) in N. clear -N. induction (firstn fp (a_vars a)) as [|y l IH]; [constructor|]. cbn [app] in N. inversion N; subst. constructor; [rewrite in_app_iff in *; tauto|auto].
    + pose proof (i_new _ _ _ I) as N. rewrite <- (firstn_skipn fp (a_vars a)) in N. apply Forall_app in N. apply N.
    + intros h id c Eh Ec. destruct (i_h _ _ _ I _ _ _ Eh Ec) as (A & B). split; [exact A|]. cbn [v_upv set_stk set_upv a_vars a_val]. destruct (K7 id) as (X & Y & Z0).
      destruct (nth_error (v_upv s) id) as [[l|w]|] eqn:U; [| |contradiction].
      * destruct B as (i & -> & B). assert (Pn : In id (v_pending s)) by (eapply i_all; eassumption). destruct (Nat.lt_ge_cases i fp) as [L|L].
        -- destruct (Y Pn i U L) as (-> & _). exists i. split; [reflexivity|]. rewrite <- (firstn_skipn fp (a_vars a)) in B. assert (i < length (a_vars a))%nat by (rewrite <- (firstn_skipn fp (a_vars a)); apply nth_error_Some; congruence).
           rewrite nth_error_app1 in B by (rewrite firstn_length; lia). exact B.
        -- destruct (X Pn i U L) as (v & Ev & ->). rewrite nth_error_map, B in Ev. injection Ev as <-. split; [reflexivity|]. intros H. apply In_nth_error in H. destruct H as (j & Hj). assert (Lj : (j < fp)%nat) by (assert (j < length (firstn fp (a_vars a)))%nat by (apply nth_error_Some; congruence); rewrite firstn_length in *; lia).
           assert (i = j) by (eapply nth_In_unique; [apply (i_nd _ _ _ I)|exact B|]; rewrite <- (firstn_skipn fp (a_vars a)), nth_error_app1 by (apply nth_error_Some; congruence); exact Hj). lia.
      * rewrite Z0 by (intros H; clear -H PA U; induction PA as [|p q l l' O F IH]; [contradiction|]; destruct H as [->|H]; [unfold open_at in O; congruence|auto]). destruct B as (-> & B). split; [reflexivity|]. intros H. apply B. rewrite <- (firstn_skipn fp (a_vars a)). apply in_app_iff. left. exact H.
    + exists sl'. split; [exact K1|]. split; [exact K2|]. rewrite Forall_forall in K4, PC |- *. intros j Hj. specialize (K4 j Hj). specialize (PC j (K5 j Hj)). rewrite firstn_length. lia.
    + exact K3.
    + intros id l H. destruct (K7 id) as (X & Y & Z0). destruct (in_dec Nat.eq_dec id (v_pending s)) as [Pn|Pn].
      * assert (Q : exists j, open_at (v_upv s) id j) by (clear -PA Pn; induction PA as [|p q l l' O F IH]; [contradiction|]; destruct Pn as [->|Pn]; [eauto|auto]). destruct Q as (j & O). destruct (Nat.lt_ge_cases j fp) as [L|L]; [apply (Y Pn j O L)|]. destruct (X Pn j O L) as (v & _ & Hv). congruence.
      * rewrite Z0 in H by exact Pn. exfalso. apply Pn. eapply i_all; eassumption.
    + intros y Hy. apply (i_in _ _ _ I), K6, Hy.
Qed.

Lemma run_inv ops : forall s ids a r, inv s ids a -> covered a ops = true -> arun a ops = Some r -> urun (s, ids) ops = Some r.
Proof.
  induction ops as [|o ops IH]; intros s ids a r I Cv E; [exact E|]. cbn [covered arun urun] in *. apply andb_prop in Cv. destruct Cv as [C1 C2]. destruct (astep a o) as [[a' x]|] eqn:A; [|discriminate].
  destruct (step_inv s ids a o a' x I C1 A) as (s' & ids' & -> & I'). destruct (arun a' ops) as [r'|] eqn:R; [|discriminate]. injection E as <-. rewrite (IH s' ids' a' r' I' C2 R). reflexivity.
Qed.
Lemma inv_start gl : inv (vm_start gl) [] no_vars.
Proof.
  constructor; cbn [vm_start no_vars v_stk v_upv v_pending a_vars a_val a_next a_caps map rev length].
  - reflexivity.
  - constructor.
  - constructor.
  - reflexivity.
  - intros [|h]; discriminate.
  - intros [|h1]; discriminate.
  - exists []. repeat constructor.
  - constructor.
  - intros [|id] l; discriminate.
  - intros x [].
Qed.
