(** Operations on lists and tables leave memory in order (proofs only). *)
From Coq Require Import Permutation.
From Verif Require Import Base Value ValueProofs Text Ops HeapSpec HeapSpec2 Obj.
Local Open Scope list_scope.

Definition grows (m m' : mem) : Prop := (forall p, m_list m p <> None -> m_list m' p <> None) /\ (forall p, m_tab m p <> None -> m_tab m' p <> None).
Lemma grows_refl m : grows m m. Proof. split; auto. Qed.
Lemma grows_trans a b c : grows a b -> grows b c -> grows a c.
Proof. intros (A & B) (C & E). split; auto. Qed.
Lemma there_grows m m' v : grows m m' -> there m v -> there m' v.
Proof. intros (A & B). destruct v; cbn [there]; auto. Qed.
Lemma there_all m m' vs : grows m m' -> Forall (there m) vs -> Forall (there m') vs.
Proof. intros G. apply Forall_impl. intros v. apply there_grows, G. Qed.
Lemma entries_all m m' (kv : list (value * value)) : grows m m' -> Forall (fun e => is_atom (fst e) = true /\ there m (snd e)) kv -> Forall (fun e => is_atom (fst e) = true /\ there m' (snd e)) kv.
Proof. intros G. apply Forall_impl. intros e (A & B). split; [exact A|eapply there_grows; eassumption]. Qed.
Lemma is_there_there m v : is_there m v = true -> there m v.
Proof. destruct v as [| | | | | |p|p| | | | |]; cbn [is_there there]; auto; [destruct (m_list m p)|destruct (m_tab m p)]; congruence. Qed.
Lemma atom_there m v : is_atom v = true -> there m v.
Proof. destruct v; cbn; auto; discriminate. Qed.
Lemma there_not_end m v : there m v -> v <> VEnd.
Proof. intros T ->. discriminate T. Qed.
Lemma now_some {A} (f : Z -> option A) p x q : f q <> None -> now f p x q <> None.
Proof. unfold now. destruct (q =? p); congruence. Qed.

(** [m'] is in order, nothing was lost, and [v] is there. *)
Definition good (m m' : mem) (v : value) : Prop := complete m' /\ grows m m' /\ there m' v.

Lemma with_list_ok m p xs ys : complete m -> m_list m p = Some xs -> Forall (there m) ys -> complete (with_list m p ys) /\ grows m (with_list m p ys).
Proof.
  intros C E F. assert (G : grows m (with_list m p ys)) by (split; intros q; [apply now_some|auto]). split; [|exact G]. constructor.
  - intros q zs. cbn [with_list m_list m_next]. unfold now. destruct (Z.eqb_spec q p) as [->|].
    + intros [= <-]. split; [apply (c_lists _ C _ _ E)|]. eapply there_all; eassumption.
    + intros Q. destruct (c_lists _ C _ _ Q) as (A & B). split; [exact A|]. eapply there_all; eassumption.
  - intros q kv Q. cbn [with_list m_tab m_next] in *. destruct (c_tables _ C _ _ Q) as (A & B). split; [exact A|]. eapply entries_all; eassumption.
Qed.
Lemma with_tab_ok m p kv ys : complete m -> m_tab m p = Some kv -> Forall (fun e => is_atom (fst e) = true /\ there m (snd e)) ys -> complete (with_tab m p ys) /\ grows m (with_tab m p ys).
Proof.
  intros C E F. assert (G : grows m (with_tab m p ys)) by (split; intros q; [auto|apply now_some]). split; [|exact G]. constructor.
  - intros q zs Q. cbn [with_tab m_list m_next] in *. destruct (c_lists _ C _ _ Q) as (A & B). split; [exact A|]. eapply there_all; eassumption.
  - intros q zs. cbn [with_tab m_tab m_next]. unfold now. destruct (Z.eqb_spec q p) as [->|].
    + intros [= <-]. split; [apply (c_tables _ C _ _ E)|]. eapply entries_all; eassumption.
    + intros Q. destruct (c_tables _ C _ _ Q) as (A & B). split; [exact A|]. eapply entries_all; eassumption.
Qed.
Lemma fresh_list_ok m xs : complete m -> 16 <= m_next m -> Forall (there m) xs -> good m (fresh_list m xs) (VList (m_next m)).
Proof.
  intros C N F. assert (G : grows m (fresh_list m xs)) by (split; intros q; [apply now_some|auto]). split; [|split; [exact G|cbn; unfold now; rewrite Z.eqb_refl; discriminate]]. constructor.
  - intros q zs. cbn [fresh_list m_list m_next]. unfold now. destruct (Z.eqb_spec q (m_next m)) as [->|].
    + intros [= <-]. split; [lia|]. eapply there_all; eassumption.
    + intros Q. destruct (c_lists _ C _ _ Q) as (A & B). split; [lia|]. eapply there_all; eassumption.
  - intros q kv Q. cbn [fresh_list m_tab m_next] in *. destruct (c_tables _ C _ _ Q) as (A & B). split; [lia|]. eapply entries_all; eassumption.
Qed.
Lemma fresh_tab_ok m kv : complete m -> 16 <= m_next m -> Forall (fun e => is_atom (fst e) = true /\ there m (snd e)) kv -> good m (fresh_tab m kv) (VTable (m_next m)).
Proof.
  intros C N F. assert (G : grows m (fresh_tab m kv)) by (split; intros q; [auto|apply now_some]). split; [|split; [exact G|cbn; unfold now; rewrite Z.eqb_refl; discriminate]]. constructor.
  - intros q zs Q. cbn [fresh_tab m_list m_next] in *. destruct (c_lists _ C _ _ Q) as (A & B). split; [lia|]. eapply there_all; eassumption.
  - intros q zs. cbn [fresh_tab m_tab m_next]. unfold now. destruct (Z.eqb_spec q (m_next m)) as [->|].
    + intros [= <-]. split; [lia|]. eapply entries_all; eassumption.
    + intros Q. destruct (c_tables _ C _ _ Q) as (A & B). split; [lia|]. eapply entries_all; eassumption.
Qed.

Lemma at_key_in kv k v : at_key kv k = Some v -> In (k, v) kv.
Proof. induction kv as [|[k' v'] kv IH]; cbn [at_key]; [discriminate|]. destruct (value_eq_dec k k') as [->|]; [intros [= ->]; left; reflexivity|intros E; right; auto]. Qed.
Lemma put_key_all (P : value * value -> Prop) kv k v : Forall P kv -> P (k, v) -> Forall P (put_key kv k v).
Proof. intros F Q. induction kv as [|[k' v'] kv IH]; cbn [put_key]; [auto|]. inversion F; subst. destruct (value_eq_dec k k'); constructor; auto. Qed.
Lemma join_all (P : value * value -> Prop) r : forall l, Forall P l -> Forall P r -> Forall P (join_maps l r).
Proof. unfold join_maps. induction r as [|[k v] r IH]; intros l L R; [exact L|]. inversion R; subst. cbn [fold_left fst snd]. apply IH; [apply put_key_all; assumption|assumption]. Qed.
Lemma key_atom m k : there m k -> keyable k = true -> is_atom k = true.
Proof. destruct k; cbn; congruence. Qed.

Lemma index_there m c k v : complete m -> index_spec m c k = Gives v -> there m v.
Proof.
  intros C E. unfold index_spec in E.
  destruct c as [| | | | | |p|p| | | | |]; try discriminate E; try (destruct (keyable k && _ || never_key k); discriminate E).
  - destruct (m_list m p) as [xs|] eqn:M; [|discriminate E]. destruct k; try (match type of E with (if ?b then _ else _) = _ => destruct b end; discriminate E).
    destruct (position (length xs) i) as [n|]; [|discriminate E]. destruct (nth_error xs n) as [u|] eqn:N; [|discriminate E]. injection E as ->. apply nth_error_In in N. destruct (c_lists _ C _ _ M) as (_ & F). rewrite Forall_forall in F. auto.
  - destruct (m_tab m p) as [kv|] eqn:M; [|discriminate E]. destruct (keyable k && _).
    + injection E as <-. destruct (at_key kv k) as [u|] eqn:A; [|reflexivity]. apply at_key_in in A. destruct (c_tables _ C _ _ M) as (_ & F). rewrite Forall_forall in F. apply (F _ A).
    + destruct (never_key k); [injection E as <-; reflexivity|discriminate E].
Qed.
Lemma set_nth_all (P : value -> Prop) xs : forall n v, Forall P xs -> P v -> Forall P (set_nth xs n v).
Proof. induction xs as [|x xs IH]; intros [|n] v F Q; cbn [set_nth]; auto; inversion F; subst; constructor; auto. Qed.
Lemma store_ok m c k v m' : complete m -> there m k -> there m v -> store_spec m c k v = Gives m' -> complete m' /\ grows m m'.
Proof.
  intros C K T E. unfold store_spec in E. destruct c as [| | | | | |p|p| | | | |]; try discriminate E.
  - destruct (m_list m p) as [xs|] eqn:M; [|discriminate E]. destruct k; try discriminate E. destruct (position (length xs) i) as [n|]; [|discriminate E]. injection E as <-.
    eapply with_list_ok; [exact C|exact M|]. apply set_nth_all; [apply (c_lists _ C _ _ M)|exact T].
  - destruct (m_tab m p) as [kv|] eqn:M; [|discriminate E].
    assert (Q : keyable k = true -> complete (with_tab m p (put_key kv k v)) /\ grows m (with_tab m p (put_key kv k v))).
    { intros Ke. eapply with_tab_ok; [exact C|exact M|]. apply put_key_all; [apply (c_tables _ C _ _ M)|]. split; [eapply key_atom; eassumption|exact T]. }
    destruct v; try discriminate E; try (destruct (keyable k); [destruct (below_limit (length kv)); [injection E as <-; auto|discriminate E]|destruct (never_key k); discriminate E]).
    destruct (never_key k); [injection E as <-; split; [exact C|apply grows_refl]|discriminate E].
Qed.
Lemma concat_ok m a b m' v : complete m -> 16 <= m_next m -> concat_spec m a b = Gives (m', v) -> good m m' v.
Proof.
  intros C N E. unfold concat_spec in E. destruct a as [| | | | | |p|p| | | | |]; try discriminate E.
  destruct b as [| | | | | |q|q| | | | |]; try (destruct (m_list m p); discriminate E). destruct (m_list m p) as [xs|] eqn:A; [|discriminate E]. destruct (m_list m q) as [ys|] eqn:B; [|discriminate E].
  injection E as <- <-. apply fresh_list_ok; [exact C|exact N|]. apply Forall_app. split; eapply c_lists; eassumption.
Qed.
Lemma union_ok m a b m' v : complete m -> 16 <= m_next m -> union_spec m a b = Gives (m', v) -> good m m' v.
Proof.
  intros C N E. unfold union_spec in E. destruct a as [| | | | | |p|p| | | | |]; try discriminate E.
  destruct b as [| | | | | |q|q| | | | |]; try (destruct (m_tab m p); discriminate E). destruct (m_tab m p) as [xs|] eqn:A; [|discriminate E]. destruct (m_tab m q) as [ys|] eqn:B; [|discriminate E].
  destruct (below_limit _); [|discriminate E]. injection E as <- <-. apply fresh_tab_ok; [exact C|exact N|]. apply join_all; eapply c_tables; eassumption.
Qed.
Lemma entries_ok m : forall kvs acc, Forall (fun e => there m (fst e) /\ there m (snd e)) kvs -> entries_of kvs = Gives acc -> Forall (fun e => is_atom (fst e) = true /\ there m (snd e)) acc.
Proof.
  induction kvs as [|[k v] kvs IH]; intros acc F E; cbn [entries_of] in E; [injection E as <-; constructor|]. inversion F as [|? ? (Fk & Fv) F2]; subst. destruct (entries_of kvs) as [acc0| |] eqn:E0; try discriminate E.
  specialize (IH acc0 F2 eq_refl). cbn [fst snd] in *.
  assert (Q : keyable k = true -> Forall (fun e => is_atom (fst e) = true /\ there m (snd e)) (put_key acc0 k v)) by (intros Ke; apply put_key_all; [exact IH|split; [eapply key_atom; eassumption|exact Fv]]).
  destruct v; try discriminate E; try (injection E as <-; exact IH);
    destruct k; try discriminate E;
    (match type of E with (if ?b then _ else _) = _ => destruct b eqn:Ke end; [destruct (below_limit _); [injection E as <-; auto|discriminate E]|match type of E with (if ?b then _ else _) = _ => destruct b end; discriminate E]).
Qed.
Lemma table_ok m kvs m' v : complete m -> 16 <= m_next m -> Forall (fun e => there m (fst e) /\ there m (snd e)) kvs -> table_spec m kvs = Gives (m', v) -> good m m' v.
Proof.
  intros C N F E. unfold table_spec in E. destruct (entries_of kvs) as [acc| |] eqn:A; try discriminate E. injection E as <- <-. apply fresh_tab_ok; [exact C|exact N|]. eapply entries_ok; eassumption.
Qed.
Lemma pairs_all m : forall xs, Forall (there m) xs -> Forall (fun e => there m (fst e) /\ there m (snd e)) (pairs xs).
Proof.
  fix IH 1. intros [|a [|b xs]] F; cbn [pairs]; try constructor.
  - inversion F as [|? ? A F2]; subst. inversion F2 as [|? ? B F3]; subst. split; assumption.
  - inversion F as [|? ? A F2]; subst. inversion F2 as [|? ? B F3]; subst. apply IH. exact F3.
Qed.
Lemma arg_there m args n : Forall (there m) args -> there m (arg args n).
Proof. unfold arg. intros F. revert n. induction F as [|a args A F IH]; intros [|n]; cbn [nth]; auto; reflexivity. Qed.
Lemma last_pos_there m xs v : forall i, there m (last_pos xs v i).
Proof. induction xs as [|x xs IH]; intros i; cbn [last_pos]; [reflexivity|]. destruct (last_pos xs v (i + 1)); try reflexivity; destruct (is_equal x v); reflexivity. Qed.
Lemma removelast_all (P : value -> Prop) xs : Forall P xs -> Forall P (removelast xs).
Proof. induction 1 as [|x [|y xs] A F IH]; cbn [removelast]; auto. Qed.
Lemma last_all (P : value -> Prop) xs d : Forall P xs -> P d -> P (last xs d).
Proof. induction 1 as [|x [|y xs] A F IH]; cbn [last]; auto. Qed.
Lemma method_ok m c x args m' v : complete m -> 16 <= m_next m -> there m c -> Forall (there m) args -> method_spec m c x args = Gives (m', v) -> good m m' v.
Proof.
  intros C N T F E. unfold method_spec in E. destruct c as [| | | | | |p|p| | | | |]; try discriminate E. destruct (m_list m p) as [xs|] eqn:M; [|discriminate E].
  destruct (c_lists _ C _ _ M) as (_ & X).
  assert (W : forall ys u, Forall (there m) ys -> there m u -> good m (with_list m p ys) u).
  { intros ys u Fy Tu. destruct (with_list_ok m p xs ys C M Fy) as (A & B). split; [exact A|]. split; [exact B|]. eapply there_grows; eassumption. }
  assert (S : forall u, there m u -> good m m u) by (intros u Tu; split; [exact C|]; split; [apply grows_refl|exact Tu]).
  destruct (named x m_push). { injection E as <- <-. apply W; [|exact T]. apply Forall_app. split; [exact X|]. constructor; [apply arg_there, F|constructor]. }
  destruct (named x m_pop). { assert (E' : Gives (with_list m p (removelast xs), last xs VUndef) = Gives (m', v)) by (destruct xs; [discriminate E|exact E]). injection E' as <- <-. apply W; [apply removelast_all, X|apply last_all; [exact X|reflexivity]]. }
  destruct (named x m_copy). { injection E as <- <-. apply fresh_list_ok; assumption. }
  destruct (named x m_reverse). { injection E as <- <-. apply W; [apply Forall_rev, X|reflexivity]. }
  destruct (named x m_clear). { injection E as <- <-. apply W; [constructor|reflexivity]. }
  destruct (named x m_count). { injection E as <- <-. apply S. reflexivity. }
  destruct (named x m_search). { injection E as <- <-. apply S, last_pos_there. }
  destruct (named x m_insert); [|discriminate E]. destruct (arg args 0); try discriminate E. destruct (i =? Z.of_nat (length xs)).
  - injection E as <- <-. apply W; [|exact T]. apply Forall_app. split; [exact X|]. constructor; [apply arg_there, F|constructor].
  - destruct (position (length xs) i) as [j|]; [|discriminate E]. injection E as <- <-. apply W; [|exact T]. rewrite <- (firstn_skipn j xs) in X. apply Forall_app in X. destruct X as (X1 & X2). apply Forall_app. split; [exact X1|]. constructor; [apply arg_there, F|exact X2].
Qed.
Lemma part_all m p kv xs (part : value * value -> value) : complete m -> m_tab m p = Some kv -> part = fst \/ part = snd -> Permutation xs (map part kv) -> Forall (there m) xs.
Proof.
  intros C E P PM. eapply Permutation_Forall; [apply Permutation_sym, PM|]. apply Forall_map. destruct (c_tables _ C _ _ E) as (_ & F). eapply Forall_impl; [|exact F]. intros e (A & B). destruct P as [->| ->]; [apply atom_there, A|exact B].
Qed.

Lemma int_binop_atom o a b v : int_binop o a b = Ok v -> is_atom v = true.
Proof. unfold int_binop, sint. destruct o; repeat match goal with |- context [if ?b then _ else _] => destruct b end; intros E; try discriminate E; injection E as <-; reflexivity. Qed.
Lemma float_binop_atom o a b v : float_binop o a b = Ok v -> is_atom v = true.
Proof. unfold float_binop. destruct o; intros E; try discriminate E; injection E as <-; reflexivity. Qed.
Lemma vm_int_atom w o a b v : vm_int_binop (strict w) o a b = Ok v -> is_atom v = true.
Proof. unfold vm_int_binop. cbn [strict w_meta2]. destruct a, b; try discriminate. apply int_binop_atom. Qed.
Lemma binop_atom w o a b v : exec_binop (strict w) o a b = Ok v -> is_atom v = true.
Proof.
  intros E. destruct o; cbn [exec_binop] in E; try (eapply vm_int_atom; exact E).
  1-3: unfold vm_num_binop in E; cbn [strict w_meta2] in E; destruct a, b; cbn [is_num andb] in E; try discriminate E; first [eapply int_binop_atom; exact E|eapply float_binop_atom; exact E].
  - unfold vm_fdiv in E. cbn [strict w_meta2] in E. destruct (is_num a && is_num b); [injection E as <-; reflexivity|discriminate E].
  - unfold vm_divmod in E. destruct b; try (eapply vm_int_atom; exact E). destruct (i =? 0); [discriminate E|eapply vm_int_atom; exact E].
  - unfold vm_divmod in E. destruct b; try (eapply vm_int_atom; exact E). destruct (i =? 0); [discriminate E|eapply vm_int_atom; exact E].
  - unfold vm_pow in E. cbn [strict w_meta2] in E. destruct a, b; cbn [is_num andb] in E; try discriminate E; try (injection E as <-; reflexivity).
    destruct (i0 <? 0); [injection E as <-; reflexivity|]. destruct (f_to_int _); cbn [bind] in E; try discriminate E. injection E as <-. reflexivity.
  - unfold vm_cnct in E. destruct (w_tostr (strict w) b); cbn [bind] in E; try discriminate E. destruct (w_tostr (strict w) a); cbn [bind] in E; try discriminate E. injection E as <-. reflexivity.
  - unfold vm_comp in E; cbn [strict w_meta2] in E; destruct a, b; cbn [is_num andb] in E; try discriminate E; injection E as <-; reflexivity.
  - unfold vm_comp in E; cbn [strict w_meta2] in E; destruct a, b; cbn [is_num andb] in E; try discriminate E; injection E as <-; reflexivity.
  - unfold vm_comp in E; cbn [strict w_meta2] in E; destruct a, b; cbn [is_num andb] in E; try discriminate E; injection E as <-; reflexivity.
  - unfold vm_comp in E; cbn [strict w_meta2] in E; destruct a, b; cbn [is_num andb] in E; try discriminate E; injection E as <-; reflexivity.
  - unfold vm_eq in E. cbn [strict w_meta2] in E. destruct a, b; try discriminate E; injection E as <-; reflexivity.
  - unfold vm_id in E. injection E as <-. reflexivity.
Qed.
Lemma unop_atom w o a v : exec_unop (strict w) o a = Ok v -> is_atom v = true.
Proof. unfold exec_unop, sint. cbn [strict w_meta1]. destruct o, a; repeat match goal with |- context [if ?b then _ else _] => destruct b end; intros E; try discriminate E; injection E as <-; reflexivity. Qed.
Lemma length_atom m c v : length_spec m c = Gives v -> is_atom v = true.
Proof. unfold length_spec. destruct c as [| | | | | |p|p| | | | |]; try discriminate; [destruct (m_list m p)|destruct (m_tab m p)]; try discriminate; intros [= <-]; reflexivity. Qed.
