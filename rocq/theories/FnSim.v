From Verif Require Import Base Bytes BytesProofs Value Table Ops Ast Stmt Limits Constants VM Compiler ValueProofs TableSpec ConstSpec ConstProofs Gen GenProofs GenProofs2 SimBase Sim CallSpec CallProofs Fn FnSpec FnCompiler FnCode FnGen.

(** ** Shapes: which variables there are, without their values. *)
Definition shape (l : list binding) : list (name * bool) := map (fun b => (fst b, fst (snd b))) l.
Lemma shape_length l l' : shape l = shape l' -> length l = length l'.
Proof. intros H. apply (f_equal (@length _)) in H. unfold shape in H. rewrite !map_length in H. exact H. Qed.
Lemma shape_skipn n l : shape (skipn n l) = skipn n (shape l).
Proof. revert l. induction n; intros [|b l]; cbn; auto. Qed.
Lemma agree1_shape base s : forall l l', agree1 base s l -> shape l' = shape l -> agree1 base s l'.
Proof.
  induction s as [|(x, z) s IH]; intros [|(y, (k, v)) l] [|(y', (k', v')) l'] A E; cbn in *; try tauto; try discriminate.
  injection E as -> -> E. destruct A as (A & B & C). split; [exact A|]. split; [exact B|]. eapply IH; eassumption.
Qed.
Lemma agree_shape ss : forall l l', agree ss l -> map shape l' = map shape l -> agree ss l'.
Proof.
  induction ss as [|s ss IH]; intros [|b l] [|b' l'] A E; cbn in *; try tauto; try discriminate. injection E as E1 E2. destruct A as (A & B). split; [eapply agree1_shape; eassumption|eapply IH; eassumption].
Qed.
Lemma shape_set_in l x v : shape (set_in l x v) = shape l.
Proof. induction l as [|(y, (k, u)) l IH]; [reflexivity|]. cbn [set_in]. destruct (name_eqb y x); [reflexivity|]. unfold shape in *. cbn [map fst snd]. f_equal. exact IH. Qed.
Lemma shape_set_var l x v : map shape (set_var l x v) = map shape l.
Proof. induction l as [|b l IH]; [reflexivity|]. cbn [set_var]. destruct (lookup b x); cbn [map]; [rewrite shape_set_in; reflexivity|rewrite IH; reflexivity]. Qed.
Lemma vals_shape l l' : map shape l' = map shape l -> length (vals l') = length (vals l).
Proof.
  intros H. unfold vals. rewrite !map_length. revert l' H. induction l as [|b l IH]; intros [|b' l'] H; try discriminate; [reflexivity|]. injection H as H1 H2. cbn [concat]. rewrite !app_length, (IH _ H2), (shape_length _ _ H1). reflexivity.
Qed.
Lemma agree_last ss : forall l b, agree ss (l ++ [b]) -> agree1 0 (last ss []) b.
Proof.
  induction ss as [|s ss IH]; intros l b A; [destruct l; destruct A|]. destruct l as [|c l]; cbn [app agree] in A; destruct A as (A & B).
  - destruct ss; [exact A|destruct B].
  - destruct ss as [|t r]; [destruct l; destruct B|]. change (last (s :: t :: r) []) with (last (t :: r) []). eapply IH. exact B.
Qed.
Lemma find_var_app l b x : find_var (l ++ [b]) x = match find_var l x with Some r => Some r | None => lookup b x end.
Proof. induction l as [|c l IH]; cbn; [destruct (lookup b x); reflexivity|]. rewrite IH. destruct (lookup c x); reflexivity. Qed.
Lemma set_var_app l b x v : set_var (l ++ [b]) x v = match find_var l x with Some _ => set_var l x v ++ [b] | None => l ++ [match lookup b x with Some _ => set_in b x v | None => b end] end.
Proof. induction l as [|c l IH]; cbn; [destruct (lookup b x); reflexivity|]. destruct (lookup c x); [reflexivity|]. rewrite IH. destruct (find_var l x); reflexivity. Qed.
Lemma vals_snoc l b : vals (l ++ [b]) = vals l ++ map bval b.
Proof. unfold vals. rewrite concat_app, map_app. cbn. rewrite app_nil_r. reflexivity. Qed.

(** ** The machine at a place. *)
Record cx : Type := Cx { x_fp : Z; x_base : list value; x_frs : list frame; x_nfp : Z }.
Record mem : Type := Mem { m_upv : list upv; m_pend : list nat; m_clo : list closure }.
Definition stack (x : cx) (temps : list value) (st : fstate) : list value := temps ++ vals (s_loc st) ++ x_base x ++ map bval (s_file st).
Definition att (x : cx) (pc : Z) (temps : list value) (st : fstate) (m : mem) : vstate :=
  VS pc (stack x temps st) (x_fp x) (s_gl st) (s_out st) [] (x_frs x) (x_nfp x) (m_upv m) (m_pend m) (m_clo m).
Definition oldest (n : nat) (file : list binding) : list binding := skipn (length file - n) file.
Definition cap (F : scope) (u : list upv) (x : name) (id : nat) : Prop := exists z, assoc F x = Some z /\ nth_error u id = Some (UOpen (get_index z)).
Definition captured (U : list name) (F : scope) (cv : value) (m : mem) : Prop :=
  U = [] \/ exists k a ids, cv = VClosure k /\ nthZ (m_clo m) k = Some (Clo a ids) /\ Forall2 (cap F (m_upv m)) U ids.
Definition names_ok (U : list name) (F : scope) : Prop := NoDup U /\ (forall x, In x U -> assoc F x <> None) /\ (length F <= 128)%nat.
Definition here (E : senv) (x : cx) (st : fstate) (m : mem) : Prop :=
  match E with
  | SFile ss => s_sees st = None /\ x_base x = [] /\ x_fp x = -1 /\ agree ss (s_loc st ++ [s_file st])
  | SFun U ss F => exists cv b n, x_base x = cv :: b /\ s_sees st = Some n /\ (n <= length (s_file st))%nat /\ x_fp x = Z.of_nat (length b) + Z.of_nat (length (s_file st)) /\
      agree ss (s_loc st) /\ agree1 0 F (oldest n (s_file st)) /\ names_ok U F /\ captured U F cv m
  end.
Definition grow (m m' : mem) : Prop := prefix (m_upv m) (m_upv m') /\ prefix (m_clo m) (m_clo m').
Definition same (st st' : fstate) : Prop := s_sees st' = s_sees st /\ map shape (s_loc st') = map shape (s_loc st) /\ shape (s_file st') = shape (s_file st).
Lemma grow_refl m : grow m m.
Proof. split; apply prefix_refl. Qed.
Lemma grow_trans a b c : grow a b -> grow b c -> grow a c.
Proof. intros (A & B) (C & D). split; eapply prefix_trans; eassumption. Qed.
Lemma same_refl st : same st st.
Proof. repeat split. Qed.
Lemma same_trans a b c : same a b -> same b c -> same a c.
Proof. intros (A & B & C) (D & E & F). repeat split; congruence. Qed.
Lemma cap_grow F u u' x id : prefix u u' -> cap F u x id -> cap F u' x id.
Proof. intros H (z & A & B). exists z. split; [exact A|eapply prefix_nth; eassumption]. Qed.
Lemma nthZ_prefix {A} (a b : list A) k v : prefix a b -> nthZ a k = Some v -> nthZ b k = Some v.
Proof. unfold nthZ. destruct (k <? 0); [discriminate|]. apply prefix_nth. Qed.
Lemma Forall2_imp {A B} (R Q : A -> B -> Prop) l l' : (forall a b, R a b -> Q a b) -> Forall2 R l l' -> Forall2 Q l l'.
Proof. intros H. induction 1; constructor; auto. Qed.
Lemma captured_grow U F cv m m' : grow m m' -> captured U F cv m -> captured U F cv m'.
Proof.
  intros (A & B) [->|(k & a & ids & C & D & E)]; [left; reflexivity|right]. exists k, a, ids. split; [exact C|]. split; [eapply nthZ_prefix; eassumption|]. eapply Forall2_imp; [|exact E]. intros. eapply cap_grow; eassumption.
Qed.
Lemma oldest_shape n l l' : shape l' = shape l -> shape (oldest n l') = shape (oldest n l).
Proof. intros H. unfold oldest. rewrite !shape_skipn, H, (shape_length _ _ H). reflexivity. Qed.
Lemma here_same E x st st' m m' : here E x st m -> same st st' -> grow m m' -> here E x st' m'.
Proof.
  intros H (S1 & S2 & S3) Gr. destruct E as [ss|U ss F]; cbn [here] in *.
  - destruct H as (A & B & C & D). rewrite S1. repeat (split; [assumption|]). eapply agree_shape; [exact D|]. rewrite !map_app, S2. cbn [map]. rewrite S3. reflexivity.
  - destruct H as (cv & b & n & A & B & C & D & H1 & H2 & H3 & H4). exists cv, b, n. rewrite S1, (shape_length _ _ S3). repeat (split; [assumption|]). split; [eapply agree_shape; eassumption|]. split; [eapply agree1_shape; [exact H2|apply oldest_shape, S3]|]. split; [exact H3|eapply captured_grow; eassumption].
Qed.
Definition hgt (E : senv) (x : cx) (st : fstate) (temps : list value) : Z :=
  scope_len (sc E) + Z.of_nat (length temps) + match E with SFile _ => 0 | SFun _ _ _ => Z.of_nat (length (x_base x)) + Z.of_nat (length (s_file st)) end.
Lemma here_hgt E x st m temps : here E x st m -> Z.of_nat (length (stack x temps st)) = hgt E x st temps.
Proof.
  intros H. unfold stack, hgt. rewrite !app_length, map_length. destruct E as [ss|U ss F]; cbn [here sc] in *.
  - destruct H as (_ & B & _ & D). apply agree_length in D. rewrite vals_snoc, app_length, map_length in D. rewrite B. cbn [length]. lia.
  - destruct H as (cv & b & n & A & B & C & D & H1 & _). apply agree_length in H1. lia.
Qed.
Lemma hgt_same E x st st' temps : same st st' -> hgt E x st' temps = hgt E x st temps.
Proof. intros (_ & _ & H). unfold hgt. rewrite (shape_length _ _ H). reflexivity. Qed.
Lemma oldest_cons n b l : (n <= length l)%nat -> oldest n (b :: l) = oldest n l.
Proof. intros H. unfold oldest. cbn [length]. replace (S (length l) - n)%nat with (S (length l - n)) by lia. reflexivity. Qed.
Lemma oldest_all l : oldest (length l) l = l.
Proof. unfold oldest. rewrite Nat.sub_diag. reflexivity. Qed.
Lemma U_small U F : names_ok U F -> (length U <= 128)%nat.
Proof.
  intros (N & I & L). assert (length U <= length (map fst F))%nat; [|rewrite map_length in *; lia]. apply NoDup_incl_length; [exact N|]. intros x Hx. specialize (I x Hx).
  apply mem_in. rewrite <- assoc_mem. destruct (assoc F x); congruence.
Qed.
