(** * RefCheck: a checker for [fits], used to show that concrete programs meet it. *)
From Verif Require Import Base Refs RefSpec.

Definition is_end (v : rv) : bool := match v with RE => true | _ => false end.
Definition is_unboxed (v : rv) : bool := match v with RP _ => false | _ => true end.
Fixpoint pairs_above (rl : list rv) : bool :=
  match rl with RE :: _ => true | _ :: _ :: r => pairs_above r | _ => false end.
Definition fitsb (s : st) (i : ins) : bool :=
  match i with
  | IPush v => is_unboxed v
  | ILit i | IGload i => (i <? length (cons_ s))%nat
  | IFresh k _ | IUnb k _ | IDecsp k => (k <=? sz s)%nat
  | IPop | IDup | IInitFor | IListClear | ITabClear => (1 <=? sz s)%nat
  | ISwap | IListGet | IListPush | IListConcat | ITabGet | ISetMt => (2 <=? sz s)%nat
  | IListSet | ITabSet => (3 <=? sz s)%nat
  | IShift i | IMoveup i | IDel i | ILoad i => (i <? sz s)%nat
  | IInsert i v => (i <=? sz s)%nat && is_unboxed v
  | IRmRange a b => (a <=? b)%nat && (b <=? sz s)%nat
  | IExit fp len _ _ => (fp + len + 1 <=? sz s)%nat
  | IStore i => (i + 1 <? sz s)%nat
  | IGstore i => (1 <=? sz s)%nat && (i <? length (cons_ s))%nat
  | INewList => existsb is_end (firstn (sz s) (stk s))
  | INewTable => pairs_above (rev (firstn (sz s) (stk s)))
  | IIter | IEndFor => negb (Nat.eqb (length (loops s)) 0)
  | IEndComp => (2 <=? sz s)%nat && negb (Nat.eqb (length (loops s)) 0)
  | _ => false end.
Lemma pairs_above_ok : forall n rl, (length rl <= n)%nat -> pairs_above rl = true -> exists pre pairs, rev rl = pre ++ RE :: flat pairs /\ Forall (fun e => snd e <> RE) pairs.
Proof.
  induction n as [|n IH]; intros rl Hn H; [destruct rl; cbn [length] in Hn; [discriminate|lia]|].
  assert (HC : (exists r, rl = RE :: r) \/ exists v k r, rl = v :: k :: r /\ v <> RE /\ pairs_above r = true).
  { destruct rl as [|v [|k r]]; cbn [pairs_above] in H; [discriminate|destruct v; try discriminate; eauto|].
    destruct v; [right|left|right|right]; eauto 9; do 3 eexists; (split; [reflexivity|]); split; [discriminate|exact H|discriminate|exact H|discriminate|exact H]. }
  destruct HC as [[r ->]|(v & k & r & -> & N & Hr)].
  - exists (rev r), []. split; [reflexivity|constructor].
  - cbn [length] in Hn. destruct (IH r ltac:(lia) Hr) as (pre & ps & E & F). exists pre, (ps ++ [(k, v)]). split.
    + cbn [rev]. rewrite E. unfold flat. rewrite flat_map_app. cbn [flat_map app fst snd]. rewrite <- !app_assoc. cbn [app]. reflexivity.
    + apply Forall_app. split; [exact F|]. constructor; [exact N|constructor].
Qed.
Lemma fitsb_ok s i : fitsb s i = true -> fits s i.
Proof.
  destruct i; cbn [fitsb fits]; unfold room; intros H; try discriminate; try lia.
  - destruct v; cbn in *; auto; discriminate.
  - apply andb_prop in H. destruct H as [A B]. split; [lia|]. destruct v; cbn in *; auto; discriminate.
  - apply existsb_exists in H. destruct H as (x & Hx & Hy). destruct x; try discriminate. exact Hx.
  - destruct (pairs_above_ok _ _ (le_n _) H) as (pre & ps & E & F). rewrite rev_involutive in E. eauto.
  - destruct (loops s); [discriminate|discriminate].
  - destruct (loops s); [discriminate|discriminate].
  - apply andb_prop in H. destruct H as [A B]. split; [lia|]. destruct (loops s); discriminate.
Qed.
Fixpoint fits_allb (s : st) (p : list ins) : bool :=
  match p with [] => true | i :: r => fitsb s i && match step s i with Ok (s1, None) => fits_allb s1 r | _ => true end end.
Lemma fits_allb_ok : forall p s, fits_allb s p = true -> fits_all s p.
Proof.
  induction p as [|i r IH]; intros s H; cbn [fits_all fits_allb] in *; [exact I|]. apply andb_prop in H. destruct H as [A B]. split; [apply fitsb_ok; exact A|].
  intros s1 E. rewrite E in B. apply IH. exact B.
Qed.
