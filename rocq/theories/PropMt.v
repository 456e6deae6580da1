(** * C69: metatables. *)
From Coq Require Import String.
From Verif Require Import Base Bytes Value ValueProofs Table TableSpec TableProofs3 ApiSpec ApiProofs Ops Text VM Names SimBase CallSpec Heap HeapSpec HeapProofs PropHeap Mt.
Local Open Scope list_scope.
Local Open Scope Z_scope.

(** What has a metatable of its own. *)
Definition has_own (v : value) : bool := match v with VUserData _ | VList _ | VTable _ => true | _ => false end.
Definition is_table (v : value) : bool := match v with VTable _ => true | _ => false end.
Definition place (v : value) : option Z := match v with VUserData p | VList p | VTable p => Some p | _ => None end.

(** [mt.set] accepts user data, lists and tables with a table, returns the value; anything else is a type error. *)
Theorem C69_set : forall h v mt,
  if has_own v && is_table mt then exists h', mt_set h v mt = Ok (h', v) else mt_set h v mt = Err EType.
Proof. intros h v mt. destruct v, mt; cbn; eauto. Qed.
(** [mt.get] gives what was set; also when an object is its own metatable. *)
Theorem C69_get_set : forall h v mt h' r, mt_set h v mt = Ok (h', r) -> mt_get h' v = Ok mt.
Proof. intros h v mt h' r E. destruct mt; try discriminate E; destruct v; try discriminate E; injection E as <- <-; unfold mt_get; cbn; unfold at_; rewrite Z.eqb_refl; reflexivity. Qed.
(** Nothing else changes: not the contents of any object, nor the metatable of another. *)
Theorem C69_set_frame : forall h v mt h' r, mt_set h v mt = Ok (h', r) ->
  hp_list h' = hp_list h /\ hp_tab h' = hp_tab h /\ hp_next h' = hp_next h /\ forall u, place u <> place v -> mt_get h' u = mt_get h u.
Proof.
  intros h v mt h' r E. assert (K : exists p m, place v = Some p /\ h' = Hp (hp_list h) (hp_tab h) (at_ (hp_mt h) p (Some m)) (hp_next h)) by (destruct mt; try discriminate E; destruct v; try discriminate E; injection E as <- <-; cbn; eauto).
  destruct K as (p & m & P & ->). repeat split. intros u N. unfold mt_get. destruct u; try reflexivity; cbn in *; unfold at_; (destruct (Z.eqb_spec p0 p) as [->|]; [congruence|reflexivity]).
Qed.
(** Before any setting: a new list or table has the metatable of its type, a table made without one gives undef, and the seven built-in
    types have seven different metatables. *)
Theorem C69_get_new : forall h xs t m,
  (let '(h1, v) := new_list h xs in mt_get h1 v = Ok (VTable MT_LIST)) /\
  (let '(h1, v) := new_tab h t (Some m) in mt_get h1 v = Ok (VTable m)) /\ (let '(h1, v) := new_tab h t None in mt_get h1 v = Ok VUndef).
Proof. intros h xs t m. unfold mt_get. cbn. unfold at_. rewrite Z.eqb_refl. auto. Qed.
Theorem C69_get_type : forall h v w, has_own v = false -> has_own w = false -> forall a b, mt_get h v = Ok a -> mt_get h w = Ok b -> (a = b <-> vtype v = vtype w) /\ a <> VTable MT_LIST /\ a <> VTable MT_TABLE.
Proof. intros h v w O O' a b E E'. destruct v; try discriminate O; try discriminate E; destruct w; try discriminate O'; try discriminate E'; injection E as <-; injection E' as <-; repeat split; intros; try discriminate; reflexivity. Qed.
(** The last setting counts. *)
Theorem C69_set_again : forall h v m1 m2 h1 h2 h3 r1 r2 r3, mt_set h v (VTable m1) = Ok (h1, r1) -> mt_set h1 v (VTable m2) = Ok (h2, r2) -> mt_set h v (VTable m2) = Ok (h3, r3) ->
  forall u, mt_get h2 u = mt_get h3 u.
Proof.
  intros h v m1 m2 h1 h2 h3 r1 r2 r3 E1 E2 E3 u. destruct v; try discriminate E1; injection E1 as <- <-; injection E2 as <- <-; injection E3 as <- <-; unfold mt_get; destruct u; try reflexivity; cbn; unfold at_; destruct (_ =? _); reflexivity.
Qed.

(** Undefined, booleans, numbers and strings share one metatable per type, which a program can get and change: what it stores there is found
    by all values of the type. *)
Theorem C69_shared : forall fuel h v w, enough_fuel fuel -> vtype v = vtype w -> has_own v = false ->
  mt_get h v = mt_get h w /\ (forall m t kv x u, mt_get h v = Ok (VTable m) -> holds t kv -> find (VStr x) kv = Some u -> method fuel (put_tab h m t) w x = Ok (Some u)).
Proof.
  intros fuel h v w F T O. assert (Pw : place w = None) by (destruct v; try discriminate O; destruct w; try discriminate T; reflexivity). assert (M : metatable h v = metatable h w) by (destruct v; try discriminate O; destruct w; try discriminate T; try discriminate Pw; reflexivity).
  assert (M2 : forall m t, metatable (put_tab h m t) w = metatable h w) by (intros; destruct w; reflexivity).
  split; [unfold mt_get; rewrite M; reflexivity|]. intros m t kv x u G H E. unfold mt_get in G. rewrite M in G. unfold method. rewrite M2. destruct (metatable h w) as [[p|]| | |]; try discriminate G. cbn in G. injection G as ->. cbn [bind].
  unfold search, tab_at. cbn [put_tab hp_tab]. unfold at_. rewrite Z.eqb_refl. cbn [bind]. rewrite (holds_search fuel t kv (VStr x) H I F), E. cbn [bind]. rewrite (is_end_good u (holds_val t kv (VStr x) u H I E)). reflexivity.
Qed.

(** ** What is found after [mt.set v mt] *)
Lemma search_kv fuel h m t kv k : enough_fuel fuel -> hp_tab h m = Some t -> holds t kv -> good_key k -> search fuel h m k = Ok (find k kv).
Proof.
  intros F T H G. unfold search, tab_at. rewrite T. cbn [bind]. rewrite (holds_search fuel t kv k H G F). cbn [bind]. destruct (find k kv) as [u|] eqn:E; [|reflexivity]. rewrite (is_end_good u (holds_val _ _ _ _ H G E)). reflexivity.
Qed.
Lemma set_tables h v m h' r : mt_set h v (VTable m) = Ok (h', r) -> hp_tab h' = hp_tab h /\ metatable h' v = Ok (Some m).
Proof. intros E. destruct v; try discriminate E; injection E as <- <-; cbn; unfold at_; rewrite Z.eqb_refl; auto. Qed.
(** Methods and metamethods are those of the metatable and no others; in particular the built-in ones are gone. *)
Theorem C69_method : forall fuel h v m t kv h' r x, enough_fuel fuel -> hp_tab h m = Some t -> holds t kv -> mt_set h v (VTable m) = Ok (h', r) ->
  method fuel h' v x = Ok (find (VStr x) kv).
Proof. intros fuel h v m t kv h' r x F T H E. destruct (set_tables _ _ _ _ _ E) as (E1 & E2). unfold method. rewrite E2. cbn [bind]. apply (search_kv fuel h' m t); try assumption; [rewrite E1; exact T|exact I]. Qed.
(** A metatable of the metatable is not asked. *)
Theorem C69_no_chain : forall fuel h v m m2 h' r x, mt_get h v = Ok (VTable m) -> place v <> Some m -> mt_set h (VTable m) (VTable m2) = Ok (h', r) ->
  method fuel h' v x = method fuel h v x.
Proof.
  intros fuel h v m m2 h' r x G N E. injection E as <- <-. unfold method, search, tab_at. destruct v; try reflexivity; cbn in *; unfold at_; (destruct (Z.eqb_spec p m) as [->|]; [congruence|reflexivity]).
Qed.
(** What [v.k] and [v[k]] find: the entry of the metatable, then the one of the table itself. *)
Definition found (meta own : list (value * value)) (k : value) : option value := match find k meta with Some u => Some u | None => find k own end.
Theorem C69_index : forall fuel w P s h v m t kv own h' r k rest, enough_fuel fuel ->
  hp_tab h m = Some t -> holds t kv -> find (VStr n_get) kv = None ->
  match v with VTable p => exists t', hp_tab h p = Some t' /\ holds t' own | _ => own = [] end ->
  mt_set h v (VTable m) = Ok (h', r) -> good_key k -> next_op P s O_GET -> v_stk s = k :: v :: rest ->
  match found kv own k with
  | Some u => h_step fuel w P s h' = HNext (then_on_top s 1 [u] rest) h'
  | None => exists s', h_step fuel w P s h' = HStop (Err EValue) s' h' /\ v_out s' = v_out s
  end.
Proof.
  intros fuel w P s h v m t kv own h' r k rest F T H NG Own E G N Es. destruct (set_tables _ _ _ _ _ E) as (E1 & E2). destruct (step_op P s _ N) as (A & B). unfold h_step. rewrite A, B. unfold exec_get, set_pc. cbn [v_stk]. rewrite Es, E2. cbn [lifth].
  rewrite <- E1 in T. rewrite (search_kv fuel h' m t kv k F T H G). cbn [lifth]. unfold found. destruct (find k kv) as [u|] eqn:Fk; [reflexivity|].
  rewrite (search_kv fuel h' m t kv (VStr n_get) F T H I), NG. cbn [lifth].
  destruct v; try discriminate E; try (rewrite Own; cbn [ApiSpec.find]; eexists; split; reflexivity).
  destruct Own as (t' & T' & H'). rewrite <- E1 in T'. rewrite (search_kv fuel h' p t' own k F T' H' G). cbn [lifth]. destruct (find k own) as [u|]; [reflexivity|eexists; split; reflexivity].
Qed.

(** ** The hypotheses are met; what the code refutes *)
Definition demo_heap (kv own : list (value * value)) : option (heap * table * table) :=
  match heap_new 200 with
  | Ok h => match table_new with Ok e =>
      let ins := fold_left (fun o (e : value * value) => do t <- o; insert_fast 200 t (fst e) (snd e)) in
      match ins kv (Ok e), ins own (Ok e) with Ok t, Ok t' => Some (put_tab (put_tab h 20 t) 21 t', t, t') | _, _ => None end | _ => None end
  | _ => None
  end.
Definition demo_look (v : value) (k : value) : option (option value) :=
  match demo_heap [(VStr [97], VInt 1)] [(VStr [97], VInt 2); (VStr [98], VInt 3)] with
  | Some (h, _, _) =>
      match mt_set h v (VTable 20) with
      | Ok (h', _) => match h_step 200 no_world (demo [op_byte O_GET] []) (set_stk (set_pc (vm_start (fun _ => None)) 0) [k; v]) h' with HNext s _ => Some (nthZ (v_stk s) 0) | HStop (Err EValue) _ _ => Some None | _ => None end
      | _ => None end
  | None => None
  end.
Example C69_index_demo : demo_look (VTable 21) (VStr [97]) = Some (Some (VInt 1)) /\ demo_look (VTable 21) (VStr [98]) = Some (Some (VInt 3)) /\
  demo_look (VTable 21) (VStr [99]) = Some None /\ demo_look (VList 30) (VInt 0) = Some None /\ demo_look (VList 30) (VStr [97]) = Some (Some (VInt 1)).
Proof. vm_compute. repeat split; reflexivity. Qed.
Example C69_holds_demo : exists t, holds t [(VStr [97], VInt 1)] /\ find (VStr n_get) [(VStr [97], VInt 1)] = None.
Proof. destruct holds_new as (t0 & _ & H0). destruct (holds_insert (Z.to_nat FUEL_BOUND) t0 [] (VStr [97]) (VInt 1) H0 I ltac:(split; discriminate) ltac:(reflexivity) ltac:(lia)) as (t1 & _ & H1). exists t1. split; [exact H1|vm_compute; reflexivity]. Qed.
(** The metatable of a function is an entry of an array that was never written. *)
Theorem C69_function_refuted : forall h n, mt_get h (VFn n) = UB /\ mt_get h (VClosure n) = UB /\ mt_get h (VCfn n) = UB.
Proof. repeat split. Qed.
(** After [mt.set(x, {})] a list can no longer be indexed by a number: a value error. *)
Theorem C69_empty : forall fuel w P s h xs l m t h' r i rest, enough_fuel fuel -> hp_list h l = Some xs -> hp_tab h m = Some t -> holds t [] ->
  mt_set h (VList l) (VTable m) = Ok (h', r) -> next_op P s O_GET -> v_stk s = VInt i :: VList l :: rest -> exists s', h_step fuel w P s h' = HStop (Err EValue) s' h'.
Proof. intros fuel w P s h xs l m t h' r i rest F _ T H E N Es. destruct (C69_index fuel w P s h (VList l) m t [] [] h' r (VInt i) rest F T H eq_refl eq_refl E I N Es) as (s' & A & _). eauto. Qed.

Print Assumptions C69_set.
Print Assumptions C69_get_set.
Print Assumptions C69_set_frame.
Print Assumptions C69_set_again.
Print Assumptions C69_get_new.
Print Assumptions C69_get_type.
Print Assumptions C69_shared.
Print Assumptions C69_method.
Print Assumptions C69_no_chain.
Print Assumptions C69_index.
Print Assumptions C69_function_refuted.
Print Assumptions C69_empty.
