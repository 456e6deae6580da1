(** * C53, C54: text and equality of lists and tables. *)
From Coq Require Import String Permutation.
From Verif Require Import Base Bytes Value ValueProofs Hash Table TableSpec TableProofs TableProofs2 TableProofs3.
From Verif Require Import ApiProofs Ops Text VM SimBase CallSpec CallProofs Names Heap HeapSpec HeapSpec2 HeapProofs HeapProofs2 HeapProofs3 HeapProofs4 HeapProofs6 HeapProofs7 PropHeap.
Local Open Scope list_scope.
Local Open Scope Z_scope.

(** the C library has a text for every float *)
Definition float_texts (w : world) : Prop := forall f, exists t, w_tostr w (VFloat f) = Ok t.
(** the state after echoing [t] *)
Definition echoed (s : vstate) (t rest : list Z) (below : list value) : vstate :=
  VS (v_pc s + 2) below (v_fp s) (v_gl s) (v_out s ++ rest) (v_loops s) (v_frames s) (v_next_fp s) (v_upv s) (v_pending s) (v_clo s).
Lemma step_echo fuel w P s h v rest b : next_op P s O_ECHO -> nthZ (p_code P) (v_pc s + 1) = Some b -> v_stk s = v :: rest ->
  h_step fuel w P s h = match stringify fuel w (room s) (free_frames s) h v with
    | Ok t => HNext (echoed s t (echo_bytes t) rest) h | Err e => HStop (Err e) (set_stk (set_pc s (v_pc s + 2)) rest) h | UB => HStop UB (set_stk (set_pc s (v_pc s + 2)) rest) h | NoFuel => HStop NoFuel (set_stk (set_pc s (v_pc s + 2)) rest) h end.
Proof.
  intros N Eb Es. destruct (step_op P s _ N) as (A & B). unfold h_step. rewrite A, B. unfold step, rd1. cbn [prog_at p_code]. rewrite A, B. unfold VM.exec, rd1. cbn [prog_at p_code p_world world_at w_tostr set_pc v_pc]. rewrite Eb. unfold pop. cbn [set_pc v_stk]. rewrite Es. unfold lift.
  replace (v_pc s + 1 + 1) with (v_pc s + 2) by lia. destruct (stringify fuel w (room s) (free_frames s) h v); try reflexivity.
Qed.
Lemma room_le s n : Z.of_nat (length (v_stk s)) + Z.of_nat n <= 1024 -> (n <= room s)%nat.
Proof. unfold room, sp, STACK_SIZE. lia. Qed.
Lemma frames_le s n : Z.of_nat (length (v_frames s)) + Z.of_nat n <= 1000 -> (n <= free_frames s)%nat.
Proof. unfold free_frames, NUM_FRAMES. lia. Qed.

(** [echo v] prints a text of [v] when [n] nested containers and 3 more values fit on the stack ... *)
Theorem C53_echo : forall fuel w P s h m v rest b n, enough_fuel fuel -> float_texts w -> shows h m -> complete m -> there m v ->
  next_op P s O_ECHO -> nthZ (p_code P) (v_pc s + 1) = Some b -> v_stk s = v :: rest ->
  nested_below m n [] v = true -> Z.of_nat (length (v_stk s)) + Z.of_nat n + 3 <= 1024 -> Z.of_nat (length (v_frames s)) + 2 <= 1000 ->
  exists t, shown w m [] v t /\ h_step fuel w P s h = HNext (echoed s t (echo_bytes t) rest) h.
Proof.
  intros fuel w P s h m v rest b n F W Sh CP Th N Eb Es NB R1 R2. rewrite (step_echo fuel w P s h v rest b N Eb Es).
  destruct (stringify_total fuel F w W h m Sh n (room s) (free_frames s) v CP Th NB) as (t & E & T); [apply room_le; lia|apply frames_le; lia|]. rewrite E. eauto.
Qed.
(** ... which is always so when there are at most [n] objects, however they refer to each other. *)
Theorem C53_nesting : forall m v, complete m -> there m v -> nested_below m (objects m) [] v = true.
Proof. intros m v CP Th. apply nested_objects; [exact CP|exact Th|constructor|intros p []|cbn; lia]. Qed.
(** With less room: the right text, or a stack overflow error; never undefined behaviour. *)
Theorem C53_safe : forall fuel w P s h m v rest b, enough_fuel fuel -> float_texts w -> shows h m -> complete m -> there m v ->
  next_op P s O_ECHO -> nthZ (p_code P) (v_pc s + 1) = Some b -> v_stk s = v :: rest ->
  (exists t, shown w m [] v t /\ h_step fuel w P s h = HNext (echoed s t (echo_bytes t) rest) h) \/
  (exists s', h_step fuel w P s h = HStop (Err EStackOverflow) s' h /\ v_out s' = v_out s).
Proof.
  intros fuel w P s h m v rest b F W Sh CP Th N Eb Es. rewrite (step_echo fuel w P s h v rest b N Eb Es). pose proof (stringify_safe fuel F w W h m Sh (room s) (free_frames s) v CP Th) as T.
  destruct (stringify fuel w (room s) (free_frames s) h v) as [t|e| |]; cbn [text_ok] in T; try contradiction.
  - left. eauto.
  - right. destruct e; try contradiction. eexists. split; reflexivity.
Qed.

(** ** Texts, concretely: [ [1, [true, undef], {'a': [...]}] ] where the last list is the whole. *)
Definition demo_mem : mem := Mem (fun p => if p =? 16 then Some [VInt 1; VList 17; VTable 18] else if p =? 17 then Some [VBool true; VUndef] else None)
  (fun p => if p =? 18 then Some [(VStr [97], VList 16)] else None) 19.
Example C53_complete_demo : complete demo_mem /\ there demo_mem (VList 16) /\ objects demo_mem = 3%nat.
Proof.
  split; [|split; [discriminate|reflexivity]]. constructor.
  - intros p xs. cbn [demo_mem m_list m_next]. destruct (Z.eqb_spec p 16) as [->|]; [intros [= <-]; split; [lia|]; repeat constructor; discriminate|]. destruct (Z.eqb_spec p 17) as [->|]; [intros [= <-]; split; [lia|]; repeat constructor; discriminate|discriminate].
  - intros p kv. cbn [demo_mem m_tab m_next]. destruct (Z.eqb_spec p 18) as [->|]; [intros [= <-]; split; [lia|]; repeat constructor; discriminate|discriminate].
Qed.
Example C53_shown_demo : forall w t, shown w demo_mem [] (VList 16) t -> t = bytes_of "[1, [true, undef], {a: [...]}]".
Proof.
  intros w t Sh.
  assert (AT : forall v u t, prim_tostr v = Some u -> atom_text w v t -> t = u).
  { intros v u t0 E [E'|(f & -> & _)]; [congruence|discriminate E]. }
  inversion Sh as [? ? ? A|? ? HI| |? p xs ts NI E F2|]; subst; [destruct A as [A|(f & A & _)]; discriminate A|destruct HI|]. cbn in E. injection E as <-.
  inversion F2 as [|? t1 ? ts1 S1 F3]; subst. inversion F3 as [|? t2 ? ts2 S2 F4]; subst. inversion F4 as [|? t3 ? ts3 S3 F5]; subst. inversion F5; subst. clear F2 F3 F4 F5.
  assert (E1 : t1 = [49]) by (inversion S1 as [? ? ? A| | | |]; subst; eapply AT; [|exact A]; reflexivity). subst t1. clear S1.
  assert (E2 : t2 = bytes_of "[true, undef]").
  { inversion S2 as [? ? ? A|? ? HI| |? p xs ts N2 E F2|]; subst; [destruct A as [A|(f & A & _)]; discriminate A|destruct HI as [HI|[]]; discriminate HI|]. cbn in E. injection E as <-.
    inversion F2 as [|? u1 ? us1 U1 F3]; subst. inversion F3 as [|? u2 ? us2 U2 F4]; subst. inversion F4; subst.
    assert (Q1 : u1 = [116; 114; 117; 101]) by (inversion U1 as [? ? ? A| | | |]; subst; eapply AT; [|exact A]; reflexivity). assert (Q2 : u2 = [117; 110; 100; 101; 102]) by (inversion U2 as [? ? ? A| | | |]; subst; eapply AT; [|exact A]; reflexivity). subst. reflexivity. }
  assert (E3 : t3 = bytes_of "{a: [...]}").
  { inversion S3 as [? ? ? A| |? ? HI| |? p kv kv' ts N2 E PM F2]; subst; [destruct A as [A|(f & A & _)]; discriminate A|destruct HI as [HI|[]]; discriminate HI|]. cbn in E. injection E as <-. apply Permutation_length_1_inv in PM. subst kv'.
    inversion F2 as [|? u1 ? us1 U1 F3]; subst. inversion F3; subst. inversion U1 as [? ? ? tk tv A V]; subst. eapply AT in A; [|reflexivity]. subst tk.
    inversion V as [? ? ? A|? ? HI| |? p xs ts N3 E F4|]; subst; [destruct A as [A|(f & A & _)]; discriminate A|reflexivity|]. destruct N3. right. left. reflexivity. }
  subst t2 t3. reflexivity.
Qed.
(** The machine, on a list in itself: [l = [7]; l->push(l); echo l]. *)
Definition demo_out (code : list Z) (consts : list value) (n : nat) : option (list Z) :=
  match heap_new 200 with
  | Ok h => match h_run 200 no_world (demo code consts) n (vm_start (fun _ => None)) h with HNext s _ => Some (v_out s) | _ => None end
  | _ => None
  end.
Example C53_machine_demo :
  demo_out [176; 154; 0; 157; 184; 231; 1; 1; 0; 0; 0; 0; 0; 0; 0; 184; 233; 255; 0] [VInt 7; VStr m_push] 8 = Some (bytes_of "[7, [...]]" ++ [10]).
Proof. vm_compute. reflexivity. Qed.
(** What the code refutes: after [t = {}; t->remove(1)] the text of [t] is undefined behaviour (the count of entries is -1). *)
Definition m_remove : list Z := Eval compute in bytes_of "remove".
Theorem C53_removed_refuted : demo_stop [176; 156; 184; 231; 1; 1; 0; 0; 0; 0; 0; 0; 0; 154; 0; 233; 191; 255; 0] [VInt 1; VStr m_remove] 8 = Some UB.
Proof. vm_compute. reflexivity. Qed.

(** ** Equality: [a == b] compares contents to any depth for which there is room: three values and one frame per level. *)
Theorem C54_equal : forall fuel w P s h m a b rest n r, enough_fuel fuel -> shows h m -> next_op P s (O_BIN BEq) -> v_stk s = b :: a :: rest ->
  equals m n a b = Some r -> Z.of_nat (length (v_stk s)) + 3 * Z.of_nat n <= 1024 -> Z.of_nat (length (v_frames s)) + Z.of_nat n <= 1000 ->
  h_step fuel w P s h = HNext (then_on_top s 1 [VBool r] rest) h.
Proof.
  intros fuel w P s h m a b rest n r F Sh N Es E R1 R2. destruct (step_op P s _ N) as (A & B). unfold h_step. rewrite A, B. cbn [op_name].
  assert (EQ : exec_binop (world_at fuel w s h) BEq a b = Ok (VBool r)).
  { pose proof (heap_eq_ok fuel F h m Sh n a b r E (room s) (free_frames s) ltac:(apply room_le; lia) ltac:(apply frames_le; lia)) as HE.
    cbn [exec_binop]. unfold vm_eq. cbn [world_at w_meta2]. destruct a, b; try (rewrite HE; reflexivity); destruct (room s); cbn [heap_eq] in HE; injection HE as <-; reflexivity. }
  cbn [set_pc v_stk]. unfold step, rd1. cbn [prog_at p_code]. rewrite A, B. unfold VM.exec. cbn [prog_at p_world]. unfold pop. cbn [set_pc v_stk]. rewrite Es. cbn [set_stk v_stk]. rewrite EQ. cbn [lift]. rewrite push_ok; [reflexivity|]. cbn [set_stk v_stk]. rewrite Es in R1. cbn [length] in R1. lia.
Qed.
(** more depth never changes the answer *)
Theorem C54_depth : forall m n k a b r, equals m n a b = Some r -> (n <= k)%nat -> equals m k a b = Some r.
Proof.
  assert (AL : forall {A} (f g : A -> option bool) l r, (forall x b, f x = Some b -> g x = Some b) -> all_of (map f l) = Some r -> all_of (map g l) = Some r).
  { intros A f g l. induction l as [|x l IH]; intros r G E; cbn [map all_of] in *; [exact E|]. destruct (f x) as [b|] eqn:Ex; [|discriminate E]. rewrite (G _ _ Ex). destruct (all_of (map f l)) as [c|]; [|discriminate E]. rewrite (IH c G eq_refl). exact E. }
  intros m n. induction n as [|n IH]; intros k a b r E L.
  - destruct a, b; cbn [equals] in E; try discriminate E; destruct k; exact E.
  - destruct k as [|k]; [lia|]. assert (G : forall x y c, equals m n x y = Some c -> equals m k x y = Some c) by (intros x y c Hc; apply IH; [exact Hc|lia]).
    destruct a, b; cbn [equals] in *; try exact E.
    + destruct (m_list m p) as [xs|]; [|discriminate E]. destruct (m_list m p0) as [ys|]; [|discriminate E]. destruct (length xs =? length ys)%nat; [|exact E]. revert E. apply AL. intros (x, y) c. apply G.
    + destruct (m_tab m p) as [xs|]; [|discriminate E]. destruct (m_tab m p0) as [ys|]; [|discriminate E]. destruct (length xs =? length ys)%nat; [|exact E]. revert E. apply AL. intros (x, y) c. cbn [fst snd]. destruct (at_key ys x); [apply G|auto].
Qed.
Example C54_demo : equals (Mem (fun p => if p <? 20 then Some [VInt 1; VTable (p + 10)] else None) (fun p => Some [(VStr [97], VFloat (f_of_int 2)); (VBool true, VInt p)]) 40) 2 (VList 16) (VList 17) = Some false /\
  equals (Mem (fun p => if p <? 20 then Some [VInt 1; VTable (p + 10)] else None) (fun p => if p =? 26 then Some [(VStr [97], VInt 2); (VBool true, VUndef)] else Some [(VBool true, VUndef); (VStr [97], VFloat (f_of_int 2))]) 40) 2 (VList 16) (VList 17) = Some true.
Proof. split; vm_compute; reflexivity. Qed.
(** What the code refutes: a list that contains itself is not equal to itself; comparing it is a stack overflow. *)
Theorem C54_cyclic_refuted : forall fuel w P s h m p rest, enough_fuel fuel -> shows h m -> m_list m p = Some [VList p] -> next_op P s (O_BIN BEq) -> v_stk s = VList p :: VList p :: rest ->
  exists s', h_step fuel w P s h = HStop (Err EStackOverflow) s' h.
Proof.
  intros fuel w P s h m p rest F Sh E N Es. destruct (step_op P s _ N) as (A & B). unfold h_step. rewrite A, B. cbn [op_name set_pc v_stk].
  unfold step, rd1. cbn [prog_at p_code]. rewrite A, B. unfold VM.exec. cbn [prog_at p_world]. unfold pop. cbn [set_pc v_stk]. rewrite Es. cbn [set_stk v_stk exec_binop vm_eq world_at w_meta2]. rewrite Z.eqb_refl, (heap_eq_cyclic fuel F h m p Sh E). cbn [omap lift with_heap]. eauto.
Qed.

Print Assumptions C53_echo.
Print Assumptions C53_nesting.
Print Assumptions C53_safe.
Print Assumptions C53_removed_refuted.
Print Assumptions C54_equal.
Print Assumptions C54_depth.
Print Assumptions C54_cyclic_refuted.
