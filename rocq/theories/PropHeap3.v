(** * C52, continued: the other operators, and iteration. *)
From Coq Require Import String Permutation.
From Verif Require Import Base Bytes Value ValueProofs Hash Table TableSpec ListFacts TableProofs TableProofs2 TableProofs3.
From Verif Require Import ApiProofs Ops Text VM SimBase CallSpec CallProofs Names Heap HeapSpec HeapSpec2 HeapProofs HeapProofs2 HeapProofs3 HeapProofs4 HeapProofs5 HeapProofs8 PropHeap PropHeap2.
Local Open Scope list_scope.
Local Open Scope Z_scope.

Lemma step_plain fuel w P s h o : next_op P s o -> (match o with O_NEWLIST | O_NEWTABLE | O_GET | O_SET | O_INIT_MC | O_CALL | O_UN ULen | O_ITER_1 => False | O_BIN o => op_name o = None | _ => True end) ->
  h_step fuel w P s h = with_heap h (VM.exec (prog_at fuel w P s h) o (set_pc s (v_pc s + 1))).
Proof.
  intros N G. destruct (step_op P s _ N) as (A & B). unfold h_step. rewrite A, B. unfold step, rd1. cbn [prog_at p_code]. rewrite A, B.
  destruct o as [| | | | | | |bo|uo| | | | | | | | | | | | | | | | | | | | | | | | | | | | | | | | | | | | |]; try reflexivity; try contradiction.
  - rewrite G. reflexivity.
  - destruct uo; try reflexivity; contradiction.
Qed.
Lemma exec_bin P o s a b rest : v_stk s = b :: a :: rest -> Z.of_nat (length (v_stk s)) <= 1024 ->
  VM.exec P (O_BIN o) s = match exec_binop (p_world P) o a b with Ok v => Next (set_stk s (v :: rest)) | Err e => Stop (Err e) (set_stk s rest) | UB => Stop UB (set_stk s rest) | NoFuel => Stop NoFuel (set_stk s rest) end.
Proof.
  intros Es L. unfold VM.exec, pop. rewrite Es. cbn [set_stk v_stk]. destruct (exec_binop (p_world P) o a b) as [v|e| |]; cbn [lift]; try reflexivity.
  rewrite push_ok; [reflexivity|]. cbn [set_stk v_stk]. rewrite Es in L. cbn [length] in L. lia.
Qed.
Lemma does_plain fuel w P s h m o a b rest : shows h m -> next_op P s (O_BIN o) -> (op_name o = None \/ is_container a = false) -> v_stk s = b :: a :: rest -> Z.of_nat (length (v_stk s)) <= 1024 ->
  does_in None h (h_step fuel w P s h) s rest (value_of m (said_of (exec_binop (world_at fuel w s h) o a b))).
Proof.
  intros Sh N Q Es L. destruct (step_op P s _ N) as (A & B).
  assert (E : h_step fuel w P s h = with_heap h (VM.exec (prog_at fuel w P s h) (O_BIN o) (set_pc s (v_pc s + 1)))).
  { destruct Q as [Q|Q]; [apply step_plain; [exact N|exact Q]|]. unfold h_step. rewrite A, B. unfold step, rd1. cbn [prog_at p_code]. rewrite A, B. cbn [set_pc v_stk]. rewrite Es, Q. destruct (op_name o); reflexivity. }
  rewrite E, (exec_bin _ o (set_pc s (v_pc s + 1)) a b rest Es L). cbn [prog_at p_world].
  destruct (exec_binop (world_at fuel w s h) o a b) as [v|e| |]; cbn [said_of value_of does_in with_heap]; try exact I.
  - exists h. split; [reflexivity|apply became_same, Sh].
  - eexists _, h. split; reflexivity.
Qed.

(** [a o b] other than ==, ~ (C53, C54), list + and table |: what the operators do for numbers and strings (C12, C14, C15), and
    with any other left operand a type error: no built-in type has a method for them. *)
Lemma operator_in : forall fuel w P s h m o a b rest, enough_fuel fuel -> shows h m -> there m a -> plain_op o a = true -> next_op P s (O_BIN o) -> v_stk s = b :: a :: rest -> fits s 1 ->
  does_in None h (h_step fuel w P s h) s rest (value_of m (said_of (exec_binop (strict w) o a b))).
Proof.
  intros fuel w P s h m o a b rest F Sh T Po N Es (R1 & R2).
  destruct (is_container a) eqn:C; [destruct (op_name o) as [x|] eqn:On|].
  - destruct (step_op P s _ N) as (A & B). unfold h_step. rewrite A, B, On. cbn [set_pc v_stk]. rewrite Es, C.
    destruct (there_meta h m a Sh T) as (mt & ns & HI & Em & Q).
    assert (L : lacks ns x = true /\ exec_binop (strict w) o a b = Err EType).
    { destruct a; try discriminate C; destruct Q as (-> & ->); destruct o; try discriminate On; try discriminate Po; injection On as <-; (split; [vm_compute; reflexivity|reflexivity]). }
    destruct L as (L & ->). rewrite (operator_none fuel F w P (set_pc s (v_pc s + 1)) h a mt ns x 2 1 (sh_meta _ _ Sh) HI Em (lacks_none ns x _ L)); [|unfold roomy; cbn [set_pc v_stk v_frames]; lia].
    cbn [said_of value_of does_in]. eexists _, _. split; reflexivity.
  - rewrite <- (plain_binop fuel F w h m a b o s Sh T Po); [|apply room_le; lia]. apply does_plain; auto. lia.
  - rewrite <- (plain_binop fuel F w h m a b o s Sh T Po); [|apply room_le; lia]. apply does_plain; auto. lia.
Qed.
Theorem C52_operator : forall fuel w P s h m o a b rest, enough_fuel fuel -> shows h m -> there m a -> plain_op o a = true -> next_op P s (O_BIN o) -> v_stk s = b :: a :: rest -> fits s 1 ->
  does (h_step fuel w P s h) s rest (value_of m (said_of (exec_binop (strict w) o a b))).
Proof. intros. eapply does_forget, operator_in; eassumption. Qed.
(** so a container on the left is a type error, except in identity, and except that dividing anything by the int 0 is a division by zero *)
Theorem C52_type_error : forall w o a b, is_container a = true -> plain_op o a = true -> o <> BId ->
  exec_binop (strict w) o a b = Err (match o, b with BIdiv, VInt 0 | BMod, VInt 0 => EDivZero | _, _ => EType end).
Proof.
  intros w o a b C Po N. destruct a; try discriminate C; destruct o; try discriminate Po; try congruence; try reflexivity; destruct b as [| | |i| | | | | | | | |]; try reflexivity; destruct i; reflexivity.
Qed.
Lemma unary_in : forall fuel w P s h m o a rest, enough_fuel fuel -> shows h m -> there m a -> o <> ULen -> next_op P s (O_UN o) -> v_stk s = a :: rest -> fits s 1 ->
  does_in None h (h_step fuel w P s h) s rest (value_of m (said_of (exec_unop (strict w) o a))).
Proof.
  intros fuel w P s h m o a rest F Sh T Po N Es (R1 & R2). rewrite (step_plain fuel w P s h _ N); [|destruct o; auto; congruence].
  unfold VM.exec, pop. cbn [set_pc v_stk]. rewrite Es. cbn [prog_at p_world]. rewrite (plain_unop fuel F w h m a o s Sh T Po); [|apply room_le; lia].
  destruct (exec_unop (strict w) o a) as [v|e| |]; cbn [lift said_of value_of does_in with_heap]; try exact I.
  - rewrite push_ok; [|cbn [set_stk v_stk]; rewrite Es in R1; cbn [length] in R1; lia]. exists h. split; [reflexivity|apply became_same, Sh].
  - eexists _, h. split; reflexivity.
Qed.
Theorem C52_unary : forall fuel w P s h m o a rest, enough_fuel fuel -> shows h m -> there m a -> o <> ULen -> next_op P s (O_UN o) -> v_stk s = a :: rest -> fits s 1 ->
  does (h_step fuel w P s h) s rest (value_of m (said_of (exec_unop (strict w) o a))).
Proof. intros. eapply does_forget, unary_in; eassumption. Qed.

(** ** Iteration. *)
(** the state after asking for the next element: [Some v]: the element and true, and the loop is at [it]; [None]: false *)
Definition next_is (s : vstate) (r : option (value * (value * Z))) (rest : list (value * Z)) : vstate :=
  match r with
  | Some (v, it) => VS (v_pc s + 1) (VBool true :: v :: v_stk s) (v_fp s) (v_gl s) (v_out s) (it :: rest) (v_frames s) (v_next_fp s) (v_upv s) (v_pending s) (v_clo s)
  | None => VS (v_pc s + 1) (VBool false :: v_stk s) (v_fp s) (v_gl s) (v_out s) (v_loops s) (v_frames s) (v_next_fp s) (v_upv s) (v_pending s) (v_clo s)
  end.
(** A loop over a list is at a position of the list, and sees the list as it is now. *)
Theorem C52_iterate_list : forall fuel w P s h m p i xs rest, shows h m -> m_list m p = Some xs -> next_op P s O_ITER_1 -> v_loops s = (VList p, i) :: rest -> 0 <= i -> fits s 2 ->
  h_step fuel w P s h = HNext (next_is s (match nth_error xs (Z.to_nat i) with Some v => Some (v, (VList p, i + 1)) | None => None end) rest) h.
Proof.
  intros fuel w P s h m p i xs rest Sh E N El Hi (R1 & R2). destruct (step_op P s _ N) as (A & B). destruct (sh_list _ _ Sh _ _ E) as (E1 & _).
  unfold h_step. rewrite A, B. cbn [set_pc v_loops]. rewrite El. unfold step, rd1. cbn [prog_at p_code]. rewrite A, B. unfold VM.exec, exec_iter. cbn [set_pc v_loops]. rewrite El. cbn [elements prog_at p_list]. rewrite E1.
  unfold nthZ. destruct (Z.ltb_spec i 0); [lia|]. destruct (nth_error xs (Z.to_nat i)) as [v|].
  - rewrite push_ok; [|cbn [set_loops set_pc v_stk]; lia]. rewrite push_ok; [|cbn [set_stk set_loops set_pc v_stk length]; lia]. reflexivity.
  - rewrite push_ok; [|cbn [set_pc v_stk]; lia]. reflexivity.
Qed.
(** A loop over a table that does not change visits every key once, in some order; [pos j] is where the loop is after [j] keys. *)
Lemma iterate_table_in : forall fuel w h m p kv, shows h m -> m_tab m p = Some kv ->
  exists keys pos, Permutation keys (map fst kv) /\ pos O = 0 /\
    forall P s h' j rest, hp_tab h' p = hp_tab h p -> next_op P s O_ITER_1 -> v_loops s = (VTable p, pos j) :: rest -> (j <= List.length keys)%nat -> fits s 2 ->
      h_step fuel w P s h' = HNext (next_is s (match nth_error keys j with Some k => Some (k, (VTable p, pos (S j))) | None => None end) rest) h'.
Proof.
  intros fuel w h m p kv Sh E. destruct (sh_tab _ _ Sh _ _ E) as (_ & _ & t & E1 & Ht).
  set (pos := fix pos (j : nat) : Z := match j with O => 0 | S j => match iter_table t (pos j) with Some (_, i) => i | None => pos j end end).
  assert (PP : forall j, (j <= List.length (keys_from t 0))%nat -> 0 <= pos j /\ keys_from t (pos j) = skipn j (keys_from t 0)).
  { induction j as [|j IH]; intros L; [split; [cbn; lia|reflexivity]|]. destruct IH as (I1 & I2); [lia|].
    assert (NX := keys_from_next t (pos j) I1). cbn [pos]. fold pos. destruct (iter_table t (pos j)) as [[k i]|].
    - destruct NX as (N1 & N2). split; [exact N1|]. rewrite I2 in N2. replace (S j) with (1 + j)%nat by lia. rewrite <- (skipn_skipn 1 j). rewrite N2. reflexivity.
    - rewrite I2 in NX. apply (f_equal (@List.length value)) in NX. rewrite skipn_length in NX. cbn [List.length] in NX. lia. }
  exists (keys_from t 0), pos. split; [apply keys_from_start, Ht|]. split; [reflexivity|].
  intros P s h' j rest EH N El L (R1 & R2). rewrite <- EH in E1. destruct (step_op P s _ N) as (A & B). destruct (PP j L) as (I1 & I2). assert (NX := keys_from_next t (pos j) I1).
  unfold h_step. rewrite A, B. cbn [set_pc v_loops]. rewrite El. unfold iter_tab, tab_at. rewrite E1. cbn [lifth].
  assert (NE : nth_error (keys_from t 0) j = match keys_from t (pos j) with [] => None | k :: _ => Some k end).
  { rewrite I2. clear. generalize (keys_from t 0) as l. induction j as [|j IH]; intros l; destruct l as [|a l]; try reflexivity. cbn [nth_error skipn]. apply IH. }
  rewrite NE. change (pos (S j)) with (match iter_table t (pos j) with Some (_, i) => i | None => pos j end). destruct (iter_table t (pos j)) as [[k i]|].
  - destruct NX as (N1 & N2). rewrite N2. rewrite push_ok; [|cbn [set_loops set_pc v_stk]; lia]. cbn [then_]. rewrite push_ok; [|cbn [set_stk set_loops set_pc v_stk List.length]; lia]. reflexivity.
  - rewrite NX. rewrite push_ok; [|cbn [set_pc v_stk]; lia]. reflexivity.
Qed.
Theorem C52_iterate_table : forall fuel w h m p kv, shows h m -> m_tab m p = Some kv ->
  exists keys pos, Permutation keys (map fst kv) /\ pos O = 0 /\
    forall P s j rest, next_op P s O_ITER_1 -> v_loops s = (VTable p, pos j) :: rest -> (j <= List.length keys)%nat -> fits s 2 ->
      h_step fuel w P s h = HNext (next_is s (match nth_error keys j with Some k => Some (k, (VTable p, pos (S j))) | None => None end) rest) h.
Proof.
  intros fuel w h m p kv Sh E. destruct (iterate_table_in fuel w h m p kv Sh E) as (keys & pos & A & B & C). exists keys, pos. split; [exact A|]. split; [exact B|]. intros P s j rest. apply C. reflexivity.
Qed.
(** Only strings, lists and tables can be iterated over. *)
Theorem C52_not_iterable : forall fuel w P s h v i rest, next_op P s O_ITER_1 -> v_loops s = (v, i) :: rest -> (match v with VStr _ | VList _ | VTable _ => false | _ => true end) = true ->
  exists s', h_step fuel w P s h = HStop (Err EType) s' h /\ v_out s' = v_out s.
Proof.
  intros fuel w P s h v i rest N El V. destruct (step_op P s _ N) as (A & B). unfold h_step. rewrite A, B. cbn [set_pc v_loops]. rewrite El.
  unfold step, rd1. cbn [prog_at p_code]. rewrite A, B. unfold VM.exec, exec_iter. cbn [set_pc v_loops]. rewrite El. destruct v; try discriminate V; cbn [elements with_heap]; eexists; split; reflexivity.
Qed.
(** The machine: [for x <- [7, 8] { }] sees 7 then 8 then the end; [{} + 1] is a type error, [ [] // 0 ] a division by zero. *)
Example C52_iterate_demo : demo_run [176; 154; 0; 154; 1; 157; 208; 211; 211; 211] [VInt 7; VInt 8] 8 = Some [VBool false; VBool true; VInt 8; VBool true; VInt 7].
Proof. vm_compute. reflexivity. Qed.
Example C52_iterate_table_demo : demo_run [176; 154; 0; 154; 1; 156; 208; 211; 211] [VStr [97]; VInt 8] 7 = Some [VBool false; VBool true; VStr [97]].
Proof. vm_compute. reflexivity. Qed.
Example C52_operator_demo : demo_stop [176; 156; 154; 0; 96] [VInt 1] 4 = Some (Err EType) /\ demo_stop [176; 157; 154; 0; 101] [VInt 0] 4 = Some (Err EDivZero).
Proof. split; vm_compute; reflexivity. Qed.

Print Assumptions C52_operator.
Print Assumptions C52_type_error.
Print Assumptions C52_unary.
Print Assumptions C52_iterate_list.
Print Assumptions C52_iterate_table.
Print Assumptions C52_not_iterable.
