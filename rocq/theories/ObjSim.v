(** The machine with its heap follows the meaning of programs with lists and tables: instructions (proofs only). *)
From Coq Require Import Permutation.
From Verif Require Import Base Bytes BytesProofs Value Table Ops Text Ast Stmt Limits Constants VM Compiler ValueProofs TableSpec ConstSpec ConstProofs Gen GenProofs GenProofs2 SimBase CallSpec CallProofs Heap HeapSpec HeapSpec2 HeapProofs HeapProofs2 PropHeap PropHeap2 PropHeap3 Obj ObjCompiler ObjGen ObjGen2 ObjFacts.
Local Open Scope list_scope.
Local Open Scope Z_scope.

Definition cfg : Type := (vstate * heap)%type.
Section Sim.
Variable fuel : nat.
Variable P : prog.
Variable h : host.
Variable G : scope.
Variables (fp : Z) (below : list value) (upvs : list upv) (pend : list nat) (clo : list closure).
Notation K := (p_consts P).
Notation w := (h_world h).
Hypothesis HF : enough_fuel fuel.
Hypothesis Hfp : Z.of_nat (length below) = fp + 1.
Hypothesis HG : forall x, h_decl h x = option_map is_const (assoc G x).
Hypothesis HGK : gl_in G K.
Hypothesis HKlen : len (p_code P) <= int_max /\ Z.of_nat (length K) <= int_max.
Notation code_at := (SimBase.code_at P).

(** ** Running. *)
Definition runc (n : nat) (c : cfg) : hres := h_run fuel w P n (fst c) (snd c).
Lemma runc_app n : forall m c, runc (n + m) c = match runc n c with HNext s' h' => runc m (s', h') | r => r end.
Proof. unfold runc. induction n; intros m (s, hp); [reflexivity|]. cbn [Nat.add h_run fst snd]. destruct (h_step fuel w P s hp) as [s1 hp1|o s1 hp1|]; [apply (IHn m (s1, hp1))|reflexivity|reflexivity]. Qed.
Definition goes (k : nat) (c c' : cfg) : Prop := exists n, (k <= n)%nat /\ runc n c = HNext (fst c') (snd c').
Definition halts (c : cfg) (o : outcome unit) (out : list Z) : Prop := exists n s' h', runc n c = HStop o s' h' /\ v_out s' = out.
Definition runs_on (c : cfg) (k : nat) : Prop := exists n s' h', (k <= n)%nat /\ runc n c = HNext s' h'.
Lemma goes_refl c : goes 0 c c.
Proof. exists O. split; [lia|reflexivity]. Qed.
Lemma goes_trans i j c1 c2 c3 : goes i c1 c2 -> goes j c2 c3 -> goes (i + j) c1 c3.
Proof. intros (n & L & E) (m & L2 & E2). exists (n + m)%nat. split; [lia|]. rewrite runc_app, E. destruct c2. exact E2. Qed.
Lemma goes_le i j c c' : goes i c c' -> (j <= i)%nat -> goes j c c'.
Proof. intros (n & L & E) Q. exists n. split; [lia|exact E]. Qed.
Lemma goes_then i j c1 c2 c3 : goes i c1 c2 -> goes j c2 c3 -> goes 0 c1 c3.
Proof. intros A B. eapply goes_le; [eapply goes_trans; eassumption|lia]. Qed.
Lemma goes_halts i c1 c2 o out : goes i c1 c2 -> halts c2 o out -> halts c1 o out.
Proof. intros (n & L & E) (m & s' & h' & E2 & Q). exists (n + m)%nat, s', h'. split; [rewrite runc_app, E; destruct c2; exact E2|exact Q]. Qed.
Lemma goes_runs i k c1 c2 : goes i c1 c2 -> runs_on c2 k -> runs_on c1 (i + k).
Proof. intros (n & L & E) (m & s' & h' & L2 & E2). exists (n + m)%nat, s', h'. split; [lia|]. rewrite runc_app, E. destruct c2. exact E2. Qed.
Lemma runs_le c i j : runs_on c i -> (j <= i)%nat -> runs_on c j.
Proof. intros (n & s' & h' & L & E) Q. exists n, s', h'. split; [lia|exact E]. Qed.
Lemma goes_step s hp s' hp' : h_step fuel w P s hp = HNext s' hp' -> goes 1 (s, hp) (s', hp').
Proof. intros E. exists 1%nat. split; [lia|]. unfold runc. cbn [fst snd h_run]. rewrite E. reflexivity. Qed.
Lemma halts_step s hp o s' hp' out : h_step fuel w P s hp = HStop o s' hp' -> v_out s' = out -> halts (s, hp) o out.
Proof. intros E Q. exists 1%nat, s', hp'. unfold runc. cbn [fst snd h_run]. rewrite E. auto. Qed.

(** ** Following a meaning with several allowed results. *)
Definition sim {S A : Type} (k : nat) (outf : S -> list Z) (c : cfg) (X : may S A) (Q : A -> S -> cfg -> Prop) : Prop :=
  exists x, X x /\ match x with
                   | Done a s => exists c', goes 0 c c' /\ Q a s c'
                   | Stop e s => halts c (Err e) (outf s)
                   | Fuel => runs_on c k
                   | Stuck => False
                   | Open => True
                   end.
Lemma sim_next {S A S' B} k (o1 : S -> list Z) (o2 : S' -> list Z) c (X : may S A) (up : S -> S') (f : A -> S -> may S' B) Q1 Q :
  sim k o1 c X Q1 -> (forall s, o2 (up s) = o1 s) -> (forall a s c', Q1 a s c' -> sim k o2 c' (f a s) Q) -> sim k o2 c (next X up f) Q.
Proof.
  intros (x & Hx & R) EO F. destruct x as [a s|e s| | |].
  - destruct R as (c' & Go & Q1c). destruct (F _ _ _ Q1c) as (y & Hy & R). exists y. split; [exists (Done a s); split; [exact Hx|exact Hy]|]. destruct y as [b s'|e s'| | |]; auto.
    + destruct R as (c2 & G2 & Q2). exists c2. split; [eapply goes_then; eassumption|exact Q2].
    + eapply goes_halts; eassumption.
    + eapply runs_le; [eapply goes_runs; eassumption|lia].
  - exists (Stop e (up s)). split; [exists (Stop e s); auto|]. rewrite EO. exact R.
  - exists Fuel. split; [exists Fuel; auto|exact R].
  - destruct R.
  - exists Open. split; [exists Open; auto|exact I].
Qed.
Lemma sim_bind {S A B} k (o : S -> list Z) c (X : may S A) (f : A -> S -> may S B) Q1 Q :
  sim k o c X Q1 -> (forall a s c', Q1 a s c' -> sim k o c' (f a s) Q) -> sim k o c (bindr X f) Q.
Proof. intros A1 F. eapply sim_next; [exact A1|reflexivity|exact F]. Qed.
Lemma sim_pre {S A} i k (o : S -> list Z) c c1 (X : may S A) Q : goes i c c1 -> sim k o c1 X Q -> sim (i + k) o c X Q.
Proof.
  intros Go (x & Hx & R). exists x. split; [exact Hx|]. destruct x as [a s|e s| | |]; auto.
  - destruct R as (c' & G2 & Q1). exists c'. split; [eapply goes_then; eassumption|exact Q1].
  - eapply goes_halts; eassumption.
  - eapply goes_runs; eassumption.
Qed.
Lemma sim_weak {S A} i k (o : S -> list Z) c (X : may S A) Q : sim k o c X Q -> (i <= k)%nat -> sim i o c X Q.
Proof. intros (x & Hx & R) L. exists x. split; [exact Hx|]. destruct x as [a s|e s| | |]; auto. eapply runs_le; eassumption. Qed.
Lemma sim_go {S A} i k (o : S -> list Z) c c1 (X : may S A) Q : goes i c c1 -> sim k o c1 X Q -> sim k o c X Q.
Proof. intros Go R. eapply sim_weak; [eapply sim_pre; eassumption|lia]. Qed.
Lemma sim_conseq {S A} k (o : S -> list Z) c (X : may S A) (Q Q' : A -> S -> cfg -> Prop) : sim k o c X Q -> (forall a s c', Q a s c' -> Q' a s c') -> sim k o c X Q'.
Proof. intros (x & Hx & R) L. exists x. split; [exact Hx|]. destruct x as [a s|e s| | |]; auto. destruct R as (c' & Go & Q1). eauto. Qed.
Lemma sim_done {S A} k (o : S -> list Z) c (a : A) s (Q : A -> S -> cfg -> Prop) : Q a s c -> sim k o c (only (Done a s)) Q.
Proof. intros Q1. exists (Done a s). split; [reflexivity|]. exists c. split; [apply goes_refl|exact Q1]. Qed.
Lemma sim_stop {S A} k (o : S -> list Z) c e s (Q : A -> S -> cfg -> Prop) : halts c (Err e) (o s) -> sim k o c (only (Stop e s)) Q.
Proof. intros Q1. exists (Stop e s). split; [reflexivity|exact Q1]. Qed.
Lemma sim_open {S A} k (o : S -> list Z) c (Q : A -> S -> cfg -> Prop) : sim k o c (only Open) Q.
Proof. exists Open. split; [reflexivity|exact I]. Qed.
(** nothing is said after the first part *)

(** ** States. *)
Definition mk (pc : Z) (stk : list value) (gl : list Z -> option value) (out : list Z) (lps : list (value * Z)) (fr : list frame * Z) : vstate :=
  VS pc stk fp gl out lps (fst fr) (snd fr) upvs pend clo.
(** The machine at [pc] with the variables of [st] and [temps] above them. *)
Definition atp (pc : Z) (temps : list value) (st : env) (lps : list (value * Z)) (fr : list frame * Z) : vstate :=
  mk pc (temps ++ vals (e_scopes st) ++ below) (e_globals st) (e_out st) lps fr.

Ltac simp_st := unfold set_pc, set_stk, set_gl, set_out, set_loops, mk; cbn [set_pc set_stk set_gl set_out set_loops v_stk v_fp v_gl v_out v_loops v_frames v_next_fp v_upv v_pending v_clo v_pc mk].
Ltac fin := unfold atp; simp_st; unfold mk; simp_st; cbn [e_scopes e_globals e_out set_escopes];
  match goal with |- Next (VS ?a _ _ _ _ _ _ _ _ _ _) = Next (VS ?b _ _ _ _ _ _ _ _ _ _) => replace b with a; [reflexivity|] end.

Lemma index_K v : In v K -> 0 <= Gen.index_of K v < Z.of_nat (length K) /\ nthZ K (Gen.index_of K v) = Some v.
Proof. intros Q. pose proof (index_of_in K v Q []) as A. rewrite app_nil_r in A. exact A. Qed.

Lemma code_next pc o bs s : code_at pc (op o ++ bs) -> v_pc s = pc -> next_op P s o.
Proof. intros (pre & post & E & L) <-. unfold next_op. rewrite L, E. unfold len. cbn [op app]. apply nthZ_app. Qed.
Lemma code_byte pc b bs : code_at pc (b :: bs) -> nthZ (p_code P) pc = Some b.
Proof. intros (pre & post & E & L). rewrite L, E. unfold len. cbn [app]. apply nthZ_app. Qed.
Lemma rd1_here s0 hp pc stk gl out lps fr b bs f : code_at pc (b :: bs) -> rd1 (prog_at fuel w P s0 hp) (mk pc stk gl out lps fr) f = f b (mk (pc + 1) stk gl out lps fr).
Proof. intros C. exact (rd1_at (prog_at fuel w P s0 hp) (mk pc stk gl out lps fr) b bs f C). Qed.
Lemma rd8_here s0 hp pc stk gl out lps fr v bs f : code_at pc (enc8 v ++ bs) -> in_i64 v -> rd8 (prog_at fuel w P s0 hp) (mk pc stk gl out lps fr) f = f v (mk (pc + 8) stk gl out lps fr).
Proof. intros C I. exact (rd8_at (prog_at fuel w P s0 hp) (mk pc stk gl out lps fr) v bs f C I). Qed.

(** ** One instruction that is not about objects. *)
Definition plain (o : opc) : Prop := match o with O_NEWLIST | O_NEWTABLE | O_GET | O_SET | O_INIT_MC | O_CALL | O_UN ULen | O_ITER_1 => False | O_BIN o => op_name o = None | _ => True end.
Lemma goes_op pc stk gl out lps fr hp o bs s' : code_at pc (op o ++ bs) -> plain o -> VM.exec (prog_at fuel w P (mk pc stk gl out lps fr) hp) o (mk (pc + 1) stk gl out lps fr) = Next s' -> goes 1 (mk pc stk gl out lps fr, hp) (s', hp).
Proof. intros C N E. apply goes_step. rewrite (step_plain fuel w P (mk pc stk gl out lps fr) hp o (code_next pc o bs (mk pc stk gl out lps fr) C eq_refl) N). change (set_pc (mk pc stk gl out lps fr) (v_pc (mk pc stk gl out lps fr) + 1)) with (mk (pc + 1) stk gl out lps fr). rewrite E. reflexivity. Qed.
Lemma halts_op pc stk gl out lps fr hp o bs r s' : code_at pc (op o ++ bs) -> plain o -> VM.exec (prog_at fuel w P (mk pc stk gl out lps fr) hp) o (mk (pc + 1) stk gl out lps fr) = VM.Stop r s' -> halts (mk pc stk gl out lps fr, hp) r (v_out s').
Proof. intros C N E. eapply halts_step; [|reflexivity]. rewrite (step_plain fuel w P (mk pc stk gl out lps fr) hp o (code_next pc o bs (mk pc stk gl out lps fr) C eq_refl) N). change (set_pc (mk pc stk gl out lps fr) (v_pc (mk pc stk gl out lps fr) + 1)) with (mk (pc + 1) stk gl out lps fr). rewrite E. reflexivity. Qed.
Lemma code8 pc o v bs : code_at pc (op o ++ enc8 v ++ bs) -> code_at (pc + 1) (enc8 v ++ bs).
Proof. apply (code_at_r P pc (op o)). Qed.
Lemma push_ok pc stk gl out lps fr v : Z.of_nat (length stk) < 1024 -> push (mk pc stk gl out lps fr) v = Next (mk pc (v :: stk) gl out lps fr).
Proof. intros Q. unfold push, sp, STACK_SIZE. cbn [v_stk mk]. destruct (Z.geb_spec (Z.of_nat (length stk) - 1 + 1) 1024); [lia|reflexivity]. Qed.
Lemma push_any s v : Z.of_nat (length (v_stk s)) < 1024 -> push s v = Next (set_stk s (v :: v_stk s)).
Proof. intros Q. unfold push, sp, STACK_SIZE. destruct (Z.geb_spec (Z.of_nat (length (v_stk s)) - 1 + 1) 1024); [lia|reflexivity]. Qed.
Lemma code_in pc o v bs : code_at pc (op o ++ enc8 v ++ bs) -> 0 <= v <= len bs -> in_i64 v.
Proof.
  intros C Q. apply code_at_len in C. rewrite !len_app, len_enc8 in C. pose proof (len_nonneg (op o)). destruct HKlen. unfold in_i64, int_min, int_max in *. lia.
Qed.

Lemma slot_nth temps vs n v : nth_error vs n = Some v ->
  slot_get (temps ++ vs ++ below) (Z.of_nat (length below) + (Z.of_nat (length vs) - 1 - Z.of_nat n)) = Some v.
Proof.
  intros E. assert (L : (n < length vs)%nat) by (apply nth_error_Some; congruence). unfold slot_get, from_top. rewrite !app_length.
  match goal with |- (if ?b then _ else _) = _ => assert (Hb : b = true) by lia; rewrite Hb end.
  replace (Z.to_nat _) with (length temps + n)%nat by lia. rewrite nth_error_app2 by lia. replace (length temps + n - length temps)%nat with n by lia. rewrite nth_error_app1 by lia. exact E.
Qed.
Lemma slot_put temps vs n v : (n < length vs)%nat ->
  slot_set (temps ++ vs ++ below) (Z.of_nat (length below) + (Z.of_nat (length vs) - 1 - Z.of_nat n)) v = Some (temps ++ put vs n v ++ below).
Proof.
  intros L. unfold slot_set, from_top. rewrite !app_length.
  match goal with |- (if ?b then _ else _) = _ => assert (Hb : b = true) by lia; rewrite Hb end.
  replace (Z.to_nat _) with (length temps + n)%nat by lia. rewrite put_app_r, put_app_l by lia. reflexivity.
Qed.
Lemma schar_idx z : 0 <= z < 128 -> schar (z mod 256) = z.
Proof. intros Q. rewrite Z.mod_small by lia. unfold schar. destruct (Z.ltb_spec z 128); lia. Qed.

(** [n] more values fit *)
Definition room_for (ss : list scope) (temps : list value) (n : nat) : Prop :=
  Z.of_nat (length below) + scope_len ss + Z.of_nat (length temps) + Z.of_nat n <= 1024.
Lemma stk_len ss es temps : agree ss es -> Z.of_nat (length (temps ++ vals es ++ below)) = Z.of_nat (length below) + scope_len ss + Z.of_nat (length temps).
Proof. intros A. rewrite !app_length. pose proof (agree_length _ _ A). lia. Qed.

Lemma sim_lit v ss st pc temps lps fr hp bs : In v K -> agree ss (e_scopes st) -> room_for ss temps 1 -> code_at pc (lit_code K v ++ bs) ->
  goes 1 (atp pc temps st lps fr, hp) (atp (pc + len (lit_code K v)) (v :: temps) st lps fr, hp).
Proof.
  intros Hin A R C. destruct (index_K v Hin) as (B & N). unfold lit_code in *. pose proof (stk_len _ _ temps A) as SL. unfold room_for in R. destruct (Z.ltb_spec (Gen.index_of K v) 128).
  - rewrite <- app_assoc in C. eapply goes_op; [exact C|exact I|]. cbn [VM.exec]. rewrite (rd1_here _ _ _ _ _ _ _ _ _ _ _ (code_at_r P _ _ _ C)). rewrite Z.mod_small by lia. cbn [prog_at p_consts]. rewrite N. cbn [opt].
    rewrite push_any by (simp_st; lia). fin. unfold len. cbn [op app length]. lia.
  - rewrite <- app_assoc in C. eapply goes_op; [exact C|exact I|]. cbn [VM.exec].
    rewrite (rd8_here _ _ _ _ _ _ _ _ _ _ _ (code8 _ _ _ _ C)) by (destruct HKlen; unfold in_i64, int_min, int_max in *; lia). cbn [prog_at p_consts]. rewrite N. cbn [opt].
    rewrite push_any by (simp_st; lia). fin. rewrite len_app, len_op, len_enc8. lia.
Qed.
Lemma const_name_K s hp x : In (VStr x) K -> const_name (prog_at fuel w P s hp) (Gen.index_of K (VStr x)) = Some x.
Proof. intros Q. destruct (index_K _ Q) as (_ & N). unfold const_name. cbn [prog_at p_consts]. rewrite N. reflexivity. Qed.

Lemma sim_load x ss st pc temps lps fr hp bs : known G ss x = true -> agree ss (e_scopes st) -> scope_len ss <= 128 -> room_for ss temps 1 ->
  code_at pc (load_code K ss x ++ bs) ->
  exists v, read_var h st x = RVal v /\ goes 1 (atp pc temps st lps fr, hp) (atp (pc + len (load_code K ss x)) (v :: temps) st lps fr, hp).
Proof.
  intros Kn A S R C. unfold known in Kn. unfold load_code in *. pose proof (get_var _ x _ A) as Q. unfold read_var. pose proof (stk_len _ _ temps A) as SL. unfold room_for in R.
  destruct (scope_get ss x) as [z|].
  - destruct Q as (k & v & n & F & _ & B & N & E & _). rewrite F. exists v. split; [reflexivity|]. rewrite <- app_assoc in C. eapply goes_op; [exact C|exact I|]. cbn [VM.exec].
    rewrite (rd1_here _ _ _ _ _ _ _ _ _ _ _ (code_at_r P _ _ _ C)). simp_st. rewrite schar_idx by lia.
    pose proof (agree_length _ _ A) as LV. assert (n < length (vals (e_scopes st)))%nat by (apply nth_error_Some; congruence).
    replace (fp + get_index z + 1) with (Z.of_nat (length below) + (Z.of_nat (length (vals (e_scopes st))) - 1 - Z.of_nat n)) by lia. rewrite (slot_nth temps _ _ _ E). cbn [opt].
    rewrite push_any by (simp_st; lia). fin. unfold len. cbn [op app length]. lia.
  - rewrite Q. rewrite HG. destruct (assoc G x) as [z|] eqn:Ax; [|discriminate]. cbn [option_map]. eexists. split; [reflexivity|]. rewrite <- app_assoc in C. eapply goes_op; [exact C|exact I|]. cbn [VM.exec].
    pose proof (HGK _ _ Ax) as Hin. destruct (index_K _ Hin) as (B & _).
    rewrite (rd8_here _ _ _ _ _ _ _ _ _ _ _ (code8 _ _ _ _ C)) by (destruct HKlen; unfold in_i64, int_min, int_max in *; lia). rewrite (const_name_K _ _ x Hin). cbn [opt]. 
    rewrite push_any by (simp_st; lia). fin. rewrite len_app, len_op, len_enc8. lia.
Qed.

Lemma sim_store x v ss st pc temps lps fr hp bs : writable G ss x = true -> agree ss (e_scopes st) -> scope_len ss <= 128 ->
  code_at pc (store_code K ss x ++ bs) ->
  exists st', write_var h st x v = Some st' /\ agree ss (e_scopes st') /\ e_out st' = e_out st /\
    goes 1 (atp pc (v :: temps) st lps fr, hp) (atp (pc + len (store_code K ss x)) temps st' lps fr, hp).
Proof.
  intros Wr A S C. unfold writable in Wr. unfold store_code in *. pose proof (get_var _ x _ A) as Q. unfold write_var. pose proof (agree_length _ _ A) as LV.
  destruct (scope_get ss x) as [z|].
  - destruct Q as (k & u & n & F & Ck & B & N & E & U). rewrite F. rewrite Ck in Wr. destruct k; [discriminate|]. destruct (U v) as (U1 & U2). eexists. split; [reflexivity|]. split; [exact U2|]. split; [reflexivity|].
    rewrite <- app_assoc in C. eapply goes_op; [exact C|exact I|]. cbn [VM.exec]. rewrite (rd1_here _ _ _ _ _ _ _ _ _ _ _ (code_at_r P _ _ _ C)). 
    unfold pop. unfold atp. simp_st. cbn [app]. simp_st.
    assert (Gz : get_index z = z). { unfold get_index. rewrite Ck. reflexivity. } rewrite <- Gz. rewrite schar_idx by lia.
    assert (n < length (vals (e_scopes st)))%nat by (apply nth_error_Some; congruence).
    replace (fp + get_index z + 1) with (Z.of_nat (length below) + (Z.of_nat (length (vals (e_scopes st))) - 1 - Z.of_nat n)) by lia.
    rewrite slot_put by assumption. cbn [opt]. rewrite <- U1. fin. { cbn [app]. unfold len. cbn [op app length]. lia. }
  - rewrite Q. rewrite HG. destruct (assoc G x) as [z|] eqn:Ax; [|discriminate]. cbn [option_map]. destruct (is_const z); [discriminate|]. eexists. split; [reflexivity|]. split; [exact A|]. split; [reflexivity|].
    rewrite <- app_assoc in C. eapply goes_op; [exact C|exact I|]. cbn [VM.exec].
    pose proof (HGK _ _ Ax) as Hin. destruct (index_K _ Hin) as (B & _).
    rewrite (rd8_here _ _ _ _ _ _ _ _ _ _ _ (code8 _ _ _ _ C)) by (destruct HKlen; unfold in_i64, int_min, int_max in *; lia). rewrite (const_name_K _ _ x Hin). cbn [opt].
    unfold pop, atp. simp_st. cbn [app]. fin. rewrite len_app, len_op, len_enc8. lia.
Qed.

(** A forward jump of distance [d] with operand [v] popped. *)
Lemma goes_brf pc v stk gl out lps fr hp d bs : code_at pc (op O_BRF_8 ++ enc8 d ++ bs) -> 0 <= d <= len bs ->
  goes 1 (mk pc (v :: stk) gl out lps fr, hp) (mk (if is_falsey v then pc + 9 + d else pc + 9) stk gl out lps fr, hp).
Proof.
  intros C Q. eapply goes_op; [exact C|exact I|]. cbn [VM.exec]. rewrite (rd8_here _ _ _ _ _ _ _ _ _ _ _ (code8 _ _ _ _ C)) by (eapply code_in; eassumption).
  unfold pop. simp_st. destruct (is_falsey v); fin; lia.
Qed.
Lemma goes_br pc stk gl out lps fr hp d bs : code_at pc (op O_BR_8 ++ enc8 d ++ bs) -> in_i64 d ->
  goes 1 (mk pc stk gl out lps fr, hp) (mk (pc + 9 + d) stk gl out lps fr, hp).
Proof.
  intros C Q. eapply goes_op; [exact C|exact I|]. cbn [VM.exec]. rewrite (rd8_here _ _ _ _ _ _ _ _ _ _ _ (code8 _ _ _ _ C)) by assumption.
  fin. lia.
Qed.
Lemma goes_sc o pc v stk gl out lps fr hp d bs : code_at pc (op (sc_jump o) ++ enc8 d ++ bs) -> 0 <= d <= len bs ->
  goes 1 (mk pc (v :: stk) gl out lps fr, hp) (mk (if decides o v then pc + 9 + d else pc + 9) stk gl out lps fr, hp).
Proof.
  intros C Q. eapply goes_op; [exact C|destruct o; exact I|].
  destruct o; cbn [sc_jump VM.exec decides] in *; rewrite (rd8_here _ _ _ _ _ _ _ _ _ _ _ (code8 _ _ _ _ C)) by (eapply code_in; eassumption);
  unfold pop; simp_st;
  match goal with |- context [if ?b then _ else _] => destruct b end; fin; lia.
Qed.
Lemma goes_pop pc v stk gl out lps fr hp bs : code_at pc (op O_POP ++ bs) -> goes 1 (mk pc (v :: stk) gl out lps fr, hp) (mk (pc + 1) stk gl out lps fr, hp).
Proof. intros C. eapply goes_op; [exact C|exact I|]. reflexivity. Qed.
Lemma goes_dup pc v stk gl out lps fr hp bs : code_at pc (op O_DUP ++ bs) -> Z.of_nat (length stk) + 2 <= 1024 ->
  goes 1 (mk pc (v :: stk) gl out lps fr, hp) (mk (pc + 1) (v :: v :: stk) gl out lps fr, hp).
Proof. intros C Q. eapply goes_op; [exact C|exact I|]. cbn [VM.exec v_stk mk]. apply push_ok. cbn [length]. lia. Qed.
Lemma goes_const pc o v stk gl out lps fr hp bs : code_at pc (op o ++ bs) -> Z.of_nat (length stk) + 1 <= 1024 ->
  (o = O_NCONST /\ v = VUndef \/ o = O_BCONST_T /\ v = VBool true \/ o = O_BCONST_F /\ v = VBool false \/ o = O_END /\ v = VEnd) ->
  goes 1 (mk pc stk gl out lps fr, hp) (mk (pc + 1) (v :: stk) gl out lps fr, hp).
Proof. intros C Q D. eapply goes_op; [exact C|destruct D as [(-> & _)|[(-> & _)|[(-> & _)|(-> & _)]]]; exact I|]. destruct D as [(-> & ->)|[(-> & ->)|[(-> & ->)|(-> & ->)]]]; cbn [VM.exec]; apply push_ok; lia. Qed.
Lemma goes_back B p target stk gl out lps fr hp bs : code_at (B + p) (back p target ++ bs) -> 0 <= B -> 0 <= target <= p ->
  goes 1 (mk (B + p) stk gl out lps fr, hp) (mk (B + target) stk gl out lps fr, hp).
Proof.
  intros C HB Ht. unfold back in C. rewrite <- app_assoc in C. pose proof (code_at_len _ _ _ C) as L. rewrite !len_app, len_op, len_enc8 in L. pose proof (len_nonneg bs).
  replace (B + target) with (B + p + 9 + (target - (p + 1) - 8)) by lia. eapply goes_br; [exact C|]. destruct HKlen. unfold in_i64, int_min, int_max in *. lia.
Qed.
Lemma goes_pops ts : forall pc stk gl out lps fr hp bs, code_at pc (repeat (op_byte O_POP) (length ts) ++ bs) ->
  goes 0 (mk pc (ts ++ stk) gl out lps fr, hp) (mk (pc + Z.of_nat (length ts)) stk gl out lps fr, hp).
Proof.
  induction ts as [|t ts IH]; intros pc stk gl out lps fr hp bs C.
  - cbn [length]. rewrite Z.add_0_r. apply goes_refl.
  - cbn [length repeat app] in C. change (op_byte O_POP :: repeat (op_byte O_POP) (length ts) ++ bs) with (op O_POP ++ repeat (op_byte O_POP) (length ts) ++ bs) in C.
    eapply goes_le; [eapply goes_trans; [exact (goes_pop pc t (ts ++ stk) gl out lps fr hp _ C)|]|].
    + apply code_at_r in C. rewrite len_op in C. replace (pc + Z.of_nat (length (t :: ts))) with (pc + 1 + Z.of_nat (length ts)) by (cbn [length]; lia). exact (IH _ _ _ _ _ _ _ _ C).
    + lia.
Qed.

(** ** Memory. *)
Variable D : nat.
Hypothesis HW : float_texts w.
Definition fine (hp : heap) (m : mem) (hp' : heap) (m' : mem) : Prop := shows hp' m' /\ complete m' /\ grows m m' /\ kept None hp hp'.
Lemma kept_trans a b c : kept None a b -> kept None b c -> kept None a c.
Proof. intros (A & B) (A2 & B2). split; [lia|]. intros q L N. rewrite B2 by (try lia; exact N). apply B; assumption. Qed.
Lemma fine_refl hp m : shows hp m -> complete m -> fine hp m hp m.
Proof. intros A B. split; [exact A|]. split; [exact B|]. split; [apply grows_refl|apply kept_refl]. Qed.
Lemma fine_trans h1 m1 h2 m2 h3 m3 : fine h1 m1 h2 m2 -> fine h2 m2 h3 m3 -> fine h1 m1 h3 m3.
Proof. intros (A & B & C & E) (A2 & B2 & C2 & E2). split; [exact A2|]. split; [exact B2|]. split; [eapply grows_trans; eassumption|eapply kept_trans; eassumption]. Qed.
Definition o_room (ss : list scope) (temps : list value) (fr : list frame * Z) (n : nat) : Prop :=
  Z.of_nat (length below) + scope_len ss + Z.of_nat (length temps) + Z.of_nat n + 3 * Z.of_nat D + 8 <= 1024 /\
  Z.of_nat (length (fst fr)) + Z.of_nat n + Z.of_nat D + 2 <= 1000.
(** the result of an expression on top, memory in order *)
Definition gives (pc : Z) (temps : list value) (en : env) (lps : list (value * Z)) (fr : list frame * Z) (hp : heap) (m : mem) (v : value) (m' : mem) (c : cfg) : Prop :=
  exists hp', c = (atp pc (v :: temps) en lps fr, hp') /\ fine hp m hp' m' /\ there m' v.
Definition given (pc : Z) (temps : list value) (en : env) (lps : list (value * Z)) (fr : list frame * Z) (hp : heap) (m : mem) (n : nat) (vs : list value) (m' : mem) (c : cfg) : Prop :=
  exists hp', c = (atp pc (rev vs ++ temps) en lps fr, hp') /\ fine hp m hp' m' /\ Forall (there m') vs /\ length vs = n.
Lemma gives_trans pc temps en lps fr hp m hp1 m1 v m' c : fine hp m hp1 m1 -> gives pc temps en lps fr hp1 m1 v m' c -> gives pc temps en lps fr hp m v m' c.
Proof. intros F (hp' & E & F2 & T). exists hp'. split; [exact E|]. split; [eapply fine_trans; eassumption|exact T]. Qed.
Lemma gives_here pc temps en lps fr hp m v : shows hp m -> complete m -> there m v -> gives pc temps en lps fr hp m v m (atp pc (v :: temps) en lps fr, hp).
Proof. intros A B C. exists hp. split; [reflexivity|]. split; [apply fine_refl; assumption|exact C]. Qed.

(** ** One instruction that may be about objects. *)
Lemma sim_val k pc top temps en lps fr hp m x :
  does_in None hp (h_step fuel w P (atp pc top en lps fr) hp) (atp pc top en lps fr) (temps ++ vals (e_scopes en) ++ below) (value_of m x) -> complete m -> (forall v, x = Gives v -> there m v) ->
  sim k (fun _ : mem => e_out en) (atp pc top en lps fr, hp) (said_val m x) (gives (pc + 1) temps en lps fr hp m).
Proof.
  intros Do C T. destruct x as [v|e|]; cbn [said_val value_of does_in] in *.
  - destruct Do as (h' & E & Sh & Ke). exists (Done v m). split; [reflexivity|]. eexists. split; [eapply goes_le; [apply goes_step, E|lia]|]. exists h'. split; [reflexivity|]. split; [|apply T; reflexivity].
    split; [exact Sh|]. split; [exact C|]. split; [apply grows_refl|exact Ke].
  - destruct Do as (s' & h' & E & Q). apply sim_stop. eapply halts_step; [exact E|exact Q].
  - apply sim_open.
Qed.
Lemma sim_both k pc top temps en lps fr hp m x :
  does_in None hp (h_step fuel w P (atp pc top en lps fr) hp) (atp pc top en lps fr) (temps ++ vals (e_scopes en) ++ below) (both_of x) -> (forall m' v, x = Gives (m', v) -> good m m' v) ->
  sim k (fun _ : mem => e_out en) (atp pc top en lps fr, hp) (said_both m x) (gives (pc + 1) temps en lps fr hp m).
Proof.
  intros Do T. destruct x as [[m' v]|e|]; cbn [said_both both_of does_in] in *.
  - destruct Do as (h' & E & Sh & Ke). exists (Done v m'). split; [reflexivity|]. eexists. split; [eapply goes_le; [apply goes_step, E|lia]|]. exists h'. split; [reflexivity|]. destruct (T _ _ eq_refl) as (T1 & T2 & T3). split; [|exact T3].
    split; [exact Sh|]. split; [exact T1|]. split; [exact T2|exact Ke].
  - destruct Do as (s' & h' & E & Q). apply sim_stop. eapply halts_step; [exact E|exact Q].
  - apply sim_open.
Qed.
Lemma next_atp pc o bs top en lps fr : code_at pc (op o ++ bs) -> next_op P (atp pc top en lps fr) o.
Proof. intros C. eapply code_next; [exact C|reflexivity]. Qed.
Lemma atp_len ss pc top en lps fr : agree ss (e_scopes en) -> Z.of_nat (length (v_stk (atp pc top en lps fr))) = Z.of_nat (length below) + scope_len ss + Z.of_nat (length top).
Proof. intros A. apply stk_len, A. Qed.
Lemma o_fits ss pc temps top en lps fr n k : agree ss (e_scopes en) -> o_room ss temps fr n -> (length top + k <= length temps + n + 8)%nat -> fits (atp pc top en lps fr) k.
Proof. intros A (R1 & R2) L. unfold fits. rewrite (atp_len _ _ _ _ _ _ A). cbn [atp mk v_frames]. lia. Qed.

Lemma sim_un k o v ss pc temps en lps fr hp m bs : code_at pc (op (O_UN o) ++ bs) -> agree ss (e_scopes en) -> o_room ss temps fr 1 -> shows hp m -> complete m -> there m v ->
  sim k (fun _ : mem => e_out en) (atp pc (v :: temps) en lps fr, hp) (unary h m o v) (gives (pc + 1) temps en lps fr hp m).
Proof.
  intros C A R Sh Cm T. pose proof (next_atp _ _ _ (v :: temps) en lps fr C) as N.
  assert (NL : o <> ULen -> sim k (fun _ : mem => e_out en) (atp pc (v :: temps) en lps fr, hp) (said_val m (said_of (exec_unop (strict w) o v))) (gives (pc + 1) temps en lps fr hp m)).
  { intros NL. apply sim_val; [|exact Cm|].
    - eapply unary_in; [exact HF|exact Sh|exact T|exact NL|exact N|reflexivity|]. eapply o_fits; [exact A|exact R|cbn [length]; lia].
    - intros u E. apply atom_there. destruct (exec_unop (strict w) o v) as [u'| | |] eqn:X; try discriminate E. cbn in E. injection E as ->. eapply unop_atom, X. }
  destruct o; try (apply NL; discriminate). destruct v as [| | | | |s| | | | | | |]; cbn [unary]; try (apply sim_val; [eapply len_in; [exact HF|exact Sh|exact N|reflexivity|eapply o_fits; [exact A|exact R|cbn [length]; lia]]|exact Cm|intros u E; apply atom_there; eapply length_atom, E]).
  apply sim_val; [|exact Cm|intros u E; apply atom_there; destruct (exec_unop (strict w) ULen (VStr s)) as [u'| | |] eqn:X; try discriminate E; cbn in E; injection E as ->; eapply unop_atom, X].
  destruct (PropHeap.step_op P _ _ N) as (B1 & B2). unfold h_step. rewrite B1, B2. unfold step, rd1. cbn [prog_at p_code]. rewrite B1, B2.
  unfold VM.exec, pop. unfold atp. cbn [mk set_pc v_stk app]. destruct R as (R1 & R2). pose proof (stk_len _ _ temps A) as SL. cbn [prog_at p_world]. 
  assert (E : exec_unop (world_at fuel w (mk pc (VStr s :: temps ++ vals (e_scopes en) ++ below) (e_globals en) (e_out en) lps fr) hp) ULen (VStr s) = exec_unop (strict w) ULen (VStr s)) by reflexivity.
  rewrite E. cbn [exec_unop said_of value_of does_in lift]. rewrite push_any by (cbn [set_stk v_stk]; lia). cbn [with_heap]. exists hp. split; [reflexivity|apply became_same, Sh].
Qed.

Lemma sim_cnct k a b ss pc temps en lps fr hp m bs : code_at pc (op (O_BIN BCnct) ++ bs) -> agree ss (e_scopes en) -> o_room ss temps fr 2 -> shows hp m -> complete m -> there m a -> there m b ->
  nested_below m D [] a = true -> nested_below m D [] b = true ->
  exists ta tb, HeapSpec2.shown w m [] a ta /\ HeapSpec2.shown w m [] b tb /\ sim k (fun _ : mem => e_out en) (atp pc (b :: a :: temps) en lps fr, hp) (only (Done (VStr (ta ++ tb)) m)) (gives (pc + 1) temps en lps fr hp m).
Proof.
  intros C A (R1 & R2) Sh Cm Ta Tb Na Nb. pose proof (next_atp _ _ _ (b :: a :: temps) en lps fr C) as N. set (s := atp pc (b :: a :: temps) en lps fr) in *.
  assert (SL := atp_len ss pc (b :: a :: temps) en lps fr A). cbn [length] in SL. fold s in SL.
  destruct (HeapProofs7.stringify_total fuel HF w HW hp m Sh D (room s) (free_frames s) a Cm Ta Na) as (ta & Ea & Sa); [apply room_le; lia|apply frames_le; unfold s; cbn [atp mk v_frames]; lia|].
  destruct (HeapProofs7.stringify_total fuel HF w HW hp m Sh D (room s) (free_frames s) b Cm Tb Nb) as (tb & Eb & Sb); [apply room_le; lia|apply frames_le; unfold s; cbn [atp mk v_frames]; lia|].
  exists ta, tb. split; [exact Sa|]. split; [exact Sb|]. eapply sim_go; [|apply sim_done, gives_here; [exact Sh|exact Cm|reflexivity]].
  apply goes_step. rewrite (step_plain fuel w P s hp _ N eq_refl). rewrite (exec_bin _ BCnct (set_pc s (v_pc s + 1)) a b (temps ++ vals (e_scopes en) ++ below) eq_refl); [|cbn [set_pc v_stk]; lia].
  cbn [prog_at p_world exec_binop]. unfold vm_cnct. cbn [world_at w_tostr]. rewrite Eb. cbn [bind]. rewrite Ea. reflexivity.
Qed.
Lemma sim_bin1 k o a b ss pc temps en lps fr hp m bs : code_at pc (op (O_BIN o) ++ bs) -> agree ss (e_scopes en) -> o_room ss temps fr 2 -> shows hp m -> complete m -> there m a -> there m b ->
  sim k (fun _ : mem => e_out en) (atp pc (b :: a :: temps) en lps fr, hp) (binary1 h D m o a b) (gives (pc + 1) temps en lps fr hp m).
Proof.
  intros C A R Sh Cm Ta Tb. pose proof (next_atp _ _ _ (b :: a :: temps) en lps fr C) as N. destruct (sh_next _ _ Sh) as (_ & N16).
  assert (PL : plain_op o a = true -> sim k (fun _ : mem => e_out en) (atp pc (b :: a :: temps) en lps fr, hp) (said_val m (said_of (exec_binop (strict w) o a b))) (gives (pc + 1) temps en lps fr hp m)).
  { intros PL. apply sim_val; [|exact Cm|].
    - eapply operator_in; [exact HF|exact Sh|exact Ta|exact PL|exact N|reflexivity|]. eapply o_fits; [exact A|exact R|cbn [length]; lia].
    - intros u E. apply atom_there. destruct (exec_binop (strict w) o a b) as [u'| | |] eqn:X; try discriminate E. cbn in E. injection E as ->. eapply binop_atom, X. }
  assert (F : fits (atp pc (b :: a :: temps) en lps fr) 2) by (eapply o_fits; [exact A|exact R|cbn [length]; lia]).
  destruct o; cbn [binary1]; try (apply PL; reflexivity).
  - destruct a; try (apply PL; reflexivity). apply sim_both; [eapply union_in; [exact HF|exact Sh|exact N|reflexivity|exact F]|]. intros m' v E. eapply union_ok; eassumption.
  - destruct a; try (apply PL; reflexivity). apply sim_both; [eapply concat_in; [exact HF|exact Sh|exact N|reflexivity|exact F]|]. intros m' v E. eapply concat_ok; eassumption.
  - destruct (nested_below m D [] a) eqn:Na; [|apply sim_open]. destruct (nested_below m D [] b) eqn:Nb; [|apply sim_open]. cbn [andb].
    destruct (sim_cnct k a b ss pc temps en lps fr hp m bs C A R Sh Cm Ta Tb Na Nb) as (ta & tb & Sa & Sb & x & -> & X). exists (Done (VStr (ta ++ tb)) m). split; [eauto|exact X].
  - destruct (equals m D a b) as [r|] eqn:E; [|apply sim_open]. eapply sim_go; [|apply sim_done, gives_here; [exact Sh|exact Cm|reflexivity]].
    apply goes_step. destruct R as (R1 & R2). rewrite (C54_equal fuel w P _ hp m a b _ D r HF Sh N eq_refl E); [reflexivity| |].
    + rewrite (atp_len ss) by exact A. cbn [length]. lia.
    + cbn [atp mk v_frames]. lia.
Qed.
Lemma goes_not pc v stk gl out lps fr hp bs : code_at pc (op (O_UN UNot) ++ bs) -> Z.of_nat (length stk) + 1 <= 1024 ->
  goes 1 (mk pc (v :: stk) gl out lps fr, hp) (mk (pc + 1) (not_value v :: stk) gl out lps fr, hp).
Proof.
  intros C Q. eapply goes_op; [exact C|exact I|]. cbn [VM.exec]. unfold pop. cbn [v_stk mk set_stk prog_at p_world exec_unop lift]. rewrite push_any by (cbn [set_stk v_stk mk]; lia). reflexivity.
Qed.
Lemma sim_bin k o a b ss pc temps en lps fr hp m bs : code_at pc (bop_code o ++ bs) -> agree ss (e_scopes en) -> o_room ss temps fr 2 -> shows hp m -> complete m -> there m a -> there m b ->
  sim k (fun _ : mem => e_out en) (atp pc (b :: a :: temps) en lps fr, hp) (binary h D m o a b) (gives (pc + len (bop_code o)) temps en lps fr hp m).
Proof.
  intros C A R Sh Cm Ta Tb.
  assert (NG : forall o1, code_at pc ((op (O_BIN o1) ++ op (O_UN UNot)) ++ bs) -> sim k (fun _ : mem => e_out en) (atp pc (b :: a :: temps) en lps fr, hp) (bindr (binary1 h D m o1 a b) negated) (gives (pc + 2) temps en lps fr hp m)).
  { intros o1 C1. rewrite <- app_assoc in C1. eapply sim_bind; [eapply sim_bin1; eassumption|]. intros v m' c' (hp' & -> & F & T). apply code_at_r in C1. rewrite len_op in C1.
    eapply sim_go; [apply (goes_not _ _ (temps ++ vals (e_scopes en) ++ below) _ _ _ _ _ _ C1); rewrite (stk_len ss) by exact A; destruct R as (R1 & R2); lia|].
    apply sim_done. eapply gives_trans; [exact F|]. replace (pc + 2) with (pc + 1 + 1) by lia. apply gives_here; [apply F|apply F|reflexivity]. }
  destruct o as [o| |]; cbn [bop_code binary] in *.
  - rewrite len_op. eapply sim_bin1; eassumption.
  - apply NG, C.
  - apply NG, C.
Qed.

(** ** Method calls. *)
Lemma read8_here pc v bs : code_at pc (enc8 v ++ bs) -> in_i64 v -> read8 (p_code P) pc = Ok v.
Proof. intros (pre & post & E & L) Q. rewrite L, E. unfold len. rewrite <- app_assoc, read8_app, i64_id by exact Q. reflexivity. Qed.
Lemma named_is x y : named x y = true -> x = y.
Proof. unfold named. destruct (list_eq_dec Z.eq_dec x y); [auto|discriminate]. Qed.
Definition mc_code (x : name) : list Z := op O_INIT_MC ++ [1] ++ enc8 (Gen.index_of K (VStr x)).
Lemma mc_calls x pc bs top en lps fr : In (VStr x) K -> code_at pc (mc_code x ++ bs) -> calls_method P (atp pc top en lps fr) 1 x.
Proof.
  intros Hin C. unfold mc_code in C. rewrite <- !app_assoc in C. destruct (index_K _ Hin) as (B & N). split; [eapply next_atp, C|]. apply code_at_r in C. rewrite len_op in C. split; [eapply code_byte, C|].
  exists (Gen.index_of K (VStr x)). split; [|exact N]. apply code_at_r in C. change (len [1]) with 1 in C. cbn [atp mk v_pc]. replace (pc + 2) with (pc + 1 + 1) by lia. eapply read8_here; [exact C|]. destruct HKlen. unfold in_i64, int_min, int_max in *. lia.
Qed.
Lemma len_mc x : len (mc_code x) = 10.
Proof. unfold mc_code. rewrite !len_app, len_op, len_enc8. reflexivity. Qed.
Lemma opened_atp pc c f temps en lps fr s1 : opened (atp pc (c :: temps) en lps fr) s1 c f (temps ++ vals (e_scopes en) ++ below) ->
  exists fr1, s1 = atp (pc + 10) (c :: f :: temps) en lps fr1 /\ length (fst fr1) = S (length (fst fr)).
Proof.
  intros (E1 & E2 & E3 & E4 & E5 & E6 & E7 & E8 & E9 & E10 & f0 & E11). exists (f0 :: fst fr, v_next_fp s1). split; [|reflexivity]. apply vs_eq; try assumption. reflexivity.
Qed.
Lemma sim_meth k c x es ss pc temps en lps fr hp m bs :
  In (VStr x) K -> code_at pc (mc_code x ++ gen_as K ss es ++ op O_CALL ++ bs) -> agree ss (e_scopes en) -> o_room ss temps fr (S (S (need_as es))) -> shows hp m -> complete m -> there m c ->
  (forall pc1 temps1 fr1 bs1, code_at pc1 (gen_as K ss es ++ bs1) -> o_room ss temps1 fr1 (need_as es) ->
     sim k (fun _ : mem => e_out en) (atp pc1 temps1 en lps fr1, hp) (eval_args h D en es m) (given (pc1 + len (gen_as K ss es)) temps1 en lps fr1 hp m (length_o es))) ->
  sim k (fun _ : mem => e_out en) (atp pc (c :: temps) en lps fr, hp)
    (if has_method c x then bindr (eval_args h D en es m) (fun args m => call m c x args) else no_method m c x) (gives (pc + 10 + len (gen_as K ss es) + 1) temps en lps fr hp m).
Proof.
  intros Hin C A R Sh Cm T IH. pose proof (mc_calls x pc _ (c :: temps) en lps fr Hin C) as CM. apply code_at_r in C. rewrite len_mc in C.
  assert (F : fits (atp pc (c :: temps) en lps fr) 4) by (eapply o_fits; [exact A|exact R|cbn [length]; lia]).
  assert (RA : forall f fr1, length (fst fr1) = S (length (fst fr)) -> o_room ss (c :: f :: temps) fr1 (need_as es)) by (intros f fr1 L; destruct R as (R1 & R2); split; [cbn [length]; lia|rewrite L; lia]).
  assert (AE : forall fr1 args pc2 f, args_evaluated (atp (pc + 10) (c :: f :: temps) en lps fr1) (atp pc2 (rev args ++ c :: f :: temps) en lps fr1) args).
  { intros. unfold args_evaluated. cbn [atp mk v_stk v_fp v_loops v_frames v_next_fp]. rewrite <- app_assoc. auto. }
  destruct (has_method c x) eqn:HM.
  - destruct c as [| | | | | |p|p| | | | |]; try discriminate HM; cbn [there] in T; cbn [has_method] in HM.
    + destruct (m_list m p) as [xs|] eqn:E; [|congruence].
      assert (IM : is_method x). { apply existsb_exists in HM. destruct HM as (y & HI & HN). apply named_is in HN. subst y. exact HI. }
      destruct (method_in fuel w P _ hp m p xs x _ HF Sh E IM CM eq_refl F) as (s1 & f & St & Op & Body).
      destruct (opened_atp _ _ _ _ _ _ _ _ Op) as (fr1 & -> & Lf). eapply sim_go; [apply goes_step, St|].
      eapply sim_bind; [eapply IH; [exact C|apply RA, Lf]|]. intros args m2 c2 (hp2 & -> & F2 & Ta & _). apply code_at_r in C.
      specialize (Body args _ hp2 m2 (AE fr1 args (pc + 10 + len (gen_as K ss es)) f) (proj1 F2) (next_atp _ _ _ _ _ _ _ C)). cbn [call].
      destruct F2 as (F21 & F22 & F23 & F24). assert (T2 : there m2 (VList p)) by (eapply there_grows; [exact F23|]; cbn [there]; congruence).
      destruct (method_spec m2 (VList p) x args) as [[m3 v]|e|] eqn:MS; cbn [said_both].
      * destruct Body as (h3 & St2 & Sh3 & K3). eapply sim_go; [apply goes_step, St2|]. apply sim_done. destruct (method_ok _ _ _ _ _ _ F22 (proj2 (sh_next _ _ F21)) T2 Ta MS) as (G1 & G2 & G3).
        exists h3. split; [reflexivity|]. split; [|exact G3]. eapply fine_trans; [split; [exact F21|split; [exact F22|split; [exact F23|exact F24]]]|]. split; [exact Sh3|]. split; [exact G1|]. split; [exact G2|exact K3].
      * destruct Body as (s3 & h3 & St2 & Q). apply sim_stop. eapply halts_step; [exact St2|exact Q].
      * apply sim_open.
    + destruct (m_tab m p) as [kv|] eqn:E; [|congruence].
      assert (XP : x = m_keys /\ (if named x m_keys then @fst value value else snd) = fst \/ x = m_values /\ (if named x m_keys then @fst value value else snd) = snd).
      { destruct (named x m_keys) eqn:N1; [left; split; [apply named_is, N1|reflexivity]|right; split; [apply named_is, HM|reflexivity]]. }
      destruct (keys_in fuel w P _ hp m p kv x _ _ HF Sh E XP CM eq_refl F) as (s1 & f & St & Op & Body).
      destruct (opened_atp _ _ _ _ _ _ _ _ Op) as (fr1 & -> & Lf). eapply sim_go; [apply goes_step, St|].
      eapply sim_bind; [eapply IH; [exact C|apply RA, Lf]|]. intros args m2 c2 (hp2 & -> & F2 & Ta & _). apply code_at_r in C.
      destruct F2 as (F21 & F22 & F23 & F24). assert (T2 : m_tab m2 p <> None) by (apply F23; congruence). destruct (m_tab m2 p) as [kv2|] eqn:E2; [|congruence].
      destruct (Body args _ hp2 m2 kv2 (AE fr1 args (pc + 10 + len (gen_as K ss es)) f) F21 E2 (next_atp _ _ _ _ _ _ _ C)) as (xs & h3 & PX & St2 & Sh3 & K3). cbn [call]. rewrite E2.
      exists (Done (VList (m_next m2)) (fresh_list m2 xs)). split; [exists xs; split; [exact PX|reflexivity]|]. eexists. split; [eapply goes_le; [apply goes_step, St2|lia]|].
      destruct (fresh_list_ok m2 xs F22 (proj2 (sh_next _ _ F21))) as (G1 & G2 & G3). { eapply part_all; [exact F22|exact E2| |exact PX]. destruct (named x m_keys); auto. }
      exists h3. split; [reflexivity|]. split; [|exact G3]. eapply fine_trans; [split; [exact F21|split; [exact F22|split; [exact F23|exact F24]]]|]. split; [exact Sh3|]. split; [exact G1|]. split; [exact G2|exact K3].
  - unfold no_method. destruct (index_spec m c (VStr x)) as [v|e|] eqn:IS; try apply sim_open. apply sim_stop.
    destruct (C52_no_such_method fuel w P _ hp m c x 1 _ e HF Sh IS CM eq_refl F) as (s' & h' & St & Q). eapply halts_step; [exact St|exact Q].
Qed.

(** ** Expressions. *)
Lemma need_opos e : (1 <= need_oe e)%nat.
Proof. induction e; cbn [need_oe]; try lia. Qed.
Lemma pushed_pairs : forall n xs, length xs = (2 * n)%nat -> pushed (pairs xs) = xs.
Proof. induction n as [|n IH]; intros [|a [|b xs]] L; cbn [length] in L; try lia; [reflexivity|]. cbn [pairs pushed]. rewrite IH by lia. reflexivity. Qed.
Lemma eq_list en es m : eval_o h D en (OList es) m = bindr (eval_args h D en es m) (fun xs m => said_both m (Gives (list_spec m xs))). Proof. reflexivity. Qed.
Lemma eq_table en es m : eval_o h D en (OTable es) m = bindr (eval_args h D en es m) (fun xs m => said_both m (table_spec m (pairs xs))). Proof. reflexivity. Qed.
Lemma eq_meth en c x es m : eval_o h D en (OMeth c x es) m = bindr (eval_o h D en c m) (fun c m => if has_method c x then bindr (eval_args h D en es m) (fun args m => call m c x args) else no_method m c x). Proof. reflexivity. Qed.
Lemma eq_cons en e r m : eval_args h D en (ACons e r) m = bindr (eval_o h D en e m) (fun v m => bindr (eval_args h D en r m) (fun vs m => only (Done (v :: vs) m))). Proof. reflexivity. Qed.
Ltac oroom R := destruct R as (R1 & R2); split; cbn [need_oe need_as length] in R1, R2 |- *; repeat rewrite Nat2Z.inj_max in *; lia.
Lemma o_room_for ss temps fr n : o_room ss temps fr n -> room_for ss temps n.
Proof. intros (R1 & R2). unfold room_for. lia. Qed.

Definition e_ok (e : oexpr) : Prop := forall k ss en pc temps lps fr hp m bs,
  ok_oe G ss e = true -> parsed_e e = true -> incl (lits_oe e) K -> agree ss (e_scopes en) -> scope_len ss <= 128 -> o_room ss temps fr (need_oe e) -> shows hp m -> complete m -> code_at pc (gen_oe K ss e ++ bs) ->
  sim k (fun _ : mem => e_out en) (atp pc temps en lps fr, hp) (eval_o h D en e m) (gives (pc + len (gen_oe K ss e)) temps en lps fr hp m).
Definition as_ok (es : oargs) : Prop := forall k ss en pc temps lps fr hp m bs,
  ok_as G ss es = true -> parsed_as es = true -> incl (lits_as es) K -> agree ss (e_scopes en) -> scope_len ss <= 128 -> o_room ss temps fr (need_as es) -> shows hp m -> complete m -> code_at pc (gen_as K ss es ++ bs) ->
  sim k (fun _ : mem => e_out en) (atp pc temps en lps fr, hp) (eval_args h D en es m) (given (pc + len (gen_as K ss es)) temps en lps fr hp m (length_o es)).
Lemma incl_l {A} (a b c : list A) : incl (a ++ b) c -> incl a c. Proof. intros L v HI. apply L, in_or_app. auto. Qed.
Lemma incl_r {A} (a b c : list A) : incl (a ++ b) c -> incl b c. Proof. intros L v HI. apply L, in_or_app. auto. Qed.

Lemma sim_e_as : (forall e, e_ok e) /\ (forall es, as_ok es).
Proof.
  apply oexpr_mutind; unfold e_ok, as_ok.
  - intros k ss en pc temps lps fr hp m bs O Pa L A S R Sh Cm C. eapply sim_go; [eapply goes_const; [exact C|rewrite (stk_len _ _ _ A); apply o_room_for in R; exact R|left; auto]|]. apply sim_done, gives_here; [exact Sh|exact Cm|reflexivity].
  - intros b k ss en pc temps lps fr hp m bs O Pa L A S R Sh Cm C. eapply sim_go; [eapply (goes_const _ _ (VBool b)); [exact C|rewrite (stk_len _ _ _ A); apply o_room_for in R; exact R|destruct b; auto]|]. apply sim_done, gives_here; [exact Sh|exact Cm|reflexivity].
  - intros i k ss en pc temps lps fr hp m bs O Pa L A S R Sh Cm C. eapply sim_go; [eapply sim_lit; [apply L; left; reflexivity|exact A|apply (o_room_for _ _ _ _ R)|exact C]|]. apply sim_done, gives_here; [exact Sh|exact Cm|reflexivity].
  - intros i k ss en pc temps lps fr hp m bs O Pa L A S R Sh Cm C. eapply sim_go; [eapply sim_lit; [apply L; left; reflexivity|exact A|apply (o_room_for _ _ _ _ R)|exact C]|]. apply sim_done, gives_here; [exact Sh|exact Cm|reflexivity].
  - intros i k ss en pc temps lps fr hp m bs O Pa L A S R Sh Cm C. eapply sim_go; [eapply sim_lit; [apply L; left; reflexivity|exact A|apply (o_room_for _ _ _ _ R)|exact C]|]. apply sim_done, gives_here; [exact Sh|exact Cm|reflexivity].
  - intros x k ss en pc temps lps fr hp m bs O Pa L A S R Sh Cm C. destruct (sim_load x ss en pc temps lps fr hp bs O A S (o_room_for _ _ _ _ R) C) as (v & E & Go).
    cbn [eval_o]. rewrite E. destruct (is_there m v) eqn:IT; [|apply sim_open]. eapply sim_go; [exact Go|]. apply sim_done, gives_here; [exact Sh|exact Cm|apply is_there_there, IT].
  - intros o e IH k ss en pc temps lps fr hp m bs O Pa L A S R Sh Cm C. cbn [ok_oe parsed_e lits_oe need_oe gen_oe] in *. rewrite <- app_assoc in C. cbn [eval_o]. eapply sim_bind; [eapply IH; eassumption|]. intros v m' c' (hp' & -> & F & T).
    eapply sim_conseq; [eapply sim_un; [exact (code_at_r P _ _ _ C)|exact A|pose proof (need_opos e); oroom R|apply F|apply F|exact T]|]. intros u m2 c2 Gv. rewrite len_app, len_op, Z.add_assoc. eapply gives_trans; eassumption.
  - intros o l IHl r IHr k ss en pc temps lps fr hp m bs O Pa L A S R Sh Cm C. cbn [ok_oe parsed_e lits_oe need_oe gen_oe] in *. apply andb_true_iff in O. destruct O as (O1 & O2). apply andb_true_iff in Pa. destruct Pa as (P1 & P2). rewrite <- !app_assoc in C. cbn [eval_o].
    pose proof (need_opos l) as Nl. pose proof (need_opos r) as Nr.
    eapply sim_bind; [eapply IHl; try eassumption; [eapply incl_l, L|oroom R]|]. intros a m1 c1 (hp1 & -> & F1 & T1). apply code_at_r in C.
    eapply sim_bind; [eapply (IHr k ss en _ (a :: temps)); try eassumption; [eapply incl_r, L|oroom R|apply F1|apply F1]|]. intros b m2 c2 (hp2 & -> & F2 & T2). apply code_at_r in C.
    eapply sim_conseq; [eapply sim_bin; [exact C|exact A|oroom R|apply F2|apply F2|eapply there_grows; [apply F2|exact T1]|exact T2]|]. intros u m3 c3 Gv.
    replace (pc + len (gen_oe K ss l ++ gen_oe K ss r ++ bop_code o)) with (pc + len (gen_oe K ss l) + len (gen_oe K ss r) + len (bop_code o)) by (rewrite !len_app; lia). eapply gives_trans; [eapply fine_trans; eassumption|exact Gv].
  - intros o l IHl r IHr k ss en pc temps lps fr hp m bs O Pa L A S R Sh Cm C. cbn [ok_oe parsed_e lits_oe need_oe gen_oe] in *. apply andb_true_iff in O. destruct O as (O1 & O2). apply andb_true_iff in Pa. destruct Pa as (P1 & P2). rewrite <- !app_assoc in C. cbn [eval_o]. set (br := gen_oe K ss r) in *.
    pose proof (need_opos l) as Nl. pose proof (need_opos r) as Nr.
    eapply sim_bind; [eapply IHl; try eassumption; [eapply incl_l, L|oroom R]|]. intros a m1 c1 (hp1 & -> & F1 & T1). apply code_at_r in C.
    set (p1 := pc + len (gen_oe K ss l)) in *. pose proof (code_at_r P _ _ _ C) as C2. rewrite len_op in C2.
    pose proof (code_at_r P _ _ _ C2) as C3. rewrite len_op in C3. pose proof (code_at_r P _ _ _ C3) as C4. rewrite len_enc8 in C4. pose proof (code_at_r P _ _ _ C4) as C5. rewrite len_op in C5.
    replace (pc + len (gen_oe K ss l ++ op O_DUP ++ op (sc_jump o) ++ enc8 (1 + len br) ++ op O_POP ++ br)) with (p1 + 11 + len br) by (rewrite !len_app, !len_op, len_enc8; unfold p1; lia).
    pose proof (stk_len _ _ temps A) as SL.
    assert (DD : goes 2 (atp p1 (a :: temps) en lps fr, hp1) (atp (if decides o a then p1 + 11 + len br else p1 + 10) (a :: temps) en lps fr, hp1)).
    { eapply (goes_trans 1 1); [exact (goes_dup p1 a (temps ++ vals (e_scopes en) ++ below) (e_globals en) (e_out en) lps fr hp1 _ C ltac:(rewrite SL; destruct R; lia))|].
      pose proof (goes_sc o _ a (a :: temps ++ vals (e_scopes en) ++ below) (e_globals en) (e_out en) lps fr hp1 _ _ C2 ltac:(rewrite len_app, len_app, len_op; pose proof (len_nonneg br); pose proof (len_nonneg bs); lia)) as Go.
      replace (if decides o a then p1 + 11 + len br else p1 + 10) with (if decides o a then p1 + 1 + 9 + (1 + len br) else p1 + 1 + 9) by (destruct (decides o a); lia). exact Go. }
    eapply sim_go; [exact DD|]. destruct (decides o a).
    + apply sim_done. eapply gives_trans; [exact F1|]. apply gives_here; [apply F1|apply F1|exact T1].
    + replace (p1 + 1 + 1 + 8) with (p1 + 10) in * by lia. eapply sim_go; [exact (goes_pop _ a (temps ++ vals (e_scopes en) ++ below) (e_globals en) (e_out en) lps fr hp1 _ C4)|].
      eapply sim_conseq; [eapply (IHr k ss en _ temps lps fr hp1 m1); try eassumption; [eapply incl_r, L|oroom R|apply F1|apply F1]|].
      intros u m2 c2 Gv. fold br in Gv. replace (p1 + 11 + len br) with (p1 + 10 + 1 + len br) by lia. eapply gives_trans; eassumption.
  - intros c IHc a IHa b IHb k ss en pc temps lps fr hp m bs O Pa L A S R Sh Cm C. cbn [ok_oe parsed_e lits_oe need_oe gen_oe] in *. apply andb_true_iff in O. destruct O as (O & O3). apply andb_true_iff in O. destruct O as (O1 & O2). apply andb_true_iff in Pa. destruct Pa as (Pa & P3). apply andb_true_iff in Pa. destruct Pa as (P1 & P2).
    rewrite <- !app_assoc in C. cbn [eval_o]. set (ba := gen_oe K ss a) in *. set (bd := gen_oe K ss b) in *. pose proof (need_opos c) as Nc. pose proof (need_opos a) as Na. pose proof (need_opos b) as Nb.
    eapply sim_bind; [eapply IHc; try eassumption; [eapply incl_l, L|oroom R]|]. intros v m1 c1 (hp1 & -> & F1 & T1). apply code_at_r in C.
    set (p1 := pc + len (gen_oe K ss c)) in *. pose proof (code_at_r P _ _ _ C) as C2. rewrite len_op in C2. pose proof (code_at_r P _ _ _ C2) as C3. rewrite len_enc8 in C3.
    pose proof (code_at_r P _ _ _ C3) as C4. pose proof (code_at_r P _ _ _ C4) as C5. rewrite len_op in C5. pose proof (code_at_r P _ _ _ C5) as C6. rewrite len_enc8 in C6.
    replace (pc + len (gen_oe K ss c ++ op O_BRF_8 ++ enc8 (len ba + 9) ++ ba ++ op O_BR_8 ++ enc8 (len bd) ++ bd)) with (p1 + 18 + len ba + len bd) by (rewrite !len_app, !len_op, !len_enc8; unfold p1; lia).
    pose proof (len_nonneg ba). pose proof (len_nonneg bd). pose proof (len_nonneg bs).
    eapply sim_go; [exact (goes_brf p1 v (temps ++ vals (e_scopes en) ++ below) (e_globals en) (e_out en) lps fr hp1 _ _ C ltac:(rewrite !len_app, !len_op, !len_enc8; lia))|]. destruct (is_falsey v).
    + replace (p1 + 9 + (len ba + 9)) with (p1 + 1 + 8 + len ba + 1 + 8) by lia. eapply sim_conseq; [eapply (IHb k ss en _ temps lps fr hp1 m1); try eassumption; [eapply incl_r, incl_r, L|oroom R|apply F1|apply F1]|].
      intros u m2 c2 Gv. fold bd in Gv. replace (p1 + 18 + len ba + len bd) with (p1 + 1 + 8 + len ba + 1 + 8 + len bd) by lia. eapply gives_trans; eassumption.
    + replace (p1 + 9) with (p1 + 1 + 8) by lia. destruct (IHa k ss en _ temps lps fr hp1 m1 _ O2 P2 ltac:(eapply incl_l, incl_r, L) A S ltac:(oroom R) ltac:(apply F1) ltac:(apply F1) C3) as (x & Hx & X). exists x. split; [exact Hx|]. destruct x as [u m2|e m2| | |]; try exact X.
      destruct X as (c2 & Go & hp2 & -> & F2 & T2). fold ba in Go. eexists. split; [eapply goes_then; [exact Go|exact (goes_br _ (u :: temps ++ vals (e_scopes en) ++ below) (e_globals en) (e_out en) lps fr hp2 _ _ C4 ltac:(eapply code_in; [exact C4|rewrite !len_app; lia]))]|].
      replace (p1 + 18 + len ba + len bd) with (p1 + 1 + 8 + len ba + 9 + len bd) by lia. exists hp2. split; [reflexivity|]. split; [eapply fine_trans; eassumption|exact T2].
  - intros es IH k ss en pc temps lps fr hp m bs O Pa L A S R Sh Cm C. cbn [ok_oe parsed_e lits_oe need_oe gen_oe] in *. rewrite <- !app_assoc in C. rewrite eq_list.
    eapply sim_go; [eapply (goes_const _ _ VEnd); [exact C|rewrite (stk_len _ _ _ A); destruct R; lia|auto 6]|]. apply code_at_r in C. rewrite len_op in C.
    eapply sim_bind; [eapply (IH k ss en _ (VEnd :: temps)); try eassumption; oroom R|]. intros xs m1 c1 (hp1 & -> & F1 & T1 & _). apply code_at_r in C.
    replace (pc + len (op O_END ++ gen_as K ss es ++ op O_NEWLIST)) with (pc + 1 + len (gen_as K ss es) + 1) by (rewrite !len_app, !len_op; lia).
    eapply sim_conseq; [eapply sim_both|intros u m3 c3 Gv; eapply gives_trans; eassumption].
    + eapply list_literal_in; [apply F1|eapply next_atp, C|unfold atp; cbn [mk v_stk]; rewrite <- app_assoc; reflexivity|]. eapply Forall_impl; [|exact T1]. intros u. apply there_not_end.
    + intros m2 v E. unfold list_spec in E. injection E as <- <-. apply fresh_list_ok; [apply F1|apply (sh_next _ _ (proj1 F1))|exact T1].
  - intros es IH k ss en pc temps lps fr hp m bs O Pa L A S R Sh Cm C. cbn [ok_oe parsed_e lits_oe need_oe gen_oe] in *. apply andb_true_iff in Pa. destruct Pa as (P1 & P2). rewrite <- !app_assoc in C. rewrite eq_table.
    eapply sim_go; [eapply (goes_const _ _ VEnd); [exact C|rewrite (stk_len _ _ _ A); destruct R; lia|auto 6]|]. apply code_at_r in C. rewrite len_op in C.
    eapply sim_bind; [eapply (IH k ss en _ (VEnd :: temps)); try eassumption; oroom R|]. intros xs m1 c1 (hp1 & -> & F1 & T1 & Lx). apply code_at_r in C.
    replace (pc + len (op O_END ++ gen_as K ss es ++ op O_NEWTABLE)) with (pc + 1 + len (gen_as K ss es) + 1) by (rewrite !len_app, !len_op; lia).
    apply Nat.even_spec in P2. destruct P2 as (n & P2). pose proof (pushed_pairs n xs ltac:(lia)) as PP.
    eapply sim_conseq; [eapply sim_both|intros u m3 c3 Gv; eapply gives_trans; eassumption].
    + eapply table_literal_in; [exact HF|apply F1|eapply next_atp, C|unfold atp; cbn [mk v_stk]; rewrite PP, <- app_assoc; reflexivity|]. eapply Forall_impl; [|apply pairs_all, T1]. intros u (U1 & U2). eapply there_not_end, U2.
    + intros m2 v E. eapply table_ok; [apply F1|apply (sh_next _ _ (proj1 F1))|apply pairs_all, T1|exact E].
  - intros l IHl r IHr k ss en pc temps lps fr hp m bs O Pa L A S R Sh Cm C. cbn [ok_oe parsed_e lits_oe need_oe gen_oe] in *. apply andb_true_iff in O. destruct O as (O1 & O2). apply andb_true_iff in Pa. destruct Pa as (P1 & P2). rewrite <- !app_assoc in C. cbn [eval_o].
    pose proof (need_opos l) as Nl. pose proof (need_opos r) as Nr.
    eapply sim_bind; [eapply IHl; try eassumption; [eapply incl_l, L|oroom R]|]. intros a m1 c1 (hp1 & -> & F1 & T1). apply code_at_r in C.
    eapply sim_bind; [eapply (IHr k ss en _ (a :: temps)); try eassumption; [eapply incl_r, L|oroom R|apply F1|apply F1]|]. intros b m2 c2 (hp2 & -> & F2 & T2). apply code_at_r in C.
    replace (pc + len (gen_oe K ss l ++ gen_oe K ss r ++ op O_GET)) with (pc + len (gen_oe K ss l) + len (gen_oe K ss r) + 1) by (rewrite !len_app, len_op; lia).
    eapply sim_conseq; [eapply sim_val|intros u m3 c3 Gv; eapply gives_trans; [eapply fine_trans; eassumption|exact Gv]].
    + eapply get_in; [exact HF|apply F2|eapply next_atp, C|reflexivity|]. eapply o_fits; [exact A|exact R|cbn [length]; lia].
    + apply F2.
    + intros v E. eapply index_there; [apply F2|exact E].
  - intros c IHc x es IH k ss en pc temps lps fr hp m bs O Pa L A S R Sh Cm C. cbn [ok_oe parsed_e lits_oe need_oe gen_oe] in *. apply andb_true_iff in O. destruct O as (O1 & O2). apply andb_true_iff in Pa. destruct Pa as (Pa & _). apply andb_true_iff in Pa. destruct Pa as (P1 & P2).
    rewrite eq_meth. change (op O_INIT_MC ++ [1] ++ enc8 (Gen.index_of K (VStr x))) with (mc_code x) in *. rewrite <- !app_assoc in C. pose proof (need_opos c) as Nc.
    eapply sim_bind; [eapply IHc; try eassumption; [eapply incl_l, L|oroom R]|]. intros v m1 c1 (hp1 & -> & F1 & T1). apply code_at_r in C.
    replace (pc + len (gen_oe K ss c ++ mc_code x ++ gen_as K ss es ++ op O_CALL)) with (pc + len (gen_oe K ss c) + 10 + len (gen_as K ss es) + 1) by (rewrite !len_app, len_op, len_mc; lia).
    eapply sim_conseq; [eapply sim_meth|intros u m3 c3 Gv; eapply gives_trans; eassumption]; try eassumption.
    + apply (incl_r _ _ _ L). left. reflexivity.
    + oroom R.
    + apply F1.
    + apply F1.
    + intros pc1 temps1 fr1 bs1 C1 R1. eapply IH; try eassumption; [|apply F1|apply F1]. intros u HI. apply (incl_r _ _ _ L). right. exact HI.
  - intros k ss en pc temps lps fr hp m bs O Pa L A S R Sh Cm C. apply sim_done. exists hp. cbn [gen_as length_o rev app]. change (len []) with 0. rewrite Z.add_0_r. split; [reflexivity|]. split; [apply fine_refl; assumption|]. split; [constructor|reflexivity].
  - intros e IHe r IHr k ss en pc temps lps fr hp m bs O Pa L A S R Sh Cm C. cbn [ok_as parsed_as lits_as need_as gen_as] in *. apply andb_true_iff in O. destruct O as (O1 & O2). apply andb_true_iff in Pa. destruct Pa as (P1 & P2). rewrite <- !app_assoc in C. rewrite eq_cons.
    eapply sim_bind; [eapply IHe; try eassumption; [eapply incl_l, L|oroom R]|]. intros a m1 c1 (hp1 & -> & F1 & T1). apply code_at_r in C.
    eapply sim_bind; [eapply (IHr k ss en _ (a :: temps)); try eassumption; [eapply incl_r, L|oroom R|apply F1|apply F1]|]. intros vs m2 c2 (hp2 & -> & F2 & T2 & Lv).
    apply sim_done. exists hp2. split; [rewrite len_app, Z.add_assoc; cbn [rev]; rewrite <- app_assoc; reflexivity|]. split; [eapply fine_trans; eassumption|]. split; [|cbn [length length_o]; lia]. constructor; [eapply there_grows; [apply F2|exact T1]|exact T2].
Qed.

(** ** Statements. *)
Definition outo (st : ost) : list Z := e_out (o_env st).
(** nothing was lost; a table that nothing was stored in is as it was *)
Definition later (st : ost) (hp : heap) (st' : ost) (hp' : heap) : Prop :=
  grows (o_mem st) (o_mem st') /\ hp_next hp <= hp_next hp' /\ (forall p, (o_stores st p <= o_stores st' p)%nat) /\
  (forall p, p < hp_next hp -> o_stores st' p = o_stores st p -> hp_tab hp' p = hp_tab hp p).
Lemma later_trans s1 h1 s2 h2 s3 h3 : later s1 h1 s2 h2 -> later s2 h2 s3 h3 -> later s1 h1 s3 h3.
Proof.
  intros (A & B & C & E) (A2 & B2 & C2 & E2). split; [eapply grows_trans; eassumption|]. split; [lia|]. split; [intros p; specialize (C p); specialize (C2 p); lia|].
  intros p L Q. specialize (C p). specialize (C2 p). rewrite E2 by lia. apply E; lia.
Qed.
Lemma later_refl st hp : later st hp st hp.
Proof. split; [apply grows_refl|]. split; [lia|]. split; [lia|auto]. Qed.
Lemma later_fine st hp m' hp' : fine hp (o_mem st) hp' m' -> later st hp (set_mem st m') hp'.
Proof. intros (A & B & C & E & F). split; [exact C|]. split; [exact E|]. split; [cbn; lia|]. intros p L _. apply F; [exact L|discriminate]. Qed.
Lemma later_env st hp st' hp' en en' : later st hp st' hp' -> later (set_env st en) hp (set_env st' en') hp'.
Proof. intros X. exact X. Qed.
Definition good_st (st : ost) (hp : heap) : Prop := shows hp (o_mem st) /\ complete (o_mem st).

(** where a statement that finished leaves the machine *)
Definition left_at (ss ss' : list scope) (np bp cp : Z) (d : nat) (lps : list (value * Z)) (fr : list frame * Z) (st : ost) (hp : heap) (sg : signal) (st' : ost) (c : cfg) : Prop :=
  exists hp', c = (match sg with Normal => atp np [] (o_env st') lps fr | Break => atp bp [VBool false] (o_env st') lps fr | Continue => atp cp [] (o_env st') lps fr end, hp') /\
    agree (match sg with Normal => ss' | _ => ss end) (e_scopes (o_env st')) /\ good_st st' hp' /\ later st hp st' hp' /\ (sg <> Normal -> d = O).
Lemma left_later ss ss' np bp cp d lps fr st hp st1 hp1 sg st' c : later st hp st1 hp1 -> left_at ss ss' np bp cp d lps fr st1 hp1 sg st' c -> left_at ss ss' np bp cp d lps fr st hp sg st' c.
Proof. intros L (hp' & E & A & B & L2 & J). exists hp'. split; [exact E|]. split; [exact A|]. split; [exact B|]. split; [eapply later_trans; eassumption|exact J]. Qed.
Lemma left_normal ss ss' np bp cp d lps fr st hp st' hp' : agree ss' (e_scopes (o_env st')) -> good_st st' hp' -> later st hp st' hp' -> left_at ss ss' np bp cp d lps fr st hp Normal st' (atp np [] (o_env st') lps fr, hp').
Proof. intros A B C. exists hp'. split; [reflexivity|]. split; [exact A|]. split; [exact B|]. split; [exact C|congruence]. Qed.

Definition s_ok (n : nat) (s : ostmt) : Prop := forall ss st hp B pos cps lps lp d fr bs,
  ok_os G ss lp s = true -> incl (lits_os s) K -> parsed_o s = true -> jumps_ok_o d s = true -> agree ss (e_scopes (o_env st)) -> ss <> [] ->
  Z.of_nat (peak_o (Z.to_nat (scope_len ss)) s) <= 128 -> o_room ss [] fr (need_o s) -> Z.of_nat (length lps) + Z.of_nat (for_depth_o s) <= 16 ->
  0 <= B -> 0 <= pos -> Forall (fun t => 0 <= t <= pos) cps -> good_st st hp ->
  code_at (B + pos) (gen_os K ss pos cps s ++ bs) ->
  sim n outo (atp (B + pos) [] (o_env st) lps fr, hp) (exec_o h D n s st) (left_at ss (after_o ss s) (B + pos + len (gen_os K ss pos cps s)) (B + brk cps) (B + cont cps) d lps fr st hp).

(** an expression in a statement *)
Lemma sim_ev k e ss st temps pc lps fr hp bs kont Q :
  ok_oe G ss e = true -> parsed_e e = true -> incl (lits_oe e) K -> agree ss (e_scopes (o_env st)) -> scope_len ss <= 128 -> o_room ss temps fr (need_oe e) -> good_st st hp -> code_at pc (gen_oe K ss e ++ bs) ->
  (forall v m' hp', fine hp (o_mem st) hp' m' -> there m' v -> sim k outo (atp (pc + len (gen_oe K ss e)) (v :: temps) (o_env st) lps fr, hp') (kont v (set_mem st m')) Q) ->
  sim k outo (atp pc temps (o_env st) lps fr, hp) (Obj.ev h D st e kont) Q.
Proof.
  intros O Pa L A S R (Sh & Cm) C F. unfold Obj.ev. eapply sim_next; [eapply (proj1 sim_e_as e); eassumption|reflexivity|]. intros v m' c' (hp' & -> & Fi & T). apply F; assumption.
Qed.
Lemma quiet_res k e ss st kont c Q : quiet_o e = true -> ok_oe G ss e = true -> agree ss (e_scopes (o_env st)) -> (forall v, sim k outo c (kont v (set_mem st (o_mem st))) Q) -> sim k outo c (Obj.ev h D st e kont) Q.
Proof.
  intros Qe O A F. unfold Obj.ev. destruct e; try discriminate Qe; cbn [eval_o];
    try (match goal with |- sim _ _ _ (next (only (Done ?v _)) _ _) _ => destruct (F v) as (x & Hx & X) end; exists x; split; [eexists; split; [reflexivity|exact Hx]|exact X]).
  cbn [ok_oe] in O. assert (RV : exists v, read_var h (o_env st) x = RVal v).
  { pose proof (get_var _ x _ A) as Gv. unfold known, read_var in *. destruct (scope_get ss x) as [z|].
    - destruct Gv as (k0 & v & n & Fi & _). rewrite Fi. eauto.
    - rewrite Gv, HG. destruct (assoc G x); [|discriminate]. cbn. eauto. }
  destruct RV as (v & ->). destruct (is_there (o_mem st) v).
  - destruct (F v) as (y & Hy & Y). exists y. split; [eexists; split; [reflexivity|exact Hy]|exact Y].
  - exists Open. split; [eexists; split; [reflexivity|reflexivity]|exact I].
Qed.
Lemma truthy_res k e st kont c Q : o_truthy e = true -> (forall v, is_falsey v = false -> sim k outo c (kont v (set_mem st (o_mem st))) Q) -> sim k outo c (Obj.ev h D st e kont) Q.
Proof.
  intros T F. unfold Obj.ev. destruct e; try discriminate T; cbn [eval_o];
    (match goal with |- sim _ _ _ (next (only (Done ?v _)) _ _) _ => destruct (F v) as (x & Hx & X) end; [cbn in T; try subst; reflexivity|]; exists x; split; [eexists; split; [reflexivity|exact Hx]|exact X]).
Qed.
Lemma falsey_res k e st kont c Q : o_falsey e = true -> (forall v, is_falsey v = true -> sim k outo c (kont v (set_mem st (o_mem st))) Q) -> sim k outo c (Obj.ev h D st e kont) Q.
Proof.
  intros T F. unfold Obj.ev. destruct e; try discriminate T; cbn [eval_o];
    (match goal with |- sim _ _ _ (next (only (Done ?v _)) _ _) _ => destruct (F v) as (x & Hx & X) end; [cbn in *; try exact T; reflexivity|]; exists x; split; [eexists; split; [reflexivity|exact Hx]|exact X]).
Qed.
Lemma peak_ge_o s : forall d, (d <= peak_o d s)%nat.
Proof.
  induction s; intros d; cbn [peak_o]; try lia; try (specialize (IHs1 d); lia); try (specialize (IHs d); lia).
  specialize (IHs (S d)). lia.
Qed.
Lemma peak_len_o ss s : Z.of_nat (peak_o (Z.to_nat (scope_len ss)) s) <= 128 -> scope_len ss <= 128.
Proof. intros Q. pose proof (peak_ge_o s (Z.to_nat (scope_len ss))). lia. Qed.
Lemma after_len_o s ss : ss <> [] -> scope_len (after_o ss s) = scope_len ss + Z.of_nat (decls_o s).
Proof. intros N. destruct ss as [|t r]; [congruence|]. destruct (after_shape_o s t r) as (u & E & L & _). rewrite E, !scope_len_cons, L. lia. Qed.
Lemma room_le_o ss fr n k : o_room ss [] fr n -> (k <= n)%nat -> o_room ss [] fr k.
Proof. intros (A & B) L. split; cbn [length] in *; lia. Qed.
Lemma s_range cps p : Forall (fun t => 0 <= t <= p) cps -> 0 <= p -> 0 <= brk cps <= p /\ 0 <= cont cps <= p.
Proof. intros F Q. destruct cps as [|a [|b cps]]; cbn [brk cont]; try lia; inversion F as [|? ? ? F2]; subst; try lia. inversion F2; subst. lia. Qed.
Lemma cps_le cps p q : Forall (fun t => 0 <= t <= p) cps -> p <= q -> Forall (fun t => 0 <= t <= q) cps.
Proof. intros F Q. eapply Forall_impl; [|exact F]. cbn. lia. Qed.
Lemma scopes_cons u ss es : agree (u :: ss) es -> exists b q, es = b :: q /\ length b = length u /\ agree ss q.
Proof. destruct es as [|b q]; cbn [agree]; [tauto|]. intros (A & B). exists b, q. split; [reflexivity|]. split; [eapply agree1_length; exact A|exact B]. Qed.
Lemma fresh_var ss en x : fresh ss x = true -> agree ss (e_scopes en) -> forall k v, exists b q, e_scopes en = b :: q /\ declare_var en x k v = Some (set_escopes en (((x, (k, v)) :: b) :: q)).
Proof.
  intros F A k v. unfold fresh, declare_var in *. destruct ss as [|s r]; [discriminate|]. destruct (e_scopes en) as [|b q]; [destruct A|]. destruct A as (A1 & A2). exists b, q. split; [reflexivity|].
  pose proof (assoc1 _ _ x _ (scope_len_nonneg r) A1) as Q. destruct (assoc s x); [discriminate|]. rewrite Q. reflexivity.
Qed.
Lemma good_next st hp hp' m' : fine hp (o_mem st) hp' m' -> good_st (set_mem st m') hp'.
Proof. intros F. split; apply F. Qed.

(** One iteration of a while loop. *)
Lemma sim_while_o n c b : s_ok n b -> forall m st hp ss B pos cps lps fr bs,
  (m <= n)%nat -> ok_oe G ss c = true -> ok_os G ss true b = true -> parsed_e c = true -> incl (lits_oe c) K -> incl (lits_os b) K -> parsed_o b = true -> no_decls_o b = true -> jumps_ok_o 0 b = true ->
  agree ss (e_scopes (o_env st)) -> ss <> [] -> Z.of_nat (peak_o (Z.to_nat (scope_len ss)) b) <= 128 -> o_room ss [] fr (need_oe c) -> o_room ss [] fr (need_o b) ->
  Z.of_nat (length lps) + Z.of_nat (for_depth_o b) <= 16 -> 0 <= B -> 0 <= pos -> Forall (fun t => 0 <= t <= pos) cps -> good_st st hp ->
  (let bc := gen_oe K ss c in let ck := pos + len bc in let bb := gen_os K ss (ck + 9) (ck :: pos :: cps) b in
   code_at (B + pos) ((bc ++ op O_BRF_8 ++ enc8 (len bb + 9) ++ bb ++ back (ck + 9 + len bb) pos) ++ bs) ->
   forall bp cp d, sim m outo (atp (B + pos) [] (o_env st) lps fr, hp) (while_o (fun st => Obj.ev h D st c) (exec_o h D n b) m st) (left_at ss ss (B + ck + 18 + len bb) bp cp d lps fr st hp)).
Proof.
  intros IHb m. induction m as [|m IHm]; intros st hp ss B pos cps lps fr bs Hm Oc Ob Pc Lc Lb W Dc J A NE Pk Rc Rb Fd HB Hp Fc Gs bc ck bb C bp cp d.
  - exists Fuel. split; [reflexivity|]. exists 0%nat, (atp (B + pos) [] (o_env st) lps fr), hp. split; [lia|reflexivity].
  - cbn [while_o]. pose proof C as C0. rewrite <- !app_assoc in C.
    pose proof (len_nonneg bc) as Lbc. pose proof (len_nonneg bb) as Lbb. pose proof (len_nonneg bs) as Lbs.
    eapply sim_ev; [exact Oc|exact Pc|exact Lc|exact A|apply (peak_len_o _ _ Pk)|exact Rc|exact Gs|exact C|]. intros v m' hp1 F1 T1. apply code_at_r in C. fold bc in C |- *. replace (B + pos + len bc) with (B + ck) in * by (unfold ck; lia).
    set (st1 := set_mem st m'). pose proof (later_fine _ _ _ _ F1) as L1. fold st1 in L1. pose proof (good_next _ _ _ _ F1) as G1. fold st1 in G1.
    assert (BR : forall v en hp, goes 1 (atp (B + ck) [v] en lps fr, hp) (atp (if is_falsey v then B + ck + 18 + len bb else B + (ck + 9)) [] en lps fr, hp)).
    { intros v' en hp'. pose proof (goes_brf _ v' (vals (e_scopes en) ++ below) (e_globals en) (e_out en) lps fr hp' _ _ C ltac:(rewrite len_app, len_app, len_back; lia)) as Go.
      replace (if is_falsey v' then B + ck + 18 + len bb else B + (ck + 9)) with (if is_falsey v' then B + ck + 9 + (len bb + 9) else B + ck + 9) by (destruct (is_falsey v'); lia). exact Go. }
    change (S m) with (1 + m)%nat. eapply sim_pre; [exact (BR v (o_env st) hp1)|]. destruct (is_falsey v).
    + apply sim_done. apply (left_normal _ _ _ _ _ _ _ _ _ _ st1 hp1); [exact A|exact G1|exact L1].
    + pose proof (code_at_r P _ _ _ (code_at_r P _ _ _ C)) as C2. rewrite len_op, len_enc8 in C2. replace (B + ck + 1 + 8) with (B + (ck + 9)) in C2 by lia.
      assert (Fc' : Forall (fun t => 0 <= t <= ck + 9) (ck :: pos :: cps)). { constructor; [unfold ck; lia|]. constructor; [unfold ck; lia|]. eapply cps_le; [exact Fc|unfold ck; lia]. }
      pose proof (IHb ss st1 hp1 B (ck + 9) (ck :: pos :: cps) lps true 0%nat fr _ Ob Lb W J A NE Pk Rb Fd HB ltac:(unfold ck; lia) Fc' G1 C2) as R. fold bb in R.
      apply code_at_r in C2. fold bb in C2. rewrite (after_none_o b ss NE Dc) in R. replace (B + (ck + 9) + len bb) with (B + (ck + 9 + len bb)) in * by lia. cbn [brk cont] in R.
      eapply sim_bind; [eapply sim_weak; [exact R|lia]|]. intros sg st2 c2 (hp2 & -> & A2 & G2 & L2 & _).
      assert (NX : sim m outo (atp (B + pos) [] (o_env st2) lps fr, hp2) (while_o (fun st => Obj.ev h D st c) (exec_o h D n b) m st2) (left_at ss ss (B + ck + 18 + len bb) bp cp d lps fr st hp)).
      { eapply sim_conseq; [apply (IHm st2 hp2 ss B pos cps lps fr bs ltac:(lia) Oc Ob Pc Lc Lb W Dc J ltac:(destruct sg; exact A2) NE Pk Rc Rb Fd HB Hp Fc G2 C0 bp cp d)|]. intros sg3 st3 c3. apply left_later. eapply later_trans; eassumption. }
      destruct sg.
      * eapply sim_go; [exact (goes_back B _ pos _ _ _ _ _ _ _ C2 HB ltac:(unfold ck; lia))|exact NX].
      * eapply sim_go; [exact (BR (VBool false) (o_env st2) hp2)|]. apply sim_done. apply left_normal; [exact A2|exact G2|eapply later_trans; eassumption].
      * exact NX.
Qed.

(** One iteration of a loop with a post statement; the turn starts at the condition. *)
Lemma assigns_jumps s d : assigns_o s = true -> jumps_ok_o d s = true.
Proof. destruct s; (reflexivity || discriminate). Qed.
Lemma assigns_peak s d : assigns_o s = true -> peak_o d s = d.
Proof. destruct s; (reflexivity || discriminate). Qed.
Lemma assigns_fors s : assigns_o s = true -> for_depth_o s = O.
Proof. destruct s; (reflexivity || discriminate). Qed.
Lemma sim_whilepost_o n c b p : s_ok n b -> s_ok n p -> forall m st hp ss B pos cps lps fr bs lp,
  (m <= n)%nat -> ok_oe G ss c = true -> ok_os G ss true b = true -> ok_os G ss lp p = true -> parsed_e c = true -> incl (lits_oe c) K -> incl (lits_os b) K -> incl (lits_os p) K ->
  parsed_o b = true -> no_decls_o b = true -> jumps_ok_o 0 b = true -> parsed_o p = true -> assigns_o p = true ->
  agree ss (e_scopes (o_env st)) -> ss <> [] -> Z.of_nat (peak_o (Z.to_nat (scope_len ss)) b) <= 128 -> o_room ss [] fr (need_oe c) -> o_room ss [] fr (need_o b) -> o_room ss [] fr (need_o p) ->
  Z.of_nat (length lps) + Z.of_nat (for_depth_o b) <= 16 -> 0 <= B -> 0 <= pos -> Forall (fun t => 0 <= t <= pos) cps -> good_st st hp ->
  (let bp := gen_os K ss (pos + 9) cps p in let bc := gen_oe K ss c in let q := pos + 9 + len bp in let ck := q + len bc in let bb := gen_os K ss (ck + 9) (ck :: (pos + 9) :: cps) b in
   code_at (B + (pos + 9)) ((bp ++ bc ++ op O_BRF_8 ++ enc8 (len bb + 9) ++ bb ++ back (ck + 9 + len bb) (pos + 9)) ++ bs) ->
   forall bk ct d, sim m outo (atp (B + q) [] (o_env st) lps fr, hp)
     (while_o (fun st => Obj.ev h D st c) (fun st => bindr (exec_o h D n b st) (fun sg st => match sg with Break => only (Done Break st) | _ => exec_o h D n p st end)) m st)
     (left_at ss ss (B + ck + 18 + len bb) bk ct d lps fr st hp)).
Proof.
  intros IHb IHp m. induction m as [|m IHm]; intros st hp ss B pos cps lps fr bs lp Hm Oc Ob Op Pc Lc Lb Lp W Dc J Wp Ap A NE Pk Rc Rb Rp Fd HB Hp Fc Gs bp bc q ck bb C bk ct d.
  - exists Fuel. split; [reflexivity|]. exists 0%nat, (atp (B + q) [] (o_env st) lps fr), hp. split; [lia|reflexivity].
  - cbn [while_o]. pose proof C as C0. rewrite <- !app_assoc in C. pose proof C as Cp.
    pose proof (len_nonneg bp) as Lbp. pose proof (len_nonneg bc) as Lbc. pose proof (len_nonneg bb) as Lbb. pose proof (len_nonneg bs) as Lbs.
    apply code_at_r in C. replace (B + (pos + 9) + len bp) with (B + q) in C by (unfold q; lia).
    eapply sim_ev; [exact Oc|exact Pc|exact Lc|exact A|apply (peak_len_o _ _ Pk)|exact Rc|exact Gs|exact C|]. intros v m' hp1 F1 T1. apply code_at_r in C. fold bc in C |- *. replace (B + q + len bc) with (B + ck) in * by (unfold ck; lia).
    set (st1 := set_mem st m'). pose proof (later_fine _ _ _ _ F1) as L1. fold st1 in L1. pose proof (good_next _ _ _ _ F1) as G1. fold st1 in G1.
    assert (BR : forall v en hp, goes 1 (atp (B + ck) [v] en lps fr, hp) (atp (if is_falsey v then B + ck + 18 + len bb else B + (ck + 9)) [] en lps fr, hp)).
    { intros v' en hp'. pose proof (goes_brf _ v' (vals (e_scopes en) ++ below) (e_globals en) (e_out en) lps fr hp' _ _ C ltac:(rewrite len_app, len_app, len_back; lia)) as Go.
      replace (if is_falsey v' then B + ck + 18 + len bb else B + (ck + 9)) with (if is_falsey v' then B + ck + 9 + (len bb + 9) else B + ck + 9) by (destruct (is_falsey v'); lia). exact Go. }
    change (S m) with (1 + m)%nat. eapply sim_pre; [exact (BR v (o_env st) hp1)|]. destruct (is_falsey v).
    + apply sim_done. apply (left_normal _ _ _ _ _ _ _ _ _ _ st1 hp1); [exact A|exact G1|exact L1].
    + pose proof (code_at_r P _ _ _ (code_at_r P _ _ _ C)) as C2. rewrite len_op, len_enc8 in C2. replace (B + ck + 1 + 8) with (B + (ck + 9)) in C2 by lia.
      assert (Fc' : Forall (fun t => 0 <= t <= ck + 9) (ck :: (pos + 9) :: cps)). { constructor; [unfold ck, q; lia|]. constructor; [unfold ck, q; lia|]. eapply cps_le; [exact Fc|unfold ck, q; lia]. }
      pose proof (IHb ss st1 hp1 B (ck + 9) (ck :: (pos + 9) :: cps) lps true 0%nat fr _ Ob Lb W J A NE Pk Rb Fd HB ltac:(unfold ck, q; lia) Fc' G1 C2) as R. fold bb in R.
      apply code_at_r in C2. fold bb in C2. rewrite (after_none_o b ss NE Dc) in R. replace (B + (ck + 9) + len bb) with (B + (ck + 9 + len bb)) in * by lia. cbn [brk cont] in R.
      assert (R' : sim m outo (atp (B + (ck + 9)) [] (o_env st1) lps fr, hp1) (bindr (exec_o h D n b st1) (fun sg st => match sg with Break => only (Done Break st) | _ => exec_o h D n p st end))
                     (left_at ss ss (B + q) (B + ck) (B + q) 0 lps fr st1 hp1)).
      { eapply sim_bind; [eapply sim_weak; [exact R|lia]|]. intros sg st2 c2 (hp2 & -> & A2 & G2 & L2 & _).
        assert (NX : agree ss (e_scopes (o_env st2)) -> sim m outo (atp (B + (pos + 9)) [] (o_env st2) lps fr, hp2) (exec_o h D n p st2) (left_at ss ss (B + q) (B + ck) (B + q) 0 lps fr st1 hp1)).
        { intros A2'. pose proof (IHp ss st2 hp2 B (pos + 9) cps lps lp 1%nat fr _ Op Lp Wp (assigns_jumps p 1 Ap) A2' NE ltac:(rewrite (assigns_peak p _ Ap); pose proof (peak_len_o _ _ Pk); pose proof (scope_len_nonneg ss); lia) Rp ltac:(rewrite (assigns_fors p Ap); lia) HB ltac:(lia) (cps_le cps pos (pos + 9) Fc ltac:(lia)) G2 Cp) as X.
          rewrite (after_none_o p ss NE (assigns_none p Ap)) in X. fold bp in X. replace (B + (pos + 9) + len bp) with (B + q) in X by (unfold q; lia).
          eapply sim_conseq; [eapply sim_weak; [exact X|lia]|]. intros sg3 st3 c3 (hp3 & E3 & A3 & G3 & L3 & D3). assert (sg3 = Normal) by (destruct sg3; [reflexivity|specialize (D3 ltac:(discriminate)); lia..]). subst sg3.
          exists hp3. split; [exact E3|]. split; [exact A3|]. split; [exact G3|]. split; [eapply later_trans; eassumption|congruence]. }
        destruct sg.
        - eapply sim_go; [exact (goes_back B _ (pos + 9) _ _ _ _ _ _ _ C2 HB ltac:(unfold ck, q; lia))|exact (NX A2)].
        - apply sim_done. exists hp2. split; [reflexivity|]. split; [exact A2|]. split; [exact G2|]. split; [exact L2|reflexivity].
        - exact (NX A2). }
      eapply sim_bind; [exact R'|]. intros sg st2 c2 (hp2 & -> & A2 & G2 & L2 & _).
      assert (NX : forall A2 : agree ss (e_scopes (o_env st2)), sim m outo (atp (B + q) [] (o_env st2) lps fr, hp2) (while_o (fun st => Obj.ev h D st c) (fun st => bindr (exec_o h D n b st) (fun sg st => match sg with Break => only (Done Break st) | _ => exec_o h D n p st end)) m st2) (left_at ss ss (B + ck + 18 + len bb) bk ct d lps fr st hp)).
      { intros A2'. eapply sim_conseq; [apply (IHm st2 hp2 ss B pos cps lps fr bs lp ltac:(lia) Oc Ob Op Pc Lc Lb Lp W Dc J Wp Ap A2' NE Pk Rc Rb Rp Fd HB Hp Fc G2 C0 bk ct d)|]. intros sg3 st3 c3. apply left_later. eapply later_trans; eassumption. }
      destruct sg.
      * exact (NX A2).
      * eapply sim_go; [exact (BR (VBool false) (o_env st2) hp2)|]. apply sim_done. apply left_normal; [exact A2|exact G2|eapply later_trans; eassumption].
      * exact (NX A2).
Qed.

(** ** Iteration. *)
Lemma writable_loopvar_o ss x : writable G (decl ([] :: ss) x false) x = true.
Proof.
  unfold writable, decl. cbn [scope_get assoc]. rewrite name_eqb_refl. unfold is_const. pose proof (scope_len_nonneg ([] :: ss)).
  destruct (Z.ltb_spec (scope_len ([] :: ss)) 0); [lia|reflexivity].
Qed.
Definition gives_next (cv : value) (ps : nat -> Z) (pick : nat -> ost -> option (option value)) (Inv : nat -> Prop) (st0 : ost) (hp0 : heap) : Prop :=
  forall i st hp s rest, Inv i -> later st0 hp0 st hp -> shows hp (o_mem st) -> next_op P s O_ITER_1 -> v_loops s = (cv, ps i) :: rest -> fits s 2 ->
  match pick i st with
  | None => True
  | Some o => h_step fuel w P s hp = HNext (next_is s (match o with Some v => Some (v, (cv, ps (Datatypes.S i))) | None => None end) rest) hp /\ (o <> None -> Inv (Datatypes.S i))
  end.
Lemma iterate_str s i v rest hp : next_op P s O_ITER_1 -> v_loops s = (VStr v, i) :: rest -> 0 <= i -> fits s 2 ->
  h_step fuel w P s hp = HNext (next_is s (match nth_error v (Z.to_nat i) with Some c => Some (VStr [c], (VStr v, i + 1)) | None => None end) rest) hp.
Proof.
  intros N El Hi (R1 & R2). destruct (PropHeap.step_op P s _ N) as (A & B).
  unfold h_step. rewrite A, B. cbn [set_pc v_loops]. rewrite El. unfold step, rd1. cbn [prog_at p_code]. rewrite A, B. unfold VM.exec, exec_iter. cbn [set_pc v_loops]. rewrite El. cbn [elements].
  unfold nthZ. destruct (Z.ltb_spec i 0); [lia|]. rewrite nth_error_map. destruct (nth_error v (Z.to_nat i)) as [c|]; cbn [option_map].
  - rewrite push_any; [|cbn [set_loops set_pc v_stk]; lia]. rewrite push_any; [|cbn [set_stk set_loops set_pc v_stk length]; lia]. reflexivity.
  - rewrite push_any; [|cbn [set_pc v_stk]; lia]. reflexivity.
Qed.
Lemma picks_ok st hp v : good_st st hp -> there (o_mem st) v -> iterable v = true -> exists pick ps Inv, picks st v pick /\ ps O = 0 /\ Inv O /\ gives_next v ps pick Inv st hp.
Proof.
  intros (Sh & Cm) T It. destruct v as [| | | | |s|p|p| | | | |]; try discriminate It.
  - exists (fun i _ => Some (option_map (fun c => VStr [c]) (nth_error s i))), Z.of_nat, (fun _ => True). split; [reflexivity|]. split; [reflexivity|]. split; [exact I|].
    intros i st' hp' s' rest _ _ _ N El Fi. split; [|auto]. rewrite (iterate_str s' _ s rest hp' N El ltac:(lia) Fi). rewrite Nat2Z.id. replace (Z.of_nat i + 1) with (Z.of_nat (Datatypes.S i)) by lia. destruct (nth_error s i); reflexivity.
  - exists (fun i st => option_map (fun xs => nth_error xs i) (m_list (o_mem st) p)), Z.of_nat, (fun _ => True). split; [reflexivity|]. split; [reflexivity|]. split; [exact I|].
    intros i st' hp' s' rest _ _ Sh' N El Fi. destruct (m_list (o_mem st') p) as [xs|] eqn:E; cbn [option_map]; [|exact I]. split; [|auto]. rewrite (C52_iterate_list fuel w P s' hp' _ p _ xs rest Sh' E N El ltac:(lia) Fi). rewrite Nat2Z.id. replace (Z.of_nat i + 1) with (Z.of_nat (Datatypes.S i)) by lia. reflexivity.
  - destruct (m_tab (o_mem st) p) as [kv|] eqn:E; [|destruct T; exact E].
    destruct (iterate_table_in fuel w hp _ p kv Sh E) as (keys & pos & Pe & P0 & H1). 
    exists (fun i st' => if (o_stores st' p =? o_stores st p)%nat then Some (nth_error keys i) else None), pos, (fun i => i <= length keys)%nat. split; [exists kv, keys; auto|]. split; [exact P0|]. split; [lia|].
    intros i st' hp' s' rest Li La Sh' N El Fi. destruct (Nat.eqb_spec (o_stores st' p) (o_stores st p)) as [Q|]; [|exact I]. destruct (sh_tab _ _ Sh _ _ E) as (_ & Lp & _). destruct (sh_next _ _ Sh) as (Nx & _).
    split; [apply H1; try assumption; apply La; [lia|exact Q]|]. intros Z1. apply nth_error_Some in Z1. lia.
Qed.
Lemma sim_for_o n x b cv ps pick Inv st0 hp0 : s_ok n b -> gives_next cv ps pick Inv st0 hp0 -> forall m i st hp ss B p cps lps fr bs,
  let ss' := decl ([] :: ss) x false in
  (m <= n)%nat -> Inv i -> later st0 hp0 st hp -> ok_os G ss' true b = true -> incl (lits_os b) K -> parsed_o b = true -> no_decls_o b = true -> jumps_ok_o 0 b = true ->
  agree ss' (e_scopes (o_env st)) -> Z.of_nat (peak_o (Z.to_nat (scope_len ss')) b) <= 128 -> o_room ss' [] fr 2 -> o_room ss' [] fr (need_o b) ->
  Z.of_nat (length lps) + 1 + Z.of_nat (for_depth_o b) <= 16 -> 0 <= B -> 0 <= p -> Forall (fun t => 0 <= t <= p) cps -> good_st st hp ->
  (let ck := p + 1 in let bx := store_code K ss' x in let bb := gen_os K ss' (ck + 9 + len bx) (ck :: p :: cps) b in
   code_at (B + p) ((op O_ITER_1 ++ op O_BRF_8 ++ enc8 (len bx + len bb + 9) ++ bx ++ bb ++ back (ck + 9 + len bx + len bb) p ++ op O_ENDFOR) ++ bs) ->
   forall bp cp d, sim m outo (atp (B + p) [] (o_env st) ((cv, ps i) :: lps) fr, hp) (each h pick x (exec_o h D n b) m i st) (left_at ss' ss' (B + ck + 19 + len bx + len bb) bp cp d lps fr st hp)).
Proof.
  intros IHb Hit m. induction m as [|m IHm]; intros i st hp ss B p cps lps fr bs ss' Hm Iv La Ob Lb W Dc J A Pk R2 Rb Fd HB Hp Fc Gs ck bx bb C bp cp d; pose proof C as C0; rewrite <- !app_assoc in C.
  all: pose proof (len_nonneg bx) as Lbx; pose proof (len_nonneg bb) as Lbb; pose proof (len_nonneg bs) as Lbs.
  all: pose proof (code_at_r P _ _ _ C) as C1; rewrite len_op in C1; replace (B + p + 1) with (B + ck) in C1 by (unfold ck; lia).
  all: pose proof (code_at_r P _ _ _ (code_at_r P _ _ _ C1)) as C2; rewrite len_op, len_enc8 in C2; replace (B + ck + 1 + 8) with (B + (ck + 9)) in C2 by lia.
  all: pose proof (code_at_r P _ _ _ C2) as C3; replace (B + (ck + 9) + len bx) with (B + (ck + 9 + len bx)) in C3 by lia.
  all: pose proof (code_at_r P _ _ _ C3) as C4; replace (B + (ck + 9 + len bx) + len bb) with (B + (ck + 9 + len bx + len bb)) in C4 by lia.
  all: pose proof (code_at_r P _ _ _ C4) as C5; rewrite len_back in C5; replace (B + (ck + 9 + len bx + len bb) + 9) with (B + ck + 18 + len bx + len bb) in C5 by lia.
  all: assert (BRs : forall v ts en j hp, goes 1 (atp (B + ck) (v :: ts) en ((cv, j) :: lps) fr, hp) (atp (if is_falsey v then B + ck + 18 + len bx + len bb else B + (ck + 9)) ts en ((cv, j) :: lps) fr, hp))
    by (intros v' ts en j hp'; pose proof (goes_brf _ v' (ts ++ vals (e_scopes en) ++ below) (e_globals en) (e_out en) ((cv, j) :: lps) fr hp' _ _ C1 ltac:(rewrite !len_app, len_back, len_op; lia)) as Go;
      replace (if is_falsey v' then B + ck + 18 + len bx + len bb else B + (ck + 9)) with (if is_falsey v' then B + ck + 9 + (len bx + len bb + 9) else B + ck + 9) by (destruct (is_falsey v'); lia); exact Go).
  all: assert (EF : forall en j hp, goes 1 (atp (B + ck + 18 + len bx + len bb) [] en ((cv, j) :: lps) fr, hp) (atp (B + ck + 19 + len bx + len bb) [] en lps fr, hp))
    by (intros en j hp'; eapply goes_op; [exact C5|exact I|]; cbn [VM.exec v_loops mk]; fin; lia).
  all: pose proof (Hit i st hp (atp (B + p) [] (o_env st) ((cv, ps i) :: lps) fr) lps Iv La (proj1 Gs) (next_atp _ _ _ _ _ _ _ C) eq_refl ltac:(eapply o_fits; [exact A|exact R2|cbn [length]; lia])) as Nx.
  all: cbn [each]; destruct (pick i st) as [[v|]|]; [|destruct Nx as (Nx & _)|apply sim_open].
  2,4: eapply sim_go; [apply goes_step; exact Nx|]; replace (next_is _ _ _) with (atp (B + ck) [VBool false] (o_env st) ((cv, ps i) :: lps) fr) by (unfold next_is, atp, mk, ck; cbn; rewrite Z.add_assoc; reflexivity);
    eapply sim_go; [exact (BRs (VBool false) [] (o_env st) (ps i) hp)|]; eapply sim_go; [exact (EF (o_env st) (ps i) hp)|]; apply sim_done; apply left_normal; [exact A|exact Gs|apply later_refl].
  - exists Fuel. split; [reflexivity|]. eexists 0%nat, _, _. split; [lia|reflexivity].
  - destruct Nx as (Nx & Iv'). specialize (Iv' ltac:(discriminate)).
    replace (next_is _ _ _) with (atp (B + ck) [VBool true; v] (o_env st) ((cv, ps (Datatypes.S i)) :: lps) fr) in Nx by (unfold next_is, atp, mk, ck; cbn; rewrite Z.add_assoc; reflexivity).
    change (Datatypes.S m) with (1 + m)%nat. eapply sim_pre; [apply goes_step, Nx|]. eapply sim_go; [exact (BRs (VBool true) [v] (o_env st) _ hp)|]. cbn [is_falsey].
    destruct (sim_store x v ss' (o_env st) (B + (ck + 9)) [] ((cv, ps (Datatypes.S i)) :: lps) fr hp _ (writable_loopvar_o ss x) A (peak_len_o _ _ Pk) C2) as (en1 & E1 & A1 & _ & Go1). rewrite E1. cbn [legally].
    replace (B + (ck + 9) + len (store_code K ss' x)) with (B + (ck + 9 + len bx)) in Go1 by (unfold bx; lia). eapply sim_go; [exact Go1|].
    assert (NE : ss' <> []) by discriminate.
    assert (Fc' : Forall (fun t => 0 <= t <= ck + 9 + len bx) (ck :: p :: cps)). { constructor; [unfold ck; lia|]. constructor; [unfold ck; lia|]. eapply cps_le; [exact Fc|unfold ck; lia]. }
    set (st1 := set_env st en1).
    pose proof (IHb ss' st1 hp B (ck + 9 + len bx) (ck :: p :: cps) ((cv, ps (Datatypes.S i)) :: lps) true 0%nat fr _ Ob Lb W J A1 NE Pk Rb ltac:(cbn [length]; lia) HB ltac:(unfold ck; lia) Fc' Gs C3) as R. fold bb in R.
    rewrite (after_none_o b ss' NE Dc) in R. replace (B + (ck + 9 + len bx) + len bb) with (B + (ck + 9 + len bx + len bb)) in R by lia. cbn [brk cont] in R.
    eapply sim_bind; [eapply sim_weak; [exact R|lia]|]. intros sg st2 c2 (hp2 & -> & A2 & G2 & L2 & _). assert (L2' : later st hp st2 hp2) by exact L2.
    assert (NX : sim m outo (atp (B + p) [] (o_env st2) ((cv, ps (Datatypes.S i)) :: lps) fr, hp2) (each h pick x (exec_o h D n b) m (Datatypes.S i) st2) (left_at ss' ss' (B + ck + 19 + len bx + len bb) bp cp d lps fr st hp)).
    { eapply sim_conseq; [apply (IHm (Datatypes.S i) st2 hp2 ss B p cps lps fr bs ltac:(lia) Iv' (later_trans _ _ _ _ _ _ La L2') Ob Lb W Dc J ltac:(destruct sg; exact A2) Pk R2 Rb Fd HB Hp Fc G2 C0 bp cp d)|]. intros sg3 st3 c3. apply left_later. exact L2'. }
    destruct sg.
    + eapply sim_go; [exact (goes_back B _ p _ _ _ _ _ _ _ C4 HB ltac:(unfold ck; lia))|exact NX].
    + eapply sim_go; [exact (BRs (VBool false) [] (o_env st2) _ hp2)|]. eapply sim_go; [exact (EF (o_env st2) _ hp2)|]. apply sim_done. apply left_normal; [exact A2|exact G2|exact L2'].
    + exact NX.
Qed.

(** ** All statements. *)
Lemma atp_decl_o pc en lps fr x k v b q : e_scopes en = b :: q -> atp pc [v] en lps fr = atp pc [] (set_escopes en (((x, (k, v)) :: b) :: q)) lps fr.
Proof. intros E. unfold atp. cbn [e_scopes set_escopes e_globals e_out]. rewrite E, !map_vals_cons. cbn [map bval snd]. reflexivity. Qed.
Lemma stored_later st hp m' c hp' : grows (o_mem st) m' -> kept (match c with VTable p => Some p | _ => None end) hp hp' -> later st hp (stored (set_mem st m') c) hp'.
Proof.
  intros Gr (Ke & Kt). destruct c as [| | | | | |p|p| | | | |]; (split; [exact Gr|]; split; [exact Ke|]); try (split; [intros q; cbn; lia|intros q L _; apply Kt; [exact L|discriminate]]).
  cbn [stored set_mem o_stores]. split.
  - intros q. destruct (q =? p); lia.
  - intros q L E. apply Kt; [exact L|]. intros [= ->]. rewrite Z.eqb_refl in E. lia.
Qed.
Lemma falsey_atom v m : is_falsey v = true -> there m v -> is_atom v = true.
Proof. destruct v; cbn; auto; discriminate. Qed.
Lemma sim_set_o k ss st pc temps lps fr hp bs c i v n :
  agree ss (e_scopes (o_env st)) -> o_room ss temps fr n -> good_st st hp -> there (o_mem st) i -> there (o_mem st) v -> code_at pc (op O_SET ++ bs) ->
  sim k outo (atp pc (v :: i :: c :: temps) (o_env st) lps fr, hp)
    (match store_spec (o_mem st) c i v with Gives m => only (Done Normal (stored (set_mem st m) c)) | Raises e => only (Stop e st) | Unsaid => only Open end)
    (fun sg st' cf => sg = Normal /\ o_env st' = o_env st /\ exists hp', cf = (atp (pc + 1) temps (o_env st) lps fr, hp') /\ good_st st' hp' /\ later st hp st' hp').
Proof.
  intros A R (Sh & Cm) Ti Tv C. pose proof (set_in fuel w P (atp pc (v :: i :: c :: temps) (o_env st) lps fr) hp (o_mem st) c i v _ HF Sh (next_atp _ _ _ _ _ _ _ C) eq_refl ltac:(eapply o_fits; [exact A|exact R|cbn [length]; lia])) as Do.
  destruct (store_spec (o_mem st) c i v) as [m'|e|] eqn:E; cbn [memory_of does_in] in Do.
  - destruct Do as (h' & E1 & Sh' & Ke). destruct (store_ok _ _ _ _ _ Cm Ti Tv E) as (Cm' & Gr). exists (Done Normal (stored (set_mem st m') c)). split; [reflexivity|]. eexists. split; [eapply goes_le; [apply goes_step, E1|lia]|].
    split; [reflexivity|]. split; [destruct c; reflexivity|]. exists h'. split; [reflexivity|]. split; [|apply stored_later; assumption]. unfold good_st. replace (o_mem (stored (set_mem st m') c)) with m' by (destruct c; reflexivity). split; assumption.
  - destruct Do as (s' & h' & E1 & Q). apply sim_stop. eapply halts_step; [exact E1|exact Q].
  - apply sim_open.
Qed.
Ltac eroom RM := destruct RM as (?RM1 & ?RM2); split; cbn [need_o length] in *; repeat rewrite Nat2Z.inj_max in *; lia.

Lemma sim_s_o n s : s_ok n s.
Proof.
  induction s as [|a IHa b IHb|e|k x e|x e|c i v|b IHb|c a IHa|c a IHa b IHb|c b IHb|c b IHb post IHp|x e b IHb| | |e|e];
    unfold s_ok; intros ss st hp B pos cps lps lp d fr bs OK LI PA JU A NE PK RM FD HB HP FC GS C;
    cbn [ok_os lits_os parsed_o jumps_ok_o peak_o for_depth_o gen_os exec_o after_o] in *; pose proof (scope_len_nonneg ss) as SN.
  - apply sim_done. change (len []) with 0. rewrite Z.add_0_r. apply left_normal; [exact A|exact GS|apply later_refl].
  - apply andb_true_iff in OK. destruct OK as (O1 & O2). apply andb_true_iff in PA. destruct PA as (P1 & P2). apply andb_true_iff in JU. destruct JU as (J1 & J2).
    set (ba := gen_os K ss pos cps a) in *. rewrite <- app_assoc in C. pose proof (len_nonneg ba) as Lba.
    eapply sim_bind; [eapply (IHa ss st hp B pos cps lps lp d fr _ O1 (incl_l _ _ _ LI) P1 J1 A NE ltac:(lia) ltac:(eapply room_le_o; [exact RM|cbn [need_o]; lia]) ltac:(lia) HB HP FC GS C)|]. fold ba.
    intros sg st1 c1 (hp1 & -> & A1 & G1 & L1 & D1). destruct sg.
    + apply code_at_r in C. replace (B + pos + len ba) with (B + (pos + len ba)) in * by lia. pose proof (after_len_o a ss NE) as AL.
      pose proof (IHb (after_o ss a) st1 hp1 B (pos + len ba) cps lps lp (d + decls_o a)%nat fr bs O2 (incl_r _ _ _ LI) P2 J2 A1 (after_nonempty_o _ _ NE)) as Rb.
      replace (Z.to_nat (scope_len (after_o ss a))) with (Z.to_nat (scope_len ss) + decls_o a)%nat in Rb by lia.
      specialize (Rb ltac:(lia) ltac:(destruct RM as (RM1 & RM2); split; cbn [need_o length] in *; lia) ltac:(lia) HB ltac:(lia) (cps_le cps pos (pos + len ba) FC ltac:(lia)) G1 C).
      replace (B + pos + len (ba ++ gen_os K (after_o ss a) (pos + len ba) cps b)) with (B + (pos + len ba) + len (gen_os K (after_o ss a) (pos + len ba) cps b)) by (rewrite len_app; lia).
      eapply sim_conseq; [exact Rb|]. intros sg st2 c2 (hp2 & -> & A2 & G2 & L2 & D2). exists hp2. split; [reflexivity|]. split; [|split; [exact G2|split; [eapply later_trans; eassumption|intros N; specialize (D2 N); lia]]].
      destruct sg; [exact A2| |]; specialize (D2 ltac:(discriminate)); rewrite (after_none_o a ss NE) in A2 by (apply Nat.eqb_eq; lia); exact A2.
    + apply sim_done. exists hp1. auto 6.
    + apply sim_done. exists hp1. auto 6.
  - destruct (quiet_o e) eqn:Q.
    + eapply quiet_res; [exact Q|exact OK|exact A|]. intros v. apply sim_done. change (len []) with 0. rewrite Z.add_0_r. apply (left_normal _ _ _ _ _ _ _ _ _ _ (set_mem st (o_mem st))); [exact A|exact GS|exact (later_refl st hp)].
    + rewrite <- app_assoc in C. eapply sim_ev; [exact OK|exact PA|exact LI|exact A|lia|exact RM|exact GS|exact C|]. intros v m' hp' F T. apply code_at_r in C.
      eapply sim_go; [exact (goes_pop _ v (vals (e_scopes (o_env st)) ++ below) (e_globals (o_env st)) (e_out (o_env st)) lps fr hp' _ C)|]. rewrite len_app, len_op, Z.add_assoc.
      apply sim_done. apply (left_normal _ _ _ _ _ _ _ _ _ _ (set_mem st m') hp'); [exact A|exact (good_next st _ _ _ F)|exact (later_fine st _ _ _ F)].
  - apply andb_true_iff in OK. destruct OK as (OK & _). apply andb_true_iff in OK. destruct OK as (F & OK).
    eapply sim_ev; [exact OK|exact PA|exact LI|exact A|lia|exact RM|exact GS|exact C|]. intros v m' hp' Fi T.
    destruct (fresh_var _ _ _ F A k v) as (b & q & E & Dv). cbn [set_mem o_env]. rewrite Dv. cbn [legally]. rewrite (atp_decl_o _ _ _ _ x k v b q E). apply sim_done.
    eapply (left_normal _ _ _ _ _ _ _ _ _ _ (set_env (set_mem st m') _) hp'); [|exact (good_next st _ _ _ Fi)|exact (later_fine st _ _ _ Fi)].
    pose proof (agree_decl _ _ x k v A) as Q. rewrite E in Q. destruct ss; [congruence|]. exact Q.
  - apply andb_true_iff in OK. destruct OK as (O1 & O2). rewrite <- app_assoc in C.
    eapply sim_ev; [exact O1|exact PA|exact LI|exact A|lia|exact RM|exact GS|exact C|]. intros v m' hp' Fi T. apply code_at_r in C.
    destruct (sim_store x v ss (o_env st) _ [] lps fr hp' bs O2 A ltac:(lia) C) as (en' & E1 & E2 & _ & E3). cbn [set_mem o_env]. rewrite E1. cbn [legally]. eapply sim_go; [exact E3|]. rewrite len_app, Z.add_assoc. apply sim_done.
    apply (left_normal _ _ _ _ _ _ _ _ _ _ (set_env (set_mem st m') en') hp'); [exact E2|exact (good_next st _ _ _ Fi)|exact (later_fine st _ _ _ Fi)].
  - apply andb_true_iff in OK. destruct OK as (OK & O3). apply andb_true_iff in OK. destruct OK as (O1 & O2). apply andb_true_iff in PA. destruct PA as (PA & P3). apply andb_true_iff in PA. destruct PA as (P1 & P2). rewrite <- !app_assoc in C.
    eapply sim_ev; [exact O1|exact P1|exact (incl_l _ _ _ LI)|exact A|lia|eroom RM|exact GS|exact C|]. intros cv m1 hp1 F1 T1. apply code_at_r in C.
    eapply (sim_ev _ _ ss (set_mem st m1)); [exact O2|exact P2|exact (incl_l _ _ _ (incl_r _ _ _ LI))|exact A|lia|eroom RM|exact (good_next _ _ _ _ F1)|exact C|]. intros iv m2 hp2 F2 T2. apply code_at_r in C.
    eapply (sim_ev _ _ ss (set_mem (set_mem st m1) m2)); [exact O3|exact P3|exact (incl_r _ _ _ (incl_r _ _ _ LI))|exact A|lia|eroom RM|exact (good_next _ _ _ _ F2)|exact C|]. intros vv m3 hp3 F3 T3. apply code_at_r in C.
    cbn [set_mem o_env o_mem o_stores] in *.
    eapply sim_conseq; [eapply (sim_set_o n ss (OST (o_env st) m3 (o_stores st)) _ [] lps fr hp3); [exact A|exact RM|exact (good_next (set_mem st m2) _ _ _ F3)|exact (there_grows _ _ _ (proj1 (proj2 (proj2 F3))) T2)|exact T3|exact C]|].
    intros sg st' cf (-> & Ee & hp4 & -> & G4 & L4).
    replace (B + pos + len (gen_oe K ss c ++ gen_oe K ss i ++ gen_oe K ss v ++ op O_SET)) with (B + pos + len (gen_oe K ss c) + len (gen_oe K ss i) + len (gen_oe K ss v) + 1) by (rewrite !len_app, len_op; lia).
    cbn [o_env] in Ee |- *. rewrite <- Ee. apply left_normal; [rewrite Ee; exact A|exact G4|].
    eapply later_trans; [exact (later_fine st _ _ _ F1)|]. eapply later_trans; [exact (later_fine (set_mem st m1) _ _ _ F2)|]. eapply later_trans; [exact (later_fine (set_mem st m2) _ _ _ F3)|]. exact L4.
  - rewrite <- app_assoc in C. set (bb := gen_os K ([] :: ss) pos cps b) in *.
    pose proof (IHb ([] :: ss) (enter_o st) hp B pos cps lps lp d fr _ OK LI PA JU (conj I A) ltac:(discriminate) PK RM FD HB HP FC GS C) as R. fold bb in R.
    apply code_at_r in C. destruct (after_shape_o b [] ss) as (u & Eu & Lu & Q0). cbn [length Nat.add] in Lu.
    match type of C with context [after_o ?q b] => assert (Eq : after_o q b = u :: ss) by exact Eu end.
    match type of R with context [after_o ?q b] => replace (after_o q b) with (u :: ss) in R by (symmetry; exact Eu) end.
    rewrite Eq in C. match goal with |- context [after_o ?q b] => replace (after_o q b) with (u :: ss) by (symmetry; exact Eu) end. cbn [pops] in C |- *.
    assert (LP : len (repeat (op_byte O_POP) (length u)) = Z.of_nat (length u)) by (unfold len; rewrite repeat_length; reflexivity).
    change (atp (B + pos) [] (o_env (enter_o st)) lps fr) with (atp (B + pos) [] (o_env st) lps fr) in R. unfold leaving_o. eapply sim_bind; [exact R|]. intros sg st1 c1 (hp1 & -> & A1 & G1 & L1 & D1).
    destruct sg.
    + destruct (scopes_cons _ _ _ A1) as (b0 & q & E & Lb & Aq).
      assert (Go : goes 0 (atp (B + pos + len bb) [] (o_env st1) lps fr, hp1) (atp (B + pos + len (bb ++ repeat (op_byte O_POP) (length u))) [] (o_env (leave_o st1)) lps fr, hp1)).
      { unfold atp, leave_o, leave, set_env. cbn [o_env e_scopes e_globals e_out set_escopes app]. rewrite E, map_vals_cons, <- app_assoc. cbn [tl]. rewrite len_app, LP, Z.add_assoc, <- Lb, <- (map_length bval b0). eapply (goes_pops (map bval b0)). rewrite map_length, Lb. exact C. }
      eapply sim_go; [exact Go|]. apply sim_done. apply left_normal; [unfold leave_o, leave, set_env; cbn [o_env e_scopes set_escopes]; rewrite E; exact Aq|exact G1|exact L1].
    + destruct (scopes_cons _ _ _ A1) as (b0 & q & E & Lb & Aq). destruct b0; [|discriminate]. apply sim_done. exists hp1. split.
      { unfold atp, leave_o, leave, set_env. cbn [o_env e_scopes e_globals e_out set_escopes]. rewrite E. reflexivity. }
      split; [unfold leave_o, leave, set_env; cbn [o_env e_scopes set_escopes]; rewrite E; exact Aq|]. split; [exact G1|]. split; [exact L1|exact D1].
    + destruct (scopes_cons _ _ _ A1) as (b0 & q & E & Lb & Aq). destruct b0; [|discriminate]. apply sim_done. exists hp1. split.
      { unfold atp, leave_o, leave, set_env. cbn [o_env e_scopes e_globals e_out set_escopes]. rewrite E. reflexivity. }
      split; [unfold leave_o, leave, set_env; cbn [o_env e_scopes set_escopes]; rewrite E; exact Aq|]. split; [exact G1|]. split; [exact L1|exact D1].
  - apply andb_true_iff in OK. destruct OK as (O1 & O2). apply andb_true_iff in PA. destruct PA as (PA & P3). apply andb_true_iff in PA. destruct PA as (P1 & P2).
    destruct (o_truthy c) eqn:T; [|destruct (o_falsey c) eqn:F]; cbn [orb] in LI.
    + eapply truthy_res; [exact T|]. intros v Fv. rewrite Fv. change (set_mem st (o_mem st)) with (OST (o_env st) (o_mem st) (o_stores st)).
      pose proof (IHa ss (OST (o_env st) (o_mem st) (o_stores st)) hp B pos cps lps lp d fr bs O2 LI P2 JU A NE PK ltac:(eapply room_le_o; [exact RM|cbn [need_o]; lia]) FD HB HP FC GS C) as R. rewrite (after_none_o a ss NE P3) in R. exact R.
    + eapply falsey_res; [exact F|]. intros v Fv. rewrite Fv. apply sim_done. change (len []) with 0. rewrite Z.add_0_r. apply (left_normal _ _ _ _ _ _ _ _ _ _ (set_mem st (o_mem st))); [exact A|exact GS|exact (later_refl st hp)].
    + set (bc := gen_oe K ss c) in *. set (ba := gen_os K ss (pos + len bc + 9) cps a) in *. rewrite <- !app_assoc in C. pose proof (len_nonneg bc). pose proof (len_nonneg ba). pose proof (len_nonneg bs).
      eapply sim_ev; [exact O1|exact P1|exact (incl_l _ _ _ LI)|exact A|apply (peak_len_o _ _ PK)|eapply room_le_o; [exact RM|cbn [need_o]; lia]|exact GS|exact C|]. intros v m' hp' Fi Tv. apply code_at_r in C. fold bc in C |- *.
      eapply sim_go; [exact (goes_brf _ v (vals (e_scopes (o_env st)) ++ below) (e_globals (o_env st)) (e_out (o_env st)) lps fr hp' _ _ C ltac:(rewrite len_app; lia))|].
      replace (B + pos + len (bc ++ op O_BRF_8 ++ enc8 (len ba) ++ ba)) with (B + (pos + len bc + 9) + len ba) by (rewrite !len_app, len_op, len_enc8; lia).
      apply code_at_r, code_at_r in C. rewrite len_op, len_enc8 in C. replace (B + pos + len bc + 1 + 8) with (B + (pos + len bc + 9)) in C by lia.
      destruct (is_falsey v).
      * replace (B + pos + len bc + 9 + len ba) with (B + (pos + len bc + 9) + len ba) by lia. apply sim_done. apply (left_normal _ _ _ _ _ _ _ _ _ _ (set_mem st m') hp'); [exact A|exact (good_next st _ _ _ Fi)|exact (later_fine st _ _ _ Fi)].
      * replace (B + pos + len bc + 9) with (B + (pos + len bc + 9)) by lia.
        pose proof (IHa ss (set_mem st m') hp' B (pos + len bc + 9) cps lps lp d fr bs O2 (incl_r _ _ _ LI) P2 JU A NE PK ltac:(eapply room_le_o; [exact RM|cbn [need_o]; lia]) FD HB ltac:(lia) (cps_le cps pos (pos + len bc + 9) FC ltac:(lia)) (good_next _ _ _ _ Fi) C) as R. rewrite (after_none_o a ss NE P3) in R.
        eapply sim_conseq; [exact R|]. intros sg st2 c2. apply left_later, later_fine, Fi.
  - apply andb_true_iff in OK. destruct OK as (OK & O3). apply andb_true_iff in OK. destruct OK as (O1 & O2). apply andb_true_iff in PA. destruct PA as (PA & P5). apply andb_true_iff in PA. destruct PA as (PA & P4). apply andb_true_iff in PA. destruct PA as (PA & P3). apply andb_true_iff in PA. destruct PA as (P1 & P2).
    apply andb_true_iff in JU. destruct JU as (J1 & J2).
    destruct (o_truthy c) eqn:T; [|destruct (o_falsey c) eqn:F]; cbn [orb] in LI.
    + eapply truthy_res; [exact T|]. intros v Fv. rewrite Fv. change (set_mem st (o_mem st)) with (OST (o_env st) (o_mem st) (o_stores st)).
      pose proof (IHa ss (OST (o_env st) (o_mem st) (o_stores st)) hp B pos cps lps lp d fr bs O2 (incl_l _ _ _ LI) P2 J1 A NE ltac:(lia) ltac:(eapply room_le_o; [exact RM|cbn [need_o]; lia]) ltac:(lia) HB HP FC GS C) as R. rewrite (after_none_o a ss NE P3) in R. exact R.
    + eapply falsey_res; [exact F|]. intros v Fv. rewrite Fv. change (set_mem st (o_mem st)) with (OST (o_env st) (o_mem st) (o_stores st)).
      pose proof (IHb ss (OST (o_env st) (o_mem st) (o_stores st)) hp B pos cps lps lp d fr bs O3 (incl_r _ _ _ LI) P4 J2 A NE ltac:(lia) ltac:(eapply room_le_o; [exact RM|cbn [need_o]; lia]) ltac:(lia) HB HP FC GS C) as R. rewrite (after_none_o b ss NE P5) in R. exact R.
    + set (bc := gen_oe K ss c) in *. set (ba := gen_os K ss (pos + len bc + 9) cps a) in *. set (bb := gen_os K ss (pos + len bc + 9 + len ba + 9) cps b) in *. rewrite <- !app_assoc in C. pose proof (len_nonneg bc). pose proof (len_nonneg ba). pose proof (len_nonneg bb). pose proof (len_nonneg bs).
      eapply sim_ev; [exact O1|exact P1|exact (incl_l _ _ _ LI)|exact A|apply (peak_len_o ss a); lia|eapply room_le_o; [exact RM|cbn [need_o]; lia]|exact GS|exact C|]. intros v m' hp' Fi Tv. apply code_at_r in C. fold bc in C |- *.
      eapply sim_go; [exact (goes_brf _ v (vals (e_scopes (o_env st)) ++ below) (e_globals (o_env st)) (e_out (o_env st)) lps fr hp' _ _ C ltac:(rewrite !len_app, len_op, len_enc8; lia))|].
      apply code_at_r, code_at_r in C. rewrite len_op, len_enc8 in C. replace (B + pos + len bc + 1 + 8) with (B + (pos + len bc + 9)) in C by lia.
      pose proof C as Ca. apply code_at_r in C. pose proof C as Cj. apply code_at_r, code_at_r in C. rewrite len_op, len_enc8 in C. replace (B + (pos + len bc + 9) + len ba + 1 + 8) with (B + (pos + len bc + 9 + len ba + 9)) in C by lia.
      replace (B + pos + len (bc ++ op O_BRF_8 ++ enc8 (len ba + 9) ++ ba ++ op O_BR_8 ++ enc8 (len bb) ++ bb)) with (B + (pos + len bc + 9 + len ba + 9) + len bb) by (rewrite !len_app, !len_op, !len_enc8; lia).
      destruct (is_falsey v).
      * replace (B + pos + len bc + 9 + (len ba + 9)) with (B + (pos + len bc + 9 + len ba + 9)) by lia.
        pose proof (IHb ss (set_mem st m') hp' B (pos + len bc + 9 + len ba + 9) cps lps lp d fr bs O3 (incl_r _ _ _ (incl_r _ _ _ LI)) P4 J2 A NE ltac:(lia) ltac:(eapply room_le_o; [exact RM|cbn [need_o]; lia]) ltac:(lia) HB ltac:(lia) (cps_le cps pos (pos + len bc + 9 + len ba + 9) FC ltac:(lia)) (good_next _ _ _ _ Fi) C) as R. rewrite (after_none_o b ss NE P5) in R.
        eapply sim_conseq; [exact R|]. intros sg st2 c2. apply left_later, later_fine, Fi.
      * replace (B + pos + len bc + 9) with (B + (pos + len bc + 9)) by lia.
        pose proof (IHa ss (set_mem st m') hp' B (pos + len bc + 9) cps lps lp d fr _ O2 (incl_l _ _ _ (incl_r _ _ _ LI)) P2 J1 A NE ltac:(lia) ltac:(eapply room_le_o; [exact RM|cbn [need_o]; lia]) ltac:(lia) HB ltac:(lia) (cps_le cps pos (pos + len bc + 9) FC ltac:(lia)) (good_next _ _ _ _ Fi) Ca) as (y & Hy & R). rewrite (after_none_o a ss NE P3) in R. fold ba in R.
        exists y. split; [exact Hy|]. destruct y as [sg st2|er st2| | |]; try exact R. destruct R as (c2 & Go & hp2 & -> & A2 & G2 & L2 & D2). assert (L2' : later st hp st2 hp2) by (eapply later_trans; [exact (later_fine _ _ _ _ Fi)|exact L2]).
        destruct sg.
        -- eexists. split; [eapply goes_then; [exact Go|exact (goes_br _ _ _ _ _ _ _ _ _ Cj ltac:(eapply code_in; [exact Cj|rewrite len_app; lia]))]|].
           replace (B + (pos + len bc + 9) + len ba + 9 + len bb) with (B + (pos + len bc + 9 + len ba + 9) + len bb) by lia. apply left_normal; [exact A2|exact G2|exact L2'].
        -- eexists. split; [exact Go|]. exists hp2. auto 6.
        -- eexists. split; [exact Go|]. exists hp2. auto 6.
  - apply andb_true_iff in OK. destruct OK as (O1 & O2). apply andb_true_iff in PA. destruct PA as (PA & P3). apply andb_true_iff in PA. destruct PA as (P1 & P2). destruct (o_falsey c) eqn:F.
    + destruct n as [|n1]; cbn [while_o].
      * exists Fuel. split; [reflexivity|]. eexists 0%nat, _, _. split; [lia|reflexivity].
      * eapply falsey_res; [exact F|]. intros v Fv. rewrite Fv. apply sim_done. change (len []) with 0. rewrite Z.add_0_r. apply (left_normal _ _ _ _ _ _ _ _ _ _ (set_mem st (o_mem st))); [exact A|exact GS|exact (later_refl st hp)].
    + pose proof (sim_while_o n c b IHb n st hp ss B pos cps lps fr bs (le_n n) O1 O2 P1 (incl_l _ _ _ LI) (incl_r _ _ _ LI) P2 P3 JU A NE PK ltac:(eapply room_le_o; [exact RM|cbn [need_o]; lia]) ltac:(eapply room_le_o; [exact RM|cbn [need_o]; lia]) FD HB HP FC GS C (B + brk cps) (B + cont cps) d) as R.
      match goal with |- sim _ _ _ _ (left_at _ _ ?q _ _ _ _ _ _ _) => match type of R with sim _ _ _ _ (left_at _ _ ?q' _ _ _ _ _ _ _) => replace q with q' by (rewrite !len_app, len_op, len_enc8, len_back; lia) end end. exact R.
  - apply andb_true_iff in OK. destruct OK as (OK & O3). apply andb_true_iff in OK. destruct OK as (O1 & O2). apply andb_true_iff in PA. destruct PA as (PA & P5). apply andb_true_iff in PA. destruct PA as (PA & P4). apply andb_true_iff in PA. destruct PA as (PA & P3). apply andb_true_iff in PA. destruct PA as (P1 & P2). destruct (o_falsey c) eqn:F.
    + destruct n as [|n1]; cbn [while_o].
      * exists Fuel. split; [reflexivity|]. eexists 0%nat, _, _. split; [lia|reflexivity].
      * eapply falsey_res; [exact F|]. intros v Fv. rewrite Fv. apply sim_done. change (len []) with 0. rewrite Z.add_0_r. apply (left_normal _ _ _ _ _ _ _ _ _ _ (set_mem st (o_mem st))); [exact A|exact GS|exact (later_refl st hp)].
    + rewrite <- !app_assoc in C. set (bp := gen_os K ss (pos + 9) cps post) in *. pose proof (len_nonneg bp). pose proof (len_nonneg bs).
      eapply sim_go; [eapply goes_br; [exact C|]; eapply code_in; [exact C|]; rewrite !len_app;
        repeat match goal with |- context [len ?x] => lazymatch goal with H : 0 <= len x |- _ => fail | _ => pose proof (len_nonneg x) end end; lia|].
      apply code_at_r, code_at_r in C. rewrite len_op, len_enc8 in C. replace (B + pos + 1 + 8) with (B + (pos + 9)) in C by lia.
      assert (C' : code_at (B + (pos + 9)) ((bp ++ gen_oe K ss c ++ op O_BRF_8 ++ enc8 (len (gen_os K ss (pos + 9 + len bp + len (gen_oe K ss c) + 9) (pos + 9 + len bp + len (gen_oe K ss c) :: pos + 9 :: cps) b) + 9) ++
        gen_os K ss (pos + 9 + len bp + len (gen_oe K ss c) + 9) (pos + 9 + len bp + len (gen_oe K ss c) :: pos + 9 :: cps) b ++
        back (pos + 9 + len bp + len (gen_oe K ss c) + 9 + len (gen_os K ss (pos + 9 + len bp + len (gen_oe K ss c) + 9) (pos + 9 + len bp + len (gen_oe K ss c) :: pos + 9 :: cps) b)) (pos + 9)) ++ bs)) by (rewrite <- !app_assoc; exact C).
      pose proof (sim_whilepost_o n c b post IHb IHp n st hp ss B pos cps lps fr bs lp (le_n n) O1 O2 O3 P1 (incl_l _ _ _ (incl_r _ _ _ LI)) (incl_r _ _ _ (incl_r _ _ _ LI)) (incl_l _ _ _ LI) P2 P3 JU P4 P5 A NE PK ltac:(eapply room_le_o; [exact RM|cbn [need_o]; lia]) ltac:(eapply room_le_o; [exact RM|cbn [need_o]; lia]) ltac:(eapply room_le_o; [exact RM|cbn [need_o]; lia]) FD HB HP FC GS C' (B + brk cps) (B + cont cps) d) as R.
      fold bp in R. replace (B + (pos + 9 + len bp)) with (B + pos + 9 + len bp) in R by lia.
      match goal with |- sim _ _ _ _ (left_at _ _ ?q _ _ _ _ _ _ _) => match type of R with sim _ _ _ _ (left_at _ _ ?q' _ _ _ _ _ _ _) => replace q with q' by (fold bp; rewrite !len_app, !len_op, !len_enc8, len_back; lia) end end. exact R.
  - apply andb_true_iff in OK. destruct OK as (OK & O3). apply andb_true_iff in OK. destruct OK as (O1 & O2). apply andb_true_iff in PA. destruct PA as (PA & P3). apply andb_true_iff in PA. destruct PA as (P1 & P2). rewrite <- !app_assoc in C.
    set (ss' := decl ([] :: ss) x false) in *. assert (SL' : scope_len ss' = scope_len ss + 1) by (unfold ss'; rewrite scope_len_decl by discriminate; reflexivity).
    set (be := gen_oe K ([] :: ss) e) in *. set (p := pos + len be + 2) in *. pose proof (len_nonneg be).
    assert (PK' : Z.of_nat (peak_o (Z.to_nat (scope_len ss')) b) <= 128) by (rewrite SL'; replace (Z.to_nat (scope_len ss + 1)) with (Datatypes.S (Z.to_nat (scope_len ss))) by lia; exact PK).
    pose proof (peak_len_o _ _ PK') as P128. rewrite SL' in P128. assert (R3 : o_room ss [] fr 3) by (eapply room_le_o; [exact RM|cbn [need_o]; lia]).
    change (atp (B + pos) [] (o_env st) lps fr) with (atp (B + pos) [] (o_env (enter_o st)) lps fr).
    eapply (sim_ev _ _ ([] :: ss) (enter_o st)); [exact O1|exact P1|exact (incl_l _ _ _ LI)|exact (conj I A)|change (scope_len ([] :: ss)) with (scope_len ss); lia|change (o_room ([] :: ss) [] fr (need_oe e)) with (o_room ss [] fr (need_oe e)); eapply room_le_o; [exact RM|cbn [need_o]; lia]|exact GS|exact C|].
    intros v m' hp' Fi Tv. fold be. apply code_at_r in C. fold be in C. pose proof C as C1. apply code_at_r in C. rewrite len_op in C. pose proof C as C2. apply code_at_r in C. rewrite len_op in C. replace (B + pos + len be + 1 + 1) with (B + p) in C by (unfold p; lia).
    pose proof (stk_len _ _ [] A) as SK. set (st1 := set_mem (enter_o st) m') in *. assert (Fi' : fine hp (o_mem st) hp' m') by exact Fi.
    assert (Go : goes 1 (atp (B + pos + len be) [v] (o_env (enter_o st)) lps fr, hp') (mk (B + p) (VEnd :: vals (e_scopes (o_env st)) ++ below) (e_globals (o_env st)) (e_out (o_env st)) ((v, 0) :: lps) fr, hp')).
    { eapply goes_le; [eapply (goes_trans 1 1 _ (mk (B + pos + len be + 1) (vals (e_scopes (o_env st)) ++ below) (e_globals (o_env st)) (e_out (o_env st)) ((v, 0) :: lps) fr, hp'))|lia].
      - eapply goes_op; [exact C1|exact I|]. cbn [VM.exec]. unfold pop. simp_st. cbn [app]. simp_st. unfold NUM_LOOPS. destruct (Z.geb_spec (Z.of_nat (length lps)) 16); [lia|]. reflexivity.
      - replace (B + p) with (B + pos + len be + 1 + 1) by (unfold p; lia). eapply goes_const; [exact C2| |tauto]. destruct R3 as (R3 & _). cbn [app length] in *. lia. }
    eapply sim_go; [exact Go|]. destruct (iterable v) eqn:It.
    + change (declare_var (o_env st1) x false VEnd) with (Some (set_escopes (o_env (enter_o st)) ([(x, (false, VEnd))] :: e_scopes (o_env st)))). cbn [legally].
      set (st2 := set_env st1 (set_escopes (o_env (enter_o st)) ([(x, (false, VEnd))] :: e_scopes (o_env st)))).
      assert (A1 : agree ss' (e_scopes (o_env st2))). { cbn [ss' decl agree e_scopes st2 set_env o_env set_escopes agree1 length]. split; [|exact A]. split; [reflexivity|]. split; [|exact I]. rewrite scope_len_cons. cbn [length]. lia. }
      assert (G2 : good_st st2 hp') by (exact (good_next st _ _ _ Fi')). assert (T2 : there (o_mem st2) v) by exact Tv.
      destruct (picks_ok st2 hp' v G2 T2 It) as (pick & ps & Inv & Pk & P0 & I0 & Hit).
      set (bb := gen_os K ss' (p + 1 + 9 + len (store_code K ss' x)) (p + 1 :: p :: cps) b) in *. set (bx := store_code K ss' x) in *.
      assert (C' : code_at (B + p) ((op O_ITER_1 ++ op O_BRF_8 ++ enc8 (len bx + len bb + 9) ++ bx ++ bb ++ back (p + 1 + 9 + len bx + len bb) p ++ op O_ENDFOR) ++ op O_POP ++ bs)) by (rewrite <- !app_assoc; exact C).
      pose proof (sim_for_o n x b v ps pick Inv st2 hp' IHb Hit n 0%nat st2 hp' ss B p cps lps fr (op O_POP ++ bs) (le_n n) I0 (later_refl _ _) O3 (incl_r _ _ _ LI) P2 P3 JU A1 PK'
        ltac:(destruct R3; split; fold ss'; cbn [length] in *; lia) ltac:(destruct RM; split; fold ss'; cbn [need_o length] in *; lia) ltac:(lia) HB ltac:(unfold p; lia) (cps_le cps pos p FC ltac:(unfold p; lia)) G2 C' 0 0 1%nat) as R.
      fold ss' bx bb in R. rewrite P0 in R. change (atp (B + p) [] (o_env st2) ((v, 0) :: lps) fr) with (mk (B + p) (VEnd :: vals (e_scopes (o_env st)) ++ below) (e_globals (o_env st)) (e_out (o_env st)) ((v, 0) :: lps) fr) in R.
      unfold leaving_o. eapply sim_bind.
      * destruct R as (y & Hy & R). exists y. split; [exists pick; split; [exact Pk|exact Hy]|exact R].
      * intros sg st3 c3 (hp3 & -> & A3 & G3 & L3 & D3). destruct sg; [|specialize (D3 ltac:(discriminate)); discriminate..].
        apply code_at_r in C'. replace (B + p + len (op O_ITER_1 ++ op O_BRF_8 ++ enc8 (len bx + len bb + 9) ++ bx ++ bb ++ back (p + 1 + 9 + len bx + len bb) p ++ op O_ENDFOR)) with (B + (p + 1) + 19 + len bx + len bb) in C' by (rewrite !len_app, !len_op, len_enc8, len_back; lia).
        unfold ss' in A3. cbn [decl] in A3. destruct (scopes_cons _ _ _ A3) as (b0 & q & E & Lb & Aq). destruct b0 as [|b1 [|]]; try discriminate.
        assert (Go2 : goes 1 (atp (B + (p + 1) + 19 + len bx + len bb) [] (o_env st3) lps fr, hp3) (atp (B + (p + 1) + 19 + len bx + len bb + 1) [] (o_env (leave_o st3)) lps fr, hp3)).
        { unfold atp, leave_o, leave, set_env. cbn [o_env e_scopes e_globals e_out set_escopes]. rewrite E, map_vals_cons. cbn [map app tl]. eapply goes_pop. exact C'. }
        eapply sim_go; [exact Go2|]. apply sim_done.
        replace (B + pos + len (be ++ op O_INITFOR ++ op O_END ++ op O_ITER_1 ++ op O_BRF_8 ++ enc8 (len bx + len bb + 9) ++ bx ++ bb ++ back (p + 1 + 9 + len bx + len bb) p ++ op O_ENDFOR ++ op O_POP)) with (B + (p + 1) + 19 + len bx + len bb + 1) by (unfold p; rewrite !len_app, !len_op, len_enc8, len_back; lia).
        apply left_normal; [unfold leave_o, leave, set_env; cbn [o_env e_scopes set_escopes]; rewrite E; exact Aq|exact G3|]. eapply later_trans; [exact (later_fine _ _ _ _ Fi')|exact L3].
    + destruct (C52_not_iterable fuel w P (mk (B + p) (VEnd :: vals (e_scopes (o_env st)) ++ below) (e_globals (o_env st)) (e_out (o_env st)) ((v, 0) :: lps) fr) hp' v 0 lps) as (s' & E1 & Q); [eapply code_next; [exact C|reflexivity]|reflexivity|destruct v; try reflexivity; discriminate It|].
      apply sim_stop. eapply halts_step; [exact E1|exact Q].
  - rewrite <- app_assoc in C. apply Nat.eqb_eq in JU.
    eapply sim_go; [eapply goes_const; [exact C|rewrite (stk_len _ _ [] A); destruct RM as (RM1 & _); cbn [need_o length] in *; lia|right; right; left; auto]|].
    apply code_at_r in C. rewrite len_op in C. replace (B + pos + 1) with (B + (pos + 1)) in * by lia. destruct (s_range cps pos FC HP). eapply sim_go; [eapply goes_back; [exact C|exact HB|lia]|].
    apply sim_done. exists hp. split; [reflexivity|]. split; [exact A|]. split; [exact GS|]. split; [apply later_refl|auto].
  - apply Nat.eqb_eq in JU. destruct (s_range cps pos FC HP). eapply sim_go; [eapply goes_back; [exact C|exact HB|lia]|].
    apply sim_done. exists hp. split; [reflexivity|]. split; [exact A|]. split; [exact GS|]. split; [apply later_refl|auto].
  - rewrite <- !app_assoc in C. eapply sim_ev; [exact OK|exact PA|exact LI|exact A|lia|exact RM|exact GS|exact C|]. intros v m' hp' Fi Tv. apply code_at_r in C. cbn [set_mem o_mem].
    destruct (nested_below m' D [] v) eqn:NB; [|apply sim_open].
    pose proof (code_at_r P _ _ _ C) as C1. rewrite len_op in C1.
    destruct (C53_echo fuel w P (atp (B + pos + len (gen_oe K ss e)) [v] (o_env st) lps fr) hp' m' v (vals (e_scopes (o_env st)) ++ below) _ D HF HW (proj1 Fi) (proj1 (proj2 Fi)) Tv (next_atp _ _ _ _ _ _ _ C) (code_byte _ _ _ C1) eq_refl NB) as (t & Sh & E).
    { rewrite (atp_len ss); [|exact A]. destruct RM as (RM1 & _). cbn [length need_o] in *. lia. }
    { destruct RM as (_ & RM2). cbn [atp mk v_frames]. lia. }
    exists (Done Normal (print (set_mem st m') t)). split; [exists t; split; [exact Sh|reflexivity]|]. eexists. split; [eapply goes_le; [apply goes_step; exact E|lia]|].
    replace (B + pos + len (gen_oe K ss e ++ op O_ECHO ++ [scope_len ss mod 256])) with (B + pos + len (gen_oe K ss e) + 2) by (rewrite !len_app, len_op; unfold len; cbn [length]; lia).
    apply (left_normal _ _ _ _ _ _ _ _ _ _ (print (set_mem st m') t) hp'); [exact A|exact (good_next st _ _ _ Fi)|exact (later_fine st _ _ _ Fi)].
  - rewrite <- app_assoc in C. eapply sim_ev; [exact OK|exact PA|exact LI|exact A|lia|exact RM|exact GS|exact C|]. intros v m' hp' Fi Tv. apply code_at_r in C.
    destruct (is_falsey v) eqn:Fv.
    + apply sim_stop. set (s0 := atp (B + pos + len (gen_oe K ss e)) [v] (o_env st) lps fr).
      destruct (HeapProofs7.stringify_total fuel HF w HW hp' m' (proj1 Fi) D (Heap.room s0) (free_frames s0) v (proj1 (proj2 Fi)) Tv) as (t & E & _).
      { pose proof (falsey_atom _ _ Fv Tv) as Q. destruct D, v; try discriminate Q; reflexivity. }
      { apply PropHeap2.room_le. unfold s0. rewrite (atp_len ss); [|exact A]. destruct RM as (RM1 & _). cbn [length need_o] in *. lia. }
      { apply frames_le. destruct RM as (_ & RM2). unfold s0. cbn [atp mk v_frames]. lia. }
      exact (halts_op (B + pos + len (gen_oe K ss e)) (v :: vals (e_scopes (o_env st)) ++ below) (e_globals (o_env st)) (e_out (o_env st)) lps fr hp' O_ASS bs (Err EAssert) (mk (B + pos + len (gen_oe K ss e) + 1) (vals (e_scopes (o_env st)) ++ below) (e_globals (o_env st)) (e_out (o_env st)) lps fr) C I
        ltac:(cbn [VM.exec]; unfold pop; simp_st; rewrite Fv; cbn [prog_at p_world world_at w_tostr]; unfold s0, atp, mk in E; cbn [app] in E; rewrite E; reflexivity)).
    + eapply sim_go; [exact (goes_op (B + pos + len (gen_oe K ss e)) (v :: vals (e_scopes (o_env st)) ++ below) (e_globals (o_env st)) (e_out (o_env st)) lps fr hp' O_ASS bs (mk (B + pos + len (gen_oe K ss e) + 1) (vals (e_scopes (o_env st)) ++ below) (e_globals (o_env st)) (e_out (o_env st)) lps fr) C I
        ltac:(cbn [VM.exec]; unfold pop; simp_st; rewrite Fv; reflexivity))|].
      rewrite len_app, len_op, Z.add_assoc. apply sim_done. apply (left_normal _ _ _ _ _ _ _ _ _ _ (set_mem st m') hp'); [exact A|exact (good_next st _ _ _ Fi)|exact (later_fine st _ _ _ Fi)].
Qed.
End Sim.
