From Verif Require Import Base Bytes BytesProofs Value Table Ops Ast Stmt Limits Constants VM Compiler ValueProofs TableSpec ConstSpec ConstProofs Gen GenProofs GenProofs2.

(** ** Running. *)
Section Run.
Variable P : prog.
Lemma run_app n : forall m s, run (n + m) P s = match run n P s with Next s' => run m P s' | r => r end.
Proof.
  induction n; intros m s; [reflexivity|]. cbn [Nat.add run]. destruct (step P s); [apply IHn|reflexivity..].
Qed.
(** at least [k] steps lead from [s] to [s'] *)
Definition goes (k : nat) (s s' : vstate) : Prop := exists n, (k <= n)%nat /\ run n P s = Next s'.
Definition halts (s : vstate) (o : outcome unit) (out : list Z) : Prop := exists n s', run n P s = Stop o s' /\ v_out s' = out.
Definition runs_on (s : vstate) (k : nat) : Prop := exists n s', (k <= n)%nat /\ run n P s = Next s'.
Lemma goes_refl s : goes 0 s s.
Proof. exists O. split; [lia|reflexivity]. Qed.
Lemma goes_trans i j s1 s2 s3 : goes i s1 s2 -> goes j s2 s3 -> goes (i + j) s1 s3.
Proof. intros (n & L & E) (m & L2 & E2). exists (n + m)%nat. split; [lia|]. rewrite run_app, E. exact E2. Qed.
Lemma goes_le i j s s' : goes i s s' -> (j <= i)%nat -> goes j s s'.
Proof. intros (n & L & E) H. exists n. split; [lia|exact E]. Qed.
Lemma goes_halts i s1 s2 o out : goes i s1 s2 -> halts s2 o out -> halts s1 o out.
Proof. intros (n & L & E) (m & s' & E2 & H). exists (n + m)%nat, s'. split; [rewrite run_app, E; exact E2|exact H]. Qed.
Lemma goes_runs i k s1 s2 : goes i s1 s2 -> runs_on s2 k -> runs_on s1 (i + k).
Proof. intros (n & L & E) (m & s' & L2 & E2). exists (n + m)%nat, s'. split; [lia|]. rewrite run_app, E. exact E2. Qed.
Lemma runs_le s i j : runs_on s i -> (j <= i)%nat -> runs_on s j.
Proof. intros (n & s' & L & E) H. exists n, s'. split; [lia|exact E]. Qed.
Lemma goes_step s s' : step P s = Next s' -> goes 1 s s'.
Proof. intros E. exists 1%nat. split; [lia|]. cbn [run]. rewrite E. reflexivity. Qed.
Lemma halts_step s o s' : step P s = Stop o s' -> halts s o (v_out s').
Proof. intros E. exists 1%nat, s'. cbn [run]. rewrite E. auto. Qed.

(** ** Code. *)
Definition code_at (pc : Z) (bs : list Z) : Prop := exists pre post, p_code P = pre ++ bs ++ post /\ pc = len pre.
Lemma code_at_l pc a b : code_at pc (a ++ b) -> code_at pc a.
Proof. intros (pre & post & E & L). exists pre, (b ++ post). rewrite E, app_assoc_reverse. auto. Qed.
Lemma code_at_r pc a b : code_at pc (a ++ b) -> code_at (pc + len a) b.
Proof.
  intros (pre & post & E & L). exists (pre ++ a), post. split; [rewrite E; repeat rewrite app_assoc_reverse; reflexivity|]. rewrite len_app. lia.
Qed.
Lemma code_at_len pc bs : code_at pc bs -> 0 <= pc /\ pc + len bs <= len (p_code P).
Proof. intros (pre & post & E & L). rewrite E, !len_app. pose proof (len_nonneg pre). pose proof (len_nonneg post). pose proof (len_nonneg bs). lia. Qed.

Lemma nthZ_app (A : Type) (pre : list A) x post : nthZ (pre ++ x :: post) (Z.of_nat (length pre)) = Some x.
Proof. unfold nthZ. destruct (Z.ltb_spec (Z.of_nat (length pre)) 0); [lia|]. rewrite Nat2Z.id, nth_error_app2, Nat.sub_diag by lia. reflexivity. Qed.
Lemma rd1_at s b bs f : code_at (v_pc s) (b :: bs) -> rd1 P s f = f b (set_pc s (v_pc s + 1)).
Proof. intros (pre & post & E & L). unfold rd1. rewrite L, E. unfold len. cbn [app]. rewrite nthZ_app. reflexivity. Qed.
Lemma rd8_at s v bs f : code_at (v_pc s) (enc8 v ++ bs) -> in_i64 v -> rd8 P s f = f v (set_pc s (v_pc s + 8)).
Proof.
  intros (pre & post & E & L) H. unfold rd8. rewrite L, E. unfold len. rewrite <- app_assoc, read8_app, i64_id by exact H. reflexivity.
Qed.
Lemma op_round o : op_of_byte (op_byte o) = Some o.
Proof. destruct o; try reflexivity; destruct o; reflexivity. Qed.
Lemma step_op s o bs : code_at (v_pc s) (op o ++ bs) -> step P s = VM.exec P o (set_pc s (v_pc s + 1)).
Proof. intros C. unfold step. cbn [op app] in C. rewrite (rd1_at _ _ _ _ C). rewrite op_round. reflexivity. Qed.
End Run.

(** ** Scopes and slots. *)
Definition bval (b : binding) : value := snd (snd b).
Definition vals (es : list (list binding)) : list value := map bval (concat es).
Fixpoint agree1 (base : Z) (s : scope) (b : list binding) : Prop :=
  match s, b with
  | [], [] => True
  | (x, z) :: s, (y, (k, v)) :: b => x = y /\ z = (let i := base + Z.of_nat (length s) in if k then Z.lnot i else i) /\ agree1 base s b
  | _, _ => False
  end.
Fixpoint agree (ss : list scope) (es : list (list binding)) : Prop :=
  match ss, es with
  | [], [] => True
  | s :: r, b :: q => agree1 (scope_len r) s b /\ agree r q
  | _, _ => False
  end.
Lemma agree1_length base s : forall b, agree1 base s b -> length b = length s.
Proof. induction s as [|(x, z) s IH]; intros [|(y, (k, v)) b] H; cbn in *; try tauto. destruct H as (_ & _ & H). rewrite (IH _ H). reflexivity. Qed.
Lemma agree_length ss : forall es, agree ss es -> Z.of_nat (length (vals es)) = scope_len ss.
Proof.
  unfold vals. induction ss as [|s ss IH]; intros [|b es] H; cbn [agree] in H; try (exfalso; exact H); [reflexivity|]. destruct H as (A & B).
  rewrite scope_len_cons. cbn [concat]. rewrite map_app, app_length, map_length, (agree1_length _ _ _ A). specialize (IH _ B). rewrite Nat2Z.inj_add. f_equal. exact IH.
Qed.
Lemma lnot_neg z : 0 <= z -> is_const (Z.lnot z) = true /\ get_index (Z.lnot z) = z.
Proof. intros H. unfold get_index, is_const. pose proof (Z.lnot_involutive z). unfold Z.lnot in *. destruct (Z.ltb_spec (Z.pred (- z)) 0); [|lia]. auto. Qed.
Lemma pos_not_const z : 0 <= z -> is_const z = false /\ get_index z = z.
Proof. intros H. unfold get_index, is_const. destruct (Z.ltb_spec z 0); [lia|auto]. Qed.
Lemma entry_index (k : bool) i z : 0 <= i -> z = (if k then Z.lnot i else i) -> is_const z = k /\ get_index z = i.
Proof. intros H ->. destruct k; [apply lnot_neg|apply pos_not_const]; exact H. Qed.

Lemma put_app_l {A} (l r : list A) n v : (n < length l)%nat -> put (l ++ r) n v = put l n v ++ r.
Proof. revert n. induction l as [|a l IH]; intros n H; cbn in *; [lia|]. destruct n; cbn; [reflexivity|]. rewrite IH by lia. reflexivity. Qed.
Lemma put_app_r {A} (l r : list A) n v : put (l ++ r) (length l + n) v = l ++ put r n v.
Proof. induction l as [|a l IH]; cbn; [reflexivity|]. rewrite IH. reflexivity. Qed.

(** One scope. *)
Lemma assoc1 base s x : forall b, 0 <= base -> agree1 base s b ->
  match assoc s x with
  | None => lookup b x = None
  | Some z => exists k v n, lookup b x = Some (k, v) /\ is_const z = k /\ base <= get_index z < base + Z.of_nat (length s) /\
      n = Z.to_nat (base + Z.of_nat (length s) - 1 - get_index z) /\
      nth_error (map bval b) n = Some v /\
      forall u, map bval (set_in b x u) = put (map bval b) n u /\ agree1 base s (set_in b x u)
  end.
Proof.
  induction s as [|(y, z) s IH]; intros b Hb A; destruct b as [|(y', (k, v)) b]; cbn [agree1] in A; try tauto; [reflexivity|].
  destruct A as (<- & Hz & A). cbn [assoc lookup]. destruct (name_eqb y x) eqn:Ex.
  - destruct (entry_index k (base + Z.of_nat (length s)) z ltac:(lia) Hz) as (C & I). exists k, v, O. rewrite I. cbn [length]. split; [reflexivity|]. split; [exact C|]. split; [lia|]. split; [lia|].
    split; [reflexivity|]. intros u. cbn [set_in]. rewrite Ex. cbn [map bval snd put agree1]. auto.
  - specialize (IH b Hb A). destruct (assoc s x) as [z'|]; [|exact IH]. destruct IH as (k' & v' & n & L & C & R & N & E & U). exists k', v', (S n). cbn [length].
    split; [exact L|]. split; [exact C|]. split; [lia|]. split; [lia|]. split; [exact E|]. intros u. destruct (U u) as (U1 & U2). cbn [set_in]. rewrite Ex. cbn [map bval snd put agree1]. rewrite U1. auto.
Qed.
Lemma map_vals_cons b es : vals (b :: es) = map bval b ++ vals es.
Proof. unfold vals. cbn [concat]. apply map_app. Qed.

Lemma get_var ss x : forall es, agree ss es ->
  match scope_get ss x with
  | None => find_var es x = None
  | Some z => exists k v n, find_var es x = Some (k, v) /\ is_const z = k /\ 0 <= get_index z < scope_len ss /\
      n = Z.to_nat (scope_len ss - 1 - get_index z) /\ nth_error (vals es) n = Some v /\
      forall u, vals (set_var es x u) = put (vals es) n u /\ agree ss (set_var es x u)
  end.
Proof.
  induction ss as [|s ss IH]; intros [|b es] A; cbn [agree] in A; try tauto; [reflexivity|]. destruct A as (A1 & A2). cbn [scope_get find_var].
  pose proof (assoc1 _ _ x _ (scope_len_nonneg ss) A1) as H1. pose proof (agree1_length _ _ _ A1) as L1. rewrite scope_len_cons. destruct (assoc s x) as [z|].
  - destruct H1 as (k & v & n & L & C & R & N & E & U). pose proof (scope_len_nonneg ss). exists k, v, n. rewrite L. split; [reflexivity|]. split; [exact C|]. split; [lia|]. split; [subst n; f_equal; lia|].
    rewrite map_vals_cons. assert (n < length (map bval b))%nat by (apply nth_error_Some; congruence).
    split; [rewrite nth_error_app1 by assumption; exact E|]. intros u. destruct (U u) as (U1 & U2). cbn [set_var]. rewrite L, map_vals_cons, U1, put_app_l by assumption. split; [reflexivity|]. split; assumption.
  - rewrite H1. specialize (IH es A2). destruct (scope_get ss x) as [z|]; [|exact IH]. destruct IH as (k & v & n & L & C & R & N & E & U). exists k, v, (length b + n)%nat.
    split; [exact L|]. split; [exact C|]. split; [lia|]. split; [lia|]. rewrite map_vals_cons. assert (Q : (length b + n = length (map bval b) + n)%nat) by (rewrite map_length; reflexivity).
    split; [rewrite Q, nth_error_app2 by lia; replace (_ + n - _)%nat with n by lia; exact E|]. intros u. destruct (U u) as (U1 & U2). cbn [set_var]. rewrite H1, map_vals_cons, U1, Q, put_app_r. split; [reflexivity|]. split; assumption.
Qed.
Lemma agree_decl ss es x k v : agree ss es -> match ss, es with
  | s :: r, b :: q => agree (decl ss x k) (((x, (k, v)) :: b) :: q) | _, _ => True end.
Proof. destruct ss as [|s ss], es as [|b es]; cbn; auto. intros (A & B). split; [|exact B]. split; [reflexivity|]. split; [|exact A]. rewrite scope_len_cons. rewrite (Z.add_comm (Z.of_nat _)). reflexivity. Qed.
