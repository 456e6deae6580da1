(** Generic list facts missing from the 8.16 standard library. *)
From Verif Require Import Base.

Lemma skipn_skipn {A} (x y : nat) : forall (l : list A), skipn x (skipn y l) = skipn (x + y) l.
Proof.
  induction y as [|y IH]; intros l; [rewrite Nat.add_0_r; reflexivity|].
  destruct l as [|a l]; [rewrite !skipn_nil; reflexivity|]. rewrite Nat.add_succ_r. cbn [skipn]. apply IH.
Qed.

Lemma firstn_skipn_comm' {A} (m n : nat) (l : list A) : firstn m (skipn n l) = skipn n (firstn (n + m) l).
Proof. apply firstn_skipn_comm. Qed.
