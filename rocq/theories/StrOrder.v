From Verif Require Import Base Value ValueProofs ValueSpec Ops.

(** [str_cmp] computed by one traversal. *)
Fixpoint lexc (a b : list Z) : Z :=
  match a, b with
  | [], [] => 0
  | [], _ => -1
  | _, [] => 1
  | x :: a', y :: b' => if x <? y then -1 else if y <? x then 1 else lexc a' b'
  end.

Lemma str_cmp_lexc a : forall b, str_cmp a b = lexc a b.
Proof.
  induction a as [|x a IH]; intros [|y b].
  - reflexivity.
  - reflexivity.
  - cbn. destruct a; reflexivity.
  - specialize (IH b). unfold str_cmp in *. cbn [length Nat.eqb memcmp lexc firstn] in *.
    change (S (length a) <? S (length b))%nat with (length a <? length b)%nat.
    destruct (x <? y).
    + destruct (Nat.eqb (length a) (length b)); [reflexivity|]. destruct (length a <? length b)%nat; reflexivity.
    + destruct (y <? x).
      * destruct (Nat.eqb (length a) (length b)); [reflexivity|]. destruct (length a <? length b)%nat; reflexivity.
      * exact IH.
Qed.

Lemma lexc_range a : forall b, lexc a b = -1 \/ lexc a b = 0 \/ lexc a b = 1.
Proof.
  induction a as [|x a IH]; intros [|y b]; cbn; auto. destruct (x <? y); auto. destruct (y <? x); auto.
Qed.

Lemma lexc_lt a : forall b, lexc a b = -1 <-> lex_lt a b.
Proof.
  induction a as [|x a IH]; intros [|y b]; cbn [lexc].
  - split; [discriminate|intros H; inversion H].
  - split; [constructor|reflexivity].
  - split; [discriminate|intros H; inversion H].
  - destruct (Z.ltb_spec x y).
    + split; [intros _; apply lex_head; assumption|reflexivity].
    + destruct (Z.ltb_spec y x).
      * split; [discriminate|intros HL; inversion HL; subst; lia].
      * assert (x = y) by lia. subst y. rewrite IH. split; [apply lex_tail|intros HL; inversion HL; subst; [lia|assumption]].
Qed.

Lemma lexc_opp a : forall b, lexc b a = - lexc a b.
Proof.
  induction a as [|x a IH]; intros [|y b]; cbn [lexc]; try reflexivity.
  destruct (Z.ltb_spec x y), (Z.ltb_spec y x); try reflexivity; try lia; apply IH.
Qed.

Lemma lexc_eq a b : lexc a b = 0 <-> a = b.
Proof. rewrite <- str_cmp_lexc. apply str_cmp_eq. Qed.

Lemma lex_trans a b c : lex_lt a b -> lex_lt b c -> lex_lt a c.
Proof.
  intros H. revert c. induction H as [y b|x a y b Hxy|x a b Hab IH]; intros c Hc; inversion Hc; subst;
    first [apply lex_nil | apply lex_head; lia | apply lex_tail; auto].
Qed.
Lemma lex_irrefl a : ~ lex_lt a a.
Proof. intros H. apply lexc_lt in H. assert (lexc a a = 0) by (apply lexc_eq; reflexivity). lia. Qed.

Lemma lex_total a b : lex_lt a b \/ a = b \/ lex_lt b a.
Proof.
  destruct (lexc_range a b) as [H|[H|H]].
  - left. apply lexc_lt. assumption.
  - right. left. apply lexc_eq. assumption.
  - right. right. apply lexc_lt. rewrite lexc_opp, H. reflexivity.
Qed.

Lemma str_comp_spec w s t :
  exists lt le gt ge eq,
    exec_binop w BLt (VStr s) (VStr t) = Ok (VBool lt) /\ (lt = true <-> lex_lt s t) /\
    exec_binop w BLe (VStr s) (VStr t) = Ok (VBool le) /\ (le = true <-> lex_lt s t \/ s = t) /\
    exec_binop w BGt (VStr s) (VStr t) = Ok (VBool gt) /\ (gt = true <-> lex_lt t s) /\
    exec_binop w BGe (VStr s) (VStr t) = Ok (VBool ge) /\ (ge = true <-> lex_lt t s \/ s = t) /\
    exec_binop w BEq (VStr s) (VStr t) = Ok (VBool eq) /\ (eq = true <-> s = t).
Proof.
  cbn [exec_binop vm_comp comp_int vm_eq is_equal]. rewrite str_cmp_lexc.
  pose proof (lexc_range s t) as R. pose proof (lexc_lt s t) as L. pose proof (lexc_lt t s) as L'.
  rewrite lexc_opp in L'. pose proof (lexc_eq s t) as Q.
  do 5 eexists.
  split; [reflexivity|]. split; [rewrite <- L; lia|].
  split; [reflexivity|]. split; [rewrite <- L, <- Q; lia|].
  split; [reflexivity|]. split; [rewrite <- L'; lia|].
  split; [reflexivity|]. split; [rewrite <- L', <- Q; lia|].
  split; [reflexivity|]. rewrite <- Q. lia.
Qed.
