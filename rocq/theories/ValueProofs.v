From Verif Require Import Base Value.

Lemma memcmp_refl a : memcmp a a = 0.
Proof. induction a as [|x a IH]; cbn [memcmp]; [reflexivity|]. rewrite Z.ltb_irrefl. exact IH. Qed.

Lemma memcmp_eq a : forall b, length a = length b -> (memcmp a b = 0 <-> a = b).
Proof.
  induction a as [|x a IH]; intros [|y b] H; cbn [memcmp length] in *; try discriminate; [tauto|].
  destruct (Z.ltb_spec x y); [split; [discriminate|intros E; injection E; lia]|].
  destruct (Z.ltb_spec y x); [split; [discriminate|intros E; injection E; lia]|].
  assert (x = y) by lia. subst. rewrite IH by lia. split; [intros ->; reflexivity|intros E; injection E; auto].
Qed.

Lemma str_cmp_eq l r : str_cmp l r = 0 <-> l = r.
Proof.
  unfold str_cmp. destruct (Nat.eqb_spec (length l) (length r)) as [E|E].
  - apply memcmp_eq. exact E.
  - destruct (Nat.ltb (length l) (length r)); cbv zeta.
    + destruct (Z.eqb_spec (memcmp l (firstn (length l) r)) 0) as [H|H];
        (split; [intros; try lia; try contradiction|intros ->; lia]).
    + destruct (Z.eqb_spec (memcmp (firstn (length r) l) r) 0) as [H|H];
        (split; [intros; try lia; try contradiction|intros ->; lia]).
Qed.

Definition spec_float_eq_dec (a b : spec_float) : {a = b} + {a <> b}.
Proof. decide equality; try apply Bool.bool_dec; try apply Z.eq_dec; apply Pos.eq_dec. Defined.
Definition value_eq_dec (a b : value) : {a = b} + {a <> b}.
Proof.
  decide equality; try apply Z.eq_dec; try apply Bool.bool_dec; try apply spec_float_eq_dec.
  apply list_eq_dec, Z.eq_dec.
Defined.

(** On doubles, C's [==] is structural equality except for NaN and signed zeros. *)
Lemma f_eqb_spec f g : f_eqb f g = true <->
  match f, g with
  | S754_nan, _ | _, S754_nan => False
  | S754_zero _, S754_zero _ => True
  | _, _ => f = g
  end.
Proof.
  unfold f_eqb, SFeqb. destruct f as [s|s| |s m e], g as [s'|s'| |s' m' e'];
    try destruct s; try destruct s'; cbn [SFcompare]; try (split; intros; (discriminate || tauto || reflexivity)).
  - change (Pos.compare_cont Eq m m') with (m ?= m')%positive.
    destruct (Z.compare_spec e e') as [He|He|He].
    + destruct (Pos.compare_spec m m') as [Hm|Hm|Hm]; cbn; subst;
        (split; [intros H; try discriminate H; reflexivity|intros H; first [reflexivity | exfalso; injection H; intros; subst; (eapply Pos.lt_irrefl; eassumption)]]).
    + cbn. split; [discriminate|intros H; injection H; lia].
    + cbn. split; [discriminate|intros H; injection H; lia].
  - change (Pos.compare_cont Eq m m') with (m ?= m')%positive.
    destruct (Z.compare_spec e e') as [He|He|He].
    + destruct (Pos.compare_spec m m') as [Hm|Hm|Hm]; subst;
        (split; [intros H; try discriminate H; reflexivity|intros H; first [reflexivity | exfalso; injection H; intros; subst; (eapply Pos.lt_irrefl; eassumption)]]).
    + split; [discriminate|intros H; injection H; lia].
    + split; [discriminate|intros H; injection H; lia].
Qed.
