(** * More fuel does not change what the parser of TreeParser.v answers. *)
From Verif Require Import Base Value Ops Ast Fold Stmt Text Lexer Parser ParseFuel Tree TreeParser.
Local Open Scope list_scope.

Ltac go := repeat (first [ apply r_refl | apply r_fuel | assumption
  | match goal with H : forall ts, refines _ _ |- _ => apply H | H : forall k ts, refines _ _ |- _ => apply H | H : forall k l ts, refines _ _ |- _ => apply H end
  | apply r_bind; [|intros ?]
  | match goal with |- refines (match ?x with _ => _ end) _ => destruct x end
  | progress cbv beta iota zeta ]).
Section Pieces.
Variables pe pe' : list token -> px.
Hypothesis P : forall ts, refines (pe ts) (pe' ts).
Lemma args_fuel : forall f g, (f <= g)%nat -> forall ts, refines (q_args pe f ts) (q_args pe' g ts).
Proof. induction f as [|f IH]; intros g L ts; [apply r_fuel|]. destruct g as [|g]; [lia|]. pose proof (IH g ltac:(lia)) as I. cbn [q_args]. go. Qed.
Lemma call_fuel f g ts : (f <= g)%nat -> refines (q_call pe f ts) (q_call pe' g ts).
Proof. intros L. pose proof (args_fuel f g L) as I. unfold q_call. go. Qed.
Lemma more_fuel : forall f g, (f <= g)%nat -> forall ts, refines (q_more pe f ts) (q_more pe' g ts).
Proof. induction f as [|f IH]; intros g L ts; [apply r_fuel|]. destruct g as [|g]; [lia|]. pose proof (IH g ltac:(lia)) as I. cbn [q_more]. go. Qed.
Lemma entries_fuel : forall f g, (f <= g)%nat -> forall ts, refines (q_more_entries pe f ts) (q_more_entries pe' g ts).
Proof. induction f as [|f IH]; intros g L ts; [apply r_fuel|]. destruct g as [|g]; [lia|]. pose proof (IH g ltac:(lia)) as I. cbn [q_more_entries]. go. Qed.
Lemma list_fuel f g ts : (f <= g)%nat -> refines (q_list pe f ts) (q_list pe' g ts).
Proof. intros L. pose proof (more_fuel f g L) as I. unfold q_list. go. Qed.
Lemma table_fuel f g ts : (f <= g)%nat -> refines (q_table pe f ts) (q_table pe' g ts).
Proof. intros L. pose proof (entries_fuel f g L) as I. unfold q_table. go. Qed.
Lemma post_fuel : forall f g, (f <= g)%nat -> forall e ts, refines (q_post pe f e ts) (q_post pe' g e ts).
Proof.
  induction f as [|f IH]; intros g L e ts; [apply r_fuel|]. destruct g as [|g]; [lia|]. pose proof (IH g ltac:(lia)) as I. pose proof (fun ts => call_fuel f g ts ltac:(lia)) as C. cbn [q_post]. destruct (cur ts); go.
Qed.
Lemma assign_fuel e ts : refines (q_assign pe e ts) (q_assign pe' e ts).
Proof. unfold q_assign. destruct (is T_EQ ts); destruct e; go. Qed.
Lemma simple_fuel ts : refines (q_simple pe ts) (q_simple pe' ts).
Proof. unfold q_simple. apply r_bind; [apply P|]. intros (e & ts1). destruct (_ || _); [apply assign_fuel|apply r_refl]. Qed.
Lemma lvals_fuel : forall f g, (f <= g)%nat -> forall ts, refines (q_lvals f ts) (q_lvals g ts).
Proof. induction f as [|f IH]; intros g L ts; [apply r_fuel|]. destruct g as [|g]; [lia|]. pose proof (IH g ltac:(lia)) as I. cbn [q_lvals]. go. Qed.
Lemma exprs_fuel : forall f g, (f <= g)%nat -> forall more ts, refines (q_exprs pe f more ts) (q_exprs pe' g more ts).
Proof. induction f as [|f IH]; intros g L more ts; [apply r_fuel|]. destruct g as [|g]; [lia|]. pose proof (IH g ltac:(lia)) as I. cbn [q_exprs]. go. Qed.
Lemma decl_fuel f g ts : (f <= g)%nat -> refines (q_decl pe f ts) (q_decl pe' g ts).
Proof. intros L. pose proof (lvals_fuel f g L) as I1. pose proof (exprs_fuel f g L) as I2. unfold q_decl. apply r_bind; [apply r_refl|]. intros (l & t1). apply r_bind; [apply I1|]. intros (ls & t2). apply r_bind; [apply r_refl|]. intros t3. apply r_bind; [apply I2|]. intros (es & t4). apply r_refl. Qed.
Lemma return_fuel f g ts : (f <= g)%nat -> refines (q_return pe f ts) (q_return pe' g ts).
Proof. intros L. pose proof (more_fuel f g L) as I. unfold q_return. go. Qed.
End Pieces.
Section Fuel.
Variable strtod : list Z -> float.
Lemma all_fuel : forall f g, (f <= g)%nat ->
  (forall k ts, refines (q_level strtod f k ts) (q_level strtod g k ts)) /\ (forall k l ts, refines (q_loop strtod f k l ts) (q_loop strtod g k l ts)) /\ (forall ts, refines (q_expr strtod f ts) (q_expr strtod g ts)) /\
  (forall ts, refines (q_stmt strtod f ts) (q_stmt strtod g ts)) /\ (forall k ts, refines (q_fn strtod f k ts) (q_fn strtod g k ts)) /\ (forall ts, refines (q_if strtod f ts) (q_if strtod g ts)) /\
  (forall ts, refines (q_body strtod f ts) (q_body strtod g ts)) /\ (forall ts, refines (q_stmts strtod f ts) (q_stmts strtod g ts)).
Proof.
  induction f as [|f IH]; intros g L; [repeat split; intros; apply r_fuel|]. destruct g as [|g]; [lia|]. destruct (IH g ltac:(lia)) as (IH1 & IH2 & IH3 & IH4 & IH5 & IH6 & IH7 & IH8).
  assert (Lf : (f <= g)%nat) by lia.
  pose proof (post_fuel _ _ IH3 f g Lf) as Hp. pose proof (fun ts => list_fuel _ _ IH3 f g ts Lf) as Hl. pose proof (fun ts => table_fuel _ _ IH3 f g ts Lf) as Ht. pose proof (fun ts => simple_fuel _ _ IH3 ts) as Hs. pose proof (fun ts => decl_fuel _ _ IH3 f g ts Lf) as Hd. pose proof (fun ts => return_fuel _ _ IH3 f g ts Lf) as Hr.
  repeat split.
  - intros k ts. cbn [q_level]. destruct (binary k) as [[[|] ops]|].
    + apply r_bind; [apply IH1|]. intros (l & ts1). apply IH2.
    + apply r_bind; [apply IH1|]. intros (l & ts1). destruct (one ops ts1); [|apply r_refl]. apply r_bind; [apply IH1|]. intros (r & ts2). apply r_refl.
    + do 17 (destruct k as [|k]; [go|]). destruct (cur ts); go.
  - intros k l ts. cbn [q_loop]. destruct (binary k) as [[a ops]|]; [|apply r_refl]. destruct (one ops ts); [|apply r_refl]. apply r_bind; [apply IH1|]. intros (r & ts2). apply r_bind; [apply r_refl|]. intros e. apply IH2.
  - intros ts. cbn [q_expr]. apply r_bind; [apply IH1|]. intros (e & ts1). apply r_refl.
  - intros ts. cbn [q_stmt]. destruct (cur ts); go.
  - intros k ts. cbn [q_fn]. go.
  - intros ts. cbn [q_if]. go.
  - intros ts. cbn [q_body]. go.
  - intros ts. cbn [q_stmts]. go.
Qed.
Lemma program_fuel : forall f g ts, (f <= g)%nat -> refines (q_program strtod f ts) (q_program strtod g ts).
Proof. induction f as [|f IH]; intros g ts L; [apply r_fuel|]. destruct g as [|g]; [lia|]. cbn [q_program]. destruct (is T_EOF ts); [apply r_refl|]. apply r_bind; [apply (proj1 (proj2 (proj2 (proj2 (all_fuel f g ltac:(lia))))))|]. intros (s & t1). apply r_bind; [apply r_refl|]. intros t2. apply r_bind; [apply IH; lia|]. intros l. apply r_refl. Qed.
Lemma text_fuel f g text : (f <= g)%nat -> refines (read_text strtod f text) (read_text strtod g text).
Proof. intros L. unfold read_text. destruct (lex text); [apply program_fuel, L|apply r_refl]. Qed.
End Fuel.
