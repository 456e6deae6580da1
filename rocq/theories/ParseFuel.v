(** * More fuel does not change what the parser answers. *)
From Verif Require Import Base Value Ops Ast Fold Stmt Text Lexer Parser.

Definition refines {A} (x y : pres A) : Prop := forall a, x = POk a -> y = POk a.
Lemma r_refl {A} (x : pres A) : refines x x. Proof. intros a E. exact E. Qed.
Lemma r_bind {A B} (x y : pres A) (f g : A -> pres B) : refines x y -> (forall a, refines (f a) (g a)) -> refines (pbind x f) (pbind y g).
Proof. intros H K b E. destruct x as [a| | | |]; try discriminate E. rewrite (H a eq_refl). cbn [pbind] in *. apply K, E. Qed.
Lemma r_fuel {A} (y : pres A) : refines PFuel y. Proof. intros a E. discriminate E. Qed.

Section Fuel.
Variable strtod : list Z -> float.
Ltac go := repeat (first [ apply r_refl | apply r_fuel | assumption
  | match goal with H : forall ts, refines _ _ |- _ => apply H | H : forall k ts, refines _ _ |- _ => apply H | H : forall k l ts, refines _ _ |- _ => apply H end
  | apply r_bind; [|intros ?]
  | match goal with |- refines (match ?x with _ => _ end) _ => destruct x end
  | progress cbv beta iota ]).
Lemma expr_fuel : forall f g, (f <= g)%nat -> (forall k ts, refines (p_level strtod f k ts) (p_level strtod g k ts)) /\
  (forall k l ts, refines (p_loop strtod f k l ts) (p_loop strtod g k l ts)) /\ (forall ts, refines (p_expr strtod f ts) (p_expr strtod g ts)).
Proof.
  induction f as [|f IH]; intros g L; [repeat split; intros; apply r_fuel|]. destruct g as [|g]; [lia|]. destruct (IH g ltac:(lia)) as (IH1 & IH2 & IH3). repeat split.
  - intros k ts. cbn [p_level]. destruct (binary k) as [[[|] ops]|].
    + apply r_bind; [apply IH1|]. intros (l & ts1). apply IH2.
    + apply r_bind; [apply IH1|]. intros (l & ts1). destruct (one ops ts1); [|apply r_refl]. apply r_bind; [apply IH1|]. intros (r & ts2). apply r_refl.
    + do 17 (destruct k as [|k]; [go|]). go.
  - intros k l ts. cbn [p_loop]. destruct (binary k) as [[a ops]|]; [|apply r_refl]. destruct (one ops ts); [|apply r_refl]. apply r_bind; [apply IH1|]. intros (r & ts2). apply r_bind; [apply r_refl|]. intros e. apply IH2.
  - intros ts. cbn [p_expr]. apply r_bind; [apply IH1|]. intros (e & ts1). apply r_refl.
Qed.
Lemma assign_fuel f g e ts : (f <= g)%nat -> refines (p_assign strtod f e ts) (p_assign strtod g e ts).
Proof. intros L. pose proof (proj2 (proj2 (expr_fuel f g L))) as H. unfold p_assign. destruct (is T_EQ ts); destruct e; go. Qed.
Lemma simple_fuel f g ts : (f <= g)%nat -> refines (p_simple strtod f ts) (p_simple strtod g ts).
Proof. intros L. pose proof (proj2 (proj2 (expr_fuel f g L))) as H. unfold p_simple. apply r_bind; [apply H|]. intros (e & ts1). destruct (_ || _); [apply assign_fuel, L|apply r_refl]. Qed.
Lemma lval_fuel f g ts : (f <= g)%nat -> refines (p_lval strtod f ts) (p_lval strtod g ts).
Proof. intros L. pose proof (proj1 (expr_fuel f g L)) as H. unfold p_lval. go. Qed.
Lemma lvals_fuel : forall f g ts, (f <= g)%nat -> refines (p_lvals strtod f ts) (p_lvals strtod g ts).
Proof. induction f as [|f IH]; intros g ts L; [apply r_fuel|]. destruct g as [|g]; [lia|]. cbn [p_lvals]. destruct (is T_COMMA ts); [|apply r_refl]. apply r_bind; [apply lval_fuel; lia|]. intros (l & ts1). apply r_bind; [apply IH; lia|]. intros (ls & ts2). apply r_refl. Qed.
Lemma exprs_fuel : forall f g more ts, (f <= g)%nat -> refines (p_exprs strtod f more ts) (p_exprs strtod g more ts).
Proof. induction f as [|f IH]; intros g more ts L; [apply r_fuel|]. destruct g as [|g]; [lia|]. cbn [p_exprs]. apply r_bind; [apply (expr_fuel f g); lia|]. intros (e & ts1). destruct more; [apply r_refl|]. destruct (is T_COMMA ts1); [|apply r_refl]. apply r_bind; [apply IH; lia|]. intros (ls & ts2). apply r_refl. Qed.
Lemma decl_fuel f g ts : (f <= g)%nat -> refines (p_decl strtod f ts) (p_decl strtod g ts).
Proof.
  intros L. unfold p_decl. apply r_bind; [apply lval_fuel, L|]. intros (l & t1). apply r_bind; [apply lvals_fuel, L|]. intros (ls & t2). apply r_bind; [apply r_refl|]. intros t3. unfold p_pack. apply r_bind; [|intros (es & t4); apply r_refl].
  apply r_bind; [apply exprs_fuel, L|]. intros (es & t4). apply r_refl.
Qed.
Lemma stmt_fuel : forall f g, (f <= g)%nat -> (forall ts, refines (p_stmt strtod f ts) (p_stmt strtod g ts)) /\ (forall ts, refines (p_if strtod f ts) (p_if strtod g ts)) /\
  (forall ts, refines (p_body strtod f ts) (p_body strtod g ts)) /\ (forall ts, refines (p_stmts strtod f ts) (p_stmts strtod g ts)).
Proof.
  induction f as [|f IH]; intros g L; [repeat split; intros; apply r_fuel|]. destruct g as [|g]; [lia|]. destruct (IH g ltac:(lia)) as (IH1 & IH2 & IH3 & IH4).
  pose proof (proj2 (proj2 (expr_fuel f g ltac:(lia)))) as He. pose proof (fun ts => simple_fuel f g ts ltac:(lia)) as Hs. pose proof (fun ts => decl_fuel f g ts ltac:(lia)) as Hd. repeat split.
  - intros ts. cbn [p_stmt]. destruct (cur ts); go.
  - intros ts. cbn [p_if]. go.
  - intros ts. cbn [p_body]. go.
  - intros ts. cbn [p_stmts]. go.
Qed.
Lemma program_fuel : forall f g ts, (f <= g)%nat -> refines (p_program strtod f ts) (p_program strtod g ts).
Proof. induction f as [|f IH]; intros g ts L; [apply r_fuel|]. destruct g as [|g]; [lia|]. cbn [p_program]. destruct (is T_EOF ts); [apply r_refl|]. apply r_bind; [apply (stmt_fuel f g); lia|]. intros (s & t1). apply r_bind; [apply r_refl|]. intros t2. apply r_bind; [apply IH; lia|]. intros l. apply r_refl. Qed.
Lemma text_fuel f g text : (f <= g)%nat -> refines (parse_text strtod f text) (parse_text strtod g text).
Proof. intros L. unfold parse_text. destruct (lex text); [apply program_fuel, L|apply r_refl]. Qed.
End Fuel.
