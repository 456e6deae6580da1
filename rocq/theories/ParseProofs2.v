(** * More about the parser: the printer, what folding changes, shapes. *)
From Verif Require Import Base Value Ops Ast Fold FoldSpec FoldProofs Stmt Limits Text TextSpec TextProofs PropText Lexer LexSpec LexProofs Parser ParseSpec ParseProofs.

(** ** The printer. *)
Section Print.
Variable strtod : list Z -> float.
Notation expr_at := (ParseSpec.expr_at strtod).
Variable digits : Z -> list Z.
Hypothesis digits_ok : forall i, 0 <= i <= 9223372036854775807 -> digits i <> [] /\ Forall dec_digit (digits i) /\ denotes 10 (digits i) = i.
Lemma at_weaker e a : forall d k, expr_at (d + k) e a -> (d + k <= 15)%nat -> expr_at k e a.
Proof. induction d as [|d IH]; intros k H L; [exact H|]. apply at_stronger; [|lia]. apply IH; [|lia]. replace (d + S k)%nat with (S d + k)%nat by lia. exact H. Qed.
Lemma at_lower e a j k : expr_at j e a -> (k <= j)%nat -> (j <= 15)%nat -> expr_at k e a.
Proof. intros H L L2. apply (at_weaker e a (j - k)). - replace (j - k + k)%nat with j by lia. exact H. - lia. Qed.
Lemma wrap_at e a k j : expr_at j e a -> (k <= 15)%nat -> (j <= 15)%nat -> expr_at k e (wrap (j <? k)%nat a).
Proof.
  intros H L L2. destruct (Nat.ltb_spec j k); cbn [wrap].
  - apply at_lower with 15%nat; [|lia|lia]. apply at_parens. apply at_lower with j; [exact H|lia|lia].
  - apply at_lower with j; [exact H|lia|lia].
Qed.
Lemma written_at e : writable e = true -> forall k, (k <= 15)%nat -> expr_at k e (written digits k e).
Proof.
  induction e as [|b|i|f|s|x|u e IH|o l IHl r IHr|o l IHl r IHr|c IHc x IHx y IHy]; intros W k L; cbn [writable] in W; cbn [written own_strength].
  - apply (wrap_at EUndef _ k 15); [|lia|lia]. apply at_leaf, leaf_undef.
  - apply (wrap_at (EBool b) _ k 15); [|lia|lia]. apply at_leaf, leaf_bool.
  - apply andb_true_iff in W. destruct W as (W1 & W2). apply Z.leb_le in W1, W2. destruct (digits_ok i ltac:(lia)) as (N & F & D). apply (wrap_at (EInt i) _ k 15); [|lia|lia]. apply at_leaf. rewrite <- D at 1. apply leaf_int; auto. lia.
  - discriminate.
  - apply (wrap_at (EStr s) _ k 15); [|lia|lia]. apply at_leaf, leaf_str.
  - apply (wrap_at (EVar x) _ k 15); [|lia|lia]. apply at_leaf, leaf_var.
  - apply (wrap_at (EUn u e) _ k 13); [|lia|lia]. apply at_prefix, IH; [exact W|lia].
  - apply andb_true_iff in W. destruct W as (Wl & Wr). assert (Ls : (strength (OBin o) <= 14)%nat) by (destruct o as [[]| |]; cbn; lia).
    apply (wrap_at (EBin o l r) _ k (strength (OBin o))); [|lia|lia].
    destruct o as [o| |]; [destruct o| |]; cbn [groups strength]; try (apply (at_power strtod l r); [apply IHl|apply IHr]; auto; lia);
      match goal with |- expr_at _ (EBin ?o l r) _ => first [apply (at_left strtod (OBin o) l r); [reflexivity|apply IHl|apply IHr]; auto; cbn; lia | apply (at_right strtod (OBin o) l r); [reflexivity|discriminate|apply IHl|apply IHr]; auto; cbn; lia] end.
  - apply andb_true_iff in W. destruct W as (Wl & Wr). assert (Ls : (strength (OSc o) <= 3)%nat) by (destruct o; cbn; lia).
    apply (wrap_at (ESc o l r) _ k (strength (OSc o))); [|lia|lia]. apply (at_right strtod (OSc o) l r); [reflexivity|discriminate|apply IHl|apply IHr]; auto; lia.
  - apply andb_true_iff in W. destruct W as (W & Wy). apply andb_true_iff in W. destruct W as (Wc & Wx). apply (wrap_at (ETri c x y) _ k 0); [|lia|lia]. apply at_ternary; [apply IHc|apply IHx|apply IHy]; auto; lia.
Qed.
End Print.
Lemma print_digits i : 0 <= i <= 9223372036854775807 -> print_i64 i <> [] /\ Forall dec_digit (print_i64 i) /\ denotes 10 (print_i64 i) = i.
Proof.
  intros L. destruct (print_text i ltac:(unfold in_i64, int_min, int_max; lia)) as (ds & E & F & Sh & D). destruct (Z.ltb_spec i 0); [lia|]. cbn [app] in E. rewrite E. rewrite Z.abs_eq in D by lia. repeat split; auto. destruct Sh as [->|(c & r & -> & _)]; discriminate.
Qed.

(** ** Folding leaves the meaning of statements alone. *)
Section Exec.
Variable h : host.
Definition guarded (s : stmt) : Prop := Forall (fun e => forall rho, fold_guard (h_world h) rho e) (exprs_of s).
Lemma fold_closed st e : forall e', fold e = Ok e' -> closed h st e' = closed h st e.
Proof.
  induction e as [| | | | | |op e1 IH|op l IHl r IHr|op l IHl r IHr|c IHc a IHa b IHb]; intros e' Hf; try (cbn in Hf; injection Hf as <-; reflexivity); cbn [fold] in Hf.
  - destruct (fold e1) as [e1'| | |] eqn:E1; try discriminate. cbn [bind] in Hf. cbn [closed]. rewrite <- (IH _ eq_refl). destruct e1', op; cbn [fold_un] in Hf; unfold mk_int in Hf; try (injection Hf as <-; reflexivity). destruct (in_i64b _); [injection Hf as <-; reflexivity|discriminate].
  - destruct (fold l) as [l'| | |] eqn:El; try discriminate. cbn [bind] in Hf. destruct (fold r) as [r'| | |] eqn:Er; try discriminate. cbn [bind] in Hf. cbn [closed]. rewrite <- (IHl _ eq_refl), <- (IHr _ eq_refl).
    destruct l'; destruct r'; cbn [fold_bin] in Hf; try (injection Hf as <-; reflexivity); cbn [closed].
    + destruct op as [[]| |]; cbn [fold_int_int] in Hf; unfold mk_int in Hf; repeat match type of Hf with (if ?c then _ else _) = _ => destruct c end; try discriminate; injection Hf as <-; reflexivity.
    + injection Hf as <-. destruct op as [[]| |]; reflexivity.
    + injection Hf as <-. destruct op as [[]| |]; reflexivity.
    + injection Hf as <-. destruct op as [[]| |]; reflexivity.
  - destruct (fold l) as [l'| | |] eqn:El; try discriminate. cbn [bind] in Hf. destruct (fold r) as [r'| | |] eqn:Er; try discriminate. cbn [bind] in Hf. injection Hf as <-. cbn [closed]. rewrite (IHl _ eq_refl), (IHr _ eq_refl). reflexivity.
  - destruct (fold c) as [c'| | |] eqn:Ec; try discriminate. cbn [bind] in Hf. destruct (fold a) as [a'| | |] eqn:Ea; try discriminate. cbn [bind] in Hf. destruct (fold b) as [b'| | |] eqn:Eb; try discriminate. cbn [bind] in Hf. injection Hf as <-. cbn [closed]. rewrite (IHc _ eq_refl), (IHa _ eq_refl), (IHb _ eq_refl). reflexivity.
Qed.
Lemma ev_fold st e e' k k' : fold e = Ok e' -> (forall rho, fold_guard (h_world h) rho e) -> (forall v, k' v = k v) -> ev h st e' k' = ev h st e k.
Proof. intros F G K. unfold ev. rewrite (fold_closed _ _ _ F), (fold_correct _ _ _ _ (G _) F). destruct (closed h st e); [|reflexivity]. destruct (eval _ _ e); auto. Qed.
Lemma ev_list_fold st es : forall es' k k', fold_list es = Ok es' -> Forall (fun e => forall rho, fold_guard (h_world h) rho e) es -> (forall v, k' v = k v) -> ev_list h st es' k' = ev_list h st es k.
Proof.
  induction es as [|e es IH]; intros es' k k' F G K; cbn [fold_list] in F; [injection F as <-; apply K|]. destruct (fold e) as [e'| | |] eqn:E; try discriminate. cbn [bind] in F. destruct (fold_list es) as [r| | |] eqn:Er; try discriminate. injection F as <-. cbn [ev_list]. inversion G; subst. apply ev_fold; auto.
Qed.
Lemma exec_simplified n s : forall sf st, simplified s = Ok sf -> guarded s -> exec h n sf st = exec h n s st.
Proof.
  unfold guarded. induction s as [|a IHa b IHb|e|x e|x e|ls rs|x e|b IHb|c a IHa|c a IHa b IHb|c b IHb|c b IHb p IHp|x e b IHb| | |e|e|s IHs]; intros sf st F G; cbn [simplified exprs_of] in *;
    repeat match type of F with
    | (do _ <- ?q; _) = Ok _ => let E := fresh "E" in destruct q eqn:E; try discriminate F; cbn [bind] in F
    end; injection F as <-;
    repeat match goal with
    | G : Forall _ (_ ++ _) |- _ => apply Forall_app in G; destruct G
    | G : Forall _ (_ :: _) |- _ => apply Forall_cons_iff in G; destruct G
    end; cbn [exec]; try reflexivity; try (apply ev_fold; auto; fail).
  - rewrite (IHa _ _ eq_refl) by assumption. destruct (exec h n a st) as [[]?| | |]; auto.
  - apply ev_list_fold; auto.
  - rewrite (IHb _ _ eq_refl) by assumption. reflexivity.
  - apply ev_fold; auto. intros v. destruct (is_falsey v); auto.
  - apply ev_fold; auto. intros v. destruct (is_falsey v); auto.
  - generalize n at 2 4. intros m. revert st. induction m as [|m IHm]; intros st; [reflexivity|]. apply ev_fold; auto. intros v. destruct (is_falsey v); [reflexivity|]. rewrite (IHb _ _ eq_refl) by assumption. destruct (exec h n b st) as [[]?| | |]; auto.
  - generalize n at 4 8. intros m. revert st. induction m as [|m IHm]; intros st; [reflexivity|]. apply ev_fold; auto. intros v. destruct (is_falsey v); [reflexivity|]. rewrite (IHb _ _ eq_refl) by assumption. destruct (exec h n b st) as [[] st2| | |]; auto; rewrite (IHp _ _ eq_refl) by assumption; destruct (exec h n p st2) as [[] st3| | |]; auto.
  - apply ev_fold; auto. intros v. destruct (iter_elements h v) as [vs|]; [|reflexivity]. unfold legal. destruct (declare_var (enter st) x false VEnd) as [st1|]; [|reflexivity]. f_equal. revert st1. induction vs as [|v1 vs IHvs]; intros st1; [reflexivity|]. destruct (write_var h st1 x v1) as [st2|]; [|reflexivity]. rewrite (IHb _ _ eq_refl) by assumption. destruct (exec h n b st2) as [[]?| | |]; auto.
Qed.
End Exec.

(** ** Shapes. *)
Section Shapes.
Variable strtod : list Z -> float.
Lemma decls_simplified s : forall sf, simplified s = Ok sf -> decls sf = decls s /\ has_jump sf = has_jump s.
Proof.
  induction s; intros sf F; cbn [simplified] in F;
    repeat match type of F with
    | (do _ <- ?q; _) = Ok _ => let E := fresh "E" in destruct q eqn:E; try discriminate F; cbn [bind] in F
    end; injection F as <-; cbn [decls has_jump]; try (split; reflexivity);
    repeat match goal with IH : forall sf, Ok ?a = Ok sf -> _ |- _ => destruct (IH _ eq_refl) as (? & ?); clear IH end; split; congruence.
Qed.
Lemma fold_list_len es es' : fold_list es = Ok es' -> length es' = length es. Proof. intros; eapply fold_list_length; eassumption. Qed.
Lemma shapes_simplified s : forall sf, simplified s = Ok sf -> parsed sf = parsed s /\ for_depth sf = for_depth s /\ (forall d, jumps_ok d sf = jumps_ok d s) /\ (forall d, peak d sf = peak d s).
Proof.
  induction s; intros sf F; cbn [simplified] in F;
    repeat match type of F with
    | (do _ <- ?q; _) = Ok _ => let E := fresh "E" in destruct q eqn:E; try discriminate F; cbn [bind] in F
    end; injection F as <-; cbn [parsed for_depth jumps_ok peak]; try (repeat split; reflexivity);
    repeat match goal with IH : forall sf, Ok ?a = Ok sf -> _ |- _ => destruct (IH _ eq_refl) as (? & ? & ? & ?); clear IH end;
    repeat match goal with E : simplified _ = Ok _ |- _ => destruct (decls_simplified _ _ E) as (? & ?); clear E end; unfold no_decls;
    repeat match goal with H : _ = _ |- _ => rewrite H; clear H end; repeat split; intros; repeat match goal with H : forall d : nat, _ = _ |- _ => rewrite H end; auto.
  rewrite (fold_list_len _ _ E). reflexivity.
Qed.
Lemma need_fold e : forall e', fold e = Ok e' -> (need_e e' <= need_e e)%nat /\ (1 <= need_e e)%nat.
Proof.
  induction e as [| | | | | |op e1 IH|op l IHl r IHr|op l IHl r IHr|c IHc a IHa b IHb]; intros e' Hf; try (cbn in Hf; injection Hf as <-; cbn; lia); cbn [fold] in Hf.
  - destruct (fold e1) as [e1'| | |] eqn:E1; try discriminate. cbn [bind] in Hf. destruct (IH _ eq_refl). destruct (fold_un_shape _ _ _ Hf) as [->|A]; cbn [need_e]; [lia|]. destruct e'; try contradiction; cbn; lia.
  - destruct (fold l) as [l'| | |] eqn:El; try discriminate. cbn [bind] in Hf. destruct (fold r) as [r'| | |] eqn:Er; try discriminate. cbn [bind] in Hf. destruct (IHl _ eq_refl), (IHr _ eq_refl). destruct (fold_bin_shape _ _ _ _ Hf) as [->|A]; cbn [need_e]; [lia|]. destruct e'; try contradiction; cbn; lia.
  - destruct (fold l) as [l'| | |] eqn:El; try discriminate. cbn [bind] in Hf. destruct (fold r) as [r'| | |] eqn:Er; try discriminate. cbn [bind] in Hf. injection Hf as <-. destruct (IHl _ eq_refl), (IHr _ eq_refl). cbn [need_e]. lia.
  - destruct (fold c) as [c'| | |] eqn:Ec; try discriminate. cbn [bind] in Hf. destruct (fold a) as [a'| | |] eqn:Ea; try discriminate. cbn [bind] in Hf. destruct (fold b) as [b'| | |] eqn:Eb; try discriminate. cbn [bind] in Hf. injection Hf as <-. destruct (IHc _ eq_refl), (IHa _ eq_refl), (IHb _ eq_refl). cbn [need_e]. lia.
Qed.
Lemma need_fold_list es : forall es', fold_list es = Ok es' -> (need_es es' <= need_es es)%nat.
Proof.
  induction es as [|e es IH]; intros es' F; cbn [fold_list] in F; [injection F as <-; lia|]. destruct (fold e) as [e'| | |] eqn:E; try discriminate. cbn [bind] in F. destruct (fold_list es) as [r| | |] eqn:Er; try discriminate. injection F as <-. cbn [need_es]. destruct (need_fold _ _ E). specialize (IH _ eq_refl). lia.
Qed.
Lemma need_simplified s : forall sf, simplified s = Ok sf -> (need sf <= need s)%nat.
Proof.
  induction s; intros sf F; cbn [simplified] in F;
    repeat match type of F with
    | (do _ <- ?q; _) = Ok _ => let E := fresh "E" in destruct q eqn:E; try discriminate F; cbn [bind] in F
    end; injection F as <-; cbn [need]; try lia;
    repeat match goal with IH : forall sf, Ok ?a = Ok sf -> _ |- _ => pose proof (IH _ eq_refl); clear IH end;
    repeat match goal with E : fold _ = Ok _ |- _ => destruct (need_fold _ _ E); clear E | E : fold_list _ = Ok _ |- _ => pose proof (need_fold_list _ _ E); clear E | E : simplified _ = Ok _ |- _ => destruct (decls_simplified _ _ E) as (-> & _); clear E end; lia.
Qed.
Definition shape_seq (l : list stmt) : Prop := parsed (sequence l) = true.
Lemma written_parsed :
  (forall s a, stmt_written strtod s a -> parsed s = true) /\
  (forall s a, if_written strtod s a -> parsed s = true /\ decls s = 0%nat) /\
  (forall b a, body_written strtod b a -> parsed b = true) /\
  (forall l a, stmts_written strtod l a -> parsed (sequence l) = true).
Proof.
  apply (written_mind strtod (fun s a => parsed s = true) (fun s a => parsed s = true /\ decls s = 0%nat) (fun b a => parsed b = true) (fun l a => parsed (sequence l) = true)); intros; cbn [parsed decls] in *; unfold no_decls; auto.
  - match goal with H : assignment _ _ _ |- _ => destruct H; reflexivity end.
  - rewrite app_length, repeat_length. apply Nat.eqb_eq. assumption.
  - tauto.
  - rewrite H1. reflexivity.
  - cbn [sequence fold_right parsed decls]. unfold no_decls. rewrite H5. match goal with H : assignment _ _ _ |- _ => destruct H; reflexivity end.
  - rewrite H1. reflexivity.
  - rewrite H1. auto.
  - rewrite H1, H3. auto.
  - rewrite H1. destruct H3 as (-> & ->). auto.
  - cbn [sequence fold_right parsed]. rewrite H0. exact H3.
Qed.
End Shapes.
