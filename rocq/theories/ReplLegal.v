From Verif Require Import Base Bytes BytesProofs Value Table Ops Ast Stmt Limits Constants VM Compiler ValueProofs TableSpec TableProofs3 ConstSpec ConstProofs Gen GenProofs GenProofs2 SimBase Sim Program ProgProofs CompSpec CompProofs TotalProofs CompState Repl ReplSpec ReplProofs ReplProofs2 ReplProofs3.

(** ** Which lines are accepted: the session's names are one outermost scope. *)
Section Rel.
Variables (G : scope) (d : list (name * bool)).
Hypothesis HR : forall x, in_scope d x = option_map is_const (assoc G x).
Notation B ss := (ss ++ [[]] : list scope). Notation N ss := (er ss ++ [d] : names).
Lemma in_scopes_app D E x : in_scopes (D ++ E) x = match in_scopes D x with Some k => Some k | None => in_scopes E x end.
Proof. induction D as [|s D IH]; [reflexivity|]. cbn. destruct (in_scope s x); [reflexivity|exact IH]. Qed.
Lemma kn ss x : known G (B ss) x = declared [] (N ss) x.
Proof. unfold known, declared. rewrite in_scopes_app, er_get, get_bot. destruct (scope_get ss x); [reflexivity|]. cbn. rewrite HR. destruct (assoc G x); reflexivity. Qed.
Lemma wr ss x : writable G (B ss) x = assignable [] (N ss) x.
Proof. unfold writable, assignable. rewrite in_scopes_app, er_get, get_bot. destruct (scope_get ss x); [reflexivity|]. cbn. rewrite HR. destruct (assoc G x); reflexivity. Qed.
Lemma fr ss x : ss <> [] -> fresh (B ss) x = new_here (N ss) x.
Proof. destruct ss as [|s r]; [congruence|]. intros _. cbn [app fresh er map new_here]. rewrite er1_get. destruct (assoc s x); reflexivity. Qed.
Lemma oe e ss : ok_e G (B ss) e = legal_e [] (N ss) e.
Proof. induction e; cbn [ok_e legal_e]; try reflexivity; rewrite ?IHe, ?IHe1, ?IHe2, ?IHe3; auto using kn. Qed.
Lemma oes es ss : forallb (ok_e G (B ss)) es = forallb (legal_e [] (N ss)) es.
Proof. induction es as [|e es IH]; [reflexivity|]. cbn [forallb]. rewrite IH, oe. reflexivity. Qed.
Lemma decl_app ss x k : ss <> [] -> decl (B ss) x k = B (decl ss x k).
Proof. destruct ss as [|s r]; [congruence|]. intros _. cbn [app decl]. rewrite (len_bot (s :: r) : scope_len (s :: r ++ [[]]) = _). reflexivity. Qed.
Lemma N_decl ss x k : ss <> [] -> add_name (N ss) x k = N (decl ss x k).
Proof. destruct ss as [|s r]; [congruence|]. intros _. rewrite er_decl. reflexivity. Qed.
Lemma lval_app ss l : ss <> [] \/ is_decl l = false -> after_lval (B ss) l = B (after_lval ss l) /\ add_lval (N ss) l = N (after_lval ss l).
Proof. destruct l; cbn; intros [H|H]; try discriminate H; auto using decl_app, N_decl. Qed.
Lemma lval_ne ss l : ss <> [] -> after_lval ss l <> [].
Proof. destruct l; cbn; auto; destruct ss; intros; cbn; congruence. Qed.
Lemma lvals_app ls : forall ss, ss <> [] \/ length (filter is_decl ls) = 0%nat -> fold_left after_lval ls (B ss) = B (fold_left after_lval ls ss) /\ fold_left add_lval ls (N ss) = N (fold_left after_lval ls ss).
Proof.
  induction ls as [|l ls IH]; intros ss H; [auto|]. cbn [fold_left filter] in *.
  assert (X : ss <> [] \/ is_decl l = false) by (destruct H as [H|H]; auto; destruct (is_decl l); [discriminate H|auto]).
  destruct (lval_app ss l X) as (-> & ->). apply IH. destruct H as [H|H]; [left; apply lval_ne, H|right]. destruct (is_decl l); [discriminate H|exact H].
Qed.
Lemma after_app s : forall ss, ss <> [] \/ decls s = 0%nat -> after (B ss) s = B (after ss s) /\ names_after (N ss) s = N (after ss s).
Proof.
  induction s as [|a IHa b IHb|e|x e|x e|ls rs|x e|b IHb|c a IHa|c a IHa b IHb|c b IHb|c b IHb post IHp|x e b IHb| | |e|e|s IH]; intros ss H; cbn [after names_after decls] in *; auto.
  - destruct (IHa ss ltac:(destruct H; [auto|right; lia])) as (-> & ->). apply IHb. destruct H as [H|H]; [left; apply after_nonempty, H|right; lia].
  - destruct H as [H|H]; [|discriminate H]. split; [apply decl_app|apply N_decl]; exact H.
  - destruct H as [H|H]; [|discriminate H]. split; [apply decl_app|apply N_decl]; exact H.
  - apply lvals_app, H.
Qed.
Lemma lvals_sound ls : forall ss, ss <> [] \/ length (filter is_decl ls) = 0%nat -> ok_lvals G (B ss) ls = true -> legal_lvals [] (N ss) ls = true.
Proof.
  induction ls as [|l ls IH]; intros ss Ne H; [reflexivity|]. cbn [legal_lvals filter] in *.
  destruct l as [x|x|x]; cbn [ok_lvals is_decl add_lval] in *; repeat (apply andb_true_iff in H; destruct H as (H & ?)); apply andb_true_iff; (split; [|]).
  1,3: destruct Ne as [Ne|Ne]; [|discriminate Ne]; rewrite <- fr by exact Ne; auto.
  1,2: destruct Ne as [Ne|Ne]; [|discriminate Ne]; rewrite N_decl by exact Ne; apply IH; [left; apply decl_nonempty, Ne|rewrite <- decl_app by exact Ne; assumption].
  - rewrite <- wr. exact H.
  - apply IH; assumption.
Qed.
Lemma B_cons s ss : B (s :: ss) = s :: B ss. Proof. reflexivity. Qed.
Lemma s_sound s : forall ss lp, parsed s = true -> ss <> [] \/ decls s = 0%nat -> ok_s G (B ss) lp s = true -> legal_s [] (N ss) lp s = true.
Proof.
  induction s as [|a IHa b IHb|e|x e|x e|ls rs|x e|b IHb|c a IHa|c a IHa b IHb|c b IHb|c b IHb post IHp|x e b IHb| | |e|e|s IH]; intros ss lp W Ne H; cbn [ok_s legal_s parsed decls] in *; auto;
    repeat match goal with H : _ && _ = true |- _ => apply andb_true_iff in H; destruct H end; repeat match goal with H : no_decls _ = true |- _ => apply no_decls_iff in H end; repeat (apply andb_true_iff; split); rewrite <- ?oe, <- ?wr, <- ?oes; auto.
  - apply IHa; auto. destruct Ne; [auto|right; lia].
  - destruct (after_app a ss ltac:(destruct Ne; [auto|right; lia])) as (E1 & ->). apply IHb; auto; [destruct Ne as [Ne|Ne]; [left; apply after_nonempty, Ne|right; lia]|]. match goal with H : ok_s G (after _ a) lp b = true |- _ => rewrite E1 in H; exact H end.
  - destruct Ne as [Ne|Ne]; [|discriminate Ne]. rewrite <- fr; assumption.
  - destruct Ne as [Ne|Ne]; [|discriminate Ne]. rewrite <- fr; assumption.
  - apply lvals_sound; assumption.
  - apply (IHb ([] :: ss)); [assumption|left; discriminate|exact H].
  - match goal with H : ok_s _ _ _ b = true |- _ => apply IHb in H; [|auto|auto]; destruct (e_falsey c); [|exact H]; destruct lp; [exact H|]; apply legal_mono, H end.
  - match goal with H : ok_s _ _ _ b = true |- _ => apply IHb in H; [|auto|auto]; destruct (e_falsey c); [|exact H]; destruct lp; [exact H|]; apply legal_mono, H end.
  - match goal with H : ok_e _ (_ :: _) e = true |- _ => rewrite <- B_cons, oe in H; change (N ([] :: ss)) with ([] :: N ss) in H; rewrite legal_nil in H; rewrite oe; exact H end.
  - match goal with H : ok_s _ _ _ b = true |- _ => rewrite <- B_cons, decl_app in H by discriminate; apply IHb in H; [|auto|left; discriminate]; rewrite <- N_decl in H by discriminate; exact H end.
  - discriminate W.
Qed.
Lemma lvals_done ls : forall ss, ss <> [] \/ length (filter is_decl ls) = 0%nat -> legal_lvals [] (N ss) ls = true -> scope_len ss + Z.of_nat (length ls) <= 255 -> ok_lvals G (B ss) ls = true.
Proof.
  induction ls as [|l ls IH]; intros ss Ne H P; [reflexivity|]. cbn [legal_lvals length filter] in *. apply andb_true_iff in H. destruct H as (H1 & H2).
  assert (R : room (B ss) = true) by (unfold room; rewrite len_bot; apply Z.ltb_lt; lia).
  destruct l as [x|x|x]; cbn [ok_lvals is_decl add_lval] in *.
  1,2: destruct Ne as [Ne|Ne]; [|discriminate Ne]; rewrite fr, H1, R by exact Ne; cbn [andb]; rewrite decl_app by exact Ne; rewrite N_decl in H2 by exact Ne; apply IH; auto using decl_nonempty; rewrite scope_len_decl by exact Ne; lia.
  rewrite wr, H1. cbn [andb]. apply IH; auto. lia.
Qed.
Lemma s_done s : forall ss lp lp', parsed s = true -> ss <> [] \/ decls s = 0%nat -> legal_s [] (N ss) lp' s = true -> live_jumps lp s = true -> (peak (Z.to_nat (scope_len ss)) s <= 255)%nat -> ok_s G (B ss) lp s = true.
Proof.
  induction s as [|a IHa b IHb|e|x e|x e|ls rs|x e|b IHb|c a IHa|c a IHa b IHb|c b IHb|c b IHb post IHp|x e b IHb| | |e|e|s IH]; intros ss lp lp' W Ne H J P; cbn [ok_s legal_s live_jumps peak parsed decls] in *; auto;
    pose proof (scope_len_nonneg ss);
    repeat match goal with H : _ && _ = true |- _ => apply andb_true_iff in H; destruct H end; repeat match goal with H : no_decls _ = true |- _ => apply no_decls_iff in H end; repeat (apply andb_true_iff; split); rewrite ?never_falsey, ?oe, ?wr, ?oes in *; auto.
  - eapply IHa; eauto; [destruct Ne; [auto|right; lia]|lia].
  - destruct (after_app a ss ltac:(destruct Ne; [auto|right; lia])) as (E1 & E2). match goal with |- ok_s G ?t lp b = true => replace t with (B (after ss a)) by (symmetry; exact E1) end. match goal with H : legal_s [] ?t _ b = true |- _ => replace t with (N (after ss a)) in H by (symmetry; exact E2) end. eapply IHb; eauto; [destruct Ne as [Ne|Ne]; [left; apply after_nonempty, Ne|right; lia]|].
    destruct Ne as [Ne|Ne].
    + rewrite after_len' by exact Ne. replace (Z.to_nat (scope_len ss + Z.of_nat (decls a))) with (Z.to_nat (scope_len ss) + decls a)%nat by lia. lia.
    + destruct ss as [|s0 r].
      * assert (Q : forall t, after [] t = []) by (clear; induction t; cbn [after]; auto; [rewrite IHt1; exact IHt2|]; induction ls as [|l ls IH]; [reflexivity|]; cbn [fold_left]; destruct l; exact IH). rewrite Q. replace (Z.to_nat (scope_len []) + decls a)%nat with (Z.to_nat (scope_len [])) in P by lia. lia.
      * rewrite after_len' by discriminate. replace (Z.to_nat (scope_len (s0 :: r) + Z.of_nat (decls a))) with (Z.to_nat (scope_len (s0 :: r)) + decls a)%nat by lia. lia.
  - destruct Ne as [Ne|Ne]; [|discriminate Ne]. rewrite fr; assumption.
  - unfold room. rewrite len_bot. apply Z.ltb_lt. lia.
  - destruct Ne as [Ne|Ne]; [|discriminate Ne]. rewrite fr; assumption.
  - unfold room. rewrite len_bot. apply Z.ltb_lt. lia.
  - apply lvals_done; auto. lia.
  - eapply (IHb ([] :: ss)); eauto. left. discriminate.
  - eapply IHa; eauto.
  - eapply IHa; eauto. lia.
  - eapply IHb; eauto. lia.
  - eapply IHb; eauto.
  - eapply IHb; eauto. lia.
  - eapply IHp; eauto. lia.
  - rewrite <- B_cons, oe. change (N ([] :: ss)) with ([] :: N ss). rewrite legal_nil. auto.
  - unfold room. rewrite len_bot. apply Z.ltb_lt. pose proof (peak_ge b (Datatypes.S (Z.to_nat (scope_len ss)))). lia.
  - rewrite <- B_cons, decl_app by discriminate. eapply IHb; eauto; [rewrite <- N_decl by discriminate; eassumption|]. rewrite scope_len_decl by discriminate. change (scope_len ([] :: ss)) with (scope_len ss). replace (Z.to_nat (scope_len ss + 1)) with (Datatypes.S (Z.to_nat (scope_len ss))) by lia. exact P.
  - discriminate W.
Qed.
End Rel.

(** One statement, one line. *)
Definition relD (G : scope) (d : list (name * bool)) : Prop := forall x, in_scope d x = option_map is_const (assoc G x).
Lemma relD_new G d x (k : bool) z : relD G d -> is_const z = k -> relD ((x, z) :: G) ((x, k) :: d).
Proof. intros R C y. cbn [in_scope]. rewrite const_idx. destruct (name_eqb x y); [cbn; congruence|apply R]. Qed.
Lemma relD_l G d l : relD G d -> exists d', add_lval [d] l = [d'] /\ relD (glob_l G l) d'.
Proof.
  intros R. destruct l as [x|x|x]; cbn [add_lval add_name glob_l]; (eexists; split; [reflexivity|]); [apply relD_new; [exact R|]..|exact R]; [unfold is_const; apply Z.ltb_ge; lia|apply lnot_neg; lia].
Qed.
Lemma relD_ls l : forall G d, relD G d -> exists d', fold_left add_lval l [d] = [d'] /\ relD (fold_left glob_l l G) d'.
Proof.
  induction l as [|t l IH]; intros G d R; [exists d; auto|]. cbn [fold_left]. destruct (relD_l G d t R) as (d1 & -> & R1). apply IH, R1.
Qed.
Lemma none_iff G d x : relD G d -> (assoc G x = None <-> new_here [d] x = true).
Proof. intros R. cbn. rewrite (R x). destruct (assoc G x); cbn; split; congruence. Qed.
Lemma ls_iff l : forall G d, relD G d -> (ok_ls G l <-> legal_lvals [] [d] l = true).
Proof.
  induction l as [|t l IH]; intros G d R; [cbn; split; auto|]. cbn [ok_ls legal_lvals]. destruct (relD_l G d t R) as (d1 & -> & R1). rewrite andb_true_iff, <- (IH _ _ R1).
  destruct t as [x|x|x]; cbn [ok_l]; rewrite ?(none_iff G d x R); try tauto. rewrite (wr G d R [] x : writable G [[]] x = assignable [] [d] x). tauto.
Qed.
Lemma after1 s G d : relD G d -> simple_top s = true -> exists d', names_after [d] s = [d'] /\ relD (glob1 G s) d'.
Proof.
  intros R T. assert (X : no_decls s = true -> names_after [d] s = [d]).
  { intros D. apply no_decls_iff in D. destruct (after_app d s [] (or_intror D)) as (_ & E). cbn [er map app] in E. rewrite E.
    assert (Q : forall t, after [] t = []) by (clear; induction t; cbn [after]; auto; [rewrite IHt1; exact IHt2|]; induction ls as [|l ls IH]; [reflexivity|]; cbn [fold_left]; destruct l; exact IH). rewrite Q. reflexivity. }
  destruct s; try (exists d; split; [apply X; exact T|exact R]); cbn [names_after glob1].
  - apply (relD_l G d (LLet x) R).
  - apply (relD_l G d (LConst x) R).
  - apply (relD_ls ls G d R).
Qed.
Lemma sound1 s G d : relD G d -> item_ok s -> ok1 G s -> legal_s [] [d] false s = true.
Proof.
  intros R (T & W & _) O. destruct s; try (apply (s_sound G d R _ [] false W); [right; apply no_decls_iff; exact T|exact O]); cbn [ok1 legal_s] in *; destruct O as (O1 & O2).
  - rewrite <- (oe G d R e [] : ok_e G [[]] e = legal_e [] [d] e), O1. apply (none_iff G d x R) in O2. rewrite O2. reflexivity.
  - rewrite <- (oe G d R e [] : ok_e G [[]] e = legal_e [] [d] e), O1. apply (none_iff G d x R) in O2. rewrite O2. reflexivity.
  - rewrite <- (oes G d R rs [] : forallb (ok_e G [[]]) rs = forallb (legal_e [] [d]) rs), O1. apply (ls_iff ls G d R) in O2. rewrite O2. reflexivity.
Qed.
Lemma done1 s G d : relD G d -> item_ok s -> legal_s [] [d] false s = true -> live_jumps false s = true -> ok1 G s.
Proof.
  intros R (T & W & _ & _ & _ & Pk & _) O J. destruct s; try (apply (s_done G d R _ [] false false W); [right; apply no_decls_iff; exact T|exact O|exact J|change (Z.to_nat (scope_len [])) with 0%nat; lia]); cbn [ok1 legal_s] in *; apply andb_true_iff in O; destruct O as (O1 & O2).
  - rewrite (oe G d R e [] : ok_e G [[]] e = legal_e [] [d] e). split; [exact O2|]. apply (none_iff G d x R), O1.
  - rewrite (oe G d R e [] : ok_e G [[]] e = legal_e [] [d] e). split; [exact O2|]. apply (none_iff G d x R), O1.
  - rewrite (oes G d R rs [] : forallb (ok_e G [[]]) rs = forallb (legal_e [] [d]) rs). split; [exact O1|]. apply (ls_iff ls G d R), O2.
Qed.
Lemma line_sound l : forall G d, relD G d -> Forall item_ok l -> ok_line G l -> legal_s [] [d] false (body l) = true.
Proof.
  induction l as [|s l IH]; intros G d R F O; [reflexivity|]. inversion F as [|? ? Fs Fl]; subst. destruct O as (O1 & O2). cbn [body fold_right legal_s]. rewrite (sound1 s G d R Fs O1). destruct (after1 s G d R (proj1 Fs)) as (d' & -> & R'). exact (IH _ _ R' Fl O2).
Qed.
Lemma line_done l : forall G d, relD G d -> Forall item_ok l -> legal_s [] [d] false (body l) = true -> live_jumps false (body l) = true -> ok_line G l.
Proof.
  induction l as [|s l IH]; intros G d R F O J; [exact I|]. inversion F as [|? ? Fs Fl]; subst. cbn [body fold_right legal_s live_jumps] in O, J. apply andb_true_iff in O. destruct O as (O1 & O2). apply andb_true_iff in J. destruct J as (J1 & J2).
  split; [eapply done1; eauto|]. destruct (after1 s G d R (proj1 Fs)) as (d' & E & R'). rewrite E in O2. exact (IH _ _ R' Fl O2 J2).
Qed.
(** Showing the last expression changes nothing about legality. *)
Lemma items_legal line : forall gs D lp, legal_s gs D lp (body (items line)) = legal_s gs D lp (body line).
Proof.
  induction line as [|s r IH]; intros gs D lp; [reflexivity|]. cbn [items body fold_right legal_s]. fold (items r). fold (body (items r)). fold (body r). rewrite IH. destruct s; try reflexivity. cbn [shown_if_last]. destruct (is_last r); reflexivity.
Qed.
Lemma items_jumps line : forall lp, live_jumps lp (body (items line)) = live_jumps lp (body line).
Proof.
  induction line as [|s r IH]; intros lp; [reflexivity|]. cbn [items body fold_right live_jumps]. fold (items r). fold (body (items r)). fold (body r). rewrite IH. destruct s; try reflexivity. cbn [shown_if_last]. destruct (is_last r); reflexivity.
Qed.
Lemma items_ok line : Forall item_ok line -> Forall item_ok (items line).
Proof.
  induction line as [|s r IH]; intros F; [constructor|]. inversion F as [|? ? Fs Fr]; subst. cbn [items]. fold (items r). constructor; [|apply IH, Fr]. destruct s; try exact Fs. cbn [shown_if_last]. destruct (is_last r); [|exact Fs].
  destruct Fs as (T & W & J & L & N & Pk & Nd & Fd). repeat split; auto.
Qed.
Lemma items_consts line : length (concat (map literals (items line))) = length (concat (map literals line)) /\ length (concat (map new_names (items line))) = length (concat (map new_names line)).
Proof.
  induction line as [|s r (IH1 & IH2)]; [auto|]. cbn [items map concat]. fold (items r). rewrite !app_length, IH1, IH2. destruct s; auto. cbn [shown_if_last]. destruct (is_last r); auto.
Qed.

(** ** Legal lines compile. *)
Section Total.
Variable fuel : nat.
Hypothesis Hf : FUEL_BOUND <= Z.of_nat fuel.
Lemma pst_pooled p cs : pst p cs -> pooled p cs.
Proof. intros (k & m & P). exists m. destruct P. constructor; auto; apply po_t. Qed.
Lemma oe0 G e : ok_e G [] e = ok_e G [[]] e.
Proof. induction e; cbn [ok_e]; rewrite ?IHe, ?IHe1, ?IHe2, ?IHe3; reflexivity. Qed.
Lemma oes0 G es : forallb (ok_e G []) es = forallb (ok_e G [[]]) es.
Proof. induction es as [|e es IH]; [reflexivity|]. cbn [forallb]. rewrite IH, oe0. reflexivity. Qed.
Definition tot1 (cs : list value) (n : nat) (r : outcome cst) (G' : scope) : Prop :=
  exists c' cs' ext, r = Ok c' /\ pst (c_pool c') cs' /\ cs' = cs ++ ext /\ (length ext <= n)%nat /\ c_scopes c' = [] /\ c_globals c' = G' /\ gl_in G' cs'.
Lemma tot1_of c cs n r l : tot c cs n r [] l -> gl_in (c_globals c) cs -> tot1 cs n r (c_globals c).
Proof. intros (c' & cs' & ext & E & P & Ec & L & S & G & C) Gi. exists c', cs', ext. repeat split; auto. rewrite Ec. apply gl_in_ext, Gi. Qed.
Lemma tot1_bind cs n1 n2 n r f G1 G2 : tot1 cs n1 r G1 -> (n1 + n2 <= n)%nat ->
  (forall c' cs', pst (c_pool c') cs' -> (length cs' <= length cs + n1)%nat -> c_scopes c' = [] -> c_globals c' = G1 -> gl_in G1 cs' -> tot1 cs' n2 (f c') G2) -> tot1 cs n (bind r f) G2.
Proof.
  intros (c' & cs' & ext & -> & P & Ec & L & S & G & Gi) Hn H. cbn [bind]. destruct (H c' cs' P ltac:(rewrite Ec, app_length; lia) S G Gi) as (c2 & cs2 & ext2 & E2 & P2 & Ec2 & L2 & S2 & G2' & Gi2).
  exists c2, cs2, (ext ++ ext2). repeat split; auto; [rewrite Ec2, Ec; symmetry; apply app_assoc|rewrite app_length; lia].
Qed.
Lemma decl_t c cs x : pst (c_pool c) cs -> gl_in (c_globals c) cs -> c_scopes c = [] -> assoc (c_globals c) x = None -> literal (VStr x) -> small cs 1 -> tot1 cs 1 (decl_var fuel c x) (glob_l (c_globals c) (LLet x)).
Proof.
  intros (k & m & P) Gi S A L Sm. unfold small in Sm. destruct (intern_ok fuel _ _ _ _ (VStr x) P L ltac:(lia) Hf) as (i & p' & cs' & k' & m' & E & P' & In' & D).
  unfold decl_var. rewrite S, A, E. cbn [bind fst snd].
  assert (X : exists e1, cs' = cs ++ e1 /\ (length e1 <= 1)%nat) by (destruct D as [->| ->]; [exists []; rewrite app_nil_r|exists [VStr x]]; cbn; split; auto; lia). destruct X as (e1 & X1 & X2).
  eexists. exists cs', e1. split; [reflexivity|]. cbn [c_pool c_scopes c_globals]. split; [exists k', m'; exact P'|]. repeat split; auto.
  intros y z Hy. cbn [glob_l] in Hy. rewrite const_idx in Hy. destruct (name_eqb x y) eqn:Exy; [apply name_eqb_spec in Exy; subst y; eapply nth_error_In; exact In'|]. rewrite X1. apply in_or_app. left. eapply Gi; exact Hy.
Qed.
Lemma store_t c cs x G : pst (c_pool c) cs -> c_scopes c = [] -> c_globals c = G -> gl_in G cs -> writable G [] x = true -> tot1 cs 0 (store_var fuel c x) G.
Proof. intros P S <- Gi W. eapply tot1_of; [|exact Gi]. rewrite <- S. apply tot_store; auto. rewrite S. exact W. Qed.
Lemma fresh_writable G x : writable (glob_l G (LLet x)) [] x = true.
Proof. unfold writable. cbn [scope_get glob_l assoc]. rewrite (proj2 (name_eqb_spec x x) eq_refl). unfold is_const. destruct (Z.ltb_spec (Z.of_nat (length G)) 0); [lia|reflexivity]. Qed.
Lemma expr_t e c cs G : pst (c_pool c) cs -> c_scopes c = [] -> c_globals c = G -> gl_in G cs -> ok_e G [[]] e = true -> Forall literal (lits_e e) -> small cs (length (lits_e e)) -> tot1 cs (length (lits_e e)) (visit_e fuel e c) G.
Proof. intros P S <- Gi O L Sm. eapply tot1_of; [|exact Gi]. rewrite <- S. apply tot_e; auto. rewrite S, oe0. exact O. Qed.
Lemma exprs_t es c cs G : pst (c_pool c) cs -> c_scopes c = [] -> c_globals c = G -> gl_in G cs -> forallb (ok_e G [[]]) es = true -> Forall literal (concat (map lits_e es)) -> small cs (length (concat (map lits_e es))) -> tot1 cs (length (concat (map lits_e es))) (visit_es fuel es c) G.
Proof. intros P S <- Gi O L Sm. eapply tot1_of; [|exact Gi]. rewrite <- S. apply tot_es; auto. rewrite S, oes0. exact O. Qed.
Lemma const_t cs n c x G : pst (c_pool c) cs -> c_scopes c = [] -> c_globals c = glob_l G (LLet x) -> gl_in (glob_l G (LLet x)) cs -> tot1 cs n (Ok (make_const c x)) (glob_l G (LConst x)).
Proof.
  intros P S E Gi. exists (make_const c x), cs, []. rewrite app_nil_r. unfold make_const. rewrite S, E. cbn [c_pool c_scopes c_globals glob_l assoc]. pose proof (proj2 (name_eqb_spec x x) eq_refl) as Q. rewrite Q. cbn [assoc_put]. rewrite Q.
  repeat split; auto; [cbn; lia|]. intros y z Hy. rewrite const_idx in Hy. destruct (name_eqb x y) eqn:Ex; (eapply (Gi y); cbn [glob_l]; rewrite const_idx, Ex); [reflexivity|exact Hy].
Qed.
Lemma declare_t x e c cs G : pst (c_pool c) cs -> c_scopes c = [] -> c_globals c = G -> gl_in G cs -> ok_e G [[]] e = true -> assoc G x = None -> literal (VStr x) -> Forall literal (lits_e e) -> small cs (length (lits_e e) + 1) ->
  tot1 cs (length (lits_e e) + 1) (declare fuel c x e) (glob_l G (LLet x)).
Proof.
  intros P S EG Gi O A Lx L Sm. unfold declare, in_current. rewrite S, EG, A.
  eapply tot1_bind; [eapply expr_t; eauto; unfold small in *; lia|apply le_n|]. intros c1 cs1 P1 L1 S1 G1 Gi1.
  eapply (tot1_bind _ 1 0); [rewrite <- G1; apply decl_t; auto; [rewrite G1; exact Gi1|rewrite G1; exact A|unfold small in *; lia]|lia|]. intros c2 cs2 P2 L2 S2 G2 Gi2. rewrite S2. rewrite G1 in *.
  apply store_t; auto. apply fresh_writable.
Qed.
Lemma lvals_t ls : forall c cs G, pst (c_pool c) cs -> c_scopes c = [] -> c_globals c = G -> gl_in G cs -> ok_ls G ls -> Forall (fun x => literal (VStr x)) (map lval_name ls) -> small cs (length ls) ->
  tot1 cs (length ls) (visit_lvals fuel ls c) (fold_left glob_l ls G).
Proof.
  induction ls as [|l ls IH]; intros c cs G P S EG Gi O L Sm; cbn [visit_lvals fold_left].
  - exists c, cs, []. rewrite app_nil_r. repeat split; auto.
  - cbn [map] in L. inversion L as [|? ? Lx Lr]; subst. destruct O as (O1 & O2). cbn [length] in *.
    destruct l as [x|x|x]; cbn [lval_name ok_l] in *.
    + unfold in_current. rewrite S, O1. eapply (tot1_bind _ 1 (length ls)); [apply decl_t; auto; unfold small in *; lia|lia|]. intros c1 cs1 P1 L1 S1 G1 Gi1. rewrite S1.
      eapply (tot1_bind _ 0 (length ls)); [apply (store_t (emit c1 _)); [exact P1|exact S1|exact G1|exact Gi1|apply fresh_writable]|lia|]. intros c2 cs2 P2 L2 S2 G2 Gi2. apply IH; auto. unfold small in *. lia.
    + unfold in_current. rewrite S, O1. eapply (tot1_bind _ 1 (length ls)); [apply decl_t; auto; unfold small in *; lia|lia|]. intros c1 cs1 P1 L1 S1 G1 Gi1. rewrite S1.
      eapply (tot1_bind _ 0 (length ls)); [apply (store_t (emit c1 _)); [exact P1|exact S1|exact G1|exact Gi1|apply fresh_writable]|lia|]. intros c2 cs2 P2 L2 S2 G2 Gi2.
      destruct (const_t cs2 0 c2 x (c_globals c) P2 S2 G2 Gi2) as (c3 & cs3 & ext & E3 & P3 & Ec3 & L3 & S3 & G3 & Gi3). injection E3 as ->. assert (ext = []) by (destruct ext; [reflexivity|cbn in L3; lia]). subst ext. rewrite app_nil_r in Ec3. subst cs3. apply IH; auto. unfold small in *. lia.
    + assert (Cv : contains_var c x = true) by (unfold contains_var; rewrite S; cbn [scope_get]; unfold writable in O1; cbn [scope_get assoc] in O1; destruct (assoc (c_globals c) x); [reflexivity|discriminate O1]).
      rewrite Cv. eapply (tot1_bind _ 0 (length ls)); [apply (store_t (emit c _)); [exact P|exact S|reflexivity|exact Gi|exact O1]|lia|]. intros c2 cs2 P2 L2 S2 G2 Gi2. apply IH; auto. unfold small in *. lia.
Qed.
Lemma stmt_t s c cs G : pst (c_pool c) cs -> c_scopes c = [] -> c_cps c = [] -> c_globals c = G -> gl_in G cs -> item_ok s -> ok1 G s -> small cs (consts1 s) -> tot1 cs (consts1 s) (visit_s fuel s c) (glob1 G s).
Proof.
  intros P S C EG Gi (T & W & _ & L & N & _) O Sm. unfold consts1 in *.
  assert (X : no_decls s = true -> ok_s G [[]] false s = true -> tot1 cs (length (literals s) + length (new_names s)) (visit_s fuel s c) G).
  { intros D Os. apply no_decls_iff in D. pose proof (visit_s_bot fuel s c W (or_intror D)) as Bt. unfold nat_bot in Bt.
    destruct (tot_s fuel Hf s (bot c) cs) as (c2 & cs2 & ext & E & P2 & Ec & L2 & S2 & G2 & C2); auto.
    - cbn. rewrite EG. exact Gi.
    - unfold bot. cbn [set_scopes c_scopes]. rewrite S. discriminate.
    - unfold in_loop. cbn. rewrite S, C, EG. exact Os.
    - cbn. rewrite C. cbn. lia.
    - unfold small in *. lia.
    - rewrite E in Bt. destruct (visit_s fuel s c) as [c1| | |] eqn:E1; try discriminate Bt. cbn [omap] in Bt. injection Bt as ->. exists c1, cs2, ext. cbn in P2, G2. repeat split; auto; try lia; [|congruence|rewrite Ec; apply gl_in_ext, Gi].
      eapply top_deep; [eapply visit_s_deep; exact E1|exact S]. }
  destruct s as [|a b|e|x e|x e|ls rs|x e|b|cd a|cd a b|cd b|cd b post|x e b| | |e|e|s]; try (apply X; [exact T|exact O]); clear X; cbn [visit_s new_names literals ok1 glob1] in *.
  - destruct O as (O1 & O2). inversion N; subst. apply declare_t; auto.
  - destruct O as (O1 & O2). inversion N; subst. eapply (tot1_bind _ _ 0); [apply declare_t; auto|cbn [length]; lia|]. intros c1 cs1 P1 L1 S1 G1 Gi1. apply const_t; auto.
  - destruct O as (O1 & O2). rewrite map_length in *. eapply tot1_bind; [eapply exprs_t; eauto; unfold small in *; lia|apply le_n|]. intros c1 cs1 P1 L1 S1 G1 Gi1. apply lvals_t; auto. unfold small in *. lia.
Qed.
Lemma line_t l : forall code c cs, pst (c_pool c) cs -> c_scopes c = [] -> c_buf c = [] -> c_cps c = [] -> gl_in (c_globals c) cs -> Forall item_ok l -> ok_line (c_globals c) l -> small cs (consts_of l) ->
  exists code' c' cs', compile_stmts fuel l code c = Ok (code', c') /\ pst (c_pool c') cs' /\ (length cs' <= length cs + consts_of l)%nat /\ gl_in (c_globals c') cs'.
Proof.
  induction l as [|s l IH]; intros code c cs P S Bf C Gi F O Sm; cbn [compile_stmts].
  - exists code, c, cs. cbn. repeat split; auto. lia.
  - inversion F as [|? ? Fs Fl]; subst. destruct O as (O1 & O2). cbn [consts_of fold_right] in *. fold (consts_of l) in *.
    destruct (stmt_t s c cs _ P S C eq_refl Gi Fs O1 ltac:(unfold small in *; lia)) as (c1 & cs1 & ext & E1 & P1 & Ec1 & L1 & S1 & G1 & Gi1).
    rewrite E1. cbn [bind]. destruct (stmt1 fuel s c c1 cs E1 S Bf C Fs (pst_pooled _ _ P) Gi) as (_ & cs1' & R & _). pose proof (r1_cps _ _ _ _ _ _ R) as C1.
    destruct (IH (code ++ c_buf c1) (set_buf c1 []) cs1) as (code' & c' & cs' & E' & P' & L' & Gi'); cbn [set_buf c_pool c_scopes c_buf c_cps c_globals]; auto; try congruence.
    + rewrite G1. exact Gi1.
    + unfold small in *. rewrite Ec1, app_length. lia.
    + exists code', c', cs'. repeat split; auto. rewrite Ec1, app_length in L'. lia.
Qed.
End Total.
