(** Folding constants keeps the meaning of programs with lists and tables (proofs only). *)
From Verif Require Import Base Value Ops Ast Fold FoldProofs Stmt HeapSpec HeapSpec2 Obj ObjCompiler Tree TreeSpec TreeProofs TreeExact ObjSource.
From Coq Require Import Floats.SpecFloat.
Local Open Scope list_scope.

(** [sim_e o o']: [o'] is [o] with constants folded. *)
Definition lit_o (e : oexpr) : option value := match e with OInt i => Some (VInt i) | OFloat f => Some (VFloat f) | OBool b => Some (VBool b) | OUndef => Some VUndef | OStr s => Some (VStr s) | _ => None end.
Inductive fe : oexpr -> oexpr -> Prop :=
| fe_same e : fe e e
| fe_un o e e' : fe e e' -> fe (OUn o e) (OUn o e')
| fe_bin o l r l' r' : fe l l' -> fe r r' -> fe (OBin o l r) (OBin o l' r')
| fe_sc o l r l' r' : fe l l' -> fe r r' -> fe (OSc o l r) (OSc o l' r')
| fe_tri c a b c' a' b' : fe c c' -> fe a a' -> fe b b' -> fe (OTri c a b) (OTri c' a' b')
| fe_list es es' : fas es es' -> fe (OList es) (OList es')
| fe_table es es' : fas es es' -> fe (OTable es) (OTable es')
| fe_get c k c' k' : fe c c' -> fe k k' -> fe (OGet c k) (OGet c' k')
| fe_meth c x es c' es' : fe c c' -> fas es es' -> fe (OMeth c x es) (OMeth c' x es')
| fe_un_const o e e' q a v : fe e e' -> lit_o e' = Some a -> lit_o q = Some v -> (forall h m, unary h m o a (Done v m)) -> fe (OUn o e) q
| fe_bin_const o l r l' r' q a b v : fe l l' -> fe r r' -> lit_o l' = Some a -> lit_o r' = Some b -> lit_o q = Some v -> (forall h D m, binary h D m o a b (Done v m)) -> fe (OBin o l r) q
with fas : oargs -> oargs -> Prop :=
| fas_nil : fas ANil ANil
| fas_cons e r e' r' : fe e e' -> fas r r' -> fas (ACons e r) (ACons e' r').
Scheme fe_m := Minimality for fe Sort Prop with fas_m := Minimality for fas Sort Prop.
Combined Scheme fe_mind from fe_m, fas_m.
Inductive fs : ostmt -> ostmt -> Prop :=
| fs_skip : fs OSkip OSkip | fs_break : fs OBreak OBreak | fs_continue : fs OContinue OContinue
| fs_seq a b a' b' : fs a a' -> fs b b' -> fs (OSeq a b) (OSeq a' b')
| fs_expr e e' : fe e e' -> fs (OExpr e) (OExpr e')
| fs_let k x e e' : fe e e' -> fs (OLet k x e) (OLet k x e')
| fs_assign x e e' : fe e e' -> fs (OAssign x e) (OAssign x e')
| fs_set c k v c' k' v' : fe c c' -> fe k k' -> fe v v' -> fs (OSet c k v) (OSet c' k' v')
| fs_block b b' : fs b b' -> fs (OBlock b) (OBlock b')
| fs_if c a c' a' : fe c c' -> fs a a' -> fs (OIf c a) (OIf c' a')
| fs_ifelse c a b c' a' b' : fe c c' -> fs a a' -> fs b b' -> fs (OIfElse c a b) (OIfElse c' a' b')
| fs_while c a c' a' : fe c c' -> fs a a' -> fs (OWhile c a) (OWhile c' a')
| fs_whilepost c a b c' a' b' : fe c c' -> fs a a' -> fs b b' -> fs (OWhilePost c a b) (OWhilePost c' a' b')
| fs_forin x c a c' a' : fe c c' -> fs a a' -> fs (OForIn x c a) (OForIn x c' a')
| fs_echo e e' : fe e e' -> fs (OEcho e) (OEcho e')
| fs_assert e e' : fe e e' -> fs (OAssert e) (OAssert e').

(** ** The meaning. *)
Lemma next_mono {S A S' B} (X Y : may S A) (up : S -> S') (k l : A -> S -> may S' B) r :
  (forall x, X x -> Y x) -> (forall a s x, k a s x -> l a s x) -> next X up k r -> next Y up l r.
Proof. intros H1 H2 (x & Hx & H). exists x. split; [auto|]. destruct x; auto. Qed.
Lemma bindr_mono {S A B} (X Y : may S A) (k l : A -> S -> may S B) r :
  (forall x, X x -> Y x) -> (forall a s x, k a s x -> l a s x) -> bindr X k r -> bindr Y l r.
Proof. apply next_mono. Qed.
Lemma next_done {S A S' B} (X : may S A) (up : S -> S') (k : A -> S -> may S' B) a s r : X (Done a s) -> k a s r -> next X up k r.
Proof. intros H1 H2. exists (Done a s). split; assumption. Qed.

Section Meaning.
Variable h : host.
Variable D : nat.
Lemma eval_lit en q v m : lit_o q = Some v -> eval_o h D en q m = only (Done v m).
Proof. destruct q; intros [= <-]; reflexivity. Qed.
Lemma fe_eval : (forall o o', fe o o' -> forall en m r, eval_o h D en o' m r -> eval_o h D en o m r) /\
  (forall es es', fas es es' -> forall en m r, eval_args h D en es' m r -> eval_args h D en es m r).
Proof.
  apply fe_mind.
  - auto.
  - intros o e e' _ IH en m r. apply (bindr_mono (eval_o h D en e' m) (eval_o h D en e m)); auto.
  - intros o l r l' r' _ IHl _ IHr en m q. apply (bindr_mono (eval_o h D en l' m) (eval_o h D en l m)); auto. intros a s x. apply (bindr_mono (eval_o h D en r' s) (eval_o h D en r s)); auto.
  - intros o l r l' r' _ IHl _ IHr en m q. apply (bindr_mono (eval_o h D en l' m) (eval_o h D en l m)); auto. intros a s x. destruct (decides o a); auto. apply IHr.
  - intros c a b c' a' b' _ IHc _ IHa _ IHb en m q. apply (bindr_mono (eval_o h D en c' m) (eval_o h D en c m)); auto. intros v s x. destruct (is_falsey v); [apply IHb|apply IHa].
  - intros es es' _ IH en m q. apply (bindr_mono (eval_args h D en es' m) (eval_args h D en es m)); auto.
  - intros es es' _ IH en m q. apply (bindr_mono (eval_args h D en es' m) (eval_args h D en es m)); auto.
  - intros c k c' k' _ IHc _ IHk en m q. apply (bindr_mono (eval_o h D en c' m) (eval_o h D en c m)); auto. intros a s x. apply (bindr_mono (eval_o h D en k' s) (eval_o h D en k s)); auto.
  - intros c x es c' es' _ IHc _ IH en m q. apply (bindr_mono (eval_o h D en c' m) (eval_o h D en c m)); auto. intros a s y. destruct (has_method a x); auto. apply (bindr_mono (eval_args h D en es' s) (eval_args h D en es s)); auto.
  - intros o e e' q a v _ IH La Lq U en m r H. rewrite (eval_lit en q v m Lq) in H. rewrite H. eapply (next_done (eval_o h D en e m)); [apply IH; rewrite (eval_lit en e' a m La); reflexivity|apply U].
  - intros o l r l' r' q a b v _ IHl _ IHr La Lb Lq U en m x H. rewrite (eval_lit en q v m Lq) in H. rewrite H. eapply (next_done (eval_o h D en l m)); [apply IHl; rewrite (eval_lit en l' a m La); reflexivity|].
    eapply (next_done (eval_o h D en r m)); [apply IHr; rewrite (eval_lit en r' b m Lb); reflexivity|apply U].
  - auto.
  - intros e r e' r' _ IHe _ IHr en m q. apply (bindr_mono (eval_o h D en e' m) (eval_o h D en e m)); auto. intros a s x. apply (bindr_mono (eval_args h D en r' s) (eval_args h D en r s)); auto.
Qed.
Lemma ev_mono st o o' (k l : value -> ost -> may ost signal) r : fe o o' -> (forall v s x, k v s x -> l v s x) -> Obj.ev h D st o' k r -> Obj.ev h D st o l r.
Proof. intros F K. unfold Obj.ev. apply next_mono; [intros x; apply (proj1 fe_eval _ _ F)|auto]. Qed.
Lemma while_mono (c1 c2 : ost -> (value -> ost -> may ost signal) -> may ost signal) (b1 b2 : ost -> may ost signal) :
  (forall st (k l : value -> ost -> may ost signal) r, (forall v s x, k v s x -> l v s x) -> c1 st k r -> c2 st l r) -> (forall st r, b1 st r -> b2 st r) ->
  forall m st r, while_o c1 b1 m st r -> while_o c2 b2 m st r.
Proof.
  intros C B m. induction m as [|m IH]; intros st r; cbn [while_o]; [auto|]. apply C. intros v s x. destruct (is_falsey v); [auto|]. apply bindr_mono; [apply B|]. intros sg s' y. destruct sg; auto.
Qed.
Lemma each_mono pick x (b1 b2 : ost -> may ost signal) : (forall st r, b1 st r -> b2 st r) -> forall m i st r, each h pick x b1 m i st r -> each h pick x b2 m i st r.
Proof.
  intros B m. induction m as [|m IH]; intros i st r; cbn [each]; destruct (pick i st) as [[v|]|]; auto. unfold legally. destruct (write_var h (o_env st) x v); [|auto].
  apply bindr_mono; [apply B|]. intros sg s' y. destruct sg; auto.
Qed.
Lemma legally_mono st o (k l : ost -> may ost signal) r : (forall s x, k s x -> l s x) -> legally st o k r -> legally st o l r.
Proof. intros K. unfold legally. destruct o; auto. Qed.
Lemma fs_exec n s s' : fs s s' -> forall st r, exec_o h D n s' st r -> exec_o h D n s st r.
Proof.
  induction 1; intros st r; cbn [exec_o]; auto.
  - apply bindr_mono; [apply IHfs1|]. intros sg s x. destruct sg; auto.
  - apply ev_mono; auto.
  - apply ev_mono; auto.
  - apply ev_mono; auto.
  - apply ev_mono; auto. intros v1 s1 x1. apply ev_mono; auto. intros v2 s2 x2. apply ev_mono; auto.
  - apply bindr_mono; auto.
  - apply ev_mono; auto. intros v s x. destruct (is_falsey v); auto.
  - apply ev_mono; auto. intros v s x. destruct (is_falsey v); auto.
  - apply while_mono; [|auto]. intros st1 k l r1 K. apply ev_mono; auto.
  - apply while_mono; [intros st1 k l r1 K; apply ev_mono; auto|]. intros st1 r1. apply bindr_mono; [auto|]. intros sg s x. destruct sg; auto.
  - apply ev_mono; auto. intros v s x0. destruct (iterable v); [|auto]. apply legally_mono. intros s1 x1. apply bindr_mono; [|auto]. intros y (pick & P1 & P2). exists pick. split; [exact P1|]. revert P2. apply each_mono. auto.
  - apply ev_mono; auto.
  - apply ev_mono; auto.
Qed.
End Meaning.

(** ** The shape. *)
Lemma fas_length es es' : fas es es' -> length_o es' = length_o es.
Proof. induction 1; cbn; congruence. Qed.
Definition is_meth (e : oexpr) : bool := match e with OMeth _ _ _ => true | _ => false end.
Lemma fe_meth_only o o' : fe o o' -> is_meth o' = is_meth o.
Proof. intros F. destruct F; try reflexivity; destruct q; try discriminate; reflexivity. Qed.
Lemma last_call_cons e r : last_call (ACons e r) = match r with ANil => is_meth e | _ => last_call r end.
Proof. destruct r, e; reflexivity. Qed.
Lemma fas_last es es' : fas es es' -> last_call es' = last_call es.
Proof. induction 1 as [|e r e' r' E F IH]; [reflexivity|]. rewrite !last_call_cons. rewrite <- IH, (fe_meth_only _ _ E). inversion F; reflexivity. Qed.
Lemma fe_shape : (forall o o', fe o o' -> (parsed_e o = true -> parsed_e o' = true) /\ (need_oe o' <= need_oe o)%nat) /\
  (forall es es', fas es es' -> (parsed_as es = true -> parsed_as es' = true) /\ (need_as es' <= need_as es)%nat).
Proof.
  assert (N : forall e, (1 <= need_oe e)%nat) by (induction e; cbn [need_oe]; lia).
  assert (Lp : forall q v, lit_o q = Some v -> parsed_e q = true /\ need_oe q = 1%nat) by (intros q v E; destruct q; try discriminate; split; reflexivity).
  apply fe_mind.
  - intros e. split; [auto|lia].
  - intros o e e' _ IH. exact IH.
  - intros o l r l' r' _ (A1 & B1) _ (A2 & B2). cbn [parsed_e need_oe]. split; [rewrite !andb_true_iff; tauto|lia].
  - intros o l r l' r' _ (A1 & B1) _ (A2 & B2). cbn [parsed_e need_oe]. split; [rewrite !andb_true_iff; tauto|lia].
  - intros c a b c' a' b' _ (A1 & B1) _ (A2 & B2) _ (A3 & B3). cbn [parsed_e need_oe]. split; [rewrite !andb_true_iff; tauto|lia].
  - intros es es' _ (A1 & B1). split; [exact A1|]. change (S (need_as es') <= S (need_as es))%nat. lia.
  - intros es es' F (A1 & B1). split; [|change (S (need_as es') <= S (need_as es))%nat; lia]. change (parsed_as es && Nat.even (length_o es) = true -> parsed_as es' && Nat.even (length_o es') = true). rewrite (fas_length _ _ F), !andb_true_iff. tauto.
  - intros c k c' k' _ (A1 & B1) _ (A2 & B2). cbn [parsed_e need_oe]. split; [rewrite !andb_true_iff; tauto|lia].
  - intros c x es c' es' _ (A1 & B1) F (A2 & B2). split.
    + change (parsed_e c && parsed_as es && negb (last_call es) = true -> parsed_e c' && parsed_as es' && negb (last_call es') = true). rewrite (fas_last _ _ F), !andb_true_iff. tauto.
    + change (Nat.max (need_oe c') (S (S (need_as es'))) <= Nat.max (need_oe c) (S (S (need_as es))))%nat. lia.
  - intros o e e' q a v _ IH La Lq U. destruct (Lp _ _ Lq) as (-> & ->). split; [auto|apply N].
  - intros o l r l' r' q a b v _ IHl _ IHr La Lb Lq U. destruct (Lp _ _ Lq) as (-> & ->). split; [auto|apply N].
  - split; [auto|cbn; lia].
  - intros e r e' r' _ (A1 & B1) _ (A2 & B2). split.
    + change (parsed_e e && parsed_as r = true -> parsed_e e' && parsed_as r' = true). rewrite !andb_true_iff. tauto.
    + change (Nat.max (need_oe e') (S (need_as r')) <= Nat.max (need_oe e) (S (need_as r)))%nat. lia.
Qed.
Lemma fs_decls s s' : fs s s' -> decls_o s' = decls_o s /\ assigns_o s' = assigns_o s.
Proof. induction 1; cbn; auto. destruct IHfs1, IHfs2. auto. Qed.
Lemma fs_parsed s s' : fs s s' -> parsed_o s = true -> parsed_o s' = true.
Proof.
  induction 1; cbn [parsed_o]; auto; unfold no_decls_o; repeat match goal with F : fs _ _ |- _ => let E1 := fresh in let E2 := fresh in destruct (fs_decls _ _ F) as (E1 & E2); rewrite ?E1, ?E2; clear F E1 E2 | F : fe _ _ |- _ => destruct (proj1 fe_shape _ _ F) as (? & _); clear F end;
    try assumption; rewrite !andb_true_iff; tauto.
Qed.
Lemma fs_limits s s' : fs s s' -> (forall d, jumps_ok_o d s' = jumps_ok_o d s) /\ (forall d, peak_o d s' = peak_o d s) /\ for_depth_o s' = for_depth_o s /\ (need_o s' <= need_o s)%nat.
Proof.
  induction 1; cbn [jumps_ok_o peak_o for_depth_o need_o];
    repeat match goal with F : fs _ _ |- _ => let E1 := fresh in let E2 := fresh in destruct (fs_decls _ _ F) as (E1 & E2); rewrite ?E1; clear F E1 E2 | F : fe _ _ |- _ => destruct (proj1 fe_shape _ _ F) as (_ & ?); clear F end;
    repeat match goal with H : _ /\ _ |- _ => destruct H end;
    repeat match goal with H : forall d, _ = _ |- _ => setoid_rewrite H; clear H | H : for_depth_o _ = _ |- _ => rewrite H; clear H end;
    (split; [reflexivity|split; [reflexivity|split; [reflexivity|lia]]]).
Qed.

(** ** Folding gives such a program. *)
Definition num_v (v : value) : bool := match v with VInt _ | VFloat _ => true | _ => false end.
Lemma bop_meaning h D m o a b v : num_v a = true -> num_v b = true -> o <> BOp BCnct -> eval_bop (strict (h_world h)) o a b = Ok v -> binary h D m o a b (Done v m).
Proof.
  intros Na Nb No E.
  assert (EQ : equals m D a b = Some (is_equal a b)) by (destruct a; try discriminate; destruct b; try discriminate; destruct D; reflexivity).
  assert (XE : exec_binop (strict (h_world h)) BEq a b = Ok (VBool (is_equal a b))) by (destruct a; try discriminate; destruct b; try discriminate; reflexivity).
  destruct o as [o| |]; cbn [binary eval_bop] in *.
  - destruct o; try congruence; cbn [binary1]; try (rewrite EQ; rewrite XE in E; injection E as <-; reflexivity); destruct a; try discriminate; rewrite E; reflexivity.
  - rewrite XE in E. cbn in E. injection E as <-. eapply next_done; [cbn [binary1]; rewrite EQ; reflexivity|reflexivity].
  - destruct (exec_binop (strict (h_world h)) BId a b) as [x| | |] eqn:X; try discriminate. cbn in E. injection E as <-. eapply next_done; [|reflexivity]. cbn [binary1]. destruct a; try discriminate; rewrite X; reflexivity.
Qed.
Definition lit_e (e : expr) : option value := match e with EInt i => Some (VInt i) | EFloat f => Some (VFloat f) | EBool b => Some (VBool b) | EUndef => Some VUndef | EStr s => Some (VStr s) | _ => None end.
Lemma lit_eval w rho e v : lit_e e = Some v -> eval w rho e = Ok v.
Proof. destruct e; intros [= <-]; reflexivity. Qed.
Lemma fold_bin_leaf o a b e : fold_bin o a b = Ok e -> is_leaf e = true -> exists va vb v, lit_e a = Some va /\ lit_e b = Some vb /\ lit_e e = Some v /\ num_v va = true /\ num_v vb = true /\ o <> BOp BCnct.
Proof.
  intros F L. destruct a; destruct b; cbn [fold_bin] in F; try (injection F as <-; discriminate L).
  - exists (VInt i), (VInt i0). destruct o as [[]| |]; cbn [fold_int_int] in F; unfold mk_int in F; repeat match type of F with (if ?c then _ else _) = _ => destruct c end; try discriminate F; injection F as <-; try discriminate L; eexists; repeat split; discriminate.
  - exists (VInt i), (VFloat f). injection F as <-. destruct o as [[]| |]; cbn [fold_float] in *; try discriminate L; eexists; repeat split; discriminate.
  - exists (VFloat f), (VInt i). injection F as <-. destruct o as [[]| |]; cbn [fold_float] in *; try discriminate L; eexists; repeat split; discriminate.
  - exists (VFloat f), (VFloat f0). injection F as <-. destruct o as [[]| |]; cbn [fold_float] in *; try discriminate L; eexists; repeat split; discriminate.
Qed.
Lemma fold_un_leaf o a e : fold_un o a = Ok e -> is_leaf e = true -> exists va v, lit_e a = Some va /\ lit_e e = Some v /\ o <> ULen.
Proof.
  intros F L. destruct a; destruct o; cbn [fold_un] in F; unfold mk_int in F; repeat match type of F with (if ?c then _ else _) = _ => destruct c end; try discriminate F; injection F as <-; try discriminate L; eexists; eexists; repeat split; discriminate.
Qed.
Lemma plain_leaf l a v : leafx l = Some a -> lit_e a = Some v -> exists q, plain_e l = Some q /\ lit_o q = Some v.
Proof. destruct l; intros [= <-]; cbn; intros [= <-]; eexists; split; reflexivity. Qed.
Lemma plain_back e v : lit_e e = Some v -> exists q, plain_e (back e) = Some q /\ lit_o q = Some v.
Proof. destruct e; cbn; intros [= <-]; eexists; split; reflexivity. Qed.
Lemma leafx_num l a : leafx l = Some a -> is_num l = is_num_lit a /\ is_float_x l = is_float_lit a.
Proof. destruct l; intros [= <-]; split; reflexivity. Qed.

Lemma foldx_bin_fe o l r l' r' ol or_ ol' or' ef : foldx_bin o l' r' = Ok ef -> fold_e l = Ok l' -> fold_e r = Ok r' -> match o with BOp BId | BNi => negb (float_pair_x l r) | _ => true end = true ->
  plain_e l' = Some ol' -> plain_e r' = Some or' -> fe ol ol' -> fe or_ or' -> exists q, plain_e ef = Some q /\ fe (OBin o ol or_) q.
Proof.
  intros F Fl Fr G Pl Pr El Er. unfold foldx_bin in F.
  assert (K : ef = XBin o l' r' -> exists q, plain_e ef = Some q /\ fe (OBin o ol or_) q).
  { intros ->. cbn [plain_e]. rewrite Pl, Pr. eexists. split; [reflexivity|]. apply fe_bin; assumption. }
  destruct (leafx l') as [a|] eqn:La; [|injection F as <-; auto]. destruct (leafx r') as [b|] eqn:Lb; [|injection F as <-; auto].
  destruct (fold_bin o a b) as [e| | |] eqn:FB; try discriminate. cbn [bind] in F. injection F as <-. destruct (is_leaf e) eqn:IL; [|auto].
  destruct (fold_bin_leaf o a b e FB IL) as (va & vb & v & Ha & Hb & Hv & Na & Nb & No).
  destruct (plain_leaf _ _ _ La Ha) as (q1 & Q1 & Q1'). destruct (plain_leaf _ _ _ Lb Hb) as (q2 & Q2 & Q2'). destruct (plain_back _ _ Hv) as (q & Q & Q').
  assert (q1 = ol') by congruence. assert (q2 = or') by congruence. subst q1 q2. exists q. split; [exact Q|]. eapply fe_bin_const; [exact El|exact Er|exact Q1'|exact Q2'|exact Q'|].
  intros h D m. apply bop_meaning; [exact Na|exact Nb|exact No|]. rewrite <- (lit_eval (strict (h_world h)) (fun _ => UB) e v Hv).
  symmetry. eapply fold_bin_ok; [apply lit_eval, Ha|apply lit_eval, Hb|exact FB|].
  unfold float_pair_x in G. rewrite Fl, Fr in G. destruct (leafx_num _ _ La) as (N1 & N2). destruct (leafx_num _ _ Lb) as (N3 & N4). rewrite N1, N2, N3, N4 in G.
  destruct o as [[]| |]; try exact I; intros Hn; apply negb_true_iff in G; apply andb_true_iff in Hn; destruct Hn as (H1 & H2); rewrite H1, H2 in G; exact G.
Qed.
Lemma foldx_un_fe o e e' oe oe' ef : foldx_un o e' = Ok ef -> fold_e e = Ok e' -> match o with UNot => negb (is_nan_x e) | _ => true end = true ->
  plain_e e' = Some oe' -> fe oe oe' -> exists q, plain_e ef = Some q /\ fe (OUn o oe) q.
Proof.
  intros F Fl G Pl El. unfold foldx_un in F.
  assert (K : ef = XUn o e' -> exists q, plain_e ef = Some q /\ fe (OUn o oe) q).
  { intros ->. cbn [plain_e]. rewrite Pl. eexists. split; [reflexivity|]. apply fe_un; assumption. }
  destruct (leafx e') as [a|] eqn:La; [|injection F as <-; auto].
  destruct (fold_un o a) as [e1| | |] eqn:FB; try discriminate. cbn [bind] in F. injection F as <-. destruct (is_leaf e1) eqn:IL; [|auto].
  destruct (fold_un_leaf o a e1 FB IL) as (va & v & Ha & Hv & No).
  destruct (plain_leaf _ _ _ La Ha) as (q1 & Q1 & Q1'). destruct (plain_back _ _ Hv) as (q & Q & Q').
  assert (q1 = oe') by congruence. subst q1. exists q. split; [exact Q|]. eapply fe_un_const; [exact El|exact Q1'|exact Q'|].
  intros h m. assert (X : exec_unop (strict (h_world h)) o va = Ok v).
  { rewrite <- (lit_eval (strict (h_world h)) (fun _ => UB) e1 v Hv). symmetry. eapply fold_un_ok; [apply lit_eval, Ha|exact FB|]. intros -> ->. unfold is_nan_x in G. rewrite Fl in G. destruct e'; try discriminate La. injection La as ->. discriminate G. }
  destruct o; try congruence; cbn [unary]; rewrite X; reflexivity.
Qed.
Lemma both_some {A B C} (f : A -> B -> C) x y z : both f x y = Some z -> exists a b, x = Some a /\ y = Some b /\ z = f a b.
Proof. unfold both. destruct x as [a|], y as [b|]; try discriminate. intros [= <-]. eauto. Qed.
Lemma omap_some {A B} (f : A -> B) x z : option_map f x = Some z -> exists a, x = Some a /\ z = f a.
Proof. destruct x as [a|]; try discriminate. intros [= <-]. eauto. Qed.
Ltac opts := repeat match goal with
  | H : both _ _ _ = Some _ |- _ => apply both_some in H; destruct H as (?a & ?b & ?P & ?P & ->)
  | H : option_map _ _ = Some _ |- _ => apply omap_some in H; destruct H as (?a & ?P & ->)
  | H : match ?x with Some _ => _ | None => None end = Some _ |- _ => let E := fresh "P" in destruct x eqn:E; [|discriminate H]
  | H : _ && _ = true |- _ => apply andb_true_iff in H; destruct H
  end.
Ltac unbinds := repeat match goal with H : (do _ <- _; _) = Ok _ |- _ => progress unbind H | H : Ok _ = Ok _ |- _ => injection H as <- end.
Lemma fold_e_fe : (forall e ef o, fold_e e = Ok ef -> exact_e e = true -> plain_e e = Some o -> exists o', plain_e ef = Some o' /\ fe o o') /\
  (forall es esf o, fold_es es = Ok esf -> exact_es es = true -> plain_es es = Some o -> exists o', plain_es esf = Some o' /\ fas o o') /\ (forall s : xs, True).
Proof.
  apply tree_mind; intros; auto; try discriminate; cbn [fold_e fold_es exact_e exact_es plain_e plain_es] in *; opts; unbinds;
    try (match goal with H : Some _ = Some _ |- _ => injection H as <- end; eexists; split; [reflexivity|apply fe_same]).
  all: repeat match goal with
    | IH : forall ef o, Ok _ = Ok ef -> exact_e ?e = true -> Some _ = Some o -> _, G : exact_e ?e = true |- _ => destruct (IH _ _ eq_refl G eq_refl) as (?q & ?Q & ?F); clear IH
    | IH : forall ef o, Ok _ = Ok ef -> exact_e ?e = true -> plain_e ?e = Some o -> _, G : exact_e ?e = true, P : plain_e ?e = Some _ |- _ => destruct (IH _ _ eq_refl G P) as (?q & ?Q & ?F); clear IH
    | IH : forall ef o, Ok _ = Ok ef -> exact_es ?e = true -> plain_es ?e = Some o -> _, G : exact_es ?e = true, P : plain_es ?e = Some _ |- _ => destruct (IH _ _ eq_refl G P) as (?q & ?Q & ?F); clear IH
    end.
  1: eapply foldx_un_fe; eassumption.
  1: eapply foldx_bin_fe; eassumption.
  all: try (match goal with H : Some _ = Some _ |- _ => injection H as <- end; exists ANil; split; [reflexivity|constructor]).
  all: cbn [plain_e plain_es]; repeat match goal with H : plain_e ?x = Some _ |- context [plain_e ?x] => rewrite H | H : plain_es ?x = Some _ |- context [plain_es ?x] => rewrite H end; cbn [both option_map]; eexists; split; [reflexivity|]; constructor; assumption.
Qed.

Lemma plain_value_fe e ef o : fold_e e = Ok ef -> exact_e e = true -> plain_value e = Some o -> exists o', plain_value ef = Some o' /\ fe o o'.
Proof.
  intros F G P.
  assert (K : (forall n e1, ef <> XCtx n e1) -> plain_e e = Some o -> exists o', plain_value ef = Some o' /\ fe o o').
  { intros N P'. destruct (proj1 fold_e_fe e ef o F G P') as (q & Q & Fe). exists q. split; [|exact Fe]. destruct ef; try exact Q. exfalso. eapply N. reflexivity. }
  assert (K' : (forall n e1, e <> XCtx n e1) -> forall n e1, ef <> XCtx n e1).
  { intros N n e1 ->. destruct e; cbn [fold_e] in F; unbind F; try discriminate F; try (eapply N; reflexivity).
    - unfold foldx_un in F. destruct (leafx a); [|discriminate F]. unbind F. injection F as F. destruct (is_leaf a0); [destruct a0; discriminate F|discriminate F].
    - unfold foldx_bin in F. destruct (leafx a); [|discriminate F]. destruct (leafx a0); [|discriminate F]. unbind F. injection F as F. destruct (is_leaf a1); [destruct a1; discriminate F|discriminate F]. }
  destruct e; try (apply K; [apply K'; discriminate|exact P]).
  cbn [fold_e] in F. unbind F. injection F as <-. cbn [plain_value] in *. destruct (n =? 1); [|discriminate]. eapply (proj1 fold_e_fe); eassumption.
Qed.
Lemma fold_s_fs s : forall sf o, fold_s s = Ok sf -> exact_s s = true -> plain_s s = Some o -> exists o', plain_s sf = Some o' /\ fs o o'.
Proof.
  assert (X : forall s : xs, forall sf o, fold_s s = Ok sf -> exact_s s = true -> plain_s s = Some o -> exists o', plain_s sf = Some o' /\ fs o o').
  2: exact (X s).
  clear s. pose proof (fun e ef o => proj1 fold_e_fe e ef o) as FE.
  induction s; intros sf o F G P; cbn [fold_s exact_s plain_s] in F, G, P; try discriminate P; opts; unbinds;
    try (injection P as <-; eexists; split; [reflexivity|constructor]);
    repeat match goal with
    | IH : forall sf o, Ok _ = Ok sf -> exact_s ?e = true -> plain_s ?e = Some o -> _, G : exact_s ?e = true, P : plain_s ?e = Some _ |- _ => destruct (IH _ _ eq_refl G P) as (?q & ?Q & ?F); clear IH
    | E : fold_e ?e = Ok _, G : exact_e ?e = true, P : plain_e ?e = Some _ |- _ => destruct (FE _ _ _ E G P) as (?q & ?Q & ?F); clear E
    end;
    try (cbn [plain_s]; repeat match goal with H : plain_e ?x = Some _ |- context [plain_e ?x] => rewrite H | H : plain_s ?x = Some _ |- context [plain_s ?x] => rewrite H end; cbn [both option_map]; eexists; split; [reflexivity|]; constructor; assumption).
  destruct ls as [|l [|]]; try discriminate P; destruct l as [x|x|x]; try discriminate P; destruct es as [|e [|]]; try discriminate P; opts; cbn [fold_es exact_es] in *; opts; unbinds;
    match goal with E : fold_e e = Ok _, G : exact_e e = true, P : plain_value e = Some _ |- _ => destruct (plain_value_fe _ _ _ E G P) as (q & Q & F) end;
    cbn [plain_s]; rewrite Q; cbn [option_map]; eexists; (split; [reflexivity|]); constructor; exact F.
Qed.
Lemma fold_l_fs l : forall lf o, fold_l l = Ok lf -> forallb exact_s l = true -> plain_l l = Some o -> exists o', plain_l lf = Some o' /\ fs (body_o o) (body_o o').
Proof.
  induction l as [|s l IH]; intros lf o F G P; cbn [fold_l forallb plain_l] in *.
  - injection F as <-. injection P as <-. exists []. split; [reflexivity|constructor].
  - opts. unbinds. destruct (fold_s_fs _ _ _ E H P) as (q & Q & Fq). destruct (IH _ _ eq_refl H0 P0) as (r & R & Fr). cbn [plain_l]. rewrite Q, R. cbn [both]. eexists. split; [reflexivity|].
    cbn [body_o fold_right]. constructor; assumption.
Qed.
