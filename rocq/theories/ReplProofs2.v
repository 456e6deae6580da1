From Verif Require Import Base Bytes BytesProofs Value Table Ops Ast Stmt Limits Constants VM Compiler ValueProofs TableSpec ConstSpec ConstProofs Gen GenProofs GenProofs2 SimBase Sim Program ProgProofs CompSpec CompProofs CompState Repl ReplSpec ReplProofs.

(** ** The code of a line. *)
Definition glob_l (G : scope) (l : lval) : scope :=
  match l with LLet x => (x, Z.of_nat (length G)) :: G | LConst x => (x, Z.lnot (Z.of_nat (length G))) :: G | LAssign _ => G end.
Definition glob1 (G : scope) (s : stmt) : scope :=
  match s with SLet x _ => glob_l G (LLet x) | SConst x _ => glob_l G (LConst x) | SDecl l _ => fold_left glob_l l G | _ => G end.
Definition gen_l (K : list value) (l : lval) : list Z := op O_MOVEUP_FP ++ [0] ++ store_code K [[]] (lval_name l).
Definition gen_ls (K : list value) (l : list lval) : list Z := concat (map (gen_l K) l).
Definition gen1 (K : list value) (s : stmt) : list Z :=
  match s with
  | SLet x e | SConst x e => gen_e K [[]] e ++ store_code K [[]] x
  | SDecl l rs => gen_es K [[]] rs ++ gen_ls K l
  | _ => gen_s K [[]] 0 [] s
  end.
Definition ok_l (G : scope) (l : lval) : Prop :=
  match l with LAssign x => writable G [[]] x = true | LLet x | LConst x => assoc G x = None end.
Fixpoint ok_ls (G : scope) (l : list lval) : Prop := match l with [] => True | t :: r => ok_l G t /\ ok_ls (glob_l G t) r end.
Definition ok1 (G : scope) (s : stmt) : Prop :=
  match s with
  | SLet x e | SConst x e => ok_e G [[]] e = true /\ assoc G x = None
  | SDecl l rs => forallb (ok_e G [[]]) rs = true /\ ok_ls G l
  | _ => ok_s G [[]] false s = true
  end.

(** What compiling one piece does to the compiler between lines. *)
Record ran1 (c c' : cst) (cs cs' : list value) (G' : scope) (g : list value -> list Z) : Prop := R1 {
  r1_pool : pooled (c_pool c') cs'; r1_ext : exists ext, cs' = cs ++ ext; r1_sc : c_scopes c' = []; r1_gl : c_globals c' = G';
  r1_in : gl_in G' cs'; r1_cps : c_cps c' = c_cps c; r1_buf : forall K, (exists more, K = cs' ++ more) -> c_buf c' = c_buf c ++ g K }.
Lemma ran1_trans c1 c2 c3 cs1 cs2 cs3 G2 G3 g1 g2 : ran1 c1 c2 cs1 cs2 G2 g1 -> ran1 c2 c3 cs2 cs3 G3 g2 -> ran1 c1 c3 cs1 cs3 G3 (fun K => g1 K ++ g2 K).
Proof.
  intros [P1 (x1 & E1) S1 G1 I1 C1 B1] [P2 (x2 & E2) S2 H2 I2 C2 B2]. split; auto.
  - exists (x1 ++ x2). rewrite E2, E1. apply app_assoc_reverse.
  - congruence.
  - intros K (more & ->). rewrite (B2 _ (ex_intro _ more eq_refl)), (B1 (cs3 ++ more)); [apply app_assoc_reverse|]. exists (x2 ++ more). rewrite E2. apply app_assoc_reverse.
Qed.
Lemma ran1_of_ran c c' cs cs' g : c_scopes c' = [] -> gl_in (c_globals c) cs -> ran (bot c) (bot c') cs cs' [[]] g -> ran1 c c' cs cs' (c_globals c) g.
Proof.
  intros S G (P & (x & E) & _ & Gl & C & B). split; [exact P|eauto|exact S|exact Gl|subst cs'; apply gl_in_ext, G|exact C|exact B].
Qed.

Section Gen.
Variable fuel : nat.
Lemma top_deep c c' : deep c' = deep c -> c_scopes c = [] -> c_scopes c' = [].
Proof. unfold deep. intros D S. rewrite S in D. destruct (c_scopes c'); [reflexivity|discriminate]. Qed.
Lemma bot_sc c : c_scopes c = [] -> c_scopes (bot c) = [[]].
Proof. unfold bot. cbn [set_scopes c_scopes]. intros ->. reflexivity. Qed.
Lemma nb_ok f c c' : nat_bot f c -> f c = Ok c' -> f (bot c) = Ok (bot c').
Proof. unfold nat_bot. intros -> ->. reflexivity. Qed.
Lemma e1 e c c' cs : visit_e fuel e c = Ok c' -> c_scopes c = [] -> pooled (c_pool c) cs -> gl_in (c_globals c) cs -> Forall literal (lits_e e) ->
  ok_e (c_globals c) [[]] e = true /\ exists cs', ran1 c c' cs cs' (c_globals c) (fun K => gen_e K [[]] e) /\ incl (lits_e e) cs'.
Proof.
  intros E S P G L. pose proof (nb_ok _ _ _ (visit_e_bot fuel e c) E) as E'. destruct (visit_e_gen fuel e (bot c) (bot c') cs E' P G L) as (O & cs' & R & I). rewrite (bot_sc c S) in O, R.
  split; [exact O|]. exists cs'. split; [|exact I]. apply ran1_of_ran; auto. exact (top_deep _ _ (visit_e_deep _ _ _ _ E) S).
Qed.
Lemma es1 es c c' cs : visit_es fuel es c = Ok c' -> c_scopes c = [] -> pooled (c_pool c) cs -> gl_in (c_globals c) cs -> Forall literal (concat (map lits_e es)) ->
  forallb (ok_e (c_globals c) [[]]) es = true /\ exists cs', ran1 c c' cs cs' (c_globals c) (fun K => gen_es K [[]] es) /\ incl (concat (map lits_e es)) cs'.
Proof.
  intros E S P G L. pose proof (nb_ok _ _ _ (visit_es_bot fuel es c) E) as E'. destruct (visit_es_gen fuel es (bot c) (bot c') cs E' P G L) as (O & cs' & R & I). rewrite (bot_sc c S) in O, R.
  split; [exact O|]. exists cs'. split; [|exact I]. apply ran1_of_ran; auto. exact (top_deep _ _ (visit_es_deep _ _ _ _ E) S).
Qed.
Lemma store1 x c c' cs : store_var fuel c x = Ok c' -> c_scopes c = [] -> pooled (c_pool c) cs -> gl_in (c_globals c) cs ->
  writable (c_globals c) [[]] x = true /\ ran1 c c' cs cs (c_globals c) (fun K => store_code K [[]] x).
Proof.
  intros E S P G. pose proof (nb_ok (fun c => store_var fuel c x) _ _ (store_bot fuel c x) E) as E'. destruct (store_var_gen fuel (bot c) x (bot c') cs E' P G) as (O & R). rewrite (bot_sc c S) in O, R.
  split; [exact O|]. apply ran1_of_ran; auto. exact (top_deep _ _ (store_deep _ _ _ _ E) S).
Qed.
Lemma other1 s c c' cs : visit_s fuel s c = Ok c' -> c_scopes c = [] -> c_buf c = [] -> c_cps c = [] -> parsed s = true -> decls s = 0%nat -> pooled (c_pool c) cs -> gl_in (c_globals c) cs -> Forall literal (literals s) ->
  ok_s (c_globals c) [[]] false s = true /\ exists cs', ran1 c c' cs cs' (c_globals c) (fun K => gen_s K [[]] 0 [] s) /\ incl (lits_s s) cs'.
Proof.
  intros E S B C W D P G L. pose proof (nb_ok _ _ _ (visit_s_bot fuel s c W (or_intror D)) E) as E'.
  destruct (visit_s_gen fuel s (bot c) (bot c') cs E') as (O & cs' & R & I); auto; [rewrite (bot_sc c S); discriminate|apply literal_lits, L|]. rewrite (bot_sc c S) in O, R.
  assert (Cb : c_cps (bot c) = []) by exact C. assert (Nb : count (bot c) = 0) by (unfold count; change (c_buf (bot c)) with (c_buf c); rewrite B; reflexivity).
  unfold in_loop in O. rewrite Cb in O, R. rewrite Nb in R. pose proof (top_deep _ _ (visit_s_deep _ _ _ _ E) S) as S'.
  split; [exact O|]. exists cs'. split; [|exact I]. destruct R as (R1 & R2 & R3 & R4 & R5 & R6). split; [exact R1|exact R2|exact S'|exact R4| |exact R5|exact R6].
  destruct R2 as (x & ->). apply gl_in_ext, G.
Qed.
Lemma const_idx G x z y : assoc ((x, z) :: G) y = if name_eqb x y then Some z else assoc G y. Proof. reflexivity. Qed.
Lemma decl1 x c c' cs : decl_var fuel c x = Ok c' -> c_scopes c = [] -> assoc (c_globals c) x = None -> literal (VStr x) -> pooled (c_pool c) cs -> gl_in (c_globals c) cs ->
  exists cs', ran1 c c' cs cs' (glob_l (c_globals c) (LLet x)) (fun _ => []).
Proof.
  intros E S A L P G. unfold decl_var in E. rewrite S, A in E. destruct (intern fuel (c_pool c) (VStr x)) as [[i p']| | |] eqn:I; try discriminate E. cbn [bind fst snd] in E. injection E as <-.
  destruct (intern_part _ _ _ _ _ _ P L I) as (ext & P' & In' & _). exists (cs ++ ext). split; cbn [c_pool c_scopes c_globals c_cps c_buf]; eauto.
  - intros y z Hy. cbn [glob_l] in Hy. rewrite const_idx in Hy. destruct (name_eqb x y) eqn:Ex; [apply name_eqb_spec in Ex; subst y; exact In'|]. apply in_or_app. left. eapply G; exact Hy.
  - intros. rewrite app_nil_r. reflexivity.
Qed.
Lemma const1 c c1 x cs cs1 g : ran1 c c1 cs cs1 (glob_l (c_globals c) (LLet x)) g -> ran1 c (make_const c1 x) cs cs1 (glob_l (c_globals c) (LConst x)) g.
Proof.
  intros [P E S G I C B]. unfold make_const. rewrite S, G. cbn [glob_l assoc] in *. destruct (name_eqb_spec x x) as (_ & N). rewrite (N eq_refl). cbn [assoc_put]. rewrite (N eq_refl).
  split; cbn [c_pool c_scopes c_globals c_cps c_buf]; auto. intros y z Hy. rewrite const_idx in Hy. destruct (name_eqb x y) eqn:Ex; [eapply I; rewrite const_idx, Ex; reflexivity|]. eapply I. rewrite const_idx, Ex. exact Hy.
Qed.
Lemma glob_same c : assoc (c_globals c) = assoc (c_globals c). Proof. reflexivity. Qed.
Lemma declare1 x e c c' cs : declare fuel c x e = Ok c' -> c_scopes c = [] -> literal (VStr x) -> Forall literal (lits_e e) -> pooled (c_pool c) cs -> gl_in (c_globals c) cs ->
  (ok_e (c_globals c) [[]] e = true /\ assoc (c_globals c) x = None) /\ exists cs', ran1 c c' cs cs' (glob_l (c_globals c) (LLet x)) (fun K => gen_e K [[]] e ++ store_code K [[]] x) /\ incl (lits_e e) cs'.
Proof.
  intros E S Lx Le P G. unfold declare in E. unfold in_current in E. rewrite S in E. destruct (assoc (c_globals c) x) eqn:A; [discriminate|].
  destruct (visit_e fuel e c) as [c1| | |] eqn:E1; try discriminate E. cbn [bind] in E. destruct (e1 _ _ _ _ E1 S P G Le) as (O & cs1 & R1 & I1).
  destruct (decl_var fuel c1 x) as [c2| | |] eqn:E2; try discriminate E. cbn [bind] in E. pose proof (r1_gl _ _ _ _ _ _ R1) as G1. pose proof (r1_in _ _ _ _ _ _ R1) as In1. rewrite <- G1 in In1.
  destruct (decl1 _ _ _ _ E2 (r1_sc _ _ _ _ _ _ R1) ltac:(rewrite G1; exact A) Lx (r1_pool _ _ _ _ _ _ R1) In1) as (cs2 & R2). rewrite G1 in R2.
  rewrite (r1_sc _ _ _ _ _ _ R2) in E. pose proof (r1_gl _ _ _ _ _ _ R2) as G2. pose proof (r1_in _ _ _ _ _ _ R2) as In2. rewrite <- G2 in In2.
  destruct (store1 _ _ _ _ E (r1_sc _ _ _ _ _ _ R2) (r1_pool _ _ _ _ _ _ R2) In2) as (_ & R3). rewrite G2 in R3.
  split; [auto|]. exists cs2. split.
  - pose proof (ran1_trans _ _ _ _ _ _ _ _ _ _ R1 (ran1_trans _ _ _ _ _ _ _ _ _ _ R2 R3)) as R. exact R.
  - intros v Hv. destruct (r1_ext _ _ _ _ _ _ R2) as (x2 & ->). apply in_or_app. left. apply I1, Hv.
Qed.
Lemma emit1 c bs cs : c_scopes c = [] -> pooled (c_pool c) cs -> gl_in (c_globals c) cs -> ran1 c (emit c bs) cs cs (c_globals c) (fun _ => bs).
Proof. intros S P G. split; auto. exists []; rewrite app_nil_r; reflexivity. Qed.
Lemma lvals1 ls : forall c c' cs, visit_lvals fuel ls c = Ok c' -> c_scopes c = [] -> Forall (fun x => literal (VStr x)) (map lval_name ls) -> pooled (c_pool c) cs -> gl_in (c_globals c) cs ->
  ok_ls (c_globals c) ls /\ exists cs', ran1 c c' cs cs' (fold_left glob_l ls (c_globals c)) (fun K => gen_ls K ls).
Proof.
  induction ls as [|l ls IH]; intros c c' cs E S L P G; cbn [visit_lvals] in E.
  - injection E as <-. split; [exact I|]. exists cs. split; auto; [exists []; rewrite app_nil_r; reflexivity|]. intros. cbn. rewrite app_nil_r. reflexivity.
  - cbn [map] in L. inversion L as [|? ? Lx Lr]; subst.
    assert (STEP : forall c1 cs1 g, ran1 c c1 cs cs1 (glob_l (c_globals c) l) g -> (forall K, g K = gen_l K l) -> visit_lvals fuel ls c1 = Ok c' ->
       ok_ls (glob_l (c_globals c) l) ls /\ exists cs', ran1 c c' cs cs' (fold_left glob_l (l :: ls) (c_globals c)) (fun K => gen_ls K (l :: ls))).
    { intros c1 cs1 g R Hg E1. pose proof (r1_gl _ _ _ _ _ _ R) as G1. pose proof (r1_in _ _ _ _ _ _ R) as In1. rewrite <- G1 in In1.
      destruct (IH c1 c' cs1 E1 (r1_sc _ _ _ _ _ _ R) Lr (r1_pool _ _ _ _ _ _ R) In1) as (O & cs' & R2). rewrite G1 in O, R2. split; [exact O|]. exists cs'. cbn [fold_left].
      destruct (ran1_trans _ _ _ _ _ _ _ _ _ _ R R2) as [q1 q2 q3 q4 q5 q6 q7]. split; auto. intros K HK. rewrite (q7 K HK), Hg. reflexivity. }
    cbn [ok_ls]. destruct l as [x|x|x]; cbn [lval_name] in Lx.
    + unfold in_current in E. rewrite S in E. destruct (assoc (c_globals c) x) eqn:A; [discriminate|].
      destruct (decl_var fuel c x) as [c1| | |] eqn:E1; try discriminate E. cbn [bind] in E. destruct (decl1 _ _ _ _ E1 S A Lx P G) as (cs1 & R1). rewrite (r1_sc _ _ _ _ _ _ R1) in E.
      destruct (store_var fuel (emit c1 (op O_MOVEUP_FP ++ [0])) x) as [c2| | |] eqn:E2; try discriminate E. cbn [bind] in E.
      pose proof (r1_gl _ _ _ _ _ _ R1) as G1. pose proof (r1_in _ _ _ _ _ _ R1) as In1. pose proof In1 as In1'. rewrite <- G1 in In1'.
      pose proof (emit1 c1 (op O_MOVEUP_FP ++ [0]) cs1 (r1_sc _ _ _ _ _ _ R1) (r1_pool _ _ _ _ _ _ R1) In1') as R2. destruct (store1 _ _ _ cs1 E2 (r1_sc _ _ _ _ _ _ R2) (r1_pool _ _ _ _ _ _ R2) In1') as (_ & R3).
      change (c_globals (emit c1 (op O_MOVEUP_FP ++ [0]))) with (c_globals c1) in R3. rewrite G1 in R2, R3.
      destruct (STEP _ _ _ (ran1_trans _ _ _ _ _ _ _ _ _ _ R1 (ran1_trans _ _ _ _ _ _ _ _ _ _ R2 R3)) ltac:(intros; reflexivity) E) as (O & Y). split; [split; [exact A|exact O]|exact Y].
    + unfold in_current in E. rewrite S in E. destruct (assoc (c_globals c) x) eqn:A; [discriminate|].
      destruct (decl_var fuel c x) as [c1| | |] eqn:E1; try discriminate E. cbn [bind] in E. destruct (decl1 _ _ _ _ E1 S A Lx P G) as (cs1 & R1). rewrite (r1_sc _ _ _ _ _ _ R1) in E.
      destruct (store_var fuel (emit c1 (op O_MOVEUP_FP ++ [0])) x) as [c2| | |] eqn:E2; try discriminate E. cbn [bind] in E.
      pose proof (r1_gl _ _ _ _ _ _ R1) as G1. pose proof (r1_in _ _ _ _ _ _ R1) as In1. pose proof In1 as In1'. rewrite <- G1 in In1'.
      pose proof (emit1 c1 (op O_MOVEUP_FP ++ [0]) cs1 (r1_sc _ _ _ _ _ _ R1) (r1_pool _ _ _ _ _ _ R1) In1') as R2. destruct (store1 _ _ _ cs1 E2 (r1_sc _ _ _ _ _ _ R2) (r1_pool _ _ _ _ _ _ R2) In1') as (_ & R3).
      change (c_globals (emit c1 (op O_MOVEUP_FP ++ [0]))) with (c_globals c1) in R3. rewrite G1 in R2, R3.
      destruct (STEP _ _ _ (const1 _ _ _ _ _ _ (ran1_trans _ _ _ _ _ _ _ _ _ _ R1 (ran1_trans _ _ _ _ _ _ _ _ _ _ R2 R3))) ltac:(intros; reflexivity) E) as (O & Y). split; [split; [exact A|exact O]|exact Y].
    + destruct (contains_var c x); [|discriminate]. rewrite S in E. change (scope_len [] mod 256) with 0 in E.
      destruct (store_var fuel (emit c (op O_MOVEUP_FP ++ [0])) x) as [c2| | |] eqn:E2; try discriminate E. cbn [bind] in E.
      pose proof (emit1 c (op O_MOVEUP_FP ++ [0]) cs S P G) as R2. destruct (store1 _ _ _ cs E2 (r1_sc _ _ _ _ _ _ R2) P G) as (W & R3).
      destruct (STEP _ _ _ (ran1_trans _ _ _ _ _ _ _ _ _ _ R2 R3) ltac:(intros; reflexivity) E) as (O & Y). split; [split; [exact W|exact O]|exact Y].
Qed.
Lemma stmt1 s c c' cs : visit_s fuel s c = Ok c' -> c_scopes c = [] -> c_buf c = [] -> c_cps c = [] -> item_ok s -> pooled (c_pool c) cs -> gl_in (c_globals c) cs ->
  ok1 (c_globals c) s /\ exists cs', ran1 c c' cs cs' (glob1 (c_globals c) s) (fun K => gen1 K s) /\ incl (lits_s s) cs'.
Proof.
  intros E S B C (T & W & _ & L & N & _) P G.
  assert (X : no_decls s = true -> ok_s (c_globals c) [[]] false s = true /\ exists cs', ran1 c c' cs cs' (c_globals c) (fun K => gen_s K [[]] 0 [] s) /\ incl (lits_s s) cs').
  { intros D. apply no_decls_iff in D. eapply other1; eauto. }
  destruct s as [|a b|e|x e|x e|ls rs|x e|b|cd a|cd a b|cd b|cd b post|x e b| | |e|e|s]; try (apply X; exact T); clear X; cbn [visit_s new_names literals lits_s ok1 glob1 gen1] in *.
  - inversion N; subst. eapply declare1; eauto.
  - inversion N; subst. destruct (declare fuel c x e) as [c1| | |] eqn:E1; try discriminate E. cbn [bind] in E. injection E as <-. destruct (declare1 _ _ _ _ _ E1 S H1 L P G) as (O & cs1 & R & I). split; [exact O|]. exists cs1. split; [apply const1, R|exact I].
  - destruct (visit_es fuel rs c) as [c1| | |] eqn:E1; try discriminate E. cbn [bind] in E. destruct (es1 _ _ _ _ E1 S P G L) as (O1 & cs1 & R1 & I1).
    pose proof (r1_gl _ _ _ _ _ _ R1) as G1. pose proof (r1_in _ _ _ _ _ _ R1) as In1. rewrite <- G1 in In1.
    destruct (lvals1 _ _ _ _ E (r1_sc _ _ _ _ _ _ R1) N (r1_pool _ _ _ _ _ _ R1) In1) as (O2 & cs2 & R2). rewrite G1 in O2, R2. split; [auto|]. exists cs2. split; [exact (ran1_trans _ _ _ _ _ _ _ _ _ _ R1 R2)|].
    intros v Hv. destruct (r1_ext _ _ _ _ _ _ R2) as (x2 & ->). apply in_or_app. left. apply I1, Hv.
Qed.

(** A whole line. *)
Definition is_last {A} (r : list A) : bool := match r with [] => true | _ => false end.
Definition items (line : list stmt) : list stmt :=
  (fix go l := match l with [] => [] | s :: r => shown_if_last (is_last r) s :: go r end) line.
Lemma repl_as_items line : forall code c, repl_stmts fuel line code c = compile_stmts fuel (items line) code c.
Proof. induction line as [|s r IH]; intros code c; [reflexivity|]. cbn [repl_stmts items compile_stmts]. fold (items r). change (repl_node (match r with [] => true | _ => false end) s) with (shown_if_last (is_last r) s). apply bind_ext. intros. apply IH. Qed.
Fixpoint ok_line (G : scope) (l : list stmt) : Prop := match l with [] => True | s :: r => ok1 G s /\ ok_line (glob1 G s) r end.
Definition gen_line (K : list value) (l : list stmt) : list Z := concat (map (gen1 K) l).
Lemma line1 l : forall code c code' c' cs, compile_stmts fuel l code c = Ok (code', c') -> c_scopes c = [] -> c_buf c = [] -> c_cps c = [] -> Forall item_ok l -> pooled (c_pool c) cs -> gl_in (c_globals c) cs ->
  ok_line (c_globals c) l /\ c_scopes c' = [] /\ c_buf c' = [] /\ c_cps c' = [] /\ c_globals c' = fold_left glob1 l (c_globals c) /\
  exists cs', pooled (c_pool c') cs' /\ (exists ext, cs' = cs ++ ext) /\ gl_in (c_globals c') cs' /\ incl (concat (map lits_s l)) cs' /\ forall K, (exists more, K = cs' ++ more) -> code' = code ++ gen_line K l.
Proof.
  induction l as [|s l IH]; intros code c code' c' cs E S B C F P G; cbn [compile_stmts] in E.
  - injection E as <- <-. split; [exact I|]. repeat (split; [assumption || reflexivity|]). exists cs. split; [exact P|]. split; [exists []; rewrite app_nil_r; reflexivity|]. split; [exact G|]. split; [apply incl_nil_l|]. intros. cbn. rewrite app_nil_r. reflexivity.
  - inversion F as [|? ? Fs Fl]; subst. destruct (visit_s fuel s c) as [c1| | |] eqn:E1; try discriminate E. cbn [bind] in E. destruct (stmt1 _ _ _ _ E1 S B C Fs P G) as (O & cs1 & [q1 (x1 & q2) q3 q4 q5 q6 q7] & I1).
    destruct (IH (code ++ c_buf c1) (set_buf c1 []) code' c' cs1 E) as (O2 & S2 & B2 & C2 & G2 & cs2 & P2 & (x2 & X2) & In2 & I2 & Bf2); cbn [set_buf c_buf c_scopes c_cps c_pool c_globals]; auto; try congruence; [rewrite q4; exact q5|].
    cbn [set_buf c_globals] in O2, G2. rewrite q4 in O2, G2. split; [split; [exact O|exact O2]|]. do 3 (split; [assumption|]). split; [exact G2|]. exists cs2. split; [exact P2|]. split; [exists (x1 ++ x2); rewrite X2, q2; apply app_assoc_reverse|]. split; [exact In2|]. split.
    + cbn [map concat]. apply incl_app; [|exact I2]. intros v Hv. rewrite X2. apply in_or_app. left. apply I1, Hv.
    + intros K HK. rewrite (Bf2 K HK). cbn [gen_line map concat]. fold (gen_line K l). rewrite app_assoc. f_equal. f_equal. rewrite (q7 K), B; [reflexivity|]. destruct HK as (m & ->). rewrite X2. exists (x2 ++ m). apply app_assoc_reverse.
Qed.
End Gen.
