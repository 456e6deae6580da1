(** The code a statement compiles to, as a function (proofs only), and that the compiler produces it: statements. *)
From Verif Require Import Base Bytes BytesProofs Value Table Ops Ast Stmt Constants VM Compiler ValueProofs TableSpec TableProofs TableProofs2 TableProofs3 ConstSpec ConstProofs Gen GenProofs GenProofs2 Obj ObjCompiler ObjGen.

Fixpoint after_o (ss : list scope) (s : ostmt) : list scope :=
  match s with OSeq a b => after_o (after_o ss a) b | OLet k x _ => decl ss x k | _ => ss end.
Definition quiet_o (e : oexpr) : bool :=
  match e with OStr _ | OInt _ | OFloat _ | OBool _ | OUndef | OVar _ => true | _ => false end.
(** [gen_os K ss pos cps s]: the code of [s] placed at buffer position [pos]. *)
Fixpoint gen_os (K : list value) (ss : list scope) (pos : Z) (cps : list Z) (s : ostmt) : list Z :=
  match s with
  | OSkip => []
  | OSeq a b => let ba := gen_os K ss pos cps a in ba ++ gen_os K (after_o ss a) (pos + len ba) cps b
  | OExpr e => if quiet_o e then [] else gen_oe K ss e ++ op O_POP
  | OLet _ _ e => gen_oe K ss e
  | OAssign x e => gen_oe K ss e ++ store_code K ss x
  | OSet c k v => gen_oe K ss c ++ gen_oe K ss k ++ gen_oe K ss v ++ op O_SET
  | OBlock b => gen_os K ([] :: ss) pos cps b ++ pops (after_o ([] :: ss) b)
  | OIf c a =>
      if o_truthy c then gen_os K ss pos cps a else if o_falsey c then [] else
      let bc := gen_oe K ss c in
      let ba := gen_os K ss (pos + len bc + 9) cps a in
      bc ++ op O_BRF_8 ++ enc8 (len ba) ++ ba
  | OIfElse c a b =>
      if o_truthy c then gen_os K ss pos cps a else if o_falsey c then gen_os K ss pos cps b else
      let bc := gen_oe K ss c in
      let ba := gen_os K ss (pos + len bc + 9) cps a in
      let bb := gen_os K ss (pos + len bc + 9 + len ba + 9) cps b in
      bc ++ op O_BRF_8 ++ enc8 (len ba + 9) ++ ba ++ op O_BR_8 ++ enc8 (len bb) ++ bb
  | OWhile c b =>
      if o_falsey c then [] else
      let bc := gen_oe K ss c in
      let ck := pos + len bc in
      let bb := gen_os K ss (ck + 9) (ck :: pos :: cps) b in
      bc ++ op O_BRF_8 ++ enc8 (len bb + 9) ++ bb ++ back (ck + 9 + len bb) pos
  | OWhilePost c b post =>
      if o_falsey c then [] else
      let bp := gen_os K ss (pos + 9) cps post in
      let bc := gen_oe K ss c in
      let ck := pos + 9 + len bp + len bc in
      let bb := gen_os K ss (ck + 9) (ck :: (pos + 9) :: cps) b in
      op O_BR_8 ++ enc8 (len bp) ++ bp ++ bc ++ op O_BRF_8 ++ enc8 (len bb + 9) ++ bb ++ back (ck + 9 + len bb) (pos + 9)
  | OForIn x e b =>
      let be := gen_oe K ([] :: ss) e in
      let ss' := decl ([] :: ss) x false in
      let st := pos + len be + 2 in
      let ck := st + 1 in
      let bx := store_code K ss' x in
      let bb := gen_os K ss' (ck + 9 + len bx) (ck :: st :: cps) b in
      be ++ op O_INITFOR ++ op O_END ++ op O_ITER_1 ++ op O_BRF_8 ++ enc8 (len bx + len bb + 9) ++ bx ++ bb
         ++ back (ck + 9 + len bx + len bb) st ++ op O_ENDFOR ++ op O_POP
  | OBreak => op O_BCONST_F ++ back (pos + 1) (brk cps)
  | OContinue => back pos (cont cps)
  | OEcho e => gen_oe K ss e ++ op O_ECHO ++ [scope_len ss mod 256]
  | OAssert e => gen_oe K ss e ++ op O_ASS
  end.
Fixpoint ok_os (G : scope) (ss : list scope) (lp : bool) (s : ostmt) : bool :=
  match s with
  | OSkip => true
  | OSeq a b => ok_os G ss lp a && ok_os G (after_o ss a) lp b
  | OExpr e => ok_oe G ss e
  | OLet _ x e => fresh ss x && ok_oe G ss e && room ss
  | OAssign x e => ok_oe G ss e && writable G ss x
  | OSet c k v => ok_oe G ss c && ok_oe G ss k && ok_oe G ss v
  | OBlock b => ok_os G ([] :: ss) lp b
  | OIf c a => ok_oe G ss c && ok_os G ss lp a
  | OIfElse c a b => ok_oe G ss c && ok_os G ss lp a && ok_os G ss lp b
  | OWhile c b => ok_oe G ss c && ok_os G ss (if o_falsey c then lp else true) b
  | OWhilePost c b post => ok_oe G ss c && ok_os G ss (if o_falsey c then lp else true) b && ok_os G ss lp post
  | OForIn x e b => ok_oe G ([] :: ss) e && room ss && ok_os G (decl ([] :: ss) x false) true b
  | OBreak | OContinue => lp
  | OEcho e | OAssert e => ok_oe G ss e
  end.
Fixpoint lits_os (s : ostmt) : list value :=
  match s with
  | OSeq a b => lits_os a ++ lits_os b
  | OExpr e => if quiet_o e then [] else lits_oe e
  | OLet _ _ e | OAssign _ e | OEcho e | OAssert e => lits_oe e
  | OSet c k v => lits_oe c ++ lits_oe k ++ lits_oe v
  | OBlock b => lits_os b
  | OIf c a => if o_truthy c || o_falsey c then lits_os a else lits_oe c ++ lits_os a
  | OIfElse c a b => if o_truthy c || o_falsey c then lits_os a ++ lits_os b else lits_oe c ++ lits_os a ++ lits_os b
  | OWhile c b => if o_falsey c then lits_os b else lits_oe c ++ lits_os b
  | OWhilePost c b post => if o_falsey c then lits_os b ++ lits_os post else lits_os post ++ lits_oe c ++ lits_os b
  | OForIn _ e b => lits_oe e ++ lits_os b
  | _ => []
  end.
(** [parsed_o] without the conditions on expressions *)
Fixpoint shaped (s : ostmt) : bool :=
  match s with
  | OSeq a b => shaped a && shaped b
  | OBlock b => shaped b
  | OIf _ a | OWhile _ a | OForIn _ _ a => shaped a && no_decls_o a
  | OIfElse _ a b => shaped a && no_decls_o a && shaped b && no_decls_o b
  | OWhilePost _ b p => shaped b && no_decls_o b && shaped p && assigns_o p
  | _ => true
  end.
Lemma assigns_none s : assigns_o s = true -> no_decls_o s = true.
Proof. destruct s; (reflexivity || discriminate). Qed.
Lemma parsed_shaped s : parsed_o s = true -> shaped s = true.
Proof.
  induction s; cbn [parsed_o shaped]; intros W; try reflexivity; repeat match goal with H : _ && _ = true |- _ => apply andb_true_iff in H; destruct H end;
    repeat (apply andb_true_iff; split); auto.
Qed.
Lemma lits_os_incl s : incl (lits_os s) (literals_o s).
Proof.
  induction s; cbn [lits_os literals_o]; repeat match goal with |- context [if ?b then _ else _] => destruct b end;
    repeat (apply incl_app); try apply incl_nil_l; try apply incl_refl;
    repeat match goal with
    | |- incl ?a (?b ++ ?c) => first [apply incl_appl; solve [auto using incl_refl]|apply incl_appr]
    end; auto using incl_refl.
Qed.
Lemma after_shape_o s : forall t r, exists u, after_o (t :: r) s = u :: r /\ length u = (length t + decls_o s)%nat /\ (decls_o s = O -> u = t).
Proof.
  induction s; intros t r; cbn [after_o decls_o]; try (exists t; split; [reflexivity|split; [lia|auto]]; fail).
  - destruct (IHs1 t r) as (u & E & L & Q). rewrite E. destruct (IHs2 u r) as (v & E2 & L2 & Q2). exists v. split; [exact E2|]. split; [lia|].
    intros Z. rewrite Q2, Q by lia. reflexivity.
  - eexists. split; [reflexivity|]. cbn. split; [lia|discriminate].
Qed.
Lemma after_none_o s ss : ss <> [] -> no_decls_o s = true -> after_o ss s = ss.
Proof.
  intros N H. destruct ss as [|t r]; [congruence|]. destruct (after_shape_o s t r) as (u & E & _ & Q). rewrite E, Q; [reflexivity|]. apply Nat.eqb_eq, H.
Qed.
Lemma after_nonempty_o s ss : ss <> [] -> after_o ss s <> [].
Proof. intros N. destruct ss as [|t r]; [congruence|]. destruct (after_shape_o s t r) as (u & E & _). rewrite E. discriminate. Qed.
Ltac lstep := assumption || (multimatch goal with R : ran _ _ ?a ?b _ _ |- incl _ ?b => tryif constr_eq a b then fail else (apply (incl_step _ _ _ _ _ _ _ R); lstep) end).
Ltac lits_os2 := cbn [lits_os quiet_o]; repeat (match goal with |- context [if ?b then _ else _] => match goal with H : b = _ |- _ => rewrite H end | H : ?b = _ |- context [if ?b || _ then _ else _] => rewrite H end; cbn [orb]); first [solve [lstep]|idtac];
  repeat (apply incl_app); solve [apply incl_nil_l | lstep].

Section F.
Variable fuel : nat.
Lemma gl_mono c c1 c2 cs cs1 cs2 s1 s2 g1 g2 : ran c c1 cs cs1 s1 g1 -> ran c1 c2 cs1 cs2 s2 g2 -> gl_in (c_globals c) cs -> gl_in (c_globals c) cs2.
Proof. intros R1 R2 G. pose proof (ran_gl_in _ _ _ _ _ _ R2 (ran_gl_in _ _ _ _ _ _ R1 G)) as Q. rewrite (ran_gl _ _ _ _ _ _ R2), (ran_gl _ _ _ _ _ _ R1) in Q. exact Q. Qed.
Lemma visit_os_gen s : forall c c' cs, visit_os fuel s c = Ok c' -> c_scopes c <> [] -> pooled (c_pool c) cs -> gl_in (c_globals c) cs ->
  Forall literal (lits_os s) -> shaped s = true ->
  ok_os (c_globals c) (c_scopes c) (in_loop c) s = true /\
  exists cs', ran c c' cs cs' (after_o (c_scopes c) s) (fun K => gen_os K (c_scopes c) (count c) (c_cps c) s) /\ incl (lits_os s) cs'.
Proof.
  induction s as [|a IHa b IHb|e|k x e|x e|l k v|b IHb|cd a IHa|cd a IHa b IHb|cd b IHb|cd b IHb post IHp|x e b IHb| | |e|e];
    intros c c' cs E N P G L W; cbn [visit_os] in E.
  - (* skip *) injection E as <-. split; [reflexivity|]. exists cs. split; [|lits_os2]. apply ran_refl, P.
  - (* seq *) cbn [lits_os shaped] in L, W. apply Forall_app in L. destruct L as (L1 & L2). apply andb_true_iff in W. destruct W as (W1 & W2). inv_bind E.
    destruct (IHa _ _ _ E0 N P G L1 W1) as (A & cs1 & R1 & I1).
    destruct (IHb _ _ cs1 E) as (B & cs2 & R2 & I2); [rewrite (ran_scopes _ _ _ _ _ _ R1); apply after_nonempty_o, N|apply R1|apply (ran_gl_in _ _ _ _ _ _ R1 G)|exact L2|exact W2|].
    rewrite (ran_scopes _ _ _ _ _ _ R1), (ran_gl _ _ _ _ _ _ R1), (ran_in_loop _ _ _ _ _ _ R1), (ran_cps _ _ _ _ _ _ R1) in *.
    cbn [ok_os]. rewrite A, B. split; [reflexivity|]. exists cs2. split; [|lits_os2]. cbn [after_o]. eapply ran_ext; [eapply ran_trans; [exact R1|exact R2]|].
    intros K HK. cbn beta. cbn [gen_os]. rewrite (ran_count _ _ _ _ _ _ K R1 (ran_extends _ _ _ _ _ _ _ R2 HK)). reflexivity.
  - (* expression *) cbn [ok_os after_o gen_os]. cbn [lits_os] in L.
    destruct e; cbn [quiet_o ok_oe] in *; try (injection E as <-; split; [reflexivity|exists cs; split; [apply ran_refl, P|lits_os2]]).
    2-9: inv_bind E; injection E as <-; destruct (proj1 (visit_oe_gen fuel) _ _ _ _ E0 P G L) as (A & cs1 & R1 & I1); split; [exact A|]; exists cs1; (split; [|lits_os2]); eapply ran_trans; [exact R1|apply ran_emit; apply R1].
    destruct (validate_inv _ _ _ E) as (c1 & E1 & ->). destruct (proj1 (visit_oe_gen fuel) _ _ _ _ E1 P G (Forall_nil _)) as (A & cs1 & R1 & I1). split; [exact A|]. exists cs1. split; [|lits_os2].
    apply (ran_validate _ _ _ _ _ _ R1).
  - (* let *) inv_bind E. cbn [lits_os] in L. destruct (proj1 (visit_oe_gen fuel) _ _ _ _ E0 P G L) as (A & cs1 & R1 & I1). pose proof (ran_scopes _ _ _ _ _ _ R1) as S1.
    destruct (in_current c0 x) eqn:F; [discriminate|]. apply fresh_current in F; [|congruence]. inv_bind E.
    destruct (decl_var_gen _ _ _ _ E1) as (-> & Rm); [congruence|congruence|]. cbn [set_scopes c_scopes] in E.
    destruct (decl (c_scopes c0) x false) as [|t r] eqn:D; [exfalso; apply (decl_nonempty (c_scopes c0) x false ltac:(congruence)), D|]. cbn [bind] in E. rewrite <- D in E.
    change (CS (c_buf c0) (decl (c_scopes c0) x false) (c_globals c0) (c_pool c0) (c_cps c0)) with (set_scopes c0 (decl (c_scopes c0) x false)) in E.
    rewrite make_const_decl in E by congruence. assert (E' : c' = set_scopes c0 (decl (c_scopes c0) x k)) by (destruct k; injection E as <-; reflexivity). subst c'.
    rewrite S1 in *. cbn [ok_os after_o gen_os]. rewrite F, A, Rm. split; [reflexivity|]. exists cs1. split; [|lits_os2].
    eapply ran_ext; [eapply ran_trans; [exact R1|apply (ran_scope c0), R1]|]. intros; apply app_nil_r.
  - (* assign *) destruct (contains_var c x); [|discriminate]. inv_bind E. cbn [lits_os] in L. destruct (proj1 (visit_oe_gen fuel) _ _ _ _ E0 P G L) as (A & cs1 & R1 & I1).
    destruct (store_var_gen fuel _ _ _ cs1 E) as (B & R2); [apply R1|apply (ran_gl_in _ _ _ _ _ _ R1 G)|].
    rewrite (ran_scopes _ _ _ _ _ _ R1), (ran_gl _ _ _ _ _ _ R1) in *. cbn [ok_os after_o gen_os]. rewrite A, B. split; [reflexivity|]. exists cs1. split; [|lits_os2]. eapply ran_trans; [exact R1|exact R2].
  - (* set *) cbn [lits_os] in L. apply Forall_app in L. destruct L as (L1 & L). apply Forall_app in L. destruct L as (L2 & L3). inv_bind E. inv_bind E. inv_bind E. injection E as <-.
    destruct (proj1 (visit_oe_gen fuel) _ _ _ _ E0 P G L1) as (A & cs1 & R1 & I1).
    destruct (proj1 (visit_oe_gen fuel) _ _ _ cs1 E1) as (B & cs2 & R2 & I2); [apply R1|apply (ran_gl_in _ _ _ _ _ _ R1 G)|exact L2|].
    rewrite (ran_scopes _ _ _ _ _ _ R1), (ran_gl _ _ _ _ _ _ R1) in *.
    destruct (proj1 (visit_oe_gen fuel) _ _ _ cs2 E2) as (D & cs3 & R3 & I3); [apply R2|rewrite (ran_gl _ _ _ _ _ _ R2), (ran_gl _ _ _ _ _ _ R1); eapply gl_mono; [exact R1|exact R2|exact G]|exact L3|].
    rewrite (ran_scopes _ _ _ _ _ _ R2), (ran_gl _ _ _ _ _ _ R2) in *. rewrite (ran_gl _ _ _ _ _ _ R1) in *.
    cbn [ok_os after_o gen_os]. rewrite A, B, D. split; [reflexivity|]. exists cs3. split; [|lits_os2]. eapply ran_trans; [exact R1|]. eapply ran_trans; [exact R2|]. eapply ran_trans; [exact R3|]. apply ran_emit; apply R3.
  - (* block *) inv_bind E. injection E as <-. cbn [lits_os shaped] in L, W.
    destruct (IHb _ _ cs E0) as (B & cs1 & R1 & I1); [discriminate|exact P|exact G|exact L|exact W|].
    cbn [enter_scope set_scopes c_scopes c_globals] in B, R1. change (in_loop (enter_scope c)) with (in_loop c) in B.
    cbn [ok_os after_o gen_os]. rewrite B. split; [reflexivity|]. exists cs1. split; [|lits_os2]. destruct (after_shape_o b [] (c_scopes c)) as (u & Eu & _). assert (Eu' : after_o (c_scopes (enter_scope c)) b = u :: c_scopes c) by exact Eu. cbn [enter_scope set_scopes c_scopes] in Eu'. rewrite Eu' in R1.
    pose proof (ran_scopes _ _ _ _ _ _ R1) as S1. unfold exit_scope. rewrite S1. 
    destruct R1 as (X1 & X2 & X3 & X4 & X5 & X6). repeat (split; [assumption || reflexivity|]). intros K HK. cbn [emit set_buf set_scopes c_buf]. rewrite (X6 K HK), Eu'. rewrite <- app_assoc. reflexivity.
  - (* if *) cbn [lits_os shaped] in L, W. apply andb_true_iff in W. destruct W as (W1 & W2). cbn [ok_os after_o gen_os]. destruct (o_truthy cd) eqn:T.
    + destruct (IHa _ _ _ E N P G L W1) as (A & cs1 & R1 & I1). rewrite A. rewrite (after_none_o a) in R1 by assumption. split; [destruct cd; try discriminate; reflexivity|]. exists cs1. split; [|lits_os2]. exact R1.
    + destruct (o_falsey cd) eqn:Fl.
      * cbn [orb] in L. destruct (validate_inv _ _ _ E) as (c1 & E1 & ->). destruct (IHa _ _ _ E1 N P G L W1) as (A & cs1 & R1 & I1). rewrite A.
        rewrite (after_none_o a) in R1 by assumption. split; [destruct cd; try discriminate; reflexivity|]. exists cs1. split; [|lits_os2]. apply (ran_validate _ _ _ _ _ _ R1).
      * cbn [orb] in L. apply Forall_app in L. destruct L as (L1 & L2). inv_bind E. cbn [enter_jmp] in E. inv_bind E. injection E as <-.
        destruct (proj1 (visit_oe_gen fuel) _ _ _ _ E0 P G L1) as (A & cs1 & R1 & I1).
        destruct (IHa _ _ cs1 E1) as (B & cs2 & R2 & I2); [cbn; rewrite (ran_scopes _ _ _ _ _ _ R1); exact N|apply R1|apply (ran_gl_in _ _ _ _ _ _ R1 G)|exact L2|exact W1|].
        rewrite !count_emit, len_op, len_enc8 in R2. cbn [emit set_buf c_scopes c_globals c_cps] in B, R2.
        change (in_loop (emit (emit c0 (op O_BRF_8)) (enc8 0))) with (in_loop c0) in B.
        rewrite (ran_scopes _ _ _ _ _ _ R1), (ran_gl _ _ _ _ _ _ R1), (ran_in_loop _ _ _ _ _ _ R1), (ran_cps _ _ _ _ _ _ R1) in *.
        rewrite (after_none_o a) in R2 by assumption. rewrite A, B. split; [reflexivity|]. exists cs2. split; [|lits_os2].
        eapply ran_ext; [eapply ran_trans; [exact R1|eapply ran_jump; [reflexivity|exact R2]]|].
        intros K HK. cbn beta. rewrite (ran_count _ _ _ _ _ _ K R1 (ran_extends _ _ _ _ _ _ _ R2 HK)).
        replace (count c + len (gen_oe K (c_scopes c) cd) + 1 + 8) with (count c + len (gen_oe K (c_scopes c) cd) + 9) by lia. reflexivity.
  - (* if else *) cbn [lits_os shaped] in L, W. apply andb_true_iff in W. destruct W as (W & W4). apply andb_true_iff in W. destruct W as (W & W3). apply andb_true_iff in W. destruct W as (W1 & W2).
    cbn [ok_os after_o gen_os]. destruct (o_truthy cd) eqn:T.
    + cbn [orb] in L. apply Forall_app in L. destruct L as (L1 & L2). inv_bind E. destruct (IHa _ _ _ E0 N P G L1 W1) as (A & cs1 & R1 & I1). rewrite (after_none_o a) in R1 by assumption.
      destruct (validate_inv _ _ _ E) as (c1 & E1 & ->).
      destruct (IHb _ _ cs1 E1) as (B & cs2 & R2 & I2); [rewrite (ran_scopes _ _ _ _ _ _ R1); exact N|apply R1|apply (ran_gl_in _ _ _ _ _ _ R1 G)|exact L2|exact W3|].
      rewrite (ran_scopes _ _ _ _ _ _ R1), (ran_gl _ _ _ _ _ _ R1), (ran_in_loop _ _ _ _ _ _ R1), (ran_cps _ _ _ _ _ _ R1) in *. rewrite (after_none_o b) in R2 by assumption.
      rewrite A, B. split; [destruct cd; try discriminate; reflexivity|]. exists cs2. split; [|lits_os2]. eapply ran_ext; [eapply ran_trans; [exact R1|apply (ran_validate _ _ _ _ _ _ R2)]|]. intros; apply app_nil_r.
    + destruct (o_falsey cd) eqn:Fl.
      * cbn [orb] in L. apply Forall_app in L. destruct L as (L1 & L2). inv_bind E. destruct (validate_inv _ _ _ E0) as (c1 & E1 & ->).
        destruct (IHa _ _ _ E1 N P G L1 W1) as (A & cs1 & R1 & I1). rewrite (after_none_o a) in R1 by assumption. pose proof (ran_validate _ _ _ _ _ _ R1) as R1'.
        destruct (IHb _ _ cs1 E) as (B & cs2 & R2 & I2); [rewrite (ran_scopes _ _ _ _ _ _ R1'); exact N|apply R1'|apply (ran_gl_in _ _ _ _ _ _ R1' G)|exact L2|exact W3|].
        rewrite (ran_scopes _ _ _ _ _ _ R1'), (ran_gl _ _ _ _ _ _ R1'), (ran_in_loop _ _ _ _ _ _ R1'), (ran_cps _ _ _ _ _ _ R1') in *. rewrite (after_none_o b) in R2 by assumption.
        rewrite A, B. split; [destruct cd; try discriminate; reflexivity|]. exists cs2. split; [|lits_os2]. eapply ran_ext; [eapply ran_trans; [exact R1'|exact R2]|]. intros K HK. cbn beta. cbn [app].
        reflexivity.
      * cbn [orb] in L. apply Forall_app in L. destruct L as (L1 & L2). apply Forall_app in L2. destruct L2 as (L2 & L3). inv_bind E. cbn [enter_jmp] in E. inv_bind E. inv_bind E. injection E as <-.
        destruct (proj1 (visit_oe_gen fuel) _ _ _ _ E0 P G L1) as (A & cs1 & R1 & I1).
        destruct (IHa _ _ cs1 E1) as (B & cs2 & R2 & I2); [cbn; rewrite (ran_scopes _ _ _ _ _ _ R1); exact N|apply R1|apply (ran_gl_in _ _ _ _ _ _ R1 G)|exact L2|exact W1|].
        rewrite !count_emit, len_op, len_enc8 in R2. cbn [emit set_buf c_scopes c_globals c_cps] in B, R2.
        change (in_loop (emit (emit c0 (op O_BRF_8)) (enc8 0))) with (in_loop c0) in B.
        rewrite (ran_scopes _ _ _ _ _ _ R1), (ran_gl _ _ _ _ _ _ R1), (ran_in_loop _ _ _ _ _ _ R1), (ran_cps _ _ _ _ _ _ R1) in *.
        rewrite (after_none_o a) in R2 by assumption.
        set (ga := fun K => gen_os K (c_scopes c) (count c0 + 1 + 8) (c_cps c) a) in *.
        assert (J : ran c0 (exit_jmp (emit (emit c1 (op O_BR_8)) (enc8 0)) (count (emit c0 (op O_BRF_8)))) cs1 cs2 (c_scopes c)
          (fun K => op O_BRF_8 ++ enc8 (len (ga K ++ op O_BR_8 ++ enc8 0)) ++ ga K ++ op O_BR_8 ++ enc8 0)).
        { eapply ran_jump; [reflexivity|]. eapply ran_trans; [exact R2|]. destruct R2 as (X1 & X2 & X3 & X4 & X5 & X6). split; [exact X1|]. split; [exists []; rewrite app_nil_r; reflexivity|].
          split; [exact X3|]. do 2 (split; [reflexivity|]). intros K _. cbn [emit c_buf set_buf]. rewrite <- app_assoc. reflexivity. }
        destruct (IHb _ _ cs2 E2) as (D & cs3 & R3 & I3); [rewrite (ran_scopes _ _ _ _ _ _ J); exact N|apply J|eapply ran_gl_in; [exact J|apply (ran_gl_in _ _ _ _ _ _ R1 G)]|exact L3|exact W3|].
        pose proof (ran_ifelse _ _ _ _ _ _ _ _ _ _ _ _ R2 R3) as J2.
        rewrite (ran_scopes _ _ _ _ _ _ J), (ran_gl _ _ _ _ _ _ J), (ran_in_loop _ _ _ _ _ _ J), (ran_cps _ _ _ _ _ _ J) in *.
        rewrite (ran_gl _ _ _ _ _ _ R1), (ran_in_loop _ _ _ _ _ _ R1), (ran_cps _ _ _ _ _ _ R1) in *. rewrite (after_none_o b) in * by assumption.
        rewrite A, B, D. split; [reflexivity|]. exists cs3. split; [|lits_os2].
        eapply ran_ext; [eapply ran_trans; [exact R1|exact J2]|].
        intros K HK. cbn beta. pose proof (ran_extends _ _ _ _ _ _ _ R3 HK) as HK2.
        rewrite (ran_count _ _ _ _ _ _ K J HK2). unfold ga. rewrite (ran_count _ _ _ _ _ _ K R1 (ran_extends _ _ _ _ _ _ _ R2 HK2)).
        replace (count c + len (gen_oe K (c_scopes c) cd) + 1 + 8) with (count c + len (gen_oe K (c_scopes c) cd) + 9) by lia.
        set (ba := gen_os K (c_scopes c) (count c + len (gen_oe K (c_scopes c) cd) + 9) (c_cps c) a).
        replace (count c + len (gen_oe K (c_scopes c) cd) + len (op O_BRF_8 ++ enc8 (len (ba ++ op O_BR_8 ++ enc8 0)) ++ ba ++ op O_BR_8 ++ enc8 0)) with (count c + len (gen_oe K (c_scopes c) cd) + 9 + len ba + 9); [reflexivity|].
        repeat rewrite len_app. repeat rewrite len_op. repeat rewrite len_enc8. lia.
  - (* while *) cbn [lits_os shaped] in L, W. apply andb_true_iff in W. destruct W as (W1 & W2). cbn [ok_os after_o gen_os]. destruct (o_falsey cd) eqn:Fl.
    + destruct (validate_inv _ _ _ E) as (c1 & E1 & ->). destruct (IHb _ _ _ E1 N P G L W1) as (A & cs1 & R1 & I1). rewrite A.
      rewrite (after_none_o b) in R1 by assumption. split; [destruct cd; try discriminate; reflexivity|]. exists cs1. split; [|lits_os2]. apply (ran_validate _ _ _ _ _ _ R1).
    + apply Forall_app in L. destruct L as (L1 & L2). inv_bind E. cbn [enter_jmp] in E. inv_bind E. injection E as <-.
      destruct (proj1 (visit_oe_gen fuel) _ _ _ cs E0 P G L1) as (A & cs1 & R1 & I1). cbn [set_cps c_scopes c_globals] in A, R1.
      pose proof (ran_cps _ _ _ _ _ _ R1) as K1. cbn [set_cps c_cps] in K1. pose proof (ran_scopes _ _ _ _ _ _ R1) as S1. pose proof (ran_gl _ _ _ _ _ _ R1) as G1. cbn [c_globals] in G1.
      set (d := set_cps c0 (count c0 :: c_cps c0)) in *.
      destruct (IHb _ _ cs1 E1) as (B & cs2 & R2 & I2); [cbn; rewrite S1; exact N|apply R1|apply (ran_gl_in _ _ _ _ _ _ R1 G)|exact L2|exact W1|].
      rewrite !count_emit, len_op, len_enc8 in R2. 
      assert (B' : ok_os (c_globals c0) (c_scopes c0) true b = true) by exact B. clear B. rename B' into B.
      assert (R2' : ran (emit (emit d (op O_BRF_8)) (enc8 0)) c1 cs1 cs2 (after_o (c_scopes c0) b) (fun K => gen_os K (c_scopes c0) (count c0 + 1 + 8) (count c0 :: c_cps c0) b)) by exact R2. clear R2. rename R2' into R2.
      cbn [set_cps c_globals] in G1. rewrite S1, G1 in B. rewrite S1, K1 in R2. rewrite (after_none_o b) in R2 by assumption. rewrite A, B. split; [reflexivity|]. exists cs2. split; [|lits_os2].
      pose proof (ran_back c1 cs2 (c_scopes c) (count c) (ran_pool _ _ _ _ _ _ R2) (ran_scopes _ _ _ _ _ _ R2)) as R3.
      pose proof (ran_jump _ _ _ _ _ _ _ _ eq_refl (ran_trans _ _ _ _ _ _ _ _ _ _ R2 R3)) as R4.
      unfold d in R4 at 1. destruct (ran_cps_in _ _ _ _ _ _ _ R4) as (R5 & K5).
      destruct (ran_cps_in _ _ _ _ _ _ _ (ran_trans _ _ _ _ _ _ _ _ _ _ R1 R5)) as (R6 & _).
      change (c_cps d) with (count c0 :: c_cps c0) in K5. assert (K5' : c_cps c1 = count c0 :: c_cps c0) by exact K5. rewrite K5', K1. cbn [tl].
      eapply ran_ext; [exact R6|]. intros K HK. cbn beta. pose proof (ran_extends _ _ _ _ _ _ _ R4 HK) as HK1.
      rewrite (ran_count _ _ _ _ _ _ K R2 HK). rewrite !count_emit, len_op, len_enc8. change (count d) with (count c0). rewrite (ran_count _ _ _ _ _ _ K R1 HK1).
      change (count (set_cps c (count c :: c_cps c))) with (count c).
      replace (count c + len (gen_oe K (c_scopes c) cd) + 1 + 8) with (count c + len (gen_oe K (c_scopes c) cd) + 9) by lia. rewrite len_app, len_back. reflexivity.
  - (* while with post *) cbn [lits_os shaped] in L, W. apply andb_true_iff in W. destruct W as (W & W4). apply assigns_none in W4. apply andb_true_iff in W. destruct W as (W & W3). apply andb_true_iff in W. destruct W as (W1 & W2).
    cbn [ok_os after_o gen_os]. destruct (o_falsey cd) eqn:Fl.
    + apply Forall_app in L. destruct L as (L1 & L2). inv_bind E. destruct (validate_inv _ _ _ E0) as (c1 & E1 & ->).
      destruct (IHb _ _ _ E1 N P G L1 W1) as (A & cs1 & R1 & I1). rewrite (after_none_o b) in R1 by assumption. pose proof (ran_validate _ _ _ _ _ _ R1) as R1'.
      destruct (validate_inv _ _ _ E) as (c2 & E2 & ->).
      destruct (IHp _ _ cs1 E2) as (B & cs2 & R2 & I2); [rewrite (ran_scopes _ _ _ _ _ _ R1'); exact N|apply R1'|apply (ran_gl_in _ _ _ _ _ _ R1' G)|exact L2|exact W3|].
      rewrite (ran_scopes _ _ _ _ _ _ R1'), (ran_gl _ _ _ _ _ _ R1'), (ran_in_loop _ _ _ _ _ _ R1') in *. rewrite (after_none_o post) in R2 by assumption.
      rewrite A, B. split; [destruct cd; try discriminate; reflexivity|]. exists cs2. split; [|lits_os2]. eapply ran_ext; [eapply ran_trans; [exact R1'|apply (ran_validate _ _ _ _ _ _ R2)]|]. reflexivity.
    + apply Forall_app in L. destruct L as (L0 & L). apply Forall_app in L. destruct L as (L1 & L2). cbn [enter_jmp] in E. inv_bind E. inv_bind E. inv_bind E. injection E as <-.
      (* post *)
      destruct (IHp _ _ cs E0) as (Q & cs0 & R0 & I0); [exact N|exact P|exact G|exact L0|exact W3|].
      rewrite !count_emit, len_op, len_enc8 in R0. cbn [emit set_buf c_scopes c_globals c_cps] in Q, R0. change (in_loop (emit (emit c (op O_BR_8)) (enc8 0))) with (in_loop c) in Q.
      rewrite (after_none_o post) in R0 by assumption. pose proof (ran_jump _ _ _ _ _ _ _ _ eq_refl R0) as J0.
      set (c3 := exit_jmp c0 (count (emit c (op O_BR_8)))) in *. pose proof (ran_scopes _ _ _ _ _ _ J0) as S0. pose proof (ran_gl _ _ _ _ _ _ J0) as G0. pose proof (ran_cps _ _ _ _ _ _ J0) as K0.
      replace (count (emit (emit c (op O_BR_8)) (enc8 0))) with (count c + 9) in * by (rewrite !count_emit, len_op, len_enc8; lia). set (st := count c + 9) in *.
      replace (count c + 1 + 8) with st in * by (unfold st; lia).
      (* condition *)
      destruct (proj1 (visit_oe_gen fuel) _ _ _ cs0 E1 ltac:(apply J0)) as (A & cs1 & R1 & I1); [apply (ran_gl_in _ _ _ _ _ _ J0 G)|exact L1|]. cbn [set_cps c_scopes c_globals] in A, R1.
      pose proof (ran_cps _ _ _ _ _ _ R1) as K1. cbn [set_cps c_cps] in K1. pose proof (ran_scopes _ _ _ _ _ _ R1) as S1. pose proof (ran_gl _ _ _ _ _ _ R1) as G1. cbn [c_globals] in G1.
      assert (GI1 : gl_in (c_globals c1) cs1) by exact (ran_gl_in _ _ _ _ _ _ R1 (ran_gl_in _ _ _ _ _ _ J0 G)).
      rewrite S0 in *. rewrite G0 in *. rewrite K0 in *.
      set (d := set_cps c1 (count c1 :: c_cps c1)) in *.
      destruct (IHb _ _ cs1 E2) as (B & cs2 & R2 & I2); [cbn; rewrite S1; exact N|apply R1|exact GI1|exact L2|exact W1|].
      rewrite !count_emit, len_op, len_enc8 in R2. 
      assert (B' : ok_os (c_globals c1) (c_scopes c1) true b = true) by exact B. clear B. rename B' into B.
      assert (R2' : ran (emit (emit d (op O_BRF_8)) (enc8 0)) c2 cs1 cs2 (after_o (c_scopes c1) b) (fun K => gen_os K (c_scopes c1) (count c1 + 1 + 8) (count c1 :: c_cps c1) b)) by exact R2. clear R2. rename R2' into R2.
      cbn [set_cps c_globals] in G1. rewrite S1, G1 in B. rewrite S1, K1 in R2. rewrite (after_none_o b) in R2 by assumption. rewrite G0 in B. rewrite A, B, Q. split; [reflexivity|]. exists cs2. split; [|lits_os2].
      pose proof (ran_back c2 cs2 (c_scopes c) st (ran_pool _ _ _ _ _ _ R2) (ran_scopes _ _ _ _ _ _ R2)) as R3.
      pose proof (ran_jump _ _ _ _ _ _ _ _ eq_refl (ran_trans _ _ _ _ _ _ _ _ _ _ R2 R3)) as R4.
      unfold d in R4 at 1. destruct (ran_cps_in _ _ _ _ _ _ _ R4) as (R5 & K5).
      destruct (ran_cps_in _ _ _ _ _ _ _ (ran_trans _ _ _ _ _ _ _ _ _ _ R1 R5)) as (R6 & _).
      assert (K5' : c_cps c2 = count c1 :: c_cps c1) by exact K5. rewrite K5', K1. cbn [tl]. rewrite K0 in R6.
      eapply ran_ext; [eapply ran_trans; [exact J0|exact R6]|]. intros K HK. cbn beta. pose proof (ran_extends _ _ _ _ _ _ _ R4 HK) as HK1.
      rewrite (ran_count _ _ _ _ _ _ K R2 HK). rewrite !count_emit, len_op, len_enc8. change (count d) with (count c1). rewrite (ran_count _ _ _ _ _ _ K R1 HK1).
      change (count (set_cps c3 (st :: c_cps c))) with (count c3). rewrite (ran_count _ _ _ _ _ _ K J0 (ran_extends _ _ _ _ _ _ _ R1 HK1)).
      set (bp := gen_os K (c_scopes c) st (c_cps c) post).
      replace (count c + len (op O_BR_8 ++ enc8 (len bp) ++ bp)) with (st + len bp) by (rewrite !len_app, len_op, len_enc8; unfold st; lia).
      replace (st + len bp + len (gen_oe K (c_scopes c) cd) + 1 + 8) with (st + len bp + len (gen_oe K (c_scopes c) cd) + 9) by lia. rewrite len_app, len_back. rewrite <- !app_assoc. reflexivity.
  - (* for in *) cbn [lits_os shaped] in L, W. apply andb_true_iff in W. destruct W as (W1 & W2). apply Forall_app in L. destruct L as (L1 & L2). cbn [ok_os after_o gen_os].
    inv_bind E. inv_bind E. cbn [enter_jmp] in E. inv_bind E. inv_bind E. injection E as <-.
    destruct (proj1 (visit_oe_gen fuel) _ _ _ cs E0 P G L1) as (A & cs1 & R1 & I1). cbn [enter_scope set_scopes c_scopes c_globals] in A, R1.
    pose proof (ran_scopes _ _ _ _ _ _ R1) as S1. pose proof (ran_gl _ _ _ _ _ _ R1) as G1. cbn [c_globals] in G1. pose proof (ran_cps _ _ _ _ _ _ R1) as K1. cbn [c_cps] in K1.
    set (e1 := emit c0 (op O_INITFOR ++ op O_END)) in *.
    destruct (decl_var_gen fuel e1 x c1 E1) as (-> & Rm); [unfold e1; cbn [emit set_buf c_scopes]; rewrite S1; discriminate|unfold e1; cbn [emit set_buf c_scopes]; rewrite S1; reflexivity|].
    change (c_scopes e1) with (c_scopes c0) in *. rewrite S1 in *. set (ss' := decl ([] :: c_scopes c) x false) in *.
    set (e2 := set_scopes e1 ss') in *. set (st := count e2) in *.
    set (e3 := emit (set_cps e2 (st :: c_cps e2)) (op O_ITER_1)) in *. set (ck := count e3) in *. set (e4 := set_cps e3 (ck :: c_cps e3)) in *.
    assert (Re : ran (enter_scope c) e2 cs cs1 ss' (fun K => gen_oe K ([] :: c_scopes c) e ++ op O_INITFOR ++ op O_END)).
    { eapply ran_ext; [eapply ran_trans; [eapply ran_trans; [exact R1|apply (ran_emit c0); [apply R1|apply R1]]|apply (ran_scope e1); apply R1]|]. intros; cbn beta; rewrite app_nil_r; reflexivity. }
    assert (GI : gl_in (c_globals c0) cs1) by apply (ran_gl_in _ _ _ _ _ _ R1 G).
    destruct (store_var_gen fuel _ _ _ cs1 E2) as (_ & Rx); [apply R1|exact GI|].
    cbn [emit set_buf c_scopes] in Rx. change (c_scopes e4) with ss' in Rx.
    pose proof (ran_scopes _ _ _ _ _ _ Rx) as Sx. pose proof (ran_gl _ _ _ _ _ _ Rx) as Gx. change (c_globals _) with (c_globals c0) in Gx at 2. pose proof (ran_cps _ _ _ _ _ _ Rx) as Kx.
    change (c_cps _) with (ck :: st :: c_cps c0) in Kx at 2.
    destruct (IHb _ _ cs1 E3) as (B & cs2 & R2 & I2); [rewrite Sx; discriminate|apply Rx|rewrite Gx; exact GI|exact L2|exact W1|].
    assert (IL : in_loop c2 = true) by (unfold in_loop; rewrite Kx; reflexivity). rewrite IL, Sx, Gx, Kx in *. rewrite K1, G1 in *. rewrite (after_none_o b ss') in R2 by (assumption || discriminate).
    replace (room (c_scopes c)) with true by (symmetry; exact Rm). change (ok_os (c_globals c) ss' true b = true) in B. rewrite A, B. split; [reflexivity|]. exists cs2. split; [|lits_os2].
    pose proof (ran_back c3 cs2 ss' st (ran_pool _ _ _ _ _ _ R2) (ran_scopes _ _ _ _ _ _ R2)) as R3.
    pose proof (ran_jump _ _ _ _ _ _ _ _ eq_refl (ran_trans _ _ _ _ _ _ _ _ _ _ (ran_trans _ _ _ _ _ _ _ _ _ _ Rx R2) R3)) as R4.
    set (idx := count (emit e4 (op O_BRF_8))) in *. set (e5 := exit_jmp (branch_back c3 st) idx) in *.
    pose proof (ran_trans _ _ _ _ _ _ _ _ _ _ R4 (ran_emit e5 cs2 ss' (op O_ENDFOR) (ran_pool _ _ _ _ _ _ R4) (ran_scopes _ _ _ _ _ _ R4))) as R5.
    unfold e4 in R5 at 1. destruct (ran_cps_in _ _ _ _ _ _ _ R5) as (R6 & K6).
    assert (Ri : ran (set_cps e2 (st :: c_cps e2)) e3 cs1 cs1 ss' (fun _ => op O_ITER_1)) by (apply ran_emit; [apply Re|apply Re]).
    pose proof (ran_trans _ _ _ _ _ _ _ _ _ _ Ri R6) as R7. destruct (ran_cps_in _ _ _ _ _ _ _ R7) as (R8 & _).
    pose proof (ran_trans _ _ _ _ _ _ _ _ _ _ Re R8) as R9.
    assert (S6 : c_scopes (emit e5 (op O_ENDFOR)) = ss') by apply R5.
    assert (K9 : c_cps (exit_scope (emit e5 (op O_ENDFOR))) = ck :: st :: c_cps c).
    { unfold exit_scope. rewrite S6. cbn [ss' decl emit set_buf set_scopes c_cps]. change (c_cps (emit e5 (op O_ENDFOR))) with (c_cps e5) in K6. rewrite K6. unfold e3, e2, e1. cbn [emit set_buf set_cps set_scopes c_cps]. rewrite K1. reflexivity. }
    match goal with |- ran _ _ _ _ _ ?f => change (ran c (set_cps (exit_scope (emit e5 (op O_ENDFOR))) (tl (tl (c_cps (exit_scope (emit e5 (op O_ENDFOR))))))) cs cs2 (c_scopes c) f) end. rewrite K9. cbn [tl].
    assert (FIN : forall K, extends cs2 K -> c_buf (exit_scope (emit e5 (op O_ENDFOR))) = c_buf c ++ ((gen_oe K ([] :: c_scopes c) e ++ op O_INITFOR ++ op O_END) ++
        op O_ITER_1 ++ (op O_BRF_8 ++ enc8 (len ((store_code K ss' x ++ gen_os K ss' (count c2) (ck :: st :: c_cps c) b) ++ back (count c3) st)) ++ (store_code K ss' x ++ gen_os K ss' (count c2) (ck :: st :: c_cps c) b) ++ back (count c3) st) ++ op O_ENDFOR) ++ op O_POP).
    { intros K HK. unfold exit_scope. rewrite S6. cbn [ss' decl emit set_buf set_scopes c_buf length repeat]. destruct R9 as (_ & _ & _ & _ & _ & R9). specialize (R9 K HK).
      cbn [set_cps c_buf emit set_buf enter_scope set_scopes] in R9. rewrite R9. rewrite <- app_assoc. reflexivity. }
    assert (HH : ran c (set_cps (exit_scope (emit e5 (op O_ENDFOR))) (c_cps c)) cs cs2 (c_scopes c) (fun K => ((gen_oe K ([] :: c_scopes c) e ++ op O_INITFOR ++ op O_END) ++
        op O_ITER_1 ++ (op O_BRF_8 ++ enc8 (len ((store_code K ss' x ++ gen_os K ss' (count c2) (ck :: st :: c_cps c) b) ++ back (count c3) st)) ++ (store_code K ss' x ++ gen_os K ss' (count c2) (ck :: st :: c_cps c) b) ++ back (count c3) st) ++ op O_ENDFOR) ++ op O_POP)).
    { destruct R9 as (Y1 & Y2 & Y3 & Y4 & Y5 & _). unfold exit_scope in *. rewrite S6 in *. cbn [ss' decl emit set_buf set_scopes c_buf length repeat set_cps c_pool c_scopes c_globals c_cps] in *.
      split; [exact Y1|]. split; [exact Y2|]. split; [reflexivity|]. split; [exact Y4|]. split; [reflexivity|]. exact FIN. }
    eapply ran_ext; [exact HH|]. intros K HK. cbn beta.
    pose proof (ran_extends _ _ _ _ _ _ _ R2 HK) as HK1.
    assert (Est : st = count c + len (gen_oe K ([] :: c_scopes c) e) + 2).
    { unfold st. rewrite (ran_count _ _ _ _ _ _ K Re HK1). rewrite !len_app, !len_op. change (count (enter_scope c)) with (count c). lia. }
    assert (Eck : ck = st + 1). { unfold ck, e3. rewrite count_emit, len_op. reflexivity. }
    assert (E2c : count c2 = ck + 9 + len (store_code K ss' x)).
    { rewrite (ran_count _ _ _ _ _ _ K Rx HK1). rewrite !count_emit, len_op, len_enc8. change (count e4) with ck. lia. }
    rewrite (ran_count _ _ _ _ _ _ K R2 HK). rewrite E2c. set (bx := store_code K ss' x) in *. rewrite <- Est. rewrite <- Eck.
    set (bb := gen_os K ss' (ck + 9 + len bx) (ck :: st :: c_cps c) b).
    rewrite !len_app, len_back. rewrite <- !app_assoc. reflexivity.
  - (* break *) cbn [ok_os after_o gen_os]. unfold in_loop. destruct (c_cps c) as [|cp cps]; [discriminate|]. injection E as <-. split; [reflexivity|]. exists cs. split; [|lits_os2].
    eapply ran_ext; [eapply ran_trans; [apply ran_emit; [exact P|reflexivity]|apply ran_back; [exact P|reflexivity]]|]. intros K _. cbn beta. rewrite count_emit, len_op. reflexivity.
  - (* continue *) cbn [ok_os after_o gen_os]. unfold in_loop. destruct (c_cps c) as [|cp [|cp2 cps]]; [discriminate..|]. injection E as <-. split; [reflexivity|]. exists cs. split; [|lits_os2].
    apply ran_back; [exact P|reflexivity].
  - (* echo *) cbn [lits_os] in L. inv_bind E. injection E as <-. destruct (proj1 (visit_oe_gen fuel) _ _ _ _ E0 P G L) as (A & cs1 & R1 & I1). cbn [ok_os after_o gen_os]. split; [exact A|]. exists cs1. split; [|lits_os2].
    rewrite (ran_scopes _ _ _ _ _ _ R1). eapply ran_trans; [exact R1|apply ran_emit; apply R1].
  - (* assert *) cbn [lits_os] in L. inv_bind E. injection E as <-. destruct (proj1 (visit_oe_gen fuel) _ _ _ _ E0 P G L) as (A & cs1 & R1 & I1). cbn [ok_os after_o gen_os]. split; [exact A|]. exists cs1. split; [|lits_os2].
    eapply ran_trans; [exact R1|apply ran_emit; apply R1].
Qed.
End F.
