(** The code a statement compiles to, as a function (proofs only), and that the compiler produces it: expressions. *)
From Verif Require Import Base Bytes BytesProofs Value Table Ops Ast Stmt Constants VM Compiler ValueProofs TableSpec TableProofs TableProofs2 TableProofs3 ConstSpec ConstProofs Gen GenProofs GenProofs2 Obj ObjCompiler.

Fixpoint gen_oe (K : list value) (ss : list scope) (e : oexpr) : list Z :=
  match e with
  | OUndef => op O_NCONST
  | OBool b => op (if b then O_BCONST_T else O_BCONST_F)
  | OInt i => lit_code K (VInt i)
  | OFloat f => lit_code K (VFloat f)
  | OStr s => lit_code K (VStr s)
  | OVar x => load_code K ss x
  | OUn o e1 => gen_oe K ss e1 ++ op (O_UN o)
  | OBin o l r => gen_oe K ss l ++ gen_oe K ss r ++ bop_code o
  | OSc o l r => let br := gen_oe K ss r in gen_oe K ss l ++ op O_DUP ++ op (sc_jump o) ++ enc8 (1 + len br) ++ op O_POP ++ br
  | OTri c a b => let ba := gen_oe K ss a in let bb := gen_oe K ss b in
      gen_oe K ss c ++ op O_BRF_8 ++ enc8 (len ba + 9) ++ ba ++ op O_BR_8 ++ enc8 (len bb) ++ bb
  | OList es => op O_END ++ gen_as K ss es ++ op O_NEWLIST
  | OTable es => op O_END ++ gen_as K ss es ++ op O_NEWTABLE
  | OGet l r => gen_oe K ss l ++ gen_oe K ss r ++ op O_GET
  | OMeth c x es => gen_oe K ss c ++ (op O_INIT_MC ++ [1] ++ enc8 (index_of K (VStr x))) ++ gen_as K ss es ++ op O_CALL
  end
with gen_as (K : list value) (ss : list scope) (es : oargs) : list Z :=
  match es with ANil => [] | ACons e r => gen_oe K ss e ++ gen_as K ss r end.

Fixpoint ok_oe (G : scope) (ss : list scope) (e : oexpr) : bool :=
  match e with
  | OVar x => known G ss x
  | OUn _ e1 => ok_oe G ss e1
  | OBin _ l r | OSc _ l r | OGet l r => ok_oe G ss l && ok_oe G ss r
  | OTri c a b => ok_oe G ss c && ok_oe G ss a && ok_oe G ss b
  | OList es | OTable es => ok_as G ss es
  | OMeth c _ es => ok_oe G ss c && ok_as G ss es
  | _ => true
  end
with ok_as (G : scope) (ss : list scope) (es : oargs) : bool := match es with ANil => true | ACons e r => ok_oe G ss e && ok_as G ss r end.

Scheme oexpr_ind2 := Induction for oexpr Sort Prop with oargs_ind2 := Induction for oargs Sort Prop.
Combined Scheme oexpr_mutind from oexpr_ind2, oargs_ind2.

Ltac inv_bind H :=
  match type of H with
  | bind ?x _ = Ok _ => let c := fresh "c" in let E := fresh "E" in destruct x as [c| | |] eqn:E; [cbn [bind] in H|discriminate H..]
  end.
Ltac lits_o := first [solve [eauto 8 using incl_step]|idtac]; cbn [lits_oe lits_as]; repeat (apply incl_app); try (solve [apply incl_nil_l | eauto 8 using incl_step]).

Section F.
Variable fuel : nat.

Lemma visit_oe_gen :
  (forall e c c' cs, visit_oe fuel e c = Ok c' -> pooled (c_pool c) cs -> gl_in (c_globals c) cs -> Forall literal (lits_oe e) ->
    ok_oe (c_globals c) (c_scopes c) e = true /\ exists cs', ran c c' cs cs' (c_scopes c) (fun K => gen_oe K (c_scopes c) e) /\ incl (lits_oe e) cs') /\
  (forall es c c' cs, visit_as fuel es c = Ok c' -> pooled (c_pool c) cs -> gl_in (c_globals c) cs -> Forall literal (lits_as es) ->
    ok_as (c_globals c) (c_scopes c) es = true /\ exists cs', ran c c' cs cs' (c_scopes c) (fun K => gen_as K (c_scopes c) es) /\ incl (lits_as es) cs').
Proof.
  apply oexpr_mutind.
  - intros c c' cs E P G L; cbn [visit_oe gen_oe ok_oe lits_oe] in *. injection E as <-. split; [reflexivity|]. eexists. split; [apply ran_emit; auto|apply incl_nil_l].
  - intros b c c' cs E P G L; cbn [visit_oe gen_oe ok_oe lits_oe] in *. injection E as <-. split; [reflexivity|]. eexists. split; [apply ran_emit; auto|apply incl_nil_l].
  - intros i c c' cs E P G L; cbn [visit_oe gen_oe ok_oe lits_oe] in *. split; [reflexivity|]. inversion L; subst. eapply lit_gen; eauto.
  - intros f c c' cs E P G L; cbn [visit_oe gen_oe ok_oe lits_oe] in *. split; [reflexivity|]. inversion L; subst. eapply lit_gen; eauto.
  - intros s c c' cs E P G L; cbn [visit_oe gen_oe ok_oe lits_oe] in *. split; [reflexivity|]. inversion L; subst. eapply lit_gen; eauto.
  - intros x c c' cs E P G L; cbn [visit_oe gen_oe ok_oe lits_oe] in *. unfold load_var, load_code, known in *. destruct (scope_get (c_scopes c) x) as [z|].
    + injection E as <-. split; [reflexivity|]. eexists. split; [apply ran_emit; auto|apply incl_nil_l].
    + destruct (assoc (c_globals c) x) as [z|] eqn:A; [|discriminate]. split; [reflexivity|].
      destruct (pool_index fuel c x) as [i| | |] eqn:Q; try discriminate. cbn [bind] in E. injection E as <-.
      pose proof (pool_index_gen _ _ _ _ _ Q P (G _ _ A)) as HI.
      exists cs. split; [|apply incl_nil_l]. split; [exact P|]. split; [exists []; rewrite app_nil_r; reflexivity|]. do 3 (split; [reflexivity|]). intros K (more & ->). cbn [emit c_buf set_buf]. rewrite <- HI. reflexivity.
  - intros o e IH c c' cs E P G L; cbn [visit_oe gen_oe ok_oe lits_oe] in *. inv_bind E. injection E as <-. destruct (IH _ _ _ E0 P G L) as (A & cs1 & R & I). split; [exact A|]. exists cs1. split; [|lits_o].
    eapply ran_trans; [exact R|]. apply ran_emit; apply R.
  - intros o l IHl r IHr c c' cs E P G L; cbn [visit_oe gen_oe ok_oe lits_oe] in *. apply Forall_app in L. destruct L as (L1 & L2). inv_bind E. inv_bind E. injection E as <-.
    destruct (IHl _ _ _ E0 P G L1) as (A & cs1 & R1 & I1). destruct (IHr _ _ _ E1 (ran_pool _ _ _ _ _ _ R1) (ran_gl_in _ _ _ _ _ _ R1 G) L2) as (B & cs2 & R2 & I2).
    rewrite (ran_scopes _ _ _ _ _ _ R1), (ran_gl _ _ _ _ _ _ R1) in *. split; [rewrite A, B; reflexivity|]. exists cs2. split; [|lits_o].
    eapply ran_trans; [exact R1|]. eapply ran_trans; [exact R2|]. apply ran_emit; apply R2.
  - intros o l IHl r IHr c c' cs E P G L; cbn [visit_oe gen_oe ok_oe lits_oe] in *. apply Forall_app in L. destruct L as (L1 & L2). inv_bind E. cbn [enter_jmp] in E. inv_bind E. injection E as <-.
    destruct (IHl _ _ _ E0 P G L1) as (A & cs1 & R1 & I1).
    assert (R1' : ran c (emit c0 (op O_DUP)) cs cs1 (c_scopes c) (fun K => gen_oe K (c_scopes c) l ++ op O_DUP)) by (eapply ran_trans; [exact R1|apply ran_emit; apply R1]).
    set (c2 := emit c0 (op O_DUP)) in *.
    destruct (IHr _ _ cs1 E1) as (B & cs2 & R2 & I2); [apply R1|apply (ran_gl_in _ _ _ _ _ _ R1' G)|exact L2|].
    cbn [emit c_scopes c_globals set_buf] in *. change (c_scopes c0) with (c_scopes c2) in *. change (c_globals c0) with (c_globals c2) in *.
    rewrite (ran_scopes _ _ _ _ _ _ R1') in *. rewrite (ran_gl _ _ _ _ _ _ R1') in *. split; [rewrite A, B; reflexivity|]. exists cs2. split; [|lits_o].
    eapply ran_ext; [eapply ran_trans; [exact R1'|]|].
    + eapply ran_jump; [reflexivity|]. eapply ran_trans; [apply ran_emit with (cs := cs1); [apply R1'|apply R1']|exact R2].
    + intros K _. cbn beta. rewrite <- !app_assoc. unfold len. rewrite app_length. do 4 f_equal. f_equal. cbn [length op]. f_equal. lia.
  - intros a IHa b IHb d IHd c c' cs E P G L; cbn [visit_oe gen_oe ok_oe lits_oe] in *. apply Forall_app in L. destruct L as (L1 & L2). apply Forall_app in L2. destruct L2 as (L2 & L3).
    inv_bind E. cbn [enter_jmp] in E. inv_bind E. inv_bind E. injection E as <-.
    destruct (IHa _ _ _ E0 P G L1) as (A & cs1 & R1 & I1).
    destruct (IHb _ _ cs1 E1) as (B & cs2 & R2 & I2); [apply R1|apply (ran_gl_in _ _ _ _ _ _ R1 G)|exact L2|]. cbn [emit c_scopes c_globals set_buf] in R2, B.
    assert (J : ran c0 (exit_jmp (emit (emit c1 (op O_BR_8)) (enc8 0)) (count (emit c0 (op O_BRF_8)))) cs1 cs2 (c_scopes c0)
        (fun K => op O_BRF_8 ++ enc8 (len (gen_oe K (c_scopes c0) b ++ op O_BR_8 ++ enc8 0)) ++ gen_oe K (c_scopes c0) b ++ op O_BR_8 ++ enc8 0)).
    { eapply ran_jump; [reflexivity|]. eapply ran_trans; [exact R2|]. destruct R2 as (X1 & X2 & X3 & X4 & X5 & X6). split; [exact X1|]. split; [exists []; rewrite app_nil_r; reflexivity|].
      split; [exact X3|]. do 2 (split; [reflexivity|]). intros K _. cbn [emit c_buf set_buf]. rewrite <- app_assoc. reflexivity. }
    destruct (IHd _ _ cs2 E2) as (D & cs3 & R3 & I3); [apply J|eapply ran_gl_in; [exact J|apply (ran_gl_in _ _ _ _ _ _ R1 G)]|exact L3|].
    rewrite (ran_scopes _ _ _ _ _ _ J), (ran_gl _ _ _ _ _ _ J) in *.
    pose proof (ran_ifelse _ _ _ _ _ _ _ _ _ _ _ _ R2 R3) as J2.
    rewrite (ran_scopes _ _ _ _ _ _ R1) in *. rewrite (ran_gl _ _ _ _ _ _ R1) in *. split; [rewrite A, B, D; reflexivity|]. exists cs3. split; [|lits_o].
    eapply ran_trans; [exact R1|exact J2].
  - intros es IH c c' cs E P G L; cbn [visit_oe gen_oe ok_oe lits_oe] in *. inv_bind E. injection E as <-. destruct (IH _ _ _ E0 P G L) as (A & cs1 & R & I). split; [exact A|]. exists cs1. split; [|lits_o].
    eapply ran_trans; [apply (ran_emit c cs (c_scopes c) (op O_END)); [exact P|reflexivity]|]. eapply ran_trans; [exact R|]. apply ran_emit; apply R.
  - intros es IH c c' cs E P G L; cbn [visit_oe gen_oe ok_oe lits_oe] in *. inv_bind E. injection E as <-. destruct (IH _ _ _ E0 P G L) as (A & cs1 & R & I). split; [exact A|]. exists cs1. split; [|lits_o].
    eapply ran_trans; [apply (ran_emit c cs (c_scopes c) (op O_END)); [exact P|reflexivity]|]. eapply ran_trans; [exact R|]. apply ran_emit; apply R.
  - intros l IHl r IHr c c' cs E P G L; cbn [visit_oe gen_oe ok_oe lits_oe] in *. apply Forall_app in L. destruct L as (L1 & L2). inv_bind E. inv_bind E. injection E as <-.
    destruct (IHl _ _ _ E0 P G L1) as (A & cs1 & R1 & I1). destruct (IHr _ _ _ E1 (ran_pool _ _ _ _ _ _ R1) (ran_gl_in _ _ _ _ _ _ R1 G) L2) as (B & cs2 & R2 & I2).
    rewrite (ran_scopes _ _ _ _ _ _ R1), (ran_gl _ _ _ _ _ _ R1) in *. split; [rewrite A, B; reflexivity|]. exists cs2. split; [|lits_o].
    eapply ran_trans; [exact R1|]. eapply ran_trans; [exact R2|]. apply ran_emit; apply R2.
  - intros l IHl x es IH c c' cs E P G L; cbn [visit_oe gen_oe ok_oe lits_oe] in *. apply Forall_app in L. destruct L as (L1 & L2). inversion L2 as [|? ? L3 L4]; subst. inv_bind E. inv_bind E. destruct c1 as [i p']. cbn [fst snd] in E. inv_bind E. injection E as <-.
    destruct (IHl _ _ _ E0 P G L1) as (A & cs1 & R1 & I1). destruct (intern_part _ _ _ _ _ _ (ran_pool _ _ _ _ _ _ R1) L3 E1) as (ext & P' & Hin & Hi).
    set (c2 := emit (set_pool c0 p') (op O_INIT_MC ++ [1] ++ enc8 i)) in *.
    assert (R2 : ran c0 c2 cs1 (cs1 ++ ext) (c_scopes c0) (fun K => op O_INIT_MC ++ [1] ++ enc8 (index_of K (VStr x)))).
    { split; [exact P'|]. split; [eauto|]. do 3 (split; [reflexivity|]). intros K (more & ->). unfold c2. cbn [emit c_buf set_buf set_pool]. rewrite <- (Hi more). reflexivity. }
    destruct (IH _ _ _ E2 P' (gl_in_ext _ _ ext (ran_gl_in _ _ _ _ _ _ R1 G)) L4) as (B & cs2 & R3 & I3). unfold c2 in B, R3 at 2 3. cbn [emit c_scopes c_globals set_buf set_pool] in B, R3.
    rewrite (ran_scopes _ _ _ _ _ _ R1), (ran_gl _ _ _ _ _ _ R1) in *. split; [rewrite A, B; reflexivity|]. exists cs2. split.
    + eapply ran_trans; [exact R1|]. eapply ran_trans; [exact R2|]. eapply ran_trans; [exact R3|]. apply ran_emit; apply R3.
    + apply incl_app; [eapply incl_step; [exact R3|]; eapply incl_step; [exact R2|exact I1]|]. apply incl_cons; [|exact I3]. destruct R3 as (_ & (x3 & ->) & _). apply in_or_app. left. exact Hin.
  - intros c c' cs E P G L; cbn [visit_as gen_as ok_as lits_as] in *. injection E as <-. split; [reflexivity|]. exists cs. split; [apply ran_refl, P|apply incl_nil_l].
  - intros e IHe r IHr c c' cs E P G L; cbn [visit_as gen_as ok_as lits_as] in *. inv_bind E. apply Forall_app in L. destruct L as (L1 & L2). destruct (IHe _ _ _ E0 P G L1) as (A & cs1 & R1 & I1).
    destruct (IHr _ _ cs1 E) as (B & cs2 & R2 & I2); [apply R1|apply (ran_gl_in _ _ _ _ _ _ R1 G)|exact L2|].
    rewrite (ran_scopes _ _ _ _ _ _ R1), (ran_gl _ _ _ _ _ _ R1) in *. split; [rewrite A, B; reflexivity|]. exists cs2. split; [|lits_o].
    eapply ran_trans; [exact R1|exact R2].
Qed.
End F.
