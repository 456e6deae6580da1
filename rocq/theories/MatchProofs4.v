From Verif Require Import Base Bytes BytesProofs Value Table Ops Ast Stmt Limits Constants VM Compiler ValueProofs TableSpec ConstSpec ConstProofs Gen GenProofs GenProofs2 SimBase Sim MatchSpec Match MatchProofs MatchProofs2 MatchProofs3.

(** ** The code of the clauses. *)
Definition slot_in (ss : list scope) (x : name) : Z := match scope_get ss x with Some z => get_index z | None => 0 end.
Section Code.
Variable K : list value.
Variable ss : list scope.
Variable cps : list Z.
Definition case_scope (p : pat) : list scope := declp ([] :: ss) (pvars p).
Definition case_mv (p : pat) (g : option expr) : list Z :=
  let nb := Z.of_nat (length (pvars p)) in
  match g with
  | None => if is_nil (pvars p) then op O_POP else op O_INCSP ++ [nb mod 256] ++ op O_DEL_FP ++ [scope_len ss mod 256]
  | Some _ => if is_nil (pvars p) then [] else op O_INCSP ++ [nb mod 256] ++ op O_MOVEUP_FP ++ [scope_len ss mod 256]
  end.
Definition case_glen (p : pat) (g : option expr) : Z := match g with None => 0 | Some g => len (gen_e K (case_scope p) g) + 10 end.
Definition case_body (pos : Z) (p : pat) (g : option expr) (b : stmt) : list Z :=
  gen_s K (case_scope p) (pos + 9 + len (gen_pat K (slot_in (case_scope p)) p) + len (case_mv p g) + case_glen p g) cps b ++ pops (after (case_scope p) b).
Definition case_fin (p : pat) (g : option expr) : list Z := match g with None => [] | Some _ => repeat (op_byte O_POP) (length (pvars p)) end.
Definition case_total (pos : Z) (p : pat) (g : option expr) (b : stmt) (last : bool) : Z :=
  len (gen_pat K (slot_in (case_scope p)) p) + len (case_mv p g) + case_glen p g + len (case_body pos p g b) + (if last then 0 else 9) + len (case_fin p g).
Definition case_guard (pos : Z) (p : pat) (g : option expr) (b : stmt) (last : bool) : list Z :=
  match g with None => [] | Some e => gen_e K (case_scope p) e ++ op O_BRF_8 ++ enc8 (1 + len (case_body pos p g b) + (if last then 0 else 9)) ++ op O_POP end.
Fixpoint gen_cases (pos : Z) (cls : list clause) : list Z :=
  match cls with
  | [] => []
  | (p, g, b) :: rest =>
      let total := case_total pos p g b (is_nil rest) in
      let R := gen_cases (pos + 9 + total) rest in
      let br := if is_nil rest then [] else op O_BR_8 ++ enc8 (len (case_fin p g) + len R) in
      op O_MATCH ++ enc8 total ++ gen_pat K (slot_in (case_scope p)) p ++ case_mv p g ++ case_guard pos p g b (is_nil rest) ++ case_body pos p g b ++ br ++ case_fin p g ++ R
  end.
End Code.

Lemma declp_shape xs : forall t r, exists t', declp (t :: r) xs = t' :: r /\ length t' = (length t + length xs)%nat.
Proof.
  induction xs as [|(x, k) xs IH]; intros t r; [exists t; split; [reflexivity|cbn; lia]|]. cbn [declp fold_left fst snd decl].
  destruct (IH ((x, if k then Z.lnot (scope_len (t :: r)) else scope_len (t :: r)) :: t) r) as (t' & E & L). exists t'. split; [exact E|]. rewrite L. cbn [length]. lia.
Qed.

Lemma case_scope_shape ss p : exists t, case_scope ss p = t :: ss /\ length t = length (pvars p).
Proof. exact (declp_shape (pvars p) [] ss). Qed.
(** Patching a jump whose placeholder was emitted earlier. *)
Lemma ran_patch c c' cs cs' ss o be (X Y : list value -> list Z) : ran c c' cs cs' ss (fun K => X K ++ op o ++ enc8 0 ++ Y K) ->
  (forall K, extends cs' K -> be = count c + len (X K) + 1) ->
  ran c (exit_jmp c' be) cs cs' ss (fun K => X K ++ op o ++ enc8 (len (Y K)) ++ Y K).
Proof.
  intros (A & B & C & D & E & F) H.
  assert (Q : forall K, extends cs' K -> exit_jmp c' be = set_buf c' (c_buf c ++ X K ++ op o ++ enc8 (len (Y K)) ++ Y K)).
  { intros K HK. set (v := set_buf c (c_buf c ++ X K)). replace be with (count (emit v (op o))).
    2:{ rewrite (H K HK). unfold v, count, emit, len. cbn [c_buf set_buf]. rewrite !app_length. cbn [op length]. lia. }
    rewrite (exit_jmp_buf c' v o (Y K)); [unfold v; cbn [c_buf set_buf]; rewrite <- !app_assoc; reflexivity|]. rewrite (F K HK). unfold v. cbn [c_buf set_buf]. rewrite <- !app_assoc. reflexivity. }
  rewrite (Q (cs' ++ []) (ex_intro _ [] eq_refl)). split; [exact A|]. split; [exact B|]. split; [exact C|]. split; [exact D|]. split; [exact E|].
  intros K HK. pose proof (Q K HK) as Q2. rewrite (Q (cs' ++ []) (ex_intro _ [] eq_refl)) in Q2. apply (f_equal c_buf) in Q2. exact Q2.
Qed.
Lemma ran_enter c o cs ss : pooled (c_pool c) cs -> c_scopes c = ss -> ran c (fst (enter_jmp c o)) cs cs ss (fun _ => op o ++ enc8 0).
Proof.
  intros P S. unfold enter_jmp. cbn [fst]. eapply ran_ext; [eapply ran_trans; [apply ran_emit; [exact P|exact S]|apply ran_emit; [exact P|exact S]]|reflexivity].
Qed.
Lemma ran_exit_scope c c' cs cs' t r g : ran c c' cs cs' (t :: r) g -> ran c (exit_scope c') cs cs' r (fun K => g K ++ repeat (op_byte O_POP) (length t)).
Proof.
  intros R. unfold exit_scope. rewrite (ran_scopes _ _ _ _ _ _ R). eapply ran_ext; [eapply ran_trans; [exact R|eapply ran_trans; [apply ran_scope, (ran_pool _ _ _ _ _ _ R)|apply ran_emit; [exact (ran_pool _ _ _ _ _ _ R)|reflexivity]]]|]. reflexivity.
Qed.

Definition ok_clause (G : scope) (ss : list scope) (lp : bool) (cl : clause) : Prop :=
  let '(p, g, b) := cl in match g with None => True | Some e => ok_e G (case_scope ss p) e = true end /\ ok_s G (case_scope ss p) lp b = true.

Ltac lens := rewrite ?len_app, ?len_op, ?len_enc8; try change (len (@nil Z)) with 0.
Section V.
Variable fuel : nat.
Lemma slot_in_cons t r : slots_of t (slot_in (t :: r)).
Proof. intros x z E. unfold slot_in. cbn [scope_get]. rewrite E. reflexivity. Qed.

Ltac inv_bind H := match type of H with
  | bind ?x _ = Ok _ => let c := fresh "c" in let E := fresh "E" in destruct x as [c| | |] eqn:E; [cbn [bind] in H|discriminate H..]
  end.
Lemma visit_clauses_gen cls : forall c c' cs, visit_clauses fuel cls c = Ok c' -> c_scopes c <> [] -> pooled (c_pool c) cs -> gl_in (c_globals c) cs ->
  Forall (fun cl => legal_pat (fst (fst cl)) = true /\ Forall literal (clause_lits cl) /\ parsed (snd cl) = true) cls ->
  Forall (ok_clause (c_globals c) (c_scopes c) (in_loop c)) cls /\
  exists cs', ran c c' cs cs' (c_scopes c) (fun K => gen_cases K (c_scopes c) (c_cps c) (count c) cls) /\ incl (concat (map clause_lits cls)) cs'.
Proof.
  induction cls as [|((p, g), b) rest IH]; intros c c' cs E N P G F.
  - injection E as <-. split; [constructor|]. exists cs. split; [apply ran_refl, P|apply incl_nil_l].
  - inversion F as [|? ? (Lg & Lt & Pa) F']; subst. clear F. cbn [fst snd clause_lits] in *. apply Forall_app in Lt. destruct Lt as (Lp & Lt). apply Forall_app in Lt. destruct Lt as (Lge & Lb).
    cbn [visit_clauses] in E. destruct (enter_jmp c O_MATCH) as (c1, start) eqn:EJ. inv_bind E. rename c0 into s.
    assert (Ec1 : c1 = fst (enter_jmp c O_MATCH)) by (rewrite EJ; reflexivity). assert (Est : start = count c + 1) by (unfold enter_jmp in EJ; injection EJ as _ <-; rewrite count_emit, len_op; lia).
    pose proof (ran_enter c O_MATCH cs _ P eq_refl) as R1. rewrite <- Ec1 in R1.
    destruct (visit_pat_gen fuel p Lg (PS (enter_scope c1) true []) s cs [] (c_scopes c) E0) as (cs1 & t & (_ & Dt & Rp) & Ip).
    { cbn [ps_c enter_scope set_scopes c_scopes]. rewrite (ran_scopes _ _ _ _ _ _ R1). reflexivity. }
    { exact (ran_pool _ _ _ _ _ _ R1). }
    { exact Lp. }
    cbn [ps_left ps_c] in Dt, Rp. specialize (Rp _ (slot_in_cons t (c_scopes c))). fold (case_scope (c_scopes c) p) in Dt. rewrite Dt in Rp.
    assert (R2 : ran c (ps_c s) cs cs1 (case_scope (c_scopes c) p) (fun K => op O_MATCH ++ enc8 0 ++ gen_pat K (slot_in (case_scope (c_scopes c) p)) p)).
    { eapply ran_ext; [eapply ran_trans; [exact R1|eapply ran_trans; [apply ran_scope, (ran_pool _ _ _ _ _ _ R1)|]]|]; [change (set_scopes c1 ([] :: c_scopes c)) with (set_scopes c1 ([] :: c_scopes c)); unfold enter_scope in Rp; rewrite (ran_scopes _ _ _ _ _ _ R1) in Rp; exact Rp|].
      intros K _. cbn beta. rewrite <- !app_assoc. reflexivity. }
    assert (Bn : (match c_scopes (ps_c s) with sc :: _ => length sc | [] => O end) = length (pvars p)).
    { rewrite (ran_scopes _ _ _ _ _ _ R2). destruct (case_scope_shape (c_scopes c) p) as (t' & E' & L'). rewrite E'. exact L'. }
    rewrite Bn in E. assert (Vs : scope_len (c_scopes c1) = scope_len (c_scopes c)) by (rewrite (ran_scopes _ _ _ _ _ _ R1); reflexivity). rewrite Vs in E.
    assert (Nz : (length (pvars p) =? 0)%nat = is_nil (pvars p)) by (destruct (pvars p); reflexivity). rewrite Nz in E.
    set (S1 := case_scope (c_scopes c) p) in *.
    inv_bind E. destruct c0 as (c3, sg).
    (* up to the start of the body *)
    assert (HG : exists cs3 X, ran c c3 cs cs3 S1 X /\ incl (plits p ++ glits g) cs3 /\ match g with None => True | Some e => ok_e (c_globals c) S1 e = true end /\
              (forall K, extends cs3 K -> X K = op O_MATCH ++ enc8 0 ++ gen_pat K (slot_in S1) p ++ case_mv (c_scopes c) p g ++ match g with None => [] | Some e => gen_e K S1 e ++ op O_BRF_8 ++ enc8 0 ++ op O_POP end) /\
              (forall K, extends cs3 K -> match g with None => True | Some e => sg = count c + (9 + len (gen_pat K (slot_in S1) p) + len (case_mv (c_scopes c) p g) + len (gen_e K S1 e)) + 1 end)).
    { destruct g as [e|].
      - destruct (visit_e fuel e _) as [c4| | |] eqn:Ee in E1; try discriminate. cbn [bind] in E1. destruct (enter_jmp c4 O_BRF_8) as (c5, sg') eqn:EJ2. injection E1 as <- <-.
        set (c2 := if is_nil (pvars p) then ps_c s else _) in Ee.
        assert (Rm : ran (ps_c s) c2 cs1 cs1 S1 (fun _ => case_mv (c_scopes c) p (Some e))).
        { unfold c2, case_mv. destruct (is_nil (pvars p)); [rewrite <- (ran_scopes _ _ _ _ _ _ R2); apply ran_refl, (ran_pool _ _ _ _ _ _ R2)|]. apply ran_emit; [apply (ran_pool _ _ _ _ _ _ R2)|apply (ran_scopes _ _ _ _ _ _ R2)]. }
        pose proof (ran_trans _ _ _ _ _ _ _ _ _ _ R2 Rm) as R3.
        destruct (visit_e_gen fuel e c2 c4 cs1 Ee (ran_pool _ _ _ _ _ _ R3) (ran_gl_in _ _ _ _ _ _ R3 G) Lge) as (Oe & cs3 & Re & Ie).
        rewrite (ran_scopes _ _ _ _ _ _ R3) in Oe, Re. rewrite (ran_gl _ _ _ _ _ _ R3) in Oe. pose proof (ran_trans _ _ _ _ _ _ _ _ _ _ R3 Re) as R4.
        pose proof (ran_enter c4 O_BRF_8 cs3 _ (ran_pool _ _ _ _ _ _ R4) (ran_scopes _ _ _ _ _ _ R4)) as R5. rewrite EJ2 in R5. cbn [fst] in R5.
        pose proof (ran_trans _ _ _ _ _ _ _ _ _ _ R4 R5) as R6.
        pose proof (ran_emit c5 cs3 _ (op O_POP) (ran_pool _ _ _ _ _ _ R6) (ran_scopes _ _ _ _ _ _ R6)) as R7.
        pose proof (ran_trans _ _ _ _ _ _ _ _ _ _ R6 R7) as R8.
        eexists cs3, _. split; [exact R8|]. split; [apply incl_app; [eapply incl_step; [exact Re|exact Ip]|exact Ie]|]. split; [exact Oe|]. split; [intros K HK; cbn beta; rewrite <- !app_assoc; reflexivity|].
        intros K HK. injection EJ2 as _ <-. rewrite count_emit, (ran_count _ _ _ _ _ _ K R4 HK), !len_app, !len_op, len_enc8. lia.
      - injection E1 as <- <-. set (c2 := if is_nil (pvars p) then _ else _).
        assert (Rm : ran (ps_c s) c2 cs1 cs1 S1 (fun _ => case_mv (c_scopes c) p None)).
        { unfold c2, case_mv. destruct (is_nil (pvars p)); (apply ran_emit; [apply (ran_pool _ _ _ _ _ _ R2)|apply (ran_scopes _ _ _ _ _ _ R2)]). }
        pose proof (ran_trans _ _ _ _ _ _ _ _ _ _ R2 Rm) as R3. eexists cs1, _. split; [exact R3|]. split; [rewrite app_nil_r; exact Ip|]. split; [exact Logic.I|]. split; [|auto].
        intros K HK. cbn beta. rewrite <- !app_assoc, app_nil_r. reflexivity. }
    destruct HG as (cs3 & X & R3 & I3 & Oe & EX & ESg). clear R2 Rp E0 E1.
    (* the body *)
    inv_bind E. rename c0 into c4. rename E0 into Eb.
    assert (NS : S1 <> []) by (destruct (case_scope_shape (c_scopes c) p) as (t' & E' & _); unfold S1; rewrite E'; discriminate).
    destruct (visit_s_gen fuel b c3 c4 cs3 Eb) as (Ob & cs4 & Rb & Ib); [rewrite (ran_scopes _ _ _ _ _ _ R3); exact NS|exact (ran_pool _ _ _ _ _ _ R3)|exact (ran_gl_in _ _ _ _ _ _ R3 G)|exact Lb|exact Pa|].
    rewrite (ran_scopes _ _ _ _ _ _ R3), (ran_gl _ _ _ _ _ _ R3), (ran_in_loop _ _ _ _ _ _ R3), (ran_cps _ _ _ _ _ _ R3) in *.
    assert (Sh : exists u, after S1 b = u :: c_scopes c).
    { destruct (case_scope_shape (c_scopes c) p) as (t' & E' & _). destruct (after_shape b t' (c_scopes c)) as (u & Eu & _). exists u. unfold S1. rewrite E'. exact Eu. }
    destruct Sh as (u & Eu). rewrite Eu in Rb.
    pose proof (ran_exit_scope _ _ _ _ _ _ _ (ran_trans _ _ _ _ _ _ _ _ _ _ R3 Rb)) as R5. set (c5 := exit_scope c4) in *.
    assert (R5' : ran c c5 cs cs4 (c_scopes c) (fun K => op O_MATCH ++ enc8 0 ++ gen_pat K (slot_in S1) p ++ case_mv (c_scopes c) p g ++ match g with None => [] | Some e => gen_e K S1 e ++ op O_BRF_8 ++ enc8 0 ++ op O_POP end ++ case_body K (c_scopes c) (c_cps c) (count c) p g b)).
    { eapply ran_ext; [exact R5|]. intros K HK. cbn beta. assert (HK3 : extends cs3 K) by (eapply ran_extends; [exact Rb|exact HK]). rewrite (EX K HK3). rewrite <- !app_assoc. do 4 f_equal. unfold case_body. fold S1. rewrite Eu. cbn [pops].
      do 3 f_equal. rewrite (ran_count _ _ _ _ _ _ K R3 HK3), (EX K HK3). unfold case_glen. fold S1. destruct g; lens; lia. }
    clear R5. rename R5' into R5.
    (* the jump to the end *)
    destruct (match rest with [] => (c5, 0) | _ :: _ => enter_jmp c5 O_BR_8 end) as (c6, be) eqn:EB.
    assert (R6 : ran c c6 cs cs4 (c_scopes c) (fun K => op O_MATCH ++ enc8 0 ++ gen_pat K (slot_in S1) p ++ case_mv (c_scopes c) p g ++ match g with None => [] | Some e => gen_e K S1 e ++ op O_BRF_8 ++ enc8 0 ++ op O_POP end
          ++ case_body K (c_scopes c) (c_cps c) (count c) p g b ++ (if is_nil rest then [] else op O_BR_8 ++ enc8 0))
          /\ forall K, extends cs4 K -> is_nil rest = false -> be = count c + (9 + len (gen_pat K (slot_in S1) p) + len (case_mv (c_scopes c) p g) + case_glen K (c_scopes c) p g + len (case_body K (c_scopes c) (c_cps c) (count c) p g b)) + 1).
    { destruct rest as [|cl rest'].
      - injection EB as <- <-. split; [|discriminate]. eapply ran_ext; [exact R5|]. intros K _. cbn [is_nil]. rewrite app_nil_r. reflexivity.
      - pose proof (ran_enter c5 O_BR_8 cs4 _ (ran_pool _ _ _ _ _ _ R5) (ran_scopes _ _ _ _ _ _ R5)) as Rq. rewrite EB in Rq. cbn [fst] in Rq. split.
        + eapply ran_ext; [eapply ran_trans; [exact R5|exact Rq]|]. intros K _. cbn beta. rewrite <- !app_assoc. reflexivity.
        + intros K HK _. injection EB as _ <-. rewrite count_emit, (ran_count _ _ _ _ _ _ K R5 HK). unfold case_glen. fold S1. destruct g; lens; lia. }
    destruct R6 as (R6 & EBe).
    (* the guard's jump *)
    set (c7 := match g with Some _ => emit (exit_jmp c6 sg) (repeat (op_byte O_POP) (length (pvars p))) | None => c6 end) in *.
    assert (R7 : ran c c7 cs cs4 (c_scopes c) (fun K => op O_MATCH ++ enc8 0 ++ gen_pat K (slot_in S1) p ++ case_mv (c_scopes c) p g ++ case_guard K (c_scopes c) (c_cps c) (count c) p g b (is_nil rest)
          ++ case_body K (c_scopes c) (c_cps c) (count c) p g b ++ (if is_nil rest then [] else op O_BR_8 ++ enc8 0) ++ case_fin p g)).
    { unfold c7. destruct g as [e|].
      - pose proof (ran_patch c c6 cs cs4 (c_scopes c) O_BRF_8 sg (fun K => op O_MATCH ++ enc8 0 ++ gen_pat K (slot_in S1) p ++ case_mv (c_scopes c) p (Some e) ++ gen_e K S1 e)
          (fun K => op O_POP ++ case_body K (c_scopes c) (c_cps c) (count c) p (Some e) b ++ (if is_nil rest then [] else op O_BR_8 ++ enc8 0))) as Pt.
        eapply ran_ext; [eapply ran_trans; [apply Pt|apply ran_emit]|].
        + eapply ran_ext; [exact R6|]. intros K _. cbn beta. rewrite <- !app_assoc. reflexivity.
        + intros K HK. rewrite (ESg K (ran_extends _ _ _ _ _ _ _ Rb HK)). rewrite !len_app, !len_op, len_enc8. lia.
        + apply (ran_pool _ _ _ _ _ _ R6).
        + apply (ran_scopes _ _ _ _ _ _ R6).
        + intros K HK. cbn beta. cbn [case_guard case_fin]. fold S1. rewrite <- !app_assoc. do 6 f_equal.
          rewrite !len_app, len_op. destruct (is_nil rest); rewrite ?len_app, ?len_op, ?len_enc8; [change (len []) with 0; rewrite !Z.add_assoc; reflexivity|rewrite !Z.add_assoc; f_equal; f_equal; lia].
      - eapply ran_ext; [exact R6|]. intros K _. cbn [case_guard case_fin app]. rewrite app_nil_r. reflexivity. }
    (* the match's jump *)
    assert (R8 : ran c (exit_jmp c7 start) cs cs4 (c_scopes c) (fun K => op O_MATCH ++ enc8 (case_total K (c_scopes c) (c_cps c) (count c) p g b (is_nil rest)) ++ gen_pat K (slot_in S1) p ++ case_mv (c_scopes c) p g
          ++ case_guard K (c_scopes c) (c_cps c) (count c) p g b (is_nil rest) ++ case_body K (c_scopes c) (c_cps c) (count c) p g b ++ (if is_nil rest then [] else op O_BR_8 ++ enc8 0) ++ case_fin p g)).
    { pose proof (ran_patch c c7 cs cs4 (c_scopes c) O_MATCH start (fun _ => []) (fun K => gen_pat K (slot_in S1) p ++ case_mv (c_scopes c) p g ++ case_guard K (c_scopes c) (c_cps c) (count c) p g b (is_nil rest)
          ++ case_body K (c_scopes c) (c_cps c) (count c) p g b ++ (if is_nil rest then [] else op O_BR_8 ++ enc8 0) ++ case_fin p g) R7) as Pt.
      eapply ran_ext; [apply Pt; intros; change (len []) with 0; lia|]. intros K _. cbn [app]. unfold case_total. fold S1. do 3 f_equal.
      rewrite !len_app. unfold case_guard, case_glen. fold S1. destruct g, (is_nil rest); lens; lia. }
    destruct rest as [|cl rest'].
    + injection E as <-. split; [constructor; [|constructor]; split; assumption|]. exists cs4. split; [|cbn [map concat clause_lits]; rewrite app_nil_r].
      * eapply ran_ext; [exact R8|]. intros K _. cbn [gen_cases is_nil app]. fold S1. rewrite app_nil_r. reflexivity.
      * rewrite app_assoc. apply incl_app; [eapply incl_step; [exact Rb|exact I3]|exact Ib].
    + inv_bind E. rename c0 into c8. injection E as <-. cbn [is_nil] in *.
      destruct (IH _ _ cs4 E0) as (OR & cs5 & RR & IR); [rewrite (ran_scopes _ _ _ _ _ _ R8); exact N|exact (ran_pool _ _ _ _ _ _ R8)|exact (ran_gl_in _ _ _ _ _ _ R8 G)|exact F'|].
      rewrite (ran_scopes _ _ _ _ _ _ R8), (ran_gl _ _ _ _ _ _ R8), (ran_in_loop _ _ _ _ _ _ R8), (ran_cps _ _ _ _ _ _ R8) in *.
      split; [constructor; [split; assumption|exact OR]|]. exists cs5. split.
      * pose proof (ran_trans _ _ _ _ _ _ _ _ _ _ R8 RR) as R9.
        pose proof (ran_patch c c8 cs cs5 (c_scopes c) O_BR_8 be (fun K => op O_MATCH ++ enc8 (case_total K (c_scopes c) (c_cps c) (count c) p g b false) ++ gen_pat K (slot_in S1) p ++ case_mv (c_scopes c) p g
          ++ case_guard K (c_scopes c) (c_cps c) (count c) p g b false ++ case_body K (c_scopes c) (c_cps c) (count c) p g b)
          (fun K => case_fin p g ++ gen_cases K (c_scopes c) (c_cps c) (count (exit_jmp c7 start)) (cl :: rest'))) as Pt.
        eapply ran_ext; [apply Pt|].
        -- eapply ran_ext; [exact R9|]. intros K _. cbn beta. rewrite <- !app_assoc. reflexivity.
        -- intros K HK. rewrite (EBe K (ran_extends _ _ _ _ _ _ _ RR HK) eq_refl). rewrite !len_app, len_op, len_enc8. unfold case_guard, case_glen. fold S1. destruct g; lens; lia.
        -- intros K HK. cbn beta. rewrite (ran_count _ _ _ _ _ _ K R8 (ran_extends _ _ _ _ _ _ _ RR HK)).
           assert (LEN : count c + len (op O_MATCH ++ enc8 (case_total K (c_scopes c) (c_cps c) (count c) p g b false) ++ gen_pat K (slot_in S1) p ++ case_mv (c_scopes c) p g ++ case_guard K (c_scopes c) (c_cps c) (count c) p g b false
              ++ case_body K (c_scopes c) (c_cps c) (count c) p g b ++ (op O_BR_8 ++ enc8 0) ++ case_fin p g) = count c + 9 + case_total K (c_scopes c) (c_cps c) (count c) p g b false).
           { rewrite !len_app, !len_op, !len_enc8. unfold case_total. fold S1. unfold case_guard, case_glen. fold S1. destruct g; lens; lia. }
           cbn beta. rewrite LEN.
           remember (cl :: rest') as rr eqn:Err. cbn [gen_cases]. fold S1. assert (NR : is_nil rr = false) by (subst rr; reflexivity). rewrite NR. rewrite <- !app_assoc. do 6 f_equal. rewrite len_app. reflexivity.
      * cbn [map concat clause_lits]. apply incl_app; [|exact IR]. eapply incl_step; [exact RR|]. rewrite app_assoc. apply incl_app; [eapply incl_step; [exact Rb|exact I3]|exact Ib].
Qed.
End V.
