(** * C60: which programs with lists and tables the compiler accepts. *)
From Coq Require Import String.
From Verif Require Import Base Bytes Value Table Ops Text Ast Stmt Limits Constants VM Compiler TableSpec TableProofs3 ConstSpec Gen Program CompSpec Lexer LexSpec Parser ParseSpec Names Heap HeapSpec HeapSpec2 HeapProofs HeapProofs2 PropHeap PropHeap2 PropHeap3 Obj ObjCompiler ObjProg PropObj ObjLegal ObjTotal.
From Verif Require Import Tree TreeParser TreeSpec TreeProofs TreeFuel PropTree TreeExact ObjSource ObjFold ObjWritten PropSource.
From Verif Require Import LexSpec.
Local Open Scope list_scope.
Local Open Scope Z_scope.

(** ** C60. Within the fixed limits (at most 255 variables at a time, at most 2^29 constants) a program with lists, tables, method calls and
    loops is accepted if every name in it is used as it was declared and every break is inside a loop that is not switched off, and rejected
    as a syntax error if not. *)
Theorem C60_accepts : forall fuel gs pr lines, FUEL_BOUND <= Z.of_nat fuel -> Forall (fun x => literal (VStr x)) gs -> Forall literal (literals_o (body_o pr)) ->
  Z.of_nat (length gs) + Z.of_nat (length (literals_o (body_o pr))) <= 2 ^ 29 -> (peak_o 0 (body_o pr) <= 255)%nat -> parsed_o (body_o pr) = true ->
  olegal_program gs (body_o pr) = true -> exists bytes, compile_oprogram fuel gs pr lines = Ok bytes.
Proof. intros fuel gs pr lines Hf Fg Fl Sm Pk N L. pose proof (verdict_o fuel gs pr lines Hf Fg Fl Sm Pk N) as V. rewrite L in V. exact V. Qed.
Print Assumptions C60_accepts.
Theorem C60_rejects : forall fuel gs pr lines, FUEL_BOUND <= Z.of_nat fuel -> Forall (fun x => literal (VStr x)) gs -> Forall literal (literals_o (body_o pr)) ->
  Z.of_nat (length gs) + Z.of_nat (length (literals_o (body_o pr))) <= 2 ^ 29 -> (peak_o 0 (body_o pr) <= 255)%nat -> parsed_o (body_o pr) = true ->
  olegal_program gs (body_o pr) = false -> compile_oprogram fuel gs pr lines = Err ESyntax.
Proof. intros fuel gs pr lines Hf Fg Fl Sm Pk N L. pose proof (verdict_o fuel gs pr lines Hf Fg Fl Sm Pk N) as V. rewrite L in V. exact V. Qed.
Print Assumptions C60_rejects.

(** Concrete cases: the programs of PropObj.v and PropSource.v meet the conditions and are legal ... *)
Lemma C60_example : forall pr, In pr [sharing; counting; list_meant] -> Forall literal (literals_o (body_o pr)) /\ 0 + Z.of_nat (length (literals_o (body_o pr))) <= 2 ^ 29 /\ (peak_o 0 (body_o pr) <= 255)%nat /\ parsed_o (body_o pr) = true /\ olegal_program [] (body_o pr) = true.
Proof. intros pr H. cbn in H. repeat destruct H as [<-|H]; [..|destruct H]; (split; [repeat constructor; cbn; unfold in_i64, int_min, int_max; lia|]); repeat split; vm_compute; first [reflexivity|discriminate|repeat constructor]. Qed.
(** ... and these are not: a variable that is not declared as key, in a list, or as an argument; assigning a constant; using the variable of a
    loop after it or in what the loop goes through; declaring the same name twice; break outside a loop, or in a loop that is switched off. *)
Definition not_legal_o : list (list ostmt) :=
  [ [OLet false nl (OList (one (OInt 1))); OSet (OVar nl) (OVar nx) (OInt 1)];
    [OEcho (OList (two (OInt 1) (OVar nx)))];
    [OLet false nl (OList ANil); OExpr (OMeth (OVar nl) m_push (one (OVar nx)))];
    [OLet true nx (OInt 1); OAssign nx (OInt 2)];
    [OForIn nx (OStr [97]) (OBlock OSkip); OEcho (OVar nx)];
    [OForIn nx (OVar nx) (OBlock OSkip)];
    [OLet false nx (OInt 1); OLet true nx (OInt 2)];
    [OIf (OBool true) (OBlock (OSeq OBreak OSkip))];
    [OWhile (OBool false) (OBlock (OSeq OContinue OSkip))] ].
Lemma C60_example_rejected : forall fuel pr, FUEL_BOUND <= Z.of_nat fuel -> In pr not_legal_o -> compile_oprogram fuel [] pr [] = Err ESyntax.
Proof.
  intros fuel pr Hf H. cbn in H. repeat destruct H as [<-|H]; [..|destruct H];
    (apply C60_rejects; [exact Hf|constructor|repeat constructor; cbn; unfold in_i64, int_min, int_max; lia|vm_compute; discriminate|vm_compute; repeat constructor|reflexivity|reflexivity]).
Qed.
(** The limit is 255 variables. *)
Definition lets (n : nat) : list ostmt := map (fun i => OLet false [97; Z.of_nat i] OUndef) (seq 0 n).
Theorem C60_limit : (exists bytes, compile_oprogram 100 [] (lets 255) [] = Ok bytes) /\ compile_oprogram 100 [] (lets 256) [] = Err ESyntax.
Proof. split; [|vm_compute; reflexivity]. destruct (compile_oprogram 100 [] (lets 255) []) as [bytes| | |] eqn:E; [eauto|vm_compute in E; discriminate E..]. Qed.
Print Assumptions C60_limit.

(** ** C57, continued: the text of a program is accepted if the program, with its constants folded, is legal, and rejected if not; and the program loaded
    from an accepted text does what it means. *)
Theorem C57_accepted_partial : forall strtod mfuel items last pr prf opr gs lines w ls ks D hp0,
  well_written T_UNKNOWN items last -> sts_written strtod pr (map snd items) -> fold_l pr = Ok prf -> Forall2 is_s pr opr -> forallb exact_s pr = true ->
  enough_fuel mfuel -> float_texts w -> heap_new mfuel = Ok hp0 -> Forall (fun x => literal (VStr x)) gs ->
  (forall oprf, Forall2 is_s prf oprf -> olegal_program gs (body_o oprf) = true /\ Forall literal (literals_o (body_o oprf)) /\ Z.of_nat (length gs) + Z.of_nat (length (literals_o (body_o oprf))) <= 2 ^ 29) ->
  jumps_ok_o 0 (body_o opr) = true -> (peak_o 0 (body_o opr) <= 128)%nat -> (need_o (body_o opr) + 3 * D + 32 <= 1024)%nat -> (for_depth_o (body_o opr) <= 16)%nat ->
  exists n, forall fuel, (n <= fuel)%nat -> (forall oprf bytes, Forall2 is_s prf oprf -> compile_oprogram fuel gs oprf lines = Ok bytes -> Z.of_nat (length bytes) <= int_max) ->
  exists P, build_o strtod fuel gs (text_of items last) lines w ls ks = Some P /\ forall gl, follows mfuel (host_of w ls ks gs) P D (body_o opr) hp0 gl.
Proof.
  intros strtod mfuel items last pr prf opr gs lines w ls ks D hp0 W Wr F Il Ex A1 A2 A3 Fg Fl J Pk Nd Fd. pose proof (is_l_plain _ _ Il) as Pl.
  destruct (C56_text strtod items last pr prf W Wr F) as (n0 & Pa). exists (Nat.max n0 (Z.to_nat FUEL_BOUND)). intros fuel Lf LB. assert (Hf : FUEL_BOUND <= Z.of_nat fuel) by (unfold FUEL_BOUND in *; lia).
  destruct (fold_l_fs pr prf opr F Ex Pl) as (oprf & Pf & Fs). pose proof (plain_is_l _ _ Pf) as If.
  pose proof (fs_parsed _ _ Fs (program_parsed strtod pr _ opr Wr Pl)) as Pd. destruct (fs_limits _ _ Fs) as (L1 & L2 & L3 & L4). destruct (Fl _ If) as (Lg & Fl1 & Fl2).
  destruct (C60_accepts fuel gs oprf lines Hf Fg Fl1 Fl2) as (bytes & E2); [rewrite L2; lia|exact Pd|exact Lg|].
  destruct (C55_objects_partial mfuel fuel gs oprf lines bytes w ls ks D hp0 A1 A2 A3 E2 (LB _ _ If E2) Fg Fl1 Pd) as (P & Lp & _).
  { rewrite L1; exact J. } { rewrite L2; exact Pk. } { lia. } { rewrite L3; exact Fd. }
  assert (B : build_o strtod fuel gs (text_of items last) lines w ls ks = Some P) by (unfold build_o; rewrite (Pa fuel) by lia; rewrite Pf, E2, Lp; reflexivity).
  exists P. split; [exact B|]. eapply C57_source_text_partial; try eassumption. intros o Ho. apply Fl, Ho.
Qed.
Print Assumptions C57_accepted_partial.
Theorem C57_rejected_partial : forall strtod items last pr prf opr gs lines,
  well_written T_UNKNOWN items last -> sts_written strtod pr (map snd items) -> fold_l pr = Ok prf -> Forall2 is_s pr opr -> forallb exact_s pr = true -> Forall (fun x => literal (VStr x)) gs ->
  (forall oprf, Forall2 is_s prf oprf -> olegal_program gs (body_o oprf) = false /\ Forall literal (literals_o (body_o oprf)) /\ Z.of_nat (length gs) + Z.of_nat (length (literals_o (body_o oprf))) <= 2 ^ 29) ->
  (peak_o 0 (body_o opr) <= 255)%nat ->
  exists n oprf, Forall2 is_s prf oprf /\ forall fuel, (n <= fuel)%nat -> read_text strtod fuel (text_of items last) = POk prf /\ compile_oprogram fuel gs oprf lines = Err ESyntax /\ forall w ls ks, build_o strtod fuel gs (text_of items last) lines w ls ks = None.
Proof.
  intros strtod items last pr prf opr gs lines W Wr F Il Ex Fg Fl Pk. pose proof (is_l_plain _ _ Il) as Pl.
  destruct (C56_text strtod items last pr prf W Wr F) as (n0 & Pa). destruct (fold_l_fs pr prf opr F Ex Pl) as (oprf & Pf & Fs). pose proof (plain_is_l _ _ Pf) as If.
  exists (Nat.max n0 (Z.to_nat FUEL_BOUND)), oprf. split; [exact If|]. intros fuel Lf. assert (Hf : FUEL_BOUND <= Z.of_nat fuel) by (unfold FUEL_BOUND in *; lia).
  pose proof (fs_parsed _ _ Fs (program_parsed strtod pr _ opr Wr Pl)) as Pd. destruct (fs_limits _ _ Fs) as (L1 & L2 & L3 & L4). destruct (Fl _ If) as (Lg & Fl1 & Fl2).
  pose proof (C60_rejects fuel gs oprf lines Hf Fg Fl1 Fl2 ltac:(rewrite L2; exact Pk) Pd Lg) as E2. split; [apply Pa; lia|]. split; [exact E2|]. intros w ls ks. unfold build_o. rewrite (Pa fuel) by lia. rewrite Pf, E2. reflexivity.
Qed.
Print Assumptions C57_rejected_partial.
(** The program of PropSource.v is legal with its constants folded, and meets the other conditions: C57_written, C57_nonvacuous. *)
Lemma C57_accepted_example : forall oprf, Forall2 is_s list_folded oprf -> olegal_program [] (body_o oprf) = true /\ (length (literals_o (body_o oprf)) = 10)%nat.
Proof. intros oprf E. apply is_l_plain in E. vm_compute in E. injection E as <-. split; reflexivity. Qed.
(** Names alone do not decide: folding can switch a loop off, and then break in its body is outside every loop. Of [while 1 == 2 { break; }] the
    program as written is legal, but it is rejected. *)
Definition off_program : list xs := [XWhile (XBin (BOp BEq) (XInt 1) (XInt 2)) (XBlock (order [XBreak]))].
Definition off_meant : list ostmt := [OWhile (OBin (BOp BEq) (OInt 1) (OInt 2)) (OBlock (OSeq OBreak OSkip))].
Theorem C60_folded_loop_refuted : Forall2 is_s off_program off_meant /\ olegal_program [] (body_o off_meant) = true /\
  exists prf oprf, fold_l off_program = Ok prf /\ Forall2 is_s prf oprf /\ compile_oprogram 100 [] oprf [] = Err ESyntax.
Proof.
  split; [repeat constructor|]. split; [reflexivity|]. eexists. eexists [OWhile (OBool false) (OBlock (OSeq OBreak OSkip))]. split; [vm_compute; reflexivity|]. split; [repeat constructor|]. vm_compute. reflexivity.
Qed.
Print Assumptions C60_folded_loop_refuted.
