(** C50: global variables. The other theorems about programs (C25-C28, C44, C45, C49) keep the globals in a map; here they
    are the hash table of the implementation (Globals.v). *)
From Verif Require Import Base Bytes Value ValueProofs Hash Table TableSpec TableProofs3 Ops VM Globals ApiSpec ApiProofs GlobalProofs.
From Verif Require Import Lexer Parser Source Stmt Compiler Text PropCompile2.

(** Any program, started with any globals: as long as no global is undef in a state it passes through, the machine with
    the hash table takes the same steps ([regl] only says that the state has no use for the map), prints the same, stops
    the same way, and its table holds exactly the map's globals. Bound: 2^29 steps and initial globals. *)
Theorem C50_globals_are_variables : forall fuel P init t0 k g,
  FUEL_BOUND <= Z.of_nat fuel -> Forall (fun p => good_val (snd p)) init -> Z.of_nat (length init) + Z.of_nat k <= 2 ^ 29 ->
  run_new fuel (sets init) = Ok t0 ->
  let gl := fun x => spec_run (sets init) (VStr x) in
  (forall j s, (j <= k)%nat -> run j P (vm_start gl) = Next s -> forall x, v_gl s x <> Some VUndef /\ v_gl s x <> Some VEnd) ->
  exists t, grun fuel k P (vm_start g) t0 = (regl g (run k P (vm_start gl)), t) /\
    forall x, table_search fuel t (VStr x) = Ok (match v_gl (sres_state (run k P (vm_start gl))) x with Some v => v | None => VEnd end).
Proof.
  intros fuel P init t0 k g F Fi B R gl D. destruct holds_new as (tn & En & Hn). unfold run_new in R. rewrite En in R. cbn [bind] in R.
  destruct (sets_holds fuel F init tn [] Hn Fi ltac:(cbn; lia)) as (t' & m' & R' & Hm & Lm & Fm). rewrite R in R'. injection R' as <-. cbn [length] in Lm.
  assert (G : gsim (Z.of_nat (length init)) t0 (v_gl (vm_start gl))).
  { exists m'. split; [exact Hm|]. split; [lia|]. intros x. rewrite Fm. reflexivity. }
  destruct (grun_sim fuel P g F k _ (vm_start gl) t0 B G D) as (t & E & (m & Hm2 & _ & Fm2)). exists t. split; [exact E|].
  intros x. rewrite (holds_search fuel t m (VStr x) Hm2 I F), Fm2. reflexivity.
Qed.
Print Assumptions C50_globals_are_variables.

(** a = 1 ; a = a + 2 ; echo a, for a global a declared by the host: the hypotheses hold, and the hash-table machine prints 3. *)
Definition text_ok : list Z := [97;32;61;32;49;10; 97;32;61;32;97;32;43;32;50;10; 101;99;104;111;32;97;10].
Fixpoint all_defined (names : list (list Z)) (n : nat) (P : prog) (s : vstate) : bool :=
  forallb (fun x => match v_gl s x with Some VUndef | Some VEnd => false | _ => true end) names &&
  match n with O => true | S n' => match step P s with Next s' => all_defined names n' P s' | _ => true end end.
Example C50_nonvacuous : forall strtod,
  match build strtod 200 [[97]] text_ok [] demo_world none none with
  | Some P =>
      all_defined [[97]] 40 P (vm_start (fun x => spec_run (sets []) (VStr x))) = true /\
      match run 40 P (vm_start (fun _ => None)) with Stop o s => o = Ok tt /\ v_out s = [51; 10] | _ => False end /\
      match run_new 100 (sets []) with
      | Ok t0 => match grun 100 40 P (vm_start (fun _ => None)) t0 with (Stop o s, _) => o = Ok tt /\ v_out s = [51; 10] | _ => False end
      | _ => False end
  | None => False end.
Proof.
  intros strtod. vm_compute. split; [reflexivity|]. split; [split; reflexivity|]. split; reflexivity.
Qed.

(** Without the condition the claim is false: after [B = undef] and [a = 1], for two globals declared by the host, [B] no longer exists
    (both names fall into slot 4 of 31, and an undef value counts as a free slot): [echo B == undef] prints false. *)
(** A host that prints primitive values as the language does. *)
Definition text_world : world :=
  World (fun x _ => x) (fun _ _ _ => Err EType) (fun _ _ => Err EType)
    (fun v => match prim_tostr v with Some x => Ok x | None => Err EType end) (fun _ _ => false).
Definition text_bad : list Z :=
  [66;32;61;32;117;110;100;101;102;10; 97;32;61;32;49;10; 101;99;104;111;32;66;32;61;61;32;117;110;100;101;102;10].
Theorem C50_undef_global_refuted : forall strtod,
  match build strtod 200 [[66]; [97]] text_bad [] text_world none none with
  | Some P =>
      match run 60 P (vm_start (fun _ => None)) with Stop o s => o = Ok tt /\ v_out s = [116; 114; 117; 101; 10] | _ => False end /\
      match table_new with
      | Ok t0 => match grun 100 60 P (vm_start (fun _ => None)) t0 with (Stop o s, _) => o = Ok tt /\ v_out s = [102; 97; 108; 115; 101; 10] | _ => False end
      | _ => False end
  | None => False end.
Proof. intros strtod. vm_compute. split; [split; reflexivity|]. split; reflexivity. Qed.
Print Assumptions C50_undef_global_refuted.
