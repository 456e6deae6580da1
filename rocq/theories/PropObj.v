(** * C55: programs with lists and tables. *)
From Coq Require Import String Permutation.
From Verif Require Import Base Bytes Value Table Ops Text Ast Stmt Limits Constants VM Compiler TableSpec ConstSpec Gen Program CallSpec CallProofs Names Heap HeapSpec HeapSpec2 HeapProofs HeapProofs2 PropHeap PropHeap2 PropHeap3 Obj ObjCompiler ObjProg.
Local Open Scope list_scope.
Local Open Scope Z_scope.

(** The loaded program [P] does what the program [s] means (Obj.v), started on an empty memory: of the results the meaning allows, one is
    what the machine does. Loops make at most [n] iterations in the meaning. *)
Definition follows (fuel : nat) (h : host) (P : prog) (D : nat) (s : ostmt) (hp0 : heap) (gl : name -> option value) : Prop := forall n,
  exists r, exec_o h D n s (OST (Env [[]] gl []) mem_new (fun _ => O)) r /\
  match r with
  | Done sg st => sg = Normal /\ exists k s hp, h_run fuel (h_world h) P k (vm_start gl) hp0 = HStop (Ok tt) s hp /\
      v_out s = e_out (o_env st) /\ v_gl s = e_globals (o_env st) /\ shows hp (o_mem st)
  | Obj.Stop e st => exists k s hp, h_run fuel (h_world h) P k (vm_start gl) hp0 = HStop (Err e) s hp /\ v_out s = e_out (o_env st)
  | Fuel => exists s hp, h_run fuel (h_world h) P n (vm_start gl) hp0 = HNext s hp
  | Stuck => False
  | Open => True
  end.

(** Every accepted program within the limits loads, and does what it means. [D]: how deeply nested containers may be compared and shown. *)
Theorem C55_objects_partial : forall fuel cfuel gs pr lines bytes w ls ks D hp0,
  enough_fuel fuel -> float_texts w -> heap_new fuel = Ok hp0 ->
  compile_oprogram cfuel gs pr lines = Ok bytes -> Z.of_nat (length bytes) <= int_max ->
  Forall (fun x => literal (VStr x)) gs -> Forall literal (literals_o (body_o pr)) -> parsed_o (body_o pr) = true -> jumps_ok_o 0 (body_o pr) = true ->
  (peak_o 0 (body_o pr) <= 128)%nat -> (need_o (body_o pr) + 3 * D + 32 <= 1024)%nat -> (for_depth_o (body_o pr) <= 16)%nat ->
  exists P, load bytes w ls ks = Ok P /\ forall gl, follows fuel (host_of w ls ks gs) P D (body_o pr) hp0 gl.
Proof.
  intros fuel cfuel gs pr lines bytes w ls ks D hp0 A1 A2 A3 A4 A5 A6 A7 A8 A9 A10 A11 A12.
  destruct (oprogram_ok fuel cfuel gs pr lines bytes w ls ks D hp0 A1 A2 A3 A4 A5 A6 A7 A8 A9 A10 A11 A12) as (P & L & R). exists P. split; [exact L|]. intros gl n. exact (R gl n).
Qed.

(** ** Concretely: [let l = [1]; l->push(3); let t = {'a': l}; t['a'][0] = 7; for x <- l { echo x; }; echo len l; echo t] *)
Definition nl : name := [108]. Definition nt : name := [116]. Definition nx : name := [120].
Definition one (e : oexpr) : oargs := ACons e ANil.
Definition two (a b : oexpr) : oargs := ACons a (one b).
Definition sharing : list ostmt :=
 [ OLet false nl (OList (one (OInt 1)));
   OExpr (OMeth (OVar nl) m_push (one (OInt 3)));
   OLet false nt (OTable (two (OStr [97]) (OVar nl)));
   OSet (OGet (OVar nt) (OStr [97])) (OInt 0) (OInt 7);
   OForIn nx (OVar nl) (OEcho (OVar nx));
   OEcho (OUn ULen (OVar nl));
   OEcho (OVar nt) ].
(** The theorem applies to it ... *)
Example C55_applies : exists bytes, compile_oprogram 100 [] sharing [] = Ok bytes /\ Z.of_nat (length bytes) <= int_max /\ Forall literal (literals_o (body_o sharing)) /\
  parsed_o (body_o sharing) = true /\ jumps_ok_o 0 (body_o sharing) = true /\ (peak_o 0 (body_o sharing) <= 128)%nat /\ (need_o (body_o sharing) + 3 * 5 + 32 <= 1024)%nat /\ (for_depth_o (body_o sharing) <= 16)%nat.
Proof.
  destruct (compile_oprogram 100 [] sharing []) as [bytes| | |] eqn:E; try (vm_compute in E; discriminate E). exists bytes. split; [reflexivity|]. split; [vm_compute in E; injection E as <-; vm_compute; discriminate|].
  split; [repeat constructor; cbn; unfold in_i64, int_min, int_max; lia|]. split; [reflexivity|]. split; [reflexivity|]. split; [vm_compute; repeat constructor|]. split; [vm_compute; repeat constructor|vm_compute; repeat constructor].
Qed.
Definition meaning_out : list Z := Eval compute in bytes_of "7" ++ [10] ++ bytes_of "3" ++ [10] ++ bytes_of "2" ++ [10] ++ bytes_of "{a: [7, 3]}" ++ [10].
(** ... its meaning allows one output ... *)
Lemma atom_shown w m seen v u t : prim_tostr v = Some u -> (forall p, v <> VList p) -> (forall p, v <> VTable p) -> HeapSpec2.shown w m seen v t -> t = u.
Proof.
  intros E N1 N2 Sh. inversion Sh as [? ? ? A|? ? HI|? ? HI|? p xs ts NI E' F2|? p kv kv' ts NI E' PM F2]; subst; try (exfalso; first [eapply N1; reflexivity|eapply N2; reflexivity]). destruct A as [A|(f & -> & _)]; [congruence|discriminate E].
Qed.
Ltac walk H := hnf in H; lazymatch type of H with
  | ex _ => let x := fresh "x" in destruct H as (x & H); walk H
  | _ /\ _ => let H1 := fresh "H" in destruct H as (H1 & H); walk H1; try walk H
  | ?x = _ => subst x
  | HeapSpec2.shown _ _ _ ?v ?t => let v' := eval cbv -[Z.eqb] in v in change v with v' in H;
      match v' with VInt _ => eapply atom_shown in H; [|vm_compute; reflexivity|discriminate|discriminate]; subst t | _ => idtac end
  | _ => idtac
  end.
Lemma seq_inv h D n a b st r st1 : exec_o h D n (OSeq a b) st r -> (forall r', exec_o h D n a st r' -> r' = Done Normal st1) -> exec_o h D n b st1 r.
Proof. intros (x & Hx & H) E. rewrite (E x Hx) in H. exact H. Qed.
Ltac tidy H := match type of H with exec_o _ _ _ _ ?st _ => let st' := eval cbv -[Z.eqb] in st in change st with st' in H end.
Ltac tidy_out H := match type of H with context [Env _ _ ?o] => let o' := eval vm_compute in o in change o with o' in H end.
Ltac statement H := eapply seq_inv in H; [|let E := fresh in intros ? E; walk E; reflexivity]; tidy H.
Lemma shown_shared w m t : m_tab m 17 = Some [(VStr [97], VList 16)] -> m_list m 16 = Some [VInt 7; VInt 3] -> HeapSpec2.shown w m [] (VTable 17) t -> t = bytes_of "{a: [7, 3]}".
Proof.
  intros ET EL Sh.
  assert (AT : forall v u t, prim_tostr v = Some u -> atom_text w v t -> t = u).
  { intros v u t0 E [E'|(f & -> & _)]; [congruence|discriminate E]. }
  inversion Sh as [? ? ? A| |? ? HI| |? p kv kv' ts N2 E PM F2]; subst; [destruct A as [A|(f & A & _)]; discriminate A|destruct HI|]. rewrite ET in E. injection E as <-. apply Permutation_length_1_inv in PM. subst kv'.
  inversion F2 as [|? u1 ? us1 U1 F3]; subst. inversion F3; subst. inversion U1 as [? ? ? tk tv A V]; subst. eapply AT in A; [|reflexivity]. subst tk.
  inversion V as [? ? ? A|? ? HI| |? p xs ts N3 E F4|]; subst; [destruct A as [A|(f & A & _)]; discriminate A|destruct HI as [HI|[]]; discriminate HI|]. rewrite EL in E. injection E as <-.
  inversion F4 as [|? t1 ? ts1 S1 F5]; subst. inversion F5 as [|? t2 ? ts2 S2 F6]; subst. inversion F6; subst.
  eapply atom_shown in S1; [|vm_compute; reflexivity|discriminate|discriminate]. eapply atom_shown in S2; [|vm_compute; reflexivity|discriminate|discriminate]. subst. reflexivity.
Qed.
Example C55_meaning : forall w ls ks r, exec_o (host_of w ls ks []) 5 4 (body_o sharing) (OST (Env [[]] (fun _ => None) []) mem_new (fun _ => O)) r ->
  exists st, r = Done Normal st /\ e_out (o_env st) = meaning_out.
Proof.
  intros w ls ks r H. cbn [body_o sharing fold_right] in H. statement H. statement H. statement H. statement H. statement H. tidy_out H. statement H. tidy_out H.
  walk H. match goal with S : HeapSpec2.shown _ _ _ _ _ |- _ => apply shown_shared in S; [|reflexivity|reflexivity]; subst end.
  eexists. split; [hnf; reflexivity|vm_compute; reflexivity].
Qed.
(** ... and the machine, run on the compiled program, prints it. *)
Definition machine_out (pr : list ostmt) (n : nat) : option (outcome unit * list Z) :=
  match compile_oprogram 100 [] pr [], heap_new 200 with
  | Ok b, Ok h => match load b no_world (fun _ => []) (fun _ => []) with
                  | Ok P => match h_run 200 no_world P n (vm_start (fun _ => None)) h with HStop o s _ => Some (o, v_out s) | _ => None end
                  | _ => None
                  end
  | _, _ => None
  end.
Example C55_machine : machine_out sharing 200 = Some (Ok tt, meaning_out).
Proof. vm_compute. reflexivity. Qed.
(** [let l = [1]; l[5] = 2] stops with a value error; [for x <- 3 { }] with a type error. *)
Example C55_machine_stops : option_map fst (machine_out [OLet false nl (OList (one (OInt 1))); OSet (OVar nl) (OInt 5) (OInt 2)] 100) = Some (Err EValue) /\
  option_map fst (machine_out [OForIn nx (OInt 3) OSkip] 100) = Some (Err EType).
Proof. vm_compute. split; reflexivity. Qed.
Print Assumptions C55_objects_partial.
(** [let l = [4]; for let i = 0; i < len l; i += 1 { echo l[i]; continue; }; echo len l] *)
Definition ni : name := [105].
Definition counting : list ostmt :=
  [OLet false nl (OList (one (OInt 4)));
   OBlock (OSeq (OLet false ni (OInt 0)) (OSeq (OWhilePost (OBin (BOp BLt) (OVar ni) (OUn ULen (OVar nl))) (OBlock (OSeq (OEcho (OGet (OVar nl) (OVar ni))) (OSeq OContinue OSkip))) (OAssign ni (OBin (BOp BAdd) (OVar ni) (OInt 1)))) OSkip));
   OEcho (OUn ULen (OVar nl))].
Example C55_for : parsed_o (body_o counting) = true /\ jumps_ok_o 0 (body_o counting) = true /\ (peak_o 0 (body_o counting) <= 128)%nat /\ (for_depth_o (body_o counting) <= 16)%nat /\
  machine_out counting 300 = Some (Ok tt, [52; 10; 49; 10]).
Proof. split; [reflexivity|]. split; [reflexivity|]. split; [vm_compute; repeat constructor|]. split; [vm_compute; repeat constructor|]. vm_compute. reflexivity. Qed.
Example C55_for_meaning : forall w ls ks r, exec_o (host_of w ls ks []) 5 4 (body_o counting) (OST (Env [[]] (fun _ => None) []) mem_new (fun _ => O)) r ->
  exists st, r = Done Normal st /\ e_out (o_env st) = [52; 10; 49; 10].
Proof.
  intros w ls ks r H. cbn [body_o counting fold_right] in H. statement H. statement H. tidy_out H.
  walk H. eexists. split; [hnf; reflexivity|vm_compute; reflexivity].
Qed.
