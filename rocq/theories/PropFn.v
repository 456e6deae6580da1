(** * C51: programs with functions. *)
From Verif Require Import Base Bytes BytesProofs Value Table Ops Ast Stmt Limits Constants VM Compiler ValueProofs TableSpec ConstSpec ConstProofs Gen GenProofs GenProofs2 SimBase Sim Program ProgProofs CallSpec CallProofs.
From Verif Require Import Fn FnSpec FnCompiler FnCode FnGen FnGen2 FnGen5 FnSim FnSim2 FnSim3 FnSim4.

(** ** C51: a program with functions behaves as it reads. *)
(** The compiled program [P] does what the text [s] means: same output, same globals, same way of ending; [d] calls may be active at a
    time, [kind] says which function literals denote one function. *)
Definition behaves (h : host) (kind : nat -> option Z) (P : prog) (d : nat) (s : fstmt) (gl : name -> option value) : Prop := forall n,
  match fexec h kind n d s (fstart gl []) with
  | Fn.RVal None st => exists k s', run k P (vm_start gl) = Stop (Ok tt) s' /\ v_out s' = s_out st /\ v_gl s' = s_gl st /\ v_stk s' = map bval (s_file st)
  | Fn.RVal (Some _) _ | RStuck => False
  | RStop o out => exists k s', run k P (vm_start gl) = Stop o s' /\ v_out s' = out
  | RFuel => exists s', run n P (vm_start gl) = Next s'
  | RDeep | ROut => True
  end.

Theorem C51_functions_partial : forall fuel gs pr lines bytes w ls ks M d,
  fcompile_program fuel gs pr lines = Ok bytes -> Z.of_nat (length bytes) <= int_max ->
  Forall (fun x => literal (VStr x)) gs -> Forall literal (flits_s (fbody pr)) -> plain_s (InFile [[]]) (fbody pr) = true -> NoDup (labels_s (fbody pr)) ->
  (fpeak 0 (fbody pr) <= 128)%nat -> small_s M (fbody pr) = true -> (fneed (fbody pr) + d * M <= 1000)%nat ->
  exists P kind, load bytes w ls ks = Ok P /\ (forall l l' a, kind l = Some a -> kind l' = Some a -> l = l') /\
    forall gl, behaves (host_of w ls ks gs) kind P d (fbody pr) gl.
Proof.
  intros fuel gs pr lines bytes w ls ks M d E LB Fg Fl Pl Nd Pk Sm Rm. destruct (fcompile_inv _ _ _ _ _ E Fg Pl Fl Nd) as (G & p & cs & kind & code & Go & Pp & Gl & Ki & Cs & EB).
  assert (Lh : Z.of_nat (length (cp_hdr p)) + Z.of_nat (length code) + 25 + Z.of_nat (length lines) = Z.of_nat (length bytes)).
  { rewrite EB. unfold return_bytes. rewrite !app_length, !enc8_length. cbn [length]. lia. }
  assert (Lc : Z.of_nat (length cs) <= Z.of_nat (length (cp_hdr p))).
  { destruct Pp as (m & PI). rewrite (pi_hdr _ _ _ PI). pose proof (enc_consts_len cs (pi_lit _ _ _ PI)). lia. }
  destruct (layout_ok p code lines ltac:(lia)) as (e & E1 & E2 & E3). rewrite <- EB in E1, E3.
  unfold load. rewrite E1. cbn [bind]. pose proof (pool_setup p cs code lines Pp ltac:(lia)) as PS. rewrite <- EB in PS. rewrite PS. cbn [bind]. rewrite E3.
  eexists. exists kind. split; [reflexivity|]. split; [exact Ki|]. set (P := Prog (code ++ [Constants.O_HALT] ++ lines) cs w ls ks). intros gl n.
  assert (C : code_at P 0 (code ++ [Constants.O_HALT] ++ lines)) by (exists [], []; rewrite app_nil_r; split; reflexivity).
  assert (HK : len (p_code P) <= int_max /\ Z.of_nat (length (p_consts P)) <= int_max).
  { cbn [P p_code p_consts]. unfold len. rewrite !app_length. cbn [length]. lia. }
  set (h := host_of w ls ks gs). assert (HG : forall x, h_decl h x = option_map is_const (assoc G x)) by (intros x; exact (eq_sym (Go x))).
  pose proof (call_ok P h G kind M eq_refl HG Gl HK n d) as CO.
  set (x := Cx (-1) [] [] (-1)). set (m := Mem [] [] []).
  pose proof (proj2 (proj2 (all_ok P h G kind M eq_refl HG Gl HK n d (fcall h kind n d) CO)) (fbody pr) (SFile [[]]) x (fstart gl []) m 0 code _ Cs C) as Q.
  assert (He : here (SFile [[]]) x (fstart gl []) m) by (repeat split).
  assert (Iv : Inv P G kind M (fstart gl []) m) by (split; [discriminate|repeat split; constructor]).
  specialize (Q He Iv Sm ltac:(discriminate)). change (Z.to_nat (scope_len (sc (SFile [[]])))) with 0%nat in Q. specialize (Q ltac:(lia)).
  assert (Ro : room M d (SFile [[]]) x (fstart gl []) [] (fneed (fbody pr))).
  { split; change (hgt (SFile [[]]) x (fstart gl []) []) with 0; [|cbn; lia]. lia. }
  specialize (Q Ro I). change (att x 0 [] (fstart gl []) m) with (vm_start gl) in Q. unfold fexec.
  destruct (exec_s h kind n (fcall h kind n d) (fbody pr) (fstart gl [])) as [[u|] st|o out| | | |]; cbn [ends SP] in Q; try exact Q; try exact I.
  - destruct Q as (m1 & (k & _ & S) & (H1 & H2 & H3 & H4) & _). apply code_at_r in C. exists (k + 1)%nat. eexists. split.
    + rewrite run_app, S. cbn [run]. change [Constants.O_HALT] with (op VM.O_HALT) in C. rewrite (step_op P _ VM.O_HALT lines) by (exact C). cbn [VM.exec]. reflexivity.
    + destruct (s_loc st) as [|b0 l0] eqn:El; [|].
      * cbn. unfold stack. rewrite El. cbn. auto.
      * exfalso. unfold s_after in H4. assert (Ls : length (fafter [[]] (fbody pr)) = 1%nat). { destruct (fafter_shape (fbody pr) [] []) as (u & Eu & _). exact (f_equal (@length _) Eu). }
        cbn [set_sc sc] in H4. assert (AL : forall ss es, agree ss es -> length ss = length es) by (induction ss; intros [|]; cbn; intuition). apply AL in H4. rewrite Ls in H4. cbn [length app] in H4. rewrite app_length in H4. cbn [length] in H4. lia.
  - destruct Q as (k & s' & L & S). replace k with (n + (k - n))%nat in S by lia. rewrite run_app in S. destruct (run n P (vm_start gl)) as [s1| |]; [eauto|discriminate..].
Qed.
Print Assumptions C51_functions_partial.

(** ** Concrete cases. *)
Definition demo_world : world :=
  World (fun x _ => x) (fun _ _ _ => Err EType) (fun _ _ => Err EType) (fun v => match v with VInt i => Ok [48 + i] | VStr s => Ok s | _ => Ok [63] end) (fun _ _ => false).
Definition none : Z -> list value := fun _ => [].
Definition unset : name -> option value := fun _ => None.
Definition nn : name := [110]. Definition nf : name := [102]. Definition ng : name := [103]. Definition nx : name := [120]. Definition ny : name := [121].
Definition ret (e : fexpr) : fstmt := FReturn (FCtx (-1) e).
Definition call1 (f : name) (e : fexpr) : fexpr := FCall (FVar f) (ACons e ANil).
Definition plus (a b : fexpr) : fexpr := FBin (BOp BAdd) a b.
(** [let x = 0; const fn f(n) { x = x + 1; if n < 2 { return n }; return f(n + -1) + f(n + -2) }; let g = fn(f, y) { return f(y) };
    echo g(f, 4); echo x; let y = f] *)
Definition counted : list fstmt :=
 [ FLet false nx (FInt 0);
   FFnDecl true nf 1%nat [(nn, false)]
     (FSeq (FAssign nx (plus (FVar nx) (FInt 1)))
     (FSeq (FIf (FBin (BOp BLt) (FVar nn) (FInt 2)) (ret (FVar nn)))
           (ret (plus (call1 nf (plus (FVar nn) (FInt (-1)))) (call1 nf (plus (FVar nn) (FInt (-2))))))));
   FLet false ng (FFn 2%nat [(nf, false); (ny, false)] (ret (call1 nf (FVar ny))));
   FEcho (FCall (FVar ng) (ACons (FVar nf) (ACons (FInt 4) ANil)));
   FEcho (FVar nx);
   FLet true ny (FVar nf) ].
(** The theorem applies to it, and its meaning is that it ends after printing 3 and 9, however deep calls may be and whichever literals
    are closures. *)
Lemma C51_example : exists bytes, fcompile_program 100 [] counted [] = Ok bytes /\ Z.of_nat (length bytes) <= int_max /\ Forall literal (flits_s (fbody counted)) /\
  plain_s (InFile [[]]) (fbody counted) = true /\ NoDup (labels_s (fbody counted)) /\ (fpeak 0 (fbody counted) <= 128)%nat /\ small_s 6 (fbody counted) = true /\ (fneed (fbody counted) + 100 * 6 <= 1000)%nat /\
  exists st, fexec (host_of demo_world none none []) (fun l => if (l =? 2)%nat then Some 90 else None) 0 100 (fbody counted) (fstart unset []) = Fn.RVal None st /\ s_out st = [51; 10; 57; 10].
Proof.
  destruct (fcompile_program 100 [] counted []) as [bytes| | |] eqn:E; try (vm_compute in E; discriminate E). exists bytes. split; [reflexivity|]. split; [vm_compute in E; injection E as <-; vm_compute; discriminate|].
  split; [repeat constructor; cbn; unfold in_i64, int_min, int_max; lia|]. split; [reflexivity|]. split; [repeat (constructor; [cbn; intuition discriminate|]); constructor|]. split; [vm_compute; repeat constructor|]. split; [reflexivity|]. split; [vm_compute; repeat constructor|].
  eexists. split; [vm_compute; reflexivity|reflexivity].
Qed.
(** What the compiled program prints. *)
Definition printed (pr : list fstmt) : option (outcome unit * list Z) :=
  match fcompile_program 100 [] pr [] with
  | Ok b => match load b demo_world none none with
            | Ok P => match run 2000 P (vm_start unset) with Stop o s => Some (o, v_out s) | _ => None end
            | _ => None end
  | _ => None
  end.
Lemma C51_example_printed : printed counted = Some (Ok tt, [51; 10; 57; 10]).
Proof. vm_compute. reflexivity. Qed.

(** ** Outside the fragment the property is false. *)
(** [const fn f() { f = 1; } f(); echo f;]: the constant is assigned (a constant declared in any other way may not be). *)
Definition self_assign : list fstmt := [FFnDecl true nf 0%nat [] (FAssign nf (FInt 1)); FExpr (FCall (FVar nf) ANil); FEcho (FVar nf)].
Theorem C51_const_fn_refuted : plain_s (InFile [[]]) (fbody self_assign) = false /\ printed self_assign = Some (Ok tt, [49; 10]) /\
  forall kind P, ~ behaves (host_of demo_world none none []) kind P 1 (fbody self_assign) unset.
Proof.
  split; [reflexivity|]. split; [vm_compute; reflexivity|]. intros kind P B. specialize (B O). cbn [fbody self_assign fold_right] in B. unfold fexec in B.
  cbn -[value_eq_dec] in B. destruct (kind O); cbn -[value_eq_dec] in B; (match type of B with context [value_eq_dec ?a ?b] => destruct (value_eq_dec a b) as [_|N]; [|congruence] end); exact B.
Qed.
Print Assumptions C51_const_fn_refuted.
(** [fn f(x, x) { return x; }] is accepted. *)
Theorem C51_params_refuted : exists bytes, fcompile_program 100 [] [FFnDecl false nf 0%nat [(nx, false); (nx, false)] (ret (FVar nx))] [] = Ok bytes.
Proof. destruct (fcompile_program 100 [] _ []) as [bytes| | |] eqn:E; [eauto|vm_compute in E; discriminate E..]. Qed.
Print Assumptions C51_params_refuted.
(** [fn f() { return 1, 2; } fn g() { return f() + 3; } let x = g(); echo x;] prints 1: inside a returned expression a call delivers all its
    results, and 2 + 3 becomes the second result of g. Where one result is asked for, [let y = f() + 3; echo y;] prints 4. *)
Definition two : fstmt := FFnDecl false nf 0%nat [] (FReturns (ACons (FInt 1) (ACons (FInt 2) ANil))).
Theorem C51_returned_call_refuted :
  printed [two; FFnDecl false ng 1%nat [] (ret (plus (FCall (FVar nf) ANil) (FInt 3))); FLet false nx (FCtx 1 (FCall (FVar ng) ANil)); FEcho (FVar nx)] = Some (Ok tt, [49; 10]) /\
  printed [two; FLet false ny (plus (FCall (FVar nf) ANil) (FInt 3)); FEcho (FVar ny)] = Some (Ok tt, [52; 10]).
Proof. split; vm_compute; reflexivity. Qed.
Print Assumptions C51_returned_call_refuted.
(** [let f = undef; { let x = 1; f = fn() { return x; }; } let y = 5; echo f();] prints 5: the block does not close the variable captured
    in it, whose slot is used again. *)
Theorem C51_block_capture_refuted :
  printed [FLet false nf FUndef; FBlock (FSeq (FLet false nx (FInt 1)) (FAssign nf (FFn 0%nat [] (ret (FVar nx))))); FLet false ny (FInt 5); FEcho (FCall (FVar nf) ANil)] = Some (Ok tt, [53; 10]).
Proof. vm_compute. reflexivity. Qed.
Print Assumptions C51_block_capture_refuted.
(** [fn g(n) { if n < 1 { return 0; } let x = 1; let f = fn() { return x; }; return f; }]: only the return after the closure closes
    the captured variable; in [fn g() { let x = 1; let f = undef; let n = 0; while n < 2 { if n == 1 { return f; } f = fn() { return x; }; n = n + 1; } }
    let y = g(); let x = 7; echo y();] the return before it is the one taken, and the closure reads the slot of another variable. *)
Theorem C51_early_return_refuted :
  printed [FFnDecl false ng 0%nat [] (FSeq (FLet false nx (FInt 1)) (FSeq (FLet false nf FUndef) (FSeq (FLet false nn (FInt 0))
      (FWhile (FBin (BOp BLt) (FVar nn) (FInt 2)) (FSeq (FIf (FBin (BOp BEq) (FVar nn) (FInt 1)) (ret (FVar nf)))
         (FSeq (FAssign nf (FFn 1%nat [] (ret (FVar nx)))) (FAssign nn (plus (FVar nn) (FInt 1)))))))));
    FLet false ny (FCtx 1 (FCall (FVar ng) ANil)); FLet false nx (FInt 7); FEcho (FCall (FVar ny) ANil)] = Some (Ok tt, [55; 10]).
Proof. vm_compute. reflexivity. Qed.
Print Assumptions C51_early_return_refuted.
