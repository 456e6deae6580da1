(** C25-C28, C44, C45: concrete cases. The hypotheses of the theorems of PropCompile.v are met by real programs, and what
    those theorems leave out is false: each [_refuted] theorem exhibits a program for which the code does something else. *)
From Verif Require Import Base Bytes Value Table Ops Ast Stmt Limits Constants VM Compiler ConstSpec Gen Program CompSpec SimBase CompProofs CompState PropCompile.

(** A host whose only library function that matters here is the text of one-digit ints. *)
Definition demo_world : world :=
  World (fun x _ => x) (fun _ _ _ => Err EType) (fun _ _ => Err EType) (fun v => match v with VInt i => Ok [48 + i] | VStr s => Ok s | _ => Ok [63] end) (fun _ _ => false).
Definition none : Z -> list value := fun _ => [].
Definition unset : name -> option value := fun _ => None.
(** The final outcome and output of the compiled program, and of the meaning of its source. *)
Definition observed (gs : list name) (pr : list stmt) : option (outcome unit * list Z) :=
  match compile_program 64 gs pr [] with
  | Ok b => match load b demo_world none none with
            | Ok P => match run 2000 P (vm_start unset) with Stop o s => Some (o, v_out s) | _ => None end
            | _ => None end
  | _ => None
  end.
Definition intended (gs : list name) (pr : list stmt) : option (outcome unit * list Z) :=
  match Stmt.exec (host_of demo_world none none gs) 100 (body pr) (Env [[]] unset []) with
  | XOk Normal st => Some (Ok tt, e_out st) | XStop o out => Some (o, out) | _ => None end.

Definition a : name := [97]. Definition b : name := [98]. Definition i : name := [105]. Definition x : name := [120]. Definition y : name := [121]. Definition g : name := [103].
Definition let_ (n : name) (e : expr) : stmt := SDecl [LLet n] [e].
Definition add_ l r := EBin (BOp BAdd) l r.
Definition lt_ l r := EBin (BOp BLt) l r.

(** ** The theorems apply to:
    [let a = 2; g = 0; for let i = 0; i < 9; i = i + 1 { if i == 6 { break; } else {}; if i < 3 { continue; } else {}; g = g + i; };
     for x <- "hi" { const y = g < 5 || x; echo x; }; a, let b = a + 5, a; echo a; echo b; echo g < 9 ? g : undef; assert b < a] *)
Definition big : list stmt :=
  [ let_ a (EInt 2);
    SAssign g (EInt 0);
    SBlock (SSeq (SLet i (EInt 0)) (SWhilePost (lt_ (EVar i) (EInt 9))
      (SBlock (SSeq (SIfElse (EBin (BOp BEq) (EVar i) (EInt 4)) (SBlock SBreak) (SBlock SSkip))
              (SSeq (SIf (lt_ (EVar i) (EInt 2)) (SBlock SContinue)) (SAssign g (add_ (EVar g) (EVar i))))))
      (SAssign i (add_ (EVar i) (EInt 1)))));
    SForIn x (EStr [104; 105]) (SBlock (SSeq (SDecl [LConst y] [ESc SOr (lt_ (EVar g) (EInt 5)) (EVar x)]) (SEcho (EVar x))));
    SDecl [LAssign a; LLet b] [add_ (EVar a) (EInt 5); EVar a];
    SEcho (EVar a); SEcho (EVar b); SEcho (ETri (lt_ (EVar g) (EInt 9)) (EVar g) EUndef);
    SAssert (lt_ (EVar b) (EVar a)) ].
Example C44_nonvacuous :
  legal_program [g] (body big) = true /\ live_jumps false (body big) = true /\ parsed (body big) = true /\ jumps_ok 0 (body big) = true
  /\ (peak 0 (body big) <= 128)%nat /\ (need (body big) <= 1024)%nat /\ (for_depth (body big) <= 16)%nat
  /\ Forall literal (literals (body big)) /\ Forall (fun n => literal (VStr n)) [g]
  /\ match compile_program 64 [g] big [] with Ok bytes => len bytes <= int_max | _ => False end
  /\ observed [g] big = Some (Ok tt, [104; 10; 105; 10; 55; 10; 50; 10; 53; 10])
  /\ intended [g] big = Some (Ok tt, [104; 10; 105; 10; 55; 10; 50; 10; 53; 10]).
Proof.
  split; [vm_compute; reflexivity|]. split; [vm_compute; reflexivity|]. split; [vm_compute; reflexivity|]. split; [vm_compute; reflexivity|].
  split; [apply Nat.leb_le; vm_compute; reflexivity|]. split; [apply Nat.leb_le; vm_compute; reflexivity|]. split; [apply Nat.leb_le; vm_compute; reflexivity|].
  split; [cbn [literals body fold_right big lits_e app map concat let_ add_ lt_]; repeat constructor; vm_compute; discriminate|].
  split; [repeat constructor; vm_compute; discriminate|].
  split; [vm_compute; discriminate|]. split; vm_compute; reflexivity.
Qed.

(** ** C10, C25, C26: the hypotheses about the pieces are met, e.g. by [false && (7 % 0)] and by [while false || undef { echo 7; }]
    compiled at the start of a program; both machines really run. *)
Definition got {A} (o : outcome A) : match o with Ok _ => A | _ => unit end := match o with Ok a => a | _ => tt end.
Definition start_c : cst := enter_scope (got compiler_new).
Definition demo_e : expr := ESc SAnd (EBool false) (EBin (BOp BMod) (EInt 7) (EInt 0)).
Definition demo_s : stmt := SWhile (ESc SOr (EBool false) EUndef) (SEcho (EInt 7)).
Definition after_e : cst := match visit_e 64 demo_e start_c with Ok c => c | _ => start_c end.
Definition after_s : cst := match visit_s 64 demo_s start_c with Ok c => c | _ => start_c end.
Definition demo_prog (c : cst) : prog :=
  Prog (c_buf c ++ [0]) (match setup_constants (return_bytes (c_pool c) [] []) with Ok K => K | _ => [] end) demo_world none none.
Example C10_C25_C26_nonvacuous :
  compiling 64 start_c /\ c_scopes start_c <> []
  /\ visit_e 64 demo_e start_c = Ok after_e /\ Forall literal (lits_e demo_e)
  /\ placed start_c after_e (host_of demo_world none none []) (demo_prog after_e) (vm_start unset) (Env [[]] unset []) [] [] (c_buf after_e)
  /\ left_decides SAnd (VBool false) /\ (exists n, run n (demo_prog after_e) (vm_start unset) = Next (set_stk (set_pc (vm_start unset) (len (c_buf after_e))) [VBool false]))
  /\ visit_s 64 demo_s start_c = Ok after_s /\ Forall literal (literals demo_s) /\ parsed demo_s = true /\ jumps_ok 0 demo_s = true
  /\ placed start_c after_s (host_of demo_world none none []) (demo_prog after_s) (vm_start unset) (Env [[]] unset []) [] [] (c_buf after_s)
  /\ (exists n, run n (demo_prog after_s) (vm_start unset) = Next (set_pc (vm_start unset) (len (c_buf after_s)))).
Proof.
  assert (C0 : compiling 64 start_c).
  { apply compiling_enter, compiling_new. vm_compute. reflexivity. }
  assert (Pl : forall c', (c' = after_e \/ c' = after_s) -> placed start_c c' (host_of demo_world none none []) (demo_prog c') (vm_start unset) (Env [[]] unset []) [] [] (c_buf c')).
  { assert (G : c_globals start_c = []) by (vm_compute; reflexivity).
    assert (B : c_buf start_c = []) by (vm_compute; reflexivity).
    assert (D : er (c_scopes start_c) = [[]]) by (vm_compute; reflexivity).
    assert (Q : forall c', (exists K, setup_constants (return_bytes (c_pool c') [] []) = Ok K /\
       (len (return_bytes (c_pool c') [] []) <=? int_max) && (len (c_buf c' ++ [0]) <=? int_max) && (Z.of_nat (length K) <=? int_max) = true) ->
       placed start_c c' (host_of demo_world none none []) (demo_prog c') (vm_start unset) (Env [[]] unset []) [] [] (c_buf c')).
    { intros c' (K & HK & HL). apply andb_prop in HL. destruct HL as [HL L3]. apply andb_prop in HL. destruct HL as [L1 L2].
      apply Z.leb_le in L1, L2, L3.
      assert (HP : p_consts (demo_prog c') = K) by (unfold demo_prog; cbn [p_consts]; rewrite HK; reflexivity).
      split.
      - exists [], [0]. split; [reflexivity|]. split; [reflexivity|]. unfold count. rewrite B. cbn. lia.
      - rewrite B. reflexivity.
      - exists K, []. rewrite HP, app_nil_r. auto.
      - rewrite HP. auto.
      - repeat split.
      - intros x. rewrite G. reflexivity.
      - rewrite D. reflexivity.
      - reflexivity.
      - reflexivity.
      - split; reflexivity. }
    intros c' [-> | ->]; apply Q; [exists [VInt 7; VInt 0]|exists [VInt 7]]; split; vm_compute; reflexivity. }
  split; [exact C0|]. 
  split; [vm_compute; discriminate|]. split; [vm_compute; reflexivity|].
  split; [repeat constructor; vm_compute; try discriminate; split; discriminate|].
  split; [apply Pl; auto|]. split; [right; left; reflexivity|]. split; [exists 3%nat; vm_compute; reflexivity|].
  split; [vm_compute; reflexivity|]. split; [repeat constructor; vm_compute; try discriminate; split; discriminate|].
  split; [reflexivity|]. split; [reflexivity|]. split; [apply Pl; auto|]. exists 6%nat. vm_compute. reflexivity.
Qed.

(** ** C26: break (or continue) with a variable declared in the loop body leaves that variable on the stack:
    [let a = 1; while true { let x = 5; break; }; let y = 7; echo y] prints 5. *)
Definition leaky : list stmt :=
  [let_ a (EInt 1); SWhile (EBool true) (SBlock (SSeq (let_ x (EInt 5)) SBreak)); let_ y (EInt 7); SEcho (EVar y)].
Theorem C26_break_refuted : exists pr, parsed (body pr) = true /\ legal_program [] (body pr) = true /\ live_jumps false (body pr) = true /\
  intended [] pr = Some (Ok tt, [55; 10]) /\ observed [] pr = Some (Ok tt, [53; 10]).
Proof. exists leaky. repeat match goal with |- _ /\ _ => split end; vm_compute; reflexivity. Qed.
Print Assumptions C26_break_refuted.
Definition leaky_continue : list stmt :=
  [let_ a (EInt 0); SWhile (lt_ (EVar a) (EInt 2)) (SBlock (SSeq (SAssign a (add_ (EVar a) (EInt 1))) (SSeq (let_ x (add_ (EVar a) (EInt 4))) SContinue))); let_ y (EInt 7); SEcho (EVar y)].
Theorem C26_continue_refuted : exists pr, parsed (body pr) = true /\ legal_program [] (body pr) = true /\ live_jumps false (body pr) = true /\
  intended [] pr = Some (Ok tt, [55; 10]) /\ observed [] pr = Some (Ok tt, [53; 10]).
Proof. exists leaky_continue. repeat match goal with |- _ /\ _ => split end; vm_compute; reflexivity. Qed.
Print Assumptions C26_continue_refuted.
(** The third clause of [for let i = 0; i < 1; i + 2 { i = 1; }] is an expression statement, which the parser wraps in a second
    expression statement (/repo/compiler/parser.c:203, 519): one pop too many removes [i]. [SPop] is that second wrapper. *)
Definition post_loop (post : stmt) : list stmt :=
  [SBlock (SSeq (SLet i (EInt 0)) (SWhilePost (lt_ (EVar i) (EInt 1)) (SBlock (SAssign i (EInt 1))) post)); SEcho (EInt 7)].
Theorem C26_post_refuted : exists e, legal_program [] (body (post_loop (SExpr e))) = true /\
  intended [] (post_loop (SExpr e)) = Some (Ok tt, [55; 10]) /\ observed [] (post_loop (SPop (SExpr e))) = Some (UB, []).
Proof. exists (add_ (EVar i) (EInt 2)). repeat match goal with |- _ /\ _ => split end; vm_compute; reflexivity. Qed.
Print Assumptions C26_post_refuted.
(** [let x = 1, 2; let y = 7; echo y]: the parser and the compiler accept the second value, which takes the slot of [y]. *)
Theorem C26_extra_value_refuted : observed [] [SDecl [LLet x] [EInt 1; EInt 2]; let_ y (EInt 7); SEcho (EVar y)] = Some (Ok tt, [50; 10]).
Proof. vm_compute. reflexivity. Qed.
Print Assumptions C26_extra_value_refuted.

(** ** C27: [while false { break; }] is legal and is rejected. *)
Theorem C27_false_loop_refuted : exists pr, parsed (body pr) = true /\ legal_program [] (body pr) = true /\ forall fuel, compile_program fuel [] pr [] = Err ESyntax.
Proof. exists [SWhile (EBool false) (SBlock SBreak)]. repeat split. Qed.
Print Assumptions C27_false_loop_refuted.
(** After a source with a parse error ([let x = 1; )]) and a reset, [let y = 7; echo y] is compiled as if [x] were still in
    scope; on the empty stack its slot does not exist. *)
(** What the second program does after a first source with a parse error at its end, on the same state. *)
Definition after_parse_error (gs : list name) (p1 p2 : list stmt) : option (outcome unit * list Z) :=
  match (do c0 <- compiler_new; do c <- declglobals 64 gs c0; do c <- compile_parse_error 64 p1 c; execute 64 2000 p2 [] demo_world none none c (vm_start unset)) with
  | Ok (Stop o s, _) => Some (o, v_out s) | _ => None end.
Theorem C27_parse_error_refuted : exists p1 p2, parsed (body p2) = true /\ legal_program [] (body p2) = true /\
  intended [] p2 = Some (Ok tt, [55; 10]) /\ after_parse_error [] p1 p2 = Some (UB, []).
Proof. exists [let_ x (EInt 1)], [let_ y (EInt 7); SEcho (EVar y)]. split; [|split; [|split]]; vm_compute; reflexivity. Qed.
Print Assumptions C27_parse_error_refuted.
Example C27_nonvacuous :
  legal_program [g] (body [let_ a (EInt 1); SBlock (SSeq (let_ a (EInt 2)) (SAssign g (EVar a)))]) = true
  /\ legal_program [g] (body [let_ a (EInt 1); let_ a (EInt 2)]) = false
  /\ legal_program [g] (body [SConst a (EInt 1); SAssign a (EInt 2)]) = false
  /\ legal_program [g] (body [SEcho (EVar a)]) = false /\ legal_program [g] (body [SBreak]) = false
  /\ compile_program 64 [g] [let_ a (EInt 1); let_ a (EInt 2)] [] = Err ESyntax
  /\ compile_program 64 [g] [SConst a (EInt 1); SAssign a (EInt 2)] [] = Err ESyntax
  /\ compile_program 64 [g] [SEcho (EVar a)] [] = Err ESyntax /\ compile_program 64 [g] [SBreak] [] = Err ESyntax.
Proof. repeat match goal with |- _ /\ _ => split end; vm_compute; reflexivity. Qed.

(** ** C28: the compiler accepts 255 variables; the 129th is read from below the frame. *)
Definition many (n : nat) : list stmt := map (fun k => let_ [120; Z.of_nat k] (EInt 7)) (seq 0 n).
Theorem C28_locals_refuted : exists pr v, parsed (body pr) = true /\ legal_program [] (body pr) = true /\ (peak 0 (body pr) = 129)%nat /\
  intended [] (pr ++ [SEcho (EVar v)]) = Some (Ok tt, [55; 10]) /\ observed [] (pr ++ [SEcho (EVar v)]) = Some (UB, []).
Proof. exists (many 129), [120; 128]. repeat match goal with |- _ /\ _ => split end; vm_compute; reflexivity. Qed.
Print Assumptions C28_locals_refuted.
Example C28_nonvacuous : observed [] (many 128 ++ [SAssign [120; 127] (EInt 5); SEcho (EVar [120; 127])]) = Some (Ok tt, [53; 10]).
Proof. vm_compute. reflexivity. Qed.

(** ** C45: variables declared at top level by the first program stay on the stack; [let x = 1] and then, on the same state,
    [let y = 7; echo y] prints 1. *)
Definition after_program (gs : list name) (p1 p2 : list stmt) : option (outcome unit * list Z) :=
  match (do c0 <- compiler_new; do c <- declglobals 64 gs c0; execute 64 2000 p1 [] demo_world none none c (vm_start unset)) with
  | Ok (Stop (Ok tt) s, c) => match execute 64 2000 p2 [] demo_world none none c s with Ok (Stop o s, _) => Some (o, v_out s) | _ => None end
  | _ => None end.
Theorem C45_second_program_refuted : exists p1 p2, parsed (body p1) = true /\ legal_program [] (body p1) = true /\ parsed (body p2) = true /\ legal_program [] (body p2) = true /\
  intended [] p2 = Some (Ok tt, [55; 10]) /\ after_program [] p1 p2 = Some (Ok tt, [49; 10]).
Proof. exists [let_ x (EInt 1)], [let_ y (EInt 7); SEcho (EVar y)]. split; [|split; [|split; [|split; [|split]]]]; vm_compute; reflexivity. Qed.
Print Assumptions C45_second_program_refuted.
Definition p1 : list stmt := [SAssign g (EInt 8); SEcho (EVar g)].
Definition p2 : list stmt := [SBlock (SSeq (let_ a (add_ (EVar g) (EInt 1))) (SEcho (EVar a)))].
Lemma sess_inv (X : outcome cst) (Y : cst -> outcome cst) (fZ : cst -> outcome (sres * cst)) (W : cst -> outcome (list Z)) (V : xres) (o : list Z * option value) :
  match (do c0 <- X; do c <- Y c0; fZ c) with Ok (Stop (Ok tt) _, _) => true | _ => false end = true ->
  match (do c0 <- X; do c <- Y c0; W c) with Ok bs => len bs <=? int_max | _ => false end = true ->
  match V with XOk Normal st => (e_out st, e_globals st g) | _ => ([], None) end = o -> o <> ([], None) ->
  exists c0 c s' c' st bs, X = Ok c0 /\ Y c0 = Ok c /\ fZ c = Ok (Stop (Ok tt) s', c') /\ W c = Ok bs /\ len bs <= int_max /\ V = XOk Normal st /\ (e_out st, e_globals st g) = o.
Proof.
  intros F F2 F3 No. destruct X as [c0| | |]; try discriminate F. cbn [bind] in F, F2. destruct (Y c0) as [c| | |] eqn:EY; try discriminate F. cbn [bind] in F, F2.
  destruct (fZ c) as [[[|[[]| | |] s'|] c']| | |] eqn:EZ; try discriminate F. destruct (W c) as [bs| | |] eqn:EW; try discriminate F2. destruct V as [[| |] st| | |]; try congruence.
  exists c0, c, s', c', st, bs. split; [auto|]. split; [auto|]. split; [auto|]. split; [auto|]. split; [apply Z.leb_le; exact F2|]. split; auto.
Qed.
Example C45_nonvacuous : after_program [g] p1 p2 = Some (Ok tt, [56; 10; 57; 10]) /\
  exists c s gl, served 64 demo_world none none [g] c s gl [56; 10] /\ gl g = Some (VInt 8).
Proof.
  split; [vm_compute; reflexivity|].
  destruct (sess_inv compiler_new (declglobals 64 [g]) (fun c => execute 64 100 p1 [] demo_world none none c (vm_start unset))
    (fun c => do r <- compile 64 p1 c; Ok (return_bytes (c_pool (snd r)) (fst r) []))
    (Stmt.exec (host_of demo_world none none [g]) 10 (body p1) (Env [[]] unset [])) ([56; 10], Some (VInt 8)))
    as (c0 & c & s' & c' & st & bs & E0 & E1 & E2 & E3 & E4 & E5 & E6).
  1-3: vm_compute; reflexivity.
  1: discriminate.
  injection E6 as O1 O2. exists c', s', (e_globals st). split; [|exact O2]. rewrite <- O1.
  refine (served_next 64 demo_world none none [g] c (vm_start unset) unset [] p1 [] 100 s' c' 10 st (served_new 64 demo_world none none [g] c0 c unset E0 E1) _ _ _ _ _ _ _ _ E2 E5).
  - cbn [literals body fold_right p1 lits_e app map concat]. repeat constructor; vm_compute; discriminate.
  - reflexivity.
  - reflexivity.
  - reflexivity.
  - apply Nat.leb_le; vm_compute; reflexivity.
  - apply Nat.leb_le; vm_compute; reflexivity.
  - apply Nat.leb_le; vm_compute; reflexivity.
  - intros r Er. cbv beta in E3. rewrite Er in E3. cbn [bind] in E3. injection E3 as <-. exact E4.
Qed.

(** ** C43: seventeen for loops inside one another, each over a one-byte string: the source prints 7 once; the machine
    writes outside its array of loops. *)
Fixpoint nested (n : nat) (k : Z) : stmt := match n with O => SEcho (EInt 7) | S n' => SForIn [120; k] (EStr [97]) (SBlock (nested n' (k + 1))) end.
Theorem C43_nested_for_refuted : legal_program [] (body [nested 17 0]) = true /\ observed [] [nested 16 0] = Some (Ok tt, [55; 10]) /\
  intended [] [nested 17 0] = Some (Ok tt, [55; 10]) /\ observed [] [nested 17 0] = Some (UB, []).
Proof. repeat match goal with |- _ /\ _ => split end; vm_compute; reflexivity. Qed.
Print Assumptions C43_nested_for_refuted.
