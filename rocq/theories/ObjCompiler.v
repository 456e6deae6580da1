(** * The code generator for programs with lists and tables: model of /repo/compiler/compiler.c outside function bodies. Continues
    Compiler.v, whose state and emitting functions it uses. *)
From Verif Require Import Base Bytes Value Table Ops Ast Stmt Constants VM Compiler Obj Program.

Section Compiler.
Variable fuel : nat.

(** Expressions, compiler.c:1155-1350; [visit_MethodCall] :448-461 ([expected_returns] is 1, as set by [NEW_COMPILER], compiler.h:62-90,
    and by the [N_VARIADIC_CONTEXT] of a declaration with one variable, parser.c:439-444), [visit_Get] :503-507, [make_new_collection],
    [visit_List], [visit_Table] :1357-1370. The name of a method goes to the constants like a string literal. *)
Fixpoint visit_oe (e : oexpr) (c : cst) : outcome cst :=
  match e with
  | OUndef => Ok (emit c (op O_NCONST))
  | OBool b => Ok (emit c (op (if b then O_BCONST_T else O_BCONST_F)))
  | OInt i => add_literal fuel c (VInt i)
  | OFloat f => add_literal fuel c (VFloat f)
  | OStr s => add_literal fuel c (VStr s)
  | OVar x => load_var fuel c x
  | OUn o e1 => do c <- visit_oe e1 c; Ok (emit c (op (O_UN o)))
  | OBin o l r => do c <- visit_oe l c; do c <- visit_oe r c; Ok (emit c (bop_code o))
  | OSc o l r =>
      do c <- visit_oe l c;
      let c := emit c (op O_DUP) in
      let (c, index) := enter_jmp c (sc_jump o) in
      let c := emit c (op O_POP) in
      do c <- visit_oe r c; Ok (exit_jmp c index)
  | OTri l m r =>
      do c <- visit_oe l c;
      let (c, index_l) := enter_jmp c O_BRF_8 in
      do c <- visit_oe m c;
      let (c, index_r) := enter_jmp c O_BR_8 in
      let c := exit_jmp c index_l in
      do c <- visit_oe r c; Ok (exit_jmp c index_r)
  | OList es => do c <- visit_as es (emit c (op O_END)); Ok (emit c (op O_NEWLIST))
  | OTable es => do c <- visit_as es (emit c (op O_END)); Ok (emit c (op O_NEWTABLE))
  | OGet l k => do c <- visit_oe l c; do c <- visit_oe k c; Ok (emit c (op O_GET))
  | OMeth l x es =>
      do c <- visit_oe l c;
      do r <- intern fuel (c_pool c) (VStr x);
      let c := emit (set_pool c (snd r)) (op O_INIT_MC ++ [1] ++ enc8 (fst r)) in
      do c <- visit_as es c;
      Ok (emit c (op O_CALL))
  end
with visit_as (es : oargs) (c : cst) : outcome cst :=
  match es with ANil => Ok c | ACons e r => do c <- visit_oe e c; visit_as r c end.

Definition o_truthy (e : oexpr) : bool := match e with OInt _ => true | OBool b => b | _ => false end.
Definition o_falsey (e : oexpr) : bool := match e with OUndef => true | OBool b => negb b | _ => false end.

(** Statements; line numbers as in Compiler.v; [visit_Set] compiler.c:496-501, [visit_Decl] :1121-1153, [visit_ExprStmt] :358-378. *)
Fixpoint visit_os (s : ostmt) (c : cst) : outcome cst :=
  match s with
  | OSkip => Ok c
  | OSeq a b => do c <- visit_os a c; visit_os b c
  | OExpr e =>
      match e with
      | OStr _ | OInt _ | OFloat _ | OBool _ | OUndef => Ok c
      | OVar _ => validate (visit_oe e) c
      | _ => do c <- visit_oe e c; Ok (emit c (op O_POP))
      end
  | OLet k x e =>
      do c <- visit_oe e c;
      if in_current c x then Err ESyntax else
      do c <- decl_var fuel c x;
      do c <- match c_scopes c with [] => store_var fuel (emit c (op O_MOVEUP_FP ++ [0])) x | _ => Ok c end;
      Ok (if k then make_const c x else c)
  | OAssign x e => if contains_var c x then do c <- visit_oe e c; store_var fuel c x else Err ESyntax
  | OSet l k v => do c <- visit_oe l c; do c <- visit_oe k c; do c <- visit_oe v c; Ok (emit c (op O_SET))
  | OBlock b => do c <- visit_os b (enter_scope c); Ok (exit_scope c)
  | OIf cond a =>
      if o_truthy cond then visit_os a c
      else if o_falsey cond then validate (visit_os a) c
      else do c <- visit_oe cond c;
           let (c, index_then) := enter_jmp c O_BRF_8 in
           do c <- visit_os a c; Ok (exit_jmp c index_then)
  | OIfElse cond a b =>
      if o_truthy cond then do c <- visit_os a c; validate (visit_os b) c
      else if o_falsey cond then do c <- validate (visit_os a) c; visit_os b c
      else do c <- visit_oe cond c;
           let (c, index_then) := enter_jmp c O_BRF_8 in
           do c <- visit_os a c;
           let (c, index_else) := enter_jmp c O_BR_8 in
           let c := exit_jmp c index_then in
           do c <- visit_os b c; Ok (exit_jmp c index_else)
  | OWhile cond b =>
      if o_falsey cond then validate (visit_os b) c else
      let index_start := count c in
      let c := set_cps c (index_start :: c_cps c) in
      do c <- visit_oe cond c;
      let c := set_cps c (count c :: c_cps c) in
      let (c, index_second) := enter_jmp c O_BRF_8 in
      do c <- visit_os b c;
      let c := branch_back c index_start in
      let c := exit_jmp c index_second in
      Ok (set_cps c (tl (tl (c_cps c))))
  | OWhilePost cond b post =>                                     (* as in Compiler.v *)
      if o_falsey cond then do c <- validate (visit_os b) c; validate (visit_os post) c else
      let (c, index) := enter_jmp c O_BR_8 in
      let index_start := count c in
      do c <- visit_os post c;
      let c := exit_jmp c index in
      let c := set_cps c (index_start :: c_cps c) in
      do c <- visit_oe cond c;
      let c := set_cps c (count c :: c_cps c) in
      let (c, index_second) := enter_jmp c O_BRF_8 in
      do c <- visit_os b c;
      let c := branch_back c index_start in
      let c := exit_jmp c index_second in
      Ok (set_cps c (tl (tl (c_cps c))))
  | OForIn x e b =>
      let c := enter_scope c in
      do c <- visit_oe e c;
      let c := emit c (op O_INITFOR ++ op O_END) in
      do c <- decl_var fuel c x;
      let index_start := count c in
      let c := set_cps c (index_start :: c_cps c) in
      let c := emit c (op O_ITER_1) in
      let c := set_cps c (count c :: c_cps c) in
      let (c, index_second) := enter_jmp c O_BRF_8 in
      do c <- store_var fuel c x;
      do c <- visit_os b c;
      let c := branch_back c index_start in
      let c := exit_jmp c index_second in
      let c := exit_scope (emit c (op O_ENDFOR)) in
      Ok (set_cps c (tl (tl (c_cps c))))
  | OBreak => match c_cps c with
              | [] => Err ESyntax | cp :: _ => Ok (branch_back (emit c (op O_BCONST_F)) cp) end
  | OContinue => match c_cps c with
                 | _ :: cp :: _ => Ok (branch_back c cp) | [_] => UB | [] => Err ESyntax end
  | OEcho e => do c <- visit_oe e c; Ok (emit c (op O_ECHO ++ [scope_len (c_scopes c) mod 256]))
  | OAssert e => do c <- visit_oe e c; Ok (emit c (op O_ASS))
  end.

(** [compile], compiler.c:312-335, as in Compiler.v and Program.v. *)
Fixpoint compile_ostmts (ss : list ostmt) (code : list Z) (c : cst) : outcome (list Z * cst) :=
  match ss with
  | [] => Ok (code, c)
  | s :: r => do c' <- visit_os s c; compile_ostmts r (code ++ c_buf c') (set_buf c' [])
  end.
Definition compile_o (ss : list ostmt) (c : cst) : outcome (list Z * cst) :=
  do r <- compile_ostmts ss [] (enter_scope c);
  Ok (fst r, exit_scope (snd r)).
Definition compile_oprogram (gs : list name) (prog : list ostmt) (lines : list Z) : outcome (list Z) :=
  do c <- compiler_new;
  do c <- declglobals fuel gs c;
  do r <- compile_o prog c;
  Ok (return_bytes (c_pool (snd r)) (fst r) lines).
End Compiler.
(** the statements of a program, one after the other *)
Definition body_o (prog : list ostmt) : ostmt := fold_right OSeq OSkip prog.
