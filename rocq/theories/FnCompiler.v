(** * The code generator with functions: model of /repo/compiler/compiler.c and /repo/compiler/env.c for function literals,
    calls, returns and captured variables. The parts that do not depend on functions are those of Compiler.v. Checkpoints
    (break, continue) are left out: the syntax of Fn.v has neither. *)
From Verif Require Import Base Bytes Value Table Ops Ast Stmt Constants VM Compiler Program Fn.

(** [struct Env], /repo/compiler/env.h:22-29: the scopes of a function, the captured variables in the order in which they
    got their indices, with the byte to write ([upval_indices], [upval_values]), [isclosure], [usedinclosure]. *)
Record fenv : Type := FE { fe_scopes : list scope; fe_ups : list (name * Z); fe_clo : bool; fe_used : bool }.
(** The compiler; [f_envs] is the chain [compiler->params], innermost first; [c_scopes (f_c c)] is [compiler->stack]. *)
Record fcst : Type := FC { f_c : cst; f_envs : list fenv }.

(** [get_scope_in_use], compiler.c:138-140. *)
Definition cur (c : fcst) : list scope := match f_envs c with [] => c_scopes (f_c c) | e :: _ => fe_scopes e end.
Definition set_cur (c : fcst) (ss : list scope) : fcst :=
  match f_envs c with
  | [] => FC (set_scopes (f_c c) ss) []
  | e :: r => FC (f_c c) (FE ss (fe_ups e) (fe_clo e) (fe_used e) :: r)
  end.
(** Functions of Compiler.v that work on the scope in use: run them on that scope. *)
Definition view (c : fcst) : cst := set_scopes (f_c c) (cur c).
Definition unview (c : fcst) (d : cst) : fcst := set_cur (FC (set_scopes d (c_scopes (f_c c))) (f_envs c)) (c_scopes d).
Definition on_cur (f : cst -> outcome cst) (c : fcst) : outcome fcst := omap (unview c) (f (view c)).
Definition on_c (f : cst -> cst) (c : fcst) : fcst := FC (f (f_c c)) (f_envs c).
Definition femit (c : fcst) (bs : list Z) : fcst := on_c (fun d => emit d bs) c.
Definition fcount (c : fcst) : Z := count (f_c c).
Definition fenter_scope (c : fcst) : fcst := set_cur c ([] :: cur c).
Definition fexit_scope (c : fcst) : fcst := unview c (exit_scope (view c)).

(** [env_contains], env.c:101-111. *)
Definition contains (ss : list scope) (x : name) : bool := match scope_get ss x with Some _ => true | None => false end.
Definition env_contains (es : list fenv) (x : name) : bool := existsb (fun e => contains (fe_scopes e) x) es.
Definition up_index (ups : list (name * Z)) (x : name) : option nat :=
  (fix go (l : list (name * Z)) (i : nat) := match l with [] => None | (y, _) :: r => if name_eqb y x then Some i else go r (S i) end) ups O.
Definition set_used (e : fenv) : fenv := FE (fe_scopes e) (fe_ups e) (fe_clo e) true.
Definition set_clo (e : fenv) : fenv := FE (fe_scopes e) (fe_ups e) true (fe_used e).
Definition put_up (e : fenv) (x : name) (v : Z) : fenv := FE (fe_scopes e) (fe_ups e ++ [(x, v)]) true (fe_used e).

(** [env_add_upval], env.c:122-162. [UB]: the assertion that there is a parent. *)
Fixpoint add_upval (es : list fenv) (stack : list scope) (x : name) : outcome (nat * list fenv) :=
  match es with
  | [] => UB
  | e :: r =>
    let i := length (fe_ups e) in
    match r with
    | [] => match scope_get stack x with
            | Some z => Ok (i, [put_up e x (get_index z)])
            | None => UB
            end
    | p :: _ =>
        do r' <- (if negb (contains (fe_scopes p) x) && match up_index (fe_ups p) x with None => true | Some _ => false end
                  then omap snd (add_upval r stack x) else Ok r);
        match r' with
        | [] => UB
        | p' :: q =>
          match scope_get (fe_scopes p') x with
          | Some z => Ok (i, put_up e x (get_index z) :: set_used p' :: q)
          | None => match up_index (fe_ups p') x with
                    | Some j => Ok (i, put_up e x (Z.lnot (Z.of_nat j)) :: r')
                    | None => UB
                    end
          end
        end
    end
  end.
(** [env_resolve_upval_index], env.c:164-177. *)
Definition resolve_upval (es : list fenv) (stack : list scope) (x : name) : outcome (nat * list fenv) :=
  match es with
  | [] => UB
  | e :: r => match up_index (fe_ups e) x with Some i => Ok (i, es) | None => add_upval es stack x end
  end.
(** [get_nearest], compiler.c:142-147, then [usedinclosure = true]. *)
Fixpoint mark_nearest (es : list fenv) (x : name) : list fenv :=
  match es with [] => [] | e :: r => if contains (fe_scopes e) x then set_used e :: r else e :: mark_nearest r x end.
Definition mark_clo (es : list fenv) : list fenv := match es with [] => [] | e :: r => set_clo e :: r end.
(** [load_var_from_upval], [store_var_in_upval], compiler.c:155-160, 198-203. *)
Definition upval_op (o : opc) (c : fcst) (x : name) : outcome fcst :=
  do (i, es) <- resolve_upval (mark_clo (f_envs c)) (c_scopes (f_c c)) x;
  Ok (FC (emit (f_c c) (op o ++ [Z.of_nat i mod 256])) es).

Section Compiler.
Variable fuel : nat.

(** [load_var], compiler.c:162-183. *)
Definition fload_var (c : fcst) (x : name) : outcome fcst :=
  match f_envs c with
  | [] => on_cur (fun d => load_var fuel d x) c
  | e :: _ =>
      match scope_get (fe_scopes e) x with
      | Some z => Ok (femit c (op O_LLOAD ++ [get_index z mod 256]))
      | None =>
          if env_contains (f_envs c) x then upval_op O_ULOAD (FC (f_c c) (mark_nearest (f_envs c) x)) x
          else if contains (c_scopes (f_c c)) x then upval_op O_ULOAD c x
          else match assoc (c_globals (f_c c)) x with
               | Some _ => do i <- pool_index fuel (f_c c) x; Ok (femit c (op O_GLOAD_8 ++ enc8 i))
               | None => Err ESyntax
               end
      end
  end.
(** the scope found by [get_nearest] *)
Definition nearest_get (es : list fenv) (x : name) : option Z :=
  match find (fun e => contains (fe_scopes e) x) es with Some e => scope_get (fe_scopes e) x | None => None end.
(** [store_var], compiler.c:205-244. *)
Definition fstore_var (c : fcst) (x : name) : outcome fcst :=
  match f_envs c with
  | [] => on_cur (fun d => store_var fuel d x) c
  | e :: _ =>
      match scope_get (fe_scopes e) x with
      | Some z => if is_const z then Err ESyntax else Ok (femit c (op O_LSTORE ++ [z mod 256]))
      | None =>
          match nearest_get (f_envs c) x with
          | Some z => if is_const z then Err ESyntax else upval_op O_USTORE (FC (f_c c) (mark_nearest (f_envs c) x)) x
          | None =>
              match scope_get (c_scopes (f_c c)) x with
              | Some z => if is_const z then Err ESyntax else upval_op O_USTORE c x
              | None => match assoc (c_globals (f_c c)) x with
                        | Some z => if is_const z then Err ESyntax else do i <- pool_index fuel (f_c c) x; Ok (femit c (op O_GSTORE_8 ++ enc8 i))
                        | None => Err ESyntax
                        end
              end
          end
      end
  end.
(** [contains_var], compiler.c:254-258. *)
Definition fcontains_var (c : fcst) (x : name) : bool :=
  contains (c_scopes (f_c c)) x || env_contains (f_envs c) x || match assoc (c_globals (f_c c)) x with Some _ => true | None => false end.

(** Parameters, compiler.c:385-390: no check that their names differ. *)
Fixpoint decl_params (ps : list (name * bool)) (c : fcst) : outcome fcst :=
  match ps with
  | [] => Ok c
  | (x, k) :: r => do c <- on_cur (fun d => decl_var fuel d x) c;
                   decl_params r (if k then unview c (make_const (view c) x) else c)
  end.
(** [visit_FnDecl] before the body, compiler.c:380-398. *)
Definition fn_start (ps : list (name * bool)) (c : fcst) : outcome (fcst * Z) :=
  let c := fenter_scope (FC (f_c c) (FE [] [] false false :: f_envs c)) in
  do c <- decl_params ps c;
  let c := femit (femit c (op O_FCONST)) (enc8 0) in
  Ok (femit c [Z.of_nat (length ps) mod 256], fcount c).
(** ... and after it, compiler.c:399-431; [old] is [old_size]. The bytes of the captured variables are written at their
    indices; here they are appended in that order. *)
Definition fn_end (c : fcst) (old : Z) : outcome fcst :=
  match f_envs c with
  | [] => UB
  | e :: r =>
      let c := femit c (op O_NCONST ++ op (if fe_used e then O_CRET else O_RET) ++ [scope_len (fe_scopes e) mod 256]) in
      let c := fexit_scope c in
      let d := patch (f_c c) (old - 8) (fcount c - old) in
      Ok (FC (if fe_clo e
              then emit (set_buf d (put (c_buf d) (Z.to_nat (old - 9)) (op_byte O_CCONST)))
                        (Z.of_nat (length (fe_ups e)) mod 256 :: map (fun u => snd u mod 256) (fe_ups e))
              else d) r)
  end.
(** [visit_Return], compiler.c:464-474, after the value. *)
Definition fn_ret (c : fcst) : outcome fcst :=
  match f_envs c with
  | [] => Err ESyntax
  | e :: _ => Ok (femit c (op (if fe_used e then O_CRET else O_RET) ++ [scope_len (fe_scopes e) mod 256]))
  end.
Definition not_in_function (c : fcst) : bool := match f_envs c with [] => true | _ => false end.
(** [validate], compiler.c:1374-1388: the captured variables found stay found. *)
Definition fvalidate (v : fcst -> outcome fcst) (c : fcst) : outcome fcst := omap (on_c (fun d => set_buf d (c_buf (f_c c)))) (v c).
Definition f_truthy (e : fexpr) : bool := match e with FInt _ => true | FBool b => b | _ => false end.
Definition f_falsey (e : fexpr) : bool := match e with FUndef => true | FBool b => negb b | _ => false end.
Definition fjmp (o : opc) (c : fcst) : fcst * Z := let c := femit c (op o) in (femit c (enc8 0), fcount c).
Definition fland (c : fcst) (index : Z) : fcst := on_c (fun d => exit_jmp d index) c.

(** [er]: [compiler->expected_returns], 1 at the start (compiler.h:24), changed by [visit_VariadicContext], compiler.c:433-438, for
    everything inside, also for function bodies. *)
Fixpoint fvisit_e (e : fexpr) (er : Z) (c : fcst) : outcome fcst :=
  match e with
  | FUndef => Ok (femit c (op O_NCONST))
  | FBool b => Ok (femit c (op (if b then O_BCONST_T else O_BCONST_F)))
  | FInt i => on_cur (fun d => add_literal fuel d (VInt i)) c
  | FFloat f => on_cur (fun d => add_literal fuel d (VFloat f)) c
  | FStr s => on_cur (fun d => add_literal fuel d (VStr s)) c
  | FVar x => fload_var c x
  | FUn o e1 => do c <- fvisit_e e1 er c; Ok (femit c (op (O_UN o)))
  | FBin o l r => do c <- fvisit_e l er c; do c <- fvisit_e r er c; Ok (femit c (bop_code o))
  | FSc o l r =>
      do c <- fvisit_e l er c;
      let (c, index) := fjmp (sc_jump o) (femit c (op O_DUP)) in
      do c <- fvisit_e r er (femit c (op O_POP)); Ok (fland c index)
  | FTri l m r =>
      do c <- fvisit_e l er c;
      let (c, index_l) := fjmp O_BRF_8 c in
      do c <- fvisit_e m er c;
      let (c, index_r) := fjmp O_BR_8 c in
      do c <- fvisit_e r er (fland c index_l); Ok (fland c index_r)
  | FCall f args =>                                              (* visit_Call, compiler.c:441-447 *)
      do c <- fvisit_e f er c;
      do c <- fvisit_args args er (femit c (op O_INIT_CALL ++ [er mod 256]));
      Ok (femit c (op O_CALL))
  | FCtx n e1 => fvisit_e e1 n c
  | FFn _ ps b =>
      do (c, old) <- fn_start ps c;
      do c <- fvisit_s b er c; fn_end c old
  end
with fvisit_args (es : fargs) (er : Z) (c : fcst) : outcome fcst :=
  match es with ANil => Ok c | ACons e r => do c <- fvisit_e e er c; fvisit_args r er c end
with fvisit_s (s : fstmt) (er : Z) (c : fcst) : outcome fcst :=
  match s with
  | FSkip => Ok c
  | FSeq a b => do c <- fvisit_s a er c; fvisit_s b er c
  | FExpr e =>                                                   (* visit_ExprStmt, compiler.c:358-378 *)
      match e with
      | FStr _ | FInt _ | FFloat _ | FBool _ | FUndef => Ok c
      | FVar _ => fvalidate (fvisit_e e er) c
      | _ => do c <- fvisit_e e er c; Ok (femit c (op O_POP))
      end
  | FLet k x e =>                                                (* visit_Decl with one target, compiler.c:1121-1153 *)
      do c <- fvisit_e e er c;
      if in_current (view c) x then Err ESyntax else
      do c <- on_cur (fun d => decl_var fuel d x) c;
      Ok (if k then unview c (make_const (view c) x) else c)
  | FFnDecl k x _ ps b =>                                        (* declare_with_let_or_const, visit_Const, compiler.c:1080-1119 *)
      if in_current (view c) x then Err ESyntax else
      do c <- on_cur (fun d => decl_var fuel d x) c;
      do (c, old) <- fn_start ps c;
      do c <- fvisit_s b er c;
      do c <- fn_end c old;
      Ok (if k then unview c (make_const (view c) x) else c)
  | FAssign x e =>                                               (* visit_Assign, compiler.c:1300-1309 *)
      if fcontains_var c x then do c <- fvisit_e e er c; fstore_var c x else Err ESyntax
  | FBlock b => do c <- fvisit_s b er (fenter_scope c); Ok (fexit_scope c)
  | FIf cond a =>
      let block b c := do c <- fvisit_s b er (fenter_scope c); Ok (fexit_scope c) in
      if f_truthy cond then block a c
      else if f_falsey cond then fvalidate (block a) c
      else do c <- fvisit_e cond er c;
           let (c, index_then) := fjmp O_BRF_8 c in
           do c <- block a c; Ok (fland c index_then)
  | FIfElse cond a b =>
      let block b c := do c <- fvisit_s b er (fenter_scope c); Ok (fexit_scope c) in
      if f_truthy cond then do c <- block a c; fvalidate (block b) c
      else if f_falsey cond then do c <- fvalidate (block a) c; block b c
      else do c <- fvisit_e cond er c;
           let (c, index_then) := fjmp O_BRF_8 c in
           do c <- block a c;
           let (c, index_else) := fjmp O_BR_8 c in
           do c <- block b (fland c index_then); Ok (fland c index_else)
  | FWhile cond b =>                                             (* visit_While, compiler.c:667-708 *)
      let block b c := do c <- fvisit_s b er (fenter_scope c); Ok (fexit_scope c) in
      if f_falsey cond then fvalidate (block b) c else
      let index_start := fcount c in
      do c <- fvisit_e cond er c;
      let (c, index_second) := fjmp O_BRF_8 c in
      do c <- block b c;
      Ok (fland (on_c (fun d => branch_back d index_start) c) index_second)
  | FReturn e =>
      if not_in_function c then Err ESyntax else
      do c <- fvisit_e e er c; fn_ret c
  | FReturns es =>                                               (* visit_MultiReturn, compiler.c:476-487 *)
      if not_in_function c then Err ESyntax else
      do c <- fvisit_args es er c; fn_ret c
  | FEcho e => do c <- fvisit_e e er c; Ok (femit c (op O_ECHO ++ [scope_len (cur c) mod 256]))
  | FAssert e => do c <- fvisit_e e er c; Ok (femit c (op O_ASS))
  end.

(** [compile], compiler.c:312-335, as in Compiler.v. *)
Fixpoint fcompile_stmts (ss : list fstmt) (code : list Z) (c : fcst) : outcome (list Z * fcst) :=
  match ss with
  | [] => Ok (code, c)
  | s :: r => do c' <- fvisit_s s 1 c; fcompile_stmts r (code ++ c_buf (f_c c')) (on_c (fun d => set_buf d []) c')
  end.
Definition fcompile_program (gs : list name) (prog : list fstmt) (lines : list Z) : outcome (list Z) :=
  do c <- compiler_new;
  do c <- declglobals fuel gs c;
  do (code, c') <- fcompile_stmts prog [] (FC (enter_scope c) []);
  Ok (return_bytes (c_pool (f_c c')) code lines).
End Compiler.
Definition fbody (prog : list fstmt) : fstmt := fold_right FSeq FSkip prog.
