(** * The code generator: model of /repo/compiler/compiler.c (and /repo/compiler/env.c) for expressions and statements
    outside function bodies. Line numbers are modelled in Lines.v and left out here. *)
From Verif Require Import Base Bytes Value Table Ops Ast Stmt Constants VM.

(** ** State, /repo/compiler/compiler.h:18-60. A scope is its table of variables (C02), newest first, with the slot number,
    complemented for constants (env.c:206-227). [c_scopes]: [compiler->stack], innermost first; [c_cps]: checkpoints, last first. *)
Definition scope := list (name * Z).
Record cst : Type := CS { c_buf : list Z; c_scopes : list scope; c_globals : scope; c_pool : cpool; c_cps : list Z }.
Definition set_buf c b := CS b (c_scopes c) (c_globals c) (c_pool c) (c_cps c).
Definition set_scopes c s := CS (c_buf c) s (c_globals c) (c_pool c) (c_cps c).
Definition set_pool c p := CS (c_buf c) (c_scopes c) (c_globals c) p (c_cps c).
Definition set_cps c l := CS (c_buf c) (c_scopes c) (c_globals c) (c_pool c) l.

(** [compiler_add_byte], [compiler_add_int], compiler.c:66-72 (the growing buffer is C40). *)
Definition emit (c : cst) (bs : list Z) : cst := set_buf c (c_buf c ++ bs).
Definition count (c : cst) : Z := Z.of_nat (length (c_buf c)).
Definition op (o : opc) : list Z := [op_byte o].
(** write [v] over the int at [index] *)
Definition patch (c : cst) (index v : Z) : cst := set_buf c (rewrite8 (c_buf c) (Z.to_nat index) v).

Fixpoint assoc (s : scope) (x : name) : option Z :=
  match s with [] => None | (y, z) :: r => if name_eqb y x then Some z else assoc r x end.
Fixpoint assoc_put (s : scope) (x : name) (z : Z) : scope :=
  match s with [] => [] | (y, v) :: r => if name_eqb y x then (y, z) :: r else (y, v) :: assoc_put r x z end.
(** [scope_len], env.c:69-72. *)
Definition scope_len (ss : list scope) : Z := Z.of_nat (length (concat ss)).
(** [scope_contains]/[scope_get], env.c:86-99, 192-204: innermost first. *)
Fixpoint scope_get (ss : list scope) (x : name) : option Z :=
  match ss with [] => None | s :: r => match assoc s x with Some z => Some z | None => scope_get r x end end.
(** [is_const], [get_index], compiler.c:129-136. *)
Definition is_const (v : Z) : bool := v <? 0.
Definition get_index (v : Z) : Z := if is_const v then Z.lnot v else v.

Section Compiler.
Variable fuel : nat.   (* bound on the probes of the hash table of constants *)

(** [YASL_Table_search_string_int(compiler->strings, name)], used at compiler.c:171, 213. *)
Definition pool_index (c : cst) (x : name) : outcome Z :=
  omap raw_bits (table_search fuel (cp_tab (c_pool c)) (VStr x)).

(** [load_var], compiler.c:157-178, outside functions. *)
Definition load_var (c : cst) (x : name) : outcome cst :=
  match scope_get (c_scopes c) x with
  | Some v => Ok (emit c (op O_LLOAD ++ [get_index v mod 256]))
  | None => match assoc (c_globals c) x with
            | Some _ => do i <- pool_index c x; Ok (emit c (op O_GLOAD_8 ++ enc8 i))
            | None => Err ESyntax
            end
  end.
(** [store_var], compiler.c:180-230, outside functions. *)
Definition store_var (c : cst) (x : name) : outcome cst :=
  match scope_get (c_scopes c) x with
  | Some v => if is_const v then Err ESyntax else Ok (emit c (op O_LSTORE ++ [v mod 256]))
  | None => match assoc (c_globals c) x with
            | Some v => if is_const v then Err ESyntax else do i <- pool_index c x; Ok (emit c (op O_GSTORE_8 ++ enc8 i))
            | None => Err ESyntax
            end
  end.
(** [contains_var_in_current_scope], [contains_var], compiler.c:232-245. *)
Definition in_current (c : cst) (x : name) : bool :=
  match c_scopes c with s :: _ => match assoc s x with Some _ => true | None => false end
  | [] => match assoc (c_globals c) x with Some _ => true | None => false end end.
Definition contains_var (c : cst) (x : name) : bool :=
  match scope_get (c_scopes c) x with Some _ => true | None =>
    match assoc (c_globals c) x with Some _ => true | None => false end end.

(** [compiler_intern_*] then [compiler_add_literal], compiler.c:725-771, 1320-1350. *)
Definition add_literal (c : cst) (v : value) : outcome cst :=
  do r <- intern fuel (c_pool c) v;
  let i := fst r in
  Ok (emit (set_pool c (snd r)) (if i <? 128 then op O_LIT ++ [i mod 256] else op O_LIT8 ++ enc8 i)).

(** [scope_decl_var], env.c:206-213: insertion into the table (a name already there is overwritten). *)
Definition scope_decl (ss : list scope) (x : name) : list scope :=
  match ss with
  | [] => []
  | s :: r => match assoc s x with Some _ => assoc_put s x (scope_len ss) :: r | None => ((x, scope_len ss) :: s) :: r end
  end.
(** [decl_var], compiler.c:247-261. In the REPL ([c_scopes = []]) the variable is a global. *)
Definition decl_var (c : cst) (x : name) : outcome cst :=
  match c_scopes c with
  | [] => do r <- intern fuel (c_pool c) (VStr x);
          Ok (CS (c_buf c) [] (match assoc (c_globals c) x with
                               | Some _ => assoc_put (c_globals c) x (Z.of_nat (length (c_globals c)))
                               | None => (x, Z.of_nat (length (c_globals c))) :: c_globals c end) (snd r) (c_cps c))
  | ss => let ss' := scope_decl ss x in
          if scope_len ss' >? 255 then Err ESyntax else Ok (set_scopes c ss')
  end.
(** [make_const], compiler.c:263-267, [scope_make_const], env.c:220-227: complement in the closest scope with the name. *)
Fixpoint scope_const (ss : list scope) (x : name) : list scope :=
  match ss with
  | [] => []
  | s :: r => match assoc s x with Some z => assoc_put s x (Z.lnot z) :: r | None => s :: scope_const r x end
  end.
Definition make_const (c : cst) (x : name) : cst :=
  match c_scopes c with
  | [] => CS (c_buf c) [] (match assoc (c_globals c) x with Some z => assoc_put (c_globals c) x (Z.lnot z) | None => c_globals c end)
             (c_pool c) (c_cps c)
  | ss => set_scopes c (scope_const ss x)
  end.

(** [enter_scope], [exit_scope], compiler.c:74-88. *)
Definition enter_scope (c : cst) : cst := set_scopes c ([] :: c_scopes c).
Definition exit_scope (c : cst) : cst :=
  match c_scopes c with
  | [] => c
  | s :: r => emit (set_scopes c r) (repeat (op_byte O_POP) (length s))
  end.
(** [enter_conditional_false]/[enter_jump]: the opcode and a placeholder; [exit_conditional_false]/[exit_jump]:
    the distance from the end of the placeholder to here (compiler.c:90-98, 626-635). *)
Definition enter_jmp (c : cst) (o : opc) : cst * Z := let c := emit c (op o) in (emit c (enc8 0), count c).
Definition exit_jmp (c : cst) (index : Z) : cst := patch c index (count c - index - 8).
(** [branch_back], compiler.c:520-523: the distance is computed before the int itself is added. *)
Definition branch_back (c : cst) (index : Z) : cst :=
  let c := emit c (op O_BR_8) in emit c (enc8 (index - count c - 8)).

(** ** Expressions, compiler.c:1155-1350. *)
Definition sc_jump (o : scop) : opc := match o with SCoal => O_BRN_8 | SOr => O_BRT_8 | SAnd => O_BRF_8 end.
Definition bop_code (o : bop) : list Z :=
  match o with BOp b => op (O_BIN b) | BNe => op (O_BIN BEq) ++ op (O_UN UNot) | BNi => op (O_BIN BId) ++ op (O_UN UNot) end.
Fixpoint visit_e (e : expr) (c : cst) : outcome cst :=
  match e with
  | EUndef => Ok (emit c (op O_NCONST))
  | EBool b => Ok (emit c (op (if b then O_BCONST_T else O_BCONST_F)))
  | EInt i => add_literal c (VInt i)
  | EFloat f => add_literal c (VFloat f)
  | EStr s => add_literal c (VStr s)
  | EVar x => load_var c x
  | EUn o e1 => do c <- visit_e e1 c; Ok (emit c (op (O_UN o)))
  | EBin o l r => do c <- visit_e l c; do c <- visit_e r c; Ok (emit c (bop_code o))
  | ESc o l r =>
      do c <- visit_e l c;
      let c := emit c (op O_DUP) in
      let (c, index) := enter_jmp c (sc_jump o) in
      let c := emit c (op O_POP) in
      do c <- visit_e r c; Ok (exit_jmp c index)
  | ETri l m r =>
      do c <- visit_e l c;
      let (c, index_l) := enter_jmp c O_BRF_8 in
      do c <- visit_e m c;
      let (c, index_r) := enter_jmp c O_BR_8 in
      let c := exit_jmp c index_l in
      do c <- visit_e r c; Ok (exit_jmp c index_r)
  end.
Fixpoint visit_es (es : list expr) (c : cst) : outcome cst :=
  match es with [] => Ok c | e :: r => do c <- visit_e e c; visit_es r c end.

(** [validate], compiler.c:1374-1388: the code is thrown away, everything else stays. *)
Definition validate (v : cst -> outcome cst) (c : cst) : outcome cst := omap (fun c' => set_buf c' (c_buf c)) (v c).

(** [Node_istruthy], [Node_isfalsey], compiler.c:637-660. *)
Definition e_truthy (e : expr) : bool := match e with EInt _ => true | EBool b => b | _ => false end.
Definition e_falsey (e : expr) : bool := match e with EUndef => true | EBool b => negb b | _ => false end.

(** [declare_with_let_or_const], compiler.c:1080-1110, for an initialiser that is not a function. *)
Definition declare (c : cst) (x : name) (e : expr) : outcome cst :=
  if in_current c x then Err ESyntax else
  do c <- visit_e e c;
  do c <- decl_var c x;
  match c_scopes c with
  | [] => store_var c x
  | _ => Ok c
  end.

(** The loop of [visit_Decl], compiler.c:1123-1152 (the N_SET case is outside the model). *)
Fixpoint visit_lvals (ls : list lval) (c : cst) : outcome cst :=
  match ls with
  | [] => Ok c
  | LAssign x :: r =>
      if contains_var c x then
        do c <- store_var (emit c (op O_MOVEUP_FP ++ [scope_len (c_scopes c) mod 256])) x; visit_lvals r c
      else Err ESyntax
  | LLet x :: r =>
      if in_current c x then Err ESyntax else
      do c <- decl_var c x;
      do c <- match c_scopes c with [] => store_var (emit c (op O_MOVEUP_FP ++ [0])) x | _ => Ok c end;
      visit_lvals r c
  | LConst x :: r =>
      if in_current c x then Err ESyntax else
      do c <- decl_var c x;
      do c <- match c_scopes c with [] => store_var (emit c (op O_MOVEUP_FP ++ [0])) x | _ => Ok c end;
      visit_lvals r (make_const c x)
  end.

(** ** Statements. *)
Fixpoint visit_s (s : stmt) (c : cst) : outcome cst :=
  match s with
  | SSkip => Ok c
  | SSeq a b => do c <- visit_s a c; visit_s b c
  | SExpr e =>                                                    (* visit_ExprStmt, compiler.c:358-378 *)
      match e with
      | EStr _ | EInt _ | EFloat _ | EBool _ | EUndef => Ok c
      | EVar _ => validate (visit_e e) c
      | _ => do c <- visit_e e c; Ok (emit c (op O_POP))
      end
  | SLet x e => declare c x e                                     (* :1112-1114 *)
  | SConst x e => do c <- declare c x e; Ok (make_const c x)      (* :1116-1119 *)
  | SDecl ls rs => do c <- visit_es rs c; visit_lvals ls c        (* :1121-1153 *)
  | SAssign x e =>                                                (* :1300-1309 *)
      if contains_var c x then do c <- visit_e e c; store_var c x else Err ESyntax
  | SBlock b => do c <- visit_s b (enter_scope c); Ok (exit_scope c)   (* :514-518 *)
  | SIf cond a =>                                                 (* :1030-1072 *)
      if e_truthy cond then visit_s a c
      else if e_falsey cond then validate (visit_s a) c
      else do c <- visit_e cond c;
           let (c, index_then) := enter_jmp c O_BRF_8 in
           do c <- visit_s a c; Ok (exit_jmp c index_then)
  | SIfElse cond a b =>
      if e_truthy cond then do c <- visit_s a c; validate (visit_s b) c
      else if e_falsey cond then do c <- validate (visit_s a) c; visit_s b c
      else do c <- visit_e cond c;
           let (c, index_then) := enter_jmp c O_BRF_8 in
           do c <- visit_s a c;
           let (c, index_else) := enter_jmp c O_BR_8 in
           let c := exit_jmp c index_then in
           do c <- visit_s b c; Ok (exit_jmp c index_else)
  | SWhile cond b =>                                              (* :667-708 *)
      if e_falsey cond then validate (visit_s b) c else
      let index_start := count c in
      let c := set_cps c (index_start :: c_cps c) in
      do c <- visit_e cond c;
      let c := set_cps c (count c :: c_cps c) in
      let (c, index_second) := enter_jmp c O_BRF_8 in
      do c <- visit_s b c;
      let c := branch_back c index_start in
      let c := exit_jmp c index_second in
      Ok (set_cps c (tl (tl (c_cps c))))
  | SWhilePost cond b post =>
      if e_falsey cond then do c <- validate (visit_s b) c; validate (visit_s post) c else
      let (c, index) := enter_jmp c O_BR_8 in
      let index_start := count c in
      do c <- visit_s post c;
      let c := exit_jmp c index in
      let c := set_cps c (index_start :: c_cps c) in
      do c <- visit_e cond c;
      let c := set_cps c (count c :: c_cps c) in
      let (c, index_second) := enter_jmp c O_BRF_8 in
      do c <- visit_s b c;
      let c := branch_back c index_start in
      let c := exit_jmp c index_second in
      Ok (set_cps c (tl (tl (c_cps c))))
  | SForIn x e b =>                                               (* :587-624 *)
      let c := enter_scope c in
      do c <- visit_e e c;
      let c := emit c (op O_INITFOR ++ op O_END) in
      do c <- decl_var c x;
      let index_start := count c in
      let c := set_cps c (index_start :: c_cps c) in
      let c := emit c (op O_ITER_1) in
      let c := set_cps c (count c :: c_cps c) in
      let (c, index_second) := enter_jmp c O_BRF_8 in
      do c <- store_var c x;
      do c <- visit_s b c;
      let c := branch_back c index_start in
      let c := exit_jmp c index_second in
      let c := exit_scope (emit c (op O_ENDFOR)) in
      Ok (set_cps c (tl (tl (c_cps c))))
  | SBreak => match c_cps c with                                  (* :710-718 *)
              | [] => Err ESyntax | cp :: _ => Ok (branch_back (emit c (op O_BCONST_F)) cp) end
  | SContinue => match c_cps c with                               (* :720-727; one checkpoint only cannot happen *)
                 | _ :: cp :: _ => Ok (branch_back c cp) | [_] => UB | [] => Err ESyntax end
  | SEcho e => do c <- visit_e e c; Ok (emit c (op O_ECHO ++ [scope_len (c_scopes c) mod 256]))  (* :1074-1078 *)
  | SAssert e => do c <- visit_e e c; Ok (emit c (op O_ASS))      (* :1352-1355 *)
  | SPop s1 => do c <- visit_s s1 c; Ok (emit c (op O_POP))
  end.

(** The loop of [compile], compiler.c:316-330: each top-level statement is compiled into the buffer, which is then
    moved to the end of the code. *)
Fixpoint compile_stmts (ss : list stmt) (code : list Z) (c : cst) : outcome (list Z * cst) :=
  match ss with
  | [] => Ok (code, c)
  | s :: r => do c' <- visit_s s c; compile_stmts r (code ++ c_buf c') (set_buf c' [])
  end.
(** [compile], compiler.c:312-335: the code, without the final O_HALT added by [return_bytes]. The pops emitted by
    the last [exit_scope] stay in the buffer and never reach the code. *)
Definition compile (ss : list stmt) (c : cst) : outcome (list Z * cst) :=
  do r <- compile_stmts ss [] (enter_scope c);
  Ok (fst r, exit_scope (snd r)).
End Compiler.

(** NEW_COMPILER, compiler.h:62-90: nothing declared. *)
Definition compiler_new : outcome cst := do p <- pool_new; Ok (CS [] [] [] p []).
(** [YASL_declglobal], /repo/yasl.c:163-167. *)
Definition declglobal (fuel : nat) (c : cst) (x : name) : outcome cst :=
  do r <- intern fuel (c_pool c) (VStr x);
  Ok (CS (c_buf c) (c_scopes c) (match assoc (c_globals c) x with
                               | Some _ => assoc_put (c_globals c) x (Z.of_nat (length (c_globals c)))
                               | None => (x, Z.of_nat (length (c_globals c))) :: c_globals c end) (snd r) (c_cps c)).
