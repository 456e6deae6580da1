(** * From source text to a running program with functions: /repo/compiler/compiler.c [compile] (:305-335) with the lexer and the parser, then
    [YASL_execute]. Model of the whole chain on the programs of Fn.v. *)
From Verif Require Import Base Value Ops Ast Stmt VM Program Lexer Parser Tree TreeParser TreeSpec Fn FnCompiler.
Local Open Scope list_scope.

(** ** The syntax trees (Tree.v) of the programs of Fn.v. The compiler does not look at the labels of function literals: here they are 0.
    [elseif] is read as [else { if ... }]: the compiler enters no scope there (visit_If, compiler.c:1029-1071), but a scope in which nothing is
    declared produces no code. *)
Definition pair {A B C} (f : A -> B -> C) (x : option A) (y : option B) : option C := match x, y with Some a, Some b => Some (f a b) | _, _ => None end.
Fixpoint fn_e (t : xe) : option fexpr :=
  match t with
  | XUndef => Some FUndef | XBool b => Some (FBool b) | XInt i => Some (FInt i) | XFloat f => Some (FFloat f) | XStr s => Some (FStr s) | XVar x => Some (FVar x)
  | XUn o e => option_map (FUn o) (fn_e e)
  | XBin o l r => pair (FBin o) (fn_e l) (fn_e r)
  | XSc o l r => pair (FSc o) (fn_e l) (fn_e r)
  | XTri c a b => match fn_e c with Some c' => pair (FTri c') (fn_e a) (fn_e b) | None => None end
  | XCall c es => pair FCall (fn_e c) (fn_es es)
  | XCtx n e => option_map (FCtx n) (fn_e e)
  | XFn ps b => option_map (FFn 0 ps) (fn_s b)
  | XList _ | XTable _ | XGet _ _ | XMeth _ _ _ | XSlice _ _ _ => None
  end
with fn_es (ts : xes) : option fargs := match ts with XNil => Some ANil | XCons e r => pair ACons (fn_e e) (fn_es r) end
with fn_s (t : xs) : option fstmt :=
  match t with
  | XSkip => Some FSkip
  | XSeq a b => pair FSeq (fn_s a) (fn_s b)
  | XExpr e => option_map FExpr (fn_e e)
  | XDecl [LLet x] (XCons e XNil) => option_map (FLet false x) (fn_e e)
  | XDecl [LConst x] (XCons e XNil) => option_map (FLet true x) (fn_e e)
  | XFnDecl k x ps b => option_map (FFnDecl k x 0 ps) (fn_s b)
  | XAssign x e => option_map (FAssign x) (fn_e e)
  | XBlock b => option_map FBlock (fn_s b)
  | XIf c (XBlock a) => pair FIf (fn_e c) (fn_s a)
  | XIfElse c (XBlock a) (XBlock b) => match fn_e c with Some c' => pair (FIfElse c') (fn_s a) (fn_s b) | None => None end
  | XIfElse c (XBlock a) (XIf _ _ as s) | XIfElse c (XBlock a) (XIfElse _ _ _ as s) =>
      match fn_e c with Some c' => pair (FIfElse c') (fn_s a) (fn_s s) | None => None end
  | XWhile c (XBlock b) => pair FWhile (fn_e c) (fn_s b)
  | XReturn e => option_map FReturn (fn_e e)
  | XReturns es => option_map FReturns (fn_es es)
  | XEcho e => option_map FEcho (fn_e e)
  | XAssert e => option_map FAssert (fn_e e)
  | _ => None
  end.
Fixpoint fn_l (l : list xs) : option (list fstmt) := match l with [] => Some [] | s :: r => pair cons (fn_s s) (fn_l r) end.

(** ** The chain. [None]: rejected, or not such a program. *)
Definition build_f (strtod : list Z -> float) (fuel : nat) (gs : list name) (text : list Z) (lines : list Z) (w : world) (ls ks : Z -> list value) : option prog :=
  match read_text strtod fuel text with
  | POk l => match fn_l l with
             | Some pr => match fcompile_program fuel gs pr lines with
                          | Ok bytes => match load bytes w ls ks with Ok P => Some P | _ => None end
                          | _ => None end
             | None => None end
  | _ => None
  end.

(** ** Specification: which syntax trees are which programs of Fn.v, with any labels on the function literals. *)
Inductive is_fe : xe -> fexpr -> Prop :=
| f_undef : is_fe XUndef FUndef
| f_bool b : is_fe (XBool b) (FBool b)
| f_int i : is_fe (XInt i) (FInt i)
| f_float f : is_fe (XFloat f) (FFloat f)
| f_str s : is_fe (XStr s) (FStr s)
| f_var x : is_fe (XVar x) (FVar x)
| f_un o a a' : is_fe a a' -> is_fe (XUn o a) (FUn o a')
| f_bin o l r l' r' : is_fe l l' -> is_fe r r' -> is_fe (XBin o l r) (FBin o l' r')
| f_sc o l r l' r' : is_fe l l' -> is_fe r r' -> is_fe (XSc o l r) (FSc o l' r')
| f_tri c a b c' a' b' : is_fe c c' -> is_fe a a' -> is_fe b b' -> is_fe (XTri c a b) (FTri c' a' b')
| f_call c es c' es' : is_fe c c' -> is_fes es es' -> is_fe (XCall c es) (FCall c' es')
| f_ctx n e e' : is_fe e e' -> is_fe (XCtx n e) (FCtx n e')
| f_fn label ps b b' : is_fs b b' -> is_fe (XFn ps b) (FFn label ps b')
with is_fes : xes -> fargs -> Prop :=
| f_nil : is_fes XNil ANil
| f_cons e r e' r' : is_fe e e' -> is_fes r r' -> is_fes (XCons e r) (ACons e' r')
with is_fs : xs -> fstmt -> Prop :=
| f_skip : is_fs XSkip FSkip
| f_seq a b a' b' : is_fs a a' -> is_fs b b' -> is_fs (XSeq a b) (FSeq a' b')
| f_expr e e' : is_fe e e' -> is_fs (XExpr e) (FExpr e')
| f_let x e e' : is_fe e e' -> is_fs (XDecl [LLet x] (XCons e XNil)) (FLet false x e')
| f_const x e e' : is_fe e e' -> is_fs (XDecl [LConst x] (XCons e XNil)) (FLet true x e')
| f_fndecl k x label ps b b' : is_fs b b' -> is_fs (XFnDecl k x ps b) (FFnDecl k x label ps b')
| f_assign x e e' : is_fe e e' -> is_fs (XAssign x e) (FAssign x e')
| f_block b b' : is_fs b b' -> is_fs (XBlock b) (FBlock b')
| f_if c a c' a' : is_fe c c' -> is_fs a a' -> is_fs (XIf c (XBlock a)) (FIf c' a')
| f_ifelse c a b c' a' b' : is_fe c c' -> is_fs a a' -> is_fs b b' -> is_fs (XIfElse c (XBlock a) (XBlock b)) (FIfElse c' a' b')
| f_elseif c a s c' a' s' : is_fe c c' -> is_fs a a' -> is_fs s s' -> match s with XIf _ _ | XIfElse _ _ _ => True | _ => False end -> is_fs (XIfElse c (XBlock a) s) (FIfElse c' a' s')
| f_while c b c' b' : is_fe c c' -> is_fs b b' -> is_fs (XWhile c (XBlock b)) (FWhile c' b')
| f_return e e' : is_fe e e' -> is_fs (XReturn e) (FReturn e')
| f_returns es es' : is_fes es es' -> is_fs (XReturns es) (FReturns es')
| f_echo e e' : is_fe e e' -> is_fs (XEcho e) (FEcho e')
| f_assert e e' : is_fe e e' -> is_fs (XAssert e) (FAssert e').
