(** * From source text to a running program with lists and tables: /repo/compiler/compiler.c [compile] (:305-335) with the lexer and the
    parser, then [YASL_execute]. Model of the whole chain on the programs of Obj.v. *)
From Verif Require Import Base Value Ops Ast Stmt VM Program Lexer Parser Obj ObjCompiler Tree TreeParser TreeSpec TreeExact.
Local Open Scope list_scope.

(** ** The syntax trees (Tree.v) of the programs of Obj.v: without functions, calls of functions, slices, several variables in one
    declaration, and a call of a method as the last argument of a call. [plain_e t = Some e]: [e] is the tree [t]. *)
Definition both {A B C} (f : A -> B -> C) (x : option A) (y : option B) : option C := match x, y with Some a, Some b => Some (f a b) | _, _ => None end.
Fixpoint plain_e (t : xe) : option oexpr :=
  match t with
  | XUndef => Some OUndef | XBool b => Some (OBool b) | XInt i => Some (OInt i) | XFloat f => Some (OFloat f) | XStr s => Some (OStr s) | XVar x => Some (OVar x)
  | XUn o e => option_map (OUn o) (plain_e e)
  | XBin o l r => both (OBin o) (plain_e l) (plain_e r)
  | XSc o l r => both (OSc o) (plain_e l) (plain_e r)
  | XTri c a b => match plain_e c with Some c' => both (OTri c') (plain_e a) (plain_e b) | None => None end
  | XList es => option_map OList (plain_es es)
  | XTable es => option_map OTable (plain_es es)
  | XGet c k => both OGet (plain_e c) (plain_e k)
  | XMeth c x es => both (fun c' => OMeth c' x) (plain_e c) (plain_es es)
  | XSlice _ _ _ | XCall _ _ | XCtx _ _ | XFn _ _ => None
  end
with plain_es (ts : xes) : option oargs := match ts with XNil => Some ANil | XCons e r => both ACons (plain_e e) (plain_es r) end.
(** the value of a declared variable: a call of a method there gives one value *)
Definition plain_value (t : xe) : option oexpr := match t with XCtx n e => if n =? 1 then plain_e e else None | _ => plain_e t end.
(** [XLet]: [visit_Let] (compiler.c:1073-1111) does for one variable what [visit_Decl] (:1118-1153) does. *)
Fixpoint plain_s (t : xs) : option ostmt :=
  match t with
  | XSkip => Some OSkip
  | XSeq a b => both OSeq (plain_s a) (plain_s b)
  | XExpr e => option_map OExpr (plain_e e)
  | XLet x e => option_map (OLet false x) (plain_e e)
  | XDecl [LLet x] (XCons e XNil) => option_map (OLet false x) (plain_value e)
  | XDecl [LConst x] (XCons e XNil) => option_map (OLet true x) (plain_value e)
  | XAssign x e => option_map (OAssign x) (plain_e e)
  | XSet c k v => match plain_e c with Some c' => both (OSet c') (plain_e k) (plain_e v) | None => None end
  | XBlock b => option_map OBlock (plain_s b)
  | XIf c a => both OIf (plain_e c) (plain_s a)
  | XIfElse c a b => match plain_e c with Some c' => both (OIfElse c') (plain_s a) (plain_s b) | None => None end
  | XWhile c b => both OWhile (plain_e c) (plain_s b)
  | XWhilePost c b p => match plain_e c with Some c' => both (OWhilePost c') (plain_s b) (plain_s p) | None => None end
  | XForIn x e b => both (OForIn x) (plain_e e) (plain_s b)
  | XBreak => Some OBreak | XContinue => Some OContinue
  | XEcho e => option_map OEcho (plain_e e)
  | XAssert e => option_map OAssert (plain_e e)
  | XDecl _ _ | XFnDecl _ _ _ _ | XReturn _ | XReturns _ | XPop _ => None
  end.
Fixpoint plain_l (l : list xs) : option (list ostmt) := match l with [] => Some [] | s :: r => both cons (plain_s s) (plain_l r) end.

(** ** The chain. [None]: rejected, or not such a program. *)
Definition build_o (strtod : list Z -> float) (fuel : nat) (gs : list name) (text : list Z) (lines : list Z) (w : world) (ls ks : Z -> list value) : option prog :=
  match read_text strtod fuel text with
  | POk l => match plain_l l with
             | Some pr => match compile_oprogram fuel gs pr lines with
                          | Ok bytes => match load bytes w ls ks with Ok P => Some P | _ => None end
                          | _ => None end
             | None => None end
  | _ => None
  end.

(** ** Specification: which syntax trees are which programs of Obj.v. *)
Inductive is_e : xe -> oexpr -> Prop :=
| is_undef : is_e XUndef OUndef
| is_bool b : is_e (XBool b) (OBool b)
| is_int i : is_e (XInt i) (OInt i)
| is_float f : is_e (XFloat f) (OFloat f)
| is_str s : is_e (XStr s) (OStr s)
| is_var x : is_e (XVar x) (OVar x)
| is_un o a a' : is_e a a' -> is_e (XUn o a) (OUn o a')
| is_bin o l r l' r' : is_e l l' -> is_e r r' -> is_e (XBin o l r) (OBin o l' r')
| is_sc o l r l' r' : is_e l l' -> is_e r r' -> is_e (XSc o l r) (OSc o l' r')
| is_tri c a b c' a' b' : is_e c c' -> is_e a a' -> is_e b b' -> is_e (XTri c a b) (OTri c' a' b')
| is_list es es' : is_es es es' -> is_e (XList es) (OList es')
| is_table es es' : is_es es es' -> is_e (XTable es) (OTable es')
| is_get c k c' k' : is_e c c' -> is_e k k' -> is_e (XGet c k) (OGet c' k')
| is_meth c x es c' es' : is_e c c' -> is_es es es' -> is_e (XMeth c x es) (OMeth c' x es')
with is_es : xes -> oargs -> Prop :=
| is_nil : is_es XNil ANil
| is_cons e r e' r' : is_e e e' -> is_es r r' -> is_es (XCons e r) (ACons e' r').
(** the value of a variable: a call there is asked for one value *)
Inductive is_value : xe -> oexpr -> Prop :=
| is_plain e e' : is_e e e' -> is_value e e'
| is_one e e' : is_e e e' -> is_value (XCtx 1 e) e'.
Inductive is_s : xs -> ostmt -> Prop :=
| is_skip : is_s XSkip OSkip
| is_seq a b a' b' : is_s a a' -> is_s b b' -> is_s (XSeq a b) (OSeq a' b')
| is_expr e e' : is_e e e' -> is_s (XExpr e) (OExpr e')
| is_forlet x e e' : is_e e e' -> is_s (XLet x e) (OLet false x e')
| is_let x e e' : is_value e e' -> is_s (XDecl [LLet x] (XCons e XNil)) (OLet false x e')
| is_const x e e' : is_value e e' -> is_s (XDecl [LConst x] (XCons e XNil)) (OLet true x e')
| is_assign x e e' : is_e e e' -> is_s (XAssign x e) (OAssign x e')
| is_set c k v c' k' v' : is_e c c' -> is_e k k' -> is_e v v' -> is_s (XSet c k v) (OSet c' k' v')
| is_block b b' : is_s b b' -> is_s (XBlock b) (OBlock b')
| is_if c a c' a' : is_e c c' -> is_s a a' -> is_s (XIf c a) (OIf c' a')
| is_ifelse c a b c' a' b' : is_e c c' -> is_s a a' -> is_s b b' -> is_s (XIfElse c a b) (OIfElse c' a' b')
| is_while c b c' b' : is_e c c' -> is_s b b' -> is_s (XWhile c b) (OWhile c' b')
| is_whilepost c b p c' b' p' : is_e c c' -> is_s b b' -> is_s p p' -> is_s (XWhilePost c b p) (OWhilePost c' b' p')
| is_forin x e b e' b' : is_e e e' -> is_s b b' -> is_s (XForIn x e b) (OForIn x e' b')
| is_break : is_s XBreak OBreak
| is_continue : is_s XContinue OContinue
| is_echo e e' : is_e e e' -> is_s (XEcho e) (OEcho e')
| is_assert e e' : is_e e e' -> is_s (XAssert e) (OAssert e').
