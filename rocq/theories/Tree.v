(** * The syntax tree of /repo/compiler/ast.h (kinds: nodetype.x) without match, comprehensions and interpolated strings, and constant
    folding on it (/repo/compiler/middleend.c). *)
From Verif Require Import Base Value Ops Ast Fold Stmt.
Local Open Scope list_scope.

Inductive xe : Type :=
| XUndef | XBool (b : bool) | XInt (i : Z) | XFloat (f : float) | XStr (s : list Z) | XVar (x : name)
| XUn (o : unop) (e : xe) | XBin (o : bop) (l r : xe) | XSc (o : scop) (l r : xe) | XTri (c a b : xe)
| XList (es : xes)                        (* N_LIST *)
| XTable (es : xes)                       (* N_TABLE: key, value, key, value ... *)
| XGet (c k : xe)                         (* N_GET *)
| XSlice (c a b : xe)                     (* N_SLICE *)
| XMeth (c : xe) (x : name) (es : xes)    (* N_MCALL *)
| XCall (c : xe) (es : xes)               (* N_CALL *)
| XCtx (n : Z) (e : xe)                   (* N_VARIADIC_CONTEXT: the values of the call [e] that are kept; -1: all *)
| XFn (ps : list (name * bool)) (b : xs)  (* N_FNDECL without a name; parameters, constant or not *)
with xes : Type := XNil | XCons (e : xe) (r : xes)
with xs : Type :=
| XSkip | XSeq (a b : xs) | XExpr (e : xe)
| XLet (x : name) (e : xe)                (* N_LET of a for *)
| XDecl (ls : list lval) (es : xes)       (* N_DECL *)
| XAssign (x : name) (e : xe) | XSet (c k v : xe)
| XFnDecl (k : bool) (x : name) (ps : list (name * bool)) (b : xs)   (* N_LET or (k) N_CONST of a named N_FNDECL *)
| XBlock (b : xs) | XIf (c : xe) (a : xs) | XIfElse (c : xe) (a b : xs)
| XWhile (c : xe) (b : xs) | XWhilePost (c : xe) (b p : xs) | XForIn (x : name) (e : xe) (b : xs)
| XBreak | XContinue | XEcho (e : xe) | XAssert (e : xe)
| XReturn (e : xe)                        (* N_RET *)
| XReturns (es : xes)                     (* N_MULTIRET *)
| XPop (s : xs).                          (* N_EXPRSTMT around a statement: the post clause of a for *)
Scheme xe_mind := Induction for xe Sort Prop with xes_mind := Induction for xes Sort Prop with xs_mind := Induction for xs Sort Prop.
Combined Scheme tree_mind from xe_mind, xes_mind, xs_mind.

Fixpoint xes_list (es : xes) : list xe := match es with XNil => [] | XCons e r => e :: xes_list r end.
Fixpoint xes_of (l : list xe) : xes := match l with [] => XNil | e :: r => XCons e (xes_of r) end.

(** ** Constant folding. [mk_int], [fold_int_int], [fold_float], [fold_bin], [fold_un]: middleend.c:66-351, as in Fold.v. *)
Definition leafx (e : xe) : option expr :=
  match e with XInt i => Some (EInt i) | XFloat f => Some (EFloat f) | XBool b => Some (EBool b) | XUndef => Some EUndef | XStr s => Some (EStr s) | XVar x => Some (EVar x) | _ => None end.
Definition back (e : expr) : xe :=
  match e with EInt i => XInt i | EFloat f => XFloat f | EBool b => XBool b | EUndef => XUndef | EStr s => XStr s | EVar x => XVar x | _ => XUndef end.
Definition is_num (e : xe) : bool := match e with XInt _ | XFloat _ => true | _ => false end.
(** the operators of Fold.v give a literal or leave the node *)
Definition is_leaf (e : expr) : bool := match e with EUn _ _ | EBin _ _ _ | ESc _ _ _ | ETri _ _ _ => false | _ => true end.
Definition foldx_bin (o : bop) (l r : xe) : outcome xe :=
  match leafx l, leafx r with
  | Some a, Some b => do e <- fold_bin o a b; Ok (if is_leaf e then back e else XBin o l r)
  | _, _ => Ok (XBin o l r)
  end.
Definition foldx_un (o : unop) (e : xe) : outcome xe :=
  match leafx e with
  | Some a => do e' <- fold_un o a; Ok (if is_leaf e' then back e' else XUn o e)
  | None => Ok (XUn o e)
  end.
(** [fold], middleend.c:369-422. It does not go into function bodies (whose expressions the parser folds as it reads them) nor into
    variadic contexts (put around expressions already folded). *)
Fixpoint cfold (e : xe) : outcome xe :=
  match e with
  | XUn o e1 => do e1' <- cfold e1; foldx_un o e1'
  | XBin o l r => do l' <- cfold l; do r' <- cfold r; foldx_bin o l' r'
  | XSc o l r => do l' <- cfold l; do r' <- cfold r; Ok (XSc o l' r')
  | XTri c a b => do c' <- cfold c; do a' <- cfold a; do b' <- cfold b; Ok (XTri c' a' b')
  | XList es => do es' <- cfolds es; Ok (XList es')
  | XTable es => do es' <- cfolds es; Ok (XTable es')
  | XGet c k => do c' <- cfold c; do k' <- cfold k; Ok (XGet c' k')
  | XSlice c a b => do c' <- cfold c; do a' <- cfold a; do b' <- cfold b; Ok (XSlice c' a' b')
  | XMeth c x es => do c' <- cfold c; do es' <- cfolds es; Ok (XMeth c' x es')
  | XCall c es => do c' <- cfold c; do es' <- cfolds es; Ok (XCall c' es')
  | _ => Ok e
  end
with cfolds (es : xes) : outcome xes :=
  match es with XNil => Ok XNil | XCons e r => do e' <- cfold e; do r' <- cfolds r; Ok (XCons e' r') end.
