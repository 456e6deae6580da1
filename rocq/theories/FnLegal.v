(** * Specification: legal programs with functions, in terms of names only. Nothing here mentions the compiler. Continues CompSpec.v:
    the names in scope, innermost scope first, each scope newest first; [true] marks a constant. *)
From Verif Require Import Base Value Ops Ast Stmt CompSpec Fn FnSpec.

Section Legal.
Variable gs : list name.   (* the globals, none of them constant *)
(** A function sees everything in scope where it is written; its parameters and the variables of its body share one scope. *)
Definition with_params (ps : list (name * bool)) (D : names) : names := rev ps :: D.
Fixpoint fnames_after (D : names) (s : fstmt) : names :=
  match s with
  | FSeq a b => fnames_after (fnames_after D a) b
  | FLet k x _ | FFnDecl k x _ _ _ => CompSpec.add_name D x k
  | _ => D
  end.
(** Every name used is declared, constants are not assigned, nothing is declared twice in one scope, [return] is inside a function ([fn]).
    A named function can use its own name, which is not yet a constant in its body (C51_const_fn_refuted). *)
Fixpoint flegal_e (D : names) (e : fexpr) : bool :=
  match e with
  | FVar x => declared gs D x
  | FUn _ e1 | FCtx _ e1 => flegal_e D e1
  | FBin _ l r | FSc _ l r => flegal_e D l && flegal_e D r
  | FTri c a b => flegal_e D c && flegal_e D a && flegal_e D b
  | FCall f args => flegal_e D f && flegal_args D args
  | FFn _ ps b => flegal_s (with_params ps D) true b
  | _ => true
  end
with flegal_args (D : names) (es : fargs) : bool :=
  match es with ANil => true | ACons e r => flegal_e D e && flegal_args D r end
with flegal_s (D : names) (fn : bool) (s : fstmt) : bool :=
  match s with
  | FSkip => true
  | FSeq a b => flegal_s D fn a && flegal_s (fnames_after D a) fn b
  | FExpr e | FEcho e | FAssert e => flegal_e D e
  | FLet _ x e => flegal_e D e && new_here D x
  | FFnDecl _ x _ ps b => new_here D x && flegal_s (with_params ps (CompSpec.add_name D x false)) true b
  | FAssign x e => flegal_e D e && CompSpec.assignable gs D x
  | FBlock b => flegal_s ([] :: D) fn b
  | FIf c a | FWhile c a => flegal_e D c && flegal_s ([] :: D) fn a
  | FIfElse c a b => flegal_e D c && flegal_s ([] :: D) fn a && flegal_s ([] :: D) fn b
  | FReturn e => fn && flegal_e D e
  | FReturns es => fn && flegal_args D es
  end.
End Legal.
Definition flegal_program (gs : list name) (s : fstmt) : bool := flegal_s gs [[]] false s.

(** No function has more than [N] variables at a time. *)
Fixpoint narrow_e (N : nat) (e : fexpr) : bool :=
  match e with
  | FUn _ e1 | FCtx _ e1 => narrow_e N e1
  | FBin _ l r | FSc _ l r => narrow_e N l && narrow_e N r
  | FTri c a b => narrow_e N c && narrow_e N a && narrow_e N b
  | FCall f args => narrow_e N f && narrow_args N args
  | FFn _ ps b => (fpeak (length ps) b <=? N)%nat && narrow_s N b
  | _ => true
  end
with narrow_args (N : nat) (es : fargs) : bool :=
  match es with ANil => true | ACons e r => narrow_e N e && narrow_args N r end
with narrow_s (N : nat) (s : fstmt) : bool :=
  match s with
  | FSeq a b => narrow_s N a && narrow_s N b
  | FExpr e | FLet _ _ e | FAssign _ e | FReturn e | FEcho e | FAssert e => narrow_e N e
  | FFnDecl _ _ _ ps b => (fpeak (length ps) b <=? N)%nat && narrow_s N b
  | FBlock b => narrow_s N b
  | FIf c a | FWhile c a => narrow_e N c && narrow_s N a
  | FIfElse c a b => narrow_e N c && narrow_s N a && narrow_s N b
  | FReturns es => narrow_args N es
  | FSkip => true
  end.
