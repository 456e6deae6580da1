(** * Specification: programs whose constants fold to their value (C24): no [===] or [!==] of two constant numbers one of which is a float, and
    no [!] of the constant NaN, anywhere in the program. *)
From Verif Require Import Base Value Ops Ast Fold Stmt Tree TreeSpec.
Local Open Scope list_scope.

Definition is_float_x (e : xe) : bool := match e with XFloat _ => true | _ => false end.
Definition float_pair_x (l r : xe) : bool := match fold_e l, fold_e r with Ok a, Ok b => is_num a && is_num b && (is_float_x a || is_float_x b) | _, _ => false end.
Definition is_nan_x (e : xe) : bool := match fold_e e with Ok (XFloat f) => f_is_nan f | _ => false end.
Fixpoint exact_e (e : xe) : bool :=
  match e with
  | XUn o e => exact_e e && match o with UNot => negb (is_nan_x e) | _ => true end
  | XBin o l r => exact_e l && exact_e r && match o with BOp BId | BNi => negb (float_pair_x l r) | _ => true end
  | XSc _ l r | XGet l r => exact_e l && exact_e r
  | XTri c a b | XSlice c a b => exact_e c && exact_e a && exact_e b
  | XList es | XTable es => exact_es es
  | XMeth c _ es | XCall c es => exact_e c && exact_es es
  | XCtx _ e => exact_e e
  | XFn _ b => exact_s b
  | _ => true
  end
with exact_es (es : xes) : bool := match es with XNil => true | XCons e r => exact_e e && exact_es r end
with exact_s (s : xs) : bool :=
  match s with
  | XSeq a b => exact_s a && exact_s b
  | XExpr e | XLet _ e | XAssign _ e | XEcho e | XAssert e | XReturn e => exact_e e
  | XDecl _ es | XReturns es => exact_es es
  | XSet c k v => exact_e c && exact_e k && exact_e v
  | XFnDecl _ _ _ b => exact_s b
  | XBlock b | XPop b => exact_s b
  | XIf c a => exact_e c && exact_s a
  | XIfElse c a b => exact_e c && exact_s a && exact_s b
  | XWhile c b | XForIn _ c b => exact_e c && exact_s b
  | XWhilePost c b p => exact_e c && exact_s b && exact_s p
  | _ => true
  end.
