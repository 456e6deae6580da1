(** * Specification: legal programs with lists and tables, in terms of names only. Nothing here mentions the compiler. Continues CompSpec.v:
    the names in scope, innermost scope first, each scope newest first; [true] marks a constant. *)
From Verif Require Import Base Value Ops Ast Stmt CompSpec Obj.

Section Legal.
Variable gs : list name.   (* the globals, none of them constant *)
Fixpoint onames_after (D : names) (s : ostmt) : names :=
  match s with
  | OSeq a b => onames_after (onames_after D a) b
  | OLet k x _ => add_name D x k
  | _ => D
  end.
(** The names of methods are not names in scope. *)
Fixpoint olegal_e (D : names) (e : oexpr) : bool :=
  match e with
  | OVar x => declared gs D x
  | OUn _ e1 => olegal_e D e1
  | OBin _ l r | OSc _ l r | OGet l r => olegal_e D l && olegal_e D r
  | OTri c a b => olegal_e D c && olegal_e D a && olegal_e D b
  | OList es | OTable es => olegal_as D es
  | OMeth c _ es => olegal_e D c && olegal_as D es
  | _ => true
  end
with olegal_as (D : names) (es : oargs) : bool := match es with ANil => true | ACons e r => olegal_e D e && olegal_as D r end.
(** the condition is written [false] or [undef] *)
Definition switched_off (c : oexpr) : bool := match c with OUndef => true | OBool b => negb b | _ => false end.
(** Every name used is declared, constants are not assigned, nothing is declared twice in one scope, break and continue are inside a loop
    that is not switched off ([lp]). The variable of [for x in e] is declared in a scope of its own around the body, and is not in scope in
    [e]. *)
Fixpoint olegal_s (D : names) (lp : bool) (s : ostmt) : bool :=
  match s with
  | OSkip => true
  | OSeq a b => olegal_s D lp a && olegal_s (onames_after D a) lp b
  | OExpr e | OEcho e | OAssert e => olegal_e D e
  | OLet _ x e => olegal_e D e && new_here D x
  | OAssign x e => olegal_e D e && assignable gs D x
  | OSet c k v => olegal_e D c && olegal_e D k && olegal_e D v
  | OBlock b => olegal_s ([] :: D) lp b
  | OIf c a => olegal_e D c && olegal_s D lp a
  | OIfElse c a b => olegal_e D c && olegal_s D lp a && olegal_s D lp b
  | OWhile c b => olegal_e D c && olegal_s D (lp || negb (switched_off c)) b
  | OWhilePost c b p => olegal_e D c && olegal_s D (lp || negb (switched_off c)) b && olegal_s D lp p
  | OForIn x e b => olegal_e D e && olegal_s ([(x, false)] :: D) true b
  | OBreak | OContinue => lp
  end.
End Legal.
Definition olegal_program (gs : list name) (s : ostmt) : bool := olegal_s gs [[]] false s.
