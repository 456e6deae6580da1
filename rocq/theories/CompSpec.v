(** * Legal programs, in terms of names only. *)
From Verif Require Import Base Value Ops Ast Stmt Limits ConstSpec.

(** The declarations in scope, innermost scope first, each scope newest first; [true] marks a constant. *)
Definition names := list (list (name * bool)).
Fixpoint in_scope (s : list (name * bool)) (x : name) : option bool :=
  match s with [] => None | (y, k) :: r => if name_eqb y x then Some k else in_scope r x end.
Fixpoint in_scopes (D : names) (x : name) : option bool :=
  match D with [] => None | s :: r => match in_scope s x with Some k => Some k | None => in_scopes r x end end.
Definition add_name (D : names) (x : name) (k : bool) : names :=
  match D with [] => [] | s :: r => ((x, k) :: s) :: r end.

Section Legal.
Variable gs : list name.   (* the globals, none of them constant *)
Definition global (x : name) : bool := existsb (fun y => name_eqb y x) gs.
Definition declared (D : names) (x : name) : bool := match in_scopes D x with Some _ => true | None => global x end.
Definition assignable (D : names) (x : name) : bool := match in_scopes D x with Some k => negb k | None => global x end.
Definition new_here (D : names) (x : name) : bool :=
  match D with [] => false | s :: _ => match in_scope s x with Some _ => false | None => true end end.
Fixpoint legal_e (D : names) (e : expr) : bool :=
  match e with
  | EVar x => declared D x
  | EUn _ e1 => legal_e D e1
  | EBin _ l r | ESc _ l r => legal_e D l && legal_e D r
  | ETri c a b => legal_e D c && legal_e D a && legal_e D b
  | _ => true
  end.
Definition add_lval (D : names) (l : lval) : names :=
  match l with LLet x => add_name D x false | LConst x => add_name D x true | LAssign _ => D end.
Fixpoint legal_lvals (D : names) (ls : list lval) : bool :=
  match ls with
  | [] => true
  | l :: r => match l with LAssign x => assignable D x | LLet x | LConst x => new_here D x end && legal_lvals (add_lval D l) r
  end.
(** The declarations in scope after a statement. *)
Fixpoint names_after (D : names) (s : stmt) : names :=
  match s with
  | SSeq a b => names_after (names_after D a) b
  | SLet x _ => add_name D x false
  | SConst x _ => add_name D x true
  | SDecl ls _ => fold_left add_lval ls D
  | _ => D
  end.
(** Every name used is declared, constants are not assigned, nothing is declared twice in one scope, break and continue
    are inside loops ([lp]). *)
Fixpoint legal_s (D : names) (lp : bool) (s : stmt) : bool :=
  match s with
  | SSkip => true
  | SSeq a b => legal_s D lp a && legal_s (names_after D a) lp b
  | SExpr e | SEcho e | SAssert e => legal_e D e
  | SLet x e | SConst x e => new_here D x && legal_e D e
  | SDecl ls rs => forallb (legal_e D) rs && legal_lvals D ls
  | SAssign x e => legal_e D e && assignable D x
  | SBlock b => legal_s ([] :: D) lp b
  | SIf c a => legal_e D c && legal_s D lp a
  | SIfElse c a b => legal_e D c && legal_s D lp a && legal_s D lp b
  | SWhile c b => legal_e D c && legal_s D true b
  | SWhilePost c b post => legal_e D c && legal_s D true b && legal_s D lp post
  | SForIn x e b => legal_e D e && legal_s ([(x, false)] :: D) true b
  | SBreak | SContinue => lp
  | SPop s => legal_s D lp s
  end.
End Legal.

(** A top-level program: no name declared by the program itself yet. *)
Definition legal_program (gs : list name) (s : stmt) : bool := legal_s gs [[]] false s.

(** Every break and continue is inside a loop that is not switched off by a literal [false] or [undef] condition, or
    inside another loop around it. *)
Definition never (c : expr) : bool := match c with EUndef => true | EBool b => negb b | _ => false end.
Fixpoint live_jumps (lp : bool) (s : stmt) : bool :=
  match s with
  | SSeq a b | SIfElse _ a b => live_jumps lp a && live_jumps lp b
  | SBlock b | SIf _ b | SPop b => live_jumps lp b
  | SWhile c b => live_jumps (if never c then lp else true) b
  | SWhilePost c b post => live_jumps (if never c then lp else true) b && live_jumps lp post
  | SForIn _ _ b => live_jumps true b
  | SBreak | SContinue => lp
  | _ => true
  end.
