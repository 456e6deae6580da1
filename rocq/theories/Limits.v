(** * The programs the compilation theorems speak about, and the fixed limits of the virtual machine. Nothing here
    mentions the compiler or the bytecode. *)
From Verif Require Import Base Value Ops Ast Stmt.

(** ** Shapes the parser builds (/repo/compiler/parser.c:240-330, 430-560): branches, bodies and posts declare nothing
    outside a block of their own; the post of a for contains no break or continue of its own; a declaration has as
    many values as targets. *)
Definition is_decl (l : lval) : bool := match l with LAssign _ => false | _ => true end.
(** Number of variables a statement adds to the current scope. *)
Fixpoint decls (s : stmt) : nat :=
  match s with
  | SSeq a b => decls a + decls b
  | SLet _ _ | SConst _ _ => 1
  | SDecl ls _ => length (filter is_decl ls)
  | _ => 0
  end.
Definition no_decls (s : stmt) : bool := (decls s =? 0)%nat.
(** A break or continue that leaves the statement. *)
Fixpoint has_jump (s : stmt) : bool :=
  match s with
  | SSeq a b | SIfElse _ a b => has_jump a || has_jump b
  | SBlock b | SIf _ b | SPop b => has_jump b
  | SBreak | SContinue => true
  | _ => false
  end.
Fixpoint parsed (s : stmt) : bool :=
  match s with
  | SSeq a b => parsed a && parsed b
  | SDecl ls rs => (length ls =? length rs)%nat
  | SBlock b => parsed b
  | SIf _ a => parsed a && no_decls a
  | SIfElse _ a b => parsed a && no_decls a && parsed b && no_decls b
  | SWhile _ b => parsed b && no_decls b
  | SForIn _ _ b => parsed b && no_decls b
  | SWhilePost _ b post => parsed b && no_decls b && parsed post && no_decls post && negb (has_jump post)
  | SPop _ => false
  | _ => true
  end.

(** ** Literals. *)
Fixpoint lits_e (e : expr) : list value :=
  match e with
  | EInt i => [VInt i] | EFloat f => [VFloat f] | EStr s => [VStr s]
  | EUn _ e1 => lits_e e1 | EBin _ l r | ESc _ l r => lits_e l ++ lits_e r
  | ETri c a b => lits_e c ++ lits_e a ++ lits_e b | _ => []
  end.
Fixpoint literals (s : stmt) : list value :=
  match s with
  | SSeq a b => literals a ++ literals b
  | SExpr e | SLet _ e | SConst _ e | SAssign _ e | SEcho e | SAssert e => lits_e e
  | SDecl _ rs => concat (map lits_e rs)
  | SBlock b | SPop b => literals b
  | SIf c a => lits_e c ++ literals a
  | SIfElse c a b => lits_e c ++ literals a ++ literals b
  | SWhile c b => lits_e c ++ literals b
  | SWhilePost c b post => lits_e c ++ literals b ++ literals post
  | SForIn _ e b => lits_e e ++ literals b
  | _ => []
  end.

(** ** Break and continue only where the loop body has declared nothing yet ([d]: variables declared since the loop). *)
Fixpoint jumps_ok (d : nat) (s : stmt) : bool :=
  match s with
  | SSeq a b => jumps_ok d a && jumps_ok (d + decls a) b
  | SBlock b | SIf _ b | SPop b => jumps_ok d b
  | SIfElse _ a b => jumps_ok d a && jumps_ok d b
  | SWhile _ b | SForIn _ _ b => jumps_ok 0 b
  | SWhilePost _ b post => jumps_ok 0 b && jumps_ok d post
  | SBreak | SContinue => (d =? 0)%nat
  | _ => true
  end.

(** ** Most variables in scope at once, starting with [d]. *)
Fixpoint peak (d : nat) (s : stmt) : nat :=
  match s with
  | SSeq a b => Nat.max (peak d a) (peak (d + decls a) b)
  | SLet _ _ | SConst _ _ => S d
  | SDecl ls _ => d + length ls
  | SBlock b | SIf _ b | SPop b | SWhile _ b => peak d b
  | SIfElse _ a b | SWhilePost _ a b => Nat.max (peak d a) (peak d b)
  | SForIn _ _ b => peak (S d) b
  | _ => d
  end.

(** ** Stack slots needed above the variables in scope at the start. *)
Fixpoint need_e (e : expr) : nat :=
  match e with
  | EUn _ e1 => need_e e1
  | EBin _ l r => Nat.max (need_e l) (S (need_e r))
  | ESc _ l r => Nat.max (Nat.max (need_e l) 2) (need_e r)
  | ETri c a b => Nat.max (need_e c) (Nat.max (need_e a) (need_e b))
  | _ => 1
  end.
Fixpoint need_es (es : list expr) : nat :=
  match es with [] => 0 | e :: r => Nat.max (need_e e) (S (need_es r)) end.
Fixpoint need (s : stmt) : nat :=
  match s with
  | SSeq a b => Nat.max (need a) (decls a + need b)
  | SExpr e | SLet _ e | SConst _ e | SAssign _ e | SEcho e | SAssert e => need_e e
  | SDecl _ rs => need_es rs
  | SBlock b | SPop b => need b
  | SIf c a => Nat.max (need_e c) (need a)
  | SIfElse c a b | SWhilePost c a b => Nat.max (need_e c) (Nat.max (need a) (need b))
  | SWhile c b => Nat.max (need_e c) (need b)
  | SForIn _ e b => Nat.max (need_e e) (Nat.max 3 (S (need b)))
  | SBreak => 1
  | _ => 0
  end.
(** ** Nesting of for-in loops. *)
Fixpoint for_depth (s : stmt) : nat :=
  match s with
  | SSeq a b | SIfElse _ a b | SWhilePost _ a b => Nat.max (for_depth a) (for_depth b)
  | SBlock b | SIf _ b | SPop b | SWhile _ b => for_depth b
  | SForIn _ _ b => S (for_depth b)
  | _ => 0
  end.
