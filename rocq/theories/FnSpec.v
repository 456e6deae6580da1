(** * The programs with functions that the compilation theorem speaks about, and the limits of the machine. Nothing here
    mentions the compiler or the bytecode. *)
From Verif Require Import Base Value Ops Ast Stmt Fn.

Definition pnames (ps : list (name * bool)) : list name := map fst ps.
Definition mem (x : name) (l : list name) : bool := existsb (fun y => name_eqb y x) l.
Fixpoint distinct (l : list name) : bool := match l with [] => true | x :: r => negb (mem x r) && distinct r end.

(** ** Where a piece of text stands: at file level, inside blocks declaring [D] (innermost first, the last entry is the file
    itself); or in a function with its own variables [D], where the variables [hidden] belong to enclosing functions or to
    blocks of the file, and [ro] may not be assigned. *)
Inductive place : Type := InFile (D : list (list name)) | InFun (D : list (list name)) (hidden ro : list name).
Definition add_name (D : list (list name)) (x : name) : list (list name) := match D with [] => [] | d :: r => (x :: d) :: r end.
Definition declare_in (pl : place) (x : name) : place :=
  match pl with InFile D => InFile (add_name D x) | InFun D hid ro => InFun (add_name D x) hid ro end.
Definition inner (pl : place) : place := match pl with InFile D => InFile ([] :: D) | InFun D hid ro => InFun ([] :: D) hid ro end.
(** The variables of enclosing functions and of the blocks of the file are not used in a function. *)
Definition usable (pl : place) (x : name) : bool :=
  match pl with InFile _ => true | InFun D hid _ => mem x (concat D) || negb (mem x hid) end.
Definition assignable (pl : place) (x : name) : bool :=
  match pl with InFile _ => true | InFun D hid ro => mem x (concat D) || negb (mem x hid) && negb (mem x ro) end.
(** The place of a function's body. *)
Definition fn_body (pl : place) (ps : list (name * bool)) : place :=
  match pl with
  | InFile D => InFun [rev (pnames ps)] (concat (removelast D)) []
  | InFun D hid ro => InFun [rev (pnames ps)] (hid ++ concat D) ro
  end.
(** ... of a function with the name [x], declared here; a constant function of the file does not assign itself. *)
Definition named_body (pl : place) (k : bool) (x : name) (ps : list (name * bool)) : place :=
  match pl with
  | InFile [_] => InFun [rev (pnames ps)] [] (if k then [x] else [])
  | _ => fn_body (declare_in pl x) ps
  end.
Fixpoint after_place (pl : place) (s : fstmt) : place :=
  match s with
  | FSeq a b => after_place (after_place pl a) b
  | FLet _ x _ | FFnDecl _ x _ _ _ => declare_in pl x
  | _ => pl
  end.

(** ** The fragment: in functions only usable names; parameters with different names; calls are asked for one result or
    for all of them; functions return one value. *)
Fixpoint plain_e (pl : place) (e : fexpr) : bool :=
  match e with
  | FVar x => usable pl x
  | FUn _ e1 => plain_e pl e1
  | FBin _ l r | FSc _ l r => plain_e pl l && plain_e pl r
  | FTri c a b => plain_e pl c && plain_e pl a && plain_e pl b
  | FCall f args => plain_e pl f && plain_args pl args
  | FCtx n e1 => ((n =? 1) || (n =? -1)) && plain_e pl e1
  | FFn _ ps b => distinct (pnames ps) && plain_s (fn_body pl ps) b
  | _ => true
  end
with plain_args (pl : place) (es : fargs) : bool :=
  match es with ANil => true | ACons e r => plain_e pl e && plain_args pl r end
with plain_s (pl : place) (s : fstmt) : bool :=
  match s with
  | FSkip => true
  | FSeq a b => plain_s pl a && plain_s (after_place pl a) b
  | FExpr e | FLet _ _ e | FReturn e | FEcho e | FAssert e => plain_e pl e
  | FFnDecl k x _ ps b => distinct (pnames ps) && plain_s (named_body pl k x ps) b
  | FAssign x e => assignable pl x && plain_e pl e
  | FBlock b => plain_s (inner pl) b
  | FIf c a | FWhile c a => plain_e pl c && plain_s (inner pl) a
  | FIfElse c a b => plain_e pl c && plain_s (inner pl) a && plain_s (inner pl) b
  | FReturns _ => false
  end.

(** ** The function literals of a program. *)
Fixpoint labels_e (e : fexpr) : list nat :=
  match e with
  | FUn _ e1 | FCtx _ e1 => labels_e e1
  | FBin _ l r | FSc _ l r => labels_e l ++ labels_e r
  | FTri c a b => labels_e c ++ labels_e a ++ labels_e b
  | FCall f args => labels_e f ++ labels_args args
  | FFn l _ b => l :: labels_s b
  | _ => []
  end
with labels_args (es : fargs) : list nat :=
  match es with ANil => [] | ACons e r => labels_e e ++ labels_args r end
with labels_s (s : fstmt) : list nat :=
  match s with
  | FSeq a b => labels_s a ++ labels_s b
  | FExpr e | FLet _ _ e | FAssign _ e | FReturn e | FEcho e | FAssert e => labels_e e
  | FFnDecl _ _ l _ b => l :: labels_s b
  | FBlock b => labels_s b
  | FIf c a | FWhile c a => labels_e c ++ labels_s a
  | FIfElse c a b => labels_e c ++ labels_s a ++ labels_s b
  | FReturns es => labels_args es
  | FSkip => []
  end.
(** ** The literals of a program. *)
Fixpoint flits_e (e : fexpr) : list value :=
  match e with
  | FInt i => [VInt i] | FFloat f => [VFloat f] | FStr s => [VStr s]
  | FUn _ e1 | FCtx _ e1 => flits_e e1
  | FBin _ l r | FSc _ l r => flits_e l ++ flits_e r
  | FTri c a b => flits_e c ++ flits_e a ++ flits_e b
  | FCall f args => flits_e f ++ flits_args args
  | FFn _ _ b => flits_s b
  | _ => []
  end
with flits_args (es : fargs) : list value :=
  match es with ANil => [] | ACons e r => flits_e e ++ flits_args r end
with flits_s (s : fstmt) : list value :=
  match s with
  | FSeq a b => flits_s a ++ flits_s b
  | FExpr e | FLet _ _ e | FAssign _ e | FReturn e | FEcho e | FAssert e => flits_e e
  | FFnDecl _ _ _ _ b => flits_s b
  | FBlock b => flits_s b
  | FIf c a | FWhile c a => flits_e c ++ flits_s a
  | FIfElse c a b => flits_e c ++ flits_s a ++ flits_s b
  | FReturns es => flits_args es
  | FSkip => []
  end.

(** ** Limits: variables added to the current scope; most variables in scope at once; stack slots needed above the variables
    in scope at the start, not counting those needed by the functions called. *)
Fixpoint fdecls (s : fstmt) : nat :=
  match s with FSeq a b => fdecls a + fdecls b | FLet _ _ _ | FFnDecl _ _ _ _ _ => 1 | _ => 0 end.
Fixpoint fpeak (d : nat) (s : fstmt) : nat :=
  match s with
  | FSeq a b => Nat.max (fpeak d a) (fpeak (d + fdecls a) b)
  | FLet _ _ _ | FFnDecl _ _ _ _ _ => S d
  | FBlock b | FIf _ b | FWhile _ b => fpeak d b
  | FIfElse _ a b => Nat.max (fpeak d a) (fpeak d b)
  | _ => d
  end.
Fixpoint fneed_e (e : fexpr) : nat :=
  match e with
  | FUn _ e1 | FCtx _ e1 => fneed_e e1
  | FBin _ l r => Nat.max (fneed_e l) (S (fneed_e r))
  | FSc _ l r => Nat.max (Nat.max (fneed_e l) 2) (fneed_e r)
  | FTri c a b => Nat.max (fneed_e c) (Nat.max (fneed_e a) (fneed_e b))
  | FCall f args => Nat.max (fneed_e f) (S (fneed_args args))
  | _ => 1
  end
with fneed_args (es : fargs) : nat :=
  match es with ANil => 0 | ACons e r => Nat.max (fneed_e e) (S (fneed_args r)) end.
Fixpoint fneed (s : fstmt) : nat :=
  match s with
  | FSkip => 0
  | FSeq a b => Nat.max (fneed a) (fdecls a + fneed b)
  | FExpr e | FLet _ _ e | FAssign _ e | FReturn e | FEcho e | FAssert e => fneed_e e
  | FFnDecl _ _ _ _ _ => 1
  | FBlock b => fneed b
  | FIf c a | FWhile c a => Nat.max (fneed_e c) (fneed a)
  | FIfElse c a b => Nat.max (fneed_e c) (Nat.max (fneed a) (fneed b))
  | FReturns es => fneed_args es
  end.
(** Every function has at most 128 variables at a time, and the frame of one call takes at most [M] slots. *)
Definition small_fn (M : nat) (ps : list (name * bool)) (b : fstmt) : bool :=
  (fpeak (length ps) b <=? 128)%nat && (length ps + Nat.max (fneed b) (S (fdecls b)) <=? M)%nat.
Fixpoint small_e (M : nat) (e : fexpr) : bool :=
  match e with
  | FUn _ e1 | FCtx _ e1 => small_e M e1
  | FBin _ l r | FSc _ l r => small_e M l && small_e M r
  | FTri c a b => small_e M c && small_e M a && small_e M b
  | FCall f args => small_e M f && small_args M args
  | FFn _ ps b => small_fn M ps b && small_s M b
  | _ => true
  end
with small_args (M : nat) (es : fargs) : bool :=
  match es with ANil => true | ACons e r => small_e M e && small_args M r end
with small_s (M : nat) (s : fstmt) : bool :=
  match s with
  | FSeq a b => small_s M a && small_s M b
  | FExpr e | FLet _ _ e | FAssign _ e | FReturn e | FEcho e | FAssert e => small_e M e
  | FFnDecl _ _ _ ps b => small_fn M ps b && small_s M b
  | FBlock b => small_s M b
  | FIf c a | FWhile c a => small_e M c && small_s M a
  | FIfElse c a b => small_e M c && small_s M a && small_s M b
  | FReturns es => small_args M es
  | FSkip => true
  end.
