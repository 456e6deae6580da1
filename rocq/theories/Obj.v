(** * Programs with lists and tables: syntax (fragment of /repo/compiler/ast.h) and meaning. The meaning knows nothing of the
    compiler, the bytecode, the stack or the hash tables. *)
From Coq Require Import Permutation.
From Verif Require Import Base Value Text Ops Ast Stmt HeapSpec HeapSpec2.
Local Open Scope list_scope.

(** ** Syntax, as produced by the parser (/repo/compiler/nodetype.x). *)
Inductive oexpr : Type :=
| OUndef | OBool (b : bool) | OInt (i : Z) | OFloat (f : float) | OStr (s : list Z) | OVar (x : name)
| OUn (o : unop) (e : oexpr)
| OBin (o : bop) (l r : oexpr)
| OSc (o : scop) (l r : oexpr)
| OTri (c a b : oexpr)
| OList (es : oargs)                              (* N_LIST *)
| OTable (es : oargs)                             (* N_TABLE: key, value, key, value ... *)
| OGet (c k : oexpr)                              (* N_GET: [c[k]], [c.x] *)
| OMeth (c : oexpr) (x : name) (es : oargs)       (* N_MCALL: [c->x(es)] *)
with oargs : Type := ANil | ACons (e : oexpr) (r : oargs).
Inductive ostmt : Type :=
| OSkip | OSeq (a b : ostmt) | OExpr (e : oexpr)
| OLet (k : bool) (x : name) (e : oexpr)          (* N_DECL with one N_LET or (k) N_CONST *)
| OAssign (x : name) (e : oexpr)
| OSet (c k v : oexpr)                            (* N_SET: [c[k] = v] *)
| OBlock (b : ostmt) | OIf (c : oexpr) (a : ostmt) | OIfElse (c : oexpr) (a b : ostmt)
| OWhile (c : oexpr) (b : ostmt)
| OWhilePost (c : oexpr) (b p : ostmt)             (* N_WHILE of [for let i = 0; c; p] *)
| OForIn (x : name) (e : oexpr) (b : ostmt)
| OBreak | OContinue
| OEcho (e : oexpr) | OAssert (e : oexpr).

(** ** Meaning. A piece of program may have several allowed results (the order of the entries of a table is left open).
    [Done]: finished with a value; [Stop]: stopped the program with an error; [Fuel]: a loop made too many iterations; [Stuck]: not
    a legal program; [Open]: nothing is said from here on. *)
Inductive res (S A : Type) : Type := Done (a : A) (s : S) | Stop (e : yerr) (s : S) | Fuel | Stuck | Open.
Arguments Done {S A}. Arguments Stop {S A}. Arguments Fuel {S A}. Arguments Stuck {S A}. Arguments Open {S A}.
(** allowed results *)
Definition may (S A : Type) : Type := res S A -> Prop.
Definition only {S A} (r : res S A) : may S A := fun r' => r' = r.
Definition next {S A S' B} (X : may S A) (up : S -> S') (k : A -> S -> may S' B) : may S' B := fun r =>
  exists x, X x /\ match x with
                   | Done a s => k a s r
                   | Stop e s => r = Stop e (up s)
                   | Fuel => r = Fuel | Stuck => r = Stuck | Open => r = Open
                   end.
Definition bindr {S A B} (X : may S A) (k : A -> S -> may S B) : may S B := next X (fun s => s) k.
Definition said_val {S A} (s : S) (x : said A) : may S A :=
  match x with Gives a => only (Done a s) | Raises e => only (Stop e s) | Unsaid => only Open end.

(** objects as they are, and how often something was stored in a table with [c[k] = v] *)
Record ost : Type := OST { o_env : env; o_mem : mem; o_stores : Z -> nat }.
Definition set_env (st : ost) (e : env) : ost := OST e (o_mem st) (o_stores st).
Definition set_mem (st : ost) (m : mem) : ost := OST (o_env st) m (o_stores st).
Definition stored (st : ost) (c : value) : ost :=
  match c with VTable p => OST (o_env st) (o_mem st) (fun q => if q =? p then S (o_stores st q) else o_stores st q) | _ => st end.

Section Sem.
Variable h : host.
Variable D : nat.          (* how deeply nested containers may be compared and shown *)
Notation w := (h_world h).

(** ** Operations on values. *)
Definition is_there (m : mem) (v : value) : bool :=
  match v with
  | VList p => match m_list m p with Some _ => true | None => false end
  | VTable p => match m_tab m p with Some _ => true | None => false end
  | _ => is_atom v
  end.
Definition said_both (m : mem) (x : said (mem * value)) : may mem value :=
  match x with Gives (m', v) => only (Done v m') | Raises e => only (Stop e m) | Unsaid => only Open end.
Definition unary (m : mem) (o : unop) (v : value) : may mem value :=
  match o, v with
  | ULen, VStr _ => said_val m (said_of (exec_unop (strict w) ULen v))
  | ULen, _ => said_val m (length_spec m v)
  | _, _ => said_val m (said_of (exec_unop (strict w) o v))
  end.
Definition binary1 (m : mem) (o : binop) (a b : value) : may mem value :=
  match o with
  | BEq => match equals m D a b with Some c => only (Done (VBool c) m) | None => only Open end
  | BCnct => if nested_below m D [] a && nested_below m D [] b
             then fun r => exists ta tb, shown w m [] a ta /\ shown w m [] b tb /\ r = Done (VStr (ta ++ tb)) m else only Open
  | _ => match o, a with
         | BAdd, VList _ => said_both m (concat_spec m a b)
         | BOr, VTable _ => said_both m (union_spec m a b)
         | _, _ => said_val m (said_of (exec_binop (strict w) o a b))
         end
  end.
Definition negated (v : value) (m : mem) : may mem value := only (Done (not_value v) m).
Definition binary (m : mem) (o : bop) (a b : value) : may mem value :=
  match o with
  | BOp o => binary1 m o a b
  | BNe => bindr (binary1 m BEq a b) negated
  | BNi => bindr (binary1 m BId a b) negated
  end.
Definition list_methods : list (list Z) := [m_push; m_pop; m_copy; m_reverse; m_clear; m_insert; m_count; m_search].
Definition has_method (c : value) (x : name) : bool :=
  match c with
  | VList _ => existsb (named x) list_methods
  | VTable _ => named x m_keys || named x m_values
  | _ => false
  end.
Definition call (m : mem) (c : value) (x : name) (args : list value) : may mem value :=
  match c with
  | VTable p =>
      match m_tab m p with
      | Some kv => fun r => exists xs, Permutation xs (map (if named x m_keys then fst else snd) kv) /\ r = Done (VList (m_next m)) (fresh_list m xs)
      | None => only Open
      end
  | _ => said_both m (method_spec m c x args)
  end.
Definition no_method (m : mem) (c : value) (x : name) : may mem value :=
  match index_spec m c (VStr x) with Raises e => only (Stop e m) | _ => only Open end.
Fixpoint pairs (xs : list value) : list (value * value) := match xs with k :: v :: r => (k, v) :: pairs r | _ => [] end.

(** ** Expressions, left to right. Variables do not change. *)
Fixpoint eval_o (en : env) (e : oexpr) (m : mem) {struct e} : may mem value :=
  match e with
  | OUndef => only (Done VUndef m)
  | OBool b => only (Done (VBool b) m)
  | OInt i => only (Done (VInt i) m)
  | OFloat f => only (Done (VFloat f) m)
  | OStr s => only (Done (VStr s) m)
  | OVar x => match read_var h en x with RVal v => if is_there m v then only (Done v m) else only Open | RIllegal => only Stuck end
  | OUn o e1 => bindr (eval_o en e1 m) (fun v m => unary m o v)
  | OBin o l r => bindr (eval_o en l m) (fun a m => bindr (eval_o en r m) (fun b m => binary m o a b))
  | OSc o l r => bindr (eval_o en l m) (fun a m => if decides o a then only (Done a m) else eval_o en r m)
  | OTri c a b => bindr (eval_o en c m) (fun v m => if is_falsey v then eval_o en b m else eval_o en a m)
  | OList es => bindr (eval_args en es m) (fun xs m => said_both m (Gives (list_spec m xs)))
  | OTable es => bindr (eval_args en es m) (fun xs m => said_both m (table_spec m (pairs xs)))
  | OGet c k => bindr (eval_o en c m) (fun c m => bindr (eval_o en k m) (fun k m => said_val m (index_spec m c k)))
  | OMeth c x es => bindr (eval_o en c m) (fun c m =>
      if has_method c x then bindr (eval_args en es m) (fun args m => call m c x args) else no_method m c x)
  end
with eval_args (en : env) (es : oargs) (m : mem) {struct es} : may mem (list value) :=
  match es with
  | ANil => only (Done [] m)
  | ACons e r => bindr (eval_o en e m) (fun v m => bindr (eval_args en r m) (fun vs m => only (Done (v :: vs) m)))
  end.

(** ** Statements. *)
(** evaluate, then continue with the value *)
Definition ev (st : ost) (e : oexpr) (k : value -> ost -> may ost signal) : may ost signal :=
  next (eval_o (o_env st) e (o_mem st)) (set_mem st) (fun v m => k v (set_mem st m)).
Definition legally (st : ost) (o : option env) (k : ost -> may ost signal) : may ost signal :=
  match o with Some en => k (set_env st en) | None => only Stuck end.
Definition enter_o (st : ost) : ost := set_env st (enter (o_env st)).
Definition leave_o (st : ost) : ost := set_env st (leave (o_env st)).
Definition leaving_o (X : may ost signal) : may ost signal := bindr X (fun sg st => only (Done sg (leave_o st))).
Definition print (st : ost) (t : list Z) : ost := set_env st (Env (e_scopes (o_env st)) (e_globals (o_env st)) (e_out (o_env st) ++ Stmt.shown t)).
(** at most [m] times *)
Definition while_o (cond : ost -> (value -> ost -> may ost signal) -> may ost signal) (body : ost -> may ost signal) : nat -> ost -> may ost signal :=
  fix loop (m : nat) (st : ost) : may ost signal :=
    match m with
    | O => only Fuel
    | S m => cond st (fun v st => if is_falsey v then only (Done Normal st) else
               bindr (body st) (fun sg st => match sg with Break => only (Done Normal st) | _ => loop m st end))
    end.
(** [pick i st]: what the loop gives after [i] iterations: [Some None]: nothing more; [None]: nothing is said *)
Definition each (pick : nat -> ost -> option (option value)) (x : name) (body : ost -> may ost signal) : nat -> nat -> ost -> may ost signal :=
  fix loop (m i : nat) (st : ost) : may ost signal :=
    match pick i st with
    | None => only Open
    | Some None => only (Done Normal st)
    | Some (Some v) =>
        match m with
        | O => only Fuel
        | S m => legally st (write_var h (o_env st) x v) (fun st =>
                   bindr (body st) (fun sg st => match sg with Break => only (Done Normal st) | _ => loop m (S i) st end))
        end
    end.
(** What [for x <- v] gives. A list is seen as it is at each iteration. The keys of a table come in some order; when something has been
    stored in the table since the loop began, nothing is said. *)
Definition picks (st : ost) (v : value) (pick : nat -> ost -> option (option value)) : Prop :=
  match v with
  | VStr s => pick = fun i _ => Some (option_map (fun c => VStr [c]) (nth_error s i))
  | VList p => pick = fun i st => option_map (fun xs => nth_error xs i) (m_list (o_mem st) p)
  | VTable p => exists kv keys, m_tab (o_mem st) p = Some kv /\ Permutation keys (map fst kv) /\
      pick = fun i st' => if (o_stores st' p =? o_stores st p)%nat then Some (nth_error keys i) else None
  | _ => False
  end.
Definition iterable (v : value) : bool := match v with VStr _ | VList _ | VTable _ => true | _ => false end.

(** [exec_o n s st]: every loop makes at most [n] iterations. *)
Fixpoint exec_o (n : nat) (s : ostmt) (st : ost) {struct s} : may ost signal :=
  match s with
  | OSkip => only (Done Normal st)
  | OSeq a b => bindr (exec_o n a st) (fun sg st => match sg with Normal => exec_o n b st | _ => only (Done sg st) end)
  | OExpr e => ev st e (fun _ st => only (Done Normal st))
  | OLet k x e => ev st e (fun v st => legally st (declare_var (o_env st) x k v) (fun st => only (Done Normal st)))
  | OAssign x e => ev st e (fun v st => legally st (write_var h (o_env st) x v) (fun st => only (Done Normal st)))
  | OSet c k v => ev st c (fun c st => ev st k (fun k st => ev st v (fun v st =>
      match store_spec (o_mem st) c k v with
      | Gives m => only (Done Normal (stored (set_mem st m) c))
      | Raises e => only (Stop e st)
      | Unsaid => only Open
      end)))
  | OBlock b => leaving_o (exec_o n b (enter_o st))
  | OIf c a => ev st c (fun v st => if is_falsey v then only (Done Normal st) else exec_o n a st)
  | OIfElse c a b => ev st c (fun v st => if is_falsey v then exec_o n b st else exec_o n a st)
  | OWhile c b => while_o (fun st => ev st c) (exec_o n b) n st
  | OWhilePost c b p => while_o (fun st => ev st c) (fun st =>          (* [p] after each turn that is not ended by break *)
      bindr (exec_o n b st) (fun sg st => match sg with Break => only (Done Break st) | _ => exec_o n p st end)) n st
  | OForIn x e b => ev (enter_o st) e (fun v st =>
      if iterable v then
        legally st (declare_var (o_env st) x false VEnd) (fun st =>
          leaving_o (fun r => exists pick, picks st v pick /\ each pick x (exec_o n b) n 0 st r))
      else only (Stop EType st))
  | OBreak => only (Done Break st)
  | OContinue => only (Done Continue st)
  | OEcho e => ev st e (fun v st => if nested_below (o_mem st) D [] v
      then fun r => exists t, HeapSpec2.shown w (o_mem st) [] v t /\ r = Done Normal (print st t) else only Open)
  | OAssert e => ev st e (fun v st => if is_falsey v then only (Stop EAssert st) else only (Done Normal st))
  end.
End Sem.

(** ** The programs the theorems speak about, and the limits of the machine (as in Limits.v). *)
Fixpoint decls_o (s : ostmt) : nat := match s with OSeq a b => decls_o a + decls_o b | OLet _ _ _ => 1 | _ => 0 end.
Definition no_decls_o (s : ostmt) : bool := (decls_o s =? 0)%nat.
Fixpoint length_o (es : oargs) : nat := match es with ANil => 0 | ACons _ r => S (length_o r) end.
Fixpoint last_call (es : oargs) : bool := match es with ANil => false | ACons (OMeth _ _ _) ANil => true | ACons _ r => last_call r end.
(** what the parser builds; a call as the last argument of a call (which passes on all its values) is left out *)
Fixpoint parsed_e (e : oexpr) : bool :=
  match e with
  | OUn _ e1 => parsed_e e1
  | OBin _ l r | OSc _ l r | OGet l r => parsed_e l && parsed_e r
  | OTri c a b => parsed_e c && parsed_e a && parsed_e b
  | OList es => parsed_as es
  | OTable es => parsed_as es && Nat.even (length_o es)
  | OMeth c _ es => parsed_e c && parsed_as es && negb (last_call es)
  | _ => true
  end
with parsed_as (es : oargs) : bool := match es with ANil => true | ACons e r => parsed_e e && parsed_as r end.
Definition assigns_o (s : ostmt) : bool := match s with OAssign _ _ | OSet _ _ _ => true | _ => false end.
Fixpoint parsed_o (s : ostmt) : bool :=
  match s with
  | OSeq a b => parsed_o a && parsed_o b
  | OExpr e | OLet _ _ e | OAssign _ e | OEcho e | OAssert e => parsed_e e
  | OSet c k v => parsed_e c && parsed_e k && parsed_e v
  | OBlock b => parsed_o b
  | OIf c a => parsed_e c && parsed_o a && no_decls_o a
  | OIfElse c a b => parsed_e c && parsed_o a && no_decls_o a && parsed_o b && no_decls_o b
  | OWhile e b | OForIn _ e b => parsed_e e && parsed_o b && no_decls_o b
  | OWhilePost e b p => parsed_e e && parsed_o b && no_decls_o b && parsed_o p && assigns_o p
  | _ => true
  end.
(** constants: literals, and the names of the methods called *)
Fixpoint lits_oe (e : oexpr) : list value :=
  match e with
  | OInt i => [VInt i] | OFloat f => [VFloat f] | OStr s => [VStr s]
  | OUn _ e1 => lits_oe e1
  | OBin _ l r | OSc _ l r | OGet l r => lits_oe l ++ lits_oe r
  | OTri c a b => lits_oe c ++ lits_oe a ++ lits_oe b
  | OList es | OTable es => lits_as es
  | OMeth c x es => lits_oe c ++ VStr x :: lits_as es
  | _ => []
  end
with lits_as (es : oargs) : list value := match es with ANil => [] | ACons e r => lits_oe e ++ lits_as r end.
Fixpoint literals_o (s : ostmt) : list value :=
  match s with
  | OSeq a b => literals_o a ++ literals_o b
  | OExpr e | OLet _ _ e | OAssign _ e | OEcho e | OAssert e => lits_oe e
  | OSet c k v => lits_oe c ++ lits_oe k ++ lits_oe v
  | OBlock b => literals_o b
  | OIf c a => lits_oe c ++ literals_o a
  | OIfElse c a b => lits_oe c ++ literals_o a ++ literals_o b
  | OWhile e b | OForIn _ e b => lits_oe e ++ literals_o b
  | OWhilePost e b p => lits_oe e ++ literals_o b ++ literals_o p
  | _ => []
  end.
Fixpoint jumps_ok_o (d : nat) (s : ostmt) : bool :=
  match s with
  | OSeq a b => jumps_ok_o d a && jumps_ok_o (d + decls_o a) b
  | OBlock b | OIf _ b => jumps_ok_o d b
  | OIfElse _ a b => jumps_ok_o d a && jumps_ok_o d b
  | OWhile _ b | OWhilePost _ b _ | OForIn _ _ b => jumps_ok_o 0 b
  | OBreak | OContinue => (d =? 0)%nat
  | _ => true
  end.
Fixpoint peak_o (d : nat) (s : ostmt) : nat :=
  match s with
  | OSeq a b => Nat.max (peak_o d a) (peak_o (d + decls_o a) b)
  | OLet _ _ _ => S d
  | OBlock b | OIf _ b | OWhile _ b | OWhilePost _ b _ => peak_o d b
  | OIfElse _ a b => Nat.max (peak_o d a) (peak_o d b)
  | OForIn _ _ b => peak_o (S d) b
  | _ => d
  end.
(** stack slots needed above the variables *)
Fixpoint need_oe (e : oexpr) : nat :=
  match e with
  | OUn _ e1 => need_oe e1
  | OBin _ l r | OGet l r => Nat.max (need_oe l) (S (need_oe r))
  | OSc _ l r => Nat.max (Nat.max (need_oe l) 2) (need_oe r)
  | OTri c a b => Nat.max (need_oe c) (Nat.max (need_oe a) (need_oe b))
  | OList es | OTable es => S (need_as es)
  | OMeth c _ es => Nat.max (need_oe c) (S (S (need_as es)))
  | _ => 1
  end
with need_as (es : oargs) : nat := match es with ANil => 0 | ACons e r => Nat.max (need_oe e) (S (need_as r)) end.
Fixpoint need_o (s : ostmt) : nat :=
  match s with
  | OSeq a b => Nat.max (need_o a) (decls_o a + need_o b)
  | OExpr e | OLet _ _ e | OAssign _ e | OEcho e | OAssert e => need_oe e
  | OSet c k v => Nat.max (need_oe c) (Nat.max (S (need_oe k)) (S (S (need_oe v))))
  | OBlock b => need_o b
  | OIf c a => Nat.max (need_oe c) (need_o a)
  | OIfElse c a b => Nat.max (need_oe c) (Nat.max (need_o a) (need_o b))
  | OWhile c b => Nat.max (need_oe c) (need_o b)
  | OWhilePost c b p => Nat.max (need_oe c) (Nat.max (need_o b) (need_o p))
  | OForIn _ e b => Nat.max (need_oe e) (Nat.max 3 (S (need_o b)))
  | OBreak => 1
  | _ => 0
  end.
Fixpoint for_depth_o (s : ostmt) : nat :=
  match s with
  | OSeq a b | OIfElse _ a b => Nat.max (for_depth_o a) (for_depth_o b)
  | OBlock b | OIf _ b | OWhile _ b | OWhilePost _ b _ => for_depth_o b
  | OForIn _ _ b => S (for_depth_o b)
  | _ => 0
  end.
