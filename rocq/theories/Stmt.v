(** * Statements: syntax (fragment of /repo/compiler/ast.h) and meaning. The meaning is written from the language's point of
    view and knows nothing of the compiler or the bytecode. *)
From Verif Require Import Base Value Ops Ast.

(** ** Statements (/repo/compiler/nodetype.x), as produced by the parser. *)
Inductive lval : Type := LLet (x : name) | LConst (x : name) | LAssign (x : name).
Inductive stmt : Type :=
| SSkip                                        (* empty N_BODY *)
| SSeq (a b : stmt)                            (* N_BODY, one child after the other *)
| SExpr (e : expr)                             (* N_EXPRSTMT *)
| SLet (x : name) (e : expr)                   (* N_LET, as in [for let x = e; ...] *)
| SConst (x : name) (e : expr)                 (* N_CONST *)
| SDecl (ls : list lval) (rs : list expr)      (* N_DECL: [let a, b = 1, 2] *)
| SAssign (x : name) (e : expr)                (* N_ASSIGN *)
| SBlock (b : stmt)                            (* N_BLOCK *)
| SIf (c : expr) (a : stmt)                    (* N_IF without else *)
| SIfElse (c : expr) (a b : stmt)              (* N_IF *)
| SWhile (c : expr) (b : stmt)                 (* N_WHILE without post *)
| SWhilePost (c : expr) (b post : stmt)        (* N_WHILE of [for let i = 0; c; post] *)
| SForIn (x : name) (e : expr) (b : stmt)      (* N_FORITER *)
| SBreak | SContinue
| SEcho (e : expr)                             (* N_ECHO *)
| SAssert (e : expr)                           (* N_ASSERT *)
| SPop (s : stmt).                             (* N_EXPRSTMT around a statement, as the parser builds for
                                                  [for let i = 0; c; f()], parser.c:519 *)


(** ** Meaning.
    A variable is a name bound in a scope to a value, possibly constant; scopes are listed innermost first. Globals are
    declared by the host ([g_decl] says which names exist and which are constant). *)
Definition binding : Type := name * (bool * value).
Record env : Type := Env { e_scopes : list (list binding); e_globals : name -> option value; e_out : list Z }.
Definition set_escopes (st : env) (ss : list (list binding)) : env := Env ss (e_globals st) (e_out st).

Fixpoint lookup (bs : list binding) (x : name) : option (bool * value) :=
  match bs with [] => None | (y, b) :: r => if name_eqb y x then Some b else lookup r x end.
(** innermost declaration *)
Fixpoint find_var (ss : list (list binding)) (x : name) : option (bool * value) :=
  match ss with [] => None | s :: r => match lookup s x with Some b => Some b | None => find_var r x end end.
Fixpoint set_in (bs : list binding) (x : name) (v : value) : list binding :=
  match bs with [] => [] | (y, (k, u)) :: r => if name_eqb y x then (y, (k, v)) :: r else (y, (k, u)) :: set_in r x v end.
Fixpoint set_var (ss : list (list binding)) (x : name) (v : value) : list (list binding) :=
  match ss with [] => [] | s :: r => match lookup s x with Some _ => set_in s x v :: r | None => s :: set_var r x v end end.

(** Which globals exist, and whether they are constant. *)
Definition gdecl := name -> option bool.
(** Everything outside the program text: library oracles, containers, declared globals. *)
Record host : Type := Host { h_world : world; h_list : Z -> list value; h_keys : Z -> list value; h_decl : gdecl }.

(** Result of a statement: finished with a signal, stopped the program (error or assertion), ran out of loop iterations,
    or is not a legal statement (undeclared variable, assignment to a constant, redeclaration, break outside a loop). *)
Inductive signal : Set := Normal | Break | Continue.
Inductive xres : Type :=
| XOk (sg : signal) (st : env)
| XStop (o : outcome unit) (out : list Z)
| XFuel
| XStuck.

Section Sem.
Variable h : host.
Notation w := (h_world h).

(** Reading a variable: innermost local, else global. A declared global that was never given a value reads as the
    internal END marker; an undeclared name is not legal ([NoFuel] cannot come from anything else here). *)
Inductive rd : Type := RVal (v : value) | RIllegal.
Definition read_var (st : env) (x : name) : rd :=
  match find_var (e_scopes st) x with
  | Some (_, v) => RVal v
  | None => match h_decl h x with
            | Some _ => RVal (match e_globals st x with Some v => v | None => VEnd end)
            | None => RIllegal
            end
  end.
(** Writing a variable; [None] if not legal. *)
Definition write_var (st : env) (x : name) (v : value) : option env :=
  match find_var (e_scopes st) x with
  | Some (true, _) => None
  | Some (false, _) => Some (set_escopes st (set_var (e_scopes st) x v))
  | None => match h_decl h x with
            | Some false => Some (Env (e_scopes st) (fun y => if name_eqb y x then Some v else e_globals st y) (e_out st))
            | _ => None
            end
  end.
(** Declaring a variable in the current scope; [None] if it is already declared there. *)
Definition declare_var (st : env) (x : name) (k : bool) (v : value) : option env :=
  match e_scopes st with
  | [] => None
  | s :: r => match lookup s x with Some _ => None | None => Some (set_escopes st (((x, (k, v)) :: s) :: r)) end
  end.

(** The variables of an expression are declared. *)
Fixpoint closed (st : env) (e : expr) : bool :=
  match e with
  | EVar x => match read_var st x with RVal _ => true | RIllegal => false end
  | EUn _ e1 => closed st e1
  | EBin _ l r | ESc _ l r => closed st l && closed st r
  | ETri c a b => closed st c && closed st a && closed st b
  | _ => true
  end.
Definition rho (st : env) (x : name) : outcome value := match read_var st x with RVal v => Ok v | RIllegal => Err ESyntax end.
(** Evaluate, then continue with the value. *)
Definition ev (st : env) (e : expr) (k : value -> xres) : xres :=
  if closed st e then
    match eval w (rho st) e with
    | Ok v => k v | Err e => XStop (Err e) (e_out st) | UB => XStop UB (e_out st) | NoFuel => XStop NoFuel (e_out st) end
  else XStuck.
Fixpoint ev_list (st : env) (es : list expr) (k : list value -> xres) : xres :=
  match es with [] => k [] | e :: r => ev st e (fun v => ev_list st r (fun vs => k (v :: vs))) end.
Definition legal (o : option env) (k : env -> xres) : xres := match o with Some st => k st | None => XStuck end.

(** Give the i-th value to the i-th target, left to right. *)
Fixpoint give (ls : list lval) (vs : list value) (st : env) : option env :=
  match ls, vs with
  | [], [] => Some st
  | l :: ls, v :: vs =>
      match (match l with LLet x => declare_var st x false v | LConst x => declare_var st x true v | LAssign x => write_var st x v end) with
      | Some st => give ls vs st | None => None end
  | _, _ => None
  end.

(** What [for x <- v] steps through. *)
Definition iter_elements (v : value) : option (list value) :=
  match v with
  | VStr s => Some (map (fun c => VStr [c]) s)
  | VList p => Some (h_list h p)
  | VTable p => Some (h_keys h p)
  | _ => None
  end.
(** The text of a value followed by a newline, without NUL bytes. *)
Definition shown (s : list Z) : list Z := filter (fun c => negb (c =? 0)) s ++ [10].

Definition enter (st : env) : env := set_escopes st ([] :: e_scopes st).
Definition leave (st : env) : env := set_escopes st (tl (e_scopes st)).
Definition leaving (r : xres) : xres := match r with XOk sg st => XOk sg (leave st) | r => r end.

(** [exec n s st]: every loop makes at most [n] iterations. *)
Fixpoint exec (n : nat) (s : stmt) (st : env) {struct s} : xres :=
  match s with
  | SSkip => XOk Normal st
  | SSeq a b => match exec n a st with XOk Normal st => exec n b st | r => r end
  | SExpr e => ev st e (fun _ => XOk Normal st)
  | SLet x e => ev st e (fun v => legal (declare_var st x false v) (XOk Normal))
  | SConst x e => ev st e (fun v => legal (declare_var st x true v) (XOk Normal))
  | SDecl ls rs => ev_list st rs (fun vs => legal (give ls vs st) (XOk Normal))
  | SAssign x e => ev st e (fun v => legal (write_var st x v) (XOk Normal))
  | SBlock b => leaving (exec n b (enter st))
  | SIf c a => ev st c (fun v => if is_falsey v then XOk Normal st else exec n a st)
  | SIfElse c a b => ev st c (fun v => if is_falsey v then exec n b st else exec n a st)
  | SWhile c b =>
      (fix loop (m : nat) (st : env) : xres :=
         match m with
         | O => XFuel
         | S m => ev st c (fun v => if is_falsey v then XOk Normal st else
                    match exec n b st with
                    | XOk Normal st | XOk Continue st => loop m st
                    | XOk Break st => XOk Normal st
                    | r => r
                    end)
         end) n st
  | SWhilePost c b post =>
      (fix loop (m : nat) (st : env) : xres :=
         match m with
         | O => XFuel
         | S m => ev st c (fun v => if is_falsey v then XOk Normal st else
                    match exec n b st with
                    | XOk Normal st | XOk Continue st => match exec n post st with XOk Normal st => loop m st | XOk _ _ => XStuck | r => r end
                    | XOk Break st => XOk Normal st
                    | r => r
                    end)
         end) n st
  | SForIn x e b =>
      ev (enter st) e (fun v =>
        match iter_elements v with
        | None => XStop (Err EType) (e_out st)
        | Some vs => legal (declare_var (enter st) x false VEnd) (fun st =>
            leaving ((fix loop (vs : list value) (st : env) : xres :=
               match vs with
               | [] => XOk Normal st
               | v :: vs => legal (write_var st x v) (fun st =>
                   match exec n b st with
                   | XOk Normal st | XOk Continue st => loop vs st
                   | XOk Break st => XOk Normal st
                   | r => r
                   end)
               end) vs st))
        end)
  | SBreak => XOk Break st
  | SContinue => XOk Continue st
  | SEcho e => ev st e (fun v => match w_tostr w v with
      | Ok t => XOk Normal (Env (e_scopes st) (e_globals st) (e_out st ++ shown t))
      | Err e => XStop (Err e) (e_out st) | UB => XStop UB (e_out st) | NoFuel => XStop NoFuel (e_out st) end)
  | SAssert e => ev st e (fun v => if is_falsey v then match w_tostr w v with
      | Ok _ => XStop (Err EAssert) (e_out st)
      | Err e => XStop (Err e) (e_out st) | UB => XStop UB (e_out st) | NoFuel => XStop NoFuel (e_out st) end
      else XOk Normal st)
  | SPop _ => XStuck
  end.
End Sem.
