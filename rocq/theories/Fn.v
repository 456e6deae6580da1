(** * Programs with functions: syntax (fragment of /repo/compiler/ast.h) and meaning. The meaning is written from the
    language's point of view and knows nothing of the compiler, the bytecode, frames or upvalues. *)
From Verif Require Import Base Value ValueProofs Ops Ast Stmt CallSpec.

(** ** Syntax. [FCtx n e] is N_VARCONT (how many results the calls in [e] should deliver), [FFn] an N_FNDECL without a name:
    its label distinguishes the function literals of a program. Branches and loop bodies are blocks, as the parser builds
    them. [FLet k x e] is [let x = e] ([const x = e] if [k]); [FFnDecl k x ...] is [fn x(...) {...}] ([const fn]). Parameters
    carry a flag for [const]. *)
Inductive fexpr : Type :=
| FUndef
| FBool (b : bool)
| FInt (i : Z)
| FFloat (f : float)
| FStr (s : list Z)
| FVar (x : name)
| FUn (op : unop) (e : fexpr)
| FBin (op : bop) (l r : fexpr)
| FSc (op : scop) (l r : fexpr)
| FTri (c a b : fexpr)
| FCall (f : fexpr) (args : fargs)
| FCtx (n : Z) (e : fexpr)
| FFn (label : nat) (ps : list (name * bool)) (body : fstmt)
with fargs : Type :=
| ANil
| ACons (e : fexpr) (r : fargs)
with fstmt : Type :=
| FSkip
| FSeq (a b : fstmt)
| FExpr (e : fexpr)
| FLet (k : bool) (x : name) (e : fexpr)
| FFnDecl (k : bool) (x : name) (label : nat) (ps : list (name * bool)) (body : fstmt)
| FAssign (x : name) (e : fexpr)
| FBlock (b : fstmt)
| FIf (c : fexpr) (a : fstmt)
| FIfElse (c : fexpr) (a b : fstmt)
| FWhile (c : fexpr) (b : fstmt)
| FReturn (e : fexpr)
| FReturns (es : fargs)
| FEcho (e : fexpr)
| FAssert (e : fexpr).
Scheme fexpr_mut := Induction for fexpr Sort Prop
with fargs_mut := Induction for fargs Sort Prop
with fstmt_mut := Induction for fstmt Sort Prop.
Combined Scheme fn_ind from fexpr_mut, fargs_mut, fstmt_mut.

(** ** Meaning. A function is its parameters, its body, and how many of the variables of the file it can see: those declared
    before it (and itself, if it has a name). Its own variables are new in every call. *)
Record frec : Type := Fun { fr_params : list (name * bool); fr_body : fstmt; fr_sees : nat }.
(** [s_loc]: the scopes of the running function, innermost first (at file level: the blocks entered); [s_file]: the variables of
    the file, newest first; [s_sees]: [None] at file level, else how many of the oldest of them the running function sees;
    [s_fun]: the functions created so far; [s_next]: names for new closures. *)
Record fstate : Type := FS { s_loc : list (list binding); s_file : list binding; s_sees : option nat;
  s_gl : name -> option value; s_out : list Z; s_fun : value -> option frec; s_next : Z }.
Definition set_loc st l := FS l (s_file st) (s_sees st) (s_gl st) (s_out st) (s_fun st) (s_next st).
Definition set_file st f := FS (s_loc st) f (s_sees st) (s_gl st) (s_out st) (s_fun st) (s_next st).
Definition set_fgl st g := FS (s_loc st) (s_file st) (s_sees st) g (s_out st) (s_fun st) (s_next st).
Definition set_fout st o := FS (s_loc st) (s_file st) (s_sees st) (s_gl st) o (s_fun st) (s_next st).
(** the variables of the file that are seen, and those that are not *)
Definition unseen (st : fstate) : nat := match s_sees st with None => 0 | Some n => length (s_file st) - n end.
Definition seen (st : fstate) : list binding := skipn (unseen st) (s_file st).

(** What happened: a value (and the state after it), the program stopped, a loop made too many iterations, too many calls
    were active, something was called that is not a function of this program, or the text is not legal. *)
Inductive res (A : Type) : Type :=
| RVal (a : A) (st : fstate) | RStop (o : outcome unit) (out : list Z) | RFuel | RDeep | ROut | RStuck.
Arguments RVal {A}. Arguments RStop {A}. Arguments RFuel {A}. Arguments RDeep {A}. Arguments ROut {A}. Arguments RStuck {A}.
Definition rbind {A B} (r : res A) (f : A -> fstate -> res B) : res B :=
  match r with RVal a st => f a st | RStop o out => RStop o out | RFuel => RFuel | RDeep => RDeep | ROut => ROut | RStuck => RStuck end.
Definition of_outcome (st : fstate) (o : outcome value) : res value :=
  match o with Ok v => RVal v st | Err e => RStop (Err e) (s_out st) | UB => RStop UB (s_out st) | NoFuel => RStop NoFuel (s_out st) end.

Section Meaning.
Variable h : host.
(** Which function literals denote one function however often they are evaluated; the others make a new closure each time. *)
Variable kind : nat -> option Z.
Notation w := (h_world h).

Definition f_read (st : fstate) (x : name) : option value :=
  match find_var (s_loc st) x with
  | Some (_, v) => Some v
  | None => match lookup (seen st) x with
            | Some (_, v) => Some v
            | None => match h_decl h x with
                      | Some _ => Some (match s_gl st x with Some v => v | None => VEnd end)
                      | None => None end end
  end.
Definition f_write (st : fstate) (x : name) (v : value) : option fstate :=
  match find_var (s_loc st) x with
  | Some (true, _) => None
  | Some (false, _) => Some (set_loc st (set_var (s_loc st) x v))
  | None => match lookup (seen st) x with
            | Some (true, _) => None
            | Some (false, _) => Some (set_file st (firstn (unseen st) (s_file st) ++ set_in (seen st) x v))
            | None => match h_decl h x with
                      | Some false => Some (set_fgl st (fun y => if name_eqb y x then Some v else s_gl st y))
                      | _ => None end end
  end.
(** in the current scope, unless the name is taken there *)
Definition f_declare (st : fstate) (x : name) (k : bool) (v : value) : option fstate :=
  match s_loc st, s_sees st with
  | s :: r, _ => match lookup s x with Some _ => None | None => Some (set_loc st (((x, (k, v)) :: s) :: r)) end
  | [], None => match lookup (s_file st) x with Some _ => None | None => Some (set_file st ((x, (k, v)) :: s_file st)) end
  | [], Some _ => None
  end.
Definition f_enter (st : fstate) : fstate := set_loc st ([] :: s_loc st).
Definition f_leave (st : fstate) : fstate := set_loc st (tl (s_loc st)).
Definition f_leaving {A} (r : res A) : res A := rbind r (fun a st => RVal a (f_leave st)).
Definition f_legal {A} (o : option fstate) (k : fstate -> res A) : res A := match o with Some st => k st | None => RStuck end.

(** How many file variables a function written here sees. *)
Definition sees_here (st : fstate) : nat := match s_sees st with None => length (s_file st) | Some n => n end.
Definition make_fn (st : fstate) (label : nat) (ps : list (name * bool)) (body : fstmt) (sees : nat) : value * fstate :=
  let v := match kind label with Some a => VFn a | None => VClosure (s_next st) end in
  (v, FS (s_loc st) (s_file st) (s_sees st) (s_gl st) (s_out st)
        (fun u => if value_eq_dec u v then Some (Fun ps body sees) else s_fun st u)
        (match kind label with Some _ => s_next st | None => s_next st + 1 end)).
Definition callable (v : value) : bool := match v with VFn _ | VClosure _ => true | _ => false end.

(** Loops make at most [n] iterations; [call] is the meaning of calls. A statement yields [None], or the value returned. *)
Section Body.
Variable n : nat.
Variable call : value -> list value -> fstate -> res value.
Fixpoint eval_e (e : fexpr) (st : fstate) {struct e} : res value :=
  match e with
  | FUndef => RVal VUndef st
  | FBool b => RVal (VBool b) st
  | FInt i => RVal (VInt i) st
  | FFloat f => RVal (VFloat f) st
  | FStr s => RVal (VStr s) st
  | FVar x => match f_read st x with Some v => RVal v st | None => RStuck end
  | FUn o e1 => rbind (eval_e e1 st) (fun a st => of_outcome st (exec_unop w o a))
  | FBin o l r => rbind (eval_e l st) (fun a st => rbind (eval_e r st) (fun b st => of_outcome st (eval_bop w o a b)))
  | FSc o l r => rbind (eval_e l st) (fun a st => if decides o a then RVal a st else eval_e r st)
  | FTri c a b => rbind (eval_e c st) (fun v st => if is_falsey v then eval_e b st else eval_e a st)
  | FCall f args => rbind (eval_e f st) (fun v st => if callable v then rbind (eval_args args st) (fun vs st => call v vs st) else ROut)
  | FCtx _ e1 => eval_e e1 st
  | FFn l ps b => let (v, st) := make_fn st l ps b (sees_here st) in RVal v st
  end
with eval_args (es : fargs) (st : fstate) {struct es} : res (list value) :=
  match es with
  | ANil => RVal [] st
  | ACons e r => rbind (eval_e e st) (fun v st => rbind (eval_args r st) (fun vs st => RVal (v :: vs) st))
  end
with exec_s (s : fstmt) (st : fstate) {struct s} : res (option value) :=
  match s with
  | FSkip => RVal None st
  | FSeq a b => rbind (exec_s a st) (fun r st => match r with None => exec_s b st | Some v => RVal (Some v) st end)
  | FExpr e => rbind (eval_e e st) (fun _ st => RVal None st)
  | FLet k x e => rbind (eval_e e st) (fun v st => f_legal (f_declare st x k v) (RVal None))
  | FFnDecl k x l ps b =>
      let sees := match s_loc st, s_sees st with [], None => S (length (s_file st)) | _, _ => sees_here st end in
      let (v, st) := make_fn st l ps b sees in f_legal (f_declare st x k v) (RVal None)
  | FAssign x e => rbind (eval_e e st) (fun v st => f_legal (f_write st x v) (RVal None))
  | FBlock b => f_leaving (exec_s b (f_enter st))
  | FIf c a => rbind (eval_e c st) (fun v st => if is_falsey v then RVal None st else f_leaving (exec_s a (f_enter st)))
  | FIfElse c a b => rbind (eval_e c st) (fun v st => f_leaving (if is_falsey v then exec_s b (f_enter st) else exec_s a (f_enter st)))
  | FWhile c b =>
      (fix loop (m : nat) (st : fstate) : res (option value) :=
         match m with
         | O => RFuel
         | S m => rbind (eval_e c st) (fun v st => if is_falsey v then RVal None st else
             rbind (f_leaving (exec_s b (f_enter st))) (fun r st => match r with None => loop m st | Some v => RVal (Some v) st end))
         end) n st
  | FReturn e => match s_sees st with Some _ => rbind (eval_e e st) (fun v st => RVal (Some v) st) | None => RStuck end
  | FReturns _ => ROut                                     (* several results: outside this meaning *)
  | FEcho e => rbind (eval_e e st) (fun v st =>
      match w_tostr w v with Ok t => RVal None (set_fout st (s_out st ++ shown t))
      | Err e => RStop (Err e) (s_out st) | UB => RStop UB (s_out st) | NoFuel => RStop NoFuel (s_out st) end)
  | FAssert e => rbind (eval_e e st) (fun v st => if is_falsey v
      then match w_tostr w v with Ok _ => RStop (Err EAssert) (s_out st)
           | Err e => RStop (Err e) (s_out st) | UB => RStop UB (s_out st) | NoFuel => RStop NoFuel (s_out st) end
      else RVal None st)
  end.
End Body.

(** The parameters get the arguments: missing ones are undef, surplus ones are dropped. *)
Definition bound (ps : list (name * bool)) (vs : list value) : list binding :=
  rev (map (fun p => (fst (fst p), (snd (fst p), snd p))) (combine ps (fit (length ps) vs))).
(** A call with at most [d] calls active at a time: the body runs with the parameters as its only variables besides the
    file's; afterwards the caller's variables are back. A body that does not return yields undef. *)
Fixpoint fcall (n : nat) (d : nat) (v : value) (vs : list value) (st : fstate) : res value :=
  match d with
  | O => RDeep
  | S d => match s_fun st v with
           | None => ROut
           | Some f =>
               rbind (exec_s n (fcall n d) (fr_body f) (FS [bound (fr_params f) vs] (s_file st) (Some (fr_sees f)) (s_gl st) (s_out st) (s_fun st) (s_next st)))
                 (fun r st1 => RVal (match r with Some u => u | None => VUndef end)
                                 (FS (s_loc st) (s_file st1) (s_sees st) (s_gl st1) (s_out st1) (s_fun st1) (s_next st1)))
           end
  end.
Definition fexec (n d : nat) (s : fstmt) (st : fstate) : res (option value) := exec_s n (fcall n d) s st.
Definition fstart (gl : name -> option value) (out : list Z) : fstate := FS [] [] None gl out (fun _ => None) 0.
End Meaning.
