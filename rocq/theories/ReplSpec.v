(** * What an interactive session means. Nothing here mentions the compiler or the bytecode. *)
From Verif Require Import Base Value Ops Ast Stmt Limits ConstSpec CompSpec.

(** The names known so far (newest first; [true] marks a constant), their values, and everything printed. *)
Record sess : Type := Sess { s_decl : list (name * bool); s_vals : name -> option value; s_out : list Z }.
(** How a line ends: normally, with a run-time error, not within the iteration bound, or it is not legal. *)
Inductive lres : Type := LDone (se : sess) | LStop (o : outcome unit) (out : list Z) | LFuel | LBad.

Section Meaning.
Variables (w : world) (ls ks : Z -> list value).
(** The line sees the names of the session as globals, and starts with no local variable. *)
Definition host_in (se : sess) : host := Host w ls ks (in_scope (s_decl se)).
Definition env_in (se : sess) : env := Env [[]] (s_vals se) (s_out se).
Definition upd (f : name -> option value) (x : name) (v : value) : name -> option value := fun y => if name_eqb y x then Some v else f y.
(** Introduce a name, which must be new in the whole session. *)
Definition introduce (se : sess) (x : name) (k : bool) (v : value) : option sess :=
  match in_scope (s_decl se) x with
  | Some _ => None
  | None => Some (Sess ((x, k) :: s_decl se) (upd (s_vals se) x v) (s_out se))
  end.
(** Assign to a name, which must be known and not constant. *)
Definition change (se : sess) (x : name) (v : value) : option sess :=
  match in_scope (s_decl se) x with
  | Some false => Some (Sess (s_decl se) (upd (s_vals se) x v) (s_out se))
  | _ => None
  end.
Definition give1 (se : sess) (l : lval) (v : value) : option sess :=
  match l with LLet x => introduce se x false v | LConst x => introduce se x true v | LAssign x => change se x v end.
Fixpoint give_all (se : sess) (l : list lval) (vs : list value) : option sess :=
  match l, vs with
  | [], [] => Some se
  | t :: l, v :: vs => match give1 se t v with Some se => give_all se l vs | None => None end
  | _, _ => None
  end.
Definition done (o : option sess) : lres := match o with Some se => LDone se | None => LBad end.
(** Evaluate an expression in the session, then go on. *)
Definition value_in (se : sess) (e : expr) (k : value -> lres) : lres :=
  if closed (host_in se) (env_in se) e then
    match eval w (rho (host_in se) (env_in se)) e with
    | Ok v => k v | Err er => LStop (Err er) (s_out se) | UB => LStop UB (s_out se) | NoFuel => LStop NoFuel (s_out se) end
  else LBad.
Fixpoint values_in (se : sess) (es : list expr) (k : list value -> lres) : lres :=
  match es with [] => k [] | e :: r => value_in se e (fun v => values_in se r (fun vs => k (v :: vs))) end.

(** A statement at the top level of a line. *)
Definition stmt_means (n : nat) (s : stmt) (se : sess) : lres :=
  match s with
  | SLet x e => value_in se e (fun v => done (introduce se x false v))
  | SConst x e => value_in se e (fun v => done (introduce se x true v))
  | SDecl l rs => values_in se rs (fun vs => done (give_all se l vs))
  | _ => match Stmt.exec (host_in se) n s (env_in se) with
         | XOk Normal st => LDone (Sess (s_decl se) (e_globals st) (e_out st))
         | XStop o out => LStop o out
         | XFuel => LFuel
         | _ => LBad
         end
  end.
(** A line: its statements in order; the last one, if it is an expression, is shown. *)
Definition shown_if_last (last : bool) (s : stmt) : stmt :=
  match s with SExpr e => if last then SEcho e else s | _ => s end.
Fixpoint line_means (n : nat) (line : list stmt) (se : sess) : lres :=
  match line with
  | [] => LDone se
  | s :: r => match stmt_means n (shown_if_last (match r with [] => true | _ => false end) s) se with LDone se => line_means n r se | x => x end
  end.
(** A session: the lines so far all ended normally. *)
Inductive reached (se0 : sess) : list (list stmt) -> sess -> Prop :=
| reached_none : reached se0 [] se0
| reached_line hist se n line se' : reached se0 hist se -> line_means n line se = LDone se' -> reached se0 (hist ++ [line]) se'.
End Meaning.

(** ** The lines the theorems speak about: literals that can be written, shapes the parser builds, and the fixed limits
    of the machine, as in Limits.v. *)
Definition lval_name (l : lval) : name := match l with LLet x | LConst x | LAssign x => x end.
(** A statement of a line either declares at its own top level, or declares only inside blocks. *)
Definition simple_top (s : stmt) : bool := match s with SLet _ _ | SConst _ _ | SDecl _ _ => true | _ => no_decls s end.
Definition new_names (s : stmt) : list name :=
  match s with SLet x _ | SConst x _ => [x] | SDecl l _ => map lval_name l | _ => [] end.
Definition item_ok (s : stmt) : Prop :=
  simple_top s = true /\ parsed s = true /\ jumps_ok 0 s = true /\ Forall literal (literals s) /\ Forall (fun x => literal (VStr x)) (new_names s) /\
  (peak 0 s <= 128)%nat /\ (need s <= 1024)%nat /\ (for_depth s <= 16)%nat.
(** How many constants a line needs at most: its literals and the names it introduces. *)
Definition consts1 (s : stmt) : nat := length (literals s) + length (new_names s).
Definition consts_of (l : list stmt) : nat := fold_right (fun s n => (consts1 s + n)%nat) 0%nat l.
