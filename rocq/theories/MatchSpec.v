(** * Specification of patterns and match. *)
From Verif Require Import Base Value ValueProofs TableSpec Table Ops Ast Stmt Limits ConstSpec Gen.

(** The patterns of the language (grammar: /repo/compiler/parser.c:537-710): undef, literals, type names, [*], [let x] and
    [const x], lists and tables (with [...] if [more]), alternatives. *)
Inductive ptype : Set := PtBool | PtInt | PtFloat | PtStr | PtList | PtTable.
Inductive pat : Type :=
| PUndef | PBool (b : bool) | PInt (i : Z) | PFloat (f : float) | PStr (s : list Z) | PType (t : ptype) | PAny
| PBind (k : bool) (x : name)
| PList (more : bool) (ps : list pat)
| PTable (more : bool) (kvs : list (pat * pat))
| PAlt (l r : pat).

(** The value of a key that is a literal. *)
Definition key_value (p : pat) : option value :=
  match p with PBool b => Some (VBool b) | PInt i => Some (VInt i) | PFloat f => Some (VFloat f) | PStr s => Some (VStr s) | _ => None end.
Definition has_type (t : ptype) (v : value) : bool :=
  match t, v with
  | PtBool, VBool _ | PtInt, VInt _ | PtFloat, VFloat _ | PtStr, VStr _ | PtList, VList _ | PtTable, VTable _ => true
  | _, _ => false
  end.

Section Spec.
(** The heap: the elements of the lists and the entries of the tables. *)
Variable lists : Z -> list value.
Variable tables : Z -> list (value * value).

Fixpoint entry (kvs : list (value * value)) (k : value) : option value :=
  match kvs with [] => None | (k', v) :: r => if value_eq_dec k' k then Some v else entry r k end.
Definition glue {A} (a b : option (list A)) : option (list A) :=
  match a, b with Some x, Some y => Some (x ++ y) | _, _ => None end.

(** [pmatch p v]: the bindings made by matching [v] against [p], or [None] if it does not match. *)
Fixpoint pmatch (p : pat) (v : value) : option (list (name * value)) :=
  let when (b : bool) := if b then Some [] else None in
  match p with
  | PUndef => when (is_equal VUndef v)
  | PBool b => when (is_equal (VBool b) v)
  | PInt i => when (is_equal (VInt i) v)
  | PFloat f => when (is_equal (VFloat f) v)
  | PStr s => when (is_equal (VStr s) v)
  | PType t => when (has_type t v)
  | PAny => Some []
  | PBind _ x => Some [(x, v)]
  | PList more ps =>
      match v with
      | VList a =>
          (* element by element, nothing left over unless the pattern ends with ... *)
          (fix each (ps : list pat) (vs : list value) : option (list (name * value)) :=
             match ps, vs with
             | [], [] => Some []
             | [], _ :: _ => when more
             | _ :: _, [] => None
             | p :: ps, v :: vs => glue (pmatch p v) (each ps vs)
             end) ps (lists a)
      | _ => None
      end
  | PTable more kvs =>
      match v with
      | VTable a =>
          (* as many entries as the pattern has, unless it ends with ...; each key present, its value matching *)
          if more || (length (tables a) =? length kvs)%nat then
            (fix each (kvs : list (pat * pat)) : option (list (name * value)) :=
               match kvs with
               | [] => Some []
               | (k, p) :: kvs =>
                   match key_value k with
                   | Some kv => match entry (tables a) kv with Some u => glue (pmatch p u) (each kvs) | None => None end
                   | None => None
                   end
               end) kvs
          else None
      | _ => None
      end
  | PAlt l r => match pmatch l v with Some bs => Some bs | None => pmatch r v end
  end.
End Spec.

(** ** The variables of a pattern, in order, with let (false) or const (true). *)
Fixpoint pvars (p : pat) : list (name * bool) :=
  match p with
  | PBind k x => [(x, k)]
  | PList _ ps => concat (map pvars ps)
  | PTable _ kvs => concat (map (fun kv => pvars (snd kv)) kvs)
  | PAlt l _ => pvars l
  | _ => []
  end.
Fixpoint plits (p : pat) : list value :=
  match p with
  | PInt i => [VInt i] | PFloat f => [VFloat f] | PStr s => [VStr s]
  | PList _ ps => concat (map plits ps)
  | PTable _ kvs => concat (map (fun kv => plits (fst kv) ++ plits (snd kv)) kvs)
  | PAlt l r => plits l ++ plits r
  | _ => []
  end.
(** Legal patterns: no variable twice, both sides of | bind the same variables in the same way, keys are literals. *)
Fixpoint distinct (xs : list name) : bool := match xs with [] => true | x :: r => negb (existsb (name_eqb x) r) && distinct r end.
Definition same_vars (a b : list (name * bool)) : bool :=
  let sub a b := forallb (fun v => existsb (fun u => name_eqb (fst u) (fst v) && Bool.eqb (snd u) (snd v)) b) a in
  sub a b && sub b a.
Fixpoint legal_pat (p : pat) : bool :=
  distinct (map fst (pvars p)) &&
  match p with
  | PList _ ps => forallb legal_pat ps
  | PTable _ kvs => forallb (fun kv => match key_value (fst kv) with Some _ => true | None => false end && legal_pat (snd kv)) kvs
  | PAlt l r => legal_pat l && legal_pat r && same_vars (pvars l) (pvars r)
  | _ => true
  end.
(** The left side of every | contains no table pattern with entries. *)
Fixpoint entry_free (p : pat) : bool :=
  match p with
  | PList _ ps => forallb entry_free ps
  | PTable _ kvs => match kvs with [] => true | _ => false end
  | PAlt l r => entry_free l && entry_free r
  | _ => true
  end.
Fixpoint alts_ok (p : pat) : bool :=
  match p with
  | PList _ ps => forallb alts_ok ps
  | PTable _ kvs => forallb (fun kv => alts_ok (snd kv)) kvs
  | PAlt l r => entry_free l && alts_ok l && alts_ok r
  | _ => true
  end.
(** Nesting. *)
Fixpoint pdepth (p : pat) : nat :=
  match p with
  | PList _ ps => S (list_max (map pdepth ps))
  | PTable _ kvs => S (list_max (map (fun kv => Nat.max (pdepth (fst kv)) (pdepth (snd kv))) kvs))
  | PAlt l r => S (Nat.max (pdepth l) (pdepth r))
  | _ => 1
  end.

(** ** The match statement. A clause: pattern, guard, body. *)
Definition clause : Type := pat * option expr * stmt.
Fixpoint bound (b : list (name * value)) (x : name) : value :=
  match b with [] => VUndef | (y, v) :: r => if name_eqb y x then v else bound r x end.
(** [st] with a new scope that holds the variables of [p]. *)
Definition with_bindings (st : env) (p : pat) (b : list (name * value)) : env :=
  set_escopes st (rev (map (fun xk => (fst xk, (snd xk, bound b (fst xk)))) (pvars p)) :: e_scopes st).

Section Cases.
Variable h : host.
Variable tables : Z -> list (value * value).
Variable n : nat.
(** The first clause whose pattern matches and whose guard, evaluated with the pattern's variables, is not falsey: its body
    is executed with these variables. [None]: there is no such clause. *)
Fixpoint cases (v : value) (st : env) (cls : list clause) : option xres :=
  match cls with
  | [] => None
  | (p, g, body) :: rest =>
    match pmatch (h_list h) tables p v with
    | None => cases v st rest
    | Some b =>
      let st1 := with_bindings st p b in
      match g with
      | None => Some (leaving (exec h n body st1))
      | Some g =>
        if closed h st1 g then
          match eval (h_world h) (rho h st1) g with
          | Ok u => if is_falsey u then cases v st rest else Some (leaving (exec h n body st1))
          | Err e => Some (XStop (Err e) (e_out st)) | UB => Some (XStop UB (e_out st)) | NoFuel => Some (XStop NoFuel (e_out st))
          end
        else Some XStuck
      end
    end
  end.
(** [match e { cls }]: nothing happens if no clause applies. *)
Definition exec_match_stmt (e : expr) (cls : list clause) (st : env) : xres :=
  ev h st e (fun v => match cases v st cls with Some r => r | None => XOk Normal st end).
End Cases.

(** ** Restrictions under which match statements are compiled correctly. *)
Definition is_nil {A} (l : list A) : bool := match l with [] => true | _ => false end.
(** Guards are safe when nothing is bound, or the whole value is bound in a clause that is not the last. *)
Definition guard_safe (p : pat) (g : option expr) (last : bool) : bool :=
  match g with None => true | Some _ => is_nil (pvars p) || (negb last && match p with PBind _ _ => true | _ => false end) end.
Fixpoint guards_safe (cls : list clause) : bool :=
  match cls with [] => true | (p, g, _) :: rest => guard_safe p g (is_nil rest) && guards_safe rest end.
Definition need_g (g : option expr) : nat := match g with None => O | Some e => need_e e end.

(** The constants of a clause. *)
Definition glits (g : option expr) : list value := match g with None => [] | Some e => lits_e e end.
Definition clause_lits (cl : clause) : list value := let '(p, g, b) := cl in plits p ++ glits g ++ lits_s b.
(** A clause is legal and its code fits the limits of the machine ([vars] variables in scope, [stack] values on the stack,
    [loops] loops active): at most 128 variables, 1024 stack slots, 16 loops; the matcher recurses at most [depth] deep. *)
Definition clause_fits (depth vars stack loops : nat) (cl : clause) : Prop :=
  let '(p, g, b) := cl in
  legal_pat p = true /\ alts_ok p = true /\ (pdepth p <= depth)%nat /\ Forall literal (clause_lits cl) /\ parsed b = true /\ jumps_ok (length (pvars p)) b = true /\
  (peak (vars + length (pvars p)) b <= 128)%nat /\ (stack + length (pvars p) + Nat.max (need_g g) (need b) < 1024)%nat /\ (loops + for_depth b <= 16)%nat.

