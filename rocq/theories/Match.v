(** * Pattern matching: model of vm_MATCH_* and vm_ff_*, /repo/interpreter/VM.c:920-1118, and of the code generator for
    patterns and match statements, /repo/compiler/compiler.c:781-1028. *)
From Verif Require Import Base Bytes Value Table Ops Ast Stmt Constants VM Compiler MatchSpec.

(** ** Bytes of pattern code, [enum Pattern], /repo/opcode.h:106-124. *)
Definition P_UNDEF : Z := 1.
Definition P_BOOL : Z := 8.
Definition P_ANY : Z := 15.
Definition P_TABLE : Z := 156.
Definition P_LS : Z := 157.
Definition P_VTABLE : Z := 172.
Definition P_VLS : Z := 173.
Definition P_ALT : Z := 176.
Definition P_BIND : Z := 244.
Definition ptype_byte (t : ptype) : Z :=
  match t with PtBool => 2 | PtInt => 3 | PtFloat => 4 | PtStr => 5 | PtList => 6 | PtTable => 7 end.

(** What the first byte of a pattern says: the cases of the two switches. P_LIT = 0x9A, P_LIT8 = 0x9B. *)
Inductive phead : Set := HUndef | HType (t : ptype) | HBool | HAny | HLit | HLit8 | HTable (more : bool) | HList (more : bool) | HAlt | HBind.
Definition head_of (b : Z) : option phead :=
  match b with
  | 1 => Some HUndef | 2 => Some (HType PtBool) | 3 => Some (HType PtInt) | 4 => Some (HType PtFloat) | 5 => Some (HType PtStr)
  | 6 => Some (HType PtList) | 7 => Some (HType PtTable) | 8 => Some HBool | 15 => Some HAny | 154 => Some HLit | 155 => Some HLit8
  | 156 => Some (HTable false) | 157 => Some (HList false) | 172 => Some (HTable true) | 173 => Some (HList true)
  | 176 => Some HAlt | 244 => Some HBind | _ => None
  end.

Section Matcher.
Variable P : prog.
Variable T : Z -> table.        (* the tables of the heap; the lists are [p_list P] *)
Variable fuel : nat.            (* bound on the probes of a table lookup *)

Definition code1 (pc : Z) : outcome Z := match nthZ (p_code P) pc with Some b => Ok b | None => UB end.
Definition const_at (i : Z) : outcome value := match nthZ (p_consts P) i with Some v => Ok v | None => UB end.

(** [vm_ff_subpatterns_multiple], VM.c:956-960. *)
Fixpoint ff_many (f : Z -> outcome Z) (n : nat) (pc : Z) : outcome Z :=
  match n with O => Ok pc | S n' => do pc <- f pc; ff_many f n' pc end.
(** [vm_ff_subpattern], VM.c:923-954: skip a pattern. [d] bounds the depth of the C recursion. *)
Fixpoint ff (d : nat) (pc : Z) : outcome Z :=
  match d with
  | O => NoFuel
  | S d' =>
    do b <- code1 pc;
    let pc := pc + 1 in
    match head_of b with
    | None | Some HUndef | Some (HType _) | Some HAny => Ok pc
    | Some HBind | Some HBool | Some HLit => do _ <- code1 pc; Ok (pc + 1)
    | Some HLit8 => do _ <- read8 (p_code P) pc; Ok (pc + 8)
    | Some (HList _) | Some (HTable _) => do n <- read8 (p_code P) pc; ff_many (ff d') (Z.to_nat (u64 n)) (pc + 8)
    | Some HAlt => ff_many (ff d') 2 pc
    end
  end.

(** The stack slots above the top that a match has written to. *)
Definition slots := Z -> option value.
Definition no_slots : slots := fun _ => None.
Definition write_slot (m : slots) (i : Z) (v : value) : slots := fun j => if j =? i then Some v else m j.
Definition mres : Type := bool * Z * slots.

(** [MATCH_list], VM.c:989-997: [items] are the elements not yet matched. *)
Fixpoint match_items (f : Z -> slots -> value -> outcome mres) (g : Z -> outcome Z) (n : nat) (pc : Z) (m : slots) (items : list value)
    : outcome mres :=
  match n with
  | O => Ok (true, pc, m)
  | S n' => match items with
            | [] => UB
            | v :: rest =>
                do r <- f pc m v;
                let '(ok, pc, m) := r in
                if ok then match_items f g n' pc m rest else do pc <- ff_many g n' pc; Ok (false, pc, m)
            end
  end.
(** The key of one entry of a table pattern, VM.c:965-980. Any other kind of pattern leaves [val] uninitialised. *)
Definition match_key (pc : Z) (t : table) : outcome (value * Z) :=
  do b <- code1 pc;
  let pc := pc + 1 in
  match head_of b with
  | Some HUndef => do v <- table_search fuel t VUndef; Ok (v, pc)
  | Some HBool => do x <- code1 pc; do v <- table_search fuel t (VBool (negb (x =? 0))); Ok (v, pc + 1)
  | Some HLit => do i <- code1 pc; do k <- const_at i; do v <- table_search fuel t k; Ok (v, pc + 1)
  | Some HLit8 => do i <- read8 (p_code P) pc; do k <- const_at i; do v <- table_search fuel t k; Ok (v, pc + 8)
  | _ => UB
  end.
(** [vm_MATCH_table_elements], VM.c:962-987. When the key is missing the value's pattern is not read, and
    [2 * (len - (i + 1))] patterns are skipped from there. *)
Fixpoint match_entries (f : Z -> slots -> value -> outcome mres) (g : Z -> outcome Z) (n : nat) (pc : Z) (m : slots) (t : table)
    : outcome mres :=
  match n with
  | O => Ok (true, pc, m)
  | S n' =>
      do kv <- match_key pc t;
      let (v, pc) := (kv : value * Z) in
      if is_end v then do pc <- ff_many g (2 * n') pc; Ok (false, pc, m)
      else do r <- f pc m v;
           let '(ok, pc, m) := r in
           if ok then match_entries f g n' pc m t else do pc <- ff_many g (2 * n') pc; Ok (false, pc, m)
  end.

Variables fp sp : Z.
Definition type_is (t : ptype) (v : value) : bool :=
  match t, v with
  | PtBool, VBool _ | PtInt, VInt _ | PtFloat, VFloat _ | PtStr, VStr _ | PtList, VList _ | PtTable, VTable _ => true
  | _, _ => false
  end.
(** [vm_MATCH_subpattern], VM.c:999-1105. A binding is written to slot [fp + offset + 2]; a slot outside the stack's array is
    UB, and so is (in the model only) one that is not above the top, which compiled code never does. *)
Fixpoint match_sub (d : nat) (pc : Z) (m : slots) (v : value) : outcome mres :=
  match d with
  | O => NoFuel
  | S d' =>
    do b <- code1 pc;
    let pc := pc + 1 in
    match head_of b with
    | None => Ok (false, pc, m)
    | Some HUndef => Ok (is_undef v, pc, m)
    | Some (HType t) => Ok (type_is t v, pc, m)
    | Some HBool => do x <- code1 pc; Ok (match v with VBool y => Bool.eqb y (negb (x =? 0)) | _ => false end, pc + 1, m)
    | Some HLit => do i <- code1 pc; do k <- const_at i; Ok (is_equal k v, pc + 1, m)
    | Some HLit8 => do i <- read8 (p_code P) pc; do k <- const_at i; Ok (is_equal k v, pc + 8, m)
    | Some (HTable more) =>
        do n <- read8 (p_code P) pc;
        let len := u64 n / 2 in
        let pc := pc + 8 in
        match v with
        | VTable p =>
            if negb more && negb (u64 (t_count (T p)) =? len)
            then do pc <- ff_many (ff d') (Z.to_nat (len * 2)) pc; Ok (false, pc, m)
            else match_entries (match_sub d') (ff d') (Z.to_nat len) pc m (T p)
        | _ => do pc <- ff_many (ff d') (Z.to_nat (len * 2)) pc; Ok (false, pc, m)
        end
    | Some (HList more) =>
        do n <- read8 (p_code P) pc;
        let len := u64 n in
        let pc := pc + 8 in
        match v with
        | VList p =>
            let count := Z.of_nat (length (p_list P p)) in
            if (if more then count <? len else negb (count =? len))
            then do pc <- ff_many (ff d') (Z.to_nat len) pc; Ok (false, pc, m)
            else match_items (match_sub d') (ff d') (Z.to_nat len) pc m (p_list P p)
        | _ => do pc <- ff_many (ff d') (Z.to_nat len) pc; Ok (false, pc, m)
        end
    | Some HBind =>
        do o <- code1 pc;
        let i := fp + o + 2 in
        if (sp <? i) && (i <? STACK_SIZE) then Ok (true, pc + 1, write_slot m i v) else UB
    | Some HAny => Ok (true, pc, m)
    | Some HAlt =>
        do r <- match_sub d' pc m v;
        let '(ok, pc, m) := r in
        if ok then do pc <- ff d' pc; Ok (true, pc, m) else match_sub d' pc m v
    end
  end.
End Matcher.

(** ** The machine with O_MATCH, O_INCSP and O_DEL_FP. [x_above]: what the last O_MATCH instructions wrote above the top of
    the stack. Any other instruction may overwrite it; the model forgets it then, and reading a forgotten slot is UB. *)
Record xstate : Type := XS { x_vm : vstate; x_above : slots }.
Inductive xsres : Type := XNext (s : xstate) | XEnd (o : outcome unit) (s : vstate) | XOut (s : vstate).
Definition of_sres (r : sres) : xsres :=
  match r with Next s => XNext (XS s no_slots) | Stop o s => XEnd o s | Outside s => XOut s end.

Section Machine.
Variable P : prog.
Variable T : Z -> table.
Variables (fuel depth : nat).

(** [vm_MATCH_IF], VM.c:1111-1118. *)
Definition exec_match (s : vstate) (m : slots) : xsres :=
  match v_stk s with
  | [] => XEnd UB s
  | v :: _ =>
    match read8 (p_code P) (v_pc s) with
    | Ok addr =>
        let start := v_pc s + 8 in
        match match_sub P T fuel (v_fp s) (sp s) depth start m v with
        | Ok (ok, pc, m) => XNext (XS (set_pc s (if ok then pc else start + addr)) m)
        | Err e => XEnd (Err e) s | UB => XEnd UB s | NoFuel => XEnd NoFuel s
        end
    | _ => XEnd UB s
    end
  end.
(** O_INCSP, VM.c:1636-1638: [n] slots above the top become part of the stack. *)
Fixpoint raise (n : nat) (stk : list value) (m : slots) : option (list value) :=
  match n with
  | O => Some stk
  | S n' => match m (Z.of_nat (length stk)) with Some v => raise n' (v :: stk) m | None => None end
  end.
(** O_DEL_FP, VM.c:1629-1632, and [vm_rm], VM.c:267-273: remove slot [fp + 1 + c]. *)
Definition delete_slot (stk : list value) (i : Z) : option (list value) :=
  match slot_get stk i with
  | None => None
  | Some _ => let n := Z.to_nat (from_top stk i) in Some (firstn n stk ++ skipn (S n) stk)
  end.

Definition xstep (x : xstate) : xsres :=
  let s := x_vm x in
  match nthZ (p_code P) (v_pc s) with
  | None => XEnd UB s
  | Some b =>
    let s1 := set_pc s (v_pc s + 1) in
    match op_of_byte b with
    | Some O_MATCH => exec_match s1 (x_above x)
    | Some O_INCSP => match nthZ (p_code P) (v_pc s1) with
                      | None => XEnd UB s1
                      | Some n => match raise (Z.to_nat n) (v_stk s) (x_above x) with
                                  | Some k => XNext (XS (set_stk (set_pc s1 (v_pc s1 + 1)) k) no_slots) | None => XEnd UB s1 end
                      end
    | Some O_DEL_FP => match nthZ (p_code P) (v_pc s1) with
                       | None => XEnd UB s1
                       | Some c => match delete_slot (v_stk s) (v_fp s + 1 + c) with
                                   | Some k => XNext (XS (set_stk (set_pc s1 (v_pc s1 + 1)) k) no_slots) | None => XEnd UB s1 end
                       end
    | _ => of_sres (step P s)
    end
  end.
Fixpoint xrun (n : nat) (x : xstate) : xsres :=
  match n with O => XNext x | S n' => match xstep x with XNext x' => xrun n' x' | r => r end end.
End Machine.

(** ** The code generator. *)
Section Gen.
Variable fuel : nat.

(** What the compiler keeps while it compiles a pattern: [leftmost_pattern] and [seen_bindings] (compiler.h; a table used as a
    set of names, here a list). *)
Record pst : Type := PS { ps_c : cst; ps_left : bool; ps_seen : list name }.
Definition on_c (s : pst) (c : cst) : pst := PS c (ps_left s) (ps_seen s).
Definition pemit (s : pst) (bs : list Z) : pst := on_c s (emit (ps_c s) bs).
(** [compiler_add_literal_pattern], compiler.c:791-799, after interning. P_LIT and P_LIT8 are the bytes of O_LIT and O_LIT8. *)
Definition plit (s : pst) (v : value) : outcome pst := do c <- add_literal fuel (ps_c s) v; Ok (on_c s c).
(** [visit_DeclPattern], compiler.c:842-869. The byte of the slot is written after the check that both sides of | agree. *)
Definition pdecl (s : pst) (k : bool) (x : name) : outcome pst :=
  let s := PS (ps_c s) (ps_left s) (x :: ps_seen s) in
  do s <- (if ps_left s then
             if in_current (ps_c s) x then Err ESyntax
             else do c <- decl_var fuel (ps_c s) x; Ok (on_c s (if k then make_const c x else c))
           else if in_current (ps_c s) x then Ok s else Err ESyntax);
  let s := pemit s [P_BIND] in
  match scope_get (c_scopes (ps_c s)) x with
  | None => UB
  | Some z => if Bool.eqb (is_const z) k then Ok (pemit s [get_index z mod 256]) else Err ESyntax
  end.

Fixpoint visit_pat (p : pat) (s : pst) : outcome pst :=
  (** [visit_CollectionPattern], compiler.c:816-824 *)
  let coll := fix coll (ps : list pat) (old : bool) (s : pst) : outcome pst :=
    match ps with [] => Ok s | p :: r => do s <- visit_pat p s; coll r old (PS (ps_c s) old (ps_seen s)) end in
  let entries := fix entries (kvs : list (pat * pat)) (old : bool) (s : pst) : outcome pst :=
    match kvs with
    | [] => Ok s
    | (k, v) :: r => do s <- visit_pat k s; do s <- visit_pat v (PS (ps_c s) old (ps_seen s)); entries r old (PS (ps_c s) old (ps_seen s))
    end in
  match p with
  | PUndef => Ok (pemit s [P_UNDEF])                                         (* :781-784 *)
  | PBool b => Ok (pemit s [P_BOOL; if b then 1 else 0])                      (* :786-789 *)
  | PInt i => plit s (VInt i)                                                (* :801-814 *)
  | PFloat f => plit s (VFloat f)
  | PStr t => plit s (VStr t)
  | PType t => Ok (pemit s [ptype_byte t])                                   (* :921-950 *)
  | PAny => Ok (pemit s [P_ANY])                                             (* :879-882 *)
  | PBind k x => pdecl s k x
  | PList more ps => coll ps (ps_left s) (pemit s ((if more then P_VLS else P_LS) :: enc8 (Z.of_nat (length ps))))
  | PTable more kvs => entries kvs (ps_left s) (pemit s ((if more then P_VTABLE else P_TABLE) :: enc8 (Z.of_nat (2 * length kvs))))
  | PAlt l r =>                                                              (* :884-919 *)
      let prev := ps_seen s in
      do s <- visit_pat l (PS (emit (ps_c s) [P_ALT]) (ps_left s) []);
      let old := ps_seen s in
      do s <- visit_pat r (PS (ps_c s) false []);
      if forallb (fun x => existsb (name_eqb x) (ps_seen s)) old
      then Ok (PS (ps_c s) (ps_left s) (old ++ prev)) else Err ESyntax
  end.

(** [visit_Match_helper], compiler.c:952-1013. *)
Fixpoint visit_clauses (cls : list clause) (c : cst) : outcome cst :=
  match cls with
  | [] => Ok c
  | (p, guard, body) :: rest =>
      let (c, start) := enter_jmp c O_MATCH in
      let vars := scope_len (c_scopes c) in
      do s <- visit_pat p (PS (enter_scope c) true []);
      let c := ps_c s in
      let bindings := match c_scopes c with sc :: _ => length sc | [] => O end in
      do r <- (match guard with
               | Some g =>
                   let c := if (bindings =? 0)%nat then c
                            else emit c (op O_INCSP ++ [Z.of_nat bindings mod 256] ++ op O_MOVEUP_FP ++ [vars mod 256]) in
                   do c <- visit_e fuel g c;
                   let (c, start_guard) := enter_jmp c O_BRF_8 in
                   Ok (emit c (op O_POP), start_guard)
               | None =>
                   Ok (if (bindings =? 0)%nat then emit c (op O_POP)
                       else emit c (op O_INCSP ++ [Z.of_nat bindings mod 256] ++ op O_DEL_FP ++ [vars mod 256]), 0)
               end);
      let (c, start_guard) := (r : cst * Z) in
      do c <- visit_s fuel body c;
      let c := exit_scope c in
      let (c, body_end) := match rest with [] => (c, 0) | _ :: _ => enter_jmp c O_BR_8 end in
      let c := match guard with
               | Some _ => emit (exit_jmp c start_guard) (repeat (op_byte O_POP) bindings)
               | None => c
               end in
      let c := exit_jmp c start in
      match rest with
      | [] => Ok c
      | _ :: _ => do c <- visit_clauses rest c; Ok (exit_jmp c body_end)
      end
  end.
(** [visit_Match], compiler.c:1015-1028. *)
Definition visit_match (e : expr) (cls : list clause) (c : cst) : outcome cst :=
  do c <- visit_e fuel e c;
  match cls with [] => Ok (emit c (op O_POP)) | _ :: _ => visit_clauses cls c end.
End Gen.
