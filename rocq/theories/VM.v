(** * The bytecode interpreter: model of [vm_executenext] and its helpers, /repo/interpreter/VM.c, for the opcodes
    that are not implemented by calling library methods. *)
From Verif Require Import Base Bytes Value Ops.

(** ** Opcodes, /repo/opcode.h:4-86. *)
Inductive opc : Set :=
| O_NCONST | O_BCONST_F | O_BCONST_T | O_FCONST | O_CCONST | O_HALT | O_MATCH
| O_BIN (o : binop) | O_UN (o : unop) | O_ASS
| O_SET | O_GET | O_SLICE | O_EXPORT | O_LIT | O_LIT8 | O_NEWTABLE | O_NEWLIST | O_MOVEUP_FP
| O_END | O_SWAP | O_DUP | O_DEL_FP | O_DECSP | O_INCSP | O_POP
| O_BR_8 | O_BRF_8 | O_BRT_8 | O_BRN_8 | O_INITFOR | O_ENDCOMP | O_ENDFOR | O_ITER_1
| O_INIT_MC | O_INIT_CALL | O_CALL | O_RET | O_CRET
| O_GSTORE_8 | O_GLOAD_8 | O_USTORE | O_ULOAD | O_LSTORE | O_LLOAD | O_ECHO.

Definition binop_byte (o : binop) : Z :=
  match o with
  | BOr => 64 | BXor => 65 | BAnd => 66 | BAndNot => 67 | BShl => 69 | BShr => 70
  | BAdd => 96 | BSub => 97 | BMul => 98 | BPow => 99 | BFdiv => 100 | BIdiv => 101 | BMod => 102
  | BCnct => 107 | BLt => 112 | BLe => 113 | BGt => 114 | BGe => 115 | BEq => 116 | BId => 118
  end.
Definition unop_byte (o : unop) : Z :=
  match o with UBnot => 68 | UNeg => 103 | UPos => 104 | UNot => 105 | ULen => 106 end.
Definition op_byte (o : opc) : Z :=
  match o with
  | O_NCONST => 1 | O_BCONST_F => 8 | O_BCONST_T => 9 | O_FCONST => 10 | O_CCONST => 11 | O_HALT => 15 | O_MATCH => 49
  | O_BIN o => binop_byte o | O_UN o => unop_byte o | O_ASS => 80
  | O_SET => 128 | O_GET => 136 | O_SLICE => 138 | O_EXPORT => 144 | O_LIT => 154 | O_LIT8 => 155
  | O_NEWTABLE => 156 | O_NEWLIST => 157 | O_MOVEUP_FP => 160
  | O_END => 176 | O_SWAP => 183 | O_DUP => 184 | O_DEL_FP => 185 | O_DECSP => 189 | O_INCSP => 190 | O_POP => 191
  | O_BR_8 => 192 | O_BRF_8 => 193 | O_BRT_8 => 194 | O_BRN_8 => 195
  | O_INITFOR => 208 | O_ENDCOMP => 209 | O_ENDFOR => 210 | O_ITER_1 => 211
  | O_INIT_MC => 231 | O_INIT_CALL => 232 | O_CALL => 233 | O_RET => 236 | O_CRET => 237
  | O_GSTORE_8 => 240 | O_GLOAD_8 => 241 | O_USTORE => 242 | O_ULOAD => 243 | O_LSTORE => 244 | O_LLOAD => 245
  | O_ECHO => 255
  end.
Definition all_binops : list binop :=
  [BOr; BXor; BAnd; BAndNot; BShl; BShr; BAdd; BSub; BMul; BFdiv; BIdiv; BMod; BPow; BCnct; BGt; BGe; BLt; BLe; BEq; BId].
Definition all_ops : list opc :=
  [O_NCONST; O_BCONST_F; O_BCONST_T; O_FCONST; O_CCONST; O_HALT; O_MATCH] ++ map O_BIN all_binops ++
  map O_UN [UNeg; UPos; UNot; UBnot; ULen] ++
  [O_ASS; O_SET; O_GET; O_SLICE; O_EXPORT; O_LIT; O_LIT8; O_NEWTABLE; O_NEWLIST; O_MOVEUP_FP;
   O_END; O_SWAP; O_DUP; O_DEL_FP; O_DECSP; O_INCSP; O_POP; O_BR_8; O_BRF_8; O_BRT_8; O_BRN_8;
   O_INITFOR; O_ENDCOMP; O_ENDFOR; O_ITER_1; O_INIT_MC; O_INIT_CALL; O_CALL; O_RET; O_CRET;
   O_GSTORE_8; O_GLOAD_8; O_USTORE; O_ULOAD; O_LSTORE; O_LLOAD; O_ECHO].
(** The [switch (opcode)] of [vm_executenext], VM.c:1371-1650; [None] is its [default] case. *)
Definition op_of_byte (b : Z) : option opc := find (fun o => op_byte o =? b) all_ops.

(** ** State, /repo/interpreter/VM.h:97-137. *)
Definition STACK_SIZE : Z := 1024.
Definition NUM_FRAMES : Z := 1000.
Definition NUM_LOOPS : Z := 16.

(** [struct CallFrame], VM.h:86-92. *)
Record frame : Type := CF { f_pc : Z; f_prev_fp : Z; f_curr_fp : Z; f_lp : Z; f_nret : Z }.
(** [struct Upvalue], /repo/interpreter/upvalue.h: open (pointing at a stack slot) or closed. Upvalues and closures
    are named by their position in [v_upv]/[v_clo]; they are never freed in the model. *)
Inductive upv : Type := UOpen (slot : Z) | UClosed (v : value).
Record closure : Type := Clo { k_code : Z; k_upv : list nat }.

(** The value stack is a list, top first; [sp] is its length minus 1. [v_loops]: innermost loop first, [loopframe_num] is
    its length minus 1. Globals are a map from names; Globals.v has the hash table, C50 relates the two. *)
Record vstate : Type := VS {
  v_pc : Z; v_stk : list value; v_fp : Z; v_gl : list Z -> option value; v_out : list Z;
  v_loops : list (value * Z); v_frames : list frame; v_next_fp : Z;
  v_upv : list upv; v_pending : list nat; v_clo : list closure }.

(** What is fixed while a program runs: code (after the header), constants, library oracles, and what the containers
    reachable from the program hold (no modelled opcode changes a container). *)
Record prog : Type := Prog {
  p_code : list Z; p_consts : list value; p_world : world;
  p_list : Z -> list value;   (* elements of a list *)
  p_keys : Z -> list value }. (* keys of a table, in iteration order *)

(** One step: go on, stop ([Ok tt] = halted normally, [Err] = a YASL error was thrown, [UB], [NoFuel] = a library
    function did not return), or an opcode outside the model. *)
Inductive sres : Type :=
| Next (s : vstate)
| Stop (o : outcome unit) (s : vstate)
| Outside (s : vstate).

Definition set_pc (s : vstate) (pc : Z) : vstate :=
  VS pc (v_stk s) (v_fp s) (v_gl s) (v_out s) (v_loops s) (v_frames s) (v_next_fp s) (v_upv s) (v_pending s) (v_clo s).
Definition set_stk (s : vstate) (k : list value) : vstate :=
  VS (v_pc s) k (v_fp s) (v_gl s) (v_out s) (v_loops s) (v_frames s) (v_next_fp s) (v_upv s) (v_pending s) (v_clo s).
Definition set_gl (s : vstate) (g : list Z -> option value) : vstate :=
  VS (v_pc s) (v_stk s) (v_fp s) g (v_out s) (v_loops s) (v_frames s) (v_next_fp s) (v_upv s) (v_pending s) (v_clo s).
Definition set_out (s : vstate) (o : list Z) : vstate :=
  VS (v_pc s) (v_stk s) (v_fp s) (v_gl s) o (v_loops s) (v_frames s) (v_next_fp s) (v_upv s) (v_pending s) (v_clo s).
Definition set_loops (s : vstate) (l : list (value * Z)) : vstate :=
  VS (v_pc s) (v_stk s) (v_fp s) (v_gl s) (v_out s) l (v_frames s) (v_next_fp s) (v_upv s) (v_pending s) (v_clo s).
Definition set_frames (s : vstate) (fp : Z) (f : list frame) (nfp : Z) : vstate :=
  VS (v_pc s) (v_stk s) fp (v_gl s) (v_out s) (v_loops s) f nfp (v_upv s) (v_pending s) (v_clo s).
Definition set_upv (s : vstate) (u : list upv) (p : list nat) : vstate :=
  VS (v_pc s) (v_stk s) (v_fp s) (v_gl s) (v_out s) (v_loops s) (v_frames s) (v_next_fp s) u p (v_clo s).
Definition add_clo (s : vstate) (k : closure) : vstate :=
  VS (v_pc s) (v_stk s) (v_fp s) (v_gl s) (v_out s) (v_loops s) (v_frames s) (v_next_fp s) (v_upv s) (v_pending s) (v_clo s ++ [k]).

Definition sp (s : vstate) : Z := Z.of_nat (length (v_stk s)) - 1.

(** Stack slot [i], counted from the bottom. *)
Definition from_top (stk : list value) (i : Z) : Z := Z.of_nat (length stk) - 1 - i.
Definition slot_get (stk : list value) (i : Z) : option value :=
  if (0 <=? i) && (i <? Z.of_nat (length stk)) then nth_error stk (Z.to_nat (from_top stk i)) else None.
Fixpoint put {A} (l : list A) (n : nat) (v : A) : list A :=
  match l, n with [] , _ => [] | _ :: r, O => v :: r | x :: r, S n' => x :: put r n' v end.
Definition slot_set (stk : list value) (i : Z) (v : value) : option (list value) :=
  if (0 <=? i) && (i <? Z.of_nat (length stk)) then Some (put stk (Z.to_nat (from_top stk i)) v) else None.

(** [vm_push], VM.c:185-196. *)
Definition push (s : vstate) (v : value) : sres :=
  if sp s + 1 >=? STACK_SIZE then Stop (Err EStackOverflow) s else Next (set_stk s (v :: v_stk s)).
Fixpoint push_undefs (n : nat) (s : vstate) : sres :=
  match n with O => Next s | S n' => match push s VUndef with Next s' => push_undefs n' s' | r => r end end.
(** [vm_pop], VM.c:220-228; popping an empty stack reads outside it. *)
Definition pop (s : vstate) (f : value -> vstate -> sres) : sres :=
  match v_stk s with [] => Stop UB s | v :: k => f v (set_stk s k) end.
(** [vm_read_int], VM.c:289-294, and [NCODE], VM.h:50. *)
Definition rd8 (P : prog) (s : vstate) (f : Z -> vstate -> sres) : sres :=
  match read8 (p_code P) (v_pc s) with Ok c => f c (set_pc s (v_pc s + 8)) | _ => Stop UB s end.
Definition rd1 (P : prog) (s : vstate) (f : Z -> vstate -> sres) : sres :=
  match nthZ (p_code P) (v_pc s) with Some b => f b (set_pc s (v_pc s + 1)) | None => Stop UB s end.
(** a library call with a result *)
Definition lift {A} (s : vstate) (o : outcome A) (f : A -> sres) : sres :=
  match o with Ok a => f a | Err e => Stop (Err e) s | UB => Stop UB s | NoFuel => Stop NoFuel s end.
Definition opt {A} (s : vstate) (o : option A) (f : A -> sres) : sres :=
  match o with Some a => f a | None => Stop UB s end.

Definition str_eqb (x y : list Z) : bool := if list_eq_dec Z.eq_dec x y then true else false.

(** What a for loop steps through: the bytes of a string (as one-byte strings), the elements of a list, the keys of
    a table; [None] for anything else. A string is assumed not to be a substring of a constant (see C23). *)
Definition elements (P : prog) (v : value) : option (list value) :=
  match v with
  | VStr s => Some (map (fun c => VStr [c]) s)
  | VList p => Some (p_list P p)
  | VTable p => Some (p_keys P p)
  | _ => None
  end.
(** [vm_ITER_1], VM.c:875-918. *)
Definition exec_iter (P : prog) (s : vstate) : sres :=
  match v_loops s with
  | [] => Stop UB s
  | (it, i) :: rest =>
    match elements P it with
    | None => Stop (Err EType) s
    | Some vs => match nthZ vs i with
                 | None => push s (VBool false)
                 | Some v => match push (set_loops s ((it, i + 1) :: rest)) v with
                             | Next s' => push s' (VBool true) | r => r end
                 end
    end
  end.

(** [io_str_strip_char] with NUL and [vm_ECHO], /repo/util/IO.c:28-56, VM.c:1303-1323. *)
Definition echo_bytes (s : list Z) : list Z := filter (fun c => negb (c =? 0)) s ++ [10].

(** [add_upvalue], VM.c:572-597. The list of open upvalues is walked while the entry is above the slot. *)
Fixpoint find_upv (u : list upv) (pre pend : list nat) (loc : Z) : option (sum nat (list nat * list nat)) :=
  match pend with
  | [] => Some (inr (pre, []))                                  (* append at the end, :595 *)
  | c :: rest =>
    match nth_error u c with
    | Some (UOpen l) =>
        if loc <? l then find_upv u (pre ++ [c]) rest loc       (* :580-583 *)
        else if l =? loc then Some (inl c)                      (* :585-587 *)
        else Some (inr (pre ++ [c], rest))                      (* :588-592: inserted after the entry *)
    | _ => None
    end
  end.
Definition add_upvalue (s : vstate) (loc : Z) : option (nat * vstate) :=
  match find_upv (v_upv s) [] (v_pending s) loc with
  | None => None
  | Some (inl c) => Some (c, s)
  | Some (inr (pre, post)) =>
      let id := length (v_upv s) in
      Some (id, set_upv s (v_upv s ++ [UOpen loc]) (pre ++ id :: post))
  end.
(** [vm_close_all], VM.c:1291-1301: close while the entry is at or above [fp]. *)
Fixpoint close_pending (stk : list value) (fp : Z) (u : list upv) (pend : list nat) : option (list upv * list nat) :=
  match pend with
  | [] => Some (u, [])
  | c :: rest =>
    match nth_error u c with
    | Some (UOpen l) =>
        if l <? fp then Some (u, pend)
        else match slot_get stk l with Some v => close_pending stk fp (put u c (UClosed v)) rest | None => None end
    | _ => None
    end
  end.
Definition close_all (s : vstate) (f : vstate -> sres) : sres :=
  match close_pending (v_stk s) (v_fp s) (v_upv s) (v_pending s) with
  | Some (u, p) => f (set_upv s u p) | None => Stop UB s end.

(** The closure in the callee slot of the current frame. *)
Definition cur_closure (s : vstate) : option closure :=
  match slot_get (v_stk s) (v_fp s) with Some (VClosure k) => nthZ (v_clo s) k | _ => None end.
(** [upval_get], [upval_set], /repo/interpreter/upvalue.c:11-18. *)
Definition upval_get (s : vstate) (id : nat) : option value :=
  match nth_error (v_upv s) id with
  | Some (UOpen l) => slot_get (v_stk s) l | Some (UClosed v) => Some v | None => None end.
Definition upval_set (s : vstate) (id : nat) (v : value) : option vstate :=
  match nth_error (v_upv s) id with
  | Some (UOpen l) => option_map (set_stk s) (slot_set (v_stk s) l v)
  | Some (UClosed _) => Some (set_upv s (put (v_upv s) id (UClosed v)) (v_pending s))
  | None => None
  end.

(** The loop of [vm_CCONST], VM.c:606-614: one byte per captured variable. *)
Fixpoint capture (P : prog) (n : nat) (s : vstate) (acc : list nat) (f : list nat -> vstate -> sres) : sres :=
  match n with
  | O => f acc s
  | S n' => rd1 P s (fun u s =>
      if schar u >=? 0 then opt s (add_upvalue s (v_fp s + 1 + u)) (fun r => capture P n' (snd r) (acc ++ [fst r]) f)
      else opt s (cur_closure s) (fun k => opt s (nthZ (k_upv k) (-1 - schar u)) (fun id => capture P n' s (acc ++ [id]) f)))
  end.

(** [vm_fill_args], VM.c:1222-1232. *)
Definition fill_args (s : vstate) (n : Z) (f : vstate -> sres) : sres :=
  let have := sp s - v_fp s in
  if have <? n then match push_undefs (Z.to_nat (n - have)) s with Next s' => f s' | r => r end
  else f (set_stk s (skipn (Z.to_nat (have - n)) (v_stk s))).
(** [vm_CALL_native], VM.c:1234-1240. *)
Definition call_native (P : prog) (s : vstate) (code : Z) : sres :=
  match v_frames s with
  | [] => Stop UB s
  | fr :: frs =>
      let s := set_frames s (v_fp s) (CF (v_pc s) (f_prev_fp fr) (f_curr_fp fr) (f_lp fr) (f_nret fr) :: frs) (v_next_fp s) in
      match nthZ (p_code P) code with
      | None => Stop UB s
      | Some n => fill_args s n (fun s => Next (set_pc s (code + 1)))
      end
  end.
(** [vm_CALL], VM.c:1266-1275. C functions are outside the model. *)
Definition exec_call (P : prog) (s : vstate) : sres :=
  let s := set_frames s (v_next_fp s) (v_frames s) (v_next_fp s) in
  match slot_get (v_stk s) (v_fp s) with
  | Some (VFn a) => call_native P s a
  | Some (VClosure k) => opt s (nthZ (v_clo s) k) (fun c => call_native P s (k_code c))
  | Some _ => Outside s
  | None => Stop UB s
  end.
(** [vm_rm_range], VM.c:276-287: drop slots [start .. e-1]. *)
Definition rm_range (stk : list value) (start e : Z) : option (list value) :=
  let after := Z.of_nat (length stk) - e in
  if (0 <=? start) && (start <=? e) && (0 <=? after)
  then Some (firstn (Z.to_nat after) stk ++ skipn (Z.to_nat (after + (e - start))) stk) else None.
(** [vm_exitframe_multi], VM.c:1149-1176. *)
Definition exitframe (s : vstate) (len : Z) : sres :=
  opt s (rm_range (v_stk s) (v_fp s) (v_fp s + len + 1)) (fun k =>
  match v_frames s with
  | [] => Stop UB s
  | fr :: frs =>
      let s := set_stk s k in
      let have := sp s + 1 - v_fp s in
      let r := if f_nret fr <? 0 then Next s
               else if have <? f_nret fr then push_undefs (Z.to_nat (f_nret fr - have)) s
               else Next (set_stk s (skipn (Z.to_nat (have - f_nret fr)) (v_stk s))) in
      match r with
      | Next s =>
          let loops := v_loops s in
          let s := set_loops s (skipn (Z.to_nat (Z.of_nat (length loops) - 1 - f_lp fr)) loops) in
          Next (set_pc (set_frames s (f_prev_fp fr) frs (f_curr_fp fr)) (f_pc fr))
      | r => r
      end
  end).
(** [vm_enterframe_offset] and [vm_INIT_CALL], VM.c:1134-1146, 1190-1202; metamethod __call is outside the model. *)
Definition init_call (s : vstate) (nret : Z) : sres :=
  match v_stk s with
  | [] => Stop UB s
  | v :: _ =>
    match v with
    | VFn _ | VClosure _ | VCfn _ =>
        if Z.of_nat (length (v_frames s)) >=? NUM_FRAMES then Stop (Err EStackOverflow) s
        else Next (set_frames s (v_fp s) (CF (v_pc s) (v_fp s) (v_next_fp s) (Z.of_nat (length (v_loops s)) - 1) nret :: v_frames s) (sp s))
    | _ => Outside s
    end
  end.

(** The name stored in constant [c] (O_GLOAD_8/O_GSTORE_8). *)
Definition const_name (P : prog) (c : Z) : option (list Z) :=
  match nthZ (p_consts P) c with Some (VStr x) => Some x | _ => None end.

(** [vm_executenext], VM.c:1364-1650; [s] already points past the opcode. *)
Definition exec (P : prog) (o : opc) (s : vstate) : sres :=
  let w := p_world P in
  match o with
  | O_HALT => Stop (Ok tt) s
  | O_BCONST_F => push s (VBool false)
  | O_BCONST_T => push s (VBool true)
  | O_NCONST => push s VUndef
  | O_FCONST => rd8 P s (fun c s => match push s (VFn (v_pc s)) with Next s => Next (set_pc s (v_pc s + c)) | r => r end)
  | O_CCONST => rd8 P s (fun c s => let start := v_pc s in
      rd1 P (set_pc s (start + c)) (fun n s => capture P (Z.to_nat n) s [] (fun ids s =>
        let k := Z.of_nat (length (v_clo s)) in push (add_clo s (Clo start ids)) (VClosure k))))
  | O_BIN op => pop s (fun b s => pop s (fun a s => lift s (exec_binop w op a b) (push s)))
  | O_UN op => pop s (fun a s => lift s (exec_unop w op a) (push s))
  | O_LIT => rd1 P s (fun b s => opt s (nthZ (p_consts P) b) (push s))
  | O_LIT8 => rd8 P s (fun c s => opt s (nthZ (p_consts P) c) (push s))
  | O_INITFOR => pop s (fun v s => if Z.of_nat (length (v_loops s)) >=? NUM_LOOPS then Stop UB s else Next (set_loops s ((v, 0) :: v_loops s)))
  | O_ENDFOR => match v_loops s with [] => Stop UB s | _ :: l => Next (set_loops s l) end
  | O_ENDCOMP => pop s (fun a s => pop s (fun _ s => match push s a with
      | Next s => match v_loops s with [] => Stop UB s | _ :: l => Next (set_loops s l) end | r => r end))
  | O_ITER_1 => exec_iter P s
  | O_END => push s VEnd
  | O_SWAP => pop s (fun a s => pop s (fun b s => Next (set_stk s (b :: a :: v_stk s))))
  | O_DUP => match v_stk s with [] => Stop UB s | v :: _ => push s v end
  | O_MOVEUP_FP => rd1 P s (fun b s => let i := v_fp s + schar b + 1 in
      opt s (slot_get (v_stk s) i) (fun a =>
        let n := Z.to_nat (from_top (v_stk s) i) in Next (set_stk s (a :: firstn n (v_stk s) ++ skipn (S n) (v_stk s)))))
  | O_BR_8 => rd8 P s (fun c s => Next (set_pc s (v_pc s + c)))
  | O_BRF_8 => rd8 P s (fun c s => pop s (fun v s => Next (if is_falsey v then set_pc s (v_pc s + c) else s)))
  | O_BRT_8 => rd8 P s (fun c s => pop s (fun v s => Next (if negb (is_falsey v) then set_pc s (v_pc s + c) else s)))
  | O_BRN_8 => rd8 P s (fun c s => pop s (fun v s => Next (if negb (is_undef v) then set_pc s (v_pc s + c) else s)))
  | O_GLOAD_8 => rd8 P s (fun c s => opt s (const_name P c) (fun x =>
      push s (match v_gl s x with Some v => v | None => VEnd end)))
  | O_GSTORE_8 => rd8 P s (fun c s => opt s (const_name P c) (fun x => pop s (fun v s =>
      Next (set_gl s (fun y => if str_eqb y x then Some v else v_gl s y)))))
  | O_LLOAD => rd1 P s (fun b s => opt s (slot_get (v_stk s) (v_fp s + schar b + 1)) (push s))
  | O_LSTORE => rd1 P s (fun b s => pop s (fun v s => opt s (slot_set (v_stk s) (v_fp s + schar b + 1) v) (fun k => Next (set_stk s k))))
  | O_ULOAD => rd1 P s (fun b s => opt s (cur_closure s) (fun k => opt s (nthZ (k_upv k) (schar b)) (fun id => opt s (upval_get s id) (push s))))
  | O_USTORE => rd1 P s (fun b s => opt s (cur_closure s) (fun k => opt s (nthZ (k_upv k) (schar b)) (fun id =>
      pop s (fun v s => opt s (upval_set s id v) Next))))
  | O_INIT_CALL => rd1 P s (fun b s => init_call s (schar b))
  | O_CALL => exec_call P s
  | O_RET => rd1 P s (fun b s => exitframe s b)
  | O_CRET => close_all s (fun s => rd1 P s (fun b s => exitframe s b))
  | O_POP => pop s (fun _ s => Next s)
  | O_DECSP => rd1 P s (fun b s => Next (set_stk s (skipn (Z.to_nat b) (v_stk s))))
  | O_ECHO => rd1 P s (fun _ s => pop s (fun v s => lift s (w_tostr w v) (fun t => Next (set_out s (v_out s ++ echo_bytes t)))))
  | O_ASS => pop s (fun v s => if is_falsey v then lift s (w_tostr w v) (fun _ => Stop (Err EAssert) s) else Next s)
  | O_MATCH | O_SET | O_GET | O_SLICE | O_EXPORT | O_NEWTABLE | O_NEWLIST | O_DEL_FP | O_INCSP | O_INIT_MC => Outside s
  end.
(** Note on O_LSTORE: the C code reads [fp + offset + 1] before popping; the slot is below the popped value in all
    compiled code, so the order does not matter except for a store to the popped slot itself (UB here). *)

Definition step (P : prog) (s : vstate) : sres :=
  rd1 P s (fun b s => match op_of_byte b with None => Stop (Err EError) s | Some o => exec P o s end).

(** [vm_run], VM.c:1652-1663, with a step limit. *)
Fixpoint run (n : nat) (P : prog) (s : vstate) : sres :=
  match n with
  | O => Next s
  | S n' => match step P s with Next s' => run n' P s' | r => r end
  end.
(** [vm_init], VM.c:44-79. The C code leaves [next_fp] uninitialised; it is written before it is read by every call, and the
    model starts it at -1. *)
Definition vm_start (gl : list Z -> option value) : vstate := VS 0 [] (-1) gl [] [] [] (-1) [] [] [].
