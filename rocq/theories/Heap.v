(** * Lists and tables as objects in memory: metatables, the methods of the built-in types, and the instructions that find and
    call them. Model of /repo/interpreter/VM.c:300-560, 726-865, 1187-1275, 1485-1519, 1601-1625 and of
    /repo/interpreter/{builtins,list_methods,table_methods,undef_methods,bool_methods,int_methods,float_methods}.c.

    Simplifications. A list is the sequence of its elements (Lists.v has the array; C11 and C12 relate them); a table is the
    slot array of Table.v. Objects are never freed (reference counts: Refs.v, C31). [NoFuel] also stands for: outside this
    model (a metamethod written in YASL or by the host; a method listed as [COther]). *)
From Verif Require Import Base Bytes Value Table Ops Text VM Names.

(** [struct RC_UserData] of lists and tables, /repo/interpreter/userdata.h: contents and metatable by address. *)
Record heap : Type := Hp { hp_list : Z -> option (list value); hp_tab : Z -> option table; hp_mt : Z -> option Z; hp_next : Z }.
Definition at_ {A} (f : Z -> A) (p : Z) (x : A) : Z -> A := fun q => if q =? p then x else f q.
Definition put_list (h : heap) (p : Z) (xs : list value) : heap := Hp (at_ (hp_list h) p (Some xs)) (hp_tab h) (hp_mt h) (hp_next h).
Definition put_tab (h : heap) (p : Z) (t : table) : heap := Hp (hp_list h) (at_ (hp_tab h) p (Some t)) (hp_mt h) (hp_next h).

(** [vm->builtins_htable], VM.c:25-42: an array of NUM_TYPES pointers of which these seven are written. The metatables are
    tables at the addresses 0..8 (the numbers of /repo/yasl_types.h:8-26). *)
Definition MT_UNDEF : Z := 0.  Definition MT_FLOAT : Z := 1.  Definition MT_INT : Z := 2.  Definition MT_BOOL : Z := 3.
Definition MT_STR : Z := 4.    Definition MT_LIST : Z := 6.   Definition MT_TABLE : Z := 8.
(** a new object with its metatable ([rcls_new], [rcht_new], [ud_setmt]) *)
Definition new_list (h : heap) (xs : list value) : heap * value :=
  let p := hp_next h in
  (Hp (at_ (hp_list h) p (Some xs)) (hp_tab h) (at_ (hp_mt h) p (Some MT_LIST)) (p + 1), VList p).
Definition new_tab (h : heap) (t : table) (mt : option Z) : heap * value :=
  let p := hp_next h in
  (Hp (hp_list h) (at_ (hp_tab h) p (Some t)) (at_ (hp_mt h) p mt) (p + 1), VTable p).
Definition list_at (h : heap) (p : Z) : outcome (list value) := match hp_list h p with Some xs => Ok xs | None => UB end.
Definition tab_at (h : heap) (p : Z) : outcome table := match hp_tab h p with Some t => Ok t | None => UB end.

(** ** The methods of the built-in types, builtins.c:27-122. A C function is named by type * 100 + position in builtins.c. *)
Inductive lmeth : Set := LLen | LPush | LCopy | LAdd | LEq | LPop | LGet | LSet | LTostr | LSearch | LReverse | LClear | LJoin | LSort | LSpread | LCount | LInsert.
Inductive tmeth : Set := TLen | TRemove | TKeys | TValues | TCopy | TTostr | TGet | TSet | TBor | TEq | TClear.
Inductive cfn : Set := CList (m : lmeth) | CTable (m : tmeth) | CTostr (t : ytype) | COther.
Definition list_meths : list lmeth := [LLen; LPush; LCopy; LAdd; LEq; LPop; LGet; LSet; LTostr; LSearch; LReverse; LClear; LJoin; LSort; LSpread; LCount; LInsert].
Definition table_meths : list tmeth := [TLen; TRemove; TKeys; TValues; TCopy; TTostr; TGet; TSet; TBor; TEq; TClear].
Definition cfn_of (id : Z) : option (cfn * Z) :=
  let nargs names := match nthZ names (id mod 100) with Some (_, n) => n | None => 0 end in
  if (600 <=? id) && (id <? 617) then option_map (fun m => (CList m, nargs list_names)) (nthZ list_meths (id - 600))
  else if (800 <=? id) && (id <? 811) then option_map (fun m => (CTable m, nargs table_names)) (nthZ table_meths (id - 800))
  else if id =? 0 then Some (CTostr TUndef, 1)
  else if id =? 103 then Some (CTostr TFloat, 1)
  else if id =? 203 then Some (CTostr TInt, 1)
  else if id =? 300 then Some (CTostr TBool, 1)
  else if id =? 408 then Some (CTostr TStr, 1)
  else if id =? 1 then Some (COther, 1)
  else if (100 <=? id) && (id <? 103) then Some (COther, nargs float_names)
  else if (200 <=? id) && (id <? 203) then Some (COther, nargs int_names)
  else if id =? 301 then Some (COther, 1)
  else if (400 <=? id) && (id <? 422) then Some (COther, nargs str_names)
  else None.

Section Heap.
Variable fuel : nat.
Variable w : world.

(** [table_insert_specialstring_cfunction], builtins.c:21-25, for each name. *)
Fixpoint builtins (id : Z) (names : list (list Z * Z)) (t : table) : outcome table :=
  match names with
  | [] => Ok t
  | (x, _) :: r => do t' <- insert_fast fuel t (VStr x) (VCfn id); builtins (id + 1) r t'
  end.
Definition builtin_table (mt : Z) (names : list (list Z * Z)) : outcome table := do t <- table_new; builtins (mt * 100) names t.
(** [builtins_htable_new], VM.c:25-42. The metatables themselves have none. *)
Definition heap_new : outcome heap :=
  do u <- builtin_table MT_UNDEF undef_names; do f <- builtin_table MT_FLOAT float_names; do i <- builtin_table MT_INT int_names;
  do b <- builtin_table MT_BOOL bool_names; do s <- builtin_table MT_STR str_names; do l <- builtin_table MT_LIST list_names;
  do t <- builtin_table MT_TABLE table_names;
  Ok (Hp (fun _ => None)
    (at_ (at_ (at_ (at_ (at_ (at_ (at_ (fun _ => None) MT_UNDEF (Some u)) MT_FLOAT (Some f)) MT_INT (Some i)) MT_BOOL (Some b)) MT_STR (Some s)) MT_LIST (Some l)) MT_TABLE (Some t))
    (fun _ => None) 16).

(** [obj_get_metatable], VM.c:726-738. For functions the entry of the array was never written; for user pointers it is
    outside the array. *)
Definition metatable (h : heap) (v : value) : outcome (option Z) :=
  match v with
  | VUserData p | VList p | VTable p => Ok (hp_mt h p)
  | VUndef => Ok (Some MT_UNDEF) | VFloat _ => Ok (Some MT_FLOAT) | VInt _ => Ok (Some MT_INT) | VBool _ => Ok (Some MT_BOOL) | VStr _ => Ok (Some MT_STR)
  | VEnd | VFn _ | VClosure _ | VCfn _ | VUserPtr _ => UB
  end.
(** [YASL_Table_search] in a metatable; [None] = Y_END. *)
Definition search (h : heap) (p : Z) (k : value) : outcome (option value) :=
  do t <- tab_at h p; do r <- table_search fuel t k; Ok (if is_end r then None else Some r).
(** the search of [vm_lookup_method_throwing] and [vm_lookup_method_helper], VM.c:312-327, 750-760 *)
Definition method (h : heap) (v : value) (x : list Z) : outcome (option value) :=
  do m <- metatable h v; match m with None => Ok None | Some p => search h p (VStr x) end.

(** ** Equality, [vm_EQ], VM.c:489-506, with [list___eq], list_methods.c:189-213, and [table___eq], table_methods.c:70-96. The
    operands are the two values on top of the stack; [room] free slots and [frames] free call frames remain. *)
Fixpoint eq_items (eq : value -> value -> outcome bool) (l : list (value * value)) : outcome bool :=
  match l with [] => Ok true | (x, y) :: r => do b <- eq x y; if b then eq_items eq r else Ok false end.
Fixpoint eq_entries (eq : value -> value -> outcome bool) (right : table) (l : list item) : outcome bool :=
  match l with
  | [] => Ok true
  | it :: r => do s <- table_search fuel right (ik it);
               if is_end s then Ok false else do b <- eq (iv it) s; if b then eq_entries eq right r else Ok false
  end.
(** two pushes for the elements (none if there is none to compare), then one for the result *)
Definition need2 {A} (room : nat) (k : nat -> outcome A) : outcome A := match room with S (S r) => k r | _ => Err EStackOverflow end.
Definition need1 {A} (room : nat) (k : nat -> outcome A) : outcome A := match room with S r => k r | _ => Err EStackOverflow end.
Definition pair_off (xs ys : list value) : list (value * value) := combine xs ys.
Fixpoint heap_eq (room frames : nat) (h : heap) (a b : value) {struct room} : outcome bool :=
  match a, b with
  | VUserData _, VUserData _ => NoFuel
  | VTable _, VTable _ | VList _, VList _ =>
      match room with
      | O => Err EStackOverflow                                      (* vm_push(vm, a) *)
      | S r =>
        do m <- method h a n_eq;
        match m with
        | None => Err EType
        | Some (VCfn id) =>
            match frames with
            | O => Err EStackOverflow
            | S f =>
              match cfn_of id with
              | Some (CList LEq, _) =>
                  match a, b with
                  | VList p, VList q =>
                      do xs <- list_at h p; do ys <- list_at h q;
                      match r with
                      | O => Err EStackOverflow
                      | S r1 =>
                        if negb (length xs =? length ys)%nat then Ok false
                        else match xs with
                             | [] => Ok true
                             | _ => match r1 with O => Err EStackOverflow | S r2 => eq_items (heap_eq r2 f h) (pair_off xs ys) end
                             end
                      end
                  | _, _ => Err EType
                  end
              | Some (CTable TEq, _) =>
                  match a, b with
                  | VTable p, VTable q =>
                      do s <- tab_at h p; do t <- tab_at h q;
                      match r with
                      | O => Err EStackOverflow
                      | S r1 =>
                        if negb (t_count s =? t_count t) then Ok false
                        else match for_table s with
                             | [] => Ok true
                             | its => match r1 with
                                      | O => (* one slot left: an absent key is still reported *)
                                          eq_entries (fun _ _ => Err EStackOverflow) t its
                                      | S r2 => eq_entries (heap_eq r2 f h) t its
                                      end
                             end
                      end
                  | _, _ => Err EType
                  end
              | _ => NoFuel
              end
            end
        | Some _ => NoFuel
        end
      end
  | _, _ => Ok (is_equal a b)
  end.

(** ** Text, [vm_stringify_top], VM.c:546-569, for anything but lists and tables: found through the metatable, one slot for the
    method, one for its result ([str_tostr] returns its argument). Functions, user pointers and user data: the oracle. *)
Definition prim_text (v : value) : outcome (list Z) := match prim_tostr v with Some t => Ok t | None => w_tostr w v end.
Definition text_prim (room frames : nat) (h : heap) (v : value) : outcome (list Z) :=
  match v with
  | VUndef | VBool _ | VInt _ | VFloat _ | VStr _ =>
      need1 room (fun r =>
        do m <- method h v n_tostr;
        match m with
        | None => Err EType
        | Some (VCfn id) =>
            match frames with
            | O => Err EStackOverflow
            | S _ =>
              match cfn_of id with
              | Some (CTostr t, _) =>
                  if ytype_eqb t (vtype v)
                  then match v with VStr _ => prim_text v | _ => need1 r (fun _ => prim_text v) end
                  else Err EType
              | _ => NoFuel
              end
            end
        | Some _ => NoFuel
        end)
  | VEnd => UB
  | VList _ | VTable _ => NoFuel                                     (* never a key of a table *)
  | _ => w_tostr w v
  end.

(** The buffer of the containers being printed, [rec_call], table_methods.c:112-120: capacity and entries. *)
Definition seen_buf : Type := nat * list Z.
Definition grow (buf : seen_buf) (p : Z) : outcome seen_buf :=
  let (size, l) := buf in
  let size' := if (length l =? size)%nat then (size * 2)%nat else size in
  if (length l <? size')%nat then Ok (size', l ++ [p]) else UB.
(** [buffer_contains], table_methods.c:103-110. *)
Definition contains (buf : seen_buf) (p : Z) : bool := existsb (Z.eqb p) (snd buf).
(** the byte buffer: [bb.count -= 2], then the closing bracket; a count below 2 wraps around *)
Definition close (bb : list Z) (c : Z) : outcome (list Z) :=
  if (length bb <? 2)%nat then UB else Ok (firstn (length bb - 2) bb ++ [c]).
Definition found_list : list Z := [91; 46; 46; 46; 93].              (* [...] *)
Definition found_table : list Z := [123; 46; 46; 46; 125].           (* {...} *)
Definition comma : list Z := [44; 32].
Definition colon : list Z := [58; 32].
Fixpoint text_items (f : value -> outcome (list Z)) (xs : list value) (bb : list Z) : outcome (list Z) :=
  match xs with [] => Ok bb | x :: r => do t <- f x; text_items f r (bb ++ t ++ comma) end.
Fixpoint text_entries (key val : value -> outcome (list Z)) (its : list item) (bb : list Z) : outcome (list Z) :=
  match its with
  | [] => Ok bb
  | it :: r => do k <- key (ik it); do t <- val (iv it); text_entries key val r (bb ++ k ++ colon ++ t ++ comma)
  end.
(** [list_tostr_helper], list_methods.c:70-119, and [table_tostr_helper], table_methods.c:122-180: the container is on top of
    the stack, its address in [buf]. *)
Fixpoint text_of (room frames : nat) (h : heap) (buf : seen_buf) (v : value) {struct room} : outcome (list Z) :=
  match v with
  | VList p =>
      do xs <- list_at h p;
      match xs with
      | [] => Ok [91; 93]
      | _ =>
        match room with
        | O => Err EStackOverflow
        | S r =>
          do bb <- text_items (fun x =>
              match x with
              | VList q => if contains buf q then Ok found_list else do buf' <- grow buf q; text_of r frames h buf' x
              | VTable q => if contains buf q then Ok found_table else do buf' <- grow buf q; text_of r frames h buf' x
              | _ => text_prim r frames h x
              end) xs [91];
          close bb 93
        end
      end
  | VTable p =>
      do t <- tab_at h p;
      if u64 (t_count t) =? 0 then Ok [123; 125]
      else match for_table t with
           | [] => close [123] 125
           | its =>
             match room with
             | O => Err EStackOverflow
             | S r =>
               do bb <- text_entries (text_prim r frames h) (fun x =>
                   match x with
                   | VList q => if contains buf q then Ok found_list else do buf' <- grow buf q; text_of r frames h buf' x
                   | VTable q => if contains buf q then Ok found_table else do buf' <- grow buf q; text_of r frames h buf' x
                   | _ => text_prim r frames h x
                   end) its [123];
               close bb 125
             end
           end
  | _ => UB
  end.
(** [list_tostr], list_methods.c:121-131, [table_tostr], table_methods.c:182-193; the argument is on top of the stack. *)
Definition tostr_body (room frames : nat) (h : heap) (list_method : bool) (v : value) : outcome (list Z) :=
  match v, list_method with
  | VList p, true | VTable p, false => text_of room frames h (8%nat, [p]) v
  | _, _ => Err EType
  end.
(** [vm_stringify_top] for any value; one slot for the method, one frame for the call. *)
Definition stringify (room frames : nat) (h : heap) (v : value) : outcome (list Z) :=
  match v with
  | VList _ | VTable _ =>
      need1 room (fun r =>
        do m <- method h v n_tostr;
        match m with
        | None => Err EType
        | Some (VCfn id) =>
            match frames with
            | O => Err EStackOverflow
            | S f =>
              match cfn_of id with
              | Some (CList LTostr, _) => tostr_body r f h true v
              | Some (CTable TTostr, _) => tostr_body r f h false v
              | _ => NoFuel
              end
            end
        | Some _ => NoFuel
        end)
  | _ => text_prim room frames h v
  end.

(** ** The methods. Arguments: first one first. Result: the values above the function when it returns, topmost first, and how
    many of them it returns. [room], [frames]: what is free when the method starts. *)
Definition index_of (n : nat) (i : Z) : option nat :=                (* list___get_helper, list___set: -n <= i < n *)
  let n := Z.of_nat n in
  if (i <? - n) || (i >=? n) then None else Some (Z.to_nat (if i >=? 0 then i else i + n)).
Definition replace (xs : list value) (i : nat) (v : value) : list value := firstn i xs ++ v :: skipn (S i) xs.
Definition ret : Type := heap * list value * Z.
Definition pushing (room : nat) (h : heap) (v : value) (seg : list value) : outcome ret := need1 room (fun _ => Ok (h, v :: seg, 1)).
Definition lbody (room frames : nat) (h : heap) (m : lmeth) (args : list value) : outcome ret :=
  match m, args with
  | LLen, [VList p] => do xs <- list_at h p; pushing room h (VInt (Z.of_nat (length xs))) [VList p]
  | LPush, [VList p; v] => do xs <- list_at h p; Ok (put_list h p (xs ++ [v]), [VList p], 1)
  | LCopy, [VList p] => do xs <- list_at h p; let (h', l) := new_list h xs in pushing room h' l [VList p]
  | LAdd, [VList p; VList q] => do xs <- list_at h p; do ys <- list_at h q; let (h', l) := new_list h (xs ++ ys) in pushing room h' l [VList q; VList p]
  | LPop, [VList p] => do xs <- list_at h p;
      match rev xs with
      | [] => Err EValue
      | v :: r => pushing room (put_list h p (rev r)) v [VList p]
      end
  | LGet, [VList p; VInt i] => do xs <- list_at h p;
      match index_of (length xs) i with
      | None => Err EValue
      | Some n => match nth_error xs n with Some v => pushing room h v [VInt i; VList p] | None => UB end
      end
  | LSet, [VList p; VInt i; v] => do xs <- list_at h p;
      match index_of (length xs) i with
      | None => Err EValue
      | Some n => Ok (put_list h p (replace xs n v), [VInt i; VList p], 1)
      end
  | LTostr, [v] => do t <- tostr_body room frames h true v; Ok (h, [VStr t], 1)
  | LSearch, [VList p; v] => do xs <- list_at h p;
      let hit := fold_left (fun '(i, r) x => (i + 1, if is_equal x v then VInt i else r)) xs (0, VUndef) in
      Ok (h, [snd hit; VList p], 1)
  | LReverse, [VList p] => do xs <- list_at h p; Ok (put_list h p (rev xs), [VList p], 0)
  | LClear, [VList p] => do xs <- list_at h p; Ok (put_list h p [], [VList p], 0)
  | LCount, [VList p; v] => do xs <- list_at h p; Ok (h, [VInt (Z.of_nat (length (filter (fun x => is_equal x v) xs))); VList p], 1)
  | LInsert, [VList p; VInt i; v] => do xs <- list_at h p;
      let n := Z.of_nat (length xs) in
      if i =? n then Ok (put_list h p (xs ++ [v]), [VList p], 1)
      else if (i >=? n) || (i <? - n) then Err EValue
      else let j := Z.to_nat (if i <? 0 then i + n else i) in Ok (put_list h p (firstn j xs ++ v :: skipn j xs), [VList p], 1)
  | LEq, [VList p; VList q] =>                                       (* called as a method: as in heap_eq *)
      do xs <- list_at h p; do ys <- list_at h q;
      need1 room (fun r1 =>
        do b <- (if negb (length xs =? length ys)%nat then Ok false
                 else match xs with [] => Ok true | _ => need1 r1 (fun r2 => eq_items (heap_eq r2 frames h) (pair_off xs ys)) end);
        Ok (h, [VBool b; VList q; VList p], 1))
  | LJoin, _ | LSort, _ | LSpread, _ => NoFuel
  | _, _ => Err EType
  end.
Definition tbody (room frames : nat) (h : heap) (m : tmeth) (args : list value) : outcome ret :=
  match m, args with
  | TLen, [VTable p] => do t <- tab_at h p; pushing room h (VInt (table_length t)) [VTable p]
  | TRemove, [VTable p; k] => do t <- tab_at h p; do t' <- table_rm fuel t k; Ok (put_tab h p t', [VTable p], 1)
  | TKeys, [VTable p] => do t <- tab_at h p; let (h', l) := new_list h (table_keys t) in pushing room h' l [VTable p]
  | TValues, [VTable p] => do t <- tab_at h p; let (h', l) := new_list h (table_values t) in pushing room h' l [VTable p]
  | TCopy, [VTable p] => do t <- tab_at h p; do t' <- table_copy fuel t; let (h', l) := new_tab h t' None in pushing room h' l [VTable p]
  | TTostr, [v] => do t <- tostr_body room frames h false v; Ok (h, [VStr t], 1)
  | TGet, [VTable p; k] => do t <- tab_at h p; do v <- table_get fuel t k; Ok (h, [v; VTable p], 1)
  | TSet, [VTable p; k; v] => do t <- tab_at h p; do t' <- table_set fuel t k v; Ok (put_tab h p t', [VTable p], 1)
  | TBor, [VTable p; VTable q] => do s <- tab_at h p; do t <- tab_at h q; do u <- table_bor fuel s t;
      let (h', l) := new_tab h u (Some MT_TABLE) in pushing room h' l [VTable q; VTable p]
  | TEq, [VTable p; VTable q] =>
      do s <- tab_at h p; do t <- tab_at h q;
      need1 room (fun r1 =>
        do b <- (if negb (t_count s =? t_count t) then Ok false
                 else match for_table s with
                      | [] => Ok true
                      | its => eq_entries (match r1 with O => fun _ _ => Err EStackOverflow | S r2 => heap_eq r2 frames h end) t its
                      end);
        Ok (h, [VBool b; VTable q; VTable p], 1))
  | TClear, [VTable p] => do t <- tab_at h p; Ok (put_tab h p (table_clear t), [], 0)
  | _, _ => Err EType
  end.
Definition cbody (room frames : nat) (h : heap) (c : cfn) (args : list value) : outcome ret :=
  match c, args with
  | CList m, _ => lbody room frames h m args
  | CTable m, _ => tbody room frames h m args
  | CTostr t, [v] =>
      if ytype_eqb t (vtype v)
      then do s <- prim_text v; match v with VStr _ => Ok (h, [v], 1) | _ => pushing room h (VStr s) [v] end
      else Err EType
  | _, _ => NoFuel
  end.

(** ** Instructions. *)
Inductive hres : Type := HNext (s : vstate) (h : heap) | HStop (o : outcome unit) (s : vstate) (h : heap) | HOut.
Definition with_heap (h : heap) (r : sres) : hres := match r with Next s => HNext s h | Stop o s => HStop o s h | Outside s => HOut end.
Definition then_ (h : heap) (r : sres) (f : vstate -> hres) : hres := match r with Next s => f s | r => with_heap h r end.
Definition lifth {A} (s : vstate) (h : heap) (o : outcome A) (f : A -> hres) : hres :=
  match o with Ok a => f a | Err e => HStop (Err e) s h | UB => HStop UB s h | NoFuel => HOut end.
Definition room (s : vstate) : nat := Z.to_nat (STACK_SIZE - 1 - sp s).
Definition free_frames (s : vstate) : nat := Z.to_nat (NUM_FRAMES - Z.of_nat (length (v_frames s))).

Section Program.
Variable P : prog.
(** [vm_CALL_cfn], VM.c:1247-1264; the frame is that of the call. *)
Definition call_cfn (s : vstate) (h : heap) (id : Z) : hres :=
  match v_frames s with
  | [] => HStop UB s h
  | fr :: frs =>
      let s := set_frames s (v_fp s) (CF (v_pc s) (f_prev_fp fr) (f_curr_fp fr) (f_lp fr) (f_nret fr) :: frs) (v_next_fp s) in
      match cfn_of id with
      | None => HOut
      | Some (c, n) =>
          then_ h (fill_args s n Next) (fun s =>
            let n := Z.to_nat n in
            lifth s h (cbody (room s) (free_frames s) h c (rev (firstn n (v_stk s)))) (fun '(h', seg, nret) =>
              let s' := set_stk s (seg ++ skipn n (v_stk s)) in
              with_heap h' (exitframe s' (sp s' - nret - v_fp s'))))
      end
  end.
(** [vm_CALL], VM.c:1266-1275. *)
Definition h_call (s : vstate) (h : heap) : hres :=
  let s1 := set_frames s (v_next_fp s) (v_frames s) (v_next_fp s) in
  match slot_get (v_stk s1) (v_fp s1) with
  | Some (VCfn id) => call_cfn s1 h id
  | _ => with_heap h (exec_call P s)
  end.
(** [vm_INIT_CALL_offset], VM.c:1190-1198: if the callee is not a function, a method __call of the value on top. *)
Definition h_init_call (s : vstate) (h : heap) (offset nret : Z) (f : vstate -> hres) : hres :=
  match slot_get (v_stk s) offset with
  | None => HStop UB s h
  | Some (VFn _) | Some (VClosure _) | Some (VCfn _) =>
      if Z.of_nat (length (v_frames s)) >=? NUM_FRAMES then HStop (Err EStackOverflow) s h
      else f (set_frames s (v_fp s) (CF (v_pc s) (v_fp s) (v_next_fp s) (Z.of_nat (length (v_loops s)) - 1) nret :: v_frames s) offset)
  | Some _ =>
      match v_stk s with
      | [] => HStop UB s h
      | v :: _ => lifth s h (method h v n_call) (fun m => match m with None => HStop (Err EType) s h | Some _ => HOut end)
      end
  end.
(** [vm_shifttopdown], VM.c:361-368: the top goes below the [d] values under it. *)
Definition shift_down (d : nat) (stk : list value) : list value :=
  match stk with [] => [] | v :: r => firstn d r ++ v :: skipn d r end.
(** push a method, move it below its [d] arguments, call it: VM.c:376-384, 411-419, 783-790, 841-850 *)
Definition call_method (s : vstate) (h : heap) (f : value) (d : nat) (nret : Z) : hres :=
  then_ h (push s f) (fun s =>
    let s := set_stk s (shift_down d (v_stk s)) in
    h_init_call s h (sp s - Z.of_nat d) nret (fun s => h_call s h)).

(** [vm_GET_helper2], [lookup2], VM.c:777-795, 820-838. *)
Definition exec_get (s : vstate) (h : heap) : hres :=
  match v_stk s with
  | k :: c :: rest =>
      let own :=
        match c with
        | VTable p => lifth s h (search h p k) (fun r => match r with
            | Some v => HNext (set_stk s (v :: rest)) h
            | None => HStop (Err EValue) s h end)
        | _ => HStop (Err EValue) s h
        end in
      lifth s h (metatable h c) (fun m =>
        match m with
        | None => own
        | Some mt =>
          lifth s h (search h mt k) (fun r =>
            match r with
            | Some v => HNext (set_stk s (v :: rest)) h
            | None =>
              lifth s h (search h mt (VStr n_get)) (fun r =>
                match r with
                | Some f => call_method s h f 2 1
                | None => own
                end)
            end)
        end)
  | _ => HStop UB s h
  end.
(** a method of the value [v] for an operator, or a type error; [vm_lookup_method_throwing] needs one slot *)
Definition operator (s : vstate) (h : heap) (v : value) (x : list Z) (d : nat) (nret : Z) : hres :=
  then_ h (push s v) (fun _ =>
    lifth s h (method h v x) (fun m =>
      match m with
      | None => HStop (Err EType) s h
      | Some f => call_method s h f d nret
      end)).
(** [vm_SET], VM.c:841-850. *)
Definition exec_set (s : vstate) (h : heap) : hres :=
  match v_stk s with v :: k :: c :: _ => operator s h c n_set 3 0 | _ => HStop UB s h end.
(** [vm_len_unop], VM.c:480-487, when the operand is not a string. *)
Definition exec_len (s : vstate) (h : heap) : hres :=
  match v_stk s with v :: _ => operator s h v n_len 1 1 | _ => HStop UB s h end.

(** O_NEWLIST, VM.c:1506-1519: the values above the END marker. *)
Fixpoint above_end (stk : list value) : option (list value * list value) :=
  match stk with [] => None | VEnd :: r => Some ([], r) | v :: r => match above_end r with Some (a, b) => Some (v :: a, b) | None => None end end.
Definition exec_newlist (s : vstate) (h : heap) : hres :=
  match above_end (v_stk s) with
  | None => HStop UB s h
  | Some (items, rest) => let (h', l) := new_list h (rev items) in HNext (set_stk s (l :: rest)) h'
  end.
(** O_NEWTABLE, VM.c:1485-1505: pairs are taken from the top, so the last pair of the literal first; undef values are skipped. *)
Fixpoint newtable_loop (stk : list value) (t : table) : outcome (table * list value) :=
  match stk with
  | [] => UB
  | VEnd :: r => Ok (t, r)
  | v :: r =>
      match r with
      | [] => UB
      | k :: r' =>
          if is_undef v then newtable_loop r' t
          else do x <- table_insert fuel t k v;
               match x with Some t' => newtable_loop r' t' | None => Err EType end
      end
  end.
Definition exec_newtable (s : vstate) (h : heap) : hres :=
  lifth s h (do t <- table_new; newtable_loop (v_stk s) t) (fun '(t, rest) =>
    let (h', v) := new_tab h t (Some MT_TABLE) in HNext (set_stk s (v :: rest)) h').

(** [lookup], [vm_GET_helper], VM.c:762-775, 797-818, for the name of a method: the receiver has been popped (a copy of it is
    below). A __get of the metatable is called at once with the receiver and the name. *)
Definition get_named (s : vstate) (h : heap) (v : value) (k : value) (f : vstate -> heap -> hres) : hres :=
  let own :=
    match v with
    | VTable p => lifth s h (search h p k) (fun r => match r with Some u => then_ h (push s u) (fun s => f s h) | None => HStop (Err EValue) s h end)
    | _ => HStop (Err EValue) s h
    end in
  lifth s h (metatable h v) (fun m =>
    match m with
    | None => own
    | Some mt =>
      lifth s h (search h mt k) (fun r =>
        match r with
        | Some u => then_ h (push s u) (fun s => f s h)
        | None =>
          lifth s h (search h mt (VStr n_get)) (fun r =>
            match r with
            | Some (VCfn id) =>
                then_ h (push s (VCfn id)) (fun s =>
                h_init_call s h (sp s) 1 (fun s =>
                then_ h (push s v) (fun s => then_ h (push s k) (fun s =>
                match h_call s h with HNext s h => f s h | r => r end))))
            | Some _ => HOut
            | None => own
            end)
        end)
    end).
(** [vm_INIT_MC], VM.c:1214-1221. *)
Definition exec_init_mc (s : vstate) (h : heap) : hres :=
  match rd1 P s (fun b s => Next s) with
  | Next s1 =>
    match nthZ (p_code P) (v_pc s), v_stk s1 with
    | Some b, v :: _ =>
      then_ h (push s1 v) (fun _ =>
      match read8 (p_code P) (v_pc s1) with
      | Ok c =>
        let s2 := set_pc s1 (v_pc s1 + 8) in
        match nthZ (p_consts P) c with
        | None => HStop UB s2 h
        | Some k =>
          get_named s2 h v k (fun s h =>
            match v_stk s with
            | m :: v :: rest =>
                let s := set_stk s (v :: m :: rest) in
                h_init_call s h (sp s - 1) (schar b) (fun s => HNext s h)
            | _ => HStop UB s h
            end)
        end
      | _ => HStop UB s1 h
      end)
    | _, _ => HStop UB s1 h
    end
  | r => with_heap h r
  end.

(** The metamethod of an operator is looked up in the metatable of the left operand, VM.c:312-330, 370-421, 424-437, 455-470,
    520-546; a method that is found is outside the model here (list + and table | are below). Except in comparisons, which pop both
    operands first, the lookup needs a slot. *)
Definition meta_op (slot : bool) (names : list (list Z)) (s : vstate) (h : heap) (code : Z) (a : value) : outcome value :=
  let lookup := match nthZ names code with
                | None => NoFuel
                | Some x => do m <- method h a x; match m with None => Err EType | Some _ => NoFuel end
                end in
  if slot then need1 (room s) (fun _ => lookup) else lookup.
(** What the instructions of VM.v take from outside, at this state: texts, equality of containers, the elements of lists and
    the keys of tables. *)
Definition world_at (s : vstate) (h : heap) : world :=
  World (w_pow w)
    (fun code a b => if code =? binop_code BEq then omap VBool (heap_eq (room s) (free_frames s) h a b) else meta_op (code <? binop_code BGt) op_names2 s h code a)
    (fun code a => meta_op true op_names1 s h code a)
    (stringify (room s) (free_frames s) h)
    (w_strid w).
Definition prog_at (s : vstate) (h : heap) : prog :=
  Prog (p_code P) (p_consts P) (world_at s h)
    (fun p => match hp_list h p with Some xs => xs | None => [] end)
    (fun _ => []).                                                 (* not used: [iter_tab] *)
Definition is_container (v : value) : bool := match v with VList _ | VTable _ => true | _ => false end.
(** The binary operators whose built-in methods make new objects: list + and table |; VM.c:370-385, 400-421. *)
Definition op_name (o : binop) : option (list Z) := match o with BAdd => Some n_add | BOr => Some n_bor | _ => None end.
(** [vm_ITER_1] on a table, VM.c:888-901: the loop counter is a slot of the table. When there is none left the C code also moves
    the counter to the end; the loop is over then. *)
Definition iter_tab (s : vstate) (h : heap) (p i : Z) (rest : list (value * Z)) : hres :=
  lifth s h (tab_at h p) (fun t =>
    match iter_table t i with
    | None => with_heap h (push s (VBool false))
    | Some (k, i') => then_ h (push (set_loops s ((VTable p, i') :: rest)) k) (fun s => with_heap h (push s (VBool true)))
    end).
(** A conversion to a string happens with the value on the stack; [room] is counted there. *)
Definition h_step (s : vstate) (h : heap) : hres :=
  match nthZ (p_code P) (v_pc s) with
  | None => HStop UB s h
  | Some b =>
    let s1 := set_pc s (v_pc s + 1) in
    match op_of_byte b with
    | Some O_NEWLIST => exec_newlist s1 h
    | Some O_NEWTABLE => exec_newtable s1 h
    | Some O_GET => exec_get s1 h
    | Some O_SET => exec_set s1 h
    | Some O_INIT_MC => exec_init_mc s1 h
    | Some O_CALL => h_call s1 h
    | Some (O_UN ULen) => match v_stk s1 with VStr _ :: _ => with_heap h (step (prog_at s h) s) | _ => exec_len s1 h end
    | Some (O_BIN o) =>
        match op_name o, v_stk s1 with
        | Some x, b :: a :: _ => if is_container a then operator s1 h a x 2 1 else with_heap h (step (prog_at s h) s)
        | _, _ => with_heap h (step (prog_at s h) s)
        end
    | Some O_ITER_1 => match v_loops s1 with (VTable p, i) :: rest => iter_tab s1 h p i rest | _ => with_heap h (step (prog_at s h) s) end
    | _ => with_heap h (step (prog_at s h) s)
    end
  end.
Fixpoint h_run (n : nat) (s : vstate) (h : heap) : hres :=
  match n with O => HNext s h | S n' => match h_step s h with HNext s h => h_run n' s h | r => r end end.
End Program.
End Heap.
