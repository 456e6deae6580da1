(** * What the embedding API promises (/repo/yasl.h), on an abstract state: a stack of values (top first), sequences,
    finite maps as association lists without repeated keys. No arrays, hashing or stack pointers. *)
From Verif Require Import Base Value ValueProofs Table TableSpec Lists ListSpec Api.

Record host : Type := Host {
  h_stack : list value; h_frame : Z;                       (* h_frame: position, counted from the bottom, of argument 0 *)
  h_lists : Z -> option (list value); h_tables : Z -> option (list (value * value)); h_mt : Z -> option Z;
  h_globals : list (value * value); h_mts : list (value * value); h_decl : aname -> bool;
  h_next : Z; h_run : bool }.

Definition with_stack (a : host) (st : list value) : host :=
  Host st (h_frame a) (h_lists a) (h_tables a) (h_mt a) (h_globals a) (h_mts a) (h_decl a) (h_next a) (h_run a).
Definition with_list (a : host) (p : Z) (xs : list value) : host :=
  Host (h_stack a) (h_frame a) (at_addr (h_lists a) p xs) (h_tables a) (h_mt a) (h_globals a) (h_mts a) (h_decl a) (h_next a) (h_run a).
Definition with_table (a : host) (p : Z) (m : list (value * value)) : host :=
  Host (h_stack a) (h_frame a) (h_lists a) (at_addr (h_tables a) p m) (h_mt a) (h_globals a) (h_mts a) (h_decl a) (h_next a) (h_run a).
Definition with_mt (a : host) (p q : Z) : host :=
  Host (h_stack a) (h_frame a) (h_lists a) (h_tables a) (at_addr (h_mt a) p q) (h_globals a) (h_mts a) (h_decl a) (h_next a) (h_run a).
Definition with_globals (a : host) (g : list (value * value)) : host :=
  Host (h_stack a) (h_frame a) (h_lists a) (h_tables a) (h_mt a) g (h_mts a) (h_decl a) (h_next a) (h_run a).
Definition with_mts (a : host) (g : list (value * value)) : host :=
  Host (h_stack a) (h_frame a) (h_lists a) (h_tables a) (h_mt a) (h_globals a) g (h_decl a) (h_next a) (h_run a).
Definition with_decl (a : host) (x : aname) : host :=
  Host (h_stack a) (h_frame a) (h_lists a) (h_tables a) (h_mt a) (h_globals a) (h_mts a)
    (fun y => if list_eq_dec Z.eq_dec y x then true else h_decl a y) (h_next a) (h_run a).
Definition with_next (a : host) : host :=
  Host (h_stack a) (h_frame a) (h_lists a) (h_tables a) (h_mt a) (h_globals a) (h_mts a) (h_decl a) (h_next a + 1) (h_run a).
Definition with_frame (a : host) (f : Z) : host :=
  Host (h_stack a) f (h_lists a) (h_tables a) (h_mt a) (h_globals a) (h_mts a) (h_decl a) (h_next a) (h_run a).

(** Finite maps. *)
Fixpoint find (k : value) (m : list (value * value)) : option value :=
  match m with [] => None | (k', v) :: r => if value_eq_dec k k' then Some v else find k r end.
Fixpoint put (k v : value) (m : list (value * value)) : list (value * value) :=
  match m with
  | [] => [(k, v)]
  | (k', v') :: r => if value_eq_dec k k' then (k, v) :: r else (k', v') :: put k v r
  end.
Definition good_keyb (k : value) : bool :=
  match k with
  | VBool _ | VInt _ | VStr _ | VUserPtr _ => true
  | VFloat S754_nan | VFloat (S754_zero true) => false
  | VFloat _ => true
  | _ => false
  end.

(** [HOk a r]: the call returns [r] in state [a]. [HErr e]: it raises the error [e]. [HNot]: not promised (operand
    missing on the stack, an error outside any running program) or a promise the code breaks (the [_refuted] theorems
    of PropApi.v). *)
Inductive hout : Type := HOk (a : host) (r : hres) | HErr (e : yerr) | HNot.
Definition raise (a : host) (e : yerr) : hout := if h_run a then HErr e else HNot.
(** Pushing, on a stack of at most 1024 values. *)
Definition pushing (a : host) (v : value) (r : hres) : hout :=
  if Z.of_nat (length (h_stack a)) <? 1024 then HOk (with_stack a (v :: h_stack a)) r else raise a EStackOverflow.
Definition has_kind (k : kind) (v : value) : bool :=
  match k, v with
  | KUndef, VUndef | KBool, VBool _ | KFloat, VFloat _ | KInt, VInt _ | KStr, VStr _ | KList, VList _ | KTable, VTable _ => true
  | _, _ => false
  end.
Definition arg (a : host) (n : Z) : option value :=
  if n <? 0 then None
  else if h_frame a + n <? 0 then None
  else nth_error (rev (h_stack a)) (Z.to_nat (h_frame a + n)).
Definition top (a : host) : option value := match h_stack a with v :: _ => Some v | [] => None end.
Definition reading (a : host) (x : option value) (f : value -> hres) : hout :=
  match x with Some v => HOk a (f v) | None => HNot end.
(** The pop functions promise to remove the top whatever it is; the code keeps the promise when the type is right. *)
Definition popping (a : host) (f : value -> option hres) : hout :=
  match h_stack a with v :: st => match f v with Some r => HOk (with_stack a st) r | None => HNot end | [] => HNot end.
(** A plain value a host can push. *)
Definition plain (v : value) : bool := match v with VUndef | VBool _ | VInt _ | VFloat _ | VStr _ | VUserPtr _ => true | _ => false end.

(** [len] of a list or table calls [__len]: not promised here with a replaced metatable or an almost full stack. *)
Definition len_room (a : host) (p : Z) : bool :=
  match h_mt a p with None => Z.of_nat (length (h_stack a)) <? 1000 | Some _ => false end.

Definition promise (a : host) (o : hop) : hout :=
  match o with
  | HPush v => if plain v then pushing a v RUnit else HNot
  | HPushList => pushing (with_next (with_list a (h_next a) [])) (VList (h_next a)) RUnit
  | HPushTable => pushing (with_next (with_table a (h_next a) [])) (VTable (h_next a)) RUnit
  | HPop => popping a (fun _ => Some RUnit)
  | HDup => match top a with Some v => pushing a v (RStatus Success) | None => HNot end
  | HIs k => reading a (top a) (fun v => RBool (has_kind k v))
  | HIsN k n => reading a (arg a n) (fun v => RBool (has_kind k v))
  | HPeekBool => reading a (top a) (fun v => RBool (match v with VBool b => b | _ => false end))
  | HPeekFloat => reading a (top a) (fun v => RFloat (match v with VFloat f => f | _ => S754_zero false end))
  | HPeekInt => reading a (top a) (fun v => RInt (match v with VInt i => i | _ => 0 end))
  | HPeekNBool n => reading a (arg a n) (fun v => RBool (match v with VBool b => b | _ => false end))
  | HPeekNFloat n => reading a (arg a n) (fun v => RFloat (match v with VFloat f => f | _ => S754_zero false end))
  | HPeekNInt n => reading a (arg a n) (fun v => RInt (match v with VInt i => i | _ => 0 end))
  | HPeekCstr => reading a (top a) (fun v => RCstr (match v with VStr x => Some (x ++ [0]) | _ => None end))
  | HPopBool => popping a (fun v => match v with VBool b => Some (RBool b) | _ => None end)
  | HPopFloat => popping a (fun v => match v with VFloat f => Some (RFloat f) | _ => None end)
  | HPopInt => popping a (fun v => match v with VInt i => Some (RInt i) | _ => None end)
  | HPopCstr => popping a (fun v => Some (RCstr (match v with VStr x => Some (x ++ [0]) | _ => None end)))
  | HListPush =>
      match h_stack a with
      | v :: VList p :: st =>
          match h_lists a p with
          | Some xs => HOk (with_list (with_stack a (VList p :: st)) p (xs ++ [v])) (RStatus Success)
          | None => HNot
          end
      | v :: w :: st => HOk (with_stack a (w :: st)) (RStatus (Failure EType))
      | _ => HNot
      end
  | HListGet n =>
      match h_stack a with
      | VList p :: _ =>
          match h_lists a p with
          | Some xs => match position (length xs) n with
                       | Some i => pushing a (nth i xs VUndef) (RStatus Success)
                       | None => raise a EValue
                       end
          | None => HNot
          end
      | _ :: _ => HOk a (RStatus (Failure EType))
      | [] => HNot
      end
  | HTableSet =>
      match h_stack a with
      | v :: k :: VTable p :: st =>
          let a' := with_stack a (VTable p :: st) in
          match h_tables a p with
          | Some m =>
              if good_keyb k then
                match v with
                | VUndef | VEnd => HNot
                | _ => HOk (with_table a' p (put k v m)) (RStatus Success)
                end
              else match k with
                   | VUndef | VFloat _ => HNot
                   | _ => HOk a' (RStatus (Failure EType))
                   end
          | None => HNot
          end
      | v :: k :: w :: st => HOk (with_stack a (w :: st)) (RStatus (Failure EType))
      | _ => HNot
      end
  | HLen =>
      match h_stack a with
      | VStr x :: st => HOk (with_stack a (VInt (Z.of_nat (length x)) :: st)) RUnit
      | VList p :: st =>
          match h_lists a p with
          | Some xs => if len_room a p then HOk (with_stack a (VInt (Z.of_nat (length xs)) :: st)) RUnit else HNot
          | None => HNot
          end
      | VTable p :: st =>
          match h_tables a p with
          | Some m => if len_room a p then HOk (with_stack a (VInt (Z.of_nat (length m)) :: st)) RUnit else HNot
          | None => HNot
          end
      | _ :: _ => raise a EType
      | [] => HNot
      end
  | HDecl x => HOk (with_decl a x) (RStatus Success)
  | HSetGlobal x =>
      if h_decl a x then
        match h_stack a with
        | VUndef :: _ | VEnd :: _ | [] => HNot
        | v :: st => HOk (with_globals (with_stack a st) (put (VStr x) v (h_globals a))) (RStatus Success)
        end
      else HOk a (RStatus (Failure EError))
  | HLoadGlobal x =>
      match find (VStr x) (h_globals a) with
      | Some v => pushing a v (RStatus Success)
      | None => HOk a (RStatus (Failure EError))
      end
  | HRegisterMt x =>
      match h_stack a with
      | VUndef :: _ | VEnd :: _ | [] => HNot
      | v :: st => HOk (with_mts (with_stack a st) (put (VStr x) v (h_mts a))) (RStatus Success)
      end
  | HLoadMt x =>
      match find (VStr x) (h_mts a) with
      | Some v => pushing a v (RStatus Success)
      | None => HOk a (RStatus (Failure EError))
      end
  | HSetMt =>
      match h_stack a with
      | VTable q :: w :: st =>
          match w with
          | VTable p | VList p | VUserData p => HOk (with_mt (with_stack a (w :: st)) p q) (RStatus Success)
          | _ => HOk (with_stack a (w :: st)) (RStatus (Failure EType))
          end
      | [] | VUndef :: _ | [VTable _] => HNot
      | _ :: _ => HOk a (RStatus (Failure EType))
      end
  | HFrame n => if (0 <=? n) && (n <=? Z.of_nat (length (h_stack a)))
                then HOk (with_frame a (Z.of_nat (length (h_stack a)) - n)) RUnit else HNot
  end.

Inductive houts : Type := HsOk (a : host) (rs : list hres) | HsErr (e : yerr) | HsNot.
Fixpoint promises (a : host) (ops : list hop) : houts :=
  match ops with
  | [] => HsOk a []
  | o :: ops' =>
      match promise a o with
      | HOk a' r => match promises a' ops' with HsOk a'' rs => HsOk a'' (r :: rs) | x => x end
      | HErr e => HsErr e
      | HNot => HsNot
      end
  end.
Definition host_new (run : bool) : host :=
  Host [] 0 (fun _ => None) (fun _ => None) (fun _ => None) [] [] (fun _ => false) 1 run.

(** What a state of the implementation shows of an abstract state: the values up to [sp], the contents of the lists, the
    lookups and lengths of the tables, the globals and metatables. *)
Definition stack_shows (s : api) (st : list value) : Prop :=
  a_sp s + 1 = Z.of_nat (length st) /\ (length st <= length (a_slots s))%nat /\
  forall i, (i < length st)%nat -> nth_error (a_slots s) i = nth_error (rev st) i.
Definition table_shows (fuel : nat) (t : table) (m : list (value * value)) : Prop :=
  table_length t = Z.of_nat (length m) /\
  forall k, good_key k -> table_search fuel t k = Ok (match find k m with Some v => v | None => VEnd end).
Definition shows (fuel : nat) (s : api) (a : host) : Prop :=
  stack_shows s (h_stack a) /\ a_fp s + 1 = h_frame a /\
  (forall p xs, h_lists a p = Some xs -> exists l, a_lists s p = Some l /\ list_elements l = Ok xs) /\
  (forall p m, h_tables a p = Some m -> exists t, a_tables s p = Some t /\ table_shows fuel t m) /\
  (forall p, a_mt s p = h_mt a p) /\
  table_shows fuel (a_globals s) (h_globals a) /\ table_shows fuel (a_mts s) (h_mts a).
