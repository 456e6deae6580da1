(** * Equality and text of lists and tables: specification. No stack, frames, metatables, buffers or hash tables. *)
From Coq Require Import Permutation.
From Verif Require Import Base Value ValueProofs Text Ops HeapSpec.
Local Open Scope list_scope.

(** ** Equality to a depth of [n] nested containers; [None]: nested deeper, or an object that is not there. *)
Fixpoint all_of (l : list (option bool)) : option bool :=
  match l with
  | [] => Some true
  | x :: r => match x, all_of r with Some b, Some c => Some (b && c) | _, _ => None end
  end.
Fixpoint equals (m : mem) (n : nat) (a b : value) {struct n} : option bool :=
  match a, b with
  | VList p, VList q =>
      match n, m_list m p, m_list m q with
      | S n', Some xs, Some ys =>
          if (length xs =? length ys)%nat then all_of (map (fun xy => equals m n' (fst xy) (snd xy)) (combine xs ys)) else Some false
      | _, _, _ => None
      end
  | VTable p, VTable q =>
      match n, m_tab m p, m_tab m q with
      | S n', Some l, Some r =>
          if (length l =? length r)%nat
          then all_of (map (fun kv => match at_key r (fst kv) with Some v => equals m n' (snd kv) v | None => Some false end) l) else Some false
      | _, _, _ => None
      end
  | VUserData _, VUserData _ => None
  | _, _ => Some (is_equal a b)                                     (* anything else: C09 *)
  end.

(** ** Text. Containers that contain themselves are shown as [...] and {...} where they recur. The order of the entries of a
    table is left open. *)
(** undef, bools, ints, strings; the text of floats comes from the C library *)
Definition atom_text (w : world) (v : value) (t : list Z) : Prop :=
  prim_tostr v = Some t \/ exists f, v = VFloat f /\ w_tostr w v = Ok t.
Definition inside_list : list Z := [91; 46; 46; 46; 93].             (* [...] *)
Definition inside_table : list Z := [123; 46; 46; 46; 125].          (* {...} *)
Fixpoint commas (ts : list (list Z)) : list Z :=
  match ts with [] => [] | [t] => t | t :: r => t ++ [44; 32] ++ commas r end.
(** [around]: the containers being shown *)
Inductive shown (w : world) (m : mem) : list Z -> value -> list Z -> Prop :=
| ShAtom around v t : atom_text w v t -> shown w m around v t
| ShListIn around p : In p around -> shown w m around (VList p) inside_list
| ShTableIn around p : In p around -> shown w m around (VTable p) inside_table
| ShList around p xs ts : ~ In p around -> m_list m p = Some xs -> Forall2 (shown w m (p :: around)) xs ts ->
    shown w m around (VList p) ([91] ++ commas ts ++ [93])
| ShTable around p kv kv' ts : ~ In p around -> m_tab m p = Some kv -> Permutation kv kv' -> Forall2 (shown_entry w m (p :: around)) kv' ts ->
    shown w m around (VTable p) ([123] ++ commas ts ++ [125])
with shown_entry (w : world) (m : mem) : list Z -> value * value -> list Z -> Prop :=
| ShEntry around k v tk tv : atom_text w k tk -> shown w m around v tv -> shown_entry w m around (k, v) (tk ++ [58; 32] ++ tv).

(** Everything in [v] can be shown, with at most [n] containers inside each other. *)
Definition is_atom (v : value) : bool := match v with VUndef | VBool _ | VInt _ | VFloat _ | VStr _ => true | _ => false end.
Fixpoint nested_below (m : mem) (n : nat) (around : list Z) (v : value) {struct n} : bool :=
  match v with
  | VList p => if in_dec Z.eq_dec p around then true else
      match n, m_list m p with S n', Some xs => forallb (nested_below m n' (p :: around)) xs | _, _ => false end
  | VTable p => if in_dec Z.eq_dec p around then true else
      match n, m_tab m p with S n', Some kv => forallb (fun e => is_atom (fst e) && nested_below m n' (p :: around) (snd e)) kv | _, _ => false end
  | _ => is_atom v
  end.
(** Memory in which every container holds atoms and containers that are there. *)
Definition there (m : mem) (v : value) : Prop :=
  match v with VList p => m_list m p <> None | VTable p => m_tab m p <> None | _ => is_atom v = true end.
Record complete (m : mem) : Prop := {
  c_lists : forall p xs, m_list m p = Some xs -> 16 <= p < m_next m /\ Forall (there m) xs;
  c_tables : forall p kv, m_tab m p = Some kv -> 16 <= p < m_next m /\ Forall (fun e => is_atom (fst e) = true /\ there m (snd e)) kv }.
(** the number of objects made so far *)
Definition objects (m : mem) : nat := Z.to_nat (m_next m - 16).

(** ** Operators. *)
(** The operators of ints, floats and strings, and type errors for everything else. *)
Definition strict (w : world) : world := World (w_pow w) (fun _ _ _ => Err EType) (fun _ _ => Err EType) (w_tostr w) (w_strid w).
(** [a o b] without the operators that look into containers *)
Definition plain_op (o : binop) (a : value) : bool :=
  match o, a with
  | BEq, _ | BCnct, _ => false
  | BAdd, VList _ => false
  | BOr, VTable _ => false
  | _, _ => true
  end.
Definition said_of (o : outcome value) : said value := match o with Ok v => Gives v | Err e => Raises e | _ => Unsaid end.
