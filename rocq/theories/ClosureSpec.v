(** * What captured variables mean (specification): a closure and a slot hold the same variable; a variable lives as long
    as a closure or a slot refers to it. *)
From Verif Require Import Base Value VM Closures.

(** [a_vars]: the variable of each stack slot, bottom first; [a_val]: its value; [a_caps]: the variable of each capture. *)
Record vars : Type := Vars { a_vars : list nat; a_val : nat -> value; a_next : nat; a_caps : list nat }.
Definition no_vars : vars := Vars [] (fun _ => VUndef) 0 [].
Definition assign (a : vars) (c : nat) (v : value) : vars := Vars (a_vars a) (fun x => if (x =? c)%nat then v else a_val a x) (a_next a) (a_caps a).
Definition astep (a : vars) (o : uop) : option (vars * option value) :=
  match o with
  | UPush v => Some (Vars (a_vars a ++ [a_next a]) (fun x => if (x =? a_next a)%nat then v else a_val a x) (S (a_next a)) (a_caps a), None)
  | UPop => match a_vars a with [] => None | _ => Some (Vars (removelast (a_vars a)) (a_val a) (a_next a) (a_caps a), None) end
  | ULoad i => option_map (fun c => (a, Some (a_val a c))) (nth_error (a_vars a) i)
  | UStore i v => option_map (fun c => (assign a c v, None)) (nth_error (a_vars a) i)
  | UCapture i => option_map (fun c => (Vars (a_vars a) (a_val a) (a_next a) (a_caps a ++ [c]), None)) (nth_error (a_vars a) i)
  | UGet h => option_map (fun c => (a, Some (a_val a c))) (nth_error (a_caps a) h)
  | USet h v => option_map (fun c => (assign a c v, None)) (nth_error (a_caps a) h)
  | UReturn fp => Some (Vars (firstn fp (a_vars a)) (a_val a) (a_next a) (a_caps a), None)
  end.
Fixpoint arun (a : vars) (ops : list uop) : option (list (option value)) :=
  match ops with
  | [] => Some []
  | o :: r => match astep a o with Some (a', x) => option_map (cons x) (arun a' r) | None => None end
  end.

(** The histories the theorem covers: a slot holding a captured variable is dropped only by a return, and a variable
    captured for the first time lies below every slot whose variable is captured already. *)
Definition captured (a : vars) (i : nat) : bool :=
  match nth_error (a_vars a) i with Some c => existsb (Nat.eqb c) (a_caps a) | None => false end.
Definition covered1 (a : vars) (o : uop) : bool :=
  match o with
  | UPop => negb (captured a (length (a_vars a) - 1))
  | UCapture i => captured a i || forallb (fun j => negb (captured a j)) (seq 0 i)
  | _ => true
  end.
Fixpoint covered (a : vars) (ops : list uop) : bool :=
  match ops with
  | [] => true
  | o :: r => covered1 a o && match astep a o with Some (a', _) => covered a' r | None => true end
  end.
