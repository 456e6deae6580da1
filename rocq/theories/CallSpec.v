(** * What a call means (specification; independent of the machine). *)
From Verif Require Import Base Value.

(** Exactly [n] values: the first [n] of [vs], missing ones undef. *)
Definition fit (n : nat) (vs : list value) : list value := firstn n vs ++ repeat VUndef (n - length vs).
(** What a caller that wants [nret] results receives ([-1]: all of them). *)
Definition delivered (nret : Z) (results : list value) : list value := if nret <? 0 then results else fit (Z.to_nat nret) results.
(** What a variadic host function with [fixed] named arguments sees: those, the number of the others, the others. *)
Definition variadic_view (fixed : nat) (args : list value) : list value :=
  firstn fixed args ++ VInt (Z.of_nat (length args - fixed)) :: skipn fixed args.
