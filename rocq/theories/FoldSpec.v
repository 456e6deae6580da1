(** Where folding is allowed to be judged by the run-time operators: outside [===]/[!==] on a float and a
    number, and [!] on NaN, when the operands contain no variable. *)
From Verif Require Import Base Value Ops Ast.

Definition float_pair (a b : value) : Prop :=
  (exists f, a = VFloat f /\ is_num b = true) \/ (exists f, b = VFloat f /\ is_num a = true).
(** No variable occurs. *)
Fixpoint constant (e : expr) : bool :=
  match e with
  | EVar _ => false
  | EUn _ e => constant e
  | EBin _ l r | ESc _ l r => constant l && constant r
  | ETri c a b => constant c && constant a && constant b
  | _ => true
  end.
Definition fold_guard (w : world) (rho : name -> outcome value) (e : expr) : Prop :=
  forall s, sub s e ->
    match s with
    | EBin (BOp BId) l r | EBin BNi l r =>
        constant l = true -> constant r = true -> forall a b, eval w rho l = Ok a -> eval w rho r = Ok b -> ~ float_pair a b
    | EUn UNot a => constant a = true -> eval w rho a <> Ok (VFloat S754_nan)
    | _ => True
    end.
