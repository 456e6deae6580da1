(** C24: constant folding. *)
From Verif Require Import Base Value Ops Ast Fold FoldSpec FoldProofs.

(** The folded expression has the same outcome (value with its type and bits, error, or undefined behaviour) as the
    original, for every environment and every behaviour of metamethods, [pow] and string conversion. Missing: [===] and
    [!==] on a float and a number, and [!] applied to a folded NaN (refuted below). *)
Theorem C24_fold_correct_partial : forall w rho e e',
  fold_guard w rho e -> fold e = Ok e' -> eval w rho e' = eval w rho e.
Proof. exact fold_correct. Qed.
Print Assumptions C24_fold_correct_partial.

(** Folding either succeeds or performs an undefined C operation; never an error. *)
Theorem C24_fold_total : forall e, (exists e', fold e = Ok e') \/ fold e = UB.
Proof. exact fold_total. Qed.
Print Assumptions C24_fold_total.

(** When the compiler hits undefined behaviour, some sub-expression would hit it at run time. *)
Theorem C24_fold_ub_has_cause : forall w rho e, fold_guard w rho e -> fold e = UB ->
  exists s, sub s e /\ eval w rho s = UB.
Proof. exact fold_ub_has_cause. Qed.
Print Assumptions C24_fold_ub_has_cause.

(** ... but it may be dead code: [false && (1 << 64)] is false at run time, undefined at compile time. *)
Theorem C24_dead_code_refuted : exists e v, (forall w rho, eval w rho e = Ok v) /\ fold e = UB.
Proof.
  exists (ESc SAnd (EBool false) (EBin (BOp BShl) (EInt 1) (EInt 64))), (VBool false).
  split; [intros; reflexivity|vm_compute; reflexivity].
Qed.
Print Assumptions C24_dead_code_refuted.

(** [1 === 1.0] is false at run time and folded to true. *)
Theorem C24_identity_refuted : exists e e' v, fold e = Ok e' /\
  (forall w rho, eval w rho e = Ok (VBool false) /\ eval w rho e' = Ok v) /\ v <> VBool false.
Proof.
  exists (EBin (BOp BId) (EInt 1) (EFloat (f_of_int 1))). eexists. exists (VBool true).
  split; [vm_compute; reflexivity|]. split; [intros; split; reflexivity|discriminate].
Qed.
Print Assumptions C24_identity_refuted.

(** [!(0.0 / 0.0)] is true at run time (NaN is false) and folded to false. *)
Theorem C24_not_nan_refuted : exists e e' v, fold e = Ok e' /\
  (forall w rho, eval w rho e = Ok (VBool true) /\ eval w rho e' = Ok v) /\ v <> VBool true.
Proof.
  exists (EUn UNot (EBin (BOp BFdiv) (EFloat (S754_zero false)) (EFloat (S754_zero false)))). eexists. exists (VBool false).
  split; [vm_compute; reflexivity|]. split; [intros; split; vm_compute; reflexivity|discriminate].
Qed.
Print Assumptions C24_not_nan_refuted.

(** -(3 + 4) * 2.0 < x: guard met, folds to -14.0 < x. *)
Example C24_nonvacuous : let e := EBin (BOp BLt) (EBin (BOp BMul) (EUn UNeg (EBin (BOp BAdd) (EInt 3) (EInt 4))) (EFloat (f_of_int 2))) (EVar [120]) in
  (forall w rho, fold_guard w rho e) /\ fold e = Ok (EBin (BOp BLt) (EFloat (f_of_int (-14))) (EVar [120])).
Proof.
  split; [|vm_compute; reflexivity]. intros w rho s H.
  repeat match goal with H : sub _ _ |- _ => inversion H; clear H; subst; try exact I end.
Qed.
(** Division by a literal zero is left to raise its error at run time. *)
Example C24_div_zero_kept : fold (EBin (BOp BIdiv) (EInt 1) (EInt 0)) = Ok (EBin (BOp BIdiv) (EInt 1) (EInt 0))
  /\ fold (EBin (BOp BMod) (EInt 1) (EInt 0)) = Ok (EBin (BOp BMod) (EInt 1) (EInt 0)).
Proof. split; reflexivity. Qed.
