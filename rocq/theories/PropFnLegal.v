(** * C59: which programs with functions the compiler accepts. *)
From Verif Require Import Base Bytes Value Table Ops Ast Stmt Limits Constants VM Compiler ValueProofs TableSpec TableProofs TableProofs2 TableProofs3 ConstSpec ConstProofs Gen Program ProgProofs CompSpec TotalProofs.
From Verif Require Import Lexer LexSpec Tree TreeParser TreeSpec TreeExact PropTree.
From Verif Require Import Fn FnSpec FnCompiler FnLegal FnTotal FnSource FnFold FnWritten PropFn PropFnSource.
From Verif Require Import LexSpec.

(** ** C59. Within the fixed limits (at most 255 variables at a time in each function, at most 2^29 constants) a program with functions,
    closures, returns and constants is accepted if every name in it is used as it was declared, and rejected as a syntax error if not. *)
Theorem C59_accepts : forall fuel gs pr lines, FUEL_BOUND <= Z.of_nat fuel -> Forall (fun x => literal (VStr x)) gs -> Forall literal (flits_s (fbody pr)) ->
  Z.of_nat (length gs) + Z.of_nat (length (flits_s (fbody pr))) <= 2 ^ 29 -> (fpeak 0 (fbody pr) <= 255)%nat -> narrow_s 255 (fbody pr) = true ->
  flegal_program gs (fbody pr) = true -> exists bytes, fcompile_program fuel gs pr lines = Ok bytes.
Proof. intros fuel gs pr lines Hf Fg Fl Sm Pk N L. pose proof (verdict fuel gs pr lines Hf Fg Fl Sm Pk N) as V. rewrite L in V. exact V. Qed.
Print Assumptions C59_accepts.
Theorem C59_rejects : forall fuel gs pr lines, FUEL_BOUND <= Z.of_nat fuel -> Forall (fun x => literal (VStr x)) gs -> Forall literal (flits_s (fbody pr)) ->
  Z.of_nat (length gs) + Z.of_nat (length (flits_s (fbody pr))) <= 2 ^ 29 -> (fpeak 0 (fbody pr) <= 255)%nat -> narrow_s 255 (fbody pr) = true ->
  flegal_program gs (fbody pr) = false -> fcompile_program fuel gs pr lines = Err ESyntax.
Proof. intros fuel gs pr lines Hf Fg Fl Sm Pk N L. pose proof (verdict fuel gs pr lines Hf Fg Fl Sm Pk N) as V. rewrite L in V. exact V. Qed.
Print Assumptions C59_rejects.

(** Concrete cases: the program [counted] of PropFn.v meets the conditions and is legal ... *)
Lemma C59_example : Forall literal (flits_s (fbody counted)) /\ 0 + Z.of_nat (length (flits_s (fbody counted))) <= 2 ^ 29 /\ (fpeak 0 (fbody counted) <= 255)%nat /\ narrow_s 255 (fbody counted) = true /\ flegal_program [] (fbody counted) = true.
Proof. split; [repeat constructor; cbn; unfold in_i64, int_min, int_max; lia|]. repeat split; vm_compute; first [reflexivity|discriminate|repeat constructor]. Qed.
(** ... and these are not: assigning a constant of the surrounding function, returning from no function, declaring a parameter again, using a
    variable of a function outside it, using a variable before its declaration. Each is rejected. *)
Definition not_legal : list (list fstmt) :=
  [ [FFnDecl false nf 0%nat [(nx, true)] (FExpr (FCall (FFn 1%nat [] (FAssign nx (FInt 1))) ANil))];
    [FLet false nx (FInt 1); FIf (FVar nx) (ret (FVar nx))];
    [FFnDecl false nf 0%nat [(nx, false)] (FLet false nx (FInt 1))];
    [FFnDecl false nf 0%nat [] (FLet false nx (FInt 1)); FEcho (FVar nx)];
    [FFnDecl false nf 0%nat [] (ret (FVar nx)); FLet false nx (FInt 1)] ].
Lemma C59_example_rejected : forall fuel pr, FUEL_BOUND <= Z.of_nat fuel -> In pr not_legal -> fcompile_program fuel [] pr [] = Err ESyntax.
Proof.
  intros fuel pr Hf H. cbn in H. repeat destruct H as [<-|H]; [..|destruct H];
    (apply C59_rejects; [exact Hf|constructor|repeat constructor; cbn; unfold in_i64, int_min, int_max; lia|vm_compute; discriminate|vm_compute; repeat constructor|reflexivity|reflexivity]).
Qed.
(** The limit is 255 variables: a function with 255 parameters is accepted, one with 256 is not. *)
Definition params (n : nat) : list (name * bool) := map (fun i => ([97; Z.of_nat i], false)) (seq 0 n).
Theorem C59_limit : (exists bytes, fcompile_program 100 [] [FExpr (FFn 0%nat (params 255) FSkip)] [] = Ok bytes) /\ fcompile_program 100 [] [FExpr (FFn 0%nat (params 256) FSkip)] [] = Err ESyntax.
Proof. split; [|vm_compute; reflexivity]. destruct (fcompile_program 100 [] _ []) as [bytes| | |] eqn:E; [eauto|vm_compute in E; discriminate E..]. Qed.
Print Assumptions C59_limit.
(** Parameters with the same name are accepted, and then the variables of the function overlap: [fn f(x, x) { let y = 5; echo y; } f(1, 2);]
    prints 2, the second argument. *)
Theorem C59_same_params_refuted :
  printed [FFnDecl false nf 0%nat [(nx, false); (nx, false)] (FSeq (FLet false ny (FInt 5)) (FEcho (FVar ny))); FExpr (FCall (FVar nf) (ACons (FInt 1) (ACons (FInt 2) ANil)))] = Some (Ok tt, [50; 10]).
Proof. vm_compute. reflexivity. Qed.
Print Assumptions C59_same_params_refuted.

(** ** C58, continued: the text of a legal program is accepted. *)
Lemma lit_legal gs D q v : lit_f q = Some v -> flegal_e gs D q = true /\ narrow_e 255 q = true.
Proof. destruct q; try discriminate; auto. Qed.
Lemma g_legal gl : (forall e e', ge e e' -> (forall D, flegal_e gl D e = true -> flegal_e gl D e' = true) /\ (narrow_e 255 e = true -> narrow_e 255 e' = true)) /\
  (forall e e', gas e e' -> (forall D, flegal_args gl D e = true -> flegal_args gl D e' = true) /\ (narrow_args 255 e = true -> narrow_args 255 e' = true)) /\
  (forall s s', gs s s' -> (forall D f, flegal_s gl D f s = true -> flegal_s gl D f s' = true) /\ (forall D, fnames_after D s' = fnames_after D s) /\ (narrow_s 255 s = true -> narrow_s 255 s' = true) /\ (fdecls s' = fdecls s) /\ (forall d, fpeak d s' = fpeak d s)).
Proof.
  apply g_mind; intros;
    repeat match goal with H : lit_f _ = Some _ |- _ => pose proof (fun D => lit_legal gl D _ _ H); clear H end;
    repeat match goal with H : _ /\ _ |- _ => destruct H end;
    repeat match goal with |- _ /\ _ => split end; intros; cbn [flegal_e flegal_args flegal_s narrow_e narrow_args narrow_s fnames_after fdecls fpeak] in *;
    repeat match goal with H : forall D, fnames_after D _ = _ |- _ => rewrite H; clear H | H : forall d, fpeak d _ = _ |- _ => rewrite H; clear H | H : fdecls _ = fdecls _ |- _ => rewrite H; clear H end;
    rewrite ?andb_true_iff in *; try reflexivity; try solve [intuition auto].
  all: match goal with H : forall D, _ /\ _ |- _ => apply (H ltac:(first [assumption|exact []])) end.
Qed.
Lemma small_narrow M : (forall e, small_e M e = true -> narrow_e 255 e = true) /\ (forall e, small_args M e = true -> narrow_args 255 e = true) /\ (forall s, small_s M s = true -> narrow_s 255 s = true).
Proof.
  apply fn_ind; intros; cbn [small_e small_args small_s narrow_e narrow_args narrow_s] in *; unfold small_fn in *; rewrite ?andb_true_iff, ?Nat.leb_le in *; auto; intuition (auto; lia).
Qed.
Theorem C58_accepted_partial : forall strtod items last pr prf opr gs lines w ls ks M,
  well_written T_UNKNOWN items last -> sts_written strtod pr (map snd items) -> fold_l pr = Ok prf -> Forall2 is_fs pr opr -> forallb exact_s pr = true ->
  Forall (fun x => literal (VStr x)) gs -> (forall oprf, Forall2 is_fs prf oprf -> Forall literal (flits_s (fbody oprf)) /\ Z.of_nat (length gs) + Z.of_nat (length (flits_s (fbody oprf))) <= 2 ^ 29) ->
  flegal_program gs (fbody opr) = true -> plain_s (InFile [[]]) (fbody opr) = true -> NoDup (labels_s (fbody opr)) -> (fpeak 0 (fbody opr) <= 128)%nat -> small_s M (fbody opr) = true -> (fneed (fbody opr) <= 1000)%nat ->
  exists n, forall fuel, (n <= fuel)%nat -> (forall oprf bytes, Forall2 is_fs prf oprf -> fcompile_program fuel gs oprf lines = Ok bytes -> Z.of_nat (length bytes) <= int_max) ->
  exists P, build_f strtod fuel gs (text_of items last) lines w ls ks = Some P.
Proof.
  intros strtod items last pr prf opr gs lines w ls ks M W Wr F Il Ex Fg Fl Lg Pl Nd Pk Sm Rm.
  destruct (C56_text strtod items last pr prf W Wr F) as (n0 & Pa). exists (Nat.max n0 (Z.to_nat FUEL_BOUND)). intros fuel Lf LB. assert (Hf : FUEL_BOUND <= Z.of_nat fuel) by (unfold FUEL_BOUND in *; lia).
  destruct (fold_l_g pr prf opr F Ex Il) as (oprf & If & G). destruct (same_program fuel prf oprf gs lines If) as (q & Q & S).
  destruct (proj2 (proj2 g_shape) _ _ G) as ((S1 & S2 & S3 & S4) & _ & _ & S5). destruct (proj2 (proj2 (g_legal gs)) _ _ G) as (L1 & _ & _). destruct (Fl _ If) as (Fl1 & Fl2).
  destruct (C59_accepts fuel gs oprf lines Hf Fg Fl1 Fl2) as (bytes & E2); [rewrite S5; lia|apply (proj2 (proj2 (small_narrow M))), S4, Sm|apply L1, Lg|].
  destruct (C51_functions_partial fuel gs oprf lines bytes w ls ks M 0 E2 (LB _ _ If E2) Fg Fl1) as (P & kind & Lp & _); auto.
  { rewrite S1. exact Nd. } { rewrite S5. exact Pk. } { lia. }
  exists P. unfold build_f. rewrite (Pa fuel) by lia. rewrite Q, S, E2, Lp. reflexivity.
Qed.
Print Assumptions C58_accepted_partial.
(** The program of PropFnSource.v is legal and meets the other conditions: C58_written, C58_nonvacuous, C58_nonvacuous_folded. *)
Lemma C58_accepted_example : flegal_program [] (fbody fib_meant) = true /\ (fneed (fbody fib_meant) <= 1000)%nat /\ forall oprf, Forall2 is_fs fib_folded oprf -> (length (flits_s (fbody oprf)) = 6)%nat.
Proof.
  split; [reflexivity|]. split; [vm_compute; repeat constructor|]. intros oprf E. unfold fib_folded in E.
  repeat match goal with H : Forall2 _ _ _ |- _ => inversion H; subst; clear H | H : is_fs _ _ |- _ => inversion H; subst; clear H | H : is_fe _ _ |- _ => inversion H; subst; clear H | H : is_fes _ _ |- _ => inversion H; subst; clear H end. reflexivity.
Qed.
