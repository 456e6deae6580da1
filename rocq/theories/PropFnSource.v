(** * C58: from the text of a program with functions to what it does. *)
From Coq Require Import String.
From Verif Require Import Base Bytes Value Table Ops Text Ast Stmt Limits Constants VM Compiler TableSpec ConstSpec Gen Program Lexer LexSpec PropLex Parser ParseSpec.
From Verif Require Import Tree TreeParser TreeSpec TreeProofs TreeFuel PropTree TreeExact Fn FnSpec FnCompiler PropFn FnSource FnFold FnWritten.
From Verif Require Import LexSpec.
Local Open Scope list_scope.
Local Open Scope Z_scope.

(** If the text, with any blanks and comments, is a way to write the statements [pr] (TreeSpec.v), and they are the program [opr] of Fn.v ([is_fs]), then
    the program loaded from the text does what [opr] means ([behaves], C51). [prf] is [pr] with its constants folded. *)
Theorem C58_source_functions_partial : forall strtod fuel items last pr prf opr gs lines w ls ks P M d,
  well_written T_UNKNOWN items last -> sts_written strtod pr (map snd items) -> fold_l pr = Ok prf -> Forall2 is_fs pr opr -> forallb exact_s pr = true ->
  build_f strtod fuel gs (text_of items last) lines w ls ks = Some P ->
  Forall (fun x => literal (VStr x)) gs -> (forall oprf, Forall2 is_fs prf oprf -> Forall literal (flits_s (fbody oprf))) ->
  (forall oprf bytes, Forall2 is_fs prf oprf -> fcompile_program fuel gs oprf lines = Ok bytes -> Z.of_nat (length bytes) <= int_max) ->
  plain_s (InFile [[]]) (fbody opr) = true -> NoDup (labels_s (fbody opr)) ->
  (fpeak 0 (fbody opr) <= 128)%nat -> small_s M (fbody opr) = true -> (fneed (fbody opr) + d * M <= 1000)%nat ->
  exists kind, (forall l l' a, kind l = Some a -> kind l' = Some a -> l = l') /\ forall gl, behaves (host_of w ls ks gs) kind P d (fbody opr) gl.
Proof.
  intros strtod fuel items last pr prf opr gs lines w ls ks P M d W Wr F Il Ex B Fg Fl LB Pl Nd Pk Sm Rm.
  destruct (C56_text strtod items last pr prf W Wr F) as (n0 & Pa).
  unfold build_f in B. destruct (read_text strtod fuel (text_of items last)) as [pr1| | | |] eqn:E1; try discriminate. assert (pr1 = prf) by (eapply C56_deterministic; [exact E1|apply (Pa n0); lia]). subst pr1.
  destruct (fold_l_g pr prf opr F Ex Il) as (oprf & If & G). destruct (same_program fuel prf oprf gs lines If) as (q & Q & S). rewrite Q, S in B.
  destruct (fcompile_program fuel gs oprf lines) as [bytes| | |] eqn:E2; try discriminate. destruct (load bytes w ls ks) as [P0| | |] eqn:E3; try discriminate. injection B as ->.
  destruct (proj2 (proj2 g_shape) _ _ G) as ((S1 & S2 & S3 & S4) & _ & _ & S5).
  destruct (C51_functions_partial fuel gs oprf lines bytes w ls ks M d E2 (LB _ _ If E2) Fg (Fl _ If)) as (P' & kind & Lp & Ki & Be); auto.
  { rewrite S1. exact Nd. } { rewrite S5. exact Pk. } { lia. }
  assert (P' = P) by congruence. subst P'. exists kind. split; [exact Ki|]. intros gl n. specialize (Be gl n).
  pose proof (fexec_rel (host_of w ls ks gs) kind n d _ _ (fstart gl []) (fstart gl []) G) as R.
  assert (R0 : rel_st (fstart gl []) (fstart gl [])) by (constructor; auto; intros v; exact I). specialize (R R0). revert R Be. clear.
  destruct (fexec _ _ _ _ (fbody opr) _) as [a st|o out| | | |], (fexec _ _ _ _ (fbody oprf) _) as [a' st'|o' out'| | | |]; cbn [rel]; intros R Be; try (exfalso; exact R); auto.
  - destruct R as (<- & R). destruct a; [exact Be|]. rewrite <- (r_out _ _ R), <- (r_gl _ _ R), <- (r_file _ _ R). exact Be.
  - destruct R as (<- & <-). exact Be.
Qed.
Print Assumptions C58_source_functions_partial.

(** ** The conditions can be met. The program:
<<
# fibonacci
let x = 0
const fn f(n) {
	x += 1
	if n < 1 + 1 { return n; }
	return f(n - 1) + f(n - 2)
}
let g = fn(h, y) { return h(y); }
echo g(f, 4)
echo x
>> prints 3 and 9. *)
Definition fib_items : list (list Z * lexeme) := [([35; 32; 102; 105; 98; 111; 110; 97; 99; 99; 105; 10], LFixed T_LET); ([32], LId [120]); ([32], LFixed T_EQ); ([32], LInt [48]); ([], LNewline); ([], LFixed T_CONST); ([32], LFixed T_FN); ([32], LId [102]); ([], LFixed T_LPAR); ([], LId [110]); ([], LFixed T_RPAR); ([32], LFixed T_LBRC); ([10; 9], LId [120]); ([32], LFixed T_PLUSEQ); ([32], LInt [49]); ([], LNewline); ([9], LFixed T_IF); ([32], LId [110]); ([32], LFixed T_LT); ([32], LInt [49]); ([32], LFixed T_PLUS); ([32], LInt [49]); ([32], LFixed T_LBRC); ([32], LFixed T_RET); ([32], LId [110]); ([], LFixed T_SEMI); ([32], LFixed T_RBRC); ([], LNewline); ([9], LFixed T_RET); ([32], LId [102]); ([], LFixed T_LPAR); ([], LId [110]); ([32], LFixed T_MINUS); ([32], LInt [49]); ([], LFixed T_RPAR); ([32], LFixed T_PLUS); ([32], LId [102]); ([], LFixed T_LPAR); ([], LId [110]); ([32], LFixed T_MINUS); ([32], LInt [50]); ([], LFixed T_RPAR); ([], LNewline); ([], LFixed T_RBRC); ([], LNewline); ([], LFixed T_LET); ([32], LId [103]); ([32], LFixed T_EQ); ([32], LFixed T_FN); ([], LFixed T_LPAR); ([], LId [104]); ([], LFixed T_COMMA); ([32], LId [121]); ([], LFixed T_RPAR); ([32], LFixed T_LBRC); ([32], LFixed T_RET); ([32], LId [104]); ([], LFixed T_LPAR); ([], LId [121]); ([], LFixed T_RPAR); ([], LFixed T_SEMI); ([32], LFixed T_RBRC); ([], LNewline); ([], LFixed T_ECHO); ([32], LId [103]); ([], LFixed T_LPAR); ([], LId [102]); ([], LFixed T_COMMA); ([32], LInt [52]); ([], LFixed T_RPAR); ([], LNewline); ([], LFixed T_ECHO); ([32], LId [120]); ([], LNewline)].
Notation xn := (XVar [110]). Notation xx := (XVar [120]). Notation fe_n := (FVar [110]).
Notation less l r := (XBin (BOp BLt) l r). Notation add l r := (XBin (BOp BAdd) l r). Notation sub l r := (XBin (BOp BSub) l r).
Notation fsub l r := (FBin (BOp BSub) l r).
Definition ret_x (e : xe) : xs := XReturn (XCtx (-1) e).
Definition fib_call (e : xe) : xe := XCall (XVar [102]) (XCons e XNil).
Definition fib_program : list xs :=
  [XDecl [LLet [120]] (XCons (XInt 0) XNil);
   XFnDecl true [102] [([110], false)] (order [XAssign [120] (add xx (XInt 1)); XIf (less xn (add (XInt 1) (XInt 1))) (XBlock (order [ret_x xn]));
     ret_x (add (fib_call (sub xn (XInt 1))) (fib_call (sub xn (XInt 2))))]);
   XDecl [LLet [103]] (XCons (XFn [([104], false); ([121], false)] (order [ret_x (XCall (XVar [104]) (XCons (XVar [121]) XNil))])) XNil);
   XEcho (XCall (XVar [103]) (XCons (XVar [102]) (XCons (XInt 4) XNil)));
   XEcho xx].
Definition fib_meant : list fstmt :=
  [FLet false [120] (FInt 0);
   FFnDecl true [102] 1%nat [([110], false)]
     (FSeq (FAssign [120] (plus (FVar [120]) (FInt 1)))
     (FSeq (FIf (FBin (BOp BLt) fe_n (plus (FInt 1) (FInt 1))) (FSeq (ret fe_n) FSkip))
     (FSeq (ret (plus (call1 [102] (fsub fe_n (FInt 1))) (call1 [102] (fsub fe_n (FInt 2))))) FSkip)));
   FLet false [103] (FFn 2%nat [([104], false); ([121], false)] (FSeq (ret (call1 [104] (FVar [121]))) FSkip));
   FEcho (FCall (FVar [103]) (ACons (FVar [102]) (ACons (FInt 4) ANil)));
   FEcho (FVar [120])].
Definition fib_folded : list xs := Eval vm_compute in match fold_l fib_program with Ok l => l | _ => [] end.
Definition fib_labelless : list fstmt := Eval vm_compute in match fn_l fib_folded with Some l => l | _ => [] end.
Section Demo.
Variable strtod : list Z -> float.
Notation lw := (lw strtod). Notation vr := (vr strtod). Notation dg := (dg strtod). Notation d_end := (d_end strtod). Notation d_semi := (d_semi strtod). Notation none := (TreeSpec.w_none strtod).
Notation p_one x := (w_params _ _ _ (w_param _ _ (w_letparam x))).
Definition e_let := TreeSpec.w_decl strtod [LLet [120]] _ _ _ (w_lval _ _ (w_let [120])) I (w_one strtod _ _ (dg 0 0 eq_refl eq_refl)) (le_n 1).
Definition e_count := w_assigns strtod _ _ (w_set_var_op strtod [120] (ParseSpec.OBin (BOp BAdd)) T_PLUSEQ _ _ eq_refl (dg 1 0%nat eq_refl eq_refl)).
Definition e_sum := lw 11 6 _ _ eq_refl (x_left strtod (ParseSpec.OBin (BOp BAdd)) _ _ _ _ eq_refl (dg 1 11 eq_refl eq_refl) (dg 1 12 eq_refl eq_refl)).
Definition e_cond := lw 5 0 _ _ eq_refl (x_left strtod (ParseSpec.OBin (BOp BLt)) _ _ _ _ eq_refl (vr [110] 5 eq_refl) e_sum).
Definition e_if := TreeSpec.w_if strtod _ _ (TreeSpec.w_then strtod _ _ _ _ e_cond (w_body strtod _ _ (d_semi _ _ _ _ (w_return strtod _ _ (vr [110] 0%nat eq_refl)) none))).
Definition e_fib i D := x_call strtod _ _ _ _ (vr [102] 15 eq_refl) (w_args strtod _ _ (w_one strtod _ _ (d_sum strtod (ParseSpec.OBin (BOp BSub)) _ _ _ _ eq_refl eq_refl (vr [110] 11 eq_refl) (dg i 12 eq_refl D)))).
Definition e_ret := w_return strtod _ _ (d_sum strtod (ParseSpec.OBin (BOp BAdd)) _ _ _ _ eq_refl eq_refl (lw 15 11 _ _ eq_refl (e_fib 1 eq_refl)) (lw 15 12 _ _ eq_refl (e_fib 2 eq_refl))).
Definition e_f := w_constfn strtod [102] _ _ _ _ (p_one [110]) (w_body strtod _ _ (d_end _ _ _ _ e_count (d_end _ _ _ _ e_if (d_end _ _ _ _ e_ret none)))).
Definition e_fn := x_fn strtod _ _ _ _ (w_params _ _ _ (w_moreparams _ _ _ _ (w_letparam [104]) (w_param _ _ (w_letparam [121]))))
  (w_body strtod _ _ (d_semi _ _ _ _ (w_return strtod _ _ (lw 15 0 _ _ eq_refl (x_call strtod _ _ _ _ (vr [104] 15 eq_refl) (w_args strtod _ _ (w_one strtod _ _ (vr [121] 0%nat eq_refl)))))) none)).
Definition e_g := TreeSpec.w_decl strtod [LLet [103]] _ _ _ (w_lval _ _ (w_let [103])) I (w_one strtod _ _ (lw 16 0 _ _ eq_refl e_fn)) (le_n 1).
Definition e_echo := TreeSpec.w_echo strtod _ _ (lw 15 0 _ _ eq_refl (x_call strtod _ _ _ _ (vr [103] 15 eq_refl) (w_args strtod _ _ (w_more strtod _ _ _ _ (vr [102] 0 eq_refl) (w_one strtod _ _ (dg 4 0 eq_refl eq_refl)))))).
Definition e_last := TreeSpec.w_echo strtod _ _ (vr [120] 0%nat eq_refl).
Example C58_written : well_written T_UNKNOWN fib_items [] /\ sts_written strtod fib_program (map snd fib_items).
Proof.
  split.
  - unfold fib_items. cbn [well_written text_of app spell kind ends_statement negb].
    repeat match goal with
    | |- _ /\ _ => split
    | |- blank _ _ => solve [repeat constructor | apply (b_line true [32; 102; 105; 98; 111; 110; 97; 99; 99; 105] []); [reflexivity|repeat constructor; discriminate|repeat constructor]]
    | |- ends_at _ _ => vm_compute; reflexivity
    | |- last_blank _ _ => exists [], []; split; [reflexivity|]; split; [constructor|left; reflexivity]
    | |- wf_lexeme _ (LId [?c]) => split; [exists c, []; repeat split; [unfold letter; lia|constructor]|right; right; repeat split; [vm_compute; intuition discriminate|intros ([] & W & E); discriminate|discriminate|discriminate]]
    | |- wf_lexeme _ (LFixed _) => split; [discriminate|intros _; split; discriminate]
    | |- wf_lexeme _ (LInt _) => split; [discriminate|repeat constructor; unfold digit; lia]
    | |- wf_lexeme _ LNewline => reflexivity
    end.
  - exact (d_end _ _ _ _ e_let (d_end _ _ _ _ e_f (d_end _ _ _ _ e_g (d_end _ _ _ _ e_echo (d_end _ _ _ _ e_last none))))).
Qed.
Example C58_nonvacuous : Forall2 is_fs fib_program fib_meant /\ forallb exact_s fib_program = true /\ fold_l fib_program = Ok fib_folded /\ fib_folded <> fib_program /\
  fn_l fib_folded = Some fib_labelless /\ (exists bytes, fcompile_program 100 [] fib_labelless [] = Ok bytes /\ Z.of_nat (length bytes) <= int_max) /\
  plain_s (InFile [[]]) (fbody fib_meant) = true /\ NoDup (labels_s (fbody fib_meant)) /\ (fpeak 0 (fbody fib_meant) <= 128)%nat /\ small_s 6 (fbody fib_meant) = true /\ (fneed (fbody fib_meant) + 100 * 6 <= 1000)%nat /\
  (exists P, build_f strtod 100 [] (text_of fib_items []) [] demo_world PropFn.none PropFn.none = Some P) /\
  exists st, fexec (host_of demo_world PropFn.none PropFn.none []) (fun l => if (l =? 2)%nat then Some 90 else None) 0 100 (fbody fib_meant) (fstart unset []) = Fn.RVal None st /\ s_out st = [51; 10; 57; 10].
Proof.
  split; [repeat constructor|]. split; [vm_compute; reflexivity|]. split; [vm_compute; reflexivity|]. split; [discriminate|]. split; [vm_compute; reflexivity|]. split.
  { destruct (fcompile_program 100 [] fib_labelless []) as [bytes| | |] eqn:E; try (vm_compute in E; discriminate E). exists bytes. split; [reflexivity|]. vm_compute in E. injection E as <-. vm_compute. discriminate. }
  split; [reflexivity|]. split; [repeat (constructor; [cbn; intuition discriminate|]); constructor|]. split; [vm_compute; repeat constructor|]. split; [reflexivity|]. split; [vm_compute; repeat constructor|].
  split; [eexists; vm_compute; reflexivity|]. eexists. split; [vm_compute; reflexivity|reflexivity].
Qed.
(** The two conditions on the folded program, whatever labels its functions get. *)
Example C58_nonvacuous_folded : forall oprf, Forall2 is_fs fib_folded oprf -> Forall literal (flits_s (fbody oprf)) /\ forall bytes, fcompile_program 100 [] oprf [] = Ok bytes -> Z.of_nat (length bytes) <= int_max.
Proof.
  intros oprf E. destruct (same_program 100 _ _ [] [] E) as (q & Q & S). vm_compute in Q. injection Q as <-. split.
  - unfold fib_folded in E. repeat match goal with H : Forall2 _ _ _ |- _ => inversion H; subst; clear H | H : is_fs _ _ |- _ => inversion H; subst; clear H | H : is_fe _ _ |- _ => inversion H; subst; clear H | H : is_fes _ _ |- _ => inversion H; subst; clear H end.
    repeat constructor; cbn; unfold in_i64, int_min, int_max; lia.
  - intros bytes B. rewrite <- S in B. vm_compute in B. injection B as <-. vm_compute. discriminate.
Qed.
End Demo.
(** The machine, run on the program built from the text. *)
Example C58_machine : forall strtod, match build_f strtod 100 [] (text_of fib_items []) [] demo_world PropFn.none PropFn.none with
  | Some P => match run 2000 P (vm_start unset) with Stop o s => o = Ok tt /\ v_out s = [51; 10; 57; 10] | _ => False end
  | None => False end.
Proof. intros strtod. vm_compute. split; reflexivity. Qed.
