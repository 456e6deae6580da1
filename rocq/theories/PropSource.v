(** * C57: from the text of a program with lists and tables to what it does. *)
From Coq Require Import String.
From Verif Require Import Base Bytes Value Table Ops Text Ast Stmt Limits Constants VM Compiler TableSpec ConstSpec Gen Program Lexer LexSpec PropLex Parser ParseSpec Names Heap HeapSpec HeapSpec2 HeapProofs HeapProofs2 PropHeap PropHeap2 PropHeap3 Obj ObjCompiler ObjProg PropObj.
From Verif Require Import Tree TreeParser TreeSpec TreeProofs TreeFuel PropTree TreeExact ObjSource ObjFold ObjWritten.
From Verif Require Import LexSpec.
Local Open Scope list_scope.
Local Open Scope Z_scope.

(** If the text, with any blanks and comments, is a way to write the statements [pr] (TreeSpec.v), and they are the program [opr] of Obj.v ([is_s]), then
    the program loaded from the text does what [opr] means. [prf] is [pr] with its constants folded. *)
Theorem C57_source_text_partial : forall strtod fuel cfuel items last pr prf opr gs lines w ls ks P D hp0,
  well_written T_UNKNOWN items last -> sts_written strtod pr (map snd items) -> fold_l pr = Ok prf -> Forall2 is_s pr opr -> forallb exact_s pr = true ->
  build_o strtod cfuel gs (text_of items last) lines w ls ks = Some P ->
  enough_fuel fuel -> float_texts w -> heap_new fuel = Ok hp0 ->
  Forall (fun x => literal (VStr x)) gs -> (forall oprf, Forall2 is_s prf oprf -> Forall literal (literals_o (body_o oprf))) ->
  (forall oprf bytes, Forall2 is_s prf oprf -> compile_oprogram cfuel gs oprf lines = Ok bytes -> Z.of_nat (length bytes) <= int_max) ->
  jumps_ok_o 0 (body_o opr) = true -> (peak_o 0 (body_o opr) <= 128)%nat -> (need_o (body_o opr) + 3 * D + 32 <= 1024)%nat -> (for_depth_o (body_o opr) <= 16)%nat ->
  forall gl, follows fuel (host_of w ls ks gs) P D (body_o opr) hp0 gl.
Proof.
  intros strtod fuel cfuel items last pr prf opr gs lines w ls ks P D hp0 W Wr F Il Ex B A1 A2 A3 Fg Fl LB J Pk Nd Fd gl. pose proof (is_l_plain _ _ Il) as Pl.
  destruct (C56_text strtod items last pr prf W Wr F) as (n0 & Pa).
  unfold build_o in B. destruct (read_text strtod cfuel (text_of items last)) as [pr1| | | |] eqn:E1; try discriminate. assert (pr1 = prf) by (eapply C56_deterministic; [exact E1|apply (Pa n0); lia]). subst pr1.
  destruct (fold_l_fs pr prf opr F Ex Pl) as (oprf & Pf & Fs). pose proof (plain_is_l _ _ Pf) as If. rewrite Pf in B. destruct (compile_oprogram cfuel gs oprf lines) as [bytes| | |] eqn:E2; try discriminate. destruct (load bytes w ls ks) as [P0| | |] eqn:E3; try discriminate. injection B as ->.
  pose proof (fs_parsed _ _ Fs (program_parsed strtod pr _ opr Wr Pl)) as Pd. destruct (fs_limits _ _ Fs) as (L1 & L2 & L3 & L4).
  destruct (C55_objects_partial fuel cfuel gs oprf lines bytes w ls ks D hp0 A1 A2 A3 E2 (LB _ _ If E2) Fg (Fl _ If) Pd) as (P' & Lp & Q).
  { rewrite L1; exact J. } { rewrite L2; exact Pk. } { lia. } { rewrite L3; exact Fd. }
  assert (P' = P) by congruence. subst P'. intros n. destruct (Q gl n) as (r & Er & Hr). exists r. split; [|exact Hr]. eapply fs_exec; eassumption.
Qed.
Print Assumptions C57_source_text_partial.

(** ** The conditions can be met. The program:
<<
# shared
let l = [1]
l->push(1 + 2)
let t = {.a: l}
t.a[0] = 7
for let i = 0; i < len l; i += 1 {
	echo l[i]
}
for x <- t.a { echo x; }
echo t
>> prints [list_out]. *)
Definition list_items : list (list Z * lexeme) := [([35; 32; 115; 104; 97; 114; 101; 100; 10], LFixed T_LET); ([32], LId [108]); ([32], LFixed T_EQ); ([32], LFixed T_LSQB); ([], LInt [49]); ([], LFixed T_RSQB); ([], LNewline); ([], LId [108]); ([], LFixed T_RIGHT_ARR); ([], LId [112; 117; 115; 104]); ([], LFixed T_LPAR); ([], LInt [49]); ([32], LFixed T_PLUS); ([32], LInt [50]); ([], LFixed T_RPAR); ([], LNewline); ([], LFixed T_LET); ([32], LId [116]); ([32], LFixed T_EQ); ([32], LFixed T_LBRC); ([], LFixed T_DOT); ([], LId [97]); ([], LFixed T_COLON); ([32], LId [108]); ([], LFixed T_RBRC); ([], LNewline); ([], LId [116]); ([], LFixed T_DOT); ([], LId [97]); ([], LFixed T_LSQB); ([], LInt [48]); ([], LFixed T_RSQB); ([32], LFixed T_EQ); ([32], LInt [55]); ([], LNewline); ([], LFixed T_FOR); ([32], LFixed T_LET); ([32], LId [105]); ([32], LFixed T_EQ); ([32], LInt [48]); ([], LFixed T_SEMI); ([32], LId [105]); ([32], LFixed T_LT); ([32], LFixed T_LEN); ([32], LId [108]); ([], LFixed T_SEMI); ([32], LId [105]); ([32], LFixed T_PLUSEQ); ([32], LInt [49]); ([32], LFixed T_LBRC); ([10; 9], LFixed T_ECHO); ([32], LId [108]); ([], LFixed T_LSQB); ([], LId [105]); ([], LFixed T_RSQB); ([], LNewline); ([], LFixed T_RBRC); ([], LNewline); ([], LFixed T_FOR); ([32], LId [120]); ([32], LFixed T_LEFT_ARR); ([32], LId [116]); ([], LFixed T_DOT); ([], LId [97]); ([32], LFixed T_LBRC); ([32], LFixed T_ECHO); ([32], LId [120]); ([], LFixed T_SEMI); ([32], LFixed T_RBRC); ([], LNewline); ([], LFixed T_ECHO); ([32], LId [116]); ([], LNewline)].
Notation vl := (XVar [108]). Notation vt := (XVar [116]). Notation vi := (XVar [105]).
Definition list_program : list xs :=
  [XDecl [LLet [108]] (XCons (XList (XCons (XInt 1) XNil)) XNil);
   XExpr (XMeth vl m_push (XCons (XBin (BOp BAdd) (XInt 1) (XInt 2)) XNil));
   XDecl [LLet [116]] (XCons (XTable (XCons (XStr [97]) (XCons vl XNil))) XNil);
   XSet (XGet vt (XStr [97])) (XInt 0) (XInt 7);
   XBlock (order [XLet [105] (XInt 0); XWhilePost (XBin (BOp BLt) vi (XUn ULen vl)) (XBlock (order [XEcho (XGet vl vi)])) (XAssign [105] (XBin (BOp BAdd) vi (XInt 1)))]);
   XForIn [120] (XGet vt (XStr [97])) (XBlock (order [XEcho (XVar [120])]));
   XEcho vt].
Definition list_meant : list ostmt :=
  [OLet false [108] (OList (one (OInt 1)));
   OExpr (OMeth (OVar [108]) m_push (one (OBin (BOp BAdd) (OInt 1) (OInt 2))));
   OLet false [116] (OTable (two (OStr [97]) (OVar [108])));
   OSet (OGet (OVar [116]) (OStr [97])) (OInt 0) (OInt 7);
   OBlock (OSeq (OLet false [105] (OInt 0)) (OSeq (OWhilePost (OBin (BOp BLt) (OVar [105]) (OUn ULen (OVar [108]))) (OBlock (OSeq (OEcho (OGet (OVar [108]) (OVar [105]))) OSkip)) (OAssign [105] (OBin (BOp BAdd) (OVar [105]) (OInt 1)))) OSkip));
   OForIn [120] (OGet (OVar [116]) (OStr [97])) (OBlock (OSeq (OEcho (OVar [120])) OSkip));
   OEcho (OVar [116])].
Definition list_folded : list xs := Eval vm_compute in match fold_l list_program with Ok l => l | _ => [] end.
Definition list_out : list Z := Eval compute in flat_map (fun s => bytes_of s ++ [10]) ["7"; "3"; "7"; "3"; "{a: [7, 3]}"]%string.
Section Demo.
Variable strtod : list Z -> float.
Notation lw := (lw strtod). Notation vr := (vr strtod). Notation dg := (dg strtod). Notation d_end := (d_end strtod). Notation d_semi := (d_semi strtod). Notation none := (TreeSpec.w_none strtod).
Definition e_one := lw 16 0 _ _ eq_refl (x_list1 strtod _ _ _ (dg 1 0 eq_refl eq_refl) (or_introl eq_refl)).
Definition e_let := TreeSpec.w_decl strtod [LLet [108]] _ _ _ (w_lval _ _ (w_let [108])) I (w_one strtod _ _ e_one) (le_n 1).
Definition e_push := w_exprst strtod _ _ (lw 15 0 _ _ eq_refl (x_method strtod _ m_push _ _ _ (vr [108] 15 eq_refl) (w_args strtod _ _ (w_one strtod _ _
  (d_sum strtod (ParseSpec.OBin (BOp BAdd)) _ _ _ _ eq_refl eq_refl (dg 1 11 eq_refl eq_refl) (dg 2 12 eq_refl eq_refl)))))) (id_not_fn _ _).
Definition e_table := TreeSpec.w_decl strtod [LLet [116]] _ _ _ (w_lval _ _ (w_let [116])) I (w_one strtod _ _ (lw 16 0 _ _ eq_refl
  (x_table1 strtod _ _ _ _ _ (lw 16 0 _ _ eq_refl (x_leaf strtod _ _ (leaf_dot strtod [97]))) (vr [108] 0 eq_refl) (or_introl eq_refl)))) (le_n 1).
Definition e_ta : TreeSpec.x_at strtod 15 (XGet vt (XStr [97])) _ := x_field strtod _ [97] _ (vr [116] 15%nat eq_refl).
Definition e_set : st_written strtod (XSet (XGet vt (XStr [97])) (XInt 0) (XInt 7)) _ :=
  w_assigns strtod _ _ (w_set strtod _ _ _ _ _ (x_index strtod _ _ _ _ e_ta (dg 0 0%nat eq_refl eq_refl)) (id_not_fn _ _) (dg 7 0%nat eq_refl eq_refl)).
Definition e_cond := lw 5 0 _ _ eq_refl (x_left strtod (ParseSpec.OBin (BOp BLt)) _ _ _ _ eq_refl (vr [105] 5 eq_refl) (lw 13 6 _ _ eq_refl (x_prefix strtod ULen _ _ (vr [108] 13 eq_refl)))).
Definition e_step := w_set_var_op strtod [105] (ParseSpec.OBin (BOp BAdd)) T_PLUSEQ _ _ eq_refl (dg 1 0%nat eq_refl eq_refl).
Definition e_echo := TreeSpec.w_echo strtod _ _ (lw 15 0 _ _ eq_refl (x_index strtod _ _ _ _ (vr [108] 15 eq_refl) (vr [105] 0 eq_refl))).
Definition e_for := TreeSpec.w_for strtod [105] _ _ _ _ _ _ _ _ _ _ (dg 0 0%nat eq_refl eq_refl) (or_introl eq_refl) e_cond (or_introl eq_refl) e_step (w_body strtod _ _ (d_end _ _ _ _ e_echo none)).
Definition e_forin := TreeSpec.w_forin strtod [120] _ _ _ _ (lw 15 0 _ _ eq_refl e_ta) (w_body strtod _ _ (d_semi _ _ _ _ (TreeSpec.w_echo strtod _ _ (vr [120] 0%nat eq_refl)) none)).
Definition e_last := TreeSpec.w_echo strtod _ _ (vr [116] 0%nat eq_refl).
Example C57_written : well_written T_UNKNOWN list_items [] /\ sts_written strtod list_program (map snd list_items).
Proof.
  split.
  - unfold list_items. cbn [well_written text_of app spell kind ends_statement negb].
    repeat match goal with
    | |- _ /\ _ => split
    | |- blank _ _ => solve [repeat constructor | apply (b_line true [32; 115; 104; 97; 114; 101; 100] []); [reflexivity|repeat constructor; discriminate|repeat constructor]]
    | |- ends_at _ _ => vm_compute; reflexivity
    | |- last_blank _ _ => exists [], []; split; [reflexivity|]; split; [constructor|left; reflexivity]
    | |- wf_lexeme _ (LId [?c]) => split; [exists c, []; repeat split; [unfold letter; lia|constructor]|right; right; repeat split; [vm_compute; intuition discriminate|intros ([] & W & E); discriminate|discriminate|discriminate]]
    | |- wf_lexeme _ (LId (?c :: ?r)) => split; [exists c, r; repeat split; [unfold letter; lia|repeat (constructor; [left; unfold letter; lia|]); constructor]|right; left; reflexivity]
    | |- wf_lexeme _ (LFixed _) => split; [discriminate|intros _; split; discriminate]
    | |- wf_lexeme _ (LInt _) => split; [discriminate|repeat constructor; unfold digit; lia]
    | |- wf_lexeme _ LNewline => reflexivity
    end.
  - exact (d_end _ _ _ _ e_let (d_end _ _ _ _ e_push (d_end _ _ _ _ e_table (d_end _ _ _ _ e_set (d_end _ _ _ _ e_for (d_end _ _ _ _ e_forin (d_end _ _ _ _ e_last none))))))).
Qed.
Example C57_nonvacuous : Forall2 is_s list_program list_meant /\ forallb exact_s list_program = true /\ fold_l list_program = Ok list_folded /\ list_folded <> list_program /\
  (forall oprf, Forall2 is_s list_folded oprf -> Forall literal (literals_o (body_o oprf)) /\ forall bytes, compile_oprogram 200 [] oprf [] = Ok bytes -> Z.of_nat (length bytes) <= int_max) /\
  jumps_ok_o 0 (body_o list_meant) = true /\ (peak_o 0 (body_o list_meant) <= 128)%nat /\ (need_o (body_o list_meant) + 3 * 5 + 32 <= 1024)%nat /\ (for_depth_o (body_o list_meant) <= 16)%nat /\
  (exists P, build_o strtod 200 [] (text_of list_items []) [] no_world (fun _ => []) (fun _ => []) = Some P).
Proof.
  split; [repeat constructor|]. split; [vm_compute; reflexivity|]. split; [vm_compute; reflexivity|]. split; [discriminate|]. split.
  { intros oprf E. apply is_l_plain in E. vm_compute in E. injection E as <-. split; [repeat constructor; cbn; unfold in_i64, int_min, int_max; lia|]. intros bytes E. vm_compute in E. injection E as <-. vm_compute. discriminate. }
  split; [reflexivity|]. split; [vm_compute; repeat constructor|]. split; [vm_compute; repeat constructor|]. split; [vm_compute; repeat constructor|]. eexists. vm_compute. reflexivity.
Qed.
End Demo.
(** The machine, run on the program built from the text. *)
Example C57_machine : forall strtod, match build_o strtod 200 [] (text_of list_items []) [] no_world (fun _ => []) (fun _ => []), heap_new 200 with
  | Some P, Ok h => match h_run 200 no_world P 400 (vm_start (fun _ => None)) h with HStop o s _ => o = Ok tt /\ v_out s = list_out | _ => False end
  | _, _ => False end.
Proof. intros strtod. vm_compute. split; reflexivity. Qed.
