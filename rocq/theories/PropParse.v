(** * C37: the parser; C49: from source text to behaviour. *)
From Verif Require Import Base Value Ops Ast Fold FoldSpec FoldProofs Stmt Limits Text TextSpec TextProofs PropText Lexer LexSpec LexProofs PropLex Parser ParseSpec ParseProofs ParseProofs2 ParseFuel.
From Verif Require Import TableProofs3 Constants ConstSpec VM Compiler Program CompSpec CompProofs PropCompile PropCompile2 Source.

Lemma continues_binds t : continues t = false -> binds t = None.
Proof. destruct t; intros H; try reflexivity; discriminate H. Qed.
Lemma numberless_fold e : no_numbers e = true -> fold e = Ok e.
Proof.
  induction e as [| | | | | |op e1 IH|op l IHl r IHr|op l IHl r IHr|c IHc a IHa b IHb]; intros N; try reflexivity; cbn [no_numbers] in N; cbn [fold].
  - rewrite IH by exact N. destruct e1, op; try discriminate N; reflexivity.
  - apply andb_true_iff in N. destruct N as (N1 & N2). rewrite IHl, IHr by assumption. cbn [bind]. destruct l; try discriminate N1; try reflexivity; destruct r; reflexivity.
  - apply andb_true_iff in N. destruct N as (N1 & N2). rewrite IHl, IHr by assumption. reflexivity.
  - apply andb_true_iff in N. destruct N as (N & N3). apply andb_true_iff in N. destruct N as (N1 & N2). rewrite IHc, IHa, IHb by assumption. reflexivity.
Qed.

(** ** C37. However an expression is written, with operators binding and grouping as in ParseSpec.v and any extra parentheses,
    the parser reads exactly that expression (with its constants folded, C24) and stops where it ends. *)
Theorem C37_expression : forall strtod e ls toks rest ef, expr_at strtod 0 e ls -> tokens_of toks ls -> fold e = Ok ef -> continues (cur rest) = false ->
  exists n, forall m, (n <= m)%nat -> p_expr strtod m (toks ++ rest) = POk (ef, rest).
Proof. intros strtod e ls toks rest ef H T F C. apply (expr_ev strtod e ls toks rest ef H T F). apply continues_binds, C. Qed.
Print Assumptions C37_expression.
(** Printing any operator tree with only the necessary parentheses and parsing it back gives the tree. *)
Theorem C37_round_trip : forall strtod digits e toks rest ef, (forall i, 0 <= i <= 9223372036854775807 -> digits i <> [] /\ Forall dec_digit (digits i) /\ denotes 10 (digits i) = i) ->
  writable e = true -> tokens_of toks (written digits 0 e) -> fold e = Ok ef -> continues (cur rest) = false ->
  exists n, forall m, (n <= m)%nat -> p_expr strtod m (toks ++ rest) = POk (ef, rest).
Proof. intros strtod digits e toks rest ef D W T F C. eapply C37_expression; try eassumption. apply written_at; auto. lia. Qed.
Print Assumptions C37_round_trip.
Theorem C37_same_tree : forall strtod digits e toks rest, (forall i, 0 <= i <= 9223372036854775807 -> digits i <> [] /\ Forall dec_digit (digits i) /\ denotes 10 (digits i) = i) ->
  no_numbers e = true -> tokens_of toks (written digits 0 e) -> continues (cur rest) = false ->
  exists n, forall m, (n <= m)%nat -> p_expr strtod m (toks ++ rest) = POk (e, rest).
Proof.
  intros strtod digits e toks rest D N T C. apply (C37_round_trip strtod digits e); auto; [|apply numberless_fold, N].
  clear - N. induction e; cbn [no_numbers writable] in *; try discriminate; auto; repeat (apply andb_true_iff in N; destruct N as (N & ?)); rewrite ?IHe1, ?IHe2, ?IHe3 by assumption; auto.
Qed.
Print Assumptions C37_same_tree.
(** Two ways to write two expressions that give the same tokens are two ways to write the same expression (up to folding). *)
Theorem C37_unambiguous : forall strtod e1 e2 ls, expr_at strtod 0 e1 ls -> expr_at strtod 0 e2 ls -> forall f1 f2, fold e1 = Ok f1 -> fold e2 = Ok f2 -> f1 = f2.
Proof.
  intros strtod e1 e2 ls H1 H2 f1 f2 F1 F2. set (toks := map (fun l => Tok (kind l) (content l) false false) ls).
  assert (T : tokens_of toks ls) by (unfold tokens_of, toks; rewrite map_map; reflexivity).
  destruct (C37_expression strtod e1 ls toks [] f1 H1 T F1 eq_refl) as (n1 & A1). destruct (C37_expression strtod e2 ls toks [] f2 H2 T F2 eq_refl) as (n2 & A2).
  specialize (A1 (Nat.max n1 n2) ltac:(lia)). specialize (A2 (Nat.max n1 n2) ltac:(lia)). congruence.
Qed.
Print Assumptions C37_unambiguous.
(** [x op= e] means [x = x op e], for every operator with an assignment form. *)
Theorem C37_compound : forall strtod x o t e a toks semi rest ef, compound o = Some t -> expr_at strtod 0 e a -> tokens_of toks (LId x :: LFixed t :: a) -> fold e = Ok ef -> t_type semi = T_SEMI ->
  exists n, forall m, (n <= m)%nat -> p_stmt strtod m (toks ++ semi :: rest) = POk (SAssign x (combine o (EVar x) ef), semi :: rest).
Proof.
  intros strtod x o t e a toks semi rest ef C H T F S. apply (proj1 (statements_parsed strtod) _ _ (w_assignment strtod _ _ (w_compound strtod x o t e a C H)) toks (semi :: rest)); auto.
  cbn [simplified]. destruct o as [o|o]; cbn [combine fold]; rewrite F; reflexivity.
Qed.
Print Assumptions C37_compound.
(** Every operator except comparisons and equality has an assignment form, and no two share one. *)
Theorem C37_compound_forms : (forall o, compound o = None <-> (strength o = 4 \/ strength o = 5)%nat) /\ (forall o o' t, compound o = Some t -> compound o' = Some t -> o = o').
Proof.
  split.
  - intros [[[]| |]|[]]; cbn; split; intros H; try discriminate; try reflexivity; auto; destruct H; discriminate.
  - intros [[[]| |]|[]] [[[]| |]|[]] t [= <-]; intros E; try discriminate; reflexivity.
Qed.
Print Assumptions C37_compound_forms.
(** Whole programs: statements, blocks, if/elseif/else, while, for, for-in, declarations. *)
Theorem C37_program : forall strtod pr ls toks rest prf, stmts_written strtod pr ls -> tokens_of toks ls -> simplified_list pr = Ok prf -> cur rest = T_EOF ->
  exists n, forall m, (n <= m)%nat -> p_program strtod m (toks ++ rest) = POk prf.
Proof. intros strtod pr ls toks rest prf H T F C. eapply program_parsed; eassumption. Qed.
Print Assumptions C37_program.
(** ... from the text of the program, with any blanks and comments. *)
Theorem C37_text : forall strtod items last pr prf, well_written T_UNKNOWN items last -> stmts_written strtod pr (map snd items) -> simplified_list pr = Ok prf ->
  exists n, forall m, (n <= m)%nat -> parse_text strtod m (text_of items last) = POk prf.
Proof.
  intros strtod items last pr prf W H F. destruct (C47_read_back items last W) as (toks & L & V & Fi).
  assert (K : forall items line toks, map (fun p : token * Z => (t_type (fst p), t_val (fst p), snd p)) toks = expected line items last -> Forall (fun p => t_interp (fst p) = false) toks ->
    exists ts e, map fst toks = ts ++ [e] /\ tokens_of ts (map snd items) /\ t_type e = T_EOF).
  { clear. induction items as [|[b l] items IH]; intros line toks V Fi; cbn [expected] in V.
    - destruct toks as [|[t z] [|]]; try discriminate V. cbn in V. injection V as E1 E2 E3. exists [], t. split; [reflexivity|]. split; [reflexivity|exact E1].
    - destruct toks as [|[t z] toks]; [discriminate V|]. cbn [map fst snd] in V. injection V as E1 E2 E3 V. inversion Fi as [|? ? F1 F2]; subst. destruct (IH _ _ V F2) as (ts & e & E & T & Te). exists (t :: ts), e. cbn [map fst]. rewrite E. split; [reflexivity|]. split; [|exact Te].
      unfold tokens_of in *. cbn [map snd]. rewrite T, E1, E2. cbn [fst] in F1. rewrite F1. reflexivity. }
  destruct (K items 1 toks V Fi) as (ts & e & E & T & Te). unfold parse_text. rewrite L, E. apply (C37_program strtod pr (map snd items) ts [e] prf H T F). exact Te.
Qed.
Print Assumptions C37_text.
(** The answer does not depend on the fuel of the model: one answer is the answer. *)
Theorem C37_deterministic : forall strtod text f g a b, parse_text strtod f text = POk a -> parse_text strtod g text = POk b -> a = b.
Proof.
  intros strtod text f g a b Ha Hb. pose proof (text_fuel strtod f (Nat.max f g) text ltac:(lia) _ Ha) as A. pose proof (text_fuel strtod g (Nat.max f g) text ltac:(lia) _ Hb) as B. congruence.
Qed.
Print Assumptions C37_deterministic.
(** The conditions can be met: [a - b * -c ** d - (e ~ f)] *)
Definition v (c : Z) : expr := EVar [c].
Example C37_nonvacuous : let e := EBin (BOp BSub) (EBin (BOp BSub) (v 97) (EBin (BOp BMul) (v 98) (EUn UNeg (EBin (BOp BPow) (v 99) (v 100))))) (EBin (BOp BCnct) (v 101) (v 102)) in
  no_numbers e = true /\ (length (written print_i64 0 e) = 14)%nat /\
  written print_i64 0 (EBin (BOp BAdd) (v 97) (EBin (BOp BAdd) (v 98) (EInt 12))) = [LId [97]; LFixed T_PLUS; LFixed T_LPAR; LId [98]; LFixed T_PLUS; LInt [49; 50]; LFixed T_RPAR] /\
  written print_i64 0 (EBin (BOp BPow) (EUn UNeg (v 97)) (EUn UNeg (v 98))) = [LFixed T_LPAR; LFixed T_MINUS; LId [97]; LFixed T_RPAR; LFixed T_DSTAR; LFixed T_MINUS; LId [98]].
Proof. repeat split; vm_compute; reflexivity. Qed.
Example C37_digits : forall i, 0 <= i <= 9223372036854775807 -> print_i64 i <> [] /\ Forall dec_digit (print_i64 i) /\ denotes 10 (print_i64 i) = i.
Proof. exact print_digits. Qed.
(** A program must end with a newline or a semicolon: [echo 1] alone is a syntax error. *)
Theorem C37_last_statement_refuted : forall strtod n, parse_text strtod (40 + n) [101; 99; 104; 111; 32; 49] = PSyntax /\
  parse_text strtod (40 + n) [101; 99; 104; 111; 32; 49; 10] = POk [SEcho (EInt 1)].
Proof. intros strtod n. split; vm_compute; reflexivity. Qed.
Print Assumptions C37_last_statement_refuted.
(** [let a = 1, 2] is accepted, with one value too many (its effect: C26_extra_value_refuted). *)
Theorem C37_extra_value_refuted : forall strtod n, parse_text strtod (60 + n) [108;101;116;32;97;32;61;32;49;44;32;50;10] = POk [SDecl [LLet [97]] [EInt 1; EInt 2]].
Proof. intros strtod n. vm_compute. reflexivity. Qed.
Print Assumptions C37_extra_value_refuted.

(** ** C49. A program text does what it says: if the text, with any blanks and comments, is a way to write the statements [pr],
    then lexing, parsing, folding, compiling and loading it succeeds, and running it gives the output, the globals and the
    ending that [pr] prescribes ([Stmt.exec]). [prf] is [pr] with its constants folded. Missing, as in C44 and C24: break and
    continue after a declaration in the loop body, functions, containers, ===/!== and ! on constant floats, and programs
    beyond the fixed limits. *)
Lemma simplified_body pr : forall prf, simplified_list pr = Ok prf -> simplified (body pr) = Ok (body prf).
Proof.
  induction pr as [|s pr IH]; intros prf F; cbn [simplified_list] in F; [injection F as <-; reflexivity|]. destruct (simplified s) as [s'| | |] eqn:E; try discriminate. cbn [bind] in F. destruct (simplified_list pr) as [r| | |] eqn:Er; try discriminate. injection F as <-. cbn [body fold_right simplified]. rewrite E. cbn [bind]. change (fold_right SSeq SSkip pr) with (body pr). rewrite (IH _ eq_refl). reflexivity.
Qed.
Theorem C49_source_text_partial : forall strtod fuel items last pr prf gs lines w ls ks gl P n,
  well_written T_UNKNOWN items last -> stmts_written strtod pr (map snd items) -> simplified_list pr = Ok prf ->
  build strtod fuel gs (text_of items last) lines w ls ks = Some P ->
  (forall e rho, In e (exprs_of (body pr)) -> fold_guard w rho e) ->
  Forall (fun x => literal (VStr x)) gs -> Forall literal (literals (body prf)) ->
  (forall bytes, compile_program fuel gs prf lines = Ok bytes -> Gen.len bytes <= int_max) ->
  jumps_ok 0 (body pr) = true -> (peak 0 (body pr) <= 128)%nat -> (need (body pr) <= 1024)%nat -> (for_depth (body pr) <= 16)%nat ->
  match Stmt.exec (host_of w ls ks gs) n (body pr) (Env [[]] gl []) with
  | XOk Normal st => exists k s, run k P (vm_start gl) = Stop (Ok tt) s /\ v_out s = e_out st /\ v_gl s = e_globals st
  | XOk _ _ | XStuck => False
  | XStop o out => exists k s, run k P (vm_start gl) = Stop o s /\ v_out s = out
  | XFuel => exists s, run n P (vm_start gl) = Next s
  end.
Proof.
  intros strtod fuel items last pr prf gs lines w ls ks gl P n W H F B G Fg Fl LB J Pk Nd Fd.
  destruct (C37_text strtod items last pr prf W H F) as (n0 & Pa). pose proof (simplified_body _ _ F) as Fb. destruct (shapes_simplified _ _ Fb) as (Pd & Fd' & J' & Pk').
  assert (Pb : parsed (body pr) = true) by (apply (proj2 (proj2 (proj2 (written_parsed strtod))) pr _ H)).
  pose proof (need_simplified strtod _ _ Fb) as Nd'.
  unfold build in B. destruct (parse_text strtod fuel (text_of items last)) as [pr1| | | |] eqn:E1; try discriminate. assert (pr1 = prf) by (eapply C37_deterministic; [exact E1|apply (Pa n0); lia]). subst pr1.
  destruct (compile_program fuel gs prf lines) as [bytes| | |] eqn:E2; try discriminate. destruct (load bytes w ls ks) as [P0| | |] eqn:E3; try discriminate. injection B as ->.
  destruct (C44_program_partial fuel gs prf lines bytes w ls ks gl n Fg Fl ltac:(congruence) E2 (LB _ eq_refl) ltac:(rewrite J'; exact J) ltac:(rewrite Pk'; exact Pk) ltac:(lia) ltac:(rewrite Fd'; exact Fd)) as (P' & Lp & Q). assert (P' = P) by congruence. subst P'.
  rewrite (exec_simplified (host_of w ls ks gs) n (body pr) (body prf) _ Fb) in Q; [exact Q|]. unfold guarded. apply Forall_forall. intros e He rho. apply G, He.
Qed.
Print Assumptions C49_source_text_partial.
(** Legal programs are accepted: with enough fuel, the text is turned into a program that can be run. *)
Theorem C49_accepted_partial : forall strtod items last pr prf gs lines w ls ks,
  well_written T_UNKNOWN items last -> stmts_written strtod pr (map snd items) -> simplified_list pr = Ok prf ->
  Forall (fun x => literal (VStr x)) gs -> Forall literal (literals (body prf)) ->
  legal_program gs (body prf) = true -> live_jumps false (body prf) = true -> Z.of_nat (length gs) + Z.of_nat (length (literals (body prf))) <= 2 ^ 29 ->
  jumps_ok 0 (body pr) = true -> (peak 0 (body pr) <= 128)%nat -> (need (body pr) <= 1024)%nat -> (for_depth (body pr) <= 16)%nat ->
  exists n, forall fuel, (n <= fuel)%nat -> (forall bytes, compile_program fuel gs prf lines = Ok bytes -> Gen.len bytes <= int_max) ->
  exists P, build strtod fuel gs (text_of items last) lines w ls ks = Some P.
Proof.
  intros strtod items last pr prf gs lines w ls ks W H F Fg Fl L LJ Sm J Pk Nd Fd.
  destruct (C37_text strtod items last pr prf W H F) as (n & Pa). pose proof (simplified_body _ _ F) as Fb. destruct (shapes_simplified _ _ Fb) as (Pd & Fd' & J' & Pk').
  assert (Pb : parsed (body pr) = true) by (apply (proj2 (proj2 (proj2 (written_parsed strtod))) pr _ H)).
  pose proof (need_simplified strtod _ _ Fb) as Nd'. exists (Nat.max n (Z.to_nat FUEL_BOUND)). intros fuel Lf LB.
  assert (Hf : FUEL_BOUND <= Z.of_nat fuel) by (unfold FUEL_BOUND in *; lia).
  destruct (C27_accepts fuel gs prf lines Fg Fl ltac:(congruence) L LJ ltac:(rewrite Pk'; lia) Hf Sm) as (bytes & Cp).
  destruct (C44_program_partial fuel gs prf lines bytes w ls ks (fun _ => None) 0 Fg Fl ltac:(congruence) Cp (LB _ Cp) ltac:(rewrite J'; exact J) ltac:(rewrite Pk'; exact Pk) ltac:(lia) ltac:(rewrite Fd'; exact Fd)) as (P & Lp & _).
  exists P. unfold build. rewrite (Pa fuel) by lia. rewrite Cp, Lp. reflexivity.
Qed.
Print Assumptions C49_accepted_partial.
(** The conditions can be met:
<<
let a = 1 + 1 # start
while a < 7 {
	a += 2
}
echo a
>>  prints 8. *)
Definition demo_items : list (list Z * lexeme) :=
  [([], LFixed T_LET); ([32], LId a); ([32], LFixed T_EQ); ([32], LInt [49]); ([32], LFixed T_PLUS); ([32], LInt [49]); ([32], LNewline);
   ([35; 115; 10], LFixed T_WHILE); ([32], LId a); ([32], LFixed T_LT); ([32], LInt [55]); ([32], LFixed T_LBRC);
   ([10; 9], LId a); ([32], LFixed T_PLUSEQ); ([32], LInt [50]); ([], LNewline); ([], LFixed T_RBRC); ([], LNewline);
   ([], LFixed T_ECHO); ([32], LId a); ([], LNewline)].
Definition demo_program : list stmt :=
  [SDecl [LLet a] [EBin (BOp BAdd) (EInt 1) (EInt 1)]; SWhile (EBin (BOp BLt) (EVar a) (EInt 7)) (SBlock (sequence [SAssign a (combine (OBin (BOp BAdd)) (EVar a) (EInt 2))])); SEcho (EVar a)].
Definition demo_folded : list stmt :=
  [SDecl [LLet a] [EInt 2]; SWhile (EBin (BOp BLt) (EVar a) (EInt 7)) (SBlock (SSeq (SAssign a (EBin (BOp BAdd) (EVar a) (EInt 2))) SSkip)); SEcho (EVar a)].
Lemma printed strtod e : ParseSpec.writable e = true -> expr_at strtod 0 e (written print_i64 0 e).
Proof. intros W. apply written_at; [exact print_digits|exact W|lia]. Qed.
Example C49_nonvacuous : forall strtod,
  well_written T_UNKNOWN demo_items [] /\ stmts_written strtod demo_program (map snd demo_items) /\ simplified_list demo_program = Ok demo_folded /\
  (forall w e rho, In e (exprs_of (body demo_program)) -> fold_guard w rho e) /\ Forall literal (literals (body demo_folded)) /\
  legal_program [] (body demo_folded) = true /\ live_jumps false (body demo_folded) = true /\ jumps_ok 0 (body demo_program) = true /\
  (peak 0 (body demo_program) <= 128)%nat /\ (need (body demo_program) <= 1024)%nat /\ (for_depth (body demo_program) <= 16)%nat /\
  match compile_program 200 [] demo_folded [] with Ok bytes => Gen.len bytes <= int_max | _ => False end /\
  match build strtod 200 [] (text_of demo_items []) [] demo_world none none with
  | Some P => match run 500 P (vm_start unset) with Stop o s => o = Ok tt /\ v_out s = [56; 10] | _ => False end
  | None => False end /\
  match Stmt.exec (host_of demo_world none none []) 10 (body demo_program) (Env [[]] unset []) with XOk Normal st => e_out st = [56; 10] | _ => False end.
Proof.
  intros strtod. split; [|split; [|split; [|split; [|split]]]].
  - unfold demo_items, a. cbn [well_written text_of app spell kind ends_statement negb].
    repeat match goal with
    | |- _ /\ _ => split
    | |- blank _ _ => solve [repeat constructor | apply (b_line true [115] []); [reflexivity|repeat constructor; discriminate|repeat constructor]]
    | |- ends_at _ _ => vm_compute; reflexivity
    | |- last_blank _ _ => exists [], []; split; [reflexivity|]; split; [constructor|left; reflexivity]
    | |- wf_lexeme _ (LId [?c]) => split; [exists c, []; repeat split; [unfold letter; lia|constructor]|right; right; repeat split; [vm_compute; intuition discriminate|intros ([] & W & E); discriminate|discriminate|discriminate]]
    | |- wf_lexeme _ (LFixed _) => split; [discriminate|intros _; split; discriminate]
    | |- wf_lexeme _ (LInt _) => split; [discriminate|repeat constructor; unfold digit; lia]
    | |- wf_lexeme _ LNewline => reflexivity
    end.
  - unfold demo_program. cbn [map snd demo_items].
    apply (w_some strtod _ LNewline _ [LFixed T_LET; LId a; LFixed T_EQ; LInt [49]; LFixed T_PLUS; LInt [49]]); [|right; reflexivity|].
    { apply (w_decl strtod [LLet a] [EBin (BOp BAdd) (EInt 1) (EInt 1)] 0 [LFixed T_LET; LId a] [LInt [49]; LFixed T_PLUS; LInt [49]]); [apply w_lval, w_let|exact I| |reflexivity]. apply w_expr. exact (printed strtod (EBin (BOp BAdd) (EInt 1) (EInt 1)) eq_refl). }
    apply (w_some strtod _ LNewline _ [LFixed T_WHILE; LId a; LFixed T_LT; LInt [55]; LFixed T_LBRC; LId a; LFixed T_PLUSEQ; LInt [50]; LNewline; LFixed T_RBRC]); [|right; reflexivity|].
    { apply (w_while strtod _ _ [LId a; LFixed T_LT; LInt [55]] [LFixed T_LBRC; LId a; LFixed T_PLUSEQ; LInt [50]; LNewline; LFixed T_RBRC]); [exact (printed strtod (EBin (BOp BLt) (EVar a) (EInt 7)) eq_refl)|].
      apply (w_body strtod _ [LId a; LFixed T_PLUSEQ; LInt [50]; LNewline]). apply (w_some strtod _ LNewline _ [LId a; LFixed T_PLUSEQ; LInt [50]] []); [|right; reflexivity|constructor].
      apply w_assignment. apply w_compound; [reflexivity|]. exact (printed strtod (EInt 2) eq_refl). }
    apply (w_some strtod _ LNewline _ [LFixed T_ECHO; LId a] []); [|right; reflexivity|constructor]. apply w_echo. exact (printed strtod (EVar a) eq_refl).
  - reflexivity.
  - intros w e rho He. cbn in He. repeat (destruct He as [<-|He]; [intros s Hs; repeat match goal with H : sub _ _ |- _ => inversion H; clear H; subst; try exact I end|]). contradiction.
  - repeat constructor; vm_compute; discriminate.
  - split; [vm_compute; reflexivity|]. split; [vm_compute; reflexivity|]. split; [vm_compute; reflexivity|].
    split; [apply Nat.leb_le; vm_compute; reflexivity|]. split; [apply Nat.leb_le; vm_compute; reflexivity|]. split; [apply Nat.leb_le; vm_compute; reflexivity|].
    split; [vm_compute; discriminate|]. split; [vm_compute; split; reflexivity|]. vm_compute; reflexivity.
Qed.
