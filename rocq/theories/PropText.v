(** * C41, C42, C46: texts of ints, echo, concatenation. *)
From Verif Require Import Base Value Ops VM Text TextSpec TextProofs.

(** ** C41 *)
(** The text of an int is its decimal text, and there is only one. *)
Theorem C41_text : forall n, in_i64 n -> is_text_of n (int_tostr n).
Proof. exact print_text. Qed.
Theorem C41_text_injective : forall n m, in_i64 n -> in_i64 m -> int_tostr n = int_tostr m -> n = m.
Proof.
  intros n m Bn Bm E. destruct (print_text n Bn) as (d1 & E1 & F1 & _ & V1). destruct (print_text m Bm) as (d2 & E2 & F2 & _ & V2). unfold int_tostr in E. rewrite E1, E2 in E.
  destruct (Z.ltb_spec n 0), (Z.ltb_spec m 0); cbn [app] in E.
  - injection E as E. subst. lia.
  - subst d2. inversion F2 as [|? ? X _]. unfold dec_digit in X. lia.
  - subst d1. inversion F1 as [|? ? X _]. unfold dec_digit in X. lia.
  - subst. lia.
Qed.
Theorem C41_roundtrip : forall n, in_i64 n -> str_toint (int_tostr n) = n.
Proof.
  intros n B. destruct (print_text n B) as (ds & E & F & H & V). unfold int_tostr. rewrite E. assert (Ne : ds <> []) by (destruct H as [->|(c & r & -> & _)]; discriminate).
  assert (Sp : spaced ds ds) by (clear; induction ds; constructor; assumption). unfold in_i64, int_min, int_max in B.
  rewrite (toint_dec _ ds ds F Ne) by (first [exact Sp|left; reflexivity|destruct (n <? 0); auto]). unfold signed, clamp. destruct (Z.ltb_spec n 0); lia.
Qed.
(** Parsing: an optional sign and digits, with underscores anywhere (in a text of more than two characters). *)
Theorem C41_parse_decimal : forall sg ds t, Forall dec_digit ds -> ds <> [] -> (sg = [] \/ sg = [45] \/ sg = [43]) -> spaced ds t -> t = ds \/ (2 < length (sg ++ t))%nat ->
  str_toint (sg ++ t) = clamp (if match sg with [45] => true | _ => false end then - denotes 10 ds else denotes 10 ds).
Proof.
  intros sg ds t F Ne Sg Sp Hl. rewrite (toint_dec sg ds t F Ne Sg Sp). - unfold signed. destruct Sg as [->|[->| ->]]; reflexivity. - rewrite app_length in Hl. destruct Hl as [->|Hl]; auto.
Qed.
Theorem C41_parse_prefixed : forall ds t, ds <> [] -> spaced ds t ->
  (Forall hex_digit ds -> str_toint (48 :: 120 :: t) = clamp (denotes 16 ds) /\ str_toint (48 :: 88 :: t) = clamp (denotes 16 ds)) /\
  (Forall bin_digit ds -> str_toint (48 :: 98 :: t) = clamp (denotes 2 ds) /\ str_toint (48 :: 66 :: t) = clamp (denotes 2 ds)).
Proof.
  intros ds t Ne Sp. split; intros F; split.
  - apply (toint_prefixed 16 120 ds t); unfold digits_ok; auto.
  - apply (toint_prefixed 16 88 ds t); unfold digits_ok; auto.
  - apply (toint_prefixed 2 98 ds t); unfold digits_ok; auto.
  - apply (toint_prefixed 2 66 ds t); unfold digits_ok; auto.
Qed.
(** Literals: the value of the digits, or the largest int if they denote more. *)
Theorem C41_literal : forall ds, ds <> [] ->
  (Forall dec_digit ds -> get_int ds = clamp (denotes 10 ds)) /\
  (Forall hex_digit ds -> get_int (48 :: 120 :: ds) = clamp (denotes 16 ds)) /\
  (Forall bin_digit ds -> get_int (48 :: 98 :: ds) = clamp (denotes 2 ds)).
Proof.
  intros ds Ne. split; [|split]; intros F.
  - unfold get_int. pose proof (strtoll_ok 10 [] ds ltac:(left; auto) Ne ltac:(auto)) as X. cbn [app] in X. destruct ds as [|a [|b r]]; try (rewrite X; reflexivity). inversion F as [|? ? _ F2]; subst. inversion F2 as [|? ? Fb _]; subst. unfold dec_digit in Fb.
    replace (b =? 120) with false by (symmetry; lia). replace (b =? 98) with false by (symmetry; lia). rewrite X. reflexivity.
  - unfold get_int. pose proof (strtoll_ok 16 [] ds ltac:(right; left; auto) Ne ltac:(auto)) as X. cbn [app] in X. change (120 =? 120) with true. cbv iota. rewrite X. reflexivity.
  - unfold get_int. pose proof (strtoll_ok 2 [] ds ltac:(right; right; auto) Ne ltac:(auto)) as X. cbn [app] in X. change (98 =? 120) with false. change (98 =? 98) with true. cbv iota. rewrite X. reflexivity.
Qed.
Theorem C41_nonvacuous :
  int_tostr (-9223372036854775808) = [45;57;50;50;51;51;55;50;48;51;54;56;53;52;55;55;53;56;48;56] /\ int_tostr 0 = [48] /\
  str_toint [45;49;95;48;95;95;50] = -102 /\ str_toint [48;120;70;102] = 255 /\ get_int [48;98;49;48;49] = 5 /\ denotes 16 [70;102] = 255.
Proof. repeat match goal with |- _ /\ _ => split end; vm_compute; reflexivity. Qed.
(** Not all is as one would expect: underscores are not removed from texts of one or two characters, and a text that is not
    a number silently gives 0. *)
Theorem C41_short_refuted : ~ (forall ds t, Forall dec_digit ds -> ds <> [] -> spaced ds t -> str_toint t = clamp (denotes 10 ds)).
Proof.
  intros H. specialize (H [49] [49; 95]). assert (X : str_toint [49; 95] = clamp (denotes 10 [49])). { apply H; [repeat constructor; unfold dec_digit; lia|discriminate|]. apply sp_keep, sp_sep, sp_nil. }
  vm_compute in X. discriminate.
Qed.

(** ** C42: what echo writes, for every string, whatever the scratch space and fresh memory contain. *)
Theorem C42_echo : forall scratch heap s, (length scratch = 1024)%nat -> (forall n, length (heap n) = n) ->
  vm_echo scratch heap s = Ok (filter (fun c => negb (c =? 0)) s ++ [10]).
Proof. exact echo_ok. Qed.
Theorem C42_exact : forall scratch heap s, (length scratch = 1024)%nat -> (forall n, length (heap n) = n) -> Forall (fun c => c <> 0) s -> vm_echo scratch heap s = Ok (s ++ [10]).
Proof.
  intros sc h s A B F. rewrite (echo_ok sc h s A B). do 2 f_equal. induction F as [|c l Hc F IH]; [reflexivity|]. cbn [filter]. replace (c =? 0) with false by (symmetry; lia). cbn [negb]. f_equal. exact IH.
Qed.
(** The machine's echo instruction writes exactly that, after what was written before. *)
Theorem C42_instruction : forall (P : prog) s v k b t scratch heap, (length scratch = 1024)%nat -> (forall n, length (heap n) = n) ->
  nthZ (p_code P) (v_pc s) = Some b -> v_stk s = v :: k -> w_tostr (p_world P) v = Ok t ->
  exists s' o, VM.exec P O_ECHO s = Next s' /\ v_out s' = v_out s ++ o /\ vm_echo scratch heap t = Ok o /\ v_stk s' = k /\ v_gl s' = v_gl s.
Proof.
  intros P s v k b t sc h A B Eb Ek Et. eexists. exists (echo_bytes t). split; [|split; [|split; [exact (echo_ok sc h t A B)|]]].
  - unfold VM.exec, rd1. rewrite Eb. unfold pop. cbn [v_stk set_pc]. rewrite Ek. unfold lift. rewrite Et. reflexivity.
  - reflexivity.
  - split; reflexivity.
Qed.
Theorem C42_nonvacuous : vm_echo (repeat 7 1024) (fun n => repeat 9 n) [104; 0; 105] = Ok [104; 105; 10] /\
  vm_echo (repeat 7 1024) (fun n => repeat 9 n) (repeat 65 1025) = Ok (repeat 65 1025 ++ [10]).
Proof. split; vm_compute; reflexivity. Qed.

(** ** C46: concatenation joins the texts of its operands, left then right. *)
Theorem C46_concat : forall w a b ta tb, (forall v t, prim_tostr v = Some t -> w_tostr w v = Ok t) -> prim_tostr a = Some ta -> prim_tostr b = Some tb -> exec_binop w BCnct a b = Ok (VStr (ta ++ tb)).
Proof. intros w a b ta tb H A B. cbn [exec_binop]. unfold vm_cnct. rewrite (H b tb B), (H a ta A). reflexivity. Qed.
Theorem C46_strings : forall w, (forall s, w_tostr w (VStr s) = Ok s) ->
  (forall s t, exec_binop w BCnct (VStr s) (VStr t) = Ok (VStr (s ++ t))) /\
  (forall x y z, (do u <- exec_binop w BCnct (VStr x) (VStr y); exec_binop w BCnct u (VStr z)) = (do u <- exec_binop w BCnct (VStr y) (VStr z); exec_binop w BCnct (VStr x) u)).
Proof.
  intros w H. assert (K : forall s t, exec_binop w BCnct (VStr s) (VStr t) = Ok (VStr (s ++ t))) by (intros s t; cbn [exec_binop]; unfold vm_cnct; rewrite !H; reflexivity).
  split; [exact K|]. intros x y z. rewrite !K. cbn [bind]. rewrite !K, app_assoc. reflexivity.
Qed.
(** The first operand whose conversion fails, from the right, decides the error. *)
Theorem C46_errors : forall w a b e, (w_tostr w b = Err e -> exec_binop w BCnct a b = Err e) /\ (forall t, w_tostr w b = Ok t -> w_tostr w a = Err e -> exec_binop w BCnct a b = Err e).
Proof. intros w a b e. cbn [exec_binop]. unfold vm_cnct. split; [intros ->; reflexivity|]. intros t -> ->. reflexivity. Qed.
Theorem C46_nonvacuous : forall w, (forall v t, prim_tostr v = Some t -> w_tostr w v = Ok t) -> exec_binop w BCnct (VInt (-12)) (VBool true) = Ok (VStr [45;49;50;116;114;117;101]).
Proof. intros w H. exact (C46_concat w (VInt (-12)) (VBool true) [45;49;50] [116;114;117;101] H eq_refl eq_refl). Qed.
Print Assumptions C41_text.
Print Assumptions C41_text_injective.
Print Assumptions C41_roundtrip.
Print Assumptions C41_parse_decimal.
Print Assumptions C41_parse_prefixed.
Print Assumptions C41_literal.
Print Assumptions C41_nonvacuous.
Print Assumptions C41_short_refuted.
Print Assumptions C42_echo.
Print Assumptions C42_exact.
Print Assumptions C42_instruction.
Print Assumptions C42_nonvacuous.
Print Assumptions C46_concat.
Print Assumptions C46_strings.
Print Assumptions C46_errors.
Print Assumptions C46_nonvacuous.
