(** * C65: a string with interpolated expressions is the concatenation of its parts. *)
From Coq Require Import String.
From Verif Require Import Base Value Ops Ast Text Lexer LexSpec LexProofs PropLex LexInput LexInputProofs LexInputProofs2 LexInputProofs3 Names.
From Verif Require Import Parser ParseSpec Tree TreeParser TreeSpec PropTree Interp InterpSpec InterpProofs.
Local Open Scope list_scope.

Definition first_byte (parts : list part) : Z := match parts with [] => 34 | _ => 35 end.
Lemma parts_first parts rest : exists r, parts_text parts rest = first_byte parts :: r.
Proof. destruct parts; eexists; reflexivity. Qed.
Lemma parts_read strtod txt : Forall is_byte txt /\ Z.of_nat (length txt) < 2147483648 -> forall rest parts efs, Forall (part_ok strtod) parts -> Forall2 (fun p ef => fold_e (p_meant p) = Ok ef) parts efs ->
  forall k acc s r, l_type s = T_STR -> l_interp s = (first_byte parts =? 35) -> parts_text parts rest = first_byte parts :: r -> input txt s r -> (length r < k)%nat ->
  exists n s2 s3, (forall m, (n <= m)%nat -> i_parts strtod k (length txt + 3) m txt acc s =
      Ok (POk (fold_left (fun acc q => XBin (BOp BCnct) (XBin (BOp BCnct) acc (fst q)) (XStr (map piece_byte (snd q)))) (List.combine efs (map p_after parts)) acc, s2))) /\
    i_gettok txt (length txt + 3) s3 = Ok s2 /\ l_type s3 = T_STR /\ input txt s3 rest /\ l_line s3 = l_line s + newlines (parts_text parts []).
Proof.
  intros B rest. induction parts as [|p ps IH]; intros efs Ok1 Fo k acc s r T Ip E I Lt; (destruct k as [|k]; [lia|]).
  - inversion Fo; subst. cbn [parts_text first_byte] in *. injection E as <-. destruct (next_total txt B s rest I) as (s2 & E2 & _). exists O, s2, s. cbn [i_parts combine map fold_left]. change (34 =? 35) with false in Ip. rewrite Ip, E2. cbn [bind].
    split; [reflexivity|]. split; [reflexivity|]. split; [exact T|]. split; [exact I|]. cbn [newlines]. change (34 =? 10) with false. cbn iota. lia.
  - inversion Fo as [|? ef ? efs' Fe Fo']; subst. inversion Ok1 as [|? ? (Dx & Ww & Dp) Ok']; subst. cbn [first_byte] in *. change (35 =? 35) with true in Ip. cbn [parts_text] in E. injection E as <-.
    set (body_text := pieces (p_after p) ++ parts_text ps rest) in *.
    assert (Et : text_of (p_written p) (p_gap p ++ 125 :: body_text) = text_of (p_written p ++ [(p_gap p, LFixed T_RBRC)]) body_text) by (rewrite text_of_snoc; reflexivity). rewrite Et in *. set (its := p_written p ++ [(p_gap p, LFixed T_RBRC)]) in *.
    destruct (item_read txt B s [] (LFixed T_LBRC) (text_of its body_text) I ltac:(constructor) ltac:(split; discriminate) (lbrace_ends _)) as (s1 & E1 & T1 & _ & _ & _ & I1 & L1). change (kind (LFixed T_LBRC)) with T_LBRC in T1.
    rewrite <- T1 in Ww. pose proof (input_len _ _ _ I1) as Ln1.
    destruct (located_items txt B (p_gap p) body_text (p_written p) s1 (S (S (length txt))) I1 Ww ltac:(fold its; lia)) as (s1' & ss & sb & more & E2 & Ip1 & Es & Tk & Tb & Cb & Ib & Lb).
    destruct (parts_first ps rest) as (r' & Er). unfold body_text in Ib. rewrite Er in Ib.
    assert (Q : first_byte ps = 34 \/ first_byte ps = 35) by (destruct ps; cbn; auto).
    destruct (body_read txt B sb (p_after p) (first_byte ps) r' Ib Q Dp) as (s2 & s3 & Eg & Eb & T3 & V3 & Ip3 & I3 & L3).
    assert (Lr' : (length r' < k)%nat).
    { assert (X : (length r' < length body_text)%nat) by (unfold body_text; rewrite Er, app_length; cbn [length]; lia). assert (Y : (length body_text <= length (text_of its body_text))%nat) by (rewrite (text_of_app its body_text), app_length; lia). cbn [length] in Lt. lia. }
    destruct (IH efs' Ok' Fo' k (tilde (tilde acc ef) (XStr (map piece_byte (p_after p)))) s3 r' T3 Ip3 Er I3 Lr') as (n & s4 & s5 & Rn & E5 & T5 & I5 & L5).
    destruct (C56_expression strtod (p_meant p) (map snd (p_written p)) (map token_of ss) (map token_of (sb :: more)) ef Dx Tk Fe) as (n0 & Rx).
    { cbn [map cur token_of t_type]. rewrite Tb. reflexivity. }
    exists (Nat.max n n0), s4, s5. split; [|split; [exact E5|split; [exact T5|split; [exact I5|]]]].
    + intros m Lm. cbn [i_parts]. rewrite Ip, E1. cbn [bind]. rewrite T1. change (negb (tk_eqb T_LBRC T_LBRC)) with false. cbn iota.
      rewrite E2. cbn [bind]. replace (set_interp s1' false) with s1' by (destruct s1'; cbn in Ip1 |- *; rewrite Ip1; reflexivity). rewrite Es. cbn [bind]. rewrite map_app, Rx by lia.
      rewrite map_length, app_length, Nat.add_sub. rewrite nth_error_app2, Nat.sub_diag by lia. cbn [nth_error]. rewrite Cb. change (125 =? 125) with true. cbn iota. rewrite Eg. cbn [bind]. rewrite Eb. cbn [bind fst snd]. rewrite V3. rewrite Rn by lia. reflexivity.
    + rewrite L5, L3, Lb, L1. cbn [parts_text]. unfold pieces. rewrite text_of_snoc, text_of_app, (text_of_app _ (p_gap p ++ 125 :: _)). cbn [newlines]. rewrite !newlines_app. cbn [newlines spell spelling]. rewrite !newlines_app, (dpieces_nl _ Dp). change (125 =? 10) with false. change (35 =? 10) with false. change (123 =? 10) with false. cbn [newlines]. lia.
Qed.
Lemma parts_app : forall parts rest, parts_text parts rest = parts_text parts [] ++ rest.
Proof.
  induction parts as [|p ps IH]; intros rest; cbn [parts_text]; [reflexivity|]. rewrite (text_of_app _ (p_gap p ++ 125 :: pieces (p_after p) ++ parts_text ps [])), text_of_app, (IH rest). cbn [app]. do 2 f_equal. rewrite <- !app_assoc. cbn [app]. rewrite <- ?app_assoc. reflexivity.
Qed.
Lemma stands_input txt before rest s : Forall is_byte txt /\ Z.of_nat (length txt) < 2147483648 -> stands txt before rest s -> input txt s rest.
Proof. intros B (E & P & Ef). split; [exists before; exact E|]. split; [|exact Ef]. unfold lxtell in P. unfold pos_of. rewrite (count_len txt B), P, E, app_length. lia. Qed.
Lemma input_stands txt before rest s : Forall is_byte txt /\ Z.of_nat (length txt) < 2147483648 -> txt = before ++ rest -> input txt s rest -> stands txt before rest s.
Proof. intros B E (_ & P & Ef). split; [exact E|]. split; [|exact Ef]. unfold lxtell. rewrite P. unfold pos_of. rewrite (count_len txt B), E, app_length. lia. Qed.

(** C65. Wherever a text contains a string with interpolated expressions, however these are written (calls, lists, tables, functions, strings
    without interpolation, blanks and comments), the token there is a string, the parser reads it as text ~ expression ~ text ~ ..., each expression with its
    constants folded, and goes on directly after the closing quote, with the line number that is due. *)
Theorem C65_interpolation strtod txt before after p0 parts efs s :
  Forall is_byte txt -> Z.of_nat (length txt) < 2 ^ 31 -> stands txt before (string_text p0 parts [] ++ after) s ->
  Forall dpiece_ok p0 -> Forall (part_ok strtod) parts -> Forall2 (fun p ef => fold_e (p_meant p) = Ok ef) parts efs ->
  exists s1 s2 s3 n, i_gettok txt (length txt + 3) s = Ok s1 /\ l_type s1 = T_STR /\
    (forall m, (n <= m)%nat -> parse_string strtod m txt s1 = Ok (POk (concatenation p0 (List.combine efs (map p_after parts)), s2))) /\
    i_gettok txt (length txt + 3) s3 = Ok s2 /\ l_type s3 = T_STR /\ stands txt (before ++ string_text p0 parts []) after s3 /\ l_line s3 = l_line s + newlines (string_text p0 parts []).
Proof.
  intros B Sm St D Ok1 Fo. assert (BS : Forall is_byte txt /\ Z.of_nat (length txt) < 2147483648) by (split; [exact B|exact Sm]). pose proof (stands_input _ _ _ _ BS St) as I. destruct St as (E & _).
  unfold string_text in *. cbn [app] in I, E. rewrite <- app_assoc, <- parts_app in I, E. destruct (parts_first parts after) as (r & Er).
  assert (G : gettok (l_type s) (34 :: pieces p0 ++ parts_text parts after) (l_line s) = Some (Tok T_STR (map piece_byte p0) false (first_byte parts =? 35), r, l_line s)).
  { rewrite Er. unfold pieces. destruct parts as [|p ps]; cbn [first_byte] in *; [|apply C47_interpolation_starts, D].
    change (34 =? 35) with false. rewrite gettok_eq, EB_other by reflexivity. cbn [finish].
    unfold token_at, eat_number, eat_id, eat_string, eat_raw, eat_interp. change (is_digit 34) with false. change (is_idstart 34) with false. change (34 =? 39) with false. change (34 =? 96) with false. change (34 =? 34) with true. cbn [or_else].
    rewrite (eat_dbl_pieces p0 34 r (or_introl eq_refl) D). reflexivity. }
  pose proof (input_len _ _ _ I) as Ln. destruct (gettok_ok txt BS (length txt + 3) s _ _ I ltac:(lia) G) as (s1 & E1 & T1 & R). destruct (R ltac:(discriminate)) as (Tk & L1 & I1).
  assert (Ip : l_interp s1 = (first_byte parts =? 35)) by exact (f_equal t_interp Tk). assert (V : l_val s1 = map piece_byte p0) by exact (f_equal t_val Tk).
  pose proof (input_len _ _ _ I1) as Ln1. destruct (parts_read strtod txt BS after parts efs Ok1 Fo (S (length txt)) (XStr (l_val s1)) s1 r T1 Ip Er I1 ltac:(lia)) as (n & s2 & s3 & Rn & E3 & T3 & I3 & L3).
  exists s1, s2, s3, n. split; [exact E1|]. split; [exact T1|]. split; [intros m Lm; unfold parse_string; rewrite Rn by exact Lm; rewrite V; reflexivity|]. split; [exact E3|]. split; [exact T3|]. split.
  - apply input_stands; [exact BS| |exact I3]. rewrite E, <- app_assoc. cbn [app]. rewrite <- app_assoc, <- parts_app. reflexivity.
  - rewrite L3, L1. cbn [newlines]. change (34 =? 10) with false. cbn iota. rewrite newlines_app. unfold pieces. rewrite (dpieces_nl _ D). lia.
Qed.
Print Assumptions C65_interpolation.
(** What it means: the parser reads the very same tree from the text in which the concatenation is written out. *)
Lemma cnct_fold l r lf rf : fold_e l = Ok lf -> fold_e r = Ok rf -> fold_e (XBin (BOp BCnct) l r) = Ok (XBin (BOp BCnct) lf rf).
Proof.
  intros A B. cbn [fold_e]. rewrite A, B. cbn [bind]. unfold foldx_bin. destruct (leafx lf) as [a|]; [|reflexivity]. destruct (leafx rf) as [b|]; [|reflexivity].
  destruct a; destruct b; try reflexivity; cbn; repeat match goal with |- context [if ?c then _ else _] => destruct c end; reflexivity.
Qed.
Lemma concatenation_fold parts efs : Forall2 (fun p ef => fold_e (p_meant p) = Ok ef) parts efs -> forall acc accf, fold_e acc = Ok accf ->
  fold_e (fold_left (fun acc q => XBin (BOp BCnct) (XBin (BOp BCnct) acc (fst q)) (XStr (map piece_byte (snd q)))) (List.combine (map p_meant parts) (map p_after parts)) acc) =
  Ok (fold_left (fun acc q => XBin (BOp BCnct) (XBin (BOp BCnct) acc (fst q)) (XStr (map piece_byte (snd q)))) (List.combine efs (map p_after parts)) accf).
Proof.
  induction 1 as [|p ef parts efs F Fo IH]; intros acc accf A; cbn [map List.combine fold_left]; [exact A|]. apply IH. cbn [fst snd]. apply cnct_fold; [apply cnct_fold; assumption|reflexivity].
Qed.
Lemma written_out_at strtod parts : Forall (part_ok strtod) parts -> forall acc a, x_at strtod 0 acc a ->
  x_at strtod 0 (fold_left (fun acc q => XBin (BOp BCnct) (XBin (BOp BCnct) acc (fst q)) (XStr (map piece_byte (snd q)))) (List.combine (map p_meant parts) (map p_after parts)) acc)
    (fold_left (fun acc p => LFixed T_LPAR :: (LFixed T_LPAR :: acc ++ [LFixed T_RPAR; LFixed T_TILDE; LFixed T_LPAR] ++ map snd (p_written p) ++ [LFixed T_RPAR]) ++ [LFixed T_RPAR; LFixed T_TILDE; LDbl (p_after p)]) parts a).
Proof.
  induction 1 as [|p ps (X & _) Fo IH]; intros acc a A; cbn [map List.combine fold_left]; [exact A|]. apply IH. cbn [fst snd].
  assert (K : x_at strtod 0 (mix (OBin (BOp BCnct)) acc (p_meant p)) ((LFixed T_LPAR :: a ++ [LFixed T_RPAR]) ++ LFixed (symbol (OBin (BOp BCnct))) :: LFixed T_LPAR :: map snd (p_written p) ++ [LFixed T_RPAR])).
  { apply (lw strtod 6 0 _ _ eq_refl). apply (x_right strtod (OBin (BOp BCnct)) acc (p_meant p)); [reflexivity|discriminate|apply (lw strtod 16 7 _ _ eq_refl), x_parens, A|apply (lw strtod 16 6 _ _ eq_refl), x_parens, X]. }
  assert (K2 : x_at strtod 0 (mix (OBin (BOp BCnct)) (mix (OBin (BOp BCnct)) acc (p_meant p)) (embed (EStr (map piece_byte (p_after p)))))
     ((LFixed T_LPAR :: ((LFixed T_LPAR :: a ++ [LFixed T_RPAR]) ++ LFixed (symbol (OBin (BOp BCnct))) :: LFixed T_LPAR :: map snd (p_written p) ++ [LFixed T_RPAR]) ++ [LFixed T_RPAR]) ++ LFixed (symbol (OBin (BOp BCnct))) :: [LDbl (p_after p)])).
  { apply (lw strtod 6 0 _ _ eq_refl). apply (x_right strtod (OBin (BOp BCnct))); [reflexivity|discriminate|apply (lw strtod 16 7 _ _ eq_refl), x_parens, K|apply (lw strtod 16 6 _ _ eq_refl), x_leaf, leaf_dbl]. }
  cbn [mix embed symbol] in K2. cbn [app] in K2 |- *. rewrite <- ?app_assoc in K2. cbn [app] in K2. rewrite <- ?app_assoc in K2. cbn [app] in K2. rewrite <- ?app_assoc. cbn [app]. rewrite <- ?app_assoc. cbn [app]. exact K2.
Qed.
Theorem C65_written_out strtod p0 parts efs toks rest : Forall (part_ok strtod) parts -> Forall2 (fun p ef => fold_e (p_meant p) = Ok ef) parts efs ->
  tokens toks (written_out p0 parts) -> continues (cur rest) = false ->
  exists n, forall m, (n <= m)%nat -> q_expr strtod m (toks ++ rest) = POk (concatenation p0 (List.combine efs (map p_after parts)), rest).
Proof.
  intros Ok1 Fo T C. refine (C56_expression strtod (concatenation p0 (List.combine (map p_meant parts) (map p_after parts))) (written_out p0 parts) toks rest _ _ T _ C).
  - apply written_out_at; [exact Ok1|]. apply (lw strtod 16 0 _ _ eq_refl), (x_leaf strtod (EStr (map piece_byte p0))), leaf_dbl.
  - apply concatenation_fold; [exact Fo|reflexivity].
Qed.
Print Assumptions C65_written_out.
(** [1 ~ "a#{x + 1 /* y */}\n#{ {}}"; ] *)
Definition demo_parts : list part :=
  [Part [([], LId [120]); ([32], LFixed T_PLUS); ([32], LInt [49])] (XBin (BOp BAdd) (XVar [120]) (XInt 1)) (bytes_of " /* y */") [PNamed 110];
   Part [([32], LFixed T_LBRC); ([], LFixed T_RBRC)] (XTable XNil) [] []].
Example C65_nonvacuous strtod : let txt := bytes_of "1 ~ " ++ string_text [PByte 97] demo_parts [] ++ bytes_of "; " in
  Forall is_byte txt /\ Z.of_nat (length txt) < 2 ^ 31 /\ stands txt (bytes_of "1 ~ ") (string_text [PByte 97] demo_parts [] ++ bytes_of "; ") (L 32 4 false 1 [] T_TILDE false) /\
  Forall dpiece_ok [PByte 97] /\ Forall (part_ok strtod) demo_parts /\ Forall2 (fun p ef => fold_e (p_meant p) = Ok ef) demo_parts (map p_meant demo_parts) /\
  string_text [PByte 97] demo_parts [] = 34 :: bytes_of "a#{x + 1 /* y */}\n#{ {}}" ++ [34].
Proof.
  assert (Bk : blank false (bytes_of " /* y */")).
  { apply b_space, (b_block false (bytes_of " y ") []); [|right; repeat constructor; discriminate|constructor]. intros u v X. do 4 (destruct u as [|? u]; [discriminate X|cbn in X; injection X as _ X]). destruct u; discriminate X. }
  split; [apply Forall_forall; intros x Hx; vm_compute in Hx; unfold is_byte; lia|]. split; [vm_compute; reflexivity|]. split; [split; [reflexivity|split; [reflexivity|discriminate]]|]. split; [repeat constructor; lia|].
  split; [|split; [repeat constructor|reflexivity]].
  constructor; [split; [|split]|constructor; [split; [|split]|constructor]].
  - apply (d_sum strtod (ParseSpec.OBin (BOp BAdd)) _ _ _ _ eq_refl eq_refl (vr strtod [120] 11 eq_refl) (dg strtod 1 12 eq_refl eq_refl)).
  - cbn [well_written app demo_parts p_written p_gap spell kind text_of ends_statement negb].
    repeat match goal with
    | |- _ /\ _ => split
    | |- blank _ (bytes_of _) => exact Bk
    | |- blank _ _ => solve [repeat constructor]
    | |- ends_at _ _ => vm_compute; reflexivity
    | |- last_blank _ _ => exists [], []; split; [reflexivity|]; split; [constructor|left; reflexivity]
    | |- wf_lexeme _ (LId [?c]) => split; [exists c, []; repeat split; [unfold letter; lia|constructor]|right; right; repeat split; [vm_compute; intuition discriminate|intros ([] & W & E); discriminate|discriminate|discriminate]]
    | |- wf_lexeme _ (LFixed _) => split; [discriminate|intros _; split; discriminate]
    | |- wf_lexeme _ (LInt _) => split; [discriminate|repeat constructor; unfold digit; lia]
    end.
  - apply Forall_cons; [cbn; tauto|constructor].
  - exact (lw strtod 16 0 _ _ eq_refl (x_notable strtod)).
  - cbn [well_written app demo_parts p_written p_gap spell kind text_of ends_statement negb].
    repeat match goal with
    | |- _ /\ _ => split
    | |- blank _ _ => solve [repeat constructor]
    | |- ends_at _ _ => vm_compute; reflexivity
    | |- last_blank _ _ => exists [], []; split; [reflexivity|]; split; [constructor|left; reflexivity]
    | |- wf_lexeme _ (LFixed _) => split; [discriminate|intros _; split; discriminate]
    end.
  - constructor.
Qed.
(** The brace may be missing: the parser only asks whether the character the lexer stands on is a brace, and it is also after a name or number
    that comes directly before it. So ["#{x y}"] is accepted; y is lost and the brace becomes part of the text. *)
Theorem C65_missing_brace_refuted strtod n : let txt := 34 :: bytes_of "#{x y}" ++ [34] in
  exists s1 s2, i_gettok txt (length txt + 3) new_lexer = Ok s1 /\ parse_string strtod (30 + n) txt s1 = Ok (POk (concatenation [] [(XVar [120], [PByte 125])], s2)).
Proof. eexists _, _. split; [vm_compute; reflexivity|]. vm_compute. reflexivity. Qed.
Print Assumptions C65_missing_brace_refuted.
(** A string with an interpolation cannot be the first thing inside one: ["#{"a#{b}"}"] is a syntax error. *)
Theorem C65_nested_refuted strtod n : let txt := 34 :: bytes_of "#{" ++ 34 :: bytes_of "a#{b}" ++ 34 :: bytes_of "}" ++ [34] in
  exists s1, i_gettok txt (length txt + 3) new_lexer = Ok s1 /\ parse_string strtod (30 + n) txt s1 = Ok PSyntax.
Proof. eexists. split; [vm_compute; reflexivity|]. vm_compute. reflexivity. Qed.
Print Assumptions C65_nested_refuted.
