(** * Proofs about the lexer. *)
From Verif Require Import Base Text Lexer LexSpec.

(** ** Blanks: [eat_blank] with enough fuel, character by character. *)
Lemma eat_ws_len prev : forall cur line cur' line', eat_ws prev cur line = WGo cur' line' -> (length cur' <= length cur)%nat /\ (match cur with c :: _ => is_ws c = true -> (length cur' < length cur)%nat | [] => True end).
Proof.
  induction cur as [|c r IH]; intros line cur' line' E; cbn [eat_ws] in E.
  - injection E as <- <-. auto.
  - destruct (is_ws c) eqn:W.
    + assert (X : exists l2, eat_ws prev r l2 = WGo cur' line') by (destruct (c =? 10); [destruct (potential_end prev); [discriminate|]|]; eauto). destruct X as (l2 & X). apply IH in X. destruct X as [X _]. cbn [length]. split; intros; lia.
    + injection E as <- <-. split; [lia|discriminate].
Qed.
Lemma to_newline_len : forall r, (length (to_newline r) <= length r)%nat.
Proof. induction r as [|c r IH]; cbn [to_newline length]; [lia|]. destruct (c =? 10); cbn [length]; lia. Qed.
Lemma block_len : forall r c line semi r' l' s', block_comment c r line semi = Some (r', l', s') -> (length r' < length r)%nat.
Proof.
  induction r as [|c2 r IH]; intros c line semi r' l' s' E; cbn [block_comment] in E; [discriminate|]. destruct ((c =? 42) && (c2 =? 47)).
  - injection E as <- <- <-. cbn [length]. lia.
  - apply IH in E. cbn [length]. lia.
Qed.
Lemma eat_ws_nows prev c r line : is_ws c = false -> eat_ws prev (c :: r) line = WGo (c :: r) line.
Proof. intros E. cbn [eat_ws]. rewrite E. reflexivity. Qed.
Lemma blank_fuel prev : forall n m cur line, (length cur < n)%nat -> (length cur < m)%nat -> eat_blank n prev cur line = eat_blank m prev cur line.
Proof.
  induction n as [|n IH]; intros [|m] cur line L1 L2; try lia. cbn [eat_blank]. destruct cur as [|c cur]; [reflexivity|]. destruct (is_ws c || (c =? 35) || (c =? 47)) eqn:Hd; [|reflexivity].
  destruct (eat_ws prev (c :: cur) line) as [r0 l0|cur1 l1] eqn:W; [reflexivity|]. pose proof (eat_ws_len _ _ _ _ _ W) as (Le & Lt).
  destruct (eat_inline cur1) as [|d rest] eqn:In1; [reflexivity|].
  assert (K : (length (d :: rest) <= length cur1)%nat /\ (d <> 47 -> (length (d :: rest) < length (c :: cur))%nat)).
  { unfold eat_inline in In1. destruct cur1 as [|e cur1]; [discriminate|]. destruct (Z.eqb_spec e 35) as [->|Ne].
    - pose proof (to_newline_len cur1) as X. rewrite In1 in X. cbn [length] in *. lia.
    - injection In1 as <- <-. split; [lia|]. intros Hn. destruct (is_ws c) eqn:Wc; [apply Lt; reflexivity|]. rewrite (eat_ws_nows prev c cur line Wc) in W. injection W as <- <-. apply orb_prop in Hd. destruct Hd as [Hd|Hd]; [apply orb_prop in Hd; destruct Hd as [Hd|Hd]; [congruence|]|]; apply Z.eqb_eq in Hd; lia. }
  destruct (Z.eqb_spec d 47) as [->|Nd].
  - destruct rest as [|c1 r]; [reflexivity|]. destruct (c1 =? 42); [|reflexivity]. destruct r as [|c2 r]; [reflexivity|]. destruct (block_comment c2 r l1 false) as [[[r' l'] s']|] eqn:B; [|reflexivity]. destruct (s' && potential_end prev); [reflexivity|].
    apply block_len in B. destruct K as [K _]. cbn [length] in *. apply IH; cbn [length]; lia.
  - destruct K as [_ K]. specialize (K Nd). cbn [length] in *. apply IH; cbn [length]; lia.
Qed.
Definition EB (prev : tk) (cur : list Z) (line : Z) : skip_result := eat_blank (S (length cur)) prev cur line.
Lemma EB_fuel prev n cur line : (length cur < n)%nat -> eat_blank n prev cur line = EB prev cur line.
Proof. intros L. apply blank_fuel; [exact L|lia]. Qed.
(** the part of the loop after the blanks *)
Definition step (prev : tk) (w : ws_result) : skip_result :=
  match w with
  | WSemi rest line => Done (Tok T_SEMI [] true false, rest, line)
  | WGo cur line =>
    match eat_inline cur with
    | c :: rest =>
      if c =? 47 then
        match rest with
        | [] => Done (plain T_SLASH [] [] [] line)
        | c1 :: r =>
          if c1 =? 42 then
            match r with
            | [] => Done (lex_error [] [] line)
            | c1 :: r =>
              match block_comment c1 r line false with
              | None => Done (lex_error [] [] line)
              | Some (r, line, semi) => if semi && potential_end prev then Done (plain T_SEMI [] [32] r line) else EB prev (32 :: r) line
              end
            end
          else At (c :: rest) line
        end
      else EB prev (c :: rest) line
    | [] => At [] line
    end
  end.
Lemma EB_step prev cur line : EB prev cur line = step prev (eat_ws prev cur line).
Proof.
  destruct cur as [|c cur]; [reflexivity|].
  destruct (is_ws c || (c =? 35) || (c =? 47)) eqn:Hd.
  2:{ apply orb_false_elim in Hd. destruct Hd as [Hd H3]. apply orb_false_elim in Hd. destruct Hd as [H1 H2]. rewrite (eat_ws_nows _ _ _ _ H1). unfold step, eat_inline. rewrite H2, H3. reflexivity. }
  unfold EB. cbn [eat_blank]. rewrite Hd.
  destruct (eat_ws prev (c :: cur) line) as [r0 l0|cur1 l1] eqn:W; [reflexivity|]. pose proof (eat_ws_len _ _ _ _ _ W) as (Le & Lt). unfold step.
  destruct (eat_inline cur1) as [|d rest] eqn:In1; [reflexivity|].
  assert (K : (length (d :: rest) <= length cur1)%nat /\ (d <> 47 -> (length (d :: rest) < length (c :: cur))%nat)).
  { unfold eat_inline in In1. destruct cur1 as [|e cur1]; [discriminate|]. destruct (Z.eqb_spec e 35) as [->|Ne].
    - pose proof (to_newline_len cur1) as X. rewrite In1 in X. cbn [length] in *. lia.
    - injection In1 as <- <-. split; [lia|]. intros Hn. destruct (is_ws c) eqn:Wc; [apply Lt; reflexivity|]. rewrite (eat_ws_nows prev c cur line Wc) in W. injection W as <- <-. apply orb_prop in Hd. destruct Hd as [Hd|Hd]; [apply orb_prop in Hd; destruct Hd as [Hd|Hd]; [discriminate|]|]; apply Z.eqb_eq in Hd; lia. }
  destruct (Z.eqb_spec d 47) as [->|Nd].
  - destruct rest as [|c1 r]; [reflexivity|]. destruct (c1 =? 42); [|reflexivity]. destruct r as [|c2 r]; [reflexivity|]. destruct (block_comment c2 r l1 false) as [[[r' l'] s']|] eqn:B; [|reflexivity]. destruct (s' && potential_end prev); [reflexivity|].
    apply block_len in B. destruct K as [K _]. apply EB_fuel. cbn [length] in *. lia.
  - destruct K as [_ K]. specialize (K Nd). apply EB_fuel. cbn [length] in *. lia.
Qed.
Lemma EB_nil prev line : EB prev [] line = At [] line. Proof. reflexivity. Qed.
Lemma EB_space prev c r line : c = 32 \/ c = 9 -> EB prev (c :: r) line = EB prev r line.
Proof. intros [-> | ->]; rewrite !EB_step; reflexivity. Qed.
Lemma EB_newline prev r line : EB prev (10 :: r) line = if potential_end prev then Done (Tok T_SEMI [] true false, r, line + 1) else EB prev r (line + 1).
Proof. rewrite !EB_step. cbn [eat_ws]. change (is_ws 10) with true. cbn [Z.eqb]. change (10 =? 10) with true. cbn [step]. destruct (potential_end prev); reflexivity. Qed.
Lemma to_newline_none t : Forall (fun c => c <> 10) t -> to_newline t = [].
Proof. induction 1 as [|c t H _ IH]; cbn [to_newline]; [reflexivity|]. destruct (Z.eqb_spec c 10); [congruence|exact IH]. Qed.
Lemma to_newline_at t b : Forall (fun c => c <> 10) t -> to_newline (t ++ 10 :: b) = 10 :: b.
Proof. induction 1 as [|c t H _ IH]; cbn [to_newline app]; [reflexivity|]. destruct (Z.eqb_spec c 10); [congruence|exact IH]. Qed.
Lemma EB_line prev t b line : Forall (fun c => c <> 10) t -> EB prev (35 :: t ++ 10 :: b) line = EB prev (10 :: b) line.
Proof. intros H. rewrite EB_step. rewrite eat_ws_nows by reflexivity. cbn [step eat_inline]. change (35 =? 35) with true. cbn iota. rewrite (to_newline_at t b H). reflexivity. Qed.
Lemma EB_line_end prev t line : Forall (fun c => c <> 10) t -> EB prev (35 :: t) line = At [] line.
Proof. intros H. rewrite EB_step. rewrite eat_ws_nows by reflexivity. cbn [step eat_inline]. change (35 =? 35) with true. cbn iota. rewrite (to_newline_none t H). reflexivity. Qed.
Lemma EB_slash_end prev line : EB prev [47] line = Done (plain T_SLASH [] [] [] line). Proof. rewrite EB_step. reflexivity. Qed.
Lemma EB_slash prev c r line : c <> 42 -> EB prev (47 :: c :: r) line = At (47 :: c :: r) line.
Proof. intros N. rewrite EB_step. rewrite eat_ws_nows by reflexivity. cbn [step eat_inline]. change (47 =? 35) with false. change (47 =? 47) with true. cbn iota. destruct (Z.eqb_spec c 42); [congruence|reflexivity]. Qed.
Lemma EB_other prev c r line : is_ws c || (c =? 35) || (c =? 47) = false -> EB prev (c :: r) line = At (c :: r) line.
Proof. intros H. unfold EB. cbn [eat_blank]. rewrite H. reflexivity. Qed.
(** block comments *)
Lemma app_snoc_split {A} (x : A) t u v : t ++ [x] = u ++ v -> v <> [] -> exists w, t = u ++ w /\ v = w ++ [x].
Proof.
  intros E N. destruct (exists_last N) as (w & y & ->). rewrite app_assoc in E. apply app_inj_tail in E. destruct E as [-> ->]. eauto.
Qed.
Lemma block_find : forall t c b line semi,
  (forall u v, (c :: t) ++ [42] <> u ++ [42; 47] ++ v) ->
  block_comment c (t ++ 42 :: 47 :: b) line semi = Some (b, line + newlines (c :: t), semi || existsb (Z.eqb 10) (c :: t)).
Proof.
  induction t as [|d t IH]; intros c b line semi H.
  - cbn [app block_comment]. change (42 =? 47) with false. rewrite andb_false_r. change ((42 =? 42) && (47 =? 47)) with true. cbn iota. cbn [newlines existsb]. rewrite (Z.eqb_sym c 10). change (42 =? 10) with false. rewrite !orb_false_r. destruct (10 =? c); rewrite ?Z.add_0_r; reflexivity.
  - cbn [app block_comment]. destruct ((c =? 42) && (d =? 47)) eqn:Q.
    { exfalso. apply andb_prop in Q. destruct Q as [Q1 Q2]. apply Z.eqb_eq in Q1, Q2. subst. apply (H [] (t ++ [42])). reflexivity. }
    rewrite IH.
    + cbn [newlines existsb]. rewrite (Z.eqb_sym c 10), (Z.eqb_sym d 10). f_equal. f_equal; [f_equal|]. { destruct (10 =? c); lia. } { destruct semi, (10 =? c), (10 =? d); reflexivity. }
    + intros u v E. apply (H (c :: u) v). cbn [app]. cbn [app] in E. rewrite E. reflexivity.
Qed.
Lemma no_nl_exists t : Forall (fun c => c <> 10) t -> existsb (Z.eqb 10) t = false.
Proof. induction 1 as [|c t H _ IH]; cbn [existsb]; [reflexivity|]. rewrite IH. destruct (Z.eqb_spec 10 c); [congruence|reflexivity]. Qed.
Lemma EB_block prev t b line :
  (forall u v, t ++ [42] <> u ++ [42; 47] ++ v) -> (potential_end prev = false \/ Forall (fun c => c <> 10) t) ->
  EB prev (47 :: 42 :: t ++ 42 :: 47 :: b) line = EB prev b (line + newlines t).
Proof.
  intros H N. rewrite EB_step. rewrite eat_ws_nows by reflexivity. cbn [step eat_inline]. change (47 =? 35) with false. change (47 =? 47) with true. change (42 =? 42) with true. cbn iota.
  destruct t as [|c t].
  - cbn [app block_comment]. change ((42 =? 42) && (47 =? 47)) with true. cbn [andb]. rewrite EB_space by auto. cbn [newlines]. rewrite Z.add_0_r. reflexivity.
  - cbn [app]. rewrite (block_find t c b line false H). cbn [orb].
    replace (existsb (Z.eqb 10) (c :: t) && potential_end prev) with false; [apply EB_space; auto|]. destruct N as [-> | N]; [rewrite andb_false_r; reflexivity|]. rewrite (no_nl_exists _ N). reflexivity.
Qed.
Lemma potential_is_ends t : potential_end t = ends_statement t. Proof. destruct t; reflexivity. Qed.
Lemma newlines_app a b : newlines (a ++ b) = newlines a + newlines b.
Proof. induction a as [|c a IH]; cbn [app newlines]; lia. Qed.
Lemma no_nl_newlines t : Forall (fun c => c <> 10) t -> newlines t = 0.
Proof. induction 1 as [|c t H _ IH]; cbn [newlines]; [reflexivity|]. destruct (Z.eqb_spec c 10); [congruence|lia]. Qed.
Lemma EB_blank prev b : blank (negb (ends_statement prev)) b -> forall r line, EB prev (b ++ r) line = EB prev r (line + newlines b).
Proof.
  induction 1 as [|b _ IH|b _ IH|b N _ IH|t b N F _ IH|t b H N _ IH]; intros r line; cbn [app].
  - cbn [newlines]. rewrite Z.add_0_r. reflexivity.
  - rewrite EB_space by auto. rewrite IH. reflexivity.
  - rewrite EB_space by auto. rewrite IH. reflexivity.
  - rewrite EB_newline, potential_is_ends. destruct (ends_statement prev); [discriminate|]. rewrite IH. cbn [newlines]. change (10 =? 10) with true. cbn iota. f_equal. lia.
  - rewrite <- app_assoc. cbn [app]. rewrite (EB_line _ t _ _ F), EB_newline, potential_is_ends. destruct (ends_statement prev); [discriminate|]. rewrite IH. cbn [newlines]. rewrite newlines_app, (no_nl_newlines t F). cbn [newlines]. change (10 =? 10) with true. change (35 =? 10) with false. cbn iota. f_equal. lia.
  - rewrite <- app_assoc. cbn [app]. rewrite EB_block; [|exact H|]. 2:{ rewrite potential_is_ends. destruct N as [N|N]; [left; destruct (ends_statement prev); [discriminate|reflexivity]|right; exact N]. }
    rewrite IH. cbn [newlines]. rewrite newlines_app. cbn [newlines]. change (47 =? 10) with false. change (42 =? 10) with false. cbn iota. f_equal. lia.
Qed.
Lemma EB_last prev b line : last_blank (negb (ends_statement prev)) b -> EB prev b line = At [] (line + newlines b).
Proof.
  intros (b1 & b2 & -> & B & [-> | (t & -> & F)]); rewrite (EB_blank prev b1 B), newlines_app.
  - rewrite EB_nil. cbn [newlines]. rewrite Z.add_0_r. reflexivity.
  - rewrite (EB_line_end _ _ _ F). cbn [newlines]. rewrite (no_nl_newlines t F). change (35 =? 10) with false. cbn iota. rewrite !Z.add_0_r. reflexivity.
Qed.
(** ** One token. *)
Definition token_at (prev : tk) (c : Z) (r : list Z) (line : Z) : option lexed :=
  or_else (eat_number c r line) (or_else (eat_id prev c r line) (or_else (eat_string c r line) (or_else (eat_raw c r line) (or_else (eat_interp c r line) (eat_op c r line))))).
Definition finish (prev : tk) (s : skip_result) : option lexed :=
  match s with
  | SNoFuel => None | Done l => Some l | At [] line => Some (Tok T_EOF [] false false, [], line)
  | At (c :: r) line => Some match token_at prev c r line with Some l => l | None => lex_error (c :: r) r line end
  end.
Lemma gettok_eq prev rest line : gettok prev rest line = finish prev (EB prev rest line). Proof. reflexivity. Qed.
Lemma assoc_In x l t : assoc x l = Some t -> In (x, t) l.
Proof. induction l as [|[k u] l IH]; cbn [assoc]; [discriminate|]. unfold bytes_eqb. destruct (list_eq_dec Z.eq_dec k x) as [->|]; [intros [= ->]; left; reflexivity|intros E; right; auto]. Qed.
Lemma ops3_known : forallb (fun p => existsb (prefix_of (fst p)) all_ops && existsb (prefix_of (firstn 2 (fst p))) all_ops) ops3 = true. Proof. vm_compute. reflexivity. Qed.
Lemma ops2_known : forallb (fun p => existsb (prefix_of (fst p)) all_ops) ops2 = true. Proof. vm_compute. reflexivity. Qed.
Lemma ops3_none a b c : existsb (prefix_of [a; b; c]) all_ops = false -> assoc [a; b; c] ops3 = None.
Proof. intros H. destruct (assoc [a; b; c] ops3) eqn:E; [|reflexivity]. apply assoc_In in E. pose proof ops3_known as K. rewrite forallb_forall in K. apply K in E. cbn [fst] in E. rewrite H in E. discriminate. Qed.
Lemma ops3_none2 a b c : existsb (prefix_of [a; b]) all_ops = false -> assoc [a; b; c] ops3 = None.
Proof. intros H. destruct (assoc [a; b; c] ops3) eqn:E; [|reflexivity]. apply assoc_In in E. pose proof ops3_known as K. rewrite forallb_forall in K. apply K in E. cbn [fst firstn] in E. rewrite H, andb_false_r in E. discriminate. Qed.
Lemma ops2_none a b : existsb (prefix_of [a; b]) all_ops = false -> assoc [a; b] ops2 = None.
Proof. intros H. destruct (assoc [a; b] ops2) eqn:E; [|reflexivity]. apply assoc_In in E. pose proof ops2_known as K. rewrite forallb_forall in K. apply K in E. cbn [fst] in E. rewrite H in E. discriminate. Qed.
(** [eat_op] on an operator that nothing extends. *)
Lemma eat_op_one a t rest line : assoc [a] ops1 = Some t -> match rest with [] => True | c :: _ => existsb (prefix_of [a; c]) all_ops = false end ->
  eat_op a rest line = Some (plain t [] [a] rest line).
Proof.
  intros E H. unfold eat_op. rewrite E. destruct rest as [|c r]; [reflexivity|]. rewrite (ops2_none a c H). destruct r as [|d r]; [reflexivity|]. rewrite (ops3_none2 a c d H). reflexivity.
Qed.
Lemma eat_op_two a b t rest line : assoc [a; b] ops2 = Some t -> match rest with [] => True | c :: _ => existsb (prefix_of [a; b; c]) all_ops = false end ->
  eat_op a (b :: rest) line = Some (plain t [] [a] rest line).
Proof. intros E H. unfold eat_op. rewrite E. destruct rest as [|c r]; [reflexivity|]. rewrite (ops3_none a b c H). reflexivity. Qed.
Lemma eat_op_three a b c t rest line : assoc [a; b; c] ops3 = Some t -> eat_op a (b :: c :: rest) line = Some (plain t [] [a] rest line).
Proof. intros E. unfold eat_op. rewrite E. reflexivity. Qed.
Lemma token_op prev c r line : is_digit c || is_idstart c || (c =? 39) || (c =? 96) || (c =? 34) = false -> token_at prev c r line = eat_op c r line.
Proof.
  intros H. repeat (apply orb_false_elim in H; let X := fresh "X" in destruct H as [H X]). unfold token_at, eat_number, eat_id, eat_string, eat_raw, eat_interp.
  rewrite H, X, X0, X1, X2. reflexivity.
Qed.
Definition good (prev : tk) (l : lexeme) (rest : list Z) (line : Z) : Prop :=
  exists nl, nl_fits l nl = true /\ finish prev (EB prev (spell l ++ rest) line) = Some (Tok (kind l) (content l) nl false, rest, line + newlines (spell l)).
Definition op_start (c : Z) : bool := negb (is_digit c || is_idstart c || (c =? 39) || (c =? 96) || (c =? 34) || is_ws c || (c =? 35) || (c =? 47)).
Lemma finish_op prev c r line : op_start c = true -> finish prev (EB prev (c :: r) line) = Some match eat_op c r line with Some l => l | None => lex_error (c :: r) r line end.
Proof.
  intros H. unfold op_start in H. apply negb_true_iff in H. do 3 (apply orb_false_elim in H; let X := fresh "X" in destruct H as [H X]).
  rewrite EB_other by (rewrite X1, X0, X; reflexivity). cbn [finish]. rewrite (token_op _ _ _ _ H). reflexivity.
Qed.
Lemma good_one prev t a rest line : spelling t = Some [a] -> is_word t = false -> op_start a = true -> assoc [a] ops1 = Some t -> (a =? 10) = false -> ends_at (LFixed t) rest -> good prev (LFixed t) rest line.
Proof.
  intros E W St As N En. exists (cur_nl [a]). split; [cbn [nl_fits cur_nl]; rewrite W, N; reflexivity|]. cbn [spell content kind]. rewrite E. cbn [app]. rewrite (finish_op _ _ _ _ St). rewrite (eat_op_one a t rest line As).
  - unfold plain. cbn [newlines]. rewrite N. rewrite !Z.add_0_r. reflexivity.
  - unfold ends_at, extends, spell in En. destruct rest as [|c r]; [exact I|]. rewrite W, E in En. cbn [app] in En. apply orb_false_elim in En. tauto.
Qed.
Lemma good_two prev t a b rest line : spelling t = Some [a; b] -> is_word t = false -> op_start a = true -> assoc [a; b] ops2 = Some t -> (a =? 10) = false -> (b =? 10) = false -> ends_at (LFixed t) rest -> good prev (LFixed t) rest line.
Proof.
  intros E W St As N N2 En. exists (cur_nl [a]). split; [cbn [nl_fits cur_nl]; rewrite W, N; reflexivity|]. cbn [spell content kind]. rewrite E. cbn [app]. rewrite (finish_op _ _ _ _ St). rewrite (eat_op_two a b t rest line As).
  - unfold plain. cbn [newlines]. rewrite N, N2. rewrite !Z.add_0_r. reflexivity.
  - unfold ends_at, extends, spell in En. destruct rest as [|c r]; [exact I|]. rewrite W, E in En. cbn [app] in En. apply orb_false_elim in En. tauto.
Qed.
Lemma good_three prev t a b c rest line : spelling t = Some [a; b; c] -> op_start a = true -> assoc [a; b; c] ops3 = Some t -> (a =? 10) = false -> (b =? 10) = false -> (c =? 10) = false -> good prev (LFixed t) rest line.
Proof.
  intros E St As N N2 N3. exists (cur_nl [a]). split; [cbn [nl_fits cur_nl]; rewrite N, orb_true_r; reflexivity|]. cbn [spell content kind]. rewrite E. cbn [app]. rewrite (finish_op _ _ _ _ St). rewrite (eat_op_three a b c t rest line As).
  unfold plain. cbn [newlines]. rewrite N, N2, N3. rewrite !Z.add_0_r. reflexivity.
Qed.
(** the operators that start with "/" *)
Lemma good_slash prev t rest line : t = T_SLASH \/ t = T_SLASHEQ \/ t = T_DSLASH \/ t = T_DSLASHEQ -> ends_at (LFixed t) rest -> good prev (LFixed t) rest line.
Proof.
  intros [-> | [-> | [-> | ->]]] En; (exists false; split; [reflexivity|]); cbn [spell content kind spelling app newlines]; change (47 =? 10) with false; change (61 =? 10) with false; cbn iota; rewrite !Z.add_0_r.
  - destruct rest as [|c r]; [rewrite EB_slash_end; reflexivity|]. unfold ends_at, extends in En. change (is_word T_SLASH) with false in En. cbn iota in En. cbn [spell spelling app] in En. apply orb_false_elim in En. destruct En as [En1 En2]. change (tk_eqb T_SLASH T_SLASH) with true in En2. cbn [andb] in En2. apply Z.eqb_neq in En2.
    rewrite (EB_slash _ _ _ _ En2). cbn [finish]. rewrite token_op by reflexivity. rewrite (eat_op_one 47 T_SLASH (c :: r) line eq_refl En1). reflexivity.
  - rewrite EB_slash by discriminate. cbn [finish]. rewrite token_op by reflexivity. rewrite (eat_op_two 47 61 T_SLASHEQ rest line eq_refl); [reflexivity|]. destruct rest as [|c r]; [exact I|]. unfold ends_at, extends in En. change (is_word T_SLASHEQ) with false in En. cbn iota in En. apply orb_false_elim in En. tauto.
  - rewrite EB_slash by discriminate. cbn [finish]. rewrite token_op by reflexivity. rewrite (eat_op_two 47 47 T_DSLASH rest line eq_refl); [reflexivity|]. destruct rest as [|c r]; [exact I|]. unfold ends_at, extends in En. change (is_word T_DSLASH) with false in En. cbn iota in En. apply orb_false_elim in En. tauto.
  - rewrite EB_slash by discriminate. cbn [finish]. rewrite token_op by reflexivity. rewrite (eat_op_three 47 47 61 T_DSLASHEQ rest line eq_refl). reflexivity.
Qed.
Lemma good_op prev t rest line : spelling t <> None -> is_word t = false -> ends_at (LFixed t) rest -> good prev (LFixed t) rest line.
Proof.
  intros S W En. destruct t; try (exfalso; apply S; reflexivity); try discriminate W; try (apply good_slash; [tauto|exact En]);
  first [eapply good_one; [reflexivity|reflexivity|reflexivity|reflexivity|reflexivity|exact En]
        |eapply good_two; [reflexivity|reflexivity|reflexivity|reflexivity|reflexivity|reflexivity|exact En]
        |eapply good_three; reflexivity].
Qed.
(** ** Words. *)
Lemma is_id_char c : is_id c = id_char c.
Proof. unfold is_id, id_char, is_alpha, is_digit. destruct ((65 <=? c) && (c <=? 90)), ((97 <=? c) && (c <=? 122)); reflexivity. Qed.
Lemma id_fill_word w rest : Forall (fun c => is_id c = true) w -> match rest with [] => True | c :: _ => is_id c = false end -> id_fill (w ++ rest) = (w, rest).
Proof.
  intros F H. induction F as [|c w Hc _ IH]; cbn [app id_fill].
  - destruct rest as [|c r]; [reflexivity|]. cbn [id_fill]. rewrite H. reflexivity.
  - rewrite Hc, IH. reflexivity.
Qed.
Definition word_start (c : Z) : bool := is_idstart c && negb (is_digit c || is_ws c || (c =? 35) || (c =? 47)).
Lemma finish_word prev c w rest line : word_start c = true -> Forall (fun c => is_id c = true) w -> match rest with [] => True | d :: _ => is_id d = false end ->
  finish prev (EB prev ((c :: w) ++ rest) line) = Some (match id_token prev (c :: w) with Some (k, v) => (Tok k v (cur_nl rest) false, rest, line) | None => lex_error rest rest line end).
Proof.
  intros H F R. unfold word_start in H. apply andb_prop in H. destruct H as [H1 H]. apply negb_true_iff in H. do 3 (apply orb_false_elim in H; let X := fresh "X" in destruct H as [H X]).
  cbn [app]. rewrite EB_other by (rewrite X1, X0, X; reflexivity). cbn [finish]. unfold token_at, eat_number, eat_id. rewrite H, H1. rewrite (id_fill_word w rest F R). reflexivity.
Qed.
Lemma idstart_word c : is_idstart c = true -> word_start c = true.
Proof.
  unfold word_start, is_idstart, is_alpha, is_digit, is_ws. intros H. rewrite H. cbn [andb]. apply negb_true_iff.
  destruct (Z.leb_spec 65 c), (Z.leb_spec c 90), (Z.leb_spec 97 c), (Z.leb_spec c 122), (Z.leb_spec 48 c), (Z.leb_spec c 57), (Z.eqb_spec c 32), (Z.eqb_spec c 10), (Z.eqb_spec c 9), (Z.eqb_spec c 35), (Z.eqb_spec c 47), (Z.eqb_spec c 95), (Z.eqb_spec c 36); cbn in *; try reflexivity; try discriminate; lia.
Qed.
Lemma letter_start c : letter c -> is_idstart c = true.
Proof.
  unfold letter, is_idstart, is_alpha. intros H.
  destruct (Z.leb_spec 65 c), (Z.leb_spec c 90), (Z.leb_spec 97 c), (Z.leb_spec c 122), (Z.eqb_spec c 95), (Z.eqb_spec c 36); cbn; try reflexivity; lia.
Qed.
Lemma letter_id c : letter c \/ digit c -> is_id c = true.
Proof.
  unfold letter, digit, is_id, is_alpha, is_digit. intros H.
  destruct (Z.leb_spec 65 c), (Z.leb_spec c 90), (Z.leb_spec 97 c), (Z.leb_spec c 122), (Z.leb_spec 48 c), (Z.leb_spec c 57), (Z.eqb_spec c 95), (Z.eqb_spec c 36); cbn; try reflexivity; lia.
Qed.
Lemma id_no_nl c : is_id c = true -> c <> 10.
Proof. intros H ->. discriminate. Qed.
Lemma ids_no_nl w : Forall (fun c => is_id c = true) w -> newlines w = 0.
Proof. intros F. apply no_nl_newlines. eapply Forall_impl; [|exact F]. intros c. apply id_no_nl. Qed.
Lemma good_wordlike prev l c w rest line : spell l = c :: w -> is_idstart c = true -> Forall (fun c => is_id c = true) (c :: w) ->
  match rest with [] => True | d :: _ => is_id d = false end -> id_token prev (c :: w) = Some (kind l, content l) -> good prev l rest line.
Proof.
  intros E S F R T. exists (cur_nl rest). split.
  { destruct l as [t| | | | | | | | | | |]; try reflexivity; cbn [spell] in E; [|injection E as <- <-; discriminate S]. destruct t; cbn [spelling] in E; try discriminate E; try reflexivity; injection E as <- _; discriminate S. }
  rewrite E. rewrite (finish_word prev c w rest line (idstart_word c S) (Forall_inv_tail F) R), T, (ids_no_nl _ F), Z.add_0_r. reflexivity.
Qed.
Lemma id_token_plain prev t : prev <> T_DOT -> prev <> T_RIGHT_ARR -> id_token prev t = id_token T_UNKNOWN t.
Proof. intros H1 H2. destruct prev; try reflexivity; congruence. Qed.
Lemma good_keyword prev t rest line : is_word t = true -> prev <> T_DOT -> prev <> T_RIGHT_ARR -> ends_at (LFixed t) rest -> good prev (LFixed t) rest line.
Proof.
  intros W P1 P2 En.
  assert (R : match rest with [] => True | d :: _ => is_id d = false end) by (destruct rest; [exact I|]; unfold ends_at, extends in En; rewrite W in En; rewrite is_id_char; exact En).
  destruct t; try discriminate W; (eapply good_wordlike; [reflexivity|reflexivity|repeat constructor|exact R|rewrite id_token_plain by assumption; reflexivity]).
Qed.
Lemma good_bool prev b rest line : prev <> T_DOT -> prev <> T_RIGHT_ARR -> ends_at (LBool b) rest -> good prev (LBool b) rest line.
Proof.
  intros P1 P2 En.
  assert (R : match rest with [] => True | d :: _ => is_id d = false end) by (destruct rest; [exact I|]; unfold ends_at, extends in En; rewrite is_id_char; exact En).
  destruct b; (eapply good_wordlike; [reflexivity|reflexivity|repeat constructor|exact R|rewrite id_token_plain by assumption; reflexivity]).
Qed.
Lemma keywords_are : forall x t, In (x, t) keywords -> a_keyword x.
Proof.
  intros x t H. exists t. assert (K : forallb (fun p => is_word (snd p) && match spelling (snd p) with Some s => bytes_eqb s (fst p) | None => false end) keywords = true) by (vm_compute; reflexivity).
  rewrite forallb_forall in K. apply K in H. cbn [fst snd] in H. apply andb_prop in H. destruct H as [-> H]. split; [reflexivity|]. destruct (spelling t) as [s|]; [|discriminate]. unfold bytes_eqb in H. destruct (list_eq_dec Z.eq_dec s x) as [->|]; [reflexivity|discriminate].
Qed.
Lemma reserved_are : reserved = reserved_words. Proof. reflexivity. Qed.
Lemma id_token_free x prev : free_name x -> id_token prev x = Some (T_ID, x).
Proof.
  intros (H1 & H2 & H3 & H4). assert (K : id_token T_UNKNOWN x = Some (T_ID, x)).
  { unfold id_token. destruct (existsb (bytes_eqb x) reserved) eqn:E.
    { exfalso. apply H1. apply existsb_exists in E. destruct E as (y & Y & E). unfold bytes_eqb in E. destruct (list_eq_dec Z.eq_dec x y) as [->|]; [exact Y|discriminate]. }
    destruct (assoc x keywords) as [k|] eqn:A. { exfalso. apply H2. apply assoc_In in A. eapply keywords_are, A. }
    unfold bytes_eqb. destruct (list_eq_dec Z.eq_dec x _) as [->|_]; [exfalso; apply H3; reflexivity|]. destruct (list_eq_dec Z.eq_dec x _) as [->|_]; [exfalso; apply H4; reflexivity|]. reflexivity. }
  destruct (tk_eq_dec prev T_DOT) as [->|N1]; [reflexivity|]. destruct (tk_eq_dec prev T_RIGHT_ARR) as [->|N2]; [reflexivity|]. rewrite id_token_plain by assumption. exact K.
Qed.
Lemma good_id prev x rest line : wf_lexeme prev (LId x) -> ends_at (LId x) rest -> good prev (LId x) rest line.
Proof.
  intros ((c & r & -> & Hc & F) & K) En.
  assert (R : match rest with [] => True | d :: _ => is_id d = false end) by (destruct rest; [exact I|]; unfold ends_at, extends in En; rewrite is_id_char; exact En).
  apply (good_wordlike prev (LId (c :: r)) c r rest line eq_refl (letter_start c Hc)).
  - constructor; [apply letter_id; auto|]. eapply Forall_impl; [|exact F]. apply letter_id.
  - exact R.
  - cbn [kind content spell]. destruct K as [-> | [-> | K]]; [reflexivity|reflexivity|]. apply id_token_free, K.
Qed.
(** ** Numbers. *)
Lemma fill_digits isd w rest : Forall (fun c => isd c = true /\ c <> 95) w -> match rest with [] => True | c :: _ => isd c = false /\ c <> 95 end -> fill isd (w ++ rest) = (w, rest).
Proof.
  intros F H. induction F as [|c w [Hc N] _ IH]; cbn [app fill].
  - destruct rest as [|c r]; [reflexivity|]. cbn [fill]. destruct H as [H N]. destruct (Z.eqb_spec c 95); [congruence|]. rewrite H. reflexivity.
  - destruct (Z.eqb_spec c 95); [congruence|]. rewrite Hc, IH. reflexivity.
Qed.
Lemma digit_is c : digit c -> is_digit c = true /\ c <> 95 /\ c <> 46 /\ c <> 10.
Proof. unfold digit, is_digit. intros H. destruct (Z.leb_spec 48 c), (Z.leb_spec c 57); cbn; repeat split; try reflexivity; lia. Qed.
Lemma xdigit_is c : xdigit c -> is_xdigit c = true /\ c <> 95 /\ c <> 10.
Proof.
  unfold xdigit, digit, is_xdigit, is_digit. intros H. destruct (Z.leb_spec 48 c), (Z.leb_spec c 57), (Z.leb_spec 65 c), (Z.leb_spec c 70), (Z.leb_spec 97 c), (Z.leb_spec c 102); cbn; repeat split; try reflexivity; lia.
Qed.
Lemma one_of_false l c : one_of l c = false -> ~ In c l.
Proof. unfold one_of. intros H I. assert (K : existsb (Z.eqb c) l = true) by (apply existsb_exists; exists c; split; [exact I|apply Z.eqb_refl]). congruence. Qed.
Lemma not_digit c : ~ In c [48;49;50;51;52;53;54;55;56;57] -> is_digit c = false.
Proof. intros H. unfold is_digit. destruct (Z.leb_spec 48 c), (Z.leb_spec c 57); cbn; try reflexivity. exfalso. apply H. cbn. lia. Qed.
Lemma not_xdigit c : ~ In c [48;49;50;51;52;53;54;55;56;57;97;98;99;100;101;102;65;66;67;68;69;70] -> is_xdigit c = false.
Proof.
  intros H. unfold is_xdigit, is_digit. destruct (Z.leb_spec 48 c), (Z.leb_spec c 57), (Z.leb_spec 65 c), (Z.leb_spec c 70), (Z.leb_spec 97 c), (Z.leb_spec c 102); cbn; try reflexivity; exfalso; apply H; cbn; lia.
Qed.
Lemma EB_digit prev c r line : is_digit c = true -> EB prev (c :: r) line = At (c :: r) line.
Proof.
  intros H. apply EB_other. unfold is_digit in H. unfold is_ws. destruct (Z.leb_spec 48 c), (Z.leb_spec c 57); try discriminate. destruct (Z.eqb_spec c 32), (Z.eqb_spec c 10), (Z.eqb_spec c 9), (Z.eqb_spec c 35), (Z.eqb_spec c 47); cbn; try reflexivity; lia.
Qed.
Lemma finish_number prev c r line l : is_digit c = true -> eat_number c r line = Some l -> finish prev (EB prev (c :: r) line) = Some l.
Proof. intros H E. rewrite (EB_digit _ _ _ _ H). cbn [finish]. unfold token_at. rewrite E. reflexivity. Qed.
(** a text of digits not followed by x or b is not a prefixed literal *)
Lemma not_prefixed sep isd c r line : (c = 48 -> match r with [] => True | s :: _ => to_lower s <> sep end) -> eat_int sep isd c r line = None.
Proof.
  intros H. unfold eat_int. destruct (Z.eqb_spec c 48) as [->|]; [|reflexivity]. specialize (H eq_refl). destruct r as [|s r]; [reflexivity|]. destruct (Z.eqb_spec (to_lower s) sep); [congruence|reflexivity].
Qed.
Lemma to_lower_digit c : is_digit c = true -> to_lower c = c.
Proof. unfold is_digit, to_lower. destruct (Z.leb_spec 48 c), (Z.leb_spec c 57), (Z.leb_spec 65 c), (Z.leb_spec c 90); cbn; intros; try discriminate; try reflexivity; lia. Qed.
Lemma to_lower_x s sep : to_lower s = sep -> 97 <= sep <= 122 -> s = sep \/ s = sep - 32.
Proof. unfold to_lower. destruct ((65 <=? s) && (s <=? 90)) eqn:E; intros; [right|left]; lia. Qed.
Lemma digits_nl w : Forall digit w -> newlines w = 0.
Proof. intros F. apply no_nl_newlines. eapply Forall_impl; [|exact F]. intros c H. apply digit_is in H. tauto. Qed.
Lemma digits_fill w rest : Forall digit w -> match rest with [] => True | c :: _ => is_digit c = false /\ c <> 95 end -> fill is_digit (w ++ rest) = (w, rest).
Proof. intros F. apply fill_digits. eapply Forall_impl; [|exact F]. intros c H. apply digit_is in H. tauto. Qed.
Lemma good_int prev ds rest line : wf_lexeme prev (LInt ds) -> ends_at (LInt ds) rest -> good prev (LInt ds) rest line.
Proof.
  intros (N & F) En. destruct ds as [|c w]; [congruence|]. pose proof (Forall_inv F) as Hc. pose proof (Forall_inv_tail F) as Fw. destruct (digit_is c Hc) as (Dc & _).
  exists (cur_nl rest). split; [reflexivity|]. cbn [spell kind content app]. rewrite (digits_nl _ F), Z.add_0_r.
  assert (R : match rest with [] => True | d :: _ => is_digit d = false /\ d <> 95 /\ d <> 46 end).
  { destruct rest as [|d r]; [exact I|]. cbn [ends_at extends] in En. apply orb_false_elim in En. destruct En as [En _]. apply one_of_false in En. split; [|split].
    - apply not_digit. intros X. apply En. cbn in *. tauto.
    - intros ->. apply En. cbn. tauto.
    - intros ->. apply En. cbn. tauto. }
  apply finish_number; [exact Dc|]. unfold eat_number. rewrite Dc.
  assert (P : forall sep isd, sep = 120 \/ sep = 98 -> eat_int sep isd c (w ++ rest) line = None).
  { intros sep isd Hs. apply not_prefixed. intros ->. destruct w as [|d w]; cbn [app].
    - destruct rest as [|d r]; [exact I|]. cbn [ends_at extends] in En. apply orb_false_elim in En. destruct En as [_ En]. change (bytes_eqb [48] [48]) with true in En. cbn [andb] in En. apply one_of_false in En. intros X. apply En. apply to_lower_x in X; [|lia]. cbn. lia.
    - pose proof (Forall_inv Fw) as Hd. apply digit_is in Hd. destruct Hd as (Hd & _). rewrite (to_lower_digit d Hd). unfold is_digit in Hd. lia. }
  rewrite (P 120 is_xdigit), (P 98 is_bdigit) by tauto. unfold eat_fill. rewrite (digits_fill w rest Fw) by (destruct rest; tauto).
  unfold eat_float. destruct rest as [|d r]; [reflexivity|]. destruct (Z.eqb_spec d 46); [tauto|reflexivity].
Qed.
Lemma good_float prev a b rest line : wf_lexeme prev (LFloat a b) -> ends_at (LFloat a b) rest -> good prev (LFloat a b) rest line.
Proof.
  intros (Na & Nb & Fa & Fb) En. destruct a as [|c w]; [congruence|]. destruct b as [|c2 w2]; [congruence|]. pose proof (Forall_inv Fa) as Hc. pose proof (Forall_inv_tail Fa) as Fw. destruct (digit_is c Hc) as (Dc & _).
  pose proof (Forall_inv Fb) as Hc2. pose proof (Forall_inv_tail Fb) as Fw2. destruct (digit_is c2 Hc2) as (Dc2 & _).
  exists (cur_nl rest). split; [reflexivity|]. cbn [kind content]. assert (Nl : newlines (spell (LFloat (c :: w) (c2 :: w2))) = 0) by (cbn [spell]; rewrite newlines_app, (digits_nl _ Fa); cbn [newlines]; change (46 =? 10) with false; rewrite (digits_nl w2 Fw2); apply digit_is in Hc2; destruct (Z.eqb_spec c2 10); [tauto|reflexivity]).
  rewrite Nl, Z.add_0_r. cbn [spell app]. rewrite <- app_assoc. cbn [app].
  apply finish_number; [exact Dc|]. unfold eat_number. rewrite Dc.
  assert (P : forall sep isd, sep = 120 \/ sep = 98 -> eat_int sep isd c (w ++ 46 :: c2 :: w2 ++ rest) line = None).
  { intros sep isd Hs. apply not_prefixed. intros ->. destruct w as [|d w]; cbn [app].
    - change (to_lower 46) with 46. lia.
    - pose proof (Forall_inv Fw) as Hd. apply digit_is in Hd. destruct Hd as (Hd & _). rewrite (to_lower_digit d Hd). unfold is_digit in Hd. lia. }
  rewrite (P 120 is_xdigit), (P 98 is_bdigit) by tauto. unfold eat_fill at 1. rewrite (digits_fill w _ Fw) by (split; [reflexivity|discriminate]).
  unfold eat_float. change (46 =? 46) with true. cbn iota. rewrite Dc2. unfold eat_fill at 1.
  assert (R : match rest with [] => True | d :: _ => is_digit d = false /\ d <> 95 /\ to_lower d <> 101 end).
  { destruct rest as [|d r]; [exact I|]. cbn [ends_at extends] in En. apply one_of_false in En. split; [|split].
    - apply not_digit. intros X. apply En. cbn in *. tauto.
    - intros ->. apply En. cbn. tauto.
    - intros X. apply En. apply to_lower_x in X; [|lia]. cbn. lia. }
  rewrite (digits_fill w2 rest Fw2) by (destruct rest; tauto). destruct rest as [|d r]; [reflexivity|]. destruct (Z.eqb_spec (to_lower d) 101); [tauto|]. reflexivity.
Qed.
Lemma good_hex prev ds rest line : wf_lexeme prev (LHex ds) -> ends_at (LHex ds) rest -> good prev (LHex ds) rest line.
Proof.
  intros (N & F) En. destruct ds as [|c w]; [congruence|]. pose proof (Forall_inv F) as Hc. pose proof (Forall_inv_tail F) as Fw. destruct (xdigit_is c Hc) as (Dc & N95 & N10).
  exists (cur_nl rest). split; [reflexivity|]. cbn [kind content]. assert (Nl : newlines (spell (LHex (c :: w))) = 0).
  { apply no_nl_newlines. cbn [spell]. constructor; [discriminate|]. constructor; [discriminate|]. eapply Forall_impl; [|exact F]. intros d Hd. apply xdigit_is in Hd. tauto. }
  rewrite Nl, Z.add_0_r. cbn [spell app]. apply finish_number; [reflexivity|]. unfold eat_number. change (is_digit 48) with true. cbn iota. unfold eat_int at 1. change (48 =? 48) with true. change (to_lower 120 =? 120) with true. cbn iota. cbn [skip_sep]. destruct (Z.eqb_spec c 95); [congruence|]. rewrite Dc. unfold eat_fill.
  rewrite (fill_digits is_xdigit w rest); [reflexivity| |].
  - eapply Forall_impl; [|exact Fw]. intros d Hd. apply xdigit_is in Hd. tauto.
  - destruct rest as [|d r]; [exact I|]. cbn [ends_at extends] in En. apply one_of_false in En. split.
    + apply not_xdigit. intros X. apply En. cbn in *. tauto.
    + intros ->. apply En. cbn. tauto.
Qed.
Lemma good_bin prev ds rest line : wf_lexeme prev (LBin ds) -> ends_at (LBin ds) rest -> good prev (LBin ds) rest line.
Proof.
  intros (N & F) En. destruct ds as [|c w]; [congruence|]. pose proof (Forall_inv F) as Hc. pose proof (Forall_inv_tail F) as Fw. cbn beta in Hc.
  exists (cur_nl rest). split; [reflexivity|]. cbn [kind content]. assert (Nl : newlines (spell (LBin (c :: w))) = 0).
  { apply no_nl_newlines. cbn [spell]. constructor; [discriminate|]. constructor; [discriminate|]. eapply Forall_impl; [|exact F]. cbn beta. intros; lia. }
  rewrite Nl, Z.add_0_r. cbn [spell app]. apply finish_number; [reflexivity|]. unfold eat_number. change (is_digit 48) with true. cbn iota. rewrite (not_prefixed 120) by (intros _; discriminate). unfold eat_int at 1. change (48 =? 48) with true. change (to_lower 98 =? 98) with true. cbn iota. cbn [skip_sep]. destruct (Z.eqb_spec c 95); [lia|].
  assert (Dc : is_bdigit c = true) by (destruct Hc as [-> | ->]; reflexivity). rewrite Dc. unfold eat_fill.
  rewrite (fill_digits is_bdigit w rest); [reflexivity| |].
  - eapply Forall_impl; [|exact Fw]. cbn beta. intros d [-> | ->]; split; try reflexivity; discriminate.
  - destruct rest as [|d r]; [exact I|]. cbn [ends_at extends] in En. apply one_of_false in En. split.
    + unfold is_bdigit. destruct (Z.eqb_spec d 48); [exfalso; apply En; cbn; lia|]. destruct (Z.eqb_spec d 49); [exfalso; apply En; cbn; lia|]. reflexivity.
    + intros ->. apply En. cbn. tauto.
Qed.
(** ** Strings. *)
Lemma eat_str_escaped s rest : eat_str (fun c => c =? 39) (concat (map escaped s) ++ 39 :: rest) = Some (s, 39 :: rest).
Proof.
  induction s as [|c s IH]; [reflexivity|]. cbn [map concat]. rewrite <- app_assoc. unfold escaped at 1.
  destruct (Z.eqb_spec c 39) as [->|N1]; [cbn [app eat_str]; cbn; rewrite IH; reflexivity|].
  destruct (Z.eqb_spec c 92) as [->|N2]; [cbn [app eat_str]; cbn; rewrite IH; reflexivity|].
  destruct (Z.eqb_spec c 10) as [->|N3]; [cbn [app eat_str]; cbn; rewrite IH; reflexivity|].
  cbn [app eat_str]. destruct (Z.eqb_spec c 39); [congruence|]. destruct (Z.eqb_spec c 10); [congruence|]. destruct (Z.eqb_spec c 92); [congruence|]. rewrite IH. reflexivity.
Qed.
Lemma escaped_nl s : newlines (concat (map escaped s)) = 0.
Proof.
  induction s as [|c s IH]; [reflexivity|]. cbn [map concat]. rewrite newlines_app, IH, Z.add_0_r. unfold escaped.
  destruct (Z.eqb_spec c 39); [reflexivity|]. destruct (Z.eqb_spec c 92); [reflexivity|]. destruct (Z.eqb_spec c 10); [reflexivity|]. cbn [newlines]. destruct (Z.eqb_spec c 10); [congruence|reflexivity].
Qed.
Lemma good_str prev s rest line : good prev (LStr s) rest line.
Proof.
  exists false. split; [reflexivity|]. cbn [spell kind content]. cbn [app]. rewrite <- app_assoc. cbn [app]. rewrite EB_other by reflexivity. cbn [finish].
  unfold token_at, eat_number, eat_id, eat_string. change (is_digit 39) with false. change (is_idstart 39) with false. change (39 =? 39) with true. cbn [or_else]. rewrite eat_str_escaped.
  cbn [newlines]. rewrite newlines_app, escaped_nl. cbn [newlines]. change (39 =? 10) with false. cbn iota. rewrite !Z.add_0_r. reflexivity.
Qed.
Lemma hex_escape_ok a b : xdigit a -> xdigit b -> hex_escape a b = Some (16 * xvalue a + xvalue b).
Proof.
  assert (X : forall c, xdigit c -> In c [48;49;50;51;52;53;54;55;56;57;65;66;67;68;69;70;97;98;99;100;101;102]) by (unfold xdigit, digit; intros c Hc; cbn; lia).
  intros A B. apply X in A, B.
  assert (Q : forallb (fun a => forallb (fun b => match hex_escape a b with Some v => v =? 16 * xvalue a + xvalue b | None => false end)
      [48;49;50;51;52;53;54;55;56;57;65;66;67;68;69;70;97;98;99;100;101;102]) [48;49;50;51;52;53;54;55;56;57;65;66;67;68;69;70;97;98;99;100;101;102] = true) by (vm_compute; reflexivity).
  rewrite forallb_forall in Q. specialize (Q a A). rewrite forallb_forall in Q. specialize (Q b B). destruct (hex_escape a b) as [v|]; [|discriminate]. apply Z.eqb_eq in Q. congruence.
Qed.
Lemma named_ok c : In c (map fst named) -> c <> 120 /\ c <> 10 /\ escape c = Some (piece_byte (PNamed c)).
Proof. intros Hc. cbn in Hc. repeat destruct Hc as [<-|Hc]; try contradiction; (split; [lia|split; [lia|reflexivity]]). Qed.
Lemma eat_str_pieces ps rest : Forall piece_ok ps -> eat_str (fun c => c =? 39) (concat (map piece_text ps) ++ 39 :: rest) = Some (map piece_byte ps, 39 :: rest).
Proof.
  induction 1 as [|p ps Hp _ IH]; [reflexivity|]. cbn [map concat]. rewrite <- app_assoc. destruct p as [c|c|a b]; cbn [piece_text piece_ok] in *.
  - destruct Hp as (N1 & N2 & N3). cbn [app eat_str]. destruct (Z.eqb_spec c 39); [congruence|]. destruct (Z.eqb_spec c 10); [congruence|]. destruct (Z.eqb_spec c 92); [congruence|]. rewrite IH. reflexivity.
  - destruct (named_ok c Hp) as (N1 & N2 & E). cbn [app eat_str]. change (92 =? 39) with false. change (92 =? 10) with false. change (92 =? 92) with true. cbn iota.
    destruct (Z.eqb_spec c 120); [congruence|]. rewrite E, IH. reflexivity.
  - destruct Hp as [Ha Hb]. cbn [app eat_str]. change (92 =? 39) with false. change (92 =? 10) with false. change (92 =? 92) with true. change (120 =? 120) with true. cbn iota.
    rewrite (hex_escape_ok a b Ha Hb), IH. reflexivity.
Qed.
Lemma pieces_nl ps : Forall piece_ok ps -> newlines (concat (map piece_text ps)) = 0.
Proof.
  induction 1 as [|p ps Hp _ IH]; [reflexivity|]. cbn [map concat]. rewrite newlines_app, IH, Z.add_0_r. destruct p as [c|c|a b]; cbn [piece_text piece_ok newlines] in *.
  - destruct (Z.eqb_spec c 10); [lia|reflexivity].
  - apply named_ok in Hp. destruct (Z.eqb_spec c 10); [lia|reflexivity].
  - unfold xdigit, digit in Hp. destruct (Z.eqb_spec a 10); [lia|]. destruct (Z.eqb_spec b 10); [lia|]. reflexivity.
Qed.
Lemma good_esc prev ps rest line : Forall piece_ok ps -> good prev (LEsc ps) rest line.
Proof.
  intros W. exists false. split; [reflexivity|]. cbn [spell kind content]. cbn [app]. rewrite <- app_assoc. cbn [app]. rewrite EB_other by reflexivity. cbn [finish].
  unfold token_at, eat_number, eat_id, eat_string. change (is_digit 39) with false. change (is_idstart 39) with false. change (39 =? 39) with true. cbn [or_else]. rewrite eat_str_pieces by exact W.
  cbn [newlines]. rewrite newlines_app, pieces_nl by exact W. cbn [newlines]. change (39 =? 10) with false. cbn iota. rewrite !Z.add_0_r. reflexivity.
Qed.
Lemma eat_dbl_pieces ps q rest : q = 34 \/ q = 35 -> Forall dpiece_ok ps ->
  eat_str (fun c => (c =? 34) || (c =? 35)) (concat (map piece_text ps) ++ q :: rest) = Some (map piece_byte ps, q :: rest).
Proof.
  intros Hq. induction 1 as [|p ps Hp _ IH]; [destruct Hq as [-> | ->]; reflexivity|]. cbn [map concat]. rewrite <- app_assoc. destruct p as [c|c|a b]; cbn [piece_text dpiece_ok] in *.
  - destruct Hp as (N1 & N2 & N3 & N4). cbn [app eat_str]. destruct (Z.eqb_spec c 34); [congruence|]. destruct (Z.eqb_spec c 35); [congruence|]. destruct (Z.eqb_spec c 10); [congruence|]. destruct (Z.eqb_spec c 92); [congruence|]. cbn [orb]. rewrite IH. reflexivity.
  - destruct (named_ok c Hp) as (N1 & N2 & E). cbn [app eat_str]. change ((92 =? 34) || (92 =? 35)) with false. change (92 =? 10) with false. change (92 =? 92) with true. cbn iota.
    destruct (Z.eqb_spec c 120); [congruence|]. rewrite E, IH. reflexivity.
  - destruct Hp as [Ha Hb]. cbn [app eat_str]. change ((92 =? 34) || (92 =? 35)) with false. change (92 =? 10) with false. change (92 =? 92) with true. change (120 =? 120) with true. cbn iota.
    rewrite (hex_escape_ok a b Ha Hb), IH. reflexivity.
Qed.
Lemma dpieces_nl ps : Forall dpiece_ok ps -> newlines (concat (map piece_text ps)) = 0.
Proof.
  induction 1 as [|p ps Hp _ IH]; [reflexivity|]. cbn [map concat]. rewrite newlines_app, IH, Z.add_0_r. destruct p as [c|c|a b]; cbn [piece_text dpiece_ok newlines] in *.
  - destruct (Z.eqb_spec c 10); [lia|reflexivity].
  - apply named_ok in Hp. destruct (Z.eqb_spec c 10); [lia|reflexivity].
  - unfold xdigit, digit in Hp. destruct (Z.eqb_spec a 10); [lia|]. destruct (Z.eqb_spec b 10); [lia|]. reflexivity.
Qed.
Lemma good_dbl prev ps rest line : Forall dpiece_ok ps -> good prev (LDbl ps) rest line.
Proof.
  intros W. exists false. split; [reflexivity|]. cbn [spell kind content]. cbn [app]. rewrite <- app_assoc. cbn [app]. rewrite EB_other by reflexivity. cbn [finish].
  unfold token_at, eat_number, eat_id, eat_string, eat_raw, eat_interp. change (is_digit 34) with false. change (is_idstart 34) with false. change (34 =? 39) with false. change (34 =? 96) with false. change (34 =? 34) with true. cbn [or_else].
  rewrite (eat_dbl_pieces ps 34 rest (or_introl eq_refl) W). change (34 =? 35) with false.
  cbn [newlines]. rewrite newlines_app, dpieces_nl by exact W. cbn [newlines]. change (34 =? 10) with false. cbn iota. rewrite !Z.add_0_r. reflexivity.
Qed.
Lemma eat_raw_all s rest : Forall (fun c => c <> 96) s -> forall line, eat_raw_loop (s ++ 96 :: rest) line = Some (s, rest, line + newlines s).
Proof.
  induction 1 as [|c s H _ IH]; intros line; cbn [app eat_raw_loop].
  - change (96 =? 96) with true. cbn [newlines]. rewrite Z.add_0_r. reflexivity.
  - destruct (Z.eqb_spec c 96); [congruence|]. rewrite IH. cbn [newlines]. destruct (c =? 10); f_equal; f_equal; lia.
Qed.
Lemma good_raw prev s rest line : Forall (fun c => c <> 96) s -> good prev (LRaw s) rest line.
Proof.
  intros F. exists false. split; [reflexivity|]. cbn [spell kind content]. cbn [app]. rewrite <- app_assoc. cbn [app]. rewrite EB_other by reflexivity. cbn [finish].
  unfold token_at, eat_number, eat_id, eat_string, eat_raw. change (is_digit 96) with false. change (is_idstart 96) with false. change (96 =? 39) with false. change (96 =? 96) with true. cbn [or_else]. rewrite (eat_raw_all s rest F).
  cbn [newlines]. rewrite newlines_app. cbn [newlines]. change (96 =? 10) with false. cbn iota. do 3 f_equal. lia.
Qed.
Theorem lexeme_read prev l rest line : wf_lexeme prev l -> ends_at l rest -> good prev l rest line.
Proof.
  intros W En. destruct l as [t|x|b|ds|ds|ds|a b|s|ps|ps|s|].
  - destruct W as [W1 W2]. destruct (is_word t) eqn:K; [destruct (W2 eq_refl) as [P1 P2]; apply good_keyword; assumption|apply good_op; assumption].
  - apply good_id; assumption.
  - destruct W. apply good_bool; assumption.
  - apply good_int with (1 := W); assumption.
  - apply good_hex with (1 := W); assumption.
  - apply good_bin with (1 := W); assumption.
  - apply good_float with (1 := W); assumption.
  - apply good_str.
  - apply good_esc. exact W.
  - apply good_dbl, W.
  - apply good_raw, W.
  - exists true. split; [reflexivity|]. cbn [spell app kind content]. rewrite EB_newline, potential_is_ends. cbn [wf_lexeme] in W. rewrite W. cbn [finish newlines]. reflexivity.
Qed.
(** ** A whole text. *)
Lemma kind_token l prev : wf_lexeme prev l -> kind l <> T_EOF /\ kind l <> T_UNKNOWN.
Proof. intros W. destruct l as [t| | | | | | | | | | |]; cbn [kind]; try (split; discriminate). destruct W as [W _]. split; intros ->; apply W; reflexivity. Qed.
Lemma spell_len prev l : wf_lexeme prev l -> (1 <= length (spell l))%nat.
Proof.
  intros W. destruct l as [t|x|b|ds|ds|ds|a b|s|ps|ps|s|]; cbn [spell wf_lexeme] in *; try (cbn [length]; lia).
  - destruct W as [W _]. destruct t; try (exfalso; apply W; reflexivity); cbn; lia.
  - destruct W as [(c & r & -> & _) _]. cbn [length]; lia.
  - destruct b; cbn; lia.
  - destruct W as [W _]. destruct ds; [congruence|cbn [length]; lia].
  - rewrite app_length. cbn [length]. lia.
Qed.
Definition view (p : token * Z) : tk * list Z * Z := (t_type (fst p), t_val (fst p), snd p).
Lemma text_len items last : well_written T_UNKNOWN items last -> (length items <= length (text_of items last))%nat.
Proof.
  generalize T_UNKNOWN. induction items as [|[b l] r IH]; intros prev W; cbn [length text_of]; [lia|]. destruct W as (_ & W & _ & W2). apply IH in W2. apply spell_len in W. rewrite !app_length. lia.
Qed.
Lemma lex_from_eq n prev rest line : lex_from (S n) prev rest line =
    match finish prev (EB prev rest line) with
    | None => None
    | Some (t, rest', line') => match t_type t with T_EOF | T_UNKNOWN => Some [(t, line')] | ty => option_map (cons (t, line')) (lex_from n ty rest' line') end
    end.
Proof. reflexivity. Qed.
Theorem lex_text_nl : forall items last prev n line, (length items < n)%nat -> well_written prev items last ->
  exists toks, lex_from n prev (text_of items last) line = Some toks /\ map view toks = expected line items last /\ Forall (fun p => t_interp (fst p) = false) toks /\
    exists ts e, toks = ts ++ [e] /\ Forall2 (fun p l => nl_fits l (t_nl (fst p)) = true) ts (map snd items).
Proof.
  induction items as [|[b l] r IH]; intros last prev n line L W; destruct n as [|n]; try (cbn [length] in L; lia).
  - cbn [text_of well_written expected] in *. rewrite lex_from_eq, (EB_last prev last line W). cbn [finish t_type]. eexists. split; [reflexivity|]. split; [reflexivity|]. split; [repeat constructor|]. eexists [], _. split; [reflexivity|constructor].
  - cbn [text_of well_written expected length] in *. destruct W as (B & W & En & W2). rewrite lex_from_eq, (EB_blank prev b B).
    destruct (lexeme_read prev l (text_of r last) (line + newlines b) W En) as (nl & Nl & G). rewrite G. cbn [t_type].
    destruct (kind_token l prev W) as [K1 K2]. destruct (IH last (kind l) n (line + newlines b + newlines (spell l)) ltac:(lia) W2) as (toks & E & V & F & ts & e & -> & Fn).
    exists ((Tok (kind l) (content l) nl false, line + newlines b + newlines (spell l)) :: ts ++ [e]). cbn [map]. rewrite V. split; [|split; [reflexivity|split; [constructor; [reflexivity|exact F]|eexists (_ :: ts), e; split; [reflexivity|constructor; [exact Nl|exact Fn]]]]]. destruct (kind l); try congruence; rewrite E; reflexivity.
Qed.
Theorem lex_text : forall items last prev n line, (length items < n)%nat -> well_written prev items last ->
  exists toks, lex_from n prev (text_of items last) line = Some toks /\ map view toks = expected line items last /\ Forall (fun p => t_interp (fst p) = false) toks.
Proof. intros items last prev n line L W. destruct (lex_text_nl items last prev n line L W) as (toks & A & B & C & _). eauto. Qed.
(** ** Any text. *)
Definition skipped (s : skip_result) (cur : list Z) : Prop :=
  match s with
  | SNoFuel => False
  | Done (t, rest, _) => t_type t = T_UNKNOWN \/ (length rest < length cur)%nat
  | At cur' _ => (length cur' <= length cur)%nat
  end.
Lemma eat_ws_semi prev : forall cur line rest line', eat_ws prev cur line = WSemi rest line' -> (length rest < length cur)%nat.
Proof.
  induction cur as [|c r IH]; intros line rest line' E; cbn [eat_ws] in E; [discriminate|]. cbn [length]. destruct (is_ws c); [|discriminate]. destruct (c =? 10); [destruct (potential_end prev); [injection E as <- <-; lia|]|]; apply IH in E; lia.
Qed.
Lemma skipped_le s cur cur' : skipped s cur' -> (length cur' <= length cur)%nat -> skipped s cur.
Proof. intros H L. destruct s as [[[t rest] l]|c l|]; cbn in *; [destruct H; [left; assumption|right; lia]|lia|exact H]. Qed.
Lemma EB_skipped prev : forall n cur line, (length cur <= n)%nat -> skipped (EB prev cur line) cur.
Proof.
  induction n as [|n IH]; intros cur line L.
  - destruct cur; [cbn; lia|cbn [length] in L; lia].
  - destruct (match cur with [] => false | c :: _ => is_ws c || (c =? 35) || (c =? 47) end) eqn:Hd.
    2:{ destruct cur as [|c cur]; [cbn; lia|]. rewrite (EB_other _ _ _ _ Hd). cbn. lia. }
    destruct cur as [|c cur]; [discriminate|]. destruct (is_ws c) eqn:Wc.
    { unfold is_ws in Wc. apply orb_prop in Wc. destruct Wc as [Wc|Wc]; [apply orb_prop in Wc; destruct Wc as [Wc|Wc]|]; apply Z.eqb_eq in Wc; subst c.
      - rewrite EB_space by auto. eapply skipped_le; [apply IH; cbn [length] in L; lia|cbn [length]; lia].
      - rewrite EB_newline. destruct (potential_end prev); [cbn; lia|]. eapply skipped_le; [apply IH; cbn [length] in L; lia|cbn [length]; lia].
      - rewrite EB_space by auto. eapply skipped_le; [apply IH; cbn [length] in L; lia|cbn [length]; lia]. }
    rewrite EB_step, (eat_ws_nows _ _ _ _ Wc). cbn [step eat_inline]. cbn [length] in L. destruct (Z.eqb_spec c 35) as [->|N35].
    + pose proof (to_newline_len cur) as T. destruct (to_newline cur) as [|d rest] eqn:E; [cbn; lia|].
      assert (d = 10) as ->. { clear - E. revert E. induction cur as [|x cur IHc]; cbn [to_newline]; [discriminate|]. destruct (Z.eqb_spec x 10) as [->|]; [intros [= <- <-]; reflexivity|exact IHc]. }
      change (10 =? 47) with false. cbn iota. eapply skipped_le; [apply IH; lia|cbn [length]; cbn [length] in T; lia].
    + cbn in Hd. destruct (Z.eqb_spec c 35); [congruence|]. cbn [orb] in Hd. rewrite Hd. apply Z.eqb_eq in Hd. subst c. destruct cur as [|c1 r]; [cbn; lia|].
      destruct (c1 =? 42); [|cbn; lia]. destruct r as [|c2 r]; [left; reflexivity|]. destruct (block_comment c2 r line false) as [[[r' l'] s']|] eqn:B; [|left; reflexivity]. apply block_len in B. cbn [length] in L.
      destruct (s' && potential_end prev); [cbn; lia|]. eapply skipped_le; [apply IH; cbn [length]; lia|cbn [length]; lia].
Qed.
Definition progress (o : option lexed) (n : nat) : Prop := match o with None => True | Some (t, rest, _) => t_type t = T_UNKNOWN \/ (length rest <= n)%nat end.
Lemma skip_sep_len cur : (length (skip_sep cur) <= length cur)%nat.
Proof. induction cur as [|c r IH]; cbn [skip_sep length]; [lia|]. destruct (c =? 95); cbn [length]; lia. Qed.
Lemma fill_len isd : forall r t cur, fill isd r = (t, cur) -> (length cur <= length r)%nat.
Proof.
  induction r as [|c r IH]; intros t cur E; cbn [fill] in E; [injection E as <- <-; lia|]. cbn [length]. destruct (c =? 95); [apply IH in E; lia|]. destruct (isd c).
  - destruct (fill isd r) as [t' cur'] eqn:F. injection E as <- <-. specialize (IH _ _ eq_refl). lia.
  - injection E as <- <-. cbn [length]. lia.
Qed.
Lemma eat_fill_len isd c r t cur : eat_fill isd c r = (t, cur) -> (length cur <= length r)%nat.
Proof. unfold eat_fill. destruct (fill isd r) as [t' cur'] eqn:F. intros [= <- <-]. eapply fill_len, F. Qed.
Lemma eat_int_progress sep isd c r line : progress (eat_int sep isd c r line) (length r).
Proof.
  unfold eat_int. destruct (c =? 48); [|exact I]. destruct r as [|s r]; [exact I|]. destruct (to_lower s =? sep); [|exact I]. pose proof (skip_sep_len r) as K. destruct (skip_sep r) as [|d r']; [left; reflexivity|]. destruct (isd d); [|left; reflexivity].
  destruct (eat_fill isd d r') as [t cur] eqn:F. apply eat_fill_len in F. right. cbn [length] in *. lia.
Qed.
Lemma eat_float_progress t cur line : progress (eat_float t cur line) (length cur).
Proof.
  unfold eat_float. destruct cur as [|d rest]; [exact I|]. destruct (d =? 46); [|exact I]. destruct rest as [|c r]; [right; lia|]. destruct (is_digit c); [|right; lia].
  destruct (eat_fill is_digit c r) as [t2 cur2] eqn:F. apply eat_fill_len in F. destruct cur2 as [|e r2]; [right; cbn; lia|]. destruct (to_lower e =? 101); [|right; cbn [length] in *; lia].
  pose proof (skip_sep_len r2) as K. destruct (skip_sep r2) as [|x r3]; [right; cbn; lia|]. destruct (eat_fill is_digit x r3) as [t3 cur3] eqn:F2. apply eat_fill_len in F2. right. cbn [length] in *. lia.
Qed.
Lemma progress_le o n m : progress o n -> (n <= m)%nat -> progress o m.
Proof. destruct o as [[[t r] l]|]; [|exact (fun _ _ => I)]. intros [H|H] L; [left; exact H|right; cbn in *; lia]. Qed.
Lemma eat_number_progress c r line : progress (eat_number c r line) (length r).
Proof.
  unfold eat_number. destruct (is_digit c); [|exact I]. pose proof (eat_int_progress 120 is_xdigit c r line) as K1. destruct (eat_int 120 is_xdigit c r line); [exact K1|].
  pose proof (eat_int_progress 98 is_bdigit c r line) as K2. destruct (eat_int 98 is_bdigit c r line); [exact K2|]. destruct (eat_fill is_digit c r) as [t cur] eqn:F. apply eat_fill_len in F.
  pose proof (eat_float_progress t cur line) as K3. destruct (eat_float t cur line); [eapply progress_le; eauto|]. right. exact F.
Qed.
Lemma id_fill_len : forall r t cur, id_fill r = (t, cur) -> (length cur <= length r)%nat.
Proof.
  induction r as [|c r IH]; intros t cur E; cbn [id_fill] in E; [injection E as <- <-; lia|]. cbn [length]. destruct (is_id c); [|injection E as <- <-; cbn [length]; lia].
  destruct (id_fill r) as [t' cur'] eqn:F. injection E as <- <-. specialize (IH _ _ eq_refl). lia.
Qed.
Lemma eat_id_progress prev c r line : progress (eat_id prev c r line) (length r).
Proof. unfold eat_id. destruct (is_idstart c); [|exact I]. destruct (id_fill r) as [t cur] eqn:F. apply id_fill_len in F. destruct (id_token prev (c :: t)) as [[k v]|]; [right; exact F|left; reflexivity]. Qed.
Lemma eat_str_len stop : forall n cur t q, (length cur <= n)%nat -> eat_str stop cur = Some (t, q) -> (length q <= length cur)%nat.
Proof.
  induction n as [|n IH]; intros cur t q L E; destruct cur as [|c r]; try discriminate E; cbn [length] in *; try lia. cbn [eat_str] in E. destruct (stop c); [injection E as <- <-; cbn [length]; lia|]. destruct (c =? 10); [discriminate|]. destruct (c =? 92).
  - destruct r as [|e r2]; [discriminate|]. cbn [length] in *. destruct (e =? 120).
    + destruct r2 as [|a [|b r3]]; try discriminate. cbn [length] in *. destruct (hex_escape a b); [|discriminate]. destruct (eat_str stop r3) as [[t' q']|] eqn:X; [|discriminate]. injection E as <- <-. apply IH in X; [lia|lia].
    + destruct (escape e); [|discriminate]. destruct (eat_str stop r2) as [[t' q']|] eqn:X; [|discriminate]. injection E as <- <-. apply IH in X; lia.
  - destruct (eat_str stop r) as [[t' q']|] eqn:X; [|discriminate]. injection E as <- <-. apply IH in X; lia.
Qed.
Lemma eat_string_progress c r line : progress (eat_string c r line) (length r).
Proof. unfold eat_string. destruct (c =? 39); [|exact I]. destruct (eat_str _ r) as [[t [|q r']]|] eqn:E; [left; reflexivity| |left; reflexivity]. apply (eat_str_len _ (length r)) in E; [|lia]. right. cbn [length] in E. lia. Qed.
Lemma eat_interp_progress c r line : progress (eat_interp c r line) (length r).
Proof. unfold eat_interp. destruct (c =? 34); [|exact I]. destruct (eat_str _ r) as [[t [|q r']]|] eqn:E; [left; reflexivity| |left; reflexivity]. apply (eat_str_len _ (length r)) in E; [|lia]. right. cbn [length] in E. lia. Qed.
Lemma eat_raw_len : forall cur line t q l, eat_raw_loop cur line = Some (t, q, l) -> (length q <= length cur)%nat.
Proof.
  induction cur as [|c r IH]; intros line t q l E; cbn [eat_raw_loop] in E; [discriminate|]. cbn [length]. destruct (c =? 96); [injection E as <- <- <-; lia|]. destruct (eat_raw_loop r _) as [[[t' q'] l']|] eqn:X; [|discriminate]. injection E as <- <- <-. apply IH in X. lia.
Qed.
Lemma eat_raw_progress c r line : progress (eat_raw c r line) (length r).
Proof. unfold eat_raw. destruct (c =? 96); [|exact I]. destruct (eat_raw_loop r line) as [[[t q] l]|] eqn:E; [|left; reflexivity]. apply eat_raw_len in E. right. exact E. Qed.
Lemma eat_op_progress c r line : progress (eat_op c r line) (length r).
Proof.
  unfold eat_op. destruct r as [|c2 r2]; [destruct (assoc [c] ops1); [right; cbn; lia|exact I]|]. destruct r2 as [|c3 r3].
  - destruct (assoc [c; c2] ops2); [right; cbn; lia|]. destruct (assoc [c] ops1); [right; cbn; lia|exact I].
  - destruct (assoc [c; c2; c3] ops3); [right; cbn; lia|]. destruct (assoc [c; c2] ops2); [right; cbn; lia|]. destruct (assoc [c] ops1); [right; cbn; lia|exact I].
Qed.
Lemma token_progress prev c r line : progress (token_at prev c r line) (length r).
Proof.
  unfold token_at. pose proof (eat_number_progress c r line). destruct (eat_number c r line); [assumption|]. pose proof (eat_id_progress prev c r line). destruct (eat_id prev c r line); [assumption|]. pose proof (eat_string_progress c r line). destruct (eat_string c r line); [assumption|].
  pose proof (eat_raw_progress c r line). destruct (eat_raw c r line); [assumption|]. pose proof (eat_interp_progress c r line). destruct (eat_interp c r line); [assumption|]. apply eat_op_progress.
Qed.
Lemma gettok_progress prev cur line : exists t rest line', finish prev (EB prev cur line) = Some (t, rest, line') /\ (t_type t = T_EOF \/ t_type t = T_UNKNOWN \/ (length rest < length cur)%nat).
Proof.
  pose proof (EB_skipped prev (length cur) cur line (le_n _)) as K. destruct (EB prev cur line) as [[[t rest] l]|[|c r] l|]; cbn [finish] in *.
  - exists t, rest, l. split; [reflexivity|]. cbn in K. tauto.
  - eexists _, _, _. split; [reflexivity|]. left. reflexivity.
  - pose proof (token_progress prev c r l) as T. cbn in K. destruct (token_at prev c r l) as [[[t rest] l']|].
    + exists t, rest, l'. split; [reflexivity|]. destruct T as [T|T]; [tauto|]. right. right. lia.
    + eexists _, _, _. split; [reflexivity|]. right. left. reflexivity.
  - contradiction.
Qed.
Definition final (t : tk) : Prop := t = T_EOF \/ t = T_UNKNOWN.
Theorem lex_total : forall n prev rest line, (length rest < n)%nat ->
  exists toks t l, lex_from n prev rest line = Some (toks ++ [(t, l)]) /\ final (t_type t) /\ Forall (fun p => ~ final (t_type (fst p))) toks /\ (length toks <= length rest)%nat.
Proof.
  induction n as [|n IH]; intros prev rest line L; [lia|]. rewrite lex_from_eq. destruct (gettok_progress prev rest line) as (t & rest' & l' & -> & K).
  destruct (tk_eq_dec (t_type t) T_EOF) as [E|N1]; [exists [], t, l'; rewrite E; repeat split; [left; reflexivity|constructor|cbn; lia]|].
  destruct (tk_eq_dec (t_type t) T_UNKNOWN) as [E|N2]; [exists [], t, l'; rewrite E; repeat split; [right; reflexivity|constructor|cbn; lia]|].
  destruct K as [K|[K|K]]; [congruence|congruence|]. destruct (IH (t_type t) rest' l' ltac:(lia)) as (toks & t2 & l2 & E & F & G & Le).
  exists ((t, l') :: toks), t2, l2. split; [destruct (t_type t); try congruence; rewrite E; reflexivity|]. split; [exact F|]. split; [constructor; [intros [X|X]; cbn in X; congruence|exact G]|cbn [length]; lia].
Qed.
(** ** The buffer. *)
Lemma buffer_inv : forall ops cap len app, 1 <= cap -> 0 <= len <= cap -> (app = true -> 1 <= len) -> disciplined app ops = true -> Forall (fun w => 0 <= fst w < snd w) (brun (cap, len) ops).
Proof.
  induction ops as [|[| | |] r IH]; intros cap len app C L A D; cbn [brun bstep disciplined] in *; [constructor| | | |].
  - apply IH with (app := false); [lia|lia|discriminate|exact D].
  - assert (K : len < (if len =? cap then cap * 2 else cap)) by (destruct (Z.eqb_spec len cap); lia). constructor; [cbn [fst snd]; lia|]. set (cap' := if len =? cap then cap * 2 else cap) in *. clearbody cap'. apply IH with (app := true); [lia|lia|lia|exact D].
  - apply IH with (app := false); [lia|lia|discriminate|exact D].
  - apply andb_prop in D. destruct D as [-> D]. specialize (A eq_refl). apply IH with (app := false); [lia|lia|discriminate|exact D].
Qed.
