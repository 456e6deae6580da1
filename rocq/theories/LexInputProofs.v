(** * The lexer over its reader reads what the lexer over lists reads. *)
From Verif Require Import Base Text Lexer LexInput.

Section WithInput.
Variable txt : list Z.
Hypothesis bytes : Forall is_byte txt /\ Z.of_nat (length txt) < 2147483648.
Lemma count_len : count txt = Z.of_nat (length txt).
Proof. unfold count. rewrite Z.mod_small by lia. replace (Z.of_nat (length txt) <? 2147483648) with true by (symmetry; lia). reflexivity. Qed.
Definition pos_of (rest : list Z) : Z := count txt - Z.of_nat (length rest).
Definition suffix (rest : list Z) : Prop := exists pre, txt = pre ++ rest.
Lemma suffix_tl c r : suffix (c :: r) -> suffix r.
Proof. intros (p & E). exists (p ++ [c]). rewrite <- app_assoc. exact E. Qed.
Lemma suffix_byte c r : suffix (c :: r) -> is_byte c.
Proof. intros (p & E). destruct bytes as [B _]. rewrite E in B. apply Forall_app in B. destruct B as [_ F]. apply Forall_inv in F. exact F. Qed.
Lemma suffix_nil : suffix [].
Proof. exists txt. rewrite app_nil_r. reflexivity. Qed.

(** The bytes after the current character are unread bytes of the input (the character itself may have been set to a blank). *)
Definition suf (cur : list Z) : Prop := suffix (tl cur).
Lemma suffix_suf cur : suffix cur -> suf cur.
Proof. destruct cur; [intros _; apply suffix_nil|apply suffix_tl]. Qed.

(** The state whose current character and unread bytes are [cur]. *)
Definition CS (cur : list Z) line v ty i : lst := match cur with c :: r => L c (pos_of r) false line v ty i | [] => L 255 (pos_of []) true line v ty i end.
Definition input (s : lst) (rest : list Z) : Prop := suffix rest /\ l_pos s = pos_of rest /\ (l_iseof s = true -> rest = []).

Lemma getc_cons c b r e line v ty i : suffix (b :: r) -> lxgetc txt (L c (pos_of (b :: r)) e line v ty i) = Ok (b, L c (pos_of r) e line v ty i).
Proof.
  intros (p & E). assert (C : count txt = Z.of_nat (length p) + Z.of_nat (length (b :: r))) by (rewrite count_len, E, app_length; lia).
  assert (P : pos_of (b :: r) = Z.of_nat (length p)) by (unfold pos_of; lia). unfold lxgetc. cbn [l_pos l_iseof]. rewrite P.
  replace (count txt <=? Z.of_nat (length p)) with false by (symmetry; cbn [length] in C; lia). unfold nthZ. replace (Z.of_nat (length p) <? 0) with false by (symmetry; lia).
  rewrite Nat2Z.id, E, nth_error_app2, Nat.sub_diag by lia. cbn [nth_error]. unfold set_in. cbn [l_c l_line l_val l_type l_interp]. replace (Z.of_nat (length p) + 1) with (pos_of r); [reflexivity|]. unfold pos_of. cbn [length] in C. lia.
Qed.
Lemma getc_nil c e line v ty i : lxgetc txt (L c (pos_of []) e line v ty i) = Ok (-1, L c (pos_of []) true line v ty i).
Proof. unfold lxgetc. cbn [l_pos]. unfold pos_of. cbn [length]. replace (count txt <=? count txt - Z.of_nat 0) with true by (symmetry; lia). reflexivity. Qed.
Lemma getchar_at c rest e line v ty i : suffix rest -> (e = true -> rest = []) -> getchar txt (L c (pos_of rest) e line v ty i) = Ok (CS rest line v ty i).
Proof.
  intros Sx E. unfold getchar. destruct rest as [|b r].
  - rewrite getc_nil. reflexivity.
  - rewrite getc_cons by exact Sx. destruct e; [discriminate (E eq_refl)|]. cbn [bind fst snd]. unfold set_c. cbn. unfold chr. pose proof (suffix_byte _ _ Sx) as B. unfold is_byte in B. replace (b <? 0) with false by (symmetry; lia). reflexivity.
Qed.
Lemma getchar_CS cur line v ty i : suf cur -> getchar txt (CS cur line v ty i) = Ok (CS (tl cur) line v ty i).
Proof. destruct cur as [|c r]; intros Sx; apply getchar_at; try (apply suffix_nil); try discriminate; try reflexivity. exact Sx. Qed.
Lemma eof_at c rest e line v ty i : lxeof txt (L c (pos_of rest) e line v ty i) = match rest with [] => e | _ => false end.
Proof. unfold lxeof. cbn [l_pos l_iseof]. unfold pos_of. destruct rest; cbn [length]; [replace (count txt <=? count txt - Z.of_nat 0) with true by (symmetry; lia); reflexivity|]. destruct (Z.leb_spec (count txt) (count txt - Z.of_nat (S (length rest)))); [lia|reflexivity]. Qed.
Lemma eof_CS cur line v ty i : lxeof txt (CS cur line v ty i) = match cur with [] => true | _ => false end.
Proof. destruct cur as [|c r]; cbn [CS]; rewrite eof_at; [reflexivity|]. destruct r; reflexivity. Qed.
Lemma seek_at c p e line v ty i rest : lxseek_set txt (L c p e line v ty i) (pos_of rest) = L c (pos_of rest) (match rest with [] => e | _ => false end) line v ty i.
Proof. unfold lxseek_set, set_in. cbn. unfold pos_of. destruct rest; cbn [length]; [replace (count txt - Z.of_nat 0 <? count txt) with false by (symmetry; lia); reflexivity|]. replace (count txt - Z.of_nat (S (length rest)) <? count txt) with true by (symmetry; lia). reflexivity. Qed.
Lemma CS_cons c r line v ty i : CS (c :: r) line v ty i = L c (pos_of r) false line v ty i. Proof. reflexivity. Qed.
Lemma line_CS cur line v ty i : l_line (CS cur line v ty i) = line. Proof. destruct cur; reflexivity. Qed.
Lemma type_CS cur line v ty i : l_type (CS cur line v ty i) = ty. Proof. destruct cur; reflexivity. Qed.
Lemma val_CS cur line v ty i : l_val (CS cur line v ty i) = v. Proof. destruct cur; reflexivity. Qed.
Lemma c_CS cur line v ty i : l_c (CS cur line v ty i) = hd 255 cur. Proof. destruct cur; reflexivity. Qed.
Lemma set_line_CS cur line v ty i x : set_line (CS cur line v ty i) x = CS cur x v ty i. Proof. destruct cur; reflexivity. Qed.
Lemma set_type_CS cur line v ty i x : set_type (CS cur line v ty i) x = CS cur line v x i. Proof. destruct cur; reflexivity. Qed.
Lemma set_val_CS cur line v ty i x : set_val (CS cur line v ty i) x = CS cur line x ty i. Proof. destruct cur; reflexivity. Qed.
Lemma set_interp_CS cur line v ty i x : set_interp (CS cur line v ty i) x = CS cur line v ty x. Proof. destruct cur; reflexivity. Qed.
Lemma append_CS cur line v ty i x : append (CS cur line v ty i) x = CS cur line (v ++ [x]) ty i. Proof. destruct cur; reflexivity. Qed.

(** ** Blanks *)
Lemma ws_ok : forall fuel cur line v ty i, suf cur -> (length cur < fuel)%nat ->
  match eat_ws ty cur line with
  | WSemi rest l => i_ws txt fuel (CS cur line v ty i) = Ok (true, L 10 (pos_of rest) false l v T_SEMI i) /\ suffix rest
  | WGo cur' l => i_ws txt fuel (CS cur line v ty i) = Ok (false, CS cur' l v ty i) /\ suf cur' /\ (length cur' <= length cur)%nat /\
      (match cur with c :: _ => is_ws c = true -> (length cur' < length cur)%nat | [] => True end) /\ match cur' with c :: _ => is_ws c = false | [] => True end /\
      (match cur with c :: _ => is_ws c = false -> cur' = cur | [] => True end)
  end.
Proof.
  induction fuel as [|f IH]; intros cur line v ty i Sx L; [lia|]. destruct cur as [|c r].
  - cbn [eat_ws i_ws]. rewrite eof_CS. cbn [negb andb]. repeat split; auto.
  - cbn [eat_ws i_ws]. rewrite eof_CS, c_CS. cbn [negb andb hd]. destruct (is_ws c) eqn:W.
    2: { split; [reflexivity|]. split; [exact Sx|]. split; [lia|]. split; [discriminate|]. split; [exact W|]. reflexivity. }
    cbn [length] in L. pose proof (suffix_suf _ Sx) as Sr0; cbn [tl] in Sr0. change (suffix r) in Sx. rewrite line_CS, set_line_CS, type_CS, set_type_CS.
    assert (K : forall l, match eat_ws ty r l with
      | WSemi rest l' => (do s <- getchar txt (CS (c :: r) l v ty i); i_ws txt f s) = Ok (true, LexInput.L 10 (pos_of rest) false l' v T_SEMI i) /\ suffix rest
      | WGo cur' l' => (do s <- getchar txt (CS (c :: r) l v ty i); i_ws txt f s) = Ok (false, CS cur' l' v ty i) /\ suf cur' /\ (length cur' <= length (c :: r))%nat /\
          (true = true -> (length cur' < length (c :: r))%nat) /\ match cur' with c :: _ => is_ws c = false | [] => True end /\ (true = false -> cur' = c :: r) end).
    { intros l. rewrite getchar_CS by exact Sx. cbn [bind tl]. specialize (IH r l v ty i Sr0 ltac:(lia)). destruct (eat_ws ty r l) as [rest l'|cur' l']; [exact IH|]. destruct IH as (A & B & D & _ & W' & _). cbn [length]. repeat split; auto; try lia; discriminate. }
    destruct (Z.eqb_spec c 10) as [->|N].
    + destruct (potential_end ty) eqn:P; [split; [reflexivity|exact Sx]|]. apply K.
    + apply K.
Qed.
Lemma newline_ok : forall fuel c rest line v ty i, suf (c :: rest) -> (S (length rest) < fuel)%nat ->
  i_to_newline txt fuel (CS (c :: rest) line v ty i) = Ok (CS (to_newline rest) line v ty i) /\ suffix (to_newline rest) /\ (length (to_newline rest) <= length rest)%nat.
Proof.
  induction fuel as [|f IH]; intros c rest line v ty i Sx Lt; [lia|]. cbn [i_to_newline]. rewrite eof_CS, getchar_CS by exact Sx. cbn [bind tl]. pose proof Sx as Sr; change (suffix rest) in Sr. rewrite c_CS.
  destruct rest as [|d r].
  - cbn [hd to_newline]. change (255 =? 10) with false. cbn iota. split; [|split; [apply suffix_nil|lia]]. destruct f as [|f]; [cbn [length] in Lt; lia|]. cbn [i_to_newline]. rewrite eof_CS. reflexivity.
  - cbn [hd to_newline]. cbn [length] in Lt. destruct (d =? 10) eqn:D; [split; [reflexivity|split; [exact Sr|lia]]|].
    destruct (IH d r line v ty i (suffix_suf _ Sr) ltac:(lia)) as (A & B & C). split; [exact A|split; [exact B|cbn [length]; lia]].
Qed.
Lemma block_ok : forall fuel c1 c2 r line v ty i c semi, suffix (c2 :: r) -> (S (length r) < fuel)%nat ->
  match block_comment c1 (c2 :: r) line semi with
  | Some (r', l', semi') => i_block txt fuel c1 c2 semi (L c (pos_of r) false line v ty i) = Ok (semi', L c (pos_of r') false l' v ty i) /\ suffix r' /\ (length r' <= length r)%nat
  | None => exists sm l', i_block txt fuel c1 c2 semi (L c (pos_of r) false line v ty i) = Ok (sm, L c (pos_of []) true l' v ty i)
  end.
Proof.
  induction fuel as [|f IH]; intros c1 c2 r line v ty i c semi Sx Lt; [lia|]. pose proof (suffix_tl _ _ Sx) as Sr.
  change (block_comment c1 (c2 :: r) line semi) with (if (c1 =? 42) && (c2 =? 47) then Some (r, line, semi) else block_comment c2 r (if c1 =? 10 then line + 1 else line) (semi || (c1 =? 10) || (c2 =? 10))).
  cbn [i_block]. rewrite eof_at. replace (match r with [] => false | _ => false end) with false by (destruct r; reflexivity). cbn [negb andb].
  rewrite <- negb_andb. destruct ((c1 =? 42) && (c2 =? 47)); [split; [reflexivity|split; [exact Sr|lia]]|]. cbn [negb]. cbn iota. cbn [l_line].
  replace (if (c1 =? 10) || (c2 =? 10) then true else semi) with (semi || (c1 =? 10) || (c2 =? 10)) by (destruct semi, (c1 =? 10), (c2 =? 10); reflexivity).
  set (l1 := if c1 =? 10 then line + 1 else line). replace (if c1 =? 10 then set_line (L c (pos_of r) false line v ty i) (line + 1) else L c (pos_of r) false line v ty i) with (L c (pos_of r) false l1 v ty i) by (unfold l1; destruct (c1 =? 10); reflexivity).
  destruct r as [|d r].
  - cbn [block_comment]. rewrite getc_nil. cbn [bind fst snd]. destruct f as [|f]; [cbn [length] in Lt; lia|]. cbn [i_block]. rewrite eof_at. cbn [negb andb]. eexists _, _. reflexivity.
  - rewrite getc_cons by exact Sr. cbn [bind fst snd]. cbn [length] in Lt. pose proof (IH c2 d r l1 v ty i c (semi || (c1 =? 10) || (c2 =? 10)) Sr ltac:(lia)) as K.
    destruct (block_comment c2 (d :: r) l1 (semi || (c1 =? 10) || (c2 =? 10))) as [[[r' l'] s']|]; [|exact K]. destruct K as (A & B & C). split; [exact A|split; [exact B|cbn [length]; lia]].
Qed.

(** What a finished token leaves behind. *)
Definition gives (o : lexed) (s : lst) : Prop :=
  let '(t, rest, line) := o in l_type s = t_type t /\ (t_type t <> T_UNKNOWN -> token_of s = t /\ l_line s = line /\ input s rest).
Lemma input_at c rest e line v ty i : suffix rest -> (e = true -> rest = []) -> input (L c (pos_of rest) e line v ty i) rest.
Proof. intros A B. split; [exact A|split; [reflexivity|exact B]]. Qed.

Lemma blank_ok : forall n cur fuel f2 line ty, suf cur -> (length cur <= n)%nat -> (n + 2 <= fuel)%nat ->
  match eat_blank f2 ty cur line with
  | SNoFuel => True
  | Done o => exists s, i_blank txt fuel (CS cur line [] ty false) = Ok (true, s) /\ gives o s
  | At cur' l => i_blank txt fuel (CS cur line [] ty false) = Ok (false, CS cur' l [] ty false) /\ suf cur' /\ (length cur' <= length cur)%nat
  end.
Proof.
  induction n as [|n IH]; intros cur fuel f2 line ty Sx Ln Lf.
  { destruct cur; [|cbn [length] in Ln; lia]. destruct f2 as [|f2]; [exact I|]. destruct fuel as [|fuel]; [lia|]. cbn [eat_blank i_blank]. rewrite eof_CS. cbn [negb andb]. auto. }
  destruct f2 as [|f2]; [exact I|]. destruct fuel as [|fuel]; [lia|]. cbn [eat_blank]. cbn [i_blank]. rewrite eof_CS. destruct cur as [|c rest0]; [cbn [negb andb]; auto|]. rewrite c_CS. cbn [negb andb hd].
  destruct (is_ws c || (c =? 35) || (c =? 47)) eqn:G; [|auto].
  pose proof (ws_ok (S fuel) (c :: rest0) line [] ty false Sx ltac:(lia)) as W. destruct (eat_ws ty (c :: rest0) line) as [rest l|cur1 l].
  { destruct W as [-> Sr]. cbn [bind fst snd]. eexists. split; [reflexivity|]. split; [reflexivity|]. intros _. split; [reflexivity|]. split; [reflexivity|]. apply input_at; [exact Sr|discriminate]. }
  destruct W as (-> & S1 & L1 & D1 & N1 & K1). cbn [bind fst snd].
  assert (IN : exists cur2, eat_inline cur1 = cur2 /\ i_inline txt (S fuel) (CS cur1 l [] ty false) = Ok (CS cur2 l [] ty false) /\ suf cur2 /\ (length cur2 <= length cur1)%nat /\
    (match cur2 with d :: _ => d =? 47 = true -> cur2 = cur1 | [] => True end) /\ (match cur2 with d :: _ => d =? 47 = false -> cur2 = cur1 -> is_ws c = true \/ d <> c | [] => True end)).
  { unfold eat_inline, i_inline. rewrite c_CS. destruct cur1 as [|d r].
    - cbn [hd]. change (255 =? 35) with false. eexists. split; [reflexivity|]. split; [reflexivity|]. split; [exact S1|]. split; [lia|]. split; exact I.
    - cbn [hd]. destruct (Z.eqb_spec d 35) as [->|N].
      + destruct (newline_ok (S fuel) 35 r l [] ty false S1 ltac:(cbn [length] in *; lia)) as (A & B & C). exists (to_newline r). split; [reflexivity|]. split; [exact A|]. split; [exact (suffix_suf _ B)|]. split; [cbn [length]; lia|].
        split.
        * assert (T : match to_newline r with d :: _ => d = 10 | [] => True end) by (clear; induction r as [|e r IH]; cbn [to_newline]; [exact I|]; destruct (Z.eqb_spec e 10); [assumption|exact IH]).
          destruct (to_newline r) as [|d r']; [exact I|]. rewrite T. discriminate.
        * destruct (to_newline r) as [|d r'] eqn:E; [exact I|]. intros _ X. exfalso. apply (f_equal (@length Z)) in X. cbn [length] in *. lia.
      + exists (d :: r). split; [reflexivity|]. split; [reflexivity|]. split; [exact S1|]. split; [lia|]. split; [reflexivity|]. intros D _. destruct (is_ws c) eqn:W; [left; reflexivity|right]. intros ->. destruct (Z.eqb_spec c 35); [tauto|]. rewrite D in G. discriminate G. }
  destruct IN as (cur2 & E2 & -> & S2 & L2 & D2 & D3). cbn [bind]. rewrite E2. rewrite c_CS.
  destruct cur2 as [|d r2].
  { cbn [hd]. change (255 =? 47) with false. cbn iota. destruct fuel as [|fuel]; [lia|]. cbn [i_blank]. rewrite eof_CS. cbn [negb andb]. split; [reflexivity|]. split; [exact S2|cbn [length]; lia]. }
  cbn [hd]. destruct (d =? 47) eqn:D.
  2: { assert (Lt : (length (d :: r2) <= n)%nat).
       { assert ((length (d :: r2) < length (c :: rest0))%nat); [|lia]. destruct (is_ws c) eqn:W; [specialize (D1 eq_refl); lia|]. specialize (K1 eq_refl). subst cur1.
         destruct (Nat.eq_dec (length (d :: r2)) (length (c :: rest0))) as [Eq|]; [|lia]. exfalso.
         unfold eat_inline in E2. destruct (Z.eqb_spec c 35) as [->|N]; [|injection E2 as -> ->; destruct (D3 eq_refl eq_refl) as [X|X]; [discriminate X|apply X; reflexivity]].
         assert (Q : (length (to_newline rest0) <= length rest0)%nat) by (clear; induction rest0 as [|e r IH]; cbn [to_newline]; [lia|]; destruct (e =? 10); cbn [length]; lia). rewrite E2 in Q. cbn [length] in *. lia. }
       pose proof (IH (d :: r2) fuel f2 l ty S2 Lt ltac:(lia)) as R. destruct (eat_blank f2 ty (d :: r2) l) as [o|cur' l'|]; [exact R| |exact I]. destruct R as (A & B & C). split; [exact A|]. split; [exact B|lia]. }
  assert (E47 : d = 47) by lia. subst d. clear D. specialize (D2 eq_refl). rewrite getchar_CS by exact S2. cbn [bind tl]. rewrite c_CS. pose proof S2 as S3; change (suffix r2) in S3.
  destruct r2 as [|c1 r3].
  { cbn [hd]. change (255 =? 42) with false. cbn iota. rewrite eof_CS. eexists. split; [reflexivity|]. split; [reflexivity|]. intros _. split; [reflexivity|]. split; [reflexivity|]. apply input_at; [apply suffix_nil|reflexivity]. }
  cbn [hd]. destruct (c1 =? 42) eqn:C1.
  2: { rewrite eof_CS. cbn iota. unfold lxtell. cbn [CS l_pos]. rewrite seek_at. split; [reflexivity|]. split; [exact S2|lia]. }
  cbn [CS]. change (set_c (L c1 (pos_of r3) false l [] ty false) 32) with (L 32 (pos_of r3) false l [] ty false). pose proof (suffix_tl _ _ S3) as S4.
  assert (ERR : forall s, lxeof txt s = true -> exists s', (if lxeof txt s then Ok (true, i_error s) else @Ok (bool * lst) (false, s)) = Ok (true, s') /\ gives (lex_error [] [] l) s').
  { intros s ->. eexists. split; [reflexivity|]. split; [reflexivity|]. intros X. destruct X. reflexivity. }
  destruct r3 as [|k1 r4].
  { rewrite getc_nil. cbn [bind fst snd]. rewrite getc_nil. cbn [bind fst snd]. cbn [i_block]. rewrite eof_at. cbn [negb andb bind fst snd]. rewrite eof_at. eexists. split; [reflexivity|]. split; [reflexivity|]. intros X. destruct X. reflexivity. }
  rewrite getc_cons by exact S4. cbn [bind fst snd]. pose proof (suffix_tl _ _ S4) as S5. destruct r4 as [|k2 r5].
  { rewrite getc_nil. cbn [bind fst snd block_comment]. cbn [i_block]. rewrite eof_at. cbn [negb andb bind fst snd]. rewrite eof_at. eexists. split; [reflexivity|]. split; [reflexivity|]. intros X. destruct X. reflexivity. }
  rewrite getc_cons by exact S5. cbn [bind fst snd]. cbn [length] in *.
  pose proof (block_ok (S fuel) k1 k2 r5 l [] ty false 32 false S5 ltac:(lia)) as B. destruct (block_comment k1 (k2 :: r5) l false) as [[[r' l'] sm]|].
  2: { destruct B as (sm & l' & ->). cbn [bind fst snd]. rewrite eof_at. eexists. split; [reflexivity|]. split; [reflexivity|]. intros X. destruct X. reflexivity. }
  destruct B as (-> & Sr & Lr). cbn [bind fst snd]. rewrite eof_at. replace (match r' with [] => false | _ => false end) with false by (destruct r'; reflexivity). cbn iota. cbn [l_type].
  destruct (sm && potential_end ty) eqn:PE.
  { eexists. split; [reflexivity|]. split; [reflexivity|]. intros _. split; [reflexivity|]. split; [reflexivity|]. apply input_at; [exact Sr|discriminate]. }
  change (L 32 (pos_of r') false l' [] ty false) with (CS (32 :: r') l' [] ty false).
  pose proof (IH (32 :: r') fuel f2 l' ty Sr ltac:(cbn [length]; lia) ltac:(lia)) as R.
  destruct (eat_blank f2 ty (32 :: r') l') as [o|cur' l''|]; [exact R| |exact I]. destruct R as (A & B & C). split; [exact A|]. split; [exact B|cbn [length] in *; lia].
Qed.

(** ** Operators *)
Lemma ops_known : forallb (fun p => negb (tk_eqb (snd p) T_UNKNOWN)) (ops1 ++ ops2 ++ ops3) = true. Proof. reflexivity. Qed.
Lemma assoc_in x l t : assoc x l = Some t -> In (x, t) l.
Proof. induction l as [|[k u] l IH]; cbn [assoc]; [discriminate|]. unfold bytes_eqb. destruct (list_eq_dec Z.eq_dec k x) as [->|]; [intros [= ->]; left; reflexivity|intros E; right; auto]. Qed.
Lemma find_ok k ops : incl ops (ops1 ++ ops2 ++ ops3) -> match assoc k ops with Some t => find k ops = t /\ tk_eqb t T_UNKNOWN = false | None => find k ops = T_UNKNOWN end.
Proof.
  intros I. unfold find. destruct (assoc k ops) as [t|] eqn:E; [|reflexivity]. split; [reflexivity|]. apply assoc_in, I in E. pose proof ops_known as K. rewrite forallb_forall in K. apply K in E. cbn [snd] in E. apply negb_true_iff in E. exact E.
Qed.
Definition decided (o : option lexed) (r : outcome (bool * lst)) : Prop :=
  match o with Some o => exists s, r = Ok (true, s) /\ gives o s | None => exists s, r = Ok (false, s) end.
Lemma op_ok c1 rest line : suffix rest -> decided (eat_op c1 rest line) (i_op txt (CS (c1 :: rest) line [] T_UNKNOWN false)) /\
  forall ty, decided (eat_op c1 rest line) (i_op txt (CS (c1 :: rest) line [] ty false)).
Proof.
  intros Sr. enough (A : forall ty, decided (eat_op c1 rest line) (i_op txt (CS (c1 :: rest) line [] ty false))) by auto. intros ty.
  assert (ONE : forall rest' e, suffix rest' -> (e = true -> rest' = []) -> decided (match assoc [c1] ops1 with Some t => Some (plain t [] [c1] rest' line) | None => None end) (Ok (i_one c1 (L c1 (pos_of rest') e line [] ty false)))).
  { intros rest' e Sx Ex. unfold i_one. pose proof (find_ok [c1] ops1 ltac:(apply incl_appl, incl_refl)) as F. destruct (assoc [c1] ops1) as [t|].
    - destruct F as [-> ->]. eexists. split; [reflexivity|]. split; [reflexivity|]. intros _. split; [reflexivity|]. split; [reflexivity|]. apply input_at; assumption.
    - rewrite F. eexists. reflexivity. }
  assert (TWO : forall c2 r2 e, suffix (c2 :: r2) -> rest = c2 :: r2 -> (e = true -> r2 = []) ->
    decided (match assoc [c1; c2] ops2 with Some t => Some (plain t [] [c1] r2 line) | None => match assoc [c1] ops1 with Some t => Some (plain t [] [c1] rest line) | None => None end end) (Ok (i_two txt c1 c2 (pos_of rest) (L c1 (pos_of r2) e line [] ty false)))).
  { intros c2 r2 e Sx E Ex. unfold i_two. pose proof (find_ok [c1; c2] ops2 ltac:(apply incl_appr, incl_appl, incl_refl)) as F. destruct (assoc [c1; c2] ops2) as [t|].
    - destruct F as [-> ->]. eexists. split; [reflexivity|]. split; [reflexivity|]. intros _. split; [reflexivity|]. split; [reflexivity|]. apply input_at; [apply (suffix_tl _ _ Sx)|assumption].
    - rewrite F. change (tk_eqb T_UNKNOWN T_UNKNOWN) with true. cbn iota. rewrite seek_at. apply ONE; [exact Sr|rewrite E; discriminate]. }
  unfold i_op, eat_op, lxtell. cbn [CS l_c l_pos]. destruct rest as [|c2 r2].
  - rewrite getc_nil. cbn [bind fst snd]. rewrite eof_at. apply ONE; [exact Sr|reflexivity].
  - rewrite getc_cons by exact Sr. cbn [bind fst snd]. rewrite eof_at. replace (match r2 with [] => false | _ => false end) with false by (destruct r2; reflexivity). cbn iota. cbn [l_pos].
    pose proof (suffix_byte _ _ Sr) as B2. pose proof (suffix_tl _ _ Sr) as S2. assert (chr c2 = c2) as -> by (unfold chr; unfold is_byte in B2; replace (c2 <? 0) with false by (symmetry; lia); reflexivity). destruct r2 as [|c3 r3].
    + rewrite getc_nil. cbn [bind fst snd]. rewrite eof_at. apply TWO; [exact Sr|reflexivity|reflexivity].
    + rewrite getc_cons by exact S2. cbn [bind fst snd]. rewrite eof_at. replace (match r3 with [] => false | _ => false end) with false by (destruct r3; reflexivity). cbn iota.
      pose proof (suffix_byte _ _ S2) as B3. assert (chr c3 = c3) as -> by (unfold chr; unfold is_byte in B3; replace (c3 <? 0) with false by (symmetry; lia); reflexivity).
      pose proof (find_ok [c1; c2; c3] ops3 ltac:(apply incl_appr, incl_appr, incl_refl)) as F. destruct (assoc [c1; c2; c3] ops3) as [t|].
      * destruct F as [-> ->]. eexists. split; [reflexivity|]. split; [reflexivity|]. intros _. split; [reflexivity|]. split; [reflexivity|]. apply input_at; [apply (suffix_tl _ _ S2)|discriminate].
      * rewrite F. change (tk_eqb T_UNKNOWN T_UNKNOWN) with true. cbn iota. rewrite seek_at. apply TWO; [exact Sr|reflexivity|discriminate].
Qed.

(** ** Numbers *)
Lemma gives_seek t v cur line : suffix cur ->
  gives (Tok t v (cur_nl cur) false, cur, line) (if lxeof txt (CS cur line v t false) then CS cur line v t false else lxseek_set txt (CS cur line v t false) (pos_of cur)).
Proof.
  intros Sx. rewrite eof_CS. destruct cur as [|c r].
  - split; [reflexivity|]. intros _. split; [reflexivity|]. split; [reflexivity|]. apply input_at; [exact Sx|reflexivity].
  - cbn [CS]. rewrite seek_at. split; [reflexivity|]. intros _. split; [reflexivity|]. split; [reflexivity|]. apply input_at; [exact Sx|discriminate].
Qed.
Lemma sep_ok : forall fuel cur line v ty i, suffix cur -> (length cur < fuel)%nat ->
  i_sep txt fuel (pos_of cur) (CS cur line v ty i) = Ok (pos_of (skip_sep cur), CS (skip_sep cur) line v ty i) /\ suffix (skip_sep cur) /\ (length (skip_sep cur) <= length cur)%nat.
Proof.
  induction fuel as [|f IH]; intros cur line v ty i Sx Lt; [lia|]. cbn [i_sep]. rewrite c_CS. destruct cur as [|c r]; [cbn [hd skip_sep]; change (255 =? 95) with false; auto|].
  cbn [hd skip_sep]. destruct (c =? 95); [|auto]. rewrite getchar_CS by exact (suffix_suf _ Sx). cbn [bind tl]. unfold lxtell. cbn [CS l_pos]. cbn [length] in Lt. pose proof (suffix_tl _ _ Sx) as Sr.
  destruct (IH r line v ty i Sr ltac:(lia)) as (A & B & C). split; [exact A|]. split; [exact B|cbn [length]; lia].
Qed.
Lemma sep2_ok : forall fuel cur line v ty i, suffix cur -> (length cur < fuel)%nat ->
  i_sep2 txt fuel (CS cur line v ty i) = Ok (CS (skip_sep cur) line v ty i) /\ suffix (skip_sep cur) /\ (length (skip_sep cur) <= length cur)%nat.
Proof.
  induction fuel as [|f IH]; intros cur line v ty i Sx Lt; [lia|]. cbn [i_sep2]. rewrite c_CS. destruct cur as [|c r]; [cbn [hd skip_sep]; change (255 =? 95) with false; auto|].
  cbn [hd skip_sep]. destruct (c =? 95); [|auto]. rewrite getchar_CS by exact (suffix_suf _ Sx). cbn [bind tl]. cbn [length] in Lt. pose proof (suffix_tl _ _ Sx) as Sr.
  destruct (IH r line v ty i Sr ltac:(lia)) as (A & B & C). split; [exact A|]. split; [exact B|cbn [length]; lia].
Qed.
Lemma fill_sep isd rest : fill isd rest = match skip_sep rest with [] => ([], []) | c :: r => if isd c then let '(t, cur) := fill isd r in (c :: t, cur) else ([], c :: r) end.
Proof. induction rest as [|c r IH]; [reflexivity|]. cbn [fill skip_sep]. destruct (c =? 95); [exact IH|reflexivity]. Qed.
Lemma append_at c p e line v ty i x : append (L c p e line v ty i) x = L c p e line (v ++ [x]) ty i. Proof. reflexivity. Qed.
Lemma fill_ok isd : forall fuel rest c e line v ty i, suffix rest -> (e = true -> rest = []) -> (S (length rest) < fuel)%nat ->
  i_fill txt fuel isd (L c (pos_of rest) e line v ty i) = Ok (pos_of (snd (fill isd rest)), CS (snd (fill isd rest)) line (v ++ c :: fst (fill isd rest)) ty i) /\
  suffix (snd (fill isd rest)) /\ (length (snd (fill isd rest)) <= length rest)%nat.
Proof.
  induction fuel as [|f IH]; intros rest c e line v ty i Sx Ex Lt; [lia|]. cbn [i_fill]. cbn [l_c]. rewrite append_at. rewrite getchar_at by assumption. cbn [bind]. unfold lxtell at 1. cbn [l_pos].
  destruct (sep_ok (S f) rest line (v ++ [c]) ty i Sx ltac:(lia)) as (-> & Ss & Ls). cbn [bind fst snd]. rewrite eof_CS, c_CS, (fill_sep isd rest). destruct (skip_sep rest) as [|d r].
  - cbn [negb andb fst snd]. auto.
  - cbn [negb andb hd]. destruct (isd d).
    + pose proof (suffix_tl _ _ Ss) as Sr. cbn [length] in Ls. destruct (IH r d false line (v ++ [c]) ty i Sr ltac:(discriminate) ltac:(lia)) as (A & B & C). cbn [CS]. destruct (fill isd r) as [t cur]. cbn [fst snd] in *.
      rewrite A. split; [rewrite <- app_assoc; reflexivity|]. split; [exact B|lia].
    + cbn [fst snd]. auto.
Qed.
Lemma int_ok fuel sep isd c rest e line ty : suffix rest -> (e = true -> rest = []) -> (S (length rest) < fuel)%nat -> isd 255 = false -> sep <> 255 ->
  match eat_int sep isd c rest line with
  | Some o => exists s, i_int txt fuel sep isd (L c (pos_of rest) e line [] ty false) = Ok (true, s) /\ gives o s
  | None => exists e', i_int txt fuel sep isd (L c (pos_of rest) e line [] ty false) = Ok (false, L c (pos_of rest) e' line [] ty false) /\ (e' = true -> rest = [])
  end.
Proof.
  intros Sx Ex Lt D255 S255. unfold eat_int, i_int, lxtell. cbn [l_c l_pos]. destruct (Z.eqb_spec c 48) as [->|N].
  2: { unfold set_val, set_c. cbn. rewrite seek_at. eexists. split; [reflexivity|]. destruct rest; [exact Ex|discriminate]. }
  rewrite getchar_at by assumption. cbn [bind]. rewrite append_CS, c_CS. destruct rest as [|s r].
  { cbn [hd]. change (to_lower 255) with 255. replace (255 =? sep) with false by (symmetry; lia). rewrite set_val_CS. cbn [CS]. unfold set_c. cbn. rewrite seek_at. eexists. split; [reflexivity|]. reflexivity. }
  cbn [hd]. destruct (to_lower s =? sep).
  2: { rewrite set_val_CS. cbn [CS]. unfold set_c. cbn. rewrite seek_at. eexists. split; [reflexivity|]. discriminate. }
  rewrite getchar_CS by exact (suffix_suf _ Sx). cbn [bind tl]. rewrite append_CS. cbn [length] in Lt. pose proof (suffix_tl _ _ Sx) as Sr.
  destruct (sep2_ok fuel r line (([] ++ [48]) ++ [sep]) ty false Sr ltac:(lia)) as (-> & Ss & Ls). cbn [bind]. rewrite c_CS. destruct (skip_sep r) as [|d r'].
  { cbn [hd]. rewrite D255. cbn [negb]. eexists. split; [reflexivity|]. split; [reflexivity|]. intros X. destruct X. reflexivity. }
  cbn [hd]. destruct (isd d); cbn [negb].
  2: { eexists. split; [reflexivity|]. split; [reflexivity|]. intros X. destruct X. reflexivity. }
  cbn [length] in Ls. pose proof (suffix_tl _ _ Ss) as S2. cbn [CS]. destruct (fill_ok isd fuel r' d false line (([] ++ [48]) ++ [sep]) ty false S2 ltac:(discriminate) ltac:(lia)) as (-> & Sf & Lf). cbn [bind fst snd]. unfold eat_fill.
  destruct (fill isd r') as [t cur]. cbn [fst snd] in *. rewrite set_type_CS. eexists. split; [reflexivity|]. cbn [app]. apply gives_seek. exact Sf.
Qed.
Lemma pos_cons c r : pos_of r - 1 = pos_of (c :: r). Proof. unfold pos_of. cbn [length]. lia. Qed.
Lemma float_ok fuel t cur line : suffix cur -> (S (length cur) < fuel)%nat ->
  match eat_float t cur line with
  | Some o => exists s, i_float txt fuel (CS cur line t T_INT false) = Ok (true, s) /\ gives o s
  | None => i_float txt fuel (CS cur line t T_INT false) = Ok (false, CS cur line t T_INT false)
  end.
Proof.
  intros Sx Lt. unfold eat_float, i_float. rewrite c_CS. destruct cur as [|d rest]; [cbn [hd]; change (255 =? 46) with false; reflexivity|]. cbn [hd]. destruct (Z.eqb_spec d 46) as [->|]; [|reflexivity].
  rewrite getchar_CS by exact (suffix_suf _ Sx). cbn [bind tl]. rewrite eof_CS. pose proof (suffix_tl _ _ Sx) as Sr. unfold lxtell. cbn [CS l_pos]. rewrite (pos_cons 46). fold (CS rest line t T_INT false).
  assert (NL : forall v ty cur2, suffix cur2 -> gives (Tok ty v (cur_nl cur2) false, cur2, line) (set_type (if lxeof txt (CS cur2 line v T_INT false) then CS cur2 line v T_INT false else lxseek_cur txt (CS cur2 line v T_INT false) (-1)) ty)).
  { intros v ty cur2 Sy. rewrite eof_CS. destruct cur2 as [|c2 r2].
    - split; [reflexivity|]. intros _. split; [reflexivity|]. split; [reflexivity|]. apply input_at; [exact Sy|reflexivity].
    - unfold lxseek_cur. cbn [CS l_pos]. replace (pos_of r2 + -1) with (pos_of (c2 :: r2)) by (rewrite <- pos_cons; lia). rewrite seek_at. split; [reflexivity|]. intros _. split; [reflexivity|]. split; [reflexivity|]. apply input_at; [exact Sy|discriminate]. }
  destruct rest as [|c r].
  { cbn [CS]. rewrite seek_at. eexists. split; [reflexivity|]. split; [reflexivity|]. intros _. split; [reflexivity|]. split; [reflexivity|]. apply input_at; [exact Sx|discriminate]. }
  rewrite c_CS. cbn [hd]. destruct (is_digit c); cbn [negb].
  2: { cbn [CS]. rewrite seek_at. eexists. split; [reflexivity|]. split; [reflexivity|]. intros _. split; [reflexivity|]. split; [reflexivity|]. apply input_at; [exact Sx|discriminate]. }
  rewrite append_CS. cbn [length] in Lt. pose proof (suffix_tl _ _ Sr) as S2. cbn [CS]. destruct (fill_ok is_digit fuel r c false line (t ++ [46]) T_INT false S2 ltac:(discriminate) ltac:(lia)) as (-> & Sf & Lf). cbn [bind fst snd]. unfold eat_fill.
  destruct (fill is_digit r) as [t2 cur2]. cbn [fst snd] in *. rewrite c_CS. destruct cur2 as [|e r2].
  { cbn [hd]. change (to_lower 255 =? 101) with false. cbn iota. cbn [bind]. eexists. split; [reflexivity|]. replace (t ++ 46 :: c :: t2) with ((t ++ [46]) ++ c :: t2) by (rewrite <- app_assoc; reflexivity). apply (NL ((t ++ [46]) ++ c :: t2) T_FLOAT [] suffix_nil). }
  cbn [hd]. destruct (to_lower e =? 101).
  2: { cbn [bind]. eexists. split; [reflexivity|]. replace (t ++ 46 :: c :: t2) with ((t ++ [46]) ++ c :: t2) by (rewrite <- app_assoc; reflexivity). apply NL. exact Sf. }
  rewrite getchar_CS by exact (suffix_suf _ Sf). cbn [bind tl]. rewrite append_CS. cbn [length] in Lf. pose proof (suffix_tl _ _ Sf) as S3.
  destruct (sep2_ok fuel r2 line (((t ++ [46]) ++ c :: t2) ++ [101]) T_INT false S3 ltac:(lia)) as (-> & Ss & Ls). cbn [bind]. destruct (skip_sep r2) as [|x r3].
  { cbn [CS]. destruct (fill_ok is_digit fuel [] 255 true line (((t ++ [46]) ++ c :: t2) ++ [101]) T_INT false suffix_nil ltac:(reflexivity) ltac:(cbn [length]; lia)) as (-> & _ & _). cbn [fill fst snd bind].
    eexists. split; [reflexivity|]. replace (t ++ 46 :: (c :: t2) ++ [101; 255]) with ((((t ++ [46]) ++ c :: t2) ++ [101]) ++ [255]) by (rewrite <- !app_assoc; reflexivity). apply (NL _ T_FLOAT [] suffix_nil). }
  cbn [length] in Ls. pose proof (suffix_tl _ _ Ss) as S4. cbn [CS]. destruct (fill_ok is_digit fuel r3 x false line (((t ++ [46]) ++ c :: t2) ++ [101]) T_INT false S4 ltac:(discriminate) ltac:(lia)) as (-> & S5 & L5). cbn [bind fst snd].
  destruct (fill is_digit r3) as [t3 cur3]. cbn [fst snd] in *. eexists. split; [reflexivity|].
  replace (t ++ 46 :: (c :: t2) ++ 101 :: x :: t3) with ((((t ++ [46]) ++ c :: t2) ++ [101]) ++ x :: t3) by (rewrite <- !app_assoc; reflexivity). apply NL. exact S5.
Qed.
Lemma number_ok fuel c rest line ty : suffix rest -> (S (S (length rest)) < fuel)%nat ->
  match eat_number c rest line with
  | Some o => exists s, i_number txt fuel (CS (c :: rest) line [] ty false) = Ok (true, s) /\ gives o s
  | None => i_number txt fuel (CS (c :: rest) line [] ty false) = Ok (false, CS (c :: rest) line [] ty false)
  end.
Proof.
  intros Sx Lt. unfold eat_number, i_number. rewrite c_CS. cbn [hd]. destruct (is_digit c); [|reflexivity]. rewrite set_val_CS. cbn [CS].
  pose proof (int_ok fuel 120 is_xdigit c rest false line ty Sx ltac:(discriminate) ltac:(lia) eq_refl ltac:(lia)) as A. destruct (eat_int 120 is_xdigit c rest line) as [o|].
  { destruct A as (s & -> & G). cbn [bind fst]. exists s. auto. }
  destruct A as (e & -> & Ex). cbn [bind fst snd].
  pose proof (int_ok fuel 98 is_bdigit c rest e line ty Sx Ex ltac:(lia) eq_refl ltac:(lia)) as A. destruct (eat_int 98 is_bdigit c rest line) as [o|].
  { destruct A as (s & -> & G). cbn [bind fst]. exists s. auto. }
  destruct A as (e' & -> & Ex'). cbn [bind fst snd].
  destruct (fill_ok is_digit fuel rest c e' line [] ty false Sx Ex' ltac:(lia)) as (-> & Sf & Lf). cbn [bind fst snd]. unfold eat_fill. destruct (fill is_digit rest) as [t cur]. cbn [fst snd app] in *. rewrite set_type_CS.
  pose proof (float_ok fuel (c :: t) cur line Sf ltac:(lia)) as F. destruct (eat_float (c :: t) cur line) as [o|].
  - destruct F as (s & -> & G). cbn [bind fst]. exists s. auto.
  - rewrite F. cbn [bind fst snd]. eexists. split; [reflexivity|]. apply gives_seek. exact Sf.
Qed.

(** ** Identifiers *)
Lemma id_fill_ok : forall fuel rest c line v ty i, suffix rest -> (S (length rest) < fuel)%nat ->
  i_id_fill txt fuel (CS (c :: rest) line v ty i) = Ok (let cur := snd (id_fill rest) in let s := CS cur line (v ++ c :: fst (id_fill rest)) ty i in if lxeof txt s then s else lxseek_set txt s (pos_of cur)) /\ suffix (snd (id_fill rest)).
Proof.
  induction fuel as [|f IH]; intros rest c line v ty i Sx Lt; [lia|]. cbn [i_id_fill]. rewrite c_CS. cbn [hd]. rewrite append_CS, getchar_CS by exact Sx. cbn [bind tl]. unfold lxtell at 1. cbn [CS l_pos]. rewrite eof_CS, c_CS.
  destruct rest as [|d r]; [cbn [negb andb id_fill fst snd]; rewrite eof_CS; auto|]. cbn [negb andb hd id_fill]. destruct (is_id d).
  - cbn [length] in Lt. destruct (IH r d line (v ++ [c]) ty i (suffix_tl _ _ Sx) ltac:(lia)) as (A & B). destruct (id_fill r) as [t cur]. cbn [fst snd] in *. rewrite A. split; [rewrite <- app_assoc; reflexivity|exact B].
  - cbn [fst snd]. rewrite eof_CS. auto.
Qed.
Lemma id_ok fuel c rest line ty : suffix rest -> (S (S (length rest)) < fuel)%nat ->
  match eat_id ty c rest line with
  | Some o => exists s, i_id txt fuel (CS (c :: rest) line [] ty false) = Ok (true, s) /\ gives o s
  | None => i_id txt fuel (CS (c :: rest) line [] ty false) = Ok (false, CS (c :: rest) line [] ty false)
  end.
Proof.
  intros Sx Lt. unfold eat_id, i_id. rewrite c_CS. cbn [hd]. destruct (is_idstart c); [|reflexivity]. rewrite set_val_CS. destruct (id_fill_ok fuel rest c line [] ty false Sx ltac:(lia)) as (-> & Sf). cbn [bind].
  destruct (id_fill rest) as [t cur]. cbn [fst snd app] in *. set (s := CS cur line (c :: t) ty false). eexists. split; [reflexivity|].
  assert (TV : l_type (if lxeof txt s then s else lxseek_set txt s (pos_of cur)) = ty /\ l_val (if lxeof txt s then s else lxseek_set txt s (pos_of cur)) = c :: t).
  { unfold s. rewrite eof_CS. destruct cur as [|d r]; [split; reflexivity|]. cbn [CS]. rewrite seek_at. split; reflexivity. }
  destruct TV as [-> ->]. destruct (id_token ty (c :: t)) as [[k v]|].
  - pose proof (gives_seek k v cur line Sf) as G. replace (set_val (set_type (if lxeof txt s then s else lxseek_set txt s (pos_of cur)) k) v) with (if lxeof txt (CS cur line v k false) then CS cur line v k false else lxseek_set txt (CS cur line v k false) (pos_of cur)); [exact G|].
    unfold s. rewrite !eof_CS. destruct cur as [|d r]; [reflexivity|]. cbn [CS]. rewrite !seek_at. reflexivity.
  - split; [reflexivity|]. intros X. destruct X. reflexivity.
Qed.
End WithInput.
