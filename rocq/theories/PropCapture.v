(** * C68: captured output. *)
From Coq Require Import String.
From Verif Require Import Base Names Capture.
Local Open Scope list_scope.

Definition printed (l : list event) : list Z := concat (map (fun e => match e with Print x => x | _ => [] end) l).
Definition run_errors (l : list event) : list Z := concat (map (fun e => match e with RunError x => x | _ => [] end) l).
Definition compile_errors (l : list event) : list Z := concat (map (fun e => match e with CompileError x => x | _ => [] end) l).

(** The memory of a string being built: the text, a zero byte unless nothing was stored yet. *)
Definition holds (o : io) (x : list Z) : Prop := len o = length x /\ exists r, memory o = map Some x ++ r /\ (length r <= 1)%nat.
Lemma skip_skip {A} a b (l : list A) : skipn a (skipn b l) = skipn (b + a) l.
Proof. revert l. induction b as [|b IH]; intros l; [reflexivity|]. destruct l; [destruct a; reflexivity|]. apply IH. Qed.
Lemma store_text : forall x m i, (i + length x <= length m)%nat -> exists m', store m i x = Ok m' /\ m' = firstn i m ++ map Some x ++ skipn (i + length x) m.
Proof.
  induction x as [|c x IH]; intros m i L; cbn [store length map app] in *; [exists m; split; [reflexivity|]; rewrite Nat.add_0_r, firstn_skipn; reflexivity|].
  destruct (Nat.ltb_spec i (length m)); [|lia]. set (m1 := firstn i m ++ Some c :: skipn (S i) m).
  assert (Lf : length (firstn i m) = i) by (rewrite firstn_length; lia).
  assert (L1 : length m1 = length m) by (unfold m1; rewrite app_length; cbn [length]; rewrite skipn_length, Lf; lia).
  destruct (IH m1 (S i) ltac:(lia)) as (m' & E & ->). eexists. split; [exact E|].
  set (p := firstn i m ++ [Some c]). assert (M1 : m1 = p ++ skipn (S i) m) by (unfold m1, p; rewrite <- app_assoc; reflexivity). assert (Lp : length p = S i) by (unfold p; rewrite app_length, Lf; cbn; lia).
  assert (F : firstn (S i) m1 = p) by (rewrite M1, <- Lp, firstn_app, firstn_all, Nat.sub_diag; apply app_nil_r).
  assert (K : skipn (S i + length x) m1 = skipn (i + S (length x)) m) by (rewrite M1, skipn_app, skipn_all2, Lp by lia; cbn [app]; rewrite skip_skip; f_equal; lia).
  rewrite F, K. unfold p. rewrite <- app_assoc. reflexivity.
Qed.
Lemma print_holds o x t : holds o x -> exists o', io_print_string o t = Ok o' /\ holds o' (x ++ t) /\ to_string o' = to_string o.
Proof.
  intros (L & r & M & Lr). unfold io_print_string. rewrite L. set (n := (length x + length t)%nat). replace (n - length t)%nat with (length x) by lia.
  assert (Lm : length (memory o) = (length x + length r)%nat) by (rewrite M, app_length, map_length; reflexivity).
  set (m := c_realloc (memory o) (n + 1)).
  assert (Lc : length m = (n + 1)%nat) by (unfold m, c_realloc; rewrite app_length, firstn_length, repeat_length; lia).
  destruct (store_text (t ++ [0]) m (length x) ltac:(rewrite app_length, Lc; cbn [length]; lia)) as (m' & E & ->). rewrite E. cbn [bind]. eexists. split; [reflexivity|]. split; [|reflexivity].
  assert (F : firstn (length x) m = map Some x).
  { unfold m, c_realloc. rewrite M. rewrite firstn_app. rewrite firstn_firstn. replace (Nat.min (length x) (n + 1)) with (length x) by lia. rewrite firstn_length, app_length, map_length. replace (length x - Nat.min (n + 1) (length x + length r))%nat with O by lia. cbn [firstn]. rewrite app_nil_r, firstn_app, map_length, Nat.sub_diag. cbn [firstn]. rewrite app_nil_r. rewrite <- (map_length Some x) at 1. apply firstn_all. }
  split; [cbn [len]; rewrite app_length; reflexivity|]. cbn [memory]. exists ([Some 0] ++ skipn (length x + length (t ++ [0])) m). split; [rewrite F, !map_app, <- !app_assoc; reflexivity|].
  rewrite app_length, skipn_length, app_length, Lc. cbn [length]. lia.
Qed.
Lemma load_holds o x : holds o x -> io_load o = Ok x.
Proof.
  intros (L & r & M & _). unfold io_load. rewrite L, M. clear. induction x as [|c x IH]; [reflexivity|]. cbn [length map app bytes_at]. rewrite IH. reflexivity.
Qed.
(** An IO that captures what comes in [after] and left [before] to the file. *)
Definition io_at (o : io) (cap : bool) (x : list Z) : Prop := to_string o = cap /\ holds o x.
Lemma print_at o cap x t : io_at o cap x -> exists o', print o t = Ok (o', if cap then [] else t) /\ io_at o' cap (if cap then x ++ t else x).
Proof.
  intros (C & H). unfold print. rewrite C. destruct cap; [|exists o; split; [reflexivity|split; assumption]]. destruct (print_holds o x t H) as (o' & E & H' & T). rewrite E. cbn [bind]. exists o'. split; [reflexivity|]. split; [congruence|exact H'].
Qed.

Lemma out_history : forall l h x, io_at (out h) true x -> (exists c y, io_at (err h) c y) -> (exists c y, io_at (lex_err h) c y) -> exists h', history h l = Ok h' /\ io_at (out h') true (x ++ printed l) /\ stdout h' = stdout h.
Proof.
  induction l as [|e l IH]; intros h x O (ce & y & E) (cl & z & X); cbn [history]; [exists h; unfold printed; cbn; rewrite app_nil_r; auto|].
  assert (N : io_at new_io false []) by (split; [reflexivity|split; [reflexivity|exists []; split; [reflexivity|cbn; lia]]]).
  assert (C : forall o c q, io_at o c q -> io_at (capturing o) true q) by (intros o c q (_ & H); split; [reflexivity|exact H]).
  assert (K : forall e, printed (e :: l) = match e with Print t => t | _ => [] end ++ printed l) by reflexivity. rewrite K.
  destruct e as [| |t|t|t|]; cbn [happen]; try (cbn [bind app]; match goal with |- context [history ?h1 l] => apply (IH h1 x) end; cbn; eauto; fail).
  - destruct (print_at _ _ _ t O) as (o' & Ep & O'). rewrite Ep. cbn [bind fst snd]. match goal with |- context [history ?h1 l] => destruct (IH h1 (x ++ t) O' ltac:(cbn; eauto) ltac:(cbn; eauto)) as (h' & Eh & H1 & H2) end. exists h'. rewrite app_assoc. cbn in H2. rewrite app_nil_r in H2. auto.
  - destruct (print_at _ _ _ t E) as (o' & Ep & O'). rewrite Ep. cbn [bind fst snd app]. match goal with |- context [history ?h1 l] => apply (IH h1 x) end; cbn; eauto.
  - destruct (print_at _ _ _ t X) as (o' & Ep & O'). rewrite Ep. cbn [bind fst snd app]. match goal with |- context [history ?h1 l] => apply (IH h1 x) end; cbn; eauto.
Qed.
Lemma before_out : forall l h, ~ In CaptureOut l -> io_at (out h) false [] -> (exists c y, io_at (err h) c y) -> (exists c y, io_at (lex_err h) c y) -> exists h', history h l = Ok h' /\ io_at (out h') false [] /\ stdout h' = stdout h ++ printed l /\ (exists c y, io_at (err h') c y) /\ (exists c y, io_at (lex_err h') c y).
Proof.
  induction l as [|e l IH]; intros h NC O (ce & y & E) (cl & z & X); cbn [history]; [exists h; unfold printed; cbn; rewrite app_nil_r; eauto 10|].
  assert (N : io_at new_io false []) by (split; [reflexivity|split; [reflexivity|exists []; split; [reflexivity|cbn; lia]]]).
  assert (C : forall o c q, io_at o c q -> io_at (capturing o) true q) by (intros o c q (_ & H); split; [reflexivity|exact H]).
  assert (NC' : ~ In CaptureOut l) by (intros H; apply NC; right; exact H).
  assert (K : forall e, printed (e :: l) = match e with Print t => t | _ => [] end ++ printed l) by reflexivity. rewrite K.
  destruct e as [| |t|t|t|]; cbn [happen].
  - destruct NC. left. reflexivity.
  - cbn [bind app]. match goal with |- context [history ?h1 l] => apply (IH h1 NC') end; cbn; eauto.
  - destruct (print_at _ _ _ t O) as (o' & Ep & O'). rewrite Ep. cbn [bind fst snd]. rewrite app_assoc. match goal with |- context [history ?h1 l] => apply (IH h1 NC') end; cbn; eauto.
  - destruct (print_at _ _ _ t E) as (o' & Ep & O'). rewrite Ep. cbn [bind fst snd app]. match goal with |- context [history ?h1 l] => apply (IH h1 NC') end; cbn; eauto.
  - destruct (print_at _ _ _ t X) as (o' & Ep & O'). rewrite Ep. cbn [bind fst snd app]. match goal with |- context [history ?h1 l] => apply (IH h1 NC') end; cbn; eauto.
  - cbn [bind app]. match goal with |- context [history ?h1 l] => apply (IH h1 NC') end; cbn; eauto.
Qed.
Lemma history_app : forall a b h, history h (a ++ b) = (do h' <- history h a; history h' b).
Proof. induction a as [|e a IH]; intros b h; cbn [history app bind]; [reflexivity|]. destruct (happen h e); cbn [bind]; auto. Qed.
Lemma new_at : io_at new_io false []. Proof. split; [reflexivity|]. split; [reflexivity|]. exists []. split; [reflexivity|cbn; lia]. Qed.

(** C68. Whatever has happened: what the program printed before the host first asked for its output went to stdout, everything printed since then is the
    string the host gets, each time it asks, and nothing outside memory is touched. *)
Theorem C68_output before after : ~ In CaptureOut before ->
  exists h, history new_host (before ++ CaptureOut :: after) = Ok h /\ YASL_loadprintout h = Ok (printed after) /\ stdout h = printed before.
Proof.
  intros N. destruct (before_out before new_host N new_at (ex_intro _ _ (ex_intro _ _ new_at)) (ex_intro _ _ (ex_intro _ _ new_at))) as (h1 & E1 & O1 & S1 & X1 & X2).
  rewrite history_app, E1. cbn [bind history happen]. match goal with |- context [history ?h2 after] => destruct (out_history after h2 [] ltac:(split; [reflexivity|apply O1]) X1 X2) as (h & E & O & S') end.
  exists h. split; [exact E|]. split; [apply load_holds, O|]. rewrite S'. exact S1.
Qed.
Print Assumptions C68_output.
Theorem C68_no_capture l : ~ In CaptureOut l -> exists h, history new_host l = Ok h /\ YASL_loadprintout h = Ok [] /\ stdout h = printed l.
Proof.
  intros N. destruct (before_out l new_host N new_at (ex_intro _ _ (ex_intro _ _ new_at)) (ex_intro _ _ (ex_intro _ _ new_at))) as (h1 & E1 & O1 & S1 & _).
  exists h1. split; [exact E1|]. split; [apply load_holds, O1|exact S1].
Qed.
Print Assumptions C68_no_capture.
(** Error messages are captured the same way: while the state has not been reset, the host gets the compiler's if compiling failed and the machine's
    otherwise, and nothing more goes to stderr. *)
Lemma err_history : forall l h x y, io_at (err h) true x -> io_at (lex_err h) true y -> (exists c z, io_at (out h) c z) -> ~ In Reset l ->
  exists h', history h l = Ok h' /\ io_at (err h') true (x ++ run_errors l) /\ io_at (lex_err h') true (y ++ compile_errors l) /\ stderr h' = stderr h /\ failed h' = (failed h || existsb (fun e => match e with CompileError _ => true | _ => false end) l)%bool.
Proof.
  induction l as [|e l IH]; intros h x y E X (c & z & O) NR; cbn [history]; [exists h; unfold run_errors, compile_errors; cbn; rewrite !app_nil_r, orb_false_r; auto 10|].
  assert (NR' : ~ In Reset l) by (intros H; apply NR; right; exact H).
  assert (C : forall o c q, io_at o c q -> io_at (capturing o) true q) by (intros o c0 q (_ & H); split; [reflexivity|exact H]).
  assert (K1 : run_errors (e :: l) = match e with RunError t => t | _ => [] end ++ run_errors l) by reflexivity.
  assert (K2 : compile_errors (e :: l) = match e with CompileError t => t | _ => [] end ++ compile_errors l) by reflexivity.
  rewrite K1, K2. cbn [existsb]. destruct e as [| |t|t|t|]; cbn [happen orb app].
  - cbn [bind]. match goal with |- context [history ?h1 l] => apply (IH h1 x y) end; cbn; eauto.
  - cbn [bind]. match goal with |- context [history ?h1 l] => apply (IH h1 x y) end; cbn; eauto.
  - destruct (print_at _ _ _ t O) as (o' & Ep & O'). rewrite Ep. cbn [bind fst snd]. match goal with |- context [history ?h1 l] => apply (IH h1 x y) end; cbn; eauto.
  - destruct (print_at _ _ _ t E) as (o' & Ep & O'). rewrite Ep. cbn [bind fst snd]. rewrite (app_nil_r (stderr h)), (app_assoc x). match goal with |- context [history ?h1 l] => exact (IH h1 (x ++ t) y O' X ltac:(cbn; eauto) NR') end.
  - destruct (print_at _ _ _ t X) as (o' & Ep & O'). rewrite Ep. cbn [bind fst snd]. rewrite (app_nil_r (stderr h)), (app_assoc y), orb_true_r. match goal with |- context [history ?h1 l] => exact (IH h1 x (y ++ t) E O' ltac:(cbn; eauto) NR') end.
  - destruct NR. left. reflexivity.
Qed.
Theorem C68_errors l : ~ In Reset l -> exists h, history new_host (CaptureErr :: l) = Ok h /\ stderr h = [] /\
  YASL_loadprinterr h = Ok (if existsb (fun e => match e with CompileError _ => true | _ => false end) l then compile_errors l else run_errors l).
Proof.
  intros N. cbn [history happen bind]. match goal with |- context [history ?h1 l] => destruct (err_history l h1 [] [] ltac:(split; [reflexivity|apply new_at]) ltac:(split; [reflexivity|apply new_at]) (ex_intro _ _ (ex_intro _ _ new_at)) N) as (h & E & R & X & S' & F) end.
  exists h. split; [exact E|]. split; [exact S'|]. unfold YASL_loadprinterr. rewrite F. cbn [failed new_host orb]. destruct existsb; [apply load_holds, X|apply load_holds, R].
Qed.
Print Assumptions C68_errors.
(** Refuted by the code: resetting the state for the next program ends the capturing of the compiler's messages. They go to stderr, and the host gets
    an empty string. *)
Theorem C68_reset_refuted x : exists h, history new_host [CaptureErr; Reset; CompileError x] = Ok h /\ YASL_loadprinterr h = Ok [] /\ stderr h = x.
Proof. eexists. split; [reflexivity|]. split; reflexivity. Qed.
Print Assumptions C68_reset_refuted.
Example C68_nonvacuous : let b := [Print (bytes_of "a"); RunError (bytes_of "x")] in let a := [Print (bytes_of "bc"); Reset; CaptureErr; Print []; RunError (bytes_of "yz"); Print (bytes_of "d")] in
  ~ In CaptureOut b /\ printed a = bytes_of "bcd" /\ (do h <- history new_host (b ++ CaptureOut :: a); YASL_loadprintout h) = Ok (bytes_of "bcd") /\ (do h <- history new_host (b ++ CaptureOut :: a); YASL_loadprinterr h) = Ok (bytes_of "yz").
Proof. cbv zeta. split; [intros [H|[H|[]]]; discriminate H|]. split; [reflexivity|]. split; reflexivity. Qed.
