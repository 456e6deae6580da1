(** * C70: the search for packages. *)
From Coq Require Import String.
From Verif Require Import Base Names Capture PropCapture Require.
Local Open Scope list_scope.
Local Open Scope Z_scope.

(** A path is a sequence of templates [pre?post;]. *)
Definition template : Type := (list Z * list Z)%type.
Definition proper (t : template) : Prop := ~ In 59 (fst t ++ snd t) /\ ~ In 0 (fst t ++ snd t) /\ ~ In 63 (fst t).
Definition path_of (ts : list template) : list Z := concat (map (fun t => fst t ++ [63] ++ snd t ++ [59]) ts).
Definition filled (n : list Z) (t : template) : list Z := fst t ++ n ++ snd t.
(** A string up to its first zero byte. *)
Fixpoint cut (s : list Z) : list Z := match s with [] => [] | c :: r => if c =? 0 then [] else c :: cut r end.
(** Names are tried one after the other until one can be opened. *)
Fixpoint attempts (opens : list Z -> bool) (names : list (list Z)) : list (list Z) :=
  match names with [] => [] | x :: r => x :: (if opens x then [] else attempts opens r) end.

Lemma strchr_at p c r : ~ In c p -> ~ In 0 p -> strchr (p ++ c :: r) c = Ok (Some (length p)).
Proof.
  induction p as [|x p IH]; intros C Z0; cbn [app strchr length]; [rewrite Z.eqb_refl; reflexivity|]. destruct (Z.eqb_spec x c) as [->|]; [elim C; left; reflexivity|]. destruct (Z.eqb_spec x 0) as [->|]; [elim Z0; left; reflexivity|].
  rewrite IH by (intros H; first [apply C; right; exact H|apply Z0; right; exact H]). reflexivity.
Qed.
Lemma strchr_none p c r : ~ In c p -> c <> 0 -> ~ In 0 p -> strchr (p ++ 0 :: r) c = Ok None.
Proof.
  intros C NZ Z0. induction p as [|x p IH]; cbn [app strchr]; [destruct (Z.eqb_spec 0 c); [congruence|reflexivity]|]. destruct (Z.eqb_spec x c) as [->|]; [elim C; left; reflexivity|]. destruct (Z.eqb_spec x 0) as [->|]; [elim Z0; left; reflexivity|].
  rewrite IH by (intros H; first [apply C; right; exact H|apply Z0; right; exact H]). reflexivity.
Qed.
Lemma strlen_cut s : strlen (s ++ [0]) = Ok (length (cut s)) /\ bytes_from (s ++ [0]) (length (cut s)) = Ok (cut s).
Proof.
  induction s as [|c s (IH1 & IH2)]; [split; reflexivity|]. cbn [app strlen cut]. destruct (Z.eqb_spec c 0); [split; reflexivity|]. rewrite IH1. split; [reflexivity|].
  unfold bytes_from in *. cbn [length firstn Nat.leb]. destruct (_ <=? _)%nat; [|discriminate IH2]. injection IH2 as ->. reflexivity.
Qed.
Lemma cut_no_zero s : ~ In 0 (cut s).
Proof. induction s as [|c s IH]; [auto|]. cbn. destruct (Z.eqb_spec c 0); [auto|]. cbn. intros [E|H]; auto. Qed.
Lemma bytes_prefix p r : bytes_from (p ++ r) (length p) = Ok p.
Proof. unfold bytes_from. rewrite app_length. destruct (Nat.leb_spec (length p) (length p + length r)); [|lia]. rewrite firstn_app, firstn_all, Nat.sub_diag. cbn. rewrite app_nil_r. reflexivity. Qed.
Lemma store_at i p q r x : i = length p -> length q = length x -> store (p ++ q ++ r) i x = Ok (p ++ map Some x ++ r).
Proof.
  intros -> L. destruct (store_text x (p ++ q ++ r) (length p)) as (m & E & ->); [rewrite !app_length; lia|]. rewrite E. f_equal. rewrite firstn_app, firstn_all, Nat.sub_diag. cbn [firstn]. rewrite app_nil_r. f_equal. f_equal.
  rewrite <- L, app_assoc. rewrite <- app_length. rewrite skipn_app, skipn_all, Nat.sub_diag. reflexivity.
Qed.
Lemma text_of x r : ~ In 0 x -> c_text (map Some x ++ Some 0 :: r) = Ok x.
Proof. induction x as [|c x IH]; intros N; [reflexivity|]. cbn. destruct (Z.eqb_spec c 0) as [->|]; [elim N; left; reflexivity|]. rewrite IH by (intros H; apply N; right; exact H). reflexivity. Qed.
Lemma rep_app {A} (x : A) a b : repeat x (a + b) = repeat x a ++ repeat x b. Proof. apply repeat_app. Qed.
Lemma fill_ok t s r : proper t ->
  exists m, fill (fst t ++ [63] ++ snd t ++ [59] ++ r) (s ++ [0]) (length (fst t) + 1 + length (snd t)) = Ok m /\ c_text m = Ok (filled (cut s) t).
Proof.
  destruct t as (a, z). cbn [fst snd]. intros (_ & N0 & NM). cbn [fst snd] in N0, NM. destruct (strlen_cut s) as (L & B). unfold fill. rewrite L. cbn [bind]. set (n := cut s) in *.
  change ([63] ++ z ++ [59] ++ r) with (63 :: z ++ [59] ++ r).
  assert (Za : ~ In 0 a) by (intros H; apply N0, in_app_iff; left; exact H). assert (Zz : ~ In 0 z) by (intros H; apply N0, in_app_iff; right; exact H).
  rewrite (strchr_at a 63 _ NM Za). cbn [bind]. rewrite bytes_prefix. cbn [bind].
  assert (R : repeat (@None Z) (length a + 1 + length z + length n + 1) = [] ++ repeat None (length a) ++ repeat None (length n) ++ repeat None (length z) ++ [None] ++ [None]).
  { cbn [app]. change [None; None] with (repeat (@None Z) 2). rewrite <- !rep_app. f_equal. lia. }
  rewrite R. rewrite (store_at O [] (repeat None (length a)) _ a) by (reflexivity || apply repeat_length). cbn [bind app]. rewrite B. cbn [bind].
  rewrite (store_at (length a) (map Some a) (repeat None (length n)) _ n) by (rewrite ?map_length; reflexivity || apply repeat_length). cbn [bind].
  destruct (Nat.ltb_spec (length a + 1 + length z) (length a + 1)); [lia|].
  replace (skipn (length a + 1) (a ++ 63 :: z ++ 59 :: r)) with (z ++ 59 :: r).
  2:{ replace (a ++ 63 :: z ++ 59 :: r) with ((a ++ [63]) ++ z ++ 59 :: r) by (rewrite <- app_assoc; reflexivity). replace (length a + 1)%nat with (length (a ++ [63])) by (rewrite app_length; reflexivity). rewrite skipn_app, skipn_all, Nat.sub_diag. reflexivity. }
  replace (length a + 1 + length z - length a - 1)%nat with (length z) by lia. rewrite bytes_prefix. cbn [bind].
  rewrite app_assoc. rewrite <- map_app.
  rewrite (store_at (length a + length n) (map Some (a ++ n)) (repeat None (length z)) _ z) by (rewrite ?map_length, ?app_length; reflexivity || apply repeat_length). cbn [bind].
  destruct (Nat.ltb_spec (length a + 1 + length z + length n) 1); [lia|].
  rewrite app_assoc. rewrite <- map_app. change [None; None] with ([@None Z] ++ [None]).
  rewrite (store_at _ (map Some ((a ++ n) ++ z)) [None] [None] [0]) by (rewrite ?map_length, ?app_length; reflexivity || lia). eexists. split; [reflexivity|].
  cbn [map app]. rewrite text_of; [unfold filled; cbn [fst snd]; rewrite <- app_assoc; reflexivity|]. rewrite !in_app_iff. intros [[K|K]|K]; [apply Za, K|apply (cut_no_zero s), K|apply Zz, K].
Qed.
Lemma loop_ok opens s rest : ~ In 59 rest -> ~ In 0 rest -> forall ts fuel, Forall proper ts -> (length (path_of ts) < fuel)%nat ->
  search_loop opens fuel (path_of ts ++ rest ++ [0]) (s ++ [0]) = Ok (attempts opens (map (filled (cut s)) ts ++ [cut s]), existsb opens (map (filled (cut s)) ts ++ [cut s])).
Proof.
  intros NS NZ. induction ts as [|t ts IH]; intros fuel Pr F; (destruct fuel as [|fuel]; [lia|]); cbn [search_loop].
  - change (path_of [] ++ rest ++ [0]) with (rest ++ [0]). rewrite (strchr_none rest PATH_SEP [] NS ltac:(discriminate) NZ). cbn [bind]. destruct (strlen_cut s) as (L & B). rewrite L. cbn [bind]. rewrite B. cbn. destruct (opens (cut s)); reflexivity.
  - inversion Pr as [|? ? P1 P2]; subst. pose proof P1 as (N1 & N0 & NM). set (r := path_of ts ++ rest ++ [0]) in *.
    assert (E : path_of (t :: ts) ++ rest ++ [0] = fst t ++ [63] ++ snd t ++ [59] ++ r) by (unfold r, path_of; cbn [map concat]; rewrite <- !app_assoc; reflexivity). rewrite E.
    assert (Sp : strchr (fst t ++ [63] ++ snd t ++ [59] ++ r) PATH_SEP = Ok (Some (length (fst t) + 1 + length (snd t))%nat)).
    { pose proof (strchr_at (fst t ++ [63] ++ snd t) 59 r) as H. rewrite <- !app_assoc in H. cbn [app] in H |- *. unfold PATH_SEP. rewrite H.
      - rewrite app_length. cbn [length]. do 2 f_equal. lia.
      - rewrite in_app_iff in *. cbn. intros [K|[K|K]]; [apply N1; left; exact K|discriminate K|apply N1; right; exact K].
      - rewrite in_app_iff in *. cbn. intros [K|[K|K]]; [apply N0; left; exact K|discriminate K|apply N0; right; exact K]. }
    rewrite Sp. cbn [bind]. destruct (fill_ok t s r P1) as (m & Fl & Tx). rewrite Fl. cbn [bind]. rewrite Tx. cbn [bind map app attempts existsb]. destruct (opens (filled (cut s) t)); [reflexivity|].
    assert (Sk : skipn (length (fst t) + 1 + length (snd t) + 1) (fst t ++ 63 :: snd t ++ 59 :: r) = r).
    { change (63 :: snd t ++ 59 :: r) with ([63] ++ snd t ++ [59] ++ r). replace (fst t ++ [63] ++ snd t ++ [59] ++ r) with ((fst t ++ [63] ++ snd t ++ [59]) ++ r) by (rewrite <- !app_assoc; reflexivity). replace (length (fst t) + 1 + length (snd t) + 1)%nat with (length (fst t ++ [63] ++ snd t ++ [59])) by (rewrite !app_length; cbn; lia). rewrite skipn_app, skipn_all, Nat.sub_diag. reflexivity. }
    rewrite Sk, IH; [reflexivity|exact P2|]. clear - F. unfold path_of in *. cbn [map concat] in F. rewrite !app_length in F. cbn [length] in F. lia.
Qed.
(** ** The search: for every path of templates (what follows the last semicolon is ignored), every name and all files there may be, the
    names tried are the templates with the mark replaced, in order, then the name itself; nothing is read or written outside memory. *)
Theorem C70_search : forall opens ts rest s, Forall proper ts -> ~ In 59 rest -> ~ In 0 rest ->
  let names := map (filled (cut s)) ts ++ [cut s] in
  search_on opens (path_of ts ++ rest) (s ++ [0]) = Ok (attempts opens names, existsb opens names).
Proof.
  intros opens ts rest s P N1 N0. unfold search_on. rewrite <- app_assoc. apply loop_ok; try assumption. rewrite app_length. lia.
Qed.
Definition default_templates : list template := [(bytes_of "/usr/local/lib/yasl/", bytes_of ".yasl"); (bytes_of "./", bytes_of ".yasl")].
Definition default_c_templates : list template :=
  [(bytes_of "/usr/local/lib/yasl/lib", bytes_of ".so"); (bytes_of "/usr/local/lib/yasl/", bytes_of ".so"); (bytes_of "./lib", bytes_of ".so"); (bytes_of "./", bytes_of ".so")].
Definition properb (t : template) : bool := negb (existsb (Z.eqb 59) (fst t ++ snd t)) && negb (existsb (Z.eqb 0) (fst t ++ snd t)) && negb (existsb (Z.eqb 63) (fst t)).
Lemma properb_ok t : properb t = true -> proper t.
Proof.
  unfold properb, proper. rewrite !andb_true_iff, !negb_true_iff. intros ((A & B) & C). repeat split; intros H; match type of H with In ?x ?l => assert (K : existsb (Z.eqb x) l = true) by (apply existsb_exists; exists x; split; [exact H|apply Z.eqb_refl]); congruence end.
Qed.
Lemma defaults : Forall proper default_templates /\ Forall proper default_c_templates.
Proof. split; repeat (apply Forall_cons; [apply properb_ok; vm_compute; reflexivity|]); apply Forall_nil. Qed.
(** [require(s)] and [__require_c__(s)] with the paths the interpreter has. *)
Theorem C70_require : forall opens s, let n := cut s in
  let names := [bytes_of "/usr/local/lib/yasl/" ++ n ++ bytes_of ".yasl"; bytes_of "./" ++ n ++ bytes_of ".yasl"; n] in
  require_search opens s = Ok (attempts opens names, existsb opens names).
Proof. intros opens s n. exact (C70_search opens default_templates [] s (proj1 defaults) (fun H => H) (fun H => H)). Qed.
Theorem C70_require_c : forall opens s, let n := cut s in
  let names := [bytes_of "/usr/local/lib/yasl/lib" ++ n ++ bytes_of ".so"; bytes_of "/usr/local/lib/yasl/" ++ n ++ bytes_of ".so"; bytes_of "./lib" ++ n ++ bytes_of ".so"; bytes_of "./" ++ n ++ bytes_of ".so"; n] in
  require_c_search opens s = Ok (attempts opens names, existsb opens names).
Proof. intros opens s n. exact (C70_search opens default_c_templates [] s (proj2 defaults) (fun H => H) (fun H => H)). Qed.
(** What is loaded is the first of the names that can be opened. *)
Theorem C70_first : forall opens before x after, opens x = true -> (forall y, In y before -> opens y = false) ->
  attempts opens (before ++ x :: after) = before ++ [x].
Proof. intros opens before x after O N. induction before as [|y b IH]; cbn; [rewrite O; reflexivity|]. rewrite (N y) by (left; reflexivity). f_equal. apply IH. intros z H. apply N. right. exact H. Qed.
Example C70_demo : require_search (fun x => if list_eq_dec Z.eq_dec x (bytes_of "./m.yasl") then true else false) (bytes_of "m") = Ok ([bytes_of "/usr/local/lib/yasl/m.yasl"; bytes_of "./m.yasl"], true).
Proof. vm_compute. reflexivity. Qed.
(** ** What the code refutes *)
(** A string with a zero byte names another package: require('m\0x') loads m. *)
Theorem C70_zero_byte_refuted : forall opens s t, require_search opens (s ++ 0 :: t) = require_search opens s.
Proof. intros opens s t. rewrite !C70_require. assert (E : cut (s ++ 0 :: t) = cut s) by (induction s as [|c s IH]; [reflexivity|]; cbn; rewrite IH; reflexivity). rewrite E. reflexivity. Qed.
(** A path with a template that has no mark is undefined: the mark of a later template is found, or none. *)
Theorem C70_unmarked_refuted : forall opens a rest s, ~ In 59 a -> ~ In 63 a -> ~ In 0 a -> ~ In 63 rest -> ~ In 0 rest -> search_on opens (a ++ [59] ++ rest) (s ++ [0]) = UB.
Proof.
  intros opens a rest s N1 N2 N0 R2 R0. unfold search_on. rewrite Nat.add_1_r. cbn [search_loop]. rewrite <- app_assoc. cbn [app]. unfold PATH_SEP. rewrite (strchr_at a 59 _ N1 N0). cbn [bind]. unfold fill. destruct (strlen_cut s) as (L & _). rewrite L. cbn [bind].
  replace (a ++ 59 :: rest ++ [0]) with ((a ++ [59] ++ rest) ++ 0 :: []) by (rewrite <- !app_assoc; reflexivity). rewrite strchr_none; [reflexivity| |discriminate|]; rewrite !in_app_iff; cbn; unfold PATH_MARK; intros [H|[[H|[]]|H]]; try discriminate H; tauto.
Qed.
Theorem C70_unmarked2_refuted : search_on (fun _ => false) (bytes_of "./m;./?.yasl;") (bytes_of "m" ++ [0]) = UB.
Proof. vm_compute. reflexivity. Qed.

Print Assumptions C70_search.
Print Assumptions C70_require.
Print Assumptions C70_require_c.
Print Assumptions C70_first.
Print Assumptions C70_zero_byte_refuted.
Print Assumptions C70_unmarked_refuted.
Print Assumptions C70_unmarked2_refuted.
