(** * C67: the checks a C function makes on its arguments. *)
From Coq Require Import String.
From Verif Require Import Base Value Text TextSpec TextProofs Names Api ArgCheck.
Local Open Scope list_scope.

(** Argument [n] of the function that is running is [v]; [v] is on top of the stack. *)
Definition argument (s : api) (n : Z) (v : value) : Prop := nthZ (a_slots s) (a_fp s + 1 + n) = Some v.
Definition top (s : api) (v : value) : Prop := nthZ (a_slots s) (a_sp s) = Some v.
(** The names of the types; a userdata is called by its tag. *)
Inductive called (tag_name : Z -> list Z) : value -> list Z -> Prop :=
| n_undef : called tag_name VUndef (bytes_of "undef") | n_float f : called tag_name (VFloat f) (bytes_of "float") | n_int i : called tag_name (VInt i) (bytes_of "int")
| n_bool b : called tag_name (VBool b) (bytes_of "bool") | n_str x : called tag_name (VStr x) (bytes_of "str") | n_list p : called tag_name (VList p) (bytes_of "list")
| n_table p : called tag_name (VTable p) (bytes_of "table") | n_fn p : called tag_name (VFn p) (bytes_of "fn") | n_closure p : called tag_name (VClosure p) (bytes_of "fn")
| n_cfn p : called tag_name (VCfn p) (bytes_of "fn") | n_ptr p : called tag_name (VUserPtr p) (bytes_of "userptr") | n_userdata p : called tag_name (VUserData p) (tag_name p).
(** The check fails with a type error that says which function, which position, what it should be and what it is. *)
Definition fails {A} (r : outcome (checked A)) (fn : list Z) (n : Z) (expected actual : list Z) : Prop :=
  exists digits, is_text_of n digits /\
    r = Ok (Raised (bytes_of "TypeError: " ++ fn ++ bytes_of " expected arg in position " ++ digits ++ bytes_of " to be of type " ++ expected ++ bytes_of ", got arg of type " ++ actual ++ bytes_of ".") EType).

Section Props.
Variables tag data : Z -> Z.
Variable tag_text : Z -> list Z.
Let name := called (fun p => tag_text (tag p)).
Lemma name_is v x : name v x -> typename tag tag_text v = x. Proof. intros H. destruct H; reflexivity. Qed.
Lemma refused {A} s fn n x v y : a_run s = true -> in_i64 n -> name v y -> fails (refuse (A := A) tag tag_text s fn n x v) fn n x y.
Proof. intros R I N. exists (print_i64 n). split; [apply print_text, I|]. unfold refuse. rewrite R, (name_is _ _ N). reflexivity. Qed.
Ltac slot A := unfold a_testn, a_slot; rewrite A; cbn [bind fst snd].

(** C67. A check of an argument of the right type gives its value ... *)
Theorem C67_passes s fn n v : argument s n v ->
  (forall i, v = VInt i -> YASLX_checknint tag tag_text s fn n = Ok (Passed i)) /\ (forall f, v = VFloat f -> YASLX_checknfloat tag tag_text s fn n = Ok (Passed f)) /\
  (forall b, v = VBool b -> YASLX_checknbool tag tag_text s fn n = Ok (Passed b)) /\ (v = VUndef -> YASLX_checknundef tag tag_text s fn n = Ok (Passed tt)) /\
  (forall p, v = VUserData p -> YASLX_checknuserdata tag data tag_text s (tag p) fn n = Ok (Passed (data p))).
Proof.
  unfold argument. intros A. repeat split; intros; subst v.
  - unfold YASLX_checknint, YASL_isnint, YASL_peeknint, YASL_isnint. slot A. cbn [v_isint]. slot A. cbn [v_isint]. slot A. reflexivity.
  - unfold YASLX_checknfloat, YASL_isnfloat, YASL_peeknfloat, YASL_isnfloat. slot A. cbn [v_isfloat]. slot A. cbn [v_isfloat]. slot A. reflexivity.
  - unfold YASLX_checknbool, YASL_isnbool, YASL_peeknbool, YASL_isnbool. slot A. cbn [v_isbool]. slot A. cbn [v_isbool]. slot A. reflexivity.
  - unfold YASLX_checknundef, YASL_isnundef. slot A. reflexivity.
  - unfold YASLX_checknuserdata, YASL_isnuserdata. slot A. rewrite Z.eqb_refl. slot A. reflexivity.
Qed.
(** ... and of any other type a type error; the message names the type of the argument for undef and userdata always, and for int, float and
    bool if the argument is the last one, on top of the stack. *)
Theorem C67_fails s fn n v y : a_run s = true -> in_i64 n -> argument s n v -> name v y ->
  (v <> VUndef -> fails (YASLX_checknundef tag tag_text s fn n) fn n (bytes_of "undef") y) /\
  (forall t, (forall p, v = VUserData p -> tag p <> t) -> fails (YASLX_checknuserdata tag data tag_text s t fn n) fn n (tag_text t) y) /\
  (a_sp s = a_fp s + 1 + n ->
    ((forall i, v <> VInt i) -> fails (YASLX_checknint tag tag_text s fn n) fn n (bytes_of "int") y) /\
    ((forall f, v <> VFloat f) -> fails (YASLX_checknfloat tag tag_text s fn n) fn n (bytes_of "float") y) /\
    ((forall b, v <> VBool b) -> fails (YASLX_checknbool tag tag_text s fn n) fn n (bytes_of "bool") y)).
Proof.
  unfold argument. intros R I A N. split; [|split].
  - intros X. unfold YASLX_checknundef, YASL_isnundef. slot A. destruct (v_isundef v) eqn:E; [destruct v; try discriminate E; congruence|]. slot A. apply refused; assumption.
  - intros t X. unfold YASLX_checknuserdata, YASL_isnuserdata. slot A. destruct v; try (slot A; apply refused; assumption). destruct (Z.eqb_spec (tag p) t); [destruct (X p eq_refl e)|]. slot A. apply refused; assumption.
  - intros T. repeat split; intros X.
    + unfold YASLX_checknint, YASL_isnint, a_peek. slot A. destruct (v_isint v) eqn:E; [destruct v; try discriminate E; destruct (X i eq_refl)|]. rewrite T. slot A. apply refused; assumption.
    + unfold YASLX_checknfloat, YASL_isnfloat, a_peek. slot A. destruct (v_isfloat v) eqn:E; [destruct v; try discriminate E; destruct (X f eq_refl)|]. rewrite T. slot A. apply refused; assumption.
    + unfold YASLX_checknbool, YASL_isnbool, a_peek. slot A. destruct (v_isbool v) eqn:E; [destruct v; try discriminate E; destruct (X b eq_refl)|]. rewrite T. slot A. apply refused; assumption.
Qed.
(** Refuted by the code: for int, float and bool the message names the type of the value on top of the stack instead, whatever the argument is;
    it can even say that an int was expected and an int was given. *)
Theorem C67_message_refuted s fn n v u y : a_run s = true -> in_i64 n -> argument s n v -> top s u -> name u y ->
  ((forall i, v <> VInt i) -> fails (YASLX_checknint tag tag_text s fn n) fn n (bytes_of "int") y) /\
  ((forall f, v <> VFloat f) -> fails (YASLX_checknfloat tag tag_text s fn n) fn n (bytes_of "float") y) /\
  ((forall b, v <> VBool b) -> fails (YASLX_checknbool tag tag_text s fn n) fn n (bytes_of "bool") y).
Proof.
  unfold argument, top. intros R I A T N. repeat split; intros X.
  - unfold YASLX_checknint, YASL_isnint, a_peek. slot A. destruct (v_isint v) eqn:E; [destruct v; try discriminate E; destruct (X i eq_refl)|]. slot T. apply refused; assumption.
  - unfold YASLX_checknfloat, YASL_isnfloat, a_peek. slot A. destruct (v_isfloat v) eqn:E; [destruct v; try discriminate E; destruct (X f eq_refl)|]. slot T. apply refused; assumption.
  - unfold YASLX_checknbool, YASL_isnbool, a_peek. slot A. destruct (v_isbool v) eqn:E; [destruct v; try discriminate E; destruct (X b eq_refl)|]. slot T. apply refused; assumption.
Qed.
End Props.
Print Assumptions C67_passes.
Print Assumptions C67_fails.
Print Assumptions C67_message_refuted.
(** Arguments (1, 'a'): the first is an int, the second is not; arguments ('a', 1): the message for the first says got arg of type int. *)
Definition frame (a b : value) (s : api) : api := Api [VCfn 0; a; b] 2 0 (a_lists s) (a_tables s) (a_mt s) (a_globals s) (a_mts s) (a_decl s) (a_next s) true.
Example C67_nonvacuous s tag txt : let s1 := frame (VInt 1) (VStr [97]) s in let s2 := frame (VStr [97]) (VInt 1) s in
  argument s1 0 (VInt 1) /\ argument s1 1 (VStr [97]) /\ a_sp s1 = a_fp s1 + 1 + 1 /\ argument s2 0 (VStr [97]) /\ top s2 (VInt 1) /\ called txt (VInt 1) (bytes_of "int") /\
  YASLX_checknint tag txt s1 (bytes_of "f") 0 = Ok (Passed 1) /\
  YASLX_checknint tag txt s1 (bytes_of "f") 1 = Ok (Raised (bytes_of "TypeError: f expected arg in position 1 to be of type int, got arg of type str.") EType) /\
  YASLX_checknint tag txt s2 (bytes_of "f") 0 = Ok (Raised (bytes_of "TypeError: f expected arg in position 0 to be of type int, got arg of type int.") EType).
Proof. cbv zeta. repeat split; try constructor. Qed.
