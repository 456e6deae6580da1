(** C09 equality, C10 truthiness (first half), C21 string order, C34 integer arithmetic. *)
From Verif Require Import Base Value ValueSpec Ops OpsProofs FloatFacts StrOrder.

(** ** C09 *)
Theorem C09_eq_spec : forall w a b, prim a -> prim b ->
  exists r, exec_binop w BEq a b = Ok (VBool r) /\ exec_binop w BEq b a = Ok (VBool r) /\ (r = true <-> spec_eq a b).
Proof. exact eq_full. Qed.
Print Assumptions C09_eq_spec.

Theorem C09_eq_reflexive : forall w a, prim a ->
  exists r, exec_binop w BEq a a = Ok (VBool r) /\ (r = true <-> a <> VFloat S754_nan).
Proof. exact eq_refl_full. Qed.
Print Assumptions C09_eq_reflexive.

(** Ints and floats are compared by numeric value (exactly, below 2^53). *)
Theorem C09_int_float_numeric : forall w x y, Z.abs x < 2 ^ 53 -> Z.abs y < 2 ^ 53 ->
  exec_binop w BEq (VInt x) (VFloat (f_of_int y)) = Ok (VBool (x =? y)).
Proof. exact eq_int_float. Qed.
Print Assumptions C09_int_float_numeric.

(** === implies the same type and, unless both are NaN, ==; for bools, ints, undef and user pointers the converse holds. *)
Theorem C09_identity : forall w a b, (forall s t, w_strid w s t = true -> s = t) -> prim a -> prim b ->
  (forall f, a = VFloat f \/ b = VFloat f -> f_valid f = true) ->
  exists r, exec_binop w BId a b = Ok (VBool r) /\
    (r = true -> vtype a = vtype b /\ (a = VFloat S754_nan \/ exec_binop w BEq a b = Ok (VBool true))) /\
    (r = false -> (forall s, a <> VStr s) -> (forall f, a <> VFloat f) -> vtype a = vtype b -> exec_binop w BEq a b = Ok (VBool false)).
Proof. exact id_spec. Qed.
Print Assumptions C09_identity.

(** "=== is == plus equal types" is false: NaN === NaN, 0.0 !== -0.0, and two equal strings need not be the same object. *)
Theorem C09_identity_refuted : exists w,
  (forall s t, w_strid w s t = true -> s = t) /\
  exec_binop w BId (VFloat S754_nan) (VFloat S754_nan) = Ok (VBool true) /\
  exec_binop w BEq (VFloat S754_nan) (VFloat S754_nan) = Ok (VBool false) /\
  exec_binop w BId (VFloat (S754_zero false)) (VFloat (S754_zero true)) = Ok (VBool false) /\
  exec_binop w BEq (VFloat (S754_zero false)) (VFloat (S754_zero true)) = Ok (VBool true) /\
  exec_binop w BId (VStr [97]) (VStr [97]) = Ok (VBool false) /\
  exec_binop w BEq (VStr [97]) (VStr [97]) = Ok (VBool true).
Proof. exact id_refuted. Qed.
Print Assumptions C09_identity_refuted.

(** == is not transitive across ints and floats. *)
Theorem C09_transitive_refuted : exists w a b c,
  exec_binop w BEq a b = Ok (VBool true) /\ exec_binop w BEq b c = Ok (VBool true) /\ exec_binop w BEq a c = Ok (VBool false).
Proof. exact eq_not_transitive. Qed.
Print Assumptions C09_transitive_refuted.

Example C09_nonvacuous : prim (VInt 3) /\ prim (VFloat (f_of_int 3)) /\ spec_eq (VInt 3) (VFloat (f_of_int 3)) /\
  ~ spec_eq (VInt 3) (VStr [51]) /\ f_valid (f_of_int 3) = true.
Proof.
  repeat split; try exact I; try (vm_compute; discriminate); [|vm_compute; tauto]. left. reflexivity.
Qed.

(** ** C10 *)
Theorem C10_truthiness : forall w v, exists r, exec_unop w UNot v = Ok (VBool r) /\ (r = true <-> spec_false v).
Proof. exact not_spec. Qed.
Print Assumptions C10_truthiness.

Example C10_truthiness_nonvacuous : spec_false (VStr []) /\ ~ spec_false (VInt 0) /\ ~ spec_false (VFloat (S754_zero false)).
Proof. unfold spec_false. split; [tauto|]. split; intros [H|[H|[H|H]]]; discriminate H. Qed.

(** ** C21 *)
Theorem C21_string_order : forall w s t, exists lt le gt ge eq,
    exec_binop w BLt (VStr s) (VStr t) = Ok (VBool lt) /\ (lt = true <-> lex_lt s t) /\
    exec_binop w BLe (VStr s) (VStr t) = Ok (VBool le) /\ (le = true <-> lex_lt s t \/ s = t) /\
    exec_binop w BGt (VStr s) (VStr t) = Ok (VBool gt) /\ (gt = true <-> lex_lt t s) /\
    exec_binop w BGe (VStr s) (VStr t) = Ok (VBool ge) /\ (ge = true <-> lex_lt t s \/ s = t) /\
    exec_binop w BEq (VStr s) (VStr t) = Ok (VBool eq) /\ (eq = true <-> s = t).
Proof. exact str_comp_spec. Qed.
Print Assumptions C21_string_order.

Theorem C21_total_order :
  (forall a b c, lex_lt a b -> lex_lt b c -> lex_lt a c) /\ (forall a, ~ lex_lt a a) /\
  (forall a b, lex_lt a b \/ a = b \/ lex_lt b a).
Proof. exact (conj lex_trans (conj lex_irrefl lex_total)). Qed.
Print Assumptions C21_total_order.

Example C21_nonvacuous : lex_lt [97; 98] [97; 98; 99] /\ lex_lt [97; 98; 99] [98] /\ lex_lt [127] [200].
Proof. split; [apply lex_tail, lex_tail, lex_nil|]. split; apply lex_head; lia. Qed.

(** ** C34 *)
Theorem C34_add_sub_mul : forall w a b,
  (in_i64 (a + b) -> exec_binop w BAdd (VInt a) (VInt b) = Ok (VInt (a + b))) /\
  (in_i64 (a - b) -> exec_binop w BSub (VInt a) (VInt b) = Ok (VInt (a - b))) /\
  (in_i64 (a * b) -> exec_binop w BMul (VInt a) (VInt b) = Ok (VInt (a * b))) /\
  (~ in_i64 (a + b) -> exec_binop w BAdd (VInt a) (VInt b) = UB) /\
  (~ in_i64 (a - b) -> exec_binop w BSub (VInt a) (VInt b) = UB) /\
  (~ in_i64 (a * b) -> exec_binop w BMul (VInt a) (VInt b) = UB) /\
  (a <> int_min -> in_i64 a -> exec_unop w UNeg (VInt a) = Ok (VInt (- a))).
Proof. exact arith_exact. Qed.
Print Assumptions C34_add_sub_mul.

Theorem C34_division : forall w a b, in_i64 a -> in_i64 b ->
  (b = 0 -> exec_binop w BIdiv (VInt a) (VInt b) = Err EDivZero /\ exec_binop w BMod (VInt a) (VInt b) = Err EDivZero) /\
  (b <> 0 -> ~ (a = int_min /\ b = -1) -> exists q r,
     exec_binop w BIdiv (VInt a) (VInt b) = Ok (VInt q) /\ exec_binop w BMod (VInt a) (VInt b) = Ok (VInt r) /\
     a = q * b + r /\ Z.abs r < Z.abs b /\ (r = 0 \/ Z.sgn r = Z.sgn a) /\ Z.abs (q * b) <= Z.abs a) /\
  (a = int_min /\ b = -1 -> exec_binop w BIdiv (VInt a) (VInt b) = UB /\ exec_binop w BMod (VInt a) (VInt b) = UB).
Proof. exact divmod_spec. Qed.
Print Assumptions C34_division.

Theorem C34_bits : forall w a b i, 0 <= i ->
  (exists r, exec_binop w BOr (VInt a) (VInt b) = Ok (VInt r) /\ Z.testbit r i = Z.testbit a i || Z.testbit b i) /\
  (exists r, exec_binop w BAnd (VInt a) (VInt b) = Ok (VInt r) /\ Z.testbit r i = Z.testbit a i && Z.testbit b i) /\
  (exists r, exec_binop w BXor (VInt a) (VInt b) = Ok (VInt r) /\ Z.testbit r i = xorb (Z.testbit a i) (Z.testbit b i)) /\
  (exists r, exec_binop w BAndNot (VInt a) (VInt b) = Ok (VInt r) /\ Z.testbit r i = Z.testbit a i && negb (Z.testbit b i)) /\
  (exists r, exec_unop w UBnot (VInt a) = Ok (VInt r) /\ Z.testbit r i = negb (Z.testbit a i)) /\
  (0 <= b < 64 -> exists r, exec_binop w BShr (VInt a) (VInt b) = Ok (VInt r) /\ Z.testbit r i = Z.testbit a (i + b)) /\
  (0 <= b < 64 -> 0 <= a -> a * 2 ^ b <= int_max -> exec_binop w BShl (VInt a) (VInt b) = Ok (VInt (a * 2 ^ b))).
Proof. exact bits_spec. Qed.
Print Assumptions C34_bits.

(** Results of integer operators on 64-bit ints are 64-bit ints. *)
Theorem C34_closed : forall w a b, in_i64 a -> in_i64 b ->
  forall op v, In op [BOr; BXor; BAnd; BAndNot; BShr; BShl; BAdd; BSub; BMul; BIdiv; BMod] ->
  exec_binop w op (VInt a) (VInt b) = Ok v -> exists r, v = VInt r /\ in_i64 r.
Proof. exact bit_closed. Qed.
Print Assumptions C34_closed.

Theorem C34_mixed : forall w op x y f g, In op [BAdd; BSub; BMul; BFdiv; BGt; BGe; BLt; BLe; BEq] ->
  exec_binop w op (VInt x) (VFloat g) = exec_binop w op (VFloat (f_of_int x)) (VFloat g) /\
  exec_binop w op (VFloat f) (VInt y) = exec_binop w op (VFloat f) (VFloat (f_of_int y)).
Proof. exact mixed_spec. Qed.
Print Assumptions C34_mixed.

Theorem C34_int_comparison : forall w x y,
  exec_binop w BLt (VInt x) (VInt y) = Ok (VBool (x <? y)) /\ exec_binop w BLe (VInt x) (VInt y) = Ok (VBool (x <=? y)) /\
  exec_binop w BGt (VInt x) (VInt y) = Ok (VBool (y <? x)) /\ exec_binop w BGe (VInt x) (VInt y) = Ok (VBool (y <=? x)).
Proof. exact int_compare. Qed.
Print Assumptions C34_int_comparison.

Example C34_nonvacuous : forall w, exec_binop w BIdiv (VInt (-7)) (VInt 2) = Ok (VInt (-3)) /\
  exec_binop w BMod (VInt (-7)) (VInt 2) = Ok (VInt (-1)) /\ exec_binop w BShr (VInt (-5)) (VInt 1) = Ok (VInt (-3)) /\
  exec_binop w BAdd (VInt int_max) (VInt 1) = UB.
Proof. intros w. vm_compute. auto. Qed.

(** On two floats the arithmetic operators and comparisons are those of IEEE 754 binary64 (the standard library's [SpecFloat]). *)
Theorem C34_floats : forall w f g,
  exec_binop w BAdd (VFloat f) (VFloat g) = Ok (VFloat (SFadd 53 1024 f g)) /\ exec_binop w BSub (VFloat f) (VFloat g) = Ok (VFloat (SFsub 53 1024 f g)) /\
  exec_binop w BMul (VFloat f) (VFloat g) = Ok (VFloat (SFmul 53 1024 f g)) /\ exec_binop w BFdiv (VFloat f) (VFloat g) = Ok (VFloat (SFdiv 53 1024 f g)) /\
  exec_binop w BLt (VFloat f) (VFloat g) = Ok (VBool (SFltb f g)) /\ exec_binop w BLe (VFloat f) (VFloat g) = Ok (VBool (SFleb f g)) /\
  exec_binop w BGt (VFloat f) (VFloat g) = Ok (VBool (SFltb g f)) /\ exec_binop w BGe (VFloat f) (VFloat g) = Ok (VBool (SFleb g f)) /\
  exec_unop w UNeg (VFloat f) = Ok (VFloat (SFopp f)) /\ exec_unop w UPos (VFloat f) = Ok (VFloat f).
Proof. intros. repeat split; reflexivity. Qed.
Print Assumptions C34_floats.
(** Two ints are divided by / as floats. *)
Theorem C34_int_quotient : forall w x y, exec_binop w BFdiv (VInt x) (VInt y) = Ok (VFloat (SFdiv 53 1024 (f_of_int x) (f_of_int y))).
Proof. reflexivity. Qed.
Print Assumptions C34_int_quotient.
(** Operands an operator has no built-in meaning for go, in their order, to the method of that operator (or to the type error for its
    absence), and different operators go to different methods. *)
Definition an_int (v : value) : bool := match v with VInt _ => true | _ => false end.
Definition a_num (v : value) : bool := match v with VInt _ | VFloat _ => true | _ => false end.
Definition a_str (v : value) : bool := match v with VStr _ => true | _ => false end.
Definition built_in (op : binop) (a b : value) : bool :=
  match op with
  | BOr | BXor | BAnd | BAndNot | BShl | BShr => an_int a && an_int b
  | BIdiv | BMod => (an_int a && an_int b) || (match b with VInt 0 => true | _ => false end)
  | BAdd | BSub | BMul | BFdiv | BPow => a_num a && a_num b
  | BGt | BGe | BLt | BLe => (a_num a && a_num b) || (a_str a && a_str b)
  | BEq => match a, b with VList _, VList _ | VTable _, VTable _ | VUserData _, VUserData _ => false | _, _ => true end
  | BCnct | BId => true
  end.
Theorem C34_methods : (forall w op a b, built_in op a b = false -> exec_binop w op a b = w_meta2 w (binop_code op) a b) /\
  (forall w op a, (match op, a with UNot, _ | (UNeg | UPos), (VInt _ | VFloat _) | UBnot, VInt _ | ULen, VStr _ => False | _, _ => True end) -> exec_unop w op a = w_meta1 w (unop_code op) a) /\
  (forall op op', binop_code op = binop_code op' -> op = op') /\ (forall op op', unop_code op = unop_code op' -> op = op').
Proof.
  split; [|split; [|split; [intros [] [] H; reflexivity || discriminate H|intros [] [] H; reflexivity || discriminate H]]].
  - intros w op a b B. destruct op; try discriminate B; destruct a, b; try discriminate B; try reflexivity;
      cbn [exec_binop vm_divmod] in *; cbn [built_in an_int andb orb] in B; match goal with |- context [?y =? 0] => destruct y; try discriminate B; reflexivity end.
  - intros w op a H. destruct op, a; try destruct H; reflexivity.
Qed.
Print Assumptions C34_methods.
Example C34_methods_nonvacuous : built_in BSub (VList 1) (VInt 2) = false /\ built_in BLt (VInt 1) (VStr [97]) = false /\ built_in BEq (VTable 1) (VTable 2) = false.
Proof. repeat split. Qed.
