(** C35: constants survive the bytecode. [literal] is in ConstSpec.v. *)
From Verif Require Import Base Bytes Value FloatFacts Table TableProofs3 ConstSpec Constants ConstProofs.

(** Whatever literals a program contains (in compilation order, with repetitions), the array the VM builds from the
    compiled program holds at each literal's index exactly that literal; two literals share an index exactly when they are
    the same value, and no constant is stored twice. Holds for any code and line table around them. *)
Theorem C35_constants_roundtrip : forall fuel vs code lines,
  FUEL_BOUND <= Z.of_nat fuel -> Forall literal vs -> Z.of_nat (length vs) <= 2 ^ 29 ->
  exists p0 idx p constants, pool_new = Ok p0 /\ intern_all fuel p0 vs = Ok (idx, p) /\
    setup_constants (return_bytes p code lines) = Ok constants /\
    Forall2 (fun i v => nthZ constants i = Some v) idx vs /\
    (forall a b i j v u, nth_error idx a = Some i -> nth_error idx b = Some j -> nth_error vs a = Some v -> nth_error vs b = Some u ->
       (i = j <-> v = u)) /\ NoDup constants.
Proof. exact constants_ok. Qed.
Print Assumptions C35_constants_roundtrip.

(** The entry point stored in the program is where its code starts. *)
Theorem C35_entry_point : forall p code lines, 24 + Z.of_nat (length (cp_hdr p)) <= int_max ->
  exists e, entry_point (return_bytes p code lines) = Ok e /\ 0 <= e /\
    skipn (Z.to_nat e) (return_bytes p code lines) = code ++ [O_HALT] ++ lines.
Proof. exact layout_ok. Qed.
Print Assumptions C35_entry_point.

(** Every double is read back exactly, NaN and -0.0 included. *)
Theorem C35_float_bits : forall f, f_valid f = true -> f_of_bits (f_bits f) = f.
Proof. exact f_of_bits_bits. Qed.
Print Assumptions C35_float_bits.

Definition ex_lits : list value :=
  [VInt 5; VStr [104; 105; 0]; VInt (-128); VInt 5; VFloat (f_of_int 5); VInt 1000; VStr []; VStr [104; 105; 0]; VInt 127; VInt (-127); VInt int_min].
Example C35_nonvacuous : Forall literal ex_lits /\
  match pool_new with Ok p0 =>
    match intern_all 100 p0 ex_lits with
    | Ok (idx, p) => idx = [0; 1; 2; 0; 3; 4; 5; 1; 6; 7; 8] /\ setup_constants (return_bytes p [1; 2] [3])
        = Ok [VInt 5; VStr [104; 105; 0]; VInt (-128); VFloat (f_of_int 5); VInt 1000; VStr []; VInt 127; VInt (-127); VInt int_min]
    | _ => False end
  | _ => False end.
Proof.
  split; [|vm_compute; auto].
  unfold ex_lits. repeat constructor; cbn; unfold in_i64, int_min, int_max, is_byte; try lia; try discriminate.
Qed.

(** Outside [literal]: 0.0 and the folded literal -0.0 are different doubles, but when the probe sequence of -0.0 meets the
    entry of 0.0 they share one constant, so the program loads the wrong one. 93 literals suffice. *)
Definition collide : list value :=
  VFloat (S754_zero false) :: map VInt [3; 5; 10; 11; 20; 25; 48; 58; 69; 26580; 26590; 26591; 26598; 26600; 26601; 26608; 26698; 26710; 31604; 31616; 31617; 31626; 31631; 31634; 31682; 34974; 34981; 37582; 37583; 37618; 37646; 37669; 39831; 39834; 41693; 43230; 43300; 44761; 47286; 47345; 1; 2; 4; 6; 7; 8; 9; 12; 13; 14; 15; 16; 17; 18; 19; 21; 22; 23; 24; 26; 27; 28; 29; 30; 31; 32; 33; 34; 35; 36; 37; 38; 39; 40; 41; 42; 43; 44; 45; 46; 47; 49; 50; 51; 52; 53; 54; 55; 56; 57; 59]
  ++ [VFloat (S754_zero true)].
Theorem C35_negative_zero_refuted :
  exists p0 idx p constants, pool_new = Ok p0 /\ intern_all 300 p0 collide = Ok (idx, p) /\
    setup_constants (return_bytes p [] []) = Ok constants /\
    nth_error collide 92 = Some (VFloat (S754_zero true)) /\ nth_error idx 92 = Some 0 /\
    nthZ constants 0 = Some (VFloat (S754_zero false)).
Proof.
  do 4 eexists. split; [vm_compute; reflexivity|]. split; [vm_compute; reflexivity|]. split; [vm_compute; reflexivity|].
  split; [reflexivity|]. split; reflexivity.
Qed.
Print Assumptions C35_negative_zero_refuted.
