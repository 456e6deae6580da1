(** C40: growing byte buffers. [bbspec]/[bbspec_run] (ByteBufferProofs.v) relate the contents before and after each
    operation: appends append exactly their bytes, a rewrite replaces exactly eight existing bytes. *)
From Verif Require Import Base Bytes BytesProofs Varint ByteBuffer ByteBufferProofs.

(** For a buffer created with a positive size, any sequence of operations writes only inside the block and the contents
    are exactly what was appended/rewritten. *)
Theorem C40_history : forall size ops c, 1 <= size -> bbspec_run ops [] c ->
  exists b, bb_run (bb_new size) ops = Ok b /\ bb_bytes b = c /\ bb_count b <= bb_size b.
Proof. exact bb_history. Qed.
Print Assumptions C40_history.

(** Eight-byte ints survive being stored. *)
Theorem C40_int_roundtrip : forall z, in_i64 z -> length (enc8 z) = 8%nat /\ Forall is_byte (enc8 z) /\ dec8 (enc8 z) = z.
Proof. exact (fun z H => conj (enc8_length z) (conj (enc8_bytes z) (dec8_enc8 z H))). Qed.
Print Assumptions C40_int_roundtrip.

(** A buffer created with size 0 overflows its (empty) block on the first single-byte append. *)
Theorem C40_size_zero_refuted : exists ops c, bbspec_run ops [] c /\ bb_run (bb_new 0) ops = UB.
Proof. exists [BBByte 65], [65]. split; [|reflexivity]. econstructor; [constructor|constructor]. Qed.
Print Assumptions C40_size_zero_refuted.

Example C40_nonvacuous : exists c, bbspec_run [BBByte 193; BBInt 0; BBExtend [1; 2; 3]; BBRewrite 1 3; BBVint 300] [] c
  /\ c = [193; 3; 0; 0; 0; 0; 0; 0; 0; 1; 2; 3; 172; 2]
  /\ omap bb_bytes (bb_run (bb_new 4) [BBByte 193; BBInt 0; BBExtend [1; 2; 3]; BBRewrite 1 3; BBVint 300]) = Ok c.
Proof.
  eexists. split; [|split; [reflexivity|vm_compute; reflexivity]].
  econstructor; [constructor|]. econstructor; [constructor|]. econstructor; [constructor|].
  econstructor; [apply (sp_rewrite 1 3 _ [193] (enc8 0) [1; 2; 3]); reflexivity|].
  econstructor; [econstructor; [split; [discriminate|reflexivity]|vm_compute; reflexivity]|]. constructor.
Qed.
