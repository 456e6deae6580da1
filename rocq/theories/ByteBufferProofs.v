From Verif Require Import Base Bytes BytesProofs Varint VarintProofs ByteBuffer.

(** Specification: what the contents should be. [bbspec o c c'] relates contents before and after. *)
Inductive bbspec : bbop -> list Z -> list Z -> Prop :=
| sp_byte x c : bbspec (BBByte x) c (c ++ [x])
| sp_int v c : bbspec (BBInt v) c (c ++ enc8 v)
| sp_vint v c bs : in_u64 v -> vint_encode 11 v = Ok bs -> bbspec (BBVint v) c (c ++ bs)
| sp_extend bs c : bbspec (BBExtend bs) c (c ++ bs)
| sp_rewrite i v c pre old post : c = pre ++ old ++ post -> Z.of_nat (length pre) = i -> length old = 8%nat ->
    bbspec (BBRewrite i v) c (pre ++ enc8 v ++ post).
Inductive bbspec_run : list bbop -> list Z -> list Z -> Prop :=
| spr_nil c : bbspec_run [] c c
| spr_cons o os c c' c'' : bbspec o c c' -> bbspec_run os c' c'' -> bbspec_run (o :: os) c c''.

Definition bb_ok (b : bbuf) : Prop := 1 <= bb_size b /\ bb_count b <= bb_size b.

Lemma bb_extend_ok b bs : bb_ok b -> exists b', bb_extend b bs = Ok b' /\ bb_ok b' /\ bb_bytes b' = bb_bytes b ++ bs.
Proof.
  intros (H1 & H2). unfold bb_extend, bb_write. destruct (Z.ltb_spec (bb_size b) (bb_count b + Z.of_nat (length bs))).
  - assert (0 <= bb_count b) by (unfold bb_count; lia).
    destruct (Z.leb_spec (bb_count b + Z.of_nat (length bs)) ((bb_count b + Z.of_nat (length bs)) * 2)); [|lia].
    eexists. split; [reflexivity|]. split; [|reflexivity]. unfold bb_ok, bb_count in *. cbn. rewrite app_length. lia.
  - destruct (Z.leb_spec (bb_count b + Z.of_nat (length bs)) (bb_size b)); [|lia].
    eexists. split; [reflexivity|]. split; [|reflexivity]. unfold bb_ok, bb_count in *. cbn. rewrite app_length. lia.
Qed.
Lemma bb_add_byte_ok b x : bb_ok b -> exists b', bb_add_byte b x = Ok b' /\ bb_ok b' /\ bb_bytes b' = bb_bytes b ++ [x].
Proof.
  intros (H1 & H2). unfold bb_add_byte, bb_write. change (Z.of_nat (length [x])) with 1.
  destruct (Z.leb_spec (bb_size b) (bb_count b)).
  - destruct (Z.leb_spec (bb_count b + 1) (bb_count b * 2)); [|lia].
    eexists. split; [reflexivity|]. split; [|reflexivity]. unfold bb_ok, bb_count in *. cbn. rewrite app_length. cbn. lia.
  - destruct (Z.leb_spec (bb_count b + 1) (bb_size b)); [|lia].
    eexists. split; [reflexivity|]. split; [|reflexivity]. unfold bb_ok, bb_count in *. cbn. rewrite app_length. cbn. lia.
Qed.
Lemma rewrite8_spec pre old post v : length old = 8%nat -> rewrite8 (pre ++ old ++ post) (length pre) v = pre ++ enc8 v ++ post.
Proof.
  intros H. unfold rewrite8. rewrite firstn_app, Nat.sub_diag, firstn_all, firstn_O, app_nil_r. f_equal. f_equal.
  rewrite skipn_app. rewrite skipn_all2 by lia. replace (length pre + 8 - length pre)%nat with 8%nat by lia.
  rewrite skipn_app, H, Nat.sub_diag, skipn_all2 by lia. reflexivity.
Qed.
Lemma bb_step_ok b o c' : bb_ok b -> bbspec o (bb_bytes b) c' -> exists b', bb_step b o = Ok b' /\ bb_ok b' /\ bb_bytes b' = c'.
Proof.
  intros H S. inversion S as [x c E1 E2 E3|v c E1 E2 E3|v c bs Hv He E1 E2 E3|bs c E1 E2 E3|i v c pre old post Hc Hi Ho E1 E2 E3]; subst; cbn [bb_step].
  - apply bb_add_byte_ok, H.
  - apply bb_extend_ok, H.
  - unfold bb_add_vint. rewrite He. cbn [bind].
    destruct (vint_roundtrip v Hv) as (bs' & E & _ & L & _). rewrite E in He by lia. injection He as <-.
    destruct (Z.ltb_spec 12 (Z.of_nat (length bs'))); [lia|]. apply bb_extend_ok, H.
  - apply bb_extend_ok, H.
  - unfold bb_rewrite_int, bb_count. rewrite Hc, !app_length, Ho.
    destruct ((0 <=? Z.of_nat (length pre)) && (Z.of_nat (length pre) + 8 <=? Z.of_nat (length pre + (8 + length post)))) eqn:E; [|lia].
    eexists. split; [reflexivity|]. rewrite Nat2Z.id. rewrite rewrite8_spec by assumption. split; [|reflexivity].
    destruct H as (K1 & K2). split; [exact K1|]. unfold bb_count in *. cbn [bb_bytes bb_size]. rewrite Hc in K2.
    rewrite !app_length in *. rewrite enc8_length. lia.
Qed.
Lemma bb_history size ops c : 1 <= size -> bbspec_run ops [] c ->
  exists b, bb_run (bb_new size) ops = Ok b /\ bb_bytes b = c /\ bb_count b <= bb_size b.
Proof.
  intros Hs. assert (B0 : bb_ok (bb_new size)) by (split; unfold bb_count; cbn; lia).
  change (@nil Z) with (bb_bytes (bb_new size)). revert B0. generalize (bb_new size). clear Hs size.
  revert c. induction ops as [|o os IH]; intros c b B R.
  - inversion R; subst. exists b. destruct B. auto.
  - inversion R as [|? ? ? c' ? S1 S2]; subst. destruct (bb_step_ok b o c' B S1) as (b' & E & B' & Eb). cbn [bb_run]. rewrite E. cbn [bind].
    apply IH; [exact B'|]. rewrite Eb. exact S2.
Qed.
