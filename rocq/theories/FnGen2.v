From Verif Require Import Base Bytes BytesProofs Value Table Ops Ast Stmt Limits Constants VM Compiler ValueProofs TableSpec TableProofs TableProofs2 TableProofs3 ConstSpec ConstProofs Gen GenProofs GenProofs2 SimBase Program ProgProofs Fn FnSpec FnCompiler FnCode FnGen.

(** ** More about the scope in use. *)
Lemma unview_unview c d d' : unview (unview c d) d' = unview c d'.
Proof. destruct c as (c & [|e r]); destruct d, d'; reflexivity. Qed.
Lemma unview_view_set c ss : unview c (set_scopes (view c) ss) = set_cur c ss.
Proof. destruct c as (c & [|e r]); destruct c; reflexivity. Qed.
Lemma cur_set_cur c ss : cur (set_cur c ss) = ss.
Proof. destruct c as (c & [|e r]); reflexivity. Qed.
Lemma cur_unview c d : cur (unview c d) = c_scopes d.
Proof. destruct c as (c & [|e r]); destruct d; reflexivity. Qed.
Lemma on_cur_inv f c c' : on_cur f c = Ok c' -> exists d, f (view c) = Ok d /\ c' = unview c d.
Proof. unfold on_cur. destruct (f (view c)) as [d| | |]; try discriminate. cbn. intros [= <-]. eauto. Qed.
Lemma gens_unview c d cs cs' ss bs : ran (view c) d cs cs' ss (fun _ => bs) -> ups_ok (last (c_scopes (f_c c)) []) (f_envs c) -> gens c (unview c d) cs cs' ss bs.
Proof.
  intros R U. unfold gens. rewrite view_unview. split; [exact R|]. destruct c as (c & [|e r]); [split; exact I|]. split.
  - cbn. split; [reflexivity|]. split; [apply prefix_refl|apply envs_same_refl].
  - exact U.
Qed.
Lemma index_of_app cs more v : In v cs -> index_of (cs ++ more) v = index_of cs v.
Proof. induction cs as [|u cs IH]; intros H; [destruct H|]. cbn. destruct (value_eq_dec u v); [reflexivity|]. destruct H as [->|H]; [congruence|]. rewrite IH by exact H. reflexivity. Qed.
Lemma index_of_ext cs K v : In v cs -> extends cs K -> index_of K v = index_of cs v.
Proof. intros H (m & ->). apply index_of_app, H. Qed.
Lemma lit_code_ext cs K v : In v cs -> extends cs K -> lit_code K v = lit_code cs v.
Proof. intros H X. unfold lit_code. rewrite (index_of_ext _ _ _ H X). reflexivity. Qed.
Lemma extends_refl cs : extends cs cs.
Proof. exists []. rewrite app_nil_r. reflexivity. Qed.
Lemma extends_in cs K v : In v cs -> extends cs K -> In v K.
Proof. intros H (m & ->). apply in_or_app. auto. Qed.
Lemma fcount_femit c bs : fcount (femit c bs) = fcount c + len bs.
Proof. unfold fcount, femit, count, len. cbn. rewrite app_length. lia. Qed.
Lemma gens_emit c bs cs : pooled (c_pool (f_c c)) cs -> ups_ok (last (c_scopes (f_c c)) []) (f_envs c) -> gens c (femit c bs) cs cs (cur c) bs.
Proof.
  intros P U. unfold gens. rewrite view_femit. split; [apply ran_emit; [exact P|reflexivity]|]. split; [apply (estep_refl c)|exact U].
Qed.
Lemma good_emit c pl F cs bs : good c pl F cs -> gens c (femit c bs) cs cs (cur c) bs.
Proof. intros []. apply gens_emit; assumption. Qed.
Lemma good_fc c d pl F cs : good c pl F cs -> c_pool d = c_pool (f_c c) -> c_globals d = c_globals (f_c c) -> c_scopes d = c_scopes (f_c c) -> good (FC d (f_envs c)) pl F cs.
Proof.
  intros [] P G S. constructor; unfold rel, cur in *; cbn [f_c f_envs]; rewrite ?P, ?G, ?S; assumption.
Qed.
Lemma good_femit c pl F cs bs : good c pl F cs -> good (femit c bs) pl F cs.
Proof. intros G. apply (good_fc c); auto. Qed.
Lemma good_fland c pl F cs i : good c pl F cs -> good (fland c i) pl F cs.
Proof. intros G. apply (good_fc c); auto. Qed.

(** ** Addresses of function literals. *)
Definition KI (kind : nat -> option Z) (lo : Z) : Prop :=
  (forall l a, kind l = Some a -> a < lo) /\ (forall l l' a, kind l = Some a -> kind l' = Some a -> l = l').
Definition kfix (L : list nat) (k k' : nat -> option Z) : Prop := forall l, ~ In l L -> k' l = k l.
Definition kagree (L : list nat) (k k' : nat -> option Z) : Prop := forall l, In l L -> k l = k' l.
Lemma KI_mono k a b : KI k a -> a <= b -> KI k b.
Proof. intros (A & B) L. split; [|exact B]. intros l x H. apply A in H. lia. Qed.
Lemma kfix_refl L k : kfix L k k.
Proof. intros l _. reflexivity. Qed.
Lemma kfix_app L1 L2 a b c : kfix L1 a b -> kfix L2 b c -> kfix (L1 ++ L2) a c.
Proof. intros A B l H. rewrite B, A; [reflexivity| |]; intros X; apply H, in_or_app; auto. Qed.
Lemma nodup_app_inv {A} (a b : list A) : NoDup (a ++ b) -> NoDup a /\ NoDup b /\ forall x, In x a -> ~ In x b.
Proof.
  induction a as [|y a IH]; cbn [app]; intros H; [split; [constructor|split; [exact H|intros x []]]|]. inversion H as [|? ? N D]; subst. destruct (IH D) as (A1 & A2 & A3).
  split; [constructor; [intros X; apply N, in_or_app; auto|exact A1]|]. split; [exact A2|]. intros x [->|X]; [intros Y; apply N, in_or_app; auto|apply A3, X].
Qed.
Lemma kagree_app L1 L2 k k1 k2 : NoDup (L1 ++ L2) -> kfix L2 k1 k2 -> kagree (L1 ++ L2) k k2 -> kagree L1 k k1 /\ kagree L2 k k2.
Proof.
  intros N Fx A. apply nodup_app_inv in N. destruct N as (_ & _ & D). split; intros l H; [|apply A, in_or_app; auto]. rewrite A by (apply in_or_app; auto). apply Fx, D, H.
Qed.

Section G.
Variables (fuel : nat) (base : Z).

(** The piece from [c] to [c'] left the scopes [ss'], placed the literals [L], and its code satisfies [P], which depends on
    the final constants, the final places of the literals, and the final captured variables. *)
Definition made (c c' : fcst) (cs : list value) (ss' : list scope) (L : list nat) (kind : nat -> option Z)
    (P : list value -> (nat -> option Z) -> list name -> list Z -> Prop) : Prop :=
  exists cs' bs kind', gens c c' cs cs' ss' bs /\ KI kind' (base + fcount c') /\ kfix L kind kind' /\
    forall K U k2, extends cs' K -> prefix (upn c') U -> kagree L k2 kind' -> P K k2 U bs.

Lemma made_imp c c' cs ss L kind (P Q : list value -> (nat -> option Z) -> list name -> list Z -> Prop) :
  made c c' cs ss L kind P -> (forall K k U b, P K k U b -> Q K k U b) -> made c c' cs ss L kind Q.
Proof. intros (cs' & bs & k' & A & B & C & D) H. exists cs', bs, k'. eauto 8. Qed.
Lemma made_seq c c1 c2 cs s1 s2 L1 L2 kind P1 (P2 : list Z -> list value -> (nat -> option Z) -> list name -> list Z -> Prop) (Q : list value -> (nat -> option Z) -> list name -> list Z -> Prop) :
  NoDup (L1 ++ L2) -> made c c1 cs s1 L1 kind P1 ->
  (forall cs1 b1 k1, gens c c1 cs cs1 s1 b1 -> KI k1 (base + fcount c1) -> made c1 c2 cs1 s2 L2 k1 (P2 b1)) ->
  (forall K k U b1 b2, P1 K k U b1 -> P2 b1 K k U b2 -> Q K k U (b1 ++ b2)) -> made c c2 cs s2 (L1 ++ L2) kind Q.
Proof.
  intros N (cs1 & b1 & k1 & A & B & C & D) H J. destruct (H cs1 b1 k1 A B) as (cs2 & b2 & k2 & A2 & B2 & C2 & D2).
  exists cs2, (b1 ++ b2), k2. split; [eapply gens_trans; eassumption|]. split; [exact B2|]. split; [eapply kfix_app; eassumption|].
  intros K U k HK HU HA. destruct (kagree_app _ _ _ _ _ N C2 HA) as (HA1 & HA2). apply J; [apply D|apply D2]; auto.
  - eapply gens_ext; eassumption.
  - eapply prefix_trans; [|exact HU]. apply estep_upn, A2.
Qed.
Lemma made_emit c cs kind bs : pooled (c_pool (f_c c)) cs -> ups_ok (last (c_scopes (f_c c)) []) (f_envs c) -> KI kind (base + fcount c) ->
  made c (femit c bs) cs (cur c) [] kind (fun _ _ _ b => b = bs).
Proof.
  intros P U KI0. exists cs, bs, kind. split; [apply gens_emit; assumption|]. split; [|split; [apply kfix_refl|reflexivity]].
  eapply KI_mono; [exact KI0|]. rewrite fcount_femit. unfold len. lia.
Qed.
Lemma made_emit_l c c' cs ss L kind bs P : made (femit c bs) c' cs ss L kind P -> made c c' cs ss L kind (fun K k U b => exists b', P K k U b' /\ b = bs ++ b').
Proof.
  intros (cs' & b & k' & A & B & C & D). exists cs', (bs ++ b), k'. split; [|split; [exact B|split; [exact C|intros K U k2 X Y Z; eauto]]].
  destruct A as (R & S & U). rewrite view_femit in R. split; [|split; [exact S|exact U]]. destruct R as (R1 & R2 & R3 & R4 & R5 & R6).
  repeat (split; [assumption|]). intros K HK. rewrite (R6 K HK). cbn [emit c_buf set_buf]. rewrite <- app_assoc. reflexivity.
Qed.
Lemma gens_emit_r c c' cs cs' ss b bs : gens c c' cs cs' ss b -> gens c (femit c' bs) cs cs' ss (b ++ bs).
Proof.
  intros A. eapply gens_trans; [exact A|]. pose proof (gens_cur _ _ _ _ _ _ A) as C. rewrite <- C. apply gens_emit; [apply (gens_pool _ _ _ _ _ _ A)|apply A].
Qed.
Lemma made_emit_r c c' cs ss L kind bs P : made c c' cs ss L kind P -> made c (femit c' bs) cs ss L kind (fun K k U b => exists b', P K k U b' /\ b = b' ++ bs).
Proof.
  intros (cs' & b & k' & A & B & C & D). exists cs', (b ++ bs), k'. split; [apply gens_emit_r, A|]. split; [|split; [exact C|intros K U k2 X Y Z; eauto]].
  eapply KI_mono; [exact B|]. rewrite fcount_femit. unfold len. lia.
Qed.
Lemma gens_jump c o c2 cs cs' ss g : gens (femit (femit c (op o)) (enc8 0)) c2 cs cs' ss g ->
  gens c (fland c2 (fcount (femit c (op o)))) cs cs' ss (op o ++ enc8 (len g) ++ g).
Proof.
  intros (R & S & U). rewrite !view_femit in R. unfold gens. rewrite view_fland. split; [|split; [exact S|exact U]].
  rewrite fcount_view, view_femit. apply (ran_jump _ _ _ _ _ _ _ (fun _ => g) eq_refl R).
Qed.
Lemma made_jump c o c2 cs ss L kind P : made (femit (femit c (op o)) (enc8 0)) c2 cs ss L kind P ->
  made c (fland c2 (fcount (femit c (op o)))) cs ss L kind (fun K k U b => exists g, P K k U g /\ b = op o ++ enc8 (len g) ++ g).
Proof.
  intros (cs' & b & k' & A & B & C & D). pose proof (gens_jump _ _ _ _ _ _ _ A) as J. exists cs', (op o ++ enc8 (len b) ++ b), k'. split; [exact J|]. split; [|split; [exact C|intros K U k2 X Y Z; eauto]].
  eapply KI_mono; [exact B|]. apply gens_count in A, J. rewrite !fcount_femit in A. rewrite J, A. unfold len. rewrite !app_length, !enc8_length. cbn [op length]. lia.
Qed.
Lemma gens_mid c o1 c1 o2 cs cs1 s1 g1 : gens (femit (femit c (op o1)) (enc8 0)) c1 cs cs1 s1 g1 ->
  gens c (fland (femit (femit c1 (op o2)) (enc8 0)) (fcount (femit c (op o1)))) cs cs1 s1 (op o1 ++ enc8 (len ((g1 ++ op o2) ++ enc8 0)) ++ (g1 ++ op o2) ++ enc8 0).
Proof. intros A. apply gens_jump. apply gens_emit_r, gens_emit_r, A. Qed.
Lemma made_ifelse c o1 o2 c1 c2 cs s1 s2 L1 L2 kind P1 (P2 : list Z -> list value -> (nat -> option Z) -> list name -> list Z -> Prop) :
  let c1' := fland (femit (femit c1 (op o2)) (enc8 0)) (fcount (femit c (op o1))) in
  NoDup (L1 ++ L2) -> made (femit (femit c (op o1)) (enc8 0)) c1 cs s1 L1 kind P1 ->
  (forall cs1 b1 k1 j, gens (femit (femit c (op o1)) (enc8 0)) c1 cs cs1 s1 b1 -> gens c c1' cs cs1 s1 j -> KI k1 (base + fcount c1') -> fcount c1' = fcount c + len b1 + 18 ->
     made c1' c2 cs1 s2 L2 k1 (P2 b1)) ->
  made c (fland c2 (fcount (femit c1 (op o2)))) cs s2 (L1 ++ L2) kind
    (fun K k U b => exists g1 g2, P1 K k U g1 /\ P2 g1 K k U g2 /\ b = op o1 ++ enc8 (len g1 + 9) ++ g1 ++ op o2 ++ enc8 (len g2) ++ g2).
Proof.
  intros c1' N (cs1 & b1 & k1 & A & B & C & D) H. pose proof (gens_mid c o1 c1 o2 _ _ _ _ A) as M. fold c1' in M.
  assert (Lc : fcount c1' = fcount c + len b1 + 18) by (rewrite (gens_count _ _ _ _ _ _ M); unfold len; rewrite !app_length, !enc8_length; cbn [op length]; lia).
  assert (B' : KI k1 (base + fcount c1')).
  { eapply KI_mono; [exact B|]. rewrite (gens_count _ _ _ _ _ _ A), !fcount_femit, Lc. unfold len. rewrite enc8_length. cbn [op length]. lia. }
  destruct (H cs1 b1 k1 _ A M B' Lc) as (cs2 & b2 & k2 & A2 & B2 & C2 & D2).
  assert (J : gens c (fland c2 (fcount (femit c1 (op o2)))) cs cs2 s2 (op o1 ++ enc8 (len b1 + 9) ++ b1 ++ op o2 ++ enc8 (len b2) ++ b2)).
  { unfold gens. rewrite view_fland, fcount_view, view_femit. destruct A as (R & S & U). destruct A2 as (R2 & S2 & U2). unfold c1' in R2. rewrite view_fland, !view_femit in R2. rewrite !view_femit in R.
    rewrite (fcount_view (femit c (op o1))), view_femit in R2.
    split; [exact (ran_ifelse _ _ _ _ _ _ _ _ _ _ _ _ R R2)|]. split; [|exact U2]. eapply estep_trans; [exact S|exact S2]. }
  exists cs2. eexists. exists k2. split; [exact J|]. split; [|split; [eapply kfix_app; eassumption|]].
  - eapply KI_mono; [exact B2|]. rewrite (gens_count _ _ _ _ _ _ J), (gens_count _ _ _ _ _ _ A2), Lc. unfold len. rewrite !app_length, !enc8_length. cbn [op length]. lia.
  - intros K U k HK HU HA. destruct (kagree_app _ _ _ _ _ N C2 HA) as (HA1 & HA2). exists b1, b2. split; [apply D|split; [apply D2|reflexivity]]; auto.
    + eapply gens_ext; eassumption.
    + eapply prefix_trans; [|exact HU]. apply (estep_upn c1' c2), A2.
Qed.
Lemma gens_validate c c1 cs cs1 ss b : gens c c1 cs cs1 ss b -> gens c (on_c (fun d => set_buf d (c_buf (f_c c))) c1) cs cs1 ss [].
Proof.
  intros (R & S & U). split; [|split; [exact S|exact U]]. apply ran_validate in R. replace (view (on_c (fun d => set_buf d (c_buf (f_c c))) c1)) with (set_buf (view c1) (c_buf (view c))); [exact R|].
  destruct c1 as (c1 & [|e r]); reflexivity.
Qed.
Lemma made_validate c c1 cs ss L kind P : made c c1 cs ss L kind P -> KI kind (base + fcount c) ->
  made c (on_c (fun d => set_buf d (c_buf (f_c c))) c1) cs ss L kind (fun K k U b => b = [] /\ (L = [] -> exists b', P K k U b')).
Proof.
  intros (cs' & b & k' & A & B & C & D) KI0. exists cs', [], kind. split; [eapply gens_validate, A|]. split; [exact KI0|]. split; [apply kfix_refl|].
  intros K U k2 HK HU HA. split; [reflexivity|]. intros ->. exists b. apply D; auto. intros l [].
Qed.

(** ** Variables. *)
Lemma const_lit c d cs cs' ss v : ran c d cs cs' ss (fun K => lit_code K v) -> In v cs' -> ran c d cs cs' ss (fun _ => lit_code cs' v).
Proof. intros R H. eapply ran_ext; [exact R|]. intros K HK. apply lit_code_ext; assumption. Qed.
Lemma lit_made v c c' pl F cs kind : on_cur (fun d => add_literal fuel d v) c = Ok c' -> good c pl F cs -> literal v -> KI kind (base + fcount c) ->
  made c c' cs (cur c) [] kind (fun K _ _ b => c_lit K v b).
Proof.
  intros E Gd L KI0. apply on_cur_inv in E. destruct E as (d & E & ->). destruct (lit_gen fuel _ _ _ cs E (g_pool _ _ _ _ Gd) L) as (cs' & R & I).
  assert (Hv : In v cs') by (apply I; left; reflexivity). exists cs', (lit_code cs' v), kind.
  assert (J : gens c (unview c d) cs cs' (cur c) (lit_code cs' v)) by (apply gens_unview; [apply const_lit; [exact R|exact Hv]|apply Gd]).
  split; [exact J|]. split; [eapply KI_mono; [exact KI0|]; rewrite (gens_count _ _ _ _ _ _ J); unfold len; lia|]. split; [apply kfix_refl|].
  intros K U k2 HK _ _. split; [eapply extends_in; eassumption|]. rewrite (lit_code_ext cs' K v Hv HK). reflexivity.
Qed.
Lemma made_of_gens c c' cs ss kind bs (P : list value -> (nat -> option Z) -> list name -> list Z -> Prop) cs' : gens c c' cs cs' ss bs -> KI kind (base + fcount c) ->
  (forall K U k2, extends cs' K -> prefix (upn c') U -> P K k2 U bs) -> made c c' cs ss [] kind P.
Proof.
  intros J KI0 H. exists cs', bs, kind. split; [exact J|]. split; [eapply KI_mono; [exact KI0|]; rewrite (gens_count _ _ _ _ _ _ J); unfold len; lia|]. split; [apply kfix_refl|]. auto.
Qed.

Lemma add_mark e r stack x : add_upval (set_clo e :: r) stack x = add_upval (e :: r) stack x.
Proof.
  cbn [add_upval set_clo fe_ups]. destruct r as [|p r]; [destruct (scope_get stack x); reflexivity|]. match goal with |- bind ?a _ = _ => destruct a as [[|p' q]| | |]; reflexivity end.
Qed.
(** A use of a variable of the file from a function. *)
Lemma upval_ok o x c c' e r cs : upval_op o c x = Ok c' -> f_envs c = e :: r -> c_scopes (f_c c) <> [] ->
  mem x (concat (snames (removelast (c_scopes (f_c c))))) = false -> env_contains r x = false -> ups_ok (last (c_scopes (f_c c)) []) (e :: r) -> pooled (c_pool (f_c c)) cs ->
  exists i, gens c c' cs cs (cur c) (op o ++ [Z.of_nat i mod 256]) /\ nth_error (upn c') i = Some x /\ assoc (last (c_scopes (f_c c)) []) x <> None.
Proof.
  unfold upval_op. intros E Hes NE Hm Hc U P. rewrite Hes in E. cbn [mark_clo] in E.
  assert (Q : exists i es', resolve_upval (set_clo e :: r) (c_scopes (f_c c)) x = Ok (i, es') /\
     Forall2 env_same (e :: r) es' /\ ups_ok (last (c_scopes (f_c c)) []) es' /\ match es' with e' :: _ => nth_error (unames e') i = Some x | [] => False end /\ assoc (last (c_scopes (f_c c)) []) x <> None).
  { destruct (resolve_upval (set_clo e :: r) (c_scopes (f_c c)) x) as [[i es']| | |] eqn:Q; try discriminate. exists i, es'. split; [reflexivity|].
    cbn [resolve_upval set_clo fe_ups] in Q. change (fe_ups (set_clo e)) with (fe_ups e) in Q. destruct (up_index (fe_ups e) x) as [j|] eqn:J.
    - injection Q as <- <-. pose proof (up_index_some _ _ _ J) as J'. pose proof U as (N & Us & Cl & Al & R).
      assert (X : FE (fe_scopes e) (fe_ups e) true (fe_used e) = e). { destruct (fe_ups e) eqn:Ue; [destruct j; discriminate|]. rewrite <- Ue, <- Cl. destruct e; reflexivity. }
      unfold set_clo. rewrite X. split; [apply envs_same_refl|]. split; [exact U|]. split; [exact J'|]. apply nth_error_In, in_map_iff in J'. destruct J' as (u & <- & Hu). apply (Al u Hu).
    - rewrite add_mark in Q. apply (add_upval_ok (c_scopes (f_c c)) x NE Hm) in Q; auto. intros p Hp. cbn [tl] in Hp. unfold env_contains in Hc. destruct (contains (fe_scopes p) x) eqn:Cp; [|reflexivity].
      rewrite (proj2 (existsb_exists _ _)) in Hc; [discriminate|]. eauto. }
  destruct Q as (i & es' & Q1 & Q2 & Q3 & Q4 & Q5). rewrite Q1 in E. cbn [bind] in E. injection E as <-. exists i. destruct es' as [|e' r']; [destruct Q4|].
  inversion Q2 as [|? ? ? ? (S1 & S2) S3]; subst. split; [|split; [exact Q4|exact Q5]].
  split; [|split; [|exact Q3]].
  - assert (V : view (FC (emit (f_c c) (op o ++ [Z.of_nat i mod 256])) (e' :: r')) = emit (view c) (op o ++ [Z.of_nat i mod 256])).
    { unfold view, cur. rewrite Hes. cbn [f_c f_envs]. rewrite S1. reflexivity. }
    pose proof (ran_emit (view c) cs (cur c) (op o ++ [Z.of_nat i mod 256]) P eq_refl) as R. rewrite <- V in R. exact R.
  - unfold estep. rewrite Hes. cbn [f_envs f_c emit set_buf c_scopes]. auto.
Qed.
Lemma mark_none es x : env_contains es x = false -> mark_nearest es x = es.
Proof. induction es as [|e r IH]; [reflexivity|]. unfold env_contains. cbn [existsb mark_nearest]. intros H. apply orb_false_iff in H. destruct H as (A & B). rewrite A. f_equal. apply IH, B. Qed.
Lemma nearest_none es x : env_contains es x = false -> nearest_get es x = None.
Proof.
  unfold nearest_get, env_contains. induction es as [|e r IH]; [reflexivity|]. cbn [existsb find]. intros H. apply orb_false_iff in H. destruct H as (A & B). rewrite A. apply IH, B.
Qed.
(** Where a name used in a function is found. *)
Lemma rel_fun c pl F cs e r x : good c pl F cs -> f_envs c = e :: r -> scope_get (fe_scopes e) x = None ->
  exists D hid ro, pl = InFun D hid ro /\ mem x (concat D) = false /\ ro_rel ro (last (c_scopes (f_c c)) []) F /\
    (mem x hid = false -> env_contains r x = false /\ env_contains (e :: r) x = false /\ mem x (concat (snames (removelast (c_scopes (f_c c))))) = false /\
       scope_get (c_scopes (f_c c)) x = assoc (last (c_scopes (f_c c)) []) x).
Proof.
  intros Gd Hes Hn. pose proof (g_rel _ _ _ _ Gd) as R. unfold rel in R. rewrite Hes in R. destruct pl as [D|D hid ro]; [destruct R|]. destruct R as (R1 & R2 & R3). exists D, hid, ro. split; [reflexivity|].
  assert (Cn : contains (fe_scopes e) x = false) by (unfold contains; rewrite Hn; reflexivity).
  split; [rewrite <- R1, <- get_mem; exact Cn|]. split; [exact R2|]. intros Hh. destruct (R3 x Hh) as (A & B). split; [exact A|]. split; [unfold env_contains in *; cbn [existsb]; rewrite Cn; exact A|]. split; [exact B|].
  apply get_last; [apply Gd|exact B].
Qed.
Lemma load_made x c c' pl F cs kind : fload_var fuel c x = Ok c' -> good c pl F cs -> usable pl x = true -> KI kind (base + fcount c) ->
  made c c' cs (cur c) [] kind (fun K _ U b => c_load K (c_globals (f_c c)) (senv_of c U F) x b).
Proof.
  intros E Gd Us KI0. unfold fload_var in E. unfold senv_of. destruct (f_envs c) as [|e r] eqn:Hes.
  - apply on_cur_inv in E. destruct E as (d & E & ->). assert (Hc : cur c = c_scopes (f_c c)) by (unfold cur; rewrite Hes; reflexivity).
    destruct (visit_e_gen fuel (EVar x) (view c) d cs E (g_pool _ _ _ _ Gd) (g_gl _ _ _ _ Gd) ltac:(constructor)) as (Kn & cs' & R & _). cbn [ok_e gen_e] in Kn, R. cbn [view c_scopes c_globals set_scopes] in Kn, R.
    assert (Q : forall K, extends cs' K -> load_code K (cur c) x = load_code cs' (cur c) x).
    { intros K HK. unfold load_code. destruct (scope_get (cur c) x) eqn:S; [reflexivity|]. unfold known in Kn. rewrite S in Kn. destruct (assoc (c_globals (f_c c)) x) as [z|] eqn:A; [|discriminate].
      rewrite (index_of_ext cs' K); [reflexivity| |exact HK]. destruct R as (_ & (e & ->) & _). apply in_or_app. left. apply (g_gl _ _ _ _ Gd x z A). }
    assert (J : gens c (unview c d) cs cs' (cur c) (load_code cs' (cur c) x)) by (apply gens_unview; [eapply ran_ext; [exact R|exact Q]|apply Gd]).
    apply (made_of_gens _ _ _ _ _ _ _ _ J KI0). intros K U k2 HK _. rewrite <- Hc. split; [exact Kn|]. symmetry. apply Q, HK.
  - destruct (scope_get (fe_scopes e) x) as [z|] eqn:S.
    + injection E as <-. eapply made_imp; [apply made_emit; [apply Gd|apply Gd|exact KI0]|]. intros K k U b ->. unfold c_load. rewrite S. reflexivity.
    + destruct (rel_fun _ _ _ _ _ _ _ Gd Hes S) as (D & hid & ro & -> & Dn & Ro & H). cbn [usable] in Us. rewrite Dn in Us. cbn [orb] in Us. apply negb_true_iff in Us. destruct (H Us) as (H1 & H2 & H3 & H4).
      rewrite H2 in E. unfold contains in E. rewrite H4 in E. destruct (Ro x) as (Ro1 & _).
      destruct (assoc (last (c_scopes (f_c c)) []) x) as [z|] eqn:A.
      * destruct (upval_ok O_ULOAD x c c' e r cs E Hes (g_st _ _ _ _ Gd) H3 H1 ltac:(rewrite <- Hes; apply Gd) (g_pool _ _ _ _ Gd)) as (i & J & N & _).
        apply (made_of_gens _ _ _ _ _ _ _ _ J KI0). intros K U k2 _ HU. unfold c_load. rewrite S. destruct (assoc F x); [|discriminate Ro1]. exists i. split; [eapply prefix_nth; eassumption|reflexivity].
      * destruct (assoc (c_globals (f_c c)) x) as [z|] eqn:G; [|discriminate]. destruct (pool_index fuel (f_c c) x) as [i| | |] eqn:Q; try discriminate. cbn [bind] in E. injection E as <-.
        pose proof (pool_index_gen _ _ _ _ _ Q (g_pool _ _ _ _ Gd) (g_gl _ _ _ _ Gd _ _ G)) as HI.
        apply (made_of_gens _ _ _ _ _ (op O_GLOAD_8 ++ enc8 i) _ cs (good_emit _ _ _ _ _ Gd) KI0). intros K U k2 HK _. unfold c_load. rewrite S. destruct (assoc F x); [discriminate Ro1|].
        split; [congruence|]. destruct HK as (m & ->). rewrite <- HI. reflexivity.
Qed.
Lemma store_made x c c' pl F cs kind : fstore_var fuel c x = Ok c' -> good c pl F cs -> assignable pl x = true -> KI kind (base + fcount c) ->
  made c c' cs (cur c) [] kind (fun K _ U b => c_store K (c_globals (f_c c)) (senv_of c U F) x b).
Proof.
  intros E Gd Us KI0. unfold fstore_var in E. unfold senv_of. destruct (f_envs c) as [|e r] eqn:Hes.
  - apply on_cur_inv in E. destruct E as (d & E & ->). assert (Hc : cur c = c_scopes (f_c c)) by (unfold cur; rewrite Hes; reflexivity).
    destruct (store_var_gen fuel (view c) x d cs E (g_pool _ _ _ _ Gd) (g_gl _ _ _ _ Gd)) as (Wr & R). cbn [view c_scopes c_globals set_scopes] in Wr, R.
    assert (Q : forall K, extends cs K -> store_code K (cur c) x = store_code cs (cur c) x).
    { intros K HK. unfold store_code. destruct (scope_get (cur c) x) eqn:S; [reflexivity|]. unfold writable in Wr. rewrite S in Wr. destruct (assoc (c_globals (f_c c)) x) as [z|] eqn:A; [|discriminate].
      rewrite (index_of_ext cs K); [reflexivity| |exact HK]. apply (g_gl _ _ _ _ Gd x z A). }
    assert (J : gens c (unview c d) cs cs (cur c) (store_code cs (cur c) x)) by (apply gens_unview; [eapply ran_ext; [exact R|exact Q]|apply Gd]).
    apply (made_of_gens _ _ _ _ _ _ _ _ J KI0). intros K U k2 HK _. rewrite <- Hc. split; [exact Wr|]. symmetry. apply Q, HK.
  - destruct (scope_get (fe_scopes e) x) as [z|] eqn:S.
    + destruct (is_const z) eqn:Cz; [discriminate|]. injection E as <-. eapply made_imp; [apply made_emit; [apply Gd|apply Gd|exact KI0]|]. intros K k U b ->. unfold c_store. rewrite S. auto.
    + destruct (rel_fun _ _ _ _ _ _ _ Gd Hes S) as (D & hid & ro & -> & Dn & Ro & H). cbn [assignable] in Us. rewrite Dn in Us. cbn [orb] in Us. apply andb_prop in Us. destruct Us as (Us & Us2). apply negb_true_iff in Us, Us2. destruct (H Us) as (H1 & H2 & H3 & H4).
      rewrite (nearest_none _ _ H2), H4 in E. destruct (Ro x) as (_ & Ro1). specialize (Ro1 Us2). unfold c_store. rewrite S, Ro1.
      destruct (assoc (last (c_scopes (f_c c)) []) x) as [z|] eqn:A.
      * destruct (is_const z) eqn:Cz; [discriminate|]. destruct (upval_ok O_USTORE x c c' e r cs E Hes (g_st _ _ _ _ Gd) H3 H1 ltac:(rewrite <- Hes; apply Gd) (g_pool _ _ _ _ Gd)) as (i & J & N & _).
        apply (made_of_gens _ _ _ _ _ _ _ _ J KI0). intros K U k2 _ HU. split; [reflexivity|]. exists i. split; [eapply prefix_nth; eassumption|reflexivity].
      * destruct (assoc (c_globals (f_c c)) x) as [z|] eqn:G; [|discriminate]. destruct (is_const z) eqn:Cz; [discriminate|]. destruct (pool_index fuel (f_c c) x) as [i| | |] eqn:Q; try discriminate. cbn [bind] in E. injection E as <-.
        pose proof (pool_index_gen _ _ _ _ _ Q (g_pool _ _ _ _ Gd) (g_gl _ _ _ _ Gd _ _ G)) as HI.
        apply (made_of_gens _ _ _ _ _ (op O_GSTORE_8 ++ enc8 i) _ cs (good_emit _ _ _ _ _ Gd) KI0). intros K U k2 HK _.
        split; [eauto|]. destruct HK as (m & ->). rewrite <- HI. reflexivity.
Qed.
Lemma load_known K G E x b : c_load K G E x b -> c_known G E x.
Proof.
  unfold c_load, c_known. destruct E as [ss|U ss F]; cbn [sc].
  - intros (A & _). unfold known in A. destruct (scope_get ss x); [left; discriminate|]. destruct (assoc G x); [right; right; discriminate|discriminate].
  - destruct (scope_get ss x); [left; discriminate|]. destruct (assoc F x); [right; left; discriminate|]. intros (A & _). right. right. exact A.
Qed.

(** ** Declarations. *)
Lemma make_const_scopes d t r x : c_scopes d = decl (t :: r) x false -> make_const d x = set_scopes d (decl (t :: r) x true).
Proof.
  intros S. unfold make_const. rewrite S. cbn [decl scope_const assoc]. rewrite name_eqb_refl, assoc_put_cons. reflexivity.
Qed.
Lemma decl_step c x c' : on_cur (fun d => decl_var fuel d x) c = Ok c' -> cur c <> [] -> fresh (cur c) x = true -> c' = set_cur c (decl (cur c) x false).
Proof.
  intros E N Fr. apply on_cur_inv in E. destruct E as (d & E & ->). destruct (decl_var_gen fuel (view c) x d E N Fr) as (-> & _). apply unview_view_set.
Qed.
Lemma const_step c x t r : cur c = t :: r -> unview (set_cur c (decl (t :: r) x false)) (make_const (view (set_cur c (decl (t :: r) x false))) x) = set_cur c (decl (t :: r) x true).
Proof.
  intros C. rewrite (make_const_scopes _ t r x) by (rewrite view_scopes; apply cur_set_cur). rewrite unview_view_set. destruct c as (c & [|e q]); reflexivity.
Qed.
Lemma decl_k c x (k : bool) c' : on_cur (fun d => decl_var fuel d x) c = Ok c' -> cur c <> [] -> fresh (cur c) x = true ->
  (if k then unview c' (make_const (view c') x) else c') = set_cur c (decl (cur c) x k).
Proof.
  intros E N Fr. rewrite (decl_step _ _ _ E N Fr). destruct k; [|reflexivity]. destruct (cur c) as [|t r] eqn:C; [congruence|]. apply (const_step c x t r C).
Qed.
Lemma gens_set_cur c cs ss : pooled (c_pool (f_c c)) cs -> ups_ok (last (c_scopes (f_c c)) []) (f_envs c) -> gens c (set_cur c ss) cs cs ss [].
Proof.
  intros P U. rewrite <- unview_view_set. apply gens_unview; [|exact U]. apply ran_scope. exact P.
Qed.
Lemma decl_params_ok ps : forall c c' t, decl_params fuel ps c = Ok c' -> cur c = [t] -> distinct (pnames ps) = true -> (forall x, In x (pnames ps) -> assoc t x = None) ->
  c' = set_cur c (fold_left (fun ss p => decl ss (fst p) (snd p)) ps [t]).
Proof.
  induction ps as [|(x, k) ps IH]; intros c c' t E C Di Fr; cbn [decl_params] in E.
  - injection E as <-. cbn [fold_left]. rewrite <- C. destruct c as (c & [|e r]); [destruct c|destruct e]; reflexivity.
  - destruct (on_cur (fun d => decl_var fuel d x) c) as [c1| | |] eqn:E1; try discriminate. cbn [bind] in E. cbn [pnames map distinct] in Di. apply andb_prop in Di. destruct Di as (D1 & D2). apply negb_true_iff in D1.
    rewrite (decl_k c x k c1 E1) in E; [|rewrite C; discriminate|rewrite C; unfold fresh; rewrite (Fr x) by (left; reflexivity); reflexivity].
    rewrite C in E. cbn [decl] in E. apply (IH _ _ ((x, if k then Z.lnot (scope_len [t]) else scope_len [t]) :: t)) in E; [|apply cur_set_cur|exact D2|].
    + rewrite E. cbn [fold_left fst snd]. destruct c as (c & [|e r]); [destruct c|destruct e]; reflexivity.
    + intros y Hy. cbn [assoc]. destruct (name_eqb x y) eqn:Q; [|apply Fr; right; exact Hy]. apply name_eqb_spec in Q. subst y. apply mem_in in Hy. unfold pnames in Hy. cbn [fst] in D1. congruence.
Qed.
Lemma pscope_names ps : snames (pscope ps) = [rev (pnames ps)].
Proof.
  unfold pscope. assert (Q : forall t, snames (fold_left (fun ss p => decl ss (fst p) (snd p)) ps [t]) = [rev (pnames ps) ++ map fst t]).
  { induction ps as [|(x, k) ps IH]; intros t; [reflexivity|]. cbn [fold_left fst snd decl]. rewrite IH. cbn [map pnames fst rev]. rewrite <- app_assoc. reflexivity. }
  rewrite Q. cbn [map]. rewrite app_nil_r. reflexivity.
Qed.
Lemma pscope_ne ps : pscope ps <> [].
Proof. intros Hq. pose proof (pscope_names ps) as Q. rewrite Hq in Q. discriminate Q. Qed.

(** ** Blocks. *)
Lemma fenter_eq c : fenter_scope c = set_cur c ([] :: cur c).
Proof. reflexivity. Qed.
Lemma gens_exit c c1 cs cs1 t r bs : gens c c1 cs cs1 (t :: r) bs -> gens c (fexit_scope c1) cs cs1 r (bs ++ pops (t :: r)).
Proof.
  intros A. eapply gens_trans; [exact A|]. pose proof (gens_cur _ _ _ _ _ _ A) as C. unfold fexit_scope. apply gens_unview; [|apply A].
  unfold exit_scope. rewrite view_scopes, C. cbn [pops]. split; [apply A|]. split; [exists []; rewrite app_nil_r; reflexivity|]. do 3 (split; [reflexivity|]). intros K _. reflexivity.
Qed.
End G.
