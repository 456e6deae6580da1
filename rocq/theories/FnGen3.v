From Verif Require Import Base Bytes BytesProofs Value Table Ops Ast Stmt Limits Constants VM Compiler ValueProofs TableSpec TableProofs TableProofs2 TableProofs3 ConstSpec ConstProofs Gen GenProofs GenProofs2 SimBase Program ProgProofs Fn FnSpec FnCompiler FnCode FnGen FnGen2.

Lemma put_mid {A} (a : list A) x y b : put (a ++ x :: b) (length a) y = a ++ y :: b.
Proof. rewrite <- (Nat.add_0_r (length a)), put_app_r. reflexivity. Qed.
Definition fn_env (c : fcst) (ps : list (name * bool)) : fcst := FC (f_c c) (FE (pscope ps) [] false false :: f_envs c).
Definition fn_head (c : fcst) (ps : list (name * bool)) : fcst := femit (femit (fn_env c ps) (op O_FCONST)) (enc8 0).
Definition fn_enter (c : fcst) (ps : list (name * bool)) : fcst := femit (fn_head c ps) [Z.of_nat (length ps) mod 256].
Lemma fn_start_ok fuel ps c c1 old : fn_start fuel ps c = Ok (c1, old) -> distinct (pnames ps) = true -> c1 = fn_enter c ps /\ old = fcount (fn_head c ps).
Proof.
  unfold fn_start. intros E D. destruct (decl_params fuel ps _) as [c0| | |] eqn:E0; try discriminate. cbn [bind] in E. injection E as <- <-.
  apply (decl_params_ok fuel ps _ _ []) in E0; [|reflexivity|exact D|reflexivity]. subst c0. split; reflexivity.
Qed.
Lemma last_eq {A} (a b : list A) d : a = b -> last a d = last b d.
Proof. intros ->. reflexivity. Qed.

(** What the body leaves, and the end of the literal. *)
Lemma fn_end_ok c ps c2 c3 cs cs2 b bb e2 r2 t q :
  gens (fn_enter c ps) c2 cs cs2 (t :: q) bb -> t :: q = fafter (pscope ps) b -> f_envs c2 = e2 :: r2 -> fn_end c2 (fcount (fn_head c ps)) = Ok c3 ->
  let inner := [Z.of_nat (length ps) mod 256] ++ bb ++ op O_NCONST ++ op O_RET ++ [scope_len (t :: q) mod 256] ++ pops (t :: q) in
  let bs := match fe_ups e2 with
            | [] => op O_FCONST ++ enc8 (len inner) ++ inner
            | _ => op O_CCONST ++ enc8 (len inner) ++ inner ++ [Z.of_nat (length (fe_ups e2)) mod 256] ++ map (fun u => snd u mod 256) (fe_ups e2) end in
  gens c c3 cs cs2 (cur c) bs /\ f_envs c3 = r2 /\ Forall2 env_same (f_envs c) r2.
Proof.
  intros A Hs Hes E inner bs. pose proof A as (R & S & U). pose proof (gens_cur _ _ _ _ _ _ A) as C. unfold cur in C. rewrite Hes in C.
  unfold estep in S. cbn [fn_enter fn_head fn_env femit on_c f_envs f_c] in S. rewrite Hes in S. destruct S as (S1 & _ & S3). cbn [emit set_buf c_scopes] in S1.
  rewrite Hes in U. pose proof U as (_ & Us & Cl & _ & U2).
  unfold fn_end in E. rewrite Hes in E. destruct e2 as [s2 u2 cl us]. cbn [fe_scopes fe_used fe_clo fe_ups] in *. subst s2 us cl.
  destruct c2 as [d2 es2]. cbn [f_envs f_c] in *. subst es2. unfold fexit_scope, view, cur, unview, exit_scope, femit, on_c in E.
  cbn [f_c f_envs fe_scopes set_scopes emit set_buf c_scopes set_cur c_buf c_pool c_globals c_cps] in E.
  assert (B2 : c_buf d2 = (c_buf (f_c c) ++ op O_FCONST) ++ enc8 0 ++ [Z.of_nat (length ps) mod 256] ++ bb).
  { destruct R as (_ & _ & _ & _ & _ & R6). specialize (R6 cs2 (ex_intro _ [] (eq_sym (app_nil_r _)))). cbn [view set_scopes c_buf f_c] in R6. rewrite R6. cbn [fn_enter fn_head fn_env femit on_c f_c emit set_buf c_buf view set_scopes]. rewrite <- !app_assoc. reflexivity. }
  set (bufY := (c_buf d2 ++ op O_NCONST ++ op O_RET ++ [scope_len (t :: q) mod 256]) ++ repeat (op_byte O_POP) (length t)) in *.
  assert (BY : bufY = (c_buf (f_c c) ++ op O_FCONST) ++ enc8 0 ++ inner).
  { unfold bufY, inner. rewrite B2. cbn [pops]. rewrite <- !app_assoc. reflexivity. }
  assert (Old : fcount (fn_head c ps) = len (c_buf (f_c c)) + 9).
  { unfold fcount, fn_head, fn_env, count, len. cbn [femit on_c f_c emit set_buf c_buf]. rewrite !app_length, enc8_length. cbn [op length]. lia. }
  assert (Pt : rewrite8 bufY (Z.to_nat (fcount (fn_head c ps) - 8)) (Z.of_nat (length bufY) - fcount (fn_head c ps)) = (c_buf (f_c c) ++ op O_FCONST) ++ enc8 (len inner) ++ inner).
  { assert (L1 : Z.of_nat (length bufY) - fcount (fn_head c ps) = len inner) by (rewrite Old, BY; unfold len; rewrite !app_length, enc8_length; cbn [op length]; lia).
    assert (L2 : Z.to_nat (fcount (fn_head c ps) - 8) = length (c_buf (f_c c) ++ op O_FCONST)) by (rewrite Old; unfold len; rewrite app_length; cbn [op length]; lia).
    rewrite L1, L2, BY. apply rewrite8_mid, enc8_length. }
  assert (P9 : forall l, put ((c_buf (f_c c) ++ op O_FCONST) ++ l) (Z.to_nat (fcount (fn_head c ps) - 9)) (op_byte O_CCONST) = (c_buf (f_c c) ++ op O_CCONST) ++ l).
  { intros l. rewrite <- app_assoc. cbn [op app]. replace (Z.to_nat (fcount (fn_head c ps) - 9)) with (length (c_buf (f_c c))) by (rewrite Old; unfold len; lia). rewrite put_mid, <- app_assoc. reflexivity. }
  destruct R as (R1 & R2 & R3 & R4 & R5 & _). cbn [view set_scopes c_pool c_globals c_cps f_c fn_enter fn_head fn_env femit on_c emit set_buf] in R1, R4, R5.
  assert (G3 : forall d3, c_pool d3 = c_pool d2 -> c_globals d3 = c_globals d2 -> c_cps d3 = c_cps d2 -> c_scopes d3 = c_scopes d2 -> c_buf d3 = c_buf (f_c c) ++ bs ->
    gens c (FC d3 r2) cs cs2 (cur c) bs /\ f_envs (FC d3 r2) = r2 /\ Forall2 env_same (f_envs c) r2).
  { intros d3 X1 X2 X3 X4 X5. split; [|split; [reflexivity|exact S3]].
    assert (Cu : cur (FC d3 r2) = cur c). { unfold cur. cbn [f_envs f_c]. inversion S3 as [|e e' rr rr' (V & _) _ X]; [congruence|exact V]. }
    split; [|split].
    - split; [cbn; rewrite X1; exact R1|]. split; [exact R2|]. split; [exact Cu|]. split; [cbn; congruence|]. split; [cbn; congruence|]. intros K _. cbn [view set_scopes c_buf f_c]. rewrite X5. reflexivity.
    - unfold estep. cbn [f_envs f_c]. inversion S3 as [|e e' rr rr' (V & W) S4 X]; [exact I|]. split; [congruence|]. auto.
    - cbn [f_c f_envs]. rewrite X4. exact U2. }
  destruct u2 as [|u0 u2]; cbn iota beta in E; injection E as <-.
  - apply G3; try reflexivity. cbn [patch set_buf c_buf]. match goal with |- context [fcount (FC ?a ?b)] => change (fcount (FC a b)) with (Z.of_nat (length (c_buf a))) end. cbn [f_c]. match goal with |- context [c_buf (set_scopes (emit ?x ?y) ?z)] => change (c_buf (set_scopes (emit x y) z)) with bufY end. rewrite Pt. unfold bs. rewrite <- !app_assoc. reflexivity.
  - apply G3; try reflexivity. cbn [patch set_buf c_buf emit]. match goal with |- context [fcount (FC ?a ?b)] => change (fcount (FC a b)) with (Z.of_nat (length (c_buf a))) end. cbn [f_c]. match goal with |- context [c_buf (set_scopes (emit ?x ?y) ?z)] => change (c_buf (set_scopes (emit x y) z)) with bufY end. match goal with |- context [rewrite8 ?b _ _] => change b with bufY end. rewrite Pt.
    etransitivity; [apply f_equal2; [apply P9|reflexivity]|]. unfold bs. rewrite <- !app_assoc. reflexivity.
Qed.

(** ** A function literal. *)
Lemma forall2_map {A B C} (P : B -> C -> Prop) (f : A -> B) (g : A -> C) l : (forall u, In u l -> P (f u) (g u)) -> Forall2 P (map f l) (map g l).
Proof. induction l as [|u l IH]; intros Hl; cbn [map]; constructor; [apply Hl; left; reflexivity|apply IH; intros v Hv; apply Hl; right; exact Hv]. Qed.
Definition kset (l : nat) (o : option Z) (kind : nat -> option Z) : nat -> option Z := fun m => if Nat.eq_dec m l then o else kind m.
Lemma kset_same l o kind : kset l o kind l = o.
Proof. unfold kset. destruct (Nat.eq_dec l l); congruence. Qed.
Lemma kset_other l o kind m : m <> l -> kset l o kind m = kind m.
Proof. unfold kset. destruct (Nat.eq_dec m l); congruence. Qed.
Lemma KI_none l kind lo : KI kind lo -> KI (kset l None kind) lo.
Proof.
  intros (A & B). split.
  - intros m a. unfold kset. destruct (Nat.eq_dec m l); [discriminate|]. apply A.
  - intros m m' a. unfold kset. destruct (Nat.eq_dec m l); [discriminate|]. destruct (Nat.eq_dec m' l); [discriminate|]. apply B.
Qed.
Lemma KI_some l kind lo a : KI kind lo -> lo <= a -> KI (kset l (Some a) kind) (a + 1).
Proof.
  intros (A & B) L. split.
  - intros m x. unfold kset. destruct (Nat.eq_dec m l); [intros [= <-]; lia|]. intros Hm. apply A in Hm. lia.
  - intros m m' x. unfold kset. destruct (Nat.eq_dec m l); destruct (Nat.eq_dec m' l); try congruence; [intros [= <-] Hm; apply A in Hm; lia|intros Hm [= <-]; apply A in Hm; lia|apply B].
Qed.
Lemma good_enter c ps plb F cs : pooled (c_pool (f_c c)) cs -> gl_in (c_globals (f_c c)) cs -> c_scopes (f_c c) <> [] -> ups_ok (last (c_scopes (f_c c)) []) (f_envs c) ->
  rel plb (fn_env c ps) F -> good (fn_enter c ps) plb F cs.
Proof.
  intros P G N U R. unfold fn_enter, fn_head. do 3 apply good_femit. constructor; try assumption.
  - apply pscope_ne.
  - cbn [fn_env f_c f_envs ups_ok fe_ups fe_used fe_clo unames map]. split; [constructor|]. split; [reflexivity|]. split; [reflexivity|]. split; [intros u []|exact U].
Qed.
Lemma fcount_head c ps : fcount (fn_head c ps) = fcount c + 9.
Proof. unfold fn_head. rewrite !fcount_femit. change (fcount (fn_env c ps)) with (fcount c). unfold len. rewrite enc8_length. cbn [op length]. lia. Qed.
Lemma fn_made base c ps er b c2 c3 cs l kind hid ro F fuel (EC : list name -> senv) G :
  (forall kind, KI kind (base + fcount (fn_enter c ps)) ->
     made base (fn_enter c ps) c2 cs (fafter (pscope ps) b) (labels_s b) kind (fun K k U bs => code_s K k G (SFun U (pscope ps) F) (base + fcount (fn_enter c ps)) b bs)) ->
  fvisit_s fuel b er (fn_enter c ps) = Ok c2 -> fn_end c2 (fcount (fn_head c ps)) = Ok c3 ->
  rel (InFun [rev (pnames ps)] hid ro) (fn_env c ps) F -> NoDup (l :: labels_s b) -> KI kind (base + fcount c) ->
  (match f_envs c with
   | [] => forall U x z, assoc (last (c_scopes (f_c c)) []) x = Some z -> c_capture (EC U) x (get_index z mod 256)
   | _ => forall U, exists ss' F', EC U = SFun U ss' F' end) ->
  made base c c3 cs (cur c) (l :: labels_s b) kind
    (fun K k U bs => c_fn k (EC U) F l ps b (fun E' a' bs' => code_s K k G E' a' b bs') (base + fcount c) bs).
Proof.
  intros IH _ En Rl Nd KI0 HEC.
  assert (Ce : fcount (fn_enter c ps) = fcount c + 10) by (unfold fn_enter; rewrite fcount_femit, fcount_head; unfold len; cbn [length]; lia).
  inversion Nd as [|? ? Nl Nd']; subst.
  destruct (fafter (pscope ps) b) as [|t q] eqn:Hs; [exfalso; apply (fafter_nonempty b _ (pscope_ne ps) Hs)|].
  assert (He : exists e2 r2, f_envs c2 = e2 :: r2).
  { destruct (IH kind) as (cs2 & bb & k' & A & _); [eapply KI_mono; [exact KI0|lia]|]. destruct A as (_ & S & _). unfold estep in S. cbn [fn_enter fn_head fn_env femit on_c f_envs] in S. destruct (f_envs c2) as [|e2 r2]; [destruct S|eauto]. }
  destruct He as (e2 & r2 & He).
  set (kind1 := kset l (match fe_ups e2 with [] => Some (base + fcount c + 9) | _ => None end) kind).
  assert (K1 : KI kind1 (base + fcount (fn_enter c ps))).
  { rewrite Ce. unfold kind1. destruct (fe_ups e2); [|apply KI_none; eapply KI_mono; [exact KI0|lia]]. replace (base + (fcount c + 10)) with (base + fcount c + 9 + 1) by lia. eapply KI_some; [exact KI0|lia]. }
  destruct (IH kind1 K1) as (cs2 & bb & k' & A & B & Cf & D).
  destruct (fn_end_ok c ps c2 c3 cs cs2 b bb e2 r2 t q A (eq_sym Hs) He En) as (J & E3 & Sm).
  match type of J with gens _ _ _ _ _ ?x => set (bs := x) in * end.
  exists cs2, bs, k'. split; [exact J|]. split; [|split].
  - eapply KI_mono; [exact B|]. apply gens_count in A, J. rewrite Ce in A. rewrite A, J. unfold bs, len. destruct (fe_ups e2); rewrite !app_length, enc8_length; cbn [op length]; rewrite ?app_length; lia.
  - intros m Hm. rewrite Cf by (intros X; apply Hm; right; exact X). apply kset_other. intros ->. apply Hm. left. reflexivity.
  - intros K U k2 HK HU HA. exists (unames e2), bb, (map (fun u => snd u mod 256) (fe_ups e2)). cbn zeta. rewrite Hs.
    pose proof A as (_ & SA & UA). rewrite He in UA. destruct UA as (UN & _ & _ & UA & UR). unfold estep in SA. rewrite He in SA. cbn [fn_enter fn_head fn_env femit on_c f_envs f_c emit set_buf c_scopes] in SA. destruct SA as (SA & _ & _).
    cbn [rel fn_env f_envs f_c] in Rl. destruct Rl as (_ & Ro & _). rewrite SA in UA.
    split; [exact UN|]. split; [|split; [|split]].
    + intros x Hx. unfold unames in Hx. apply in_map_iff in Hx. destruct Hx as (u & <- & Hu). destruct (UA u Hu) as (X & _). destruct (Ro (fst u)) as (Y & _). destruct (assoc F (fst u)); [discriminate|]. destruct (assoc (last (c_scopes (f_c c)) []) (fst u)); [discriminate Y|congruence].
    + replace (base + fcount c + 10) with (base + fcount (fn_enter c ps)) by lia. apply D; [exact HK|unfold upn; rewrite He; apply prefix_refl|intros m Hm; apply HA; right; exact Hm].
    + unfold unames. apply forall2_map. intros u Hu. destruct (UA u Hu) as (_ & Y). unfold upn in HU. rewrite E3 in HU. destruct (f_envs c) as [|e r].
      * assert (X : r2 = []) by (inversion Sm; reflexivity). rewrite X in Y. destruct Y as (z & Y1 & Y2). rewrite Y2. apply HEC, Y1.
      * assert (X : exists p' q', r2 = p' :: q') by (inversion Sm; eauto). destruct X as (p' & q' & X). rewrite X in Y, HU. destruct Y as (j & Y1 & Y2). rewrite Y2. destruct (HEC U) as (ss' & F' & ->). exists j. split; [eapply prefix_nth; eassumption|reflexivity].
    + assert (Kl : k2 l = kind1 l) by (rewrite HA by (left; reflexivity); apply Cf, Nl). rewrite Kl. unfold kind1. rewrite kset_same. unfold bs, unames. destruct (fe_ups e2) as [|u us] eqn:Ue; [split; reflexivity|].
      cbn [map]. rewrite <- Ue. split; [reflexivity|]. change (fst u :: map fst us) with (map fst (u :: us)). rewrite Ue, map_length. reflexivity.
Qed.
