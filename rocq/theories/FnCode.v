(** * The code of programs with functions, as a relation (used in proofs only: FnGen.v shows that the compiler's buffer
    manipulations produce such code). *)
From Verif Require Import Base Bytes Value Table Ops Ast Stmt Constants VM Compiler ValueProofs TableSpec Gen Fn FnSpec FnCompiler.

(** The variables known at a place: at file level the scopes (the last is the file's); in a function the names of the
    captured variables by index, the function's scopes, and the file's scope. *)
Inductive senv : Type := SFile (ss : list scope) | SFun (U : list name) (ss : list scope) (F : scope).
Definition sc (E : senv) : list scope := match E with SFile ss => ss | SFun _ ss _ => ss end.
Definition set_sc (E : senv) (ss : list scope) : senv := match E with SFile _ => SFile ss | SFun U _ F => SFun U ss F end.
Definition s_decl (E : senv) (x : name) (k : bool) : senv := set_sc E (decl (sc E) x k).
Definition s_in (E : senv) : senv := set_sc E ([] :: sc E).
Definition fscope (E : senv) : scope := match E with SFile ss => last ss [] | SFun _ _ F => F end.
Definition pscope (ps : list (name * bool)) : list scope := fold_left (fun ss p => decl ss (fst p) (snd p)) ps [[]].
Fixpoint fafter (ss : list scope) (s : fstmt) : list scope :=
  match s with
  | FSeq a b => fafter (fafter ss a) b
  | FLet k x _ | FFnDecl k x _ _ _ => decl ss x k
  | _ => ss
  end.
Definition s_after (E : senv) (s : fstmt) : senv := set_sc E (fafter (sc E) s).
(** the pops at the end of a block with the statement [b] *)
Definition bpops (E : senv) (b : fstmt) : list Z := pops (fafter ([] :: sc E) b).
Definition fquiet (e : fexpr) : bool :=
  match e with FStr _ | FInt _ | FFloat _ | FBool _ | FUndef | FVar _ => true | _ => false end.

Section Code.
Variable K : list value.
Variable kind : nat -> option Z.
Variable G : scope.
Definition c_lit (v : value) (bs : list Z) : Prop := In v K /\ bs = lit_code K v.
Definition c_load (E : senv) (x : name) (bs : list Z) : Prop :=
  match E with
  | SFile ss => known G ss x = true /\ bs = load_code K ss x
  | SFun U ss F =>
      match scope_get ss x with
      | Some z => bs = op O_LLOAD ++ [get_index z mod 256]
      | None => match assoc F x with
                | Some _ => exists i, nth_error U i = Some x /\ bs = op O_ULOAD ++ [Z.of_nat i mod 256]
                | None => assoc G x <> None /\ bs = op O_GLOAD_8 ++ enc8 (index_of K (VStr x))
                end
      end
  end.
Definition c_known (E : senv) (x : name) : Prop :=
  scope_get (sc E) x <> None \/ match E with SFile _ => False | SFun _ _ F => assoc F x <> None end \/ assoc G x <> None.
Definition c_store (E : senv) (x : name) (bs : list Z) : Prop :=
  match E with
  | SFile ss => writable G ss x = true /\ bs = store_code K ss x
  | SFun U ss F =>
      match scope_get ss x with
      | Some z => is_const z = false /\ bs = op O_LSTORE ++ [z mod 256]
      | None => match assoc F x with
                | Some z => is_const z = false /\ exists i, nth_error U i = Some x /\ bs = op O_USTORE ++ [Z.of_nat i mod 256]
                | None => (exists z, assoc G x = Some z /\ is_const z = false) /\ bs = op O_GSTORE_8 ++ enc8 (index_of K (VStr x))
                end
      end
  end.
Definition c_capture (E : senv) (x : name) (b : Z) : Prop :=
  match E with
  | SFile ss => exists z, assoc (last ss []) x = Some z /\ b = get_index z mod 256
  | SFun U _ _ => exists j, nth_error U j = Some x /\ b = Z.lnot (Z.of_nat j) mod 256
  end.
(** A function literal at [a]; the body's code is at [a + 10]. [after]: the function's scopes at its end. *)
Definition c_fn (E : senv) (F : scope) (label : nat) (ps : list (name * bool)) (b : fstmt)
    (body : senv -> Z -> list Z -> Prop) (a : Z) (bs : list Z) : Prop :=
  exists U bb cb,
    let ss := fafter (pscope ps) b in
    let inner := [Z.of_nat (length ps) mod 256] ++ bb ++ op O_NCONST ++ op O_RET ++ [scope_len ss mod 256] ++ pops ss in
    NoDup U /\ (forall x, In x U -> assoc F x <> None) /\ body (SFun U (pscope ps) F) (a + 10) bb /\ Forall2 (c_capture E) U cb /\
    match U with
    | [] => kind label = Some (a + 9) /\ bs = op O_FCONST ++ enc8 (len inner) ++ inner
    | _ => kind label = None /\ bs = op O_CCONST ++ enc8 (len inner) ++ inner ++ [Z.of_nat (length U) mod 256] ++ cb
    end.

Fixpoint code_e (E : senv) (a : Z) (e : fexpr) (bs : list Z) {struct e} : Prop :=
  match e with
  | FUndef => bs = op O_NCONST
  | FBool b => bs = op (if b then O_BCONST_T else O_BCONST_F)
  | FInt i => c_lit (VInt i) bs
  | FFloat f => c_lit (VFloat f) bs
  | FStr s => c_lit (VStr s) bs
  | FVar x => c_load E x bs
  | FUn o e1 => exists b1, code_e E a e1 b1 /\ bs = b1 ++ op (O_UN o)
  | FBin o l r => exists bl br, code_e E a l bl /\ code_e E (a + len bl) r br /\ bs = bl ++ br ++ bop_code o
  | FSc o l r => exists bl br, code_e E a l bl /\ code_e E (a + len bl + 11) r br /\
      bs = bl ++ op O_DUP ++ op (sc_jump o) ++ enc8 (1 + len br) ++ op O_POP ++ br
  | FTri c m r => exists bc bm br, code_e E a c bc /\ code_e E (a + len bc + 9) m bm /\ code_e E (a + len bc + len bm + 18) r br /\
      bs = bc ++ op O_BRF_8 ++ enc8 (len bm + 9) ++ bm ++ op O_BR_8 ++ enc8 (len br) ++ br
  | FCall f args => exists n bf ba, (n = 1 \/ n = -1) /\ code_e E a f bf /\ code_args E (a + len bf + 2) args ba /\
      bs = bf ++ op O_INIT_CALL ++ [n mod 256] ++ ba ++ op O_CALL
  | FCtx _ e1 => code_e E a e1 bs
  | FFn l ps b => c_fn E (fscope E) l ps b (fun E' a' bs' => code_s E' a' b bs') a bs
  end
with code_args (E : senv) (a : Z) (es : fargs) (bs : list Z) {struct es} : Prop :=
  match es with
  | ANil => bs = []
  | ACons e r => exists be br, code_e E a e be /\ code_args E (a + len be) r br /\ bs = be ++ br
  end
with code_s (E : senv) (a : Z) (s : fstmt) (bs : list Z) {struct s} : Prop :=
  match s with
  | FSkip => bs = []
  | FSeq s1 s2 => exists b1 b2, code_s E a s1 b1 /\ code_s (s_after E s1) (a + len b1) s2 b2 /\ bs = b1 ++ b2
  | FExpr e => if fquiet e then bs = [] /\ match e with FVar x => c_known E x | _ => True end else exists b1, code_e E a e b1 /\ bs = b1 ++ op O_POP
  | FLet k x e => fresh (sc E) x = true /\ code_e E a e bs
  | FFnDecl k x l ps b => fresh (sc E) x = true /\ c_fn (s_decl E x k) (fscope (s_decl E x k)) l ps b (fun E' a' bs' => code_s E' a' b bs') a bs
  | FAssign x e => exists b1 b2, code_e E a e b1 /\ c_store E x b2 /\ bs = b1 ++ b2
  | FBlock b => exists b1, code_s (s_in E) a b b1 /\ bs = b1 ++ bpops E b
  | FIf c b =>
      if f_truthy c then exists b1, code_s (s_in E) a b b1 /\ bs = b1 ++ bpops E b
      else if f_falsey c then bs = []
      else exists bc b1, code_e E a c bc /\ code_s (s_in E) (a + len bc + 9) b b1 /\
          bs = bc ++ op O_BRF_8 ++ enc8 (len (b1 ++ bpops E b)) ++ b1 ++ bpops E b
  | FIfElse c b1 b2 =>
      if f_truthy c then exists q, code_s (s_in E) a b1 q /\ bs = q ++ bpops E b1
      else if f_falsey c then exists q, code_s (s_in E) a b2 q /\ bs = q ++ bpops E b2
      else exists bc q1 q2, code_e E a c bc /\ code_s (s_in E) (a + len bc + 9) b1 q1 /\
          code_s (s_in E) (a + len bc + 9 + len (q1 ++ bpops E b1) + 9) b2 q2 /\
          bs = bc ++ op O_BRF_8 ++ enc8 (len (q1 ++ bpops E b1) + 9) ++ (q1 ++ bpops E b1) ++ op O_BR_8 ++ enc8 (len (q2 ++ bpops E b2)) ++ q2 ++ bpops E b2
  | FWhile c b =>
      if f_falsey c then bs = []
      else exists bc q, code_e E a c bc /\ code_s (s_in E) (a + len bc + 9) b q /\
          bs = bc ++ op O_BRF_8 ++ enc8 (len (q ++ bpops E b) + 9) ++ (q ++ bpops E b) ++ op O_BR_8 ++ enc8 (- (len bc + 9 + len (q ++ bpops E b) + 9))
  | FReturn e => exists b1, code_e E a e b1 /\ match E with SFile _ => False | _ => True end /\ bs = b1 ++ op O_RET ++ [scope_len (sc E) mod 256]
  | FReturns _ => False
  | FEcho e => exists b1, code_e E a e b1 /\ bs = b1 ++ op O_ECHO ++ [scope_len (sc E) mod 256]
  | FAssert e => exists b1, code_e E a e b1 /\ bs = b1 ++ op O_ASS
  end.
End Code.
