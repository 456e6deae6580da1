(** * The code a statement compiles to, as a function (used in proofs only: GenProofs.v shows that the compiler's buffer
    manipulations produce exactly this). *)
From Verif Require Import Base Bytes Value Table Ops Ast Stmt Limits Constants VM Compiler ValueProofs TableSpec.

Fixpoint index_of (K : list value) (v : value) : Z :=
  match K with [] => 0 | u :: r => if value_eq_dec u v then 0 else 1 + index_of r v end.
Definition lit_code (K : list value) (v : value) : list Z :=
  let i := index_of K v in if i <? 128 then op O_LIT ++ [i mod 256] else op O_LIT8 ++ enc8 i.
Definition load_code (K : list value) (ss : list scope) (x : name) : list Z :=
  match scope_get ss x with
  | Some v => op O_LLOAD ++ [get_index v mod 256] | None => op O_GLOAD_8 ++ enc8 (index_of K (VStr x)) end.
Definition store_code (K : list value) (ss : list scope) (x : name) : list Z :=
  match scope_get ss x with
  | Some v => op O_LSTORE ++ [v mod 256] | None => op O_GSTORE_8 ++ enc8 (index_of K (VStr x)) end.
Definition len (bs : list Z) : Z := Z.of_nat (length bs).

Fixpoint gen_e (K : list value) (ss : list scope) (e : expr) : list Z :=
  match e with
  | EUndef => op O_NCONST
  | EBool b => op (if b then O_BCONST_T else O_BCONST_F)
  | EInt i => lit_code K (VInt i)
  | EFloat f => lit_code K (VFloat f)
  | EStr s => lit_code K (VStr s)
  | EVar x => load_code K ss x
  | EUn o e1 => gen_e K ss e1 ++ op (O_UN o)
  | EBin o l r => gen_e K ss l ++ gen_e K ss r ++ bop_code o
  | ESc o l r => let br := gen_e K ss r in gen_e K ss l ++ op O_DUP ++ op (sc_jump o) ++ enc8 (1 + len br) ++ op O_POP ++ br
  | ETri c a b => let ba := gen_e K ss a in let bb := gen_e K ss b in
      gen_e K ss c ++ op O_BRF_8 ++ enc8 (len ba + 9) ++ ba ++ op O_BR_8 ++ enc8 (len bb) ++ bb
  end.
Definition gen_es K ss es : list Z := concat (map (gen_e K ss) es).

(** The scopes after a declaration in the current scope. *)
Definition decl (ss : list scope) (x : name) (k : bool) : list scope :=
  match ss with [] => [] | s :: r => ((x, if k then Z.lnot (scope_len ss) else scope_len ss) :: s) :: r end.
Definition after_lval (ss : list scope) (l : lval) : list scope :=
  match l with LLet x => decl ss x false | LConst x => decl ss x true | LAssign _ => ss end.
Fixpoint after (ss : list scope) (s : stmt) : list scope :=
  match s with
  | SSeq a b => after (after ss a) b
  | SLet x _ => decl ss x false
  | SConst x _ => decl ss x true
  | SDecl ls _ => fold_left after_lval ls ss
  | _ => ss
  end.
Fixpoint gen_lvals (K : list value) (ss : list scope) (ls : list lval) : list Z :=
  match ls with
  | [] => []
  | LAssign x :: r => op O_MOVEUP_FP ++ [scope_len ss mod 256] ++ store_code K ss x ++ gen_lvals K ss r
  | l :: r => gen_lvals K (after_lval ss l) r
  end.

Definition pops (ss : list scope) : list Z := match ss with [] => [] | s :: _ => repeat (op_byte O_POP) (length s) end.
(** a backward branch at buffer position [pos] to [target] *)
Definition back (pos target : Z) : list Z := op O_BR_8 ++ enc8 (target - (pos + 1) - 8).

Definition quiet (e : expr) : bool :=
  match e with EStr _ | EInt _ | EFloat _ | EBool _ | EUndef | EVar _ => true | _ => false end.
Definition brk (cps : list Z) : Z := match cps with c :: _ => c | [] => 0 end.
Definition cont (cps : list Z) : Z := match cps with _ :: c :: _ => c | _ => 0 end.

(** [gen_s K ss pos cps s]: the code of [s] placed at buffer position [pos]. *)
Fixpoint gen_s (K : list value) (ss : list scope) (pos : Z) (cps : list Z) (s : stmt) : list Z :=
  match s with
  | SSkip => []
  | SSeq a b => let ba := gen_s K ss pos cps a in ba ++ gen_s K (after ss a) (pos + len ba) cps b
  | SExpr e => if quiet e then [] else gen_e K ss e ++ op O_POP
  | SLet _ e | SConst _ e => gen_e K ss e
  | SDecl ls rs => gen_es K ss rs ++ gen_lvals K ss ls
  | SAssign x e => gen_e K ss e ++ store_code K ss x
  | SBlock b => gen_s K ([] :: ss) pos cps b ++ pops (after ([] :: ss) b)
  | SIf c a =>
      if e_truthy c then gen_s K ss pos cps a else if e_falsey c then [] else
      let bc := gen_e K ss c in
      let ba := gen_s K ss (pos + len bc + 9) cps a in
      bc ++ op O_BRF_8 ++ enc8 (len ba) ++ ba
  | SIfElse c a b =>
      if e_truthy c then gen_s K ss pos cps a else if e_falsey c then gen_s K ss pos cps b else
      let bc := gen_e K ss c in
      let ba := gen_s K ss (pos + len bc + 9) cps a in
      let bb := gen_s K ss (pos + len bc + 9 + len ba + 9) cps b in
      bc ++ op O_BRF_8 ++ enc8 (len ba + 9) ++ ba ++ op O_BR_8 ++ enc8 (len bb) ++ bb
  | SWhile c b =>
      if e_falsey c then [] else
      let bc := gen_e K ss c in
      let ck := pos + len bc in
      let bb := gen_s K ss (ck + 9) (ck :: pos :: cps) b in
      bc ++ op O_BRF_8 ++ enc8 (len bb + 9) ++ bb ++ back (ck + 9 + len bb) pos
  | SWhilePost c b post =>
      if e_falsey c then [] else
      let bp := gen_s K ss (pos + 9) cps post in
      let bc := gen_e K ss c in
      let ck := pos + 9 + len bp + len bc in
      let bb := gen_s K ss (ck + 9) (ck :: (pos + 9) :: cps) b in
      op O_BR_8 ++ enc8 (len bp) ++ bp ++ bc ++ op O_BRF_8 ++ enc8 (len bb + 9) ++ bb ++ back (ck + 9 + len bb) (pos + 9)
  | SForIn x e b =>
      let be := gen_e K ([] :: ss) e in
      let ss' := decl ([] :: ss) x false in
      let st := pos + len be + 2 in
      let ck := st + 1 in
      let bx := store_code K ss' x in
      let bb := gen_s K ss' (ck + 9 + len bx) (ck :: st :: cps) b in
      be ++ op O_INITFOR ++ op O_END ++ op O_ITER_1 ++ op O_BRF_8 ++ enc8 (len bx + len bb + 9) ++ bx ++ bb
         ++ back (ck + 9 + len bx + len bb) st ++ op O_ENDFOR ++ op O_POP
  | SBreak => op O_BCONST_F ++ back (pos + 1) (brk cps)
  | SContinue => back pos (cont cps)
  | SEcho e => gen_e K ss e ++ op O_ECHO ++ [scope_len ss mod 256]
  | SAssert e => gen_e K ss e ++ op O_ASS
  | SPop s => gen_s K ss pos cps s ++ op O_POP
  end.

(** ** Legal programs: every name used is declared (locals, or globals [G]), no assignment to a constant, no redeclaration in
    the same scope, break and continue inside loops; at most 255 variables at a time. *)
Section Legal.
Variable G : scope.
Definition known (ss : list scope) (x : name) : bool :=
  match scope_get ss x with Some _ => true | None => match assoc G x with Some _ => true | None => false end end.
Definition writable (ss : list scope) (x : name) : bool :=
  match scope_get ss x with Some v => negb (is_const v) | None => match assoc G x with Some v => negb (is_const v) | None => false end end.
Definition fresh (ss : list scope) (x : name) : bool :=
  match ss with s :: _ => match assoc s x with Some _ => false | None => true end | [] => false end.
Definition room (ss : list scope) : bool := scope_len ss <? 255.
Fixpoint ok_e (ss : list scope) (e : expr) : bool :=
  match e with
  | EVar x => known ss x
  | EUn _ e1 => ok_e ss e1
  | EBin _ l r | ESc _ l r => ok_e ss l && ok_e ss r
  | ETri c a b => ok_e ss c && ok_e ss a && ok_e ss b
  | _ => true
  end.
Fixpoint ok_lvals (ss : list scope) (ls : list lval) : bool :=
  match ls with
  | [] => true
  | LAssign x :: r => writable ss x && ok_lvals ss r
  | LLet x :: r => fresh ss x && room ss && ok_lvals (decl ss x false) r
  | LConst x :: r => fresh ss x && room ss && ok_lvals (decl ss x true) r
  end.
(** [lp]: inside a loop. *)
Fixpoint ok_s (ss : list scope) (lp : bool) (s : stmt) : bool :=
  match s with
  | SSkip => true
  | SSeq a b => ok_s ss lp a && ok_s (after ss a) lp b
  | SExpr e => ok_e ss e
  | SLet x e | SConst x e => fresh ss x && ok_e ss e && room ss
  | SDecl ls rs => forallb (ok_e ss) rs && ok_lvals ss ls
  | SAssign x e => ok_e ss e && writable ss x
  | SBlock b => ok_s ([] :: ss) lp b
  | SIf c a => ok_e ss c && ok_s ss lp a
  | SIfElse c a b => ok_e ss c && ok_s ss lp a && ok_s ss lp b
  | SWhile c b => ok_e ss c && ok_s ss (if e_falsey c then lp else true) b
  | SWhilePost c b post => ok_e ss c && ok_s ss (if e_falsey c then lp else true) b && ok_s ss lp post
  | SForIn x e b => ok_e ([] :: ss) e && room ss && ok_s (decl ([] :: ss) x false) true b
  | SBreak | SContinue => lp
  | SEcho e | SAssert e => ok_e ss e
  | SPop s => ok_s ss lp s
  end.
End Legal.

(** Literals in the order in which they are compiled; those of conditions decided at compile time and of expression
    statements without effect are not compiled. *)
Fixpoint lits_s (s : stmt) : list value :=
  match s with
  | SSeq a b => lits_s a ++ lits_s b
  | SExpr e => if quiet e then [] else lits_e e
  | SLet _ e | SConst _ e | SAssign _ e | SEcho e | SAssert e => lits_e e
  | SDecl _ rs => concat (map lits_e rs)
  | SBlock b | SPop b => lits_s b
  | SIf c a => if e_truthy c || e_falsey c then lits_s a else lits_e c ++ lits_s a
  | SIfElse c a b => if e_truthy c || e_falsey c then lits_s a ++ lits_s b else lits_e c ++ lits_s a ++ lits_s b
  | SWhile c b => if e_falsey c then lits_s b else lits_e c ++ lits_s b
  | SWhilePost c b post => if e_falsey c then lits_s b ++ lits_s post else lits_s post ++ lits_e c ++ lits_s b
  | SForIn _ e b => lits_e e ++ lits_s b
  | _ => []
  end.
