(** * How strings with interpolated expressions are written, and what they mean (specification). *)
From Verif Require Import Base Value Ops Ast Lexer LexSpec LexInput Tree TreeSpec.
Local Open Scope list_scope.

(** One interpolation: the expression as written, what it is, the blanks before the closing brace, and the characters after that. *)
Record part : Type := Part { p_written : list (list Z * lexeme); p_meant : xe; p_gap : list Z; p_after : list piece }.
Definition pieces (ps : list piece) : list Z := concat (map piece_text ps).
(** The text from the first # to the closing quote, and what follows. *)
Fixpoint parts_text (parts : list part) (rest : list Z) : list Z :=
  match parts with
  | [] => 34 :: rest
  | p :: r => 35 :: 123 :: text_of (p_written p) (p_gap p ++ 125 :: pieces (p_after p) ++ parts_text r rest)
  end.
Definition string_text (p0 : list piece) (parts : list part) (rest : list Z) : list Z := 34 :: pieces p0 ++ parts_text parts rest.
(** The text between the braces is a way to write the expression, and the brace does not belong to it (to a comment, say). *)
Definition part_ok (float_value : list Z -> float) (p : part) : Prop :=
  x_at float_value 0 (p_meant p) (map snd (p_written p)) /\
  well_written T_LBRC (p_written p ++ [(p_gap p, LFixed T_RBRC)]) [] /\
  Forall dpiece_ok (p_after p).
(** text ~ expression ~ text ~ ... *)
Definition concatenation (p0 : list piece) (l : list (xe * list piece)) : xe :=
  fold_left (fun acc q => XBin (BOp BCnct) (XBin (BOp BCnct) acc (fst q)) (XStr (map piece_byte (snd q)))) l (XStr (map piece_byte p0)).
(** [before] has been read and [rest] has not. *)
Definition stands (txt before rest : list Z) (s : lst) : Prop :=
  txt = before ++ rest /\ lxtell s = Z.of_nat (length before) /\ (l_iseof s = true -> rest = []).
(** The same written out with ~ and parentheses: ((text) ~ (expression)) ~ text ... (the operator groups to the right). *)
Definition written_out (p0 : list piece) (parts : list part) : list lexeme :=
  fold_left (fun acc p => LFixed T_LPAR :: (LFixed T_LPAR :: acc ++ [LFixed T_RPAR; LFixed T_TILDE; LFixed T_LPAR] ++ map snd (p_written p) ++ [LFixed T_RPAR]) ++ [LFixed T_RPAR; LFixed T_TILDE; LDbl (p_after p)]) parts [LDbl p0].
