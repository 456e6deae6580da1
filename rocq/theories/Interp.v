(** * Interpolated strings: model of [parse_string], /repo/compiler/parser.c:1099-1128, and [lex_eatinterpstringbody], lexer.c:398-409, on the
    lexer of LexInput.v. *)
From Verif Require Import Base Value Ops Ast Text Lexer LexInput Parser Tree TreeParser.
Local Open Scope list_scope.

(** The state [s] after a token and the states after each of the tokens that the lexer would deliver next, up to the end of the file or an
    error. (The parser asks for them one at a time; those after the expression it reads do not count.) *)
Fixpoint located (n fuel : nat) (txt : list Z) (s : lst) : outcome (list lst) :=
  match n with
  | O => NoFuel
  | S n' => match l_type s with
            | T_EOF | T_UNKNOWN => Ok [s]
            | _ => do s' <- i_gettok txt fuel s; do r <- located n' fuel txt s'; Ok (s :: r)
            end
  end.
(** [lex_eatinterpstringbody]: whether it failed, and the state. *)
Definition body (fuel : nat) (txt : list Z) (s : lst) : outcome (bool * lst) :=
  do r <- i_str txt fuel (fun c => (c =? 34) || (c =? 35)) 34 (set_type (set_val s []) T_STR);
  if fst r then Ok r
  else let s := set_interp (snd r) (l_c (snd r) =? 35) in
       if lxeof txt s then Ok (true, i_error s) else Ok (false, s).
Definition tilde (l r : xe) : xe := XBin (BOp BCnct) l r.
Section Parser.
Variable strtod : list Z -> float.
(** The loop of :1104-1123 and the [eattok] of :1125. The [lex.mode] that :1107 resets is the flag of the token just read: a string that opens
    an interpolation there is taken for a plain one. The expression is read by the parser of TreeParser.v, for which another interpolated
    string further on is outside ([POut]). *)
Fixpoint i_parts (k fuel p : nat) (txt : list Z) (acc : xe) (s : lst) : outcome (pres (xe * lst)) :=
  match k with
  | O => NoFuel
  | S k' =>
    if l_interp s then
      do s <- i_gettok txt fuel s;
      if negb (tk_eqb (l_type s) T_LBRC) then Ok PSyntax
      else
        do s <- i_gettok txt fuel s;
        do ss <- located (S (S (length txt))) fuel txt (set_interp s false);
        match q_expr strtod p (map token_of ss) with
        | POk (e, rest) =>
          match nth_error ss (length ss - length rest) with
          | Some s =>
            if l_c s =? 125 then
              do s <- getchar txt s;
              do r <- body fuel txt s;
              if fst r then Ok PSyntax else i_parts k' fuel p txt (tilde (tilde acc e) (XStr (l_val (snd r)))) (snd r)
            else Ok PSyntax
          | None => Ok PSyntax
          end
        | PSyntax => Ok PSyntax | POut => Ok POut | PUB => Ok PUB | PFuel => Ok PFuel
        end
    else do s <- i_gettok txt fuel s; Ok (POk (acc, s))
  end.
(** [parse_string] in the state [s] after a token T_STR: the expression and the state after the token that follows the string. [p] bounds
    the parser. *)
Definition parse_string (p : nat) (txt : list Z) (s : lst) : outcome (pres (xe * lst)) :=
  i_parts (S (length txt)) (length txt + 3) p txt (XStr (l_val s)) s.
End Parser.
