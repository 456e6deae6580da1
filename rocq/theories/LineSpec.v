(** The line the compiler is on after some events: the largest line number visited so far. *)
From Verif Require Import Base Lines.
Definition current_line (es : list lev) : Z := fold_left (fun l e => match e with LVisit k => Z.max l k | LEmit _ => l end) es 0.
(** Bytes of code emitted so far. *)
Definition emitted (es : list lev) : Z := fold_left (fun n e => match e with LEmit k => n + k | LVisit _ => n end) es 0.
Definition lev_ok (e : lev) : Prop := match e with LEmit n => 0 <= n | LVisit _ => True end.
