(** Moving text down (C67). *)
From Coq Require Import ZArith List Bool String.
From Verif Require Import Base Dialect Token Lexer AST Prog Parser Erase ParseSpec.
Import ListNotations.
Open Scope Z_scope.

(** A position [k] lines further down; positions that were never set stay. *)
Definition down (k : Z) (p : pos) : pos :=
  if (pline p =? 0) && (pcol p =? 0) then p else mkPos (pline p + k) (pcol p).
Definition down_token (k : Z) (t : token) : token := mkTok (tkind t) (tval t) (down k (tfrom t)) (down k (tto t)).
(** All positions of a statement. *)
Definition down_stmt (k : Z) : stmt -> stmt := er_stmt (down k) same_rune.

(** How many lines the tokenizer counts in the text [a] and a new line: where
    the last token ends. *)
Definition lines_in (d : dialect) (a : list rune) : Z :=
  match tokenize d true (a ++ [10]) with
  | TOk ts => match rev ts with t :: _ => pline (tto t) - 1 | [] => 0 end
  | _ => 0
  end.
