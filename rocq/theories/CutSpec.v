(** Joining and cutting scripts (C46). *)
From Coq Require Import ZArith List Bool String.
From Verif Require Import Base Dialect Token Lexer LexSpec AST Prog Parser ParseSpec.
Import ListNotations.
Open Scope list_scope.
Open Scope Z_scope.

(** The first token of the text that is no blank and no comment is no
    semicolon. *)
Definition no_lead_semi (d : dialect) (b : list rune) : Prop :=
  forall ts t r, tokenize d true b = TOk ts -> sig ts = t :: r -> tkind t <> Semicolon.

(** Tokens with the text they were read from. *)
Definition text_of (l : list (token * list rune)) : list rune := List.concat (map snd l).
Definition only_blank (l : list (token * list rune)) : Prop := sig (map fst l) = [].

(** A statement in a script: what it is read from, blanks, the semicolon,
    blanks. *)
Record chunk := mkChunk {
  ck_stmt : stmt;
  ck_body : list (token * list rune);
  ck_gap : list (token * list rune);
  ck_semi : token * list rune;
  ck_after : list (token * list rune)
}.
Definition chunk_toks (c : chunk) : list (token * list rune) := ck_body c ++ ck_gap c ++ ck_semi c :: ck_after c.

(** The first and the last token are neither blank nor comment. *)
Definition trimmed (l : list (token * list rune)) : Prop :=
  (exists x m, l = x :: m /\ sig [fst x] <> []) /\ (exists m y, l = m ++ [y] /\ sig [fst y] <> []).

(** Texts one after the other, each with a new line after it. *)
Definition lines (bs : list (list rune)) : list rune := List.concat (map (fun b => b ++ [10]) bs).
