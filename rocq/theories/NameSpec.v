(** Which texts are names (C74), without the tokenizer and the parser. *)
From Coq Require Import ZArith List Bool String.
From Verif Require Import Base Dialect Token AST.
Import ListNotations.
Open Scope list_scope.
Open Scope Z_scope.

(** [s] is one word, plain or delimited, and [inner] is what it names. *)
Definition one_word (d : dialect) (s inner : list rune) : Prop :=
  (inner = s /\ exists f w, s = f :: w /\ (is_start d f = true \/ f = 78) /\ forallb (is_part d) w = true) \/
  (exists q, is_delim d q = true /\ s = q :: inner ++ [q] /\ ~ In q inner).

(** Words that begin another expression. *)
Definition taken : list string := ["TRUE"; "FALSE"; "NULL"; "CASE"; "CAST"; "EXISTS"; "NOT"]%string.

(** [s] can be printed as a column name: one word that begins no other
    expression and does not begin with a byte order mark, which the scanner
    drops at the start of a text. *)
Definition usable (d : dialect) (s : list rune) : Prop :=
  hd_error s <> Some 65279 /\ exists inner, one_word d s inner /\ ~ In (upper inner) (map gs taken).

(** sqlast/ast.go:69-71: NewIdent. *)
Definition new_ident (s : gostring) : ident := mkIdent s (mkPos 0 0) (mkPos 0 0).
