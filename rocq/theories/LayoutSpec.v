(** Texts that spell a tree in a layout of their own (C41, C42). *)
From Coq Require Import ZArith List Bool.
From Verif Require Import Base Dialect Token Lexer AST Prog Parser Erase ParseSpec Render.
Import ListNotations.

(** Trees without positions and without the letter case of their names. *)
Definition caseless_node : node -> node := er_node no_pos asc_up.
Definition caseless_dtype : dtype -> dtype := er_dtype no_pos asc_up.
Definition caseless_stmt : stmt -> stmt := er_stmt no_pos asc_up.

(** The text [src] spells the tokens [l]: whatever blanks and comments it has
    and however the letters of its words are cased, its other tokens are [l]. *)
Definition spells (d : dialect) (src : list rune) (l : list token) : Prop :=
  exists toks, tokenize d true src = TOk toks /\ map (er_tok no_pos asc_up) (sig toks) = map (er_tok no_pos asc_up) l.

(** Statements, each closed by a semicolon. *)
Definition t_script (ss : list stmt) : list token := List.concat (map (fun s => t_stmt s ++ [semi]) ss).
