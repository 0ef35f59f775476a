(** Reading printed text back (C17, C18). *)
From Coq Require Import ZArith List Bool String.
From Verif Require Import Base Dialect Token Lexer AST Prog Parser Erase ParseSpec Printer.
Import ListNotations.
Open Scope list_scope.
Open Scope Z_scope.

(** A method [P] of a new parser over [src] succeeds with a tree that equals
    [x] when both are passed through [er], and leaves nothing but blanks. *)
Definition read_back {A} (P : rec -> prog A) (er : A -> A) (d : dialect) (src : list rune) (x : A) : Prop :=
  exists toks y st, tokenize d true src = TOk toks /\ call P [] toks = Ok y st /\ er y = er x /\ sig (snd st) = [].

(** Trees without their positions. *)
Definition bare_node : node -> node := er_node no_pos same_rune.
Definition bare_dtype : dtype -> dtype := er_dtype no_pos same_rune.
Definition bare_stmt : stmt -> stmt := er_stmt no_pos same_rune.

(** Statements as a script: each with a semicolon and blanks after it. *)
Definition script (l : list (stmt * gostring)) : list rune :=
  List.concat (map (fun p => sql_stmt (fst p) ++ gs ";" ++ snd p) l).
Definition blanks (w : gostring) : bool := forallb (fun c => (c =? 32) || (c =? 9) || (c =? 10)) w.

(** ToSQLString of a File (sqlast/ast.go:55-61). *)
Definition sql_file (f : file) : gostring := builder_string (wt_file f).
