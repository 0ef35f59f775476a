(** Property C61: what printed SQL is made of. *)
From Coq Require Import ZArith List Bool String.
From Verif Require Import Base Dialect Token Lexer LexSpec AST Nodes Prog Parser Printer RoundSpec CharSpec CharThms.
Import ListNotations.
Open Scope string_scope.
Open Scope list_scope.
Open Scope Z_scope.

(** C61.  A printed tree consists of ordinary characters of SQL ([sql_char]: the
    blank to the tilde) and of characters of the names and strings it [holds]. *)
Theorem C61_trees : forall s c, In c (sql_stmt s) -> sql_char c \/ exists z, within (of_stmt s) z /\ In c (holds z).
Proof. exact stmt_chars. Qed.
Print Assumptions C61_trees.

Theorem C61_expressions : forall e c, In c (sql_node e) -> sql_char c \/ exists z, within (AExpr e) z /\ In c (holds z).
Proof. exact node_chars. Qed.
Print Assumptions C61_expressions.

(** After parsing a text: of characters in the words and strings of the text.
    Nothing in its blanks and comments comes back. *)
Theorem C61_texts : forall d src f toks, dialect_ok d -> parse_file d src = ROk f -> tokenize d true src = TOk toks ->
  forall s c, In s (f_stmts f) -> In c (sql_stmt s) -> sql_char c \/ exists t, In t toks /\ In c (says t).
Proof. exact file_chars. Qed.
Print Assumptions C61_texts.

(** And what a token says stands in the text. *)
Theorem C61_source : forall d src toks t c, dialect_ok d -> tokenize d true src = TOk toks -> In t toks -> In c (says t) ->
  In c src.
Proof. exact says_source. Qed.
Print Assumptions C61_source.

(** So a file is printed with one line for each statement, when no name and no
    string of it contains a newline. *)
Theorem C61_one_line_each : forall d src f toks, dialect_ok d -> parse_file d src = ROk f -> tokenize d true src = TOk toks ->
  (forall t, In t toks -> ~ In 10 (says t)) -> f_stmts f <> [] -> lines (sql_file f) = map sql_stmt (f_stmts f).
Proof. exact file_lines. Qed.
Print Assumptions C61_one_line_each.

Definition C61_text : gostring := gs "SELECT a, -- first
  'x y' /* two
lines */ FROM t
WHERE b = 1;
DELETE
FROM ""u v"";".
Definition C61_lines : list gostring := [gs "SELECT a, 'x y' FROM t WHERE b = 1"; gs "DELETE FROM ""u v"""].
Example C61_ex : match tokenize generic true C61_text, parse_file generic C61_text with
  | TOk toks, ROk f => forallb (fun t => forallb (fun c => negb (c =? 10)) (says t)) toks = true /\ lines (sql_file f) = C61_lines
  | _, _ => False
  end.
Proof. vm_compute. split; reflexivity. Qed.

(** Without that it is not: the newline of a string is printed as it is. *)
Theorem C61_one_line_refuted : exists src f, parse_file generic src = ROk f /\ List.length (f_stmts f) = 1%nat /\
  List.length (lines (sql_file f)) = 2%nat.
Proof.
  exists (gs "SELECT 'x
y' FROM t;"). eexists. split; [vm_compute; reflexivity|]. split; vm_compute; reflexivity.
Qed.
Print Assumptions C61_one_line_refuted.
