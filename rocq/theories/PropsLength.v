(** Property C62: printed text is not much longer than its source. *)
From Coq Require Import ZArith List Bool String.
From Verif Require Import Base Dialect Token Lexer LexSpec AST Prog Parser ParseSpec Nodes Grammar Printer RoundSpec LengthSpec LengthThms LengthEnd.
Import ListNotations.
Open Scope list_scope.
Open Scope nat_scope.

(** Printing a parsed file adds at most twenty characters for each token that
    is not a blank or a comment. *)
Theorem C62_texts : forall d src f toks, dialect_ok d -> parse_file d src = ROk f -> tokenize d true src = TOk toks ->
  List.length (sql_file f) <= List.length src + 20 * List.length (sig toks).
Proof. exact file_length. Qed.
Print Assumptions C62_texts.

Theorem C62_characters : forall d src f, dialect_ok d -> parse_file d src = ROk f ->
  List.length (sql_file f) <= 21 * List.length src.
Proof. exact text_length. Qed.
Print Assumptions C62_characters.

(** Calls of ParseStatement and ParseExpr anywhere in a text: what is written
    for the tokens that were used, and twenty characters for each. *)
Theorem C62_statement : forall done todo s st, Forall tok_wf todo -> Forall placed todo ->
  Parser.call parse_statement done todo = Ok s st ->
  exists used, sig todo = used ++ sig (snd st) /\ List.length (sql_stmt s) <= allowance used.
Proof. exact stmt_length. Qed.
Print Assumptions C62_statement.

Theorem C62_expression : forall done todo e st, Forall tok_wf todo -> Forall placed todo ->
  Parser.call parse_expr done todo = Ok e st ->
  exists used, sig todo = used ++ sig (snd st) /\ List.length (sql_node e) <= allowance used.
Proof. exact expr_length. Qed.
Print Assumptions C62_expression.

(** Printing may make a text longer. *)
Theorem C62_no_growth_refuted : exists src f, parse_file generic src = ROk f /\ List.length (sql_file f) > List.length src.
Proof. exists (gs "SELECT a b FROM t u WHERE x=1 or y=2;"). eexists. split; [vm_compute; reflexivity|]. vm_compute. repeat constructor. Qed.
Print Assumptions C62_no_growth_refuted.

(** Spaces and AS are added, comments and blanks dropped. *)
Example C62_ex : exists f toks, parse_file generic (gs "SELECT a b/*c*/FROM t    u WHERE x=0.50;") = ROk f /\
  tokenize generic true (gs "SELECT a b/*c*/FROM t    u WHERE x=0.50;") = TOk toks /\
  sql_file f = gs "SELECT a AS b FROM t AS u WHERE x = 0.5" /\ List.length (sig toks) = 11.
Proof. do 2 eexists. split; [vm_compute; reflexivity|]. split; [vm_compute; reflexivity|]. split; vm_compute; reflexivity. Qed.
