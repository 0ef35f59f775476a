(** Property C56: parentheses make a tree writable. *)
From Coq Require Import ZArith List Bool String.
From Verif Require Import Base Dialect Token AST Num Prog Parser Printer Erase Grammar Render RoundSpec RtRound WrapSpec WrapThms.
Import ListNotations.
Open Scope string_scope.
Open Scope list_scope.
Open Scope Z_scope.

(** C56.  [able d e] (WrapSpec.v): the names, literals, operators, types and queries in
    the tree [e] can be written, no matter how its operators are nested.  [wrap e] is
    [e] with parentheses around the operands of operators, [strip] takes all
    parentheses away.  The text of [wrap e] is read back as [wrap e], completely, and
    [wrap e] is [e] but for parentheses. *)
Theorem C56_wrap : forall d e, dialect_words d -> able d e = true ->
  read_back parse_expr bare_node d (sql_node (wrap e)) (wrap e) /\ strip (wrap e) = strip e.
Proof. intros d e D A. split; [apply node_back; [exact D|apply able_wf; exact A]|apply strip_wrap]. Qed.
Print Assumptions C56_wrap.

(** Without the parentheses the tree is lost: the text is read as another tree, even
    when parentheses are disregarded. *)
Definition name (s : string) : node := EIdent (mkIdent (gs s) pos0 pos0).
Definition op (o : optype) : operator := mkOp o pos0 pos0.
Definition sum_times : node := EBinary (EBinary (name "a") (op OPlus) (name "b")) (op OMultiply) (EUnary pos0 (op ONot) (name "c")).
Theorem C56_plain_refuted : exists e b, able generic e = true /\ parse_expr_source generic (sql_node e) = ROk b /\
  strip (bare_node b) <> strip (bare_node e).
Proof.
  exists (EBinary (EBinary (name "a") (op OPlus) (name "b")) (op OMultiply) (name "c")). eexists. split; [reflexivity|].
  split; [vm_compute; reflexivity|]. vm_compute. discriminate.
Qed.
Print Assumptions C56_plain_refuted.

(** Examples. *)
Example C56_ex_able : able generic sum_times = true /\ able mysql (EIsNull (EBetween sum_times true sum_times sum_times)) = true.
Proof. split; reflexivity. Qed.
Example C56_ex : sql_node (wrap sum_times) = gs "(a + b) * (NOT c)" /\
  sql_node (wrap (EIsNull (EBetween sum_times true (name "x") sum_times))) =
    gs "(((a + b) * (NOT c)) NOT BETWEEN x AND ((a + b) * (NOT c))) IS NULL".
Proof. split; vm_compute; reflexivity. Qed.
