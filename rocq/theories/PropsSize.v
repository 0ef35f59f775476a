(** Property C52: trees are not larger than their texts. *)
From Coq Require Import ZArith List Bool String.
From Verif Require Import Base Dialect Token Lexer LexSpec AST Prog Parser ParseSpec Nodes Walk WalkSpec Grammar SizeSpec SizeThms.
Import ListNotations.
Open Scope list_scope.
Open Scope nat_scope.

(** A parsed file has at most four nodes for each token, comments included, and
    one for the file. *)
Theorem C52_nodes : forall d src toks f l, dialect_ok d -> tokenize d true src = TOk toks -> parse_file d src = ROk f ->
  tree (AFile f) l -> List.length l <= 4 * List.length toks + 1.
Proof. exact file_nodes. Qed.
Print Assumptions C52_nodes.

Theorem C52_characters : forall d src f l, dialect_ok d -> parse_file d src = ROk f -> tree (AFile f) l ->
  List.length l <= 4 * List.length src + 1.
Proof. exact text_nodes. Qed.
Print Assumptions C52_characters.

(** Every node has such a list. *)
Theorem C52_finite : forall x, exists l, tree x l.
Proof. intros x. exact (tree_ex (size x) x (le_n _)). Qed.
Print Assumptions C52_finite.

(** So no tree is nested deeper than that, *)
Theorem C52_depth : forall d src toks f n, dialect_ok d -> tokenize d true src = TOk toks -> parse_file d src = ROk f ->
  nested (AFile f) n -> n <= 4 * List.length toks + 1.
Proof. exact file_nested. Qed.
Print Assumptions C52_depth.

(** and no walk of it, whatever the visitor, makes more calls than three for
    each node. *)
Theorem C52_walk : forall S (visit : S -> option any -> S * bool) d src toks f s,
  dialect_ok d -> tokenize d true src = TOk toks -> parse_file d src = ROk f ->
  List.length (snd (fst (Walk (noting visit) (AFile f) (s, [])))) <= 12 * List.length toks + 3.
Proof. exact walk_calls. Qed.
Print Assumptions C52_walk.

(** Calls of ParseStatement and ParseExpr anywhere in a text: four nodes for
    each token that was used. *)
Theorem C52_statement : forall done todo s st l, Forall tok_wf todo -> Forall placed todo ->
  Parser.call parse_statement done todo = Ok s st ->
  tree (of_stmt s) l -> exists used, sig todo = used ++ sig (snd st) /\ List.length l <= 4 * List.length used.
Proof. exact stmt_nodes. Qed.
Print Assumptions C52_statement.

Theorem C52_expression : forall done todo e st l, Forall tok_wf todo -> Forall placed todo ->
  Parser.call parse_expr done todo = Ok e st ->
  tree (AExpr e) l -> exists used, sig todo = used ++ sig (snd st) /\ List.length l <= 4 * List.length used.
Proof. exact expr_nodes. Qed.
Print Assumptions C52_expression.

(** Seven nodes for three tokens: each NATURAL JOIN t adds that many. *)
Example C52_ex : exists f f', parse_file generic (gs "SELECT * FROM t NATURAL JOIN u;") = ROk f /\
  parse_file generic (gs "SELECT * FROM t NATURAL JOIN u NATURAL JOIN v;") = ROk f' /\
  List.length (nodes_to 30 (AFile f)) = 15 /\ List.length (nodes_to 30 (AFile f')) = 22.
Proof.
  eexists. eexists. split; [vm_compute; reflexivity|]. split; [vm_compute; reflexivity|].
  vm_compute. auto.
Qed.
