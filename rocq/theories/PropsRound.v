(** Property C17: printed trees are read back. *)
From Coq Require Import ZArith String List Bool Lia.
From Verif Require Import Base Dialect Token Lexer AST Num Erase Prog Parser ParseSpec LexSpec LexFacts Printer Render RoundSpec RtRound SrcThms.
Import ListNotations.
Open Scope list_scope.
Open Scope Z_scope.

(** The shipped dialects can write every keyword. *)
Theorem C17_shipped_dialects : dialect_words generic /\ dialect_words postgres /\ dialect_words mysql.
Proof.
  destruct shipped_ok as (H1 & H2 & H3).
  split; [|split]; (split; [assumption|]; split; [|split; reflexivity]); intros c L;
    cbn [is_start is_part generic postgres mysql]; rewrite L; split; reflexivity.
Qed.
Print Assumptions C17_shipped_dialects.

(** C17.  [wf_node], [wf_type], [wf_stmt] (Render.v) are the trees that can be
    written down; what excludes a tree is shown below to lose it.  The text of
    such an expression is read by ParseExpr as the same expression, and nothing
    is left. *)
Theorem C17_expressions : forall d e, dialect_words d -> wf_node d e = true ->
  read_back parse_expr bare_node d (sql_node e) e.
Proof. exact node_back. Qed.
Print Assumptions C17_expressions.

(** ParseDataType on the text of a type; BIGINT must not be the last token. *)
Theorem C17_data_types : forall d t, dialect_words d -> wf_type d t = true -> ends_type t = true ->
  read_back parse_data_type bare_dtype d (sql_dtype t) t.
Proof. exact dtype_back. Qed.
Print Assumptions C17_data_types.

(** ParseStatement on the text of a statement that may end the input. *)
Theorem C17_statements : forall d s, dialect_words d -> wf_stmt d s = true -> ends_stmt s = true ->
  read_back parse_statement bare_stmt d (sql_stmt s) s.
Proof. exact stmt_back. Qed.
Print Assumptions C17_statements.

(** ParseSQL on the texts of any number of statements, each closed with a
    semicolon and followed by blanks. *)
Theorem C17_scripts : forall d l, dialect_words d ->
  forallb (fun p => wf_stmt d (fst p) && blanks (snd p)) l = true ->
  exists ss, parse_source d (script l) = ROk ss /\ map bare_stmt ss = map bare_stmt (map fst l).
Proof.
  intros d l D W. destruct (script_back d l false D W) as (toks & y & st & T & C & E & _). exists y. split; [|exact E].
  unfold parse_source, parse_with. rewrite T. change (run_raw (parse_sql false) toks) with (call (parse_sql false) [] toks). rewrite C. reflexivity.
Qed.
Print Assumptions C17_scripts.

(** The same for ParseFile. *)
Theorem C17_script_files : forall d l, dialect_words d ->
  forallb (fun p => wf_stmt d (fst p) && blanks (snd p)) l = true ->
  exists f, parse_file d (script l) = ROk f /\ map bare_stmt (f_stmts f) = map bare_stmt (map fst l).
Proof.
  intros d l D W. destruct (C17_scripts d l D W) as (ss & H & E).
  pose proof (parse_file_source d (script l) (proj1 D)) as F. rewrite H in F.
  destruct (parse_file d (script l)) as [f| | |]; try discriminate F. injection F as F. exists f. rewrite F. auto.
Qed.
Print Assumptions C17_script_files.

(** The text of a File has no semicolons: whatever readable statements the file
    holds, ParseSQL and ParseFile do not accept its text. *)
Theorem C17_file_text_refuted : forall d f, dialect_words d ->
  forallb (wf_stmt d) (f_stmts f) = true -> f_stmts f <> [] ->
  (forall ss, parse_source d (sql_file f) <> ROk ss) /\ (forall g, parse_file d (sql_file f) <> ROk g).
Proof.
  intros d f D W N. assert (H : forall ss, parse_source d (sql_file f) <> ROk ss) by (intros ss; exact (file_not_read d f ss D W N)).
  split; [exact H|]. intros g E. pose proof (parse_file_source d (sql_file f) (proj1 D)) as F. rewrite E in F.
  exact (H _ (eq_sym F)).
Qed.
Print Assumptions C17_file_text_refuted.

(** *** Cases *)

Definition stmts_of (src : string) : list stmt := match parse_source generic (gs src) with ROk l => l | _ => [] end.
Definition expr_of (src : string) : list node := match parse_expr_source generic (gs src) with ROk e => [e] | _ => [] end.

Example C17_ex_expr :
  let l := expr_of "a + b * -(c - 1.5) >= f(x, 'it') OVER (PARTITION BY p ORDER BY o DESC ROWS BETWEEN 1 PRECEDING AND CURRENT ROW) AND NOT t.u IS NULL OR CASE a WHEN 1 THEN 'x' ELSE CAST(z AS char(3)) END IN (SELECT q FROM t AS u LEFT JOIN v ON u.i = v.i WHERE EXISTS (SELECT 1 FROM w))" in
  List.length l = 1%nat /\ forallb (wf_node generic) l = true.
Proof. vm_compute. split; reflexivity. Qed.

Example C17_ex_stmts :
  let l := stmts_of "SELECT DISTINCT a, b AS c, t.* FROM t AS u CROSS JOIN v, (SELECT 1 FROM x) AS y WHERE a BETWEEN 1 AND 2 GROUP BY a HAVING count(*) > 1 UNION ALL SELECT 1 FROM z ORDER BY a ASC, b LIMIT 10 OFFSET 5; INSERT INTO t (a, b) VALUES (1, 'x'), (2, NULL) ON DUPLICATE KEY UPDATE a = 3; UPDATE t SET a = 1, b = b + 1 WHERE c; DELETE FROM t WHERE a = 1; CREATE TABLE IF NOT EXISTS t (a int DEFAULT 1 NOT NULL, b varchar(10) REFERENCES u(c), CONSTRAINT k PRIMARY KEY(a), FOREIGN KEY(b) REFERENCES u(c), CHECK(a > 0)) ENGINE = innodb; CREATE VIEW v AS SELECT a FROM t; CREATE UNIQUE INDEX i ON t USING btree (a, b) WHERE c; ALTER TABLE t ADD COLUMN c timestamp with time zone; ALTER TABLE t ALTER COLUMN c TYPE numeric(4, 2); ALTER TABLE t DROP CONSTRAINT k CASCADE; DROP TABLE IF EXISTS t CASCADE; DROP INDEX i, j; EXPLAIN SELECT a FROM t;" in
  List.length l = 13%nat /\ forallb (wf_stmt generic) l = true.
Proof. vm_compute. split; reflexivity. Qed.

(** *** Trees that cannot be written

    A text other than a sum of its parts is read as another tree: operators
    without their parentheses, negative numbers, words that are none, an empty
    IN list, a quote in a string, a decimal number without fraction. *)
Definition id_of (s : string) : node := EIdent (mkIdent (gs s) pos0 pos0).
Definition op_of (o : optype) : operator := mkOp o pos0 pos0.
Theorem C17_unwritable_refuted : forall e,
  In e [EBinary (EBinary (id_of "a") (op_of OPlus) (id_of "b")) (op_of OMultiply) (id_of "c");
        EBinary (id_of "a") (op_of OMinus) (EBinary (id_of "b") (op_of OMinus) (id_of "c"));
        EUnary pos0 (op_of OMinus) (EBinary (id_of "b") (op_of OMinus) (id_of "c"));
        EIsNull (EUnary pos0 (op_of ONot) (id_of "b"));
        EBetween (id_of "a") false (id_of "b") (EBinary (id_of "c") (op_of OAnd) (id_of "d"));
        ELong (mkLong pos0 pos0 (-1)); id_of "a b"; id_of ""; id_of "case"; id_of "a.b"; id_of "1"; EInList (id_of "a") [] false pos0;
        EString pos0 pos0 (gs "a'b"); EDouble pos0 pos0 (mkF 4503599627370496 (-51)); ECase pos0 pos0 None [] None; ECompound [mkIdent (gs "a") pos0 pos0]] ->
  wf_node generic e = false /\ ~ read_back parse_expr bare_node generic (sql_node e) e.
Proof.
  intros e I. repeat destruct I as [<-|I]; try contradiction;
    (split; [vm_compute; reflexivity|]; intros (toks & y & st & T & C & E & S);
     vm_compute in T; first [discriminate T|injection T as <-];
     vm_compute in C; first [discriminate C|injection C as <- <-];
     first [vm_compute in S; discriminate S|vm_compute in E; discriminate E]).
Qed.
Print Assumptions C17_unwritable_refuted.
