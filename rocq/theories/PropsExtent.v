(** Property C44: which nodes know their place in the text. *)
From Coq Require Import ZArith String List Bool.
From Verif Require Import Base Dialect Token Lexer AST Nodes Prog Parser ParseSpec LexSpec LexFacts Grammar GrammarThms
  PosEnd SpanSpec ExtentSpec ExtentThms PropsMap PropsGrammar.
Import ListNotations.
Open Scope list_scope.
Open Scope Z_scope.

(** C44.  Every node of a parsed file is read from its own run of tokens
    ([Grammar.reads]), a part of a node from a part of the node's run; and Pos
    and End are where that run starts and ends, for the nodes that know it
    ([start_known], [end_known]). *)
Theorem C44_file : forall d src f, dialect_ok d -> parse_file d src = ROk f ->
  exists toks, tokenize d true src = TOk toks /\
    forall x, within (AFile f) x -> in_text x ->
      exists a ts b, sig toks = a ++ ts ++ b /\ Grammar.reads anything x ts /\ (spans x ts \/ offset_number x ts) /\
        forall z, within x z -> in_text z ->
          exists a' ts' b', ts = a' ++ ts' ++ b' /\ Grammar.reads anything z ts' /\ (spans z ts' \/ offset_number z ts').
Proof. exact file_spans. Qed.
Print Assumptions C44_file.

(** The same for one call of ParseStatement in any state. *)
Theorem C44_statement : forall done todo s st, Forall tok_wf todo -> Forall placed todo -> Forall star_width todo ->
  call parse_statement done todo = Ok s st ->
  exists used, sig todo = used ++ sig (snd st) /\
    forall z, within (of_stmt s) z -> in_text z ->
      exists a ts b, used = a ++ ts ++ b /\ Grammar.reads anything z ts /\ (spans z ts \/ offset_number z ts).
Proof. exact stmt_spans. Qed.
Print Assumptions C44_statement.

(** Parts do not start before the node they are parts of. *)
Theorem C44_nested : forall d src f, dialect_ok d -> parse_file d src = ROk f ->
  forall x z, within (AFile f) x -> within x z -> in_text z -> start_known x -> start_known z ->
    exists p q, Pos x = Some p /\ Pos z = Some q /\ at_or_before p q.
Proof. exact nested_starts. Qed.
Print Assumptions C44_nested.

(** A statement ends before the ones after it start. *)
Theorem C44_in_order : forall d src f, dialect_ok d -> parse_file d src = ROk f ->
  forall l1 s1 l2 s2 l3, f_stmts f = l1 ++ s1 :: l2 ++ s2 :: l3 -> end_known (AStmt s1) -> start_known (AStmt s2) ->
    exists p q, End (AStmt s1) = Some p /\ Pos (AStmt s2) = Some q /\ before p q.
Proof. exact stmts_follow. Qed.
Print Assumptions C44_in_order.

(** The statement of a one-statement text, and whether it says where it starts
    and ends: its first token and the last one before the semicolon. *)
Definition only (src : string) : option stmt :=
  match parse_file generic (gs src) with ROk (mkFile [s] _) => Some s | _ => None end.
Definition starts_right (src : string) : bool :=
  match only src with Some s => pos_eq (Pos (AStmt s)) (first_from (toks src)) | None => false end.
Definition ends_right (src : string) : bool :=
  match only src with Some s => pos_eq (End (AStmt s)) (last_to (removelast (toks src))) | None => false end.
Definition parsed (src : string) : bool := match only src with Some _ => true | None => false end.

Example C44_ex : Forall (fun s => starts_right s && ends_right s = true)
  [" SELECT a , b AS c ;"; "SELECT * FROM t u WHERE a = 1 ;"; "SELECT a FROM t JOIN u ON t . a = u . a ;"; "SELECT a FROM t ORDER BY a , b ;";
   "SELECT a FROM t u LIMIT 5 ;"; "SELECT a FROM (SELECT b FROM t) AS x ;"; "SELECT a FROM t GROUP BY a HAVING f(a) > 1 ;";
   "SELECT a FROM t UNION SELECT b FROM u ;"; "INSERT INTO t (a , b) VALUES (1 , 2) , (3 , 4) ;";
   "INSERT INTO t VALUES (1) ON DUPLICATE KEY UPDATE a = 1 ;"; "UPDATE t SET a = 1 , b = 2 ;"; "DELETE FROM t ;"; "DELETE FROM t WHERE a = 'x' ;";
   "CREATE VIEW v AS SELECT a FROM t ;"; "ALTER TABLE t ADD COLUMN a int NOT NULL ;"; "ALTER TABLE t ADD CONSTRAINT c PRIMARY KEY (a) ;";
   "ALTER TABLE t DROP COLUMN a CASCADE ;"; "ALTER TABLE t ALTER COLUMN a TYPE numeric(1) ;"; "DROP TABLE a ;"; "DROP TABLE a CASCADE ;"; "DROP INDEX a , b ;"]%string.
Proof. repeat (apply Forall_cons; [vm_compute; reflexivity|]). apply Forall_nil. Qed.

Example C44_ex_known : exists s, only "SELECT a FROM t u WHERE a = 1;" = Some s /\ start_known (AStmt s) /\ end_known (AStmt s).
Proof. eexists. split; [vm_compute; reflexivity|]. vm_compute. auto. Qed.

(** False of the code for the others: a query with WITH, CREATE INDEX
    and EXPLAIN do not know their start; *)
Theorem C44_starts_refuted : Forall (fun s => parsed s = true /\ starts_right s = false)
  ["WITH a AS (SELECT b FROM t) SELECT c FROM a;"; "CREATE INDEX i ON t (a);"; "EXPLAIN SELECT a FROM t;"]%string.
Proof. repeat (apply Forall_cons; [split; vm_compute; reflexivity|]). apply Forall_nil. Qed.
Print Assumptions C44_starts_refuted.

(** and these do not know their end. *)
Theorem C44_ends_refuted : Forall (fun s => parsed s = true /\ ends_right s = false)
  ["SELECT a FROM t u LIMIT 1 OFFSET 2;"; "SELECT a FROM t u LIMIT ALL;"; "SELECT a FROM t ORDER BY a DESC;"; "CREATE VIEW v AS (SELECT a FROM t);";
   "SELECT a FROM (SELECT b FROM t);"; "SELECT a FROM t JOIN u USING (a);"; "SELECT a FROM t WITH (NOLOCK);"; "SELECT t. *;";
   "CREATE TABLE t (a int NOT NULL);"; "CREATE INDEX i ON t (a);"; "ALTER TABLE t ADD COLUMN a int NOT NULL DEFAULT 1;";
   "ALTER TABLE t ALTER COLUMN a TYPE varchar;"; "ALTER TABLE t ALTER COLUMN a TYPE timestamp WITH TIME ZONE;"]%string.
Proof. repeat (apply Forall_cons; [split; vm_compute; reflexivity|]). apply Forall_nil. Qed.
Print Assumptions C44_ends_refuted.

(** LIMIT n OFFSET m: its End, and that of a query with it, is the end of the
    word OFFSET. *)
Theorem C44_limit_offset : forall d src f toks, dialect_ok d -> parse_file d src = ROk f -> tokenize d true src = TOk toks ->
  forall l, within (AFile f) (ALimit l) -> lim_offset l <> None ->
  exists a n k m b, sig toks = a ++ [n; k; m] ++ b /\ tkind n = Number /\ spells "OFFSET" k /\ tkind m = Number /\
    End (ALimit l) = Some (tto k) /\ forall w c s o, End (AQuery (Query w c s o (Some l))) = Some (tto k).
Proof. exact limit_offset. Qed.
Print Assumptions C44_limit_offset.
Example C44_limit_ex : match parse_file generic (gs "SELECT a FROM t u LIMIT 1 OFFSET 2;") with
  | ROk (mkFile [StQuery (Query _ _ _ _ (Some l))] _) => lim_offset l <> None /\ End (ALimit l) = Some (mkPos 1 33)
  | _ => False
  end.
Proof. vm_compute. split; [discriminate|reflexivity]. Qed.
