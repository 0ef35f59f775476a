(** Property C53: names do not matter. *)
From Coq Require Import ZArith List Bool String.
From Verif Require Import Base Dialect Token Lexer AST Num Prog Parser Printer Erase ParseSpec LexSpec LexFacts LexThms Render RoundSpec
  RtRound RenameSpec RenameThms RenameWf.
Import ListNotations.
Open Scope string_scope.
Open Scope list_scope.
Open Scope Z_scope.

(** C53.  [renaming f] (RenameSpec.v): f leaves the words of the [vocabulary] and
    their quoted spellings alone and makes no other spelling one of them.

    A method of Parser on renamed tokens gives the renamed result, up to
    positions, or fails in the same way; it reads just as far. *)
Theorem C53_methods : forall A (P : rec -> prog A) rnA erA, named P rnA erA -> forall f, renaming f ->
  forall done todo done' todo', Forall tok_wf todo -> Forall tok_wf todo' -> renamed_tokens f todo todo' ->
  match call P done todo, call P done' todo' with
  | Ok a s, Ok b s' => erA no_pos same_rune b = erA no_pos same_rune (rnA f a) /\ renamed_tokens f (snd s) (snd s')
  | OErr, OErr => True
  | OPanic w, OPanic w' => w = w'
  | _, _ => False
  end.
Proof. exact @rename_calls. Qed.
Print Assumptions C53_methods.

(** Two texts, under whatever dialects, whose words correspond. *)
Theorem C53_texts : forall A (P : rec -> prog A) rnA erA, named P rnA erA -> forall f, renaming f ->
  forall d d' src src' ts ts', dialect_ok d -> dialect_ok d' ->
  tokenize d true src = TOk ts -> tokenize d' true src' = TOk ts' -> renamed_tokens f ts ts' ->
  res_map (erA no_pos same_rune) (parse_with P d' src')
  = res_map (erA no_pos same_rune) (res_map (rnA f) (parse_with P d src)).
Proof. exact @rename_sources. Qed.
Print Assumptions C53_texts.

(** On trees: if f keeps the identifiers of the dialect identifiers, a readable
    tree (C17) stays readable under new names, and its text is read back. *)
Definition keeps_names (d : dialect) (f : gostring -> gostring) : Prop :=
  forall i, wf_id d i = true -> wf_id d (rn_ident f i) = true.

Theorem C53_expressions : forall d f e, dialect_words d -> renaming f -> keeps_names d f -> wf_node d e = true ->
  wf_node d (rn_node f e) = true /\ read_back parse_expr bare_node d (sql_node (rn_node f e)) (rn_node f e).
Proof.
  intros d f e D R K W. pose proof (wf_node_rn d f R K e W) as V. split; [exact V|]. exact (node_back d _ D V).
Qed.
Print Assumptions C53_expressions.

Theorem C53_data_types : forall d f t, dialect_words d -> renaming f -> keeps_names d f -> wf_type d t = true ->
  ends_type t = true ->
  wf_type d (rn_dtype f t) = true /\ read_back parse_data_type bare_dtype d (sql_dtype (rn_dtype f t)) (rn_dtype f t).
Proof.
  intros d f t D R K W E. pose proof (wf_type_rn d f R K t W) as V. split; [exact V|].
  refine (dtype_back d _ D V _). rewrite ends_type_rn. exact E.
Qed.
Print Assumptions C53_data_types.

Theorem C53_statements : forall d f s, dialect_words d -> renaming f -> keeps_names d f -> wf_stmt d s = true ->
  ends_stmt s = true ->
  wf_stmt d (rn_stmt f s) = true /\ read_back parse_statement bare_stmt d (sql_stmt (rn_stmt f s)) (rn_stmt f s).
Proof.
  intros d f s D R K W E. pose proof (wf_stmt_rn d f R K s W) as V. split; [exact V|].
  refine (stmt_back d _ D V _). rewrite ends_stmt_rn. exact E.
Qed.
Print Assumptions C53_statements.

(** A script: parse, rename everything, print, parse again. *)
Theorem C53_scripts : forall d f l, dialect_words d -> renaming f -> keeps_names d f ->
  forallb (fun p => wf_stmt d (fst p) && blanks (snd p)) l = true ->
  exists ss, parse_source d (script (map (fun p => (rn_stmt f (fst p), snd p)) l)) = ROk ss /\
    map bare_stmt ss = map bare_stmt (map (rn_stmt f) (map fst l)).
Proof.
  intros d f l D R K W.
  assert (V : forallb (fun p : stmt * gostring => wf_stmt d (fst p) && blanks (snd p)) (map (fun p => (rn_stmt f (fst p), snd p)) l) = true).
  { rewrite !forallb_forall in *. intros x I. apply in_map_iff in I as [y [<- I]]. cbn [fst snd].
    specialize (W _ I). apply andb_prop in W as [W1 W2]. rewrite (wf_stmt_rn d f R K _ W1), W2. reflexivity. }
  destruct (script_back d _ false D V) as (toks & y & st & T & C & E & _). exists y. split.
  - unfold parse_source, parse_with. rewrite T. change (run_raw (parse_sql false) toks) with (call (parse_sql false) [] toks). rewrite C. reflexivity.
  - rewrite E. f_equal. rewrite !map_map. reflexivity.
Qed.
Print Assumptions C53_scripts.

(** Replacing one name by another is a renaming, unless one of them is special. *)
Theorem C53_instead : forall a b, special a = false -> special b = false ->
  renaming (instead a b) /\ (forall d p, wf_id d (mkIdent b p p) = true -> keeps_names d (instead a b)).
Proof.
  intros a b A B. split.
  - intros v. unfold instead. destruct (gs_eqb v a) eqn:E; [|destruct (special v) eqn:S; auto].
    apply gs_eqb_eq in E. subst v. rewrite A. exact B.
  - intros d p W i I. unfold rn_ident, instead. destruct (gs_eqb (id_value i) a); [exact W|exact I].
Qed.
Print Assumptions C53_instead.

(** Nothing in the vocabulary can be left out: for each of its words there are two
    texts, the second with another word in its place, such that ParseSQL reads the
    first one, and does not read the second one as the first one renamed. *)
Definition other_word (k : string) (v : gostring) : gostring := if gs_eqb (upper v) (gs k) then gs "zzz" else v.
Definition reworded (k : string) (x : kind * tvalue) : kind * tvalue :=
  match snd x with VWord w => (fst x, VWord (respell (other_word k (word_string w)))) | VStr _ => x end.
Definition witnesses : list (string * string * string) :=
  [("ADD", "ALTER TABLE t ADD COLUMN a int;", "ALTER TABLE t zzz COLUMN a int;");
   ("ALL", "SELECT a FROM t UNION ALL SELECT b FROM u;", "SELECT a FROM t UNION zzz SELECT b FROM u;");
   ("ALTER", "ALTER TABLE t ADD COLUMN a int;", "zzz TABLE t ADD COLUMN a int;");
   ("AND", "SELECT a FROM t WHERE a AND b;", "SELECT a FROM t WHERE a zzz b;");
   ("AS", "SELECT a AS b FROM t;", "SELECT a zzz b FROM t;");
   ("ASC", "SELECT a FROM t ORDER BY a ASC;", "SELECT a FROM t ORDER BY a zzz;");
   ("AUTO_INCREMENT", "CREATE TABLE t (a int AUTO_INCREMENT);", "CREATE TABLE t (a int zzz);");
   ("BETWEEN", "SELECT a FROM t WHERE a BETWEEN 1 AND 2;", "SELECT a FROM t WHERE a zzz 1 AND 2;");
   ("BIGINT", "CREATE TABLE t (a bigint unsigned);", "CREATE TABLE t (a zzz unsigned);");
   ("BOOLEAN", "CREATE TABLE t (a boolean);", "CREATE TABLE t (a zzz);");
   ("BY", "SELECT a FROM t ORDER BY a ASC;", "SELECT a FROM t ORDER zzz a ASC;");
   ("BYTEA", "CREATE TABLE t (a bytea);", "CREATE TABLE t (a zzz);");
   ("CASCADE", "DROP TABLE t CASCADE;", "DROP TABLE t zzz;");
   ("CASE", "SELECT CASE WHEN a THEN b ELSE c END FROM t;", "SELECT zzz WHEN a THEN b ELSE c END FROM t;");
   ("CAST", "SELECT CAST(a AS int) FROM t;", "SELECT zzz(a AS int) FROM t;");
   ("CHAR", "CREATE TABLE t (a char(3));", "CREATE TABLE t (a zzz(3));");
   ("CHARACTER", "CREATE TABLE t (a character varying(3));", "CREATE TABLE t (a zzz varying(3));");
   ("CHARSET", "CREATE TABLE t (a int) DEFAULT CHARSET = u;", "CREATE TABLE t (a int) DEFAULT zzz = u;");
   ("CHECK", "CREATE TABLE t (a int CHECK(a));", "CREATE TABLE t (a int zzz(a));");
   ("COLUMN", "ALTER TABLE t ADD COLUMN a int;", "ALTER TABLE t ADD zzz a int;");
   ("CONSTRAINT", "CREATE TABLE t (CONSTRAINT a UNIQUE(b));", "CREATE TABLE t (zzz a UNIQUE(b));");
   ("CREATE", "CREATE TABLE t (a int AUTO_INCREMENT);", "zzz TABLE t (a int AUTO_INCREMENT);");
   ("CROSS", "SELECT a FROM t CROSS JOIN u;", "SELECT a FROM t zzz JOIN u;");
   ("CURRENT", "SELECT f(a) OVER (ORDER BY b ROWS BETWEEN UNBOUNDED PRECEDING AND CURRENT ROW) FROM t;", "SELECT f(a) OVER (ORDER BY b ROWS BETWEEN UNBOUNDED PRECEDING AND zzz ROW) FROM t;");
   ("DATE", "CREATE TABLE t (a date);", "CREATE TABLE t (a zzz);");
   ("DEFAULT", "CREATE TABLE t (a int) DEFAULT CHARSET = u;", "CREATE TABLE t (a int) zzz CHARSET = u;");
   ("DELETE", "DELETE FROM t;", "zzz FROM t;");
   ("DESC", "SELECT a FROM t ORDER BY a DESC;", "SELECT a FROM t ORDER BY a zzz;");
   ("DISTINCT", "SELECT DISTINCT a FROM t;", "SELECT zzz a FROM t;");
   ("DOUBLE", "CREATE TABLE t (a double precision);", "CREATE TABLE t (a zzz precision);");
   ("DROP", "DROP TABLE t CASCADE;", "zzz TABLE t CASCADE;");
   ("DUPLICATE", "INSERT INTO t VALUES (1) ON DUPLICATE KEY UPDATE a = 1;", "INSERT INTO t VALUES (1) ON zzz KEY UPDATE a = 1;");
   ("ELSE", "SELECT CASE WHEN a THEN b ELSE c END FROM t;", "SELECT CASE WHEN a THEN b zzz c END FROM t;");
   ("END", "SELECT CASE WHEN a THEN b ELSE c END FROM t;", "SELECT CASE WHEN a THEN b ELSE c zzz FROM t;");
   ("ENGINE", "CREATE TABLE t (a int) ENGINE = u;", "CREATE TABLE t (a int) zzz = u;");
   ("EXCEPT", "SELECT a FROM t EXCEPT SELECT b FROM u;", "SELECT a FROM t zzz SELECT b FROM u;");
   ("EXISTS", "SELECT a FROM t WHERE EXISTS (SELECT b FROM u);", "SELECT a FROM t WHERE zzz (SELECT b FROM u);");
   ("EXPLAIN", "EXPLAIN SELECT a FROM t;", "zzz SELECT a FROM t;");
   ("FALSE", "SELECT false FROM t;", "SELECT zzz FROM t;");
   ("FLOAT", "CREATE TABLE t (a float(3));", "CREATE TABLE t (a zzz(3));");
   ("FOLLOWING", "SELECT f(a) OVER (PARTITION BY b RANGE BETWEEN 1 PRECEDING AND 2 FOLLOWING) FROM t;", "SELECT f(a) OVER (PARTITION BY b RANGE BETWEEN 1 PRECEDING AND 2 zzz) FROM t;");
   ("FOREIGN", "CREATE TABLE t (FOREIGN KEY (a) REFERENCES u(b));", "CREATE TABLE t (zzz KEY (a) REFERENCES u(b));");
   ("FROM", "SELECT a FROM t UNION ALL SELECT b FROM u;", "SELECT a zzz t UNION ALL SELECT b zzz u;");
   ("FULL", "SELECT a FROM t FULL OUTER JOIN u ON a;", "SELECT a FROM t zzz OUTER JOIN u ON a;");
   ("GROUP", "SELECT a FROM t GROUP BY a;", "SELECT a FROM t zzz BY a;");
   ("GROUPS", "SELECT f(a) OVER (PARTITION BY b GROUPS CURRENT ROW) FROM t;", "SELECT f(a) OVER (PARTITION BY b zzz CURRENT ROW) FROM t;");
   ("HAVING", "SELECT a FROM t GROUP BY a HAVING b;", "SELECT a FROM t GROUP BY a zzz b;");
   ("IF", "DROP TABLE IF EXISTS t;", "DROP TABLE zzz EXISTS t;");
   ("IN", "SELECT a FROM t WHERE a IN (1);", "SELECT a FROM t WHERE a zzz (1);");
   ("INDEX", "CREATE INDEX i ON t (a);", "CREATE zzz i ON t (a);");
   ("INNER", "SELECT a FROM t INNER JOIN u ON a;", "SELECT a FROM t zzz JOIN u ON a;");
   ("INSERT", "INSERT INTO t VALUES (1) ON DUPLICATE KEY UPDATE a = 1;", "zzz INTO t VALUES (1) ON DUPLICATE KEY UPDATE a = 1;");
   ("INT", "ALTER TABLE t ADD COLUMN a int;", "ALTER TABLE t ADD COLUMN a zzz;");
   ("INTEGER", "CREATE TABLE t (a integer);", "CREATE TABLE t (a zzz);");
   ("INTERSECT", "SELECT a FROM t INTERSECT SELECT b FROM u;", "SELECT a FROM t zzz SELECT b FROM u;");
   ("INTO", "INSERT INTO t VALUES (1) ON DUPLICATE KEY UPDATE a = 1;", "INSERT zzz t VALUES (1) ON DUPLICATE KEY UPDATE a = 1;");
   ("IS", "SELECT a FROM t WHERE a IS NULL;", "SELECT a FROM t WHERE a zzz NULL;");
   ("JOIN", "SELECT a FROM t CROSS JOIN u;", "SELECT a FROM t CROSS zzz u;");
   ("KEY", "INSERT INTO t VALUES (1) ON DUPLICATE KEY UPDATE a = 1;", "INSERT INTO t VALUES (1) ON DUPLICATE zzz UPDATE a = 1;");
   ("LATERAL", "SELECT a FROM LATERAL (SELECT b FROM u) v;", "SELECT a FROM zzz (SELECT b FROM u) v;");
   ("LEFT", "SELECT a FROM t LEFT JOIN u ON a;", "SELECT a FROM t zzz JOIN u ON a;");
   ("LIKE", "SELECT a FROM t WHERE a LIKE b;", "SELECT a FROM t WHERE a zzz b;");
   ("LIMIT", "SELECT a FROM t u LIMIT 1 OFFSET 2;", "SELECT a FROM t u zzz 1 OFFSET 2;");
   ("MATERIALIZED", "CREATE MATERIALIZED VIEW v AS SELECT a FROM t;", "CREATE zzz VIEW v AS SELECT a FROM t;");
   ("NATURAL", "SELECT a FROM t NATURAL JOIN u;", "SELECT a FROM t zzz JOIN u;");
   ("NOT", "SELECT a FROM t WHERE NOT a;", "SELECT a FROM t WHERE zzz a;");
   ("NULL", "SELECT a FROM t WHERE a IS NULL;", "SELECT a FROM t WHERE a IS zzz;");
   ("NUMERIC", "CREATE TABLE t (a numeric(3));", "CREATE TABLE t (a zzz(3));");
   ("OFFSET", "SELECT a FROM t u LIMIT 1 OFFSET 2;", "SELECT a FROM t u LIMIT 1 zzz 2;");
   ("ON", "INSERT INTO t VALUES (1) ON DUPLICATE KEY UPDATE a = 1;", "INSERT INTO t VALUES (1) zzz DUPLICATE KEY UPDATE a = 1;");
   ("OR", "SELECT a FROM t WHERE a OR b;", "SELECT a FROM t WHERE a zzz b;");
   ("ORDER", "SELECT a FROM t ORDER BY a ASC;", "SELECT a FROM t zzz BY a ASC;");
   ("OUTER", "SELECT a FROM t FULL OUTER JOIN u ON a;", "SELECT a FROM t FULL zzz JOIN u ON a;");
   ("OVER", "SELECT f(a) OVER (ORDER BY b ROWS BETWEEN UNBOUNDED PRECEDING AND CURRENT ROW) FROM t;", "SELECT f(a) zzz (ORDER BY b ROWS BETWEEN UNBOUNDED PRECEDING AND CURRENT ROW) FROM t;");
   ("PARTITION", "SELECT f(a) OVER (PARTITION BY b RANGE BETWEEN 1 PRECEDING AND 2 FOLLOWING) FROM t;", "SELECT f(a) OVER (zzz BY b RANGE BETWEEN 1 PRECEDING AND 2 FOLLOWING) FROM t;");
   ("PRECEDING", "SELECT f(a) OVER (ORDER BY b ROWS BETWEEN UNBOUNDED PRECEDING AND CURRENT ROW) FROM t;", "SELECT f(a) OVER (ORDER BY b ROWS BETWEEN UNBOUNDED zzz AND CURRENT ROW) FROM t;");
   ("PRECISION", "CREATE TABLE t (a double precision);", "CREATE TABLE t (a double zzz);");
   ("PRIMARY", "CREATE TABLE t (PRIMARY KEY (a));", "CREATE TABLE t (zzz KEY (a));");
   ("RANGE", "SELECT f(a) OVER (PARTITION BY b RANGE BETWEEN 1 PRECEDING AND 2 FOLLOWING) FROM t;", "SELECT f(a) OVER (PARTITION BY b zzz BETWEEN 1 PRECEDING AND 2 FOLLOWING) FROM t;");
   ("REAL", "CREATE TABLE t (a real);", "CREATE TABLE t (a zzz);");
   ("REFERENCES", "CREATE TABLE t (FOREIGN KEY (a) REFERENCES u(b));", "CREATE TABLE t (FOREIGN KEY (a) zzz u(b));");
   ("REGCLASS", "CREATE TABLE t (a regclass);", "CREATE TABLE t (a zzz);");
   ("RIGHT", "SELECT a FROM t RIGHT JOIN u ON a;", "SELECT a FROM t zzz JOIN u ON a;");
   ("ROW", "SELECT f(a) OVER (ORDER BY b ROWS BETWEEN UNBOUNDED PRECEDING AND CURRENT ROW) FROM t;", "SELECT f(a) OVER (ORDER BY b ROWS BETWEEN UNBOUNDED PRECEDING AND CURRENT zzz) FROM t;");
   ("ROWS", "SELECT f(a) OVER (ORDER BY b ROWS BETWEEN UNBOUNDED PRECEDING AND CURRENT ROW) FROM t;", "SELECT f(a) OVER (ORDER BY b zzz BETWEEN UNBOUNDED PRECEDING AND CURRENT ROW) FROM t;");
   ("SELECT", "SELECT a FROM t UNION ALL SELECT b FROM u;", "zzz a FROM t UNION ALL zzz b FROM u;");
   ("SET", "UPDATE t SET a = 1;", "UPDATE t zzz a = 1;");
   ("SMALLINT", "CREATE TABLE t (a smallint);", "CREATE TABLE t (a zzz);");
   ("TABLE", "ALTER TABLE t ADD COLUMN a int;", "ALTER zzz t ADD COLUMN a int;");
   ("TEXT", "CREATE TABLE t (a text);", "CREATE TABLE t (a zzz);");
   ("THEN", "SELECT CASE WHEN a THEN b ELSE c END FROM t;", "SELECT CASE WHEN a zzz b ELSE c END FROM t;");
   ("TIME", "CREATE TABLE t (a time without time zone);", "CREATE TABLE t (a zzz without zzz zone);");
   ("TIMESTAMP", "CREATE TABLE t (a timestamp with time zone);", "CREATE TABLE t (a zzz with time zone);");
   ("TRUE", "SELECT true FROM t;", "SELECT zzz FROM t;");
   ("TYPE", "ALTER TABLE t ALTER COLUMN a TYPE int;", "ALTER TABLE t ALTER COLUMN a zzz int;");
   ("UNBOUNDED", "SELECT f(a) OVER (ORDER BY b ROWS BETWEEN UNBOUNDED PRECEDING AND CURRENT ROW) FROM t;", "SELECT f(a) OVER (ORDER BY b ROWS BETWEEN zzz PRECEDING AND CURRENT ROW) FROM t;");
   ("UNION", "SELECT a FROM t UNION ALL SELECT b FROM u;", "SELECT a FROM t zzz ALL SELECT b FROM u;");
   ("UNIQUE", "CREATE TABLE t (CONSTRAINT a UNIQUE(b));", "CREATE TABLE t (CONSTRAINT a zzz(b));");
   ("UNSIGNED", "CREATE TABLE t (a bigint unsigned);", "CREATE TABLE t (a bigint zzz);");
   ("UPDATE", "INSERT INTO t VALUES (1) ON DUPLICATE KEY UPDATE a = 1;", "INSERT INTO t VALUES (1) ON DUPLICATE KEY zzz a = 1;");
   ("USING", "SELECT a FROM t JOIN u USING (a);", "SELECT a FROM t JOIN u zzz (a);");
   ("UUID", "CREATE TABLE t (a uuid);", "CREATE TABLE t (a zzz);");
   ("VALUES", "INSERT INTO t VALUES (1) ON DUPLICATE KEY UPDATE a = 1;", "INSERT INTO t zzz (1) ON DUPLICATE KEY UPDATE a = 1;");
   ("VARCHAR", "CREATE TABLE t (a varchar(3));", "CREATE TABLE t (a zzz(3));");
   ("VARYING", "CREATE TABLE t (a character varying(3));", "CREATE TABLE t (a character zzz(3));");
   ("VIEW", "CREATE MATERIALIZED VIEW v AS SELECT a FROM t;", "CREATE MATERIALIZED zzz v AS SELECT a FROM t;");
   ("WHEN", "SELECT CASE WHEN a THEN b ELSE c END FROM t;", "SELECT CASE zzz a THEN b ELSE c END FROM t;");
   ("WHERE", "SELECT a FROM t WHERE a AND b;", "SELECT a FROM t zzz a AND b;");
   ("WITH", "CREATE TABLE t (a timestamp with time zone);", "CREATE TABLE t (a timestamp zzz time zone);");
   ("WITHOUT", "CREATE TABLE t (a time without time zone);", "CREATE TABLE t (a time zzz time zone);");
   ("ZONE", "CREATE TABLE t (a time without time zone);", "CREATE TABLE t (a time without time zzz);")].

Definition matters (k src src' : string) : Prop :=
  exists ts ts' l, tokenize generic true (gs src) = TOk ts /\ tokenize generic true (gs src') = TOk ts' /\
    map kv (sig ts') = map (reworded k) (map kv (sig ts)) /\
    parse_source generic (gs src) = ROk l /\
    res_map (map bare_stmt) (parse_source generic (gs src')) <> ROk (map bare_stmt (map (rn_stmt (other_word k)) l)).
Definition printed (r : result (list stmt)) : option (list gostring) :=
  match r with ROk l => Some (map sql_stmt l) | _ => None end.

Definition tokens_of (src : string) : list token := match tokenize generic true (gs src) with TOk ts => ts | _ => [] end.
Definition trees_of (src : string) : list stmt := match parse_source generic (gs src) with ROk l => l | _ => [] end.

Theorem C53_vocabulary_exact : forall k, In k vocabulary -> exists src src', matters k src src'.
Proof.
  assert (V : map (fun c => fst (fst c)) witnesses = vocabulary) by reflexivity.
  intros k I. rewrite <- V in I. apply in_map_iff in I as [[[k' s] s'] [<- I]]. exists s, s'. cbn [fst].
  unfold witnesses in I. cbn [In] in I.
  repeat (destruct I as [I|I];
    [injection I as <- <- <-;
     match goal with |- matters ?k ?a ?b => exists (tokens_of a), (tokens_of b), (trees_of a) end;
     split; [vm_compute; reflexivity|]; split; [vm_compute; reflexivity|]; split; [vm_compute; reflexivity|];
     split; [vm_compute; reflexivity|]; intros X; apply (f_equal printed) in X; vm_compute in X; discriminate X|]).
  contradiction.
Qed.
Print Assumptions C53_vocabulary_exact.

(** False of quoted names: a quoted word of the vocabulary is no name.  Putting
    "select" for a changes the reading although both are identifiers. *)
Theorem C53_quoted_refuted : exists f d e, dialect_words d /\ keeps_names d f /\ wf_node d e = true /\
  ~ read_back parse_expr bare_node d (sql_node (rn_node f e)) (rn_node f e).
Proof.
  exists (instead (gs "a") [34; 115; 101; 108; 101; 99; 116; 34]), generic,
    (ENested (EIdent (mkIdent (gs "a") pos0 pos0)) pos0 pos0).
  split; [|split; [|split]].
  - destruct shipped_ok as (H1 & _ & _). split; [assumption|]. split; [|split; reflexivity]. intros c L.
    cbn [is_start is_part generic]; rewrite L; split; reflexivity.
  - intros i I. unfold rn_ident, instead. destruct (gs_eqb (id_value i) (gs "a")); [reflexivity|exact I].
  - vm_compute. reflexivity.
  - intros (toks & y & st & T & C & E & Q). vm_compute in T. injection T as <-. vm_compute in C. discriminate C.
Qed.
Print Assumptions C53_quoted_refuted.

(** *** Cases *)

Definition accounts : gostring -> gostring := instead (gs "users") (gs "accounts").
Example C53_ex_renaming : renaming accounts /\ keeps_names mysql accounts.
Proof.
  destruct (C53_instead (gs "users") (gs "accounts") eq_refl eq_refl) as [H K]. split; [exact H|].
  exact (K mysql pos0 eq_refl).
Qed.
Example C53_ex_texts :
  let a := "SELECT users.id, count(*) AS n FROM users JOIN orders o ON users.id = o.owner WHERE users.name LIKE 'users%' GROUP BY users.id HAVING n > 1 ORDER BY n DESC; INSERT INTO users (id) VALUES (1);" in
  let b := "SELECT accounts.id, count(*) AS n FROM accounts JOIN orders o ON accounts.id = o.owner WHERE accounts.name LIKE 'users%' GROUP BY accounts.id HAVING n > 1 ORDER BY n DESC; INSERT INTO accounts (id) VALUES (1);" in
  renamed_tokens accounts (tokens_of a) (tokens_of b) /\ List.length (trees_of a) = 2%nat /\
  forallb (wf_stmt generic) (trees_of a) = true /\
  map sql_stmt (map (rn_stmt accounts) (trees_of a)) = map sql_stmt (trees_of b).
Proof. vm_compute. repeat split; reflexivity. Qed.
