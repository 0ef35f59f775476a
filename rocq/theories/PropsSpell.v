(** Property C58: every spelling of a tree is read as this tree. *)
From Coq Require Import ZArith String List Bool Lia.
From Verif Require Import Base Dialect Token Lexer AST Num Erase Prog Parser ParseSpec Render Spell RoundSpec SrcThms LayoutSpec SpRound.
Import ListNotations.
Open Scope list_scope.
Open Scope Z_scope.

(** C58.  A [style] (Spell.v) chooses, at every place where the syntax leaves a
    choice, which of the spellings is used: AS or nothing before an alias, [!=]
    or [<>], CAST(x AS t) or x::t, the names of the types, UNIQUE or UNIQUE
    KEY, and the order of a column's DEFAULT, AUTO_INCREMENT and constraints.
    [s_script] is the spelling of a list of statements in a style, and
    [ok_stmt] says which statements it can spell.  In every style, any text
    with these tokens, in any layout and letter case, is read by ParseSQL as
    these statements. *)
Theorem C58_scripts : forall (sty : style) d src ss, dialect_words d -> forallb (ok_stmt d) ss = true -> spells d src (s_script ss) ->
  exists ss', parse_source d src = ROk ss' /\ map caseless_stmt ss' = map caseless_stmt ss.
Proof.
  intros sty d src ss D W S. destruct (script_spelling d src ss false D W S) as (toks & y & st & T & C & E & _). exists y. split; [|exact E].
  unfold parse_source, parse_with. rewrite T. change (run_raw (parse_sql false) toks) with (call (parse_sql false) [] toks). rewrite C. reflexivity.
Qed.
Print Assumptions C58_scripts.

(** ParseFile. *)
Theorem C58_script_files : forall (sty : style) d src ss, dialect_words d -> forallb (ok_stmt d) ss = true -> spells d src (s_script ss) ->
  exists f, parse_file d src = ROk f /\ map caseless_stmt (f_stmts f) = map caseless_stmt ss.
Proof.
  intros sty d src ss D W S. destruct (C58_scripts sty d src ss D W S) as (ss' & H & E).
  pose proof (parse_file_source d src (proj1 D)) as F. rewrite H in F.
  destruct (parse_file d src) as [f| | |]; try discriminate F. injection F as F. exists f. rewrite F. auto.
Qed.
Print Assumptions C58_script_files.

(** ParseExpr on an expression that a semicolon follows: the semicolon is left. *)
Theorem C58_expressions : forall (sty : style) d src e, dialect_words d -> ok_node d e = true -> spells d src (s_node e ++ [semi]) ->
  exists toks e' st, tokenize d true src = TOk toks /\ call parse_expr [] toks = Ok e' st /\
    caseless_node e' = caseless_node e /\ map (er_tok Erase.no_pos asc_up) (sig (snd st)) = [semi].
Proof. exact @node_spelling. Qed.
Print Assumptions C58_expressions.

(** Two texts that spell the same statements, each in a style of its own, are
    read as the same trees. *)
Theorem C58_style_free : forall (s1 s2 : style) d a b ss, dialect_words d ->
  forallb (@ok_stmt s1 d) ss = true -> spells d a (@s_script s1 ss) ->
  forallb (@ok_stmt s2 d) ss = true -> spells d b (@s_script s2 ss) ->
  exists x y, parse_source d a = ROk x /\ parse_source d b = ROk y /\ map caseless_stmt x = map caseless_stmt y.
Proof.
  intros s1 s2 d a b ss D W1 A W2 B. destruct (C58_scripts s1 d a ss D W1 A) as (x & X1 & X2).
  destruct (C58_scripts s2 d b ss D W2 B) as (y & Y1 & Y2). exists x, y. split; [exact X1|]. split; [exact Y1|congruence].
Qed.
Print Assumptions C58_style_free.

(** A script in a style that takes none of the spellings the printer uses. *)
Definition loose : style := mkStyle (fun _ => false) (fun _ => false) (fun _ => false) (fun _ => 1%nat) (fun _ => true) (fun _ => CAD).
Example C58_case : exists ss,
  spells mysql (gs "select a x, b::integer + 1 y from T u join S v on u.id <> v.id where c::timestamp without time zone <> d;
create table t (id integer not null unique auto_increment default 1, n char varying(10), unique key (id)) engine=innodb default charset=utf8;
create table s charset utf8; create index on t using btree where a <> 1;") (@s_script loose ss)
  /\ forallb (@ok_stmt loose mysql) ss = true /\ List.length ss = 4%nat.
Proof.
  exists (match parse_source mysql (gs "SELECT a AS x, CAST(b AS int) + 1 AS y FROM T AS u JOIN S AS v ON u.id != v.id WHERE CAST(c AS timestamp) != d;
CREATE TABLE t (id int DEFAULT 1 AUTO_INCREMENT NOT NULL UNIQUE, n character varying(10), UNIQUE (id)) ENGINE=innodb DEFAULT CHARSET=utf8;
CREATE TABLE s CHARSET utf8; CREATE INDEX ON t USING btree WHERE a != 1;") with ROk l => l | _ => [] end).
  split; [eexists|]; vm_compute; split; reflexivity.
Qed.
