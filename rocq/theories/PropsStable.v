(** Property C18: parse, print, parse is stable. *)
From Coq Require Import ZArith String List Bool Lia.
From Verif Require Import Base Dialect Token Lexer AST Num Nodes Erase Prog Parser ParseSpec LexSpec LexFacts Printer Render RoundSpec StableSpec
  SrcThms PrintPos StableThms PropsRound.
Import ListNotations.
Open Scope list_scope.
Open Scope Z_scope.

(** C18.  A parser in any state over the tokens of a text answers ParseExpr
    with a tree whose nodes are all [clean] (StableSpec.v): the text of this tree
    is read as the same tree, up to positions, and nothing is left. *)
Theorem C18_expressions : forall d src done todo e st, dialect_words d ->
  tokenize d true src = TOk (rev done ++ todo) -> call parse_expr done todo = Ok e st ->
  printable (AExpr e) -> read_back parse_expr bare_node d (sql_node e) e.
Proof. exact (fun d src done todo e st D => expr_stable d D src done todo e st). Qed.
Print Assumptions C18_expressions.

(** Data types need no further condition but that BIGINT may not end a text. *)
Theorem C18_data_types : forall d src done todo t st, dialect_words d ->
  tokenize d true src = TOk (rev done ++ todo) -> call parse_data_type done todo = Ok t st ->
  ends_type t = true -> read_back parse_data_type bare_dtype d (sql_dtype t) t.
Proof. exact (fun d src done todo e st D => dtype_stable d D src done todo e st). Qed.
Print Assumptions C18_data_types.

(** Statements that may end a text. *)
Theorem C18_statements : forall d src done todo s st, dialect_words d ->
  tokenize d true src = TOk (rev done ++ todo) -> call parse_statement done todo = Ok s st ->
  printable (of_stmt s) -> ends_stmt s = true -> read_back parse_statement bare_stmt d (sql_stmt s) s.
Proof. exact (fun d src done todo e st D => stmt_stable d D src done todo e st). Qed.
Print Assumptions C18_statements.

(** Whole texts: the statements of an accepted text, each printed, closed with a
    semicolon and followed by blanks [ws], are read as the same statements. *)
Theorem C18_scripts : forall d src ss ws, dialect_words d -> parse_source d src = ROk ss ->
  Forall (fun s => printable (of_stmt s)) ss -> List.length ws = List.length ss -> forallb blanks ws = true ->
  exists ss', parse_source d (script (combine ss ws)) = ROk ss' /\ map bare_stmt ss' = map bare_stmt ss.
Proof.
  intros d src ss ws D P W N B. destruct (GrammarThms.with_call _ _ _ _ P) as (toks & st & T & C).
  destruct (script_stable d D false src [] toks ss st ws T C W N B) as (toks' & y & st' & T' & C' & E & _).
  exists y. split; [|exact E]. unfold parse_source, parse_with. rewrite T'.
  change (run_raw (parse_sql false) toks') with (call (parse_sql false) [] toks'). rewrite C'. reflexivity.
Qed.
Print Assumptions C18_scripts.

(** The same with ParseFile. *)
Theorem C18_script_files : forall d src f ws, dialect_words d -> parse_file d src = ROk f ->
  Forall (fun s => printable (of_stmt s)) (f_stmts f) -> List.length ws = List.length (f_stmts f) -> forallb blanks ws = true ->
  exists f', parse_file d (script (combine (f_stmts f) ws)) = ROk f' /\ map bare_stmt (f_stmts f') = map bare_stmt (f_stmts f).
Proof.
  intros d src f ws D P W N B. pose proof (parse_file_source d src (proj1 D)) as F. rewrite P in F. symmetry in F.
  destruct (C18_scripts d src (f_stmts f) ws D F W N B) as (ss & H & E).
  pose proof (parse_file_source d (script (combine (f_stmts f) ws)) (proj1 D)) as F'. rewrite H in F'.
  destruct (parse_file d (script (combine (f_stmts f) ws))) as [f'| | |]; try discriminate F'. injection F' as F'.
  exists f'. rewrite F'. auto.
Qed.
Print Assumptions C18_script_files.

(** Trees that agree up to positions have the same text; so the printed form of
    what is read above is the printed form it was read from. *)
Theorem C18_same_text :
  (forall a b, bare_node a = bare_node b -> sql_node a = sql_node b) /\
  (forall a b, bare_dtype a = bare_dtype b -> sql_dtype a = sql_dtype b) /\
  (forall a b, bare_stmt a = bare_stmt b -> sql_stmt a = sql_stmt b).
Proof. split; [exact same_text_node|]. split; [exact same_text_dtype|exact same_text_stmt]. Qed.
Print Assumptions C18_same_text.
Theorem C18_fixed_point : forall d src ss ws, dialect_words d -> parse_source d src = ROk ss ->
  Forall (fun s => printable (of_stmt s)) ss -> List.length ws = List.length ss -> forallb blanks ws = true ->
  exists ss', parse_source d (script (combine ss ws)) = ROk ss' /\ script (combine ss' ws) = script (combine ss ws).
Proof.
  intros d src ss ws D P W N B. destruct (C18_scripts d src ss ws D P W N B) as (ss' & H & E). exists ss'. split; [exact H|].
  apply same_text_script. exact E.
Qed.
Print Assumptions C18_fixed_point.

(** *** The excluded classes are needed

    [unstable P er pr src]: [P] accepts [src], but reads the text of the tree
    as another tree or not at all. *)
Definition unstable {A} (P : rec -> prog A) (er : A -> A) (pr : A -> list rune) (src : string) : Prop :=
  exists x, parse_with P generic (gs src) = ROk x /\ forall y, parse_with P generic (pr x) = ROk y -> er y <> er x.
Definition one_script (l : list stmt) : list rune := script (map (fun s => (s, gs " ")) l).
Ltac unstable := unfold unstable; match goal with |- exists x, ?p = _ /\ _ => let v := eval vm_compute in p in match v with ROk ?x => exists x end end;
  split; [vm_compute; reflexivity|]; intros y H; vm_compute in H; first [discriminate H|injection H as <-; vm_compute; discriminate].

(** A quote in a string literal is printed as it is. *)
Theorem C18_quotes_refuted : unstable parse_expr bare_node sql_node "'it''s'" /\ unstable parse_expr bare_node sql_node "N'it''s'".
Proof. split; unstable. Qed.
(** 1.0 is printed as 1. *)
Theorem C18_integral_refuted : unstable parse_expr bare_node sql_node "1.0".
Proof. unstable. Qed.
(** The arguments of a table function; only without their closing parenthesis
    does the parser accept them. *)
Theorem C18_arguments_refuted : unstable (parse_sql false) (map bare_stmt) one_script "SELECT a FROM f(b;".
Proof. unstable. Qed.
(** DEFAULT moves in front of NOT NULL. *)
Theorem C18_default_refuted : unstable (parse_sql false) (map bare_stmt) one_script "CREATE TABLE t (a int NOT NULL DEFAULT b AND c);".
Proof. unstable. Qed.
(** Two table options; no elements; no index columns. *)
Theorem C18_create_refuted :
  unstable (parse_sql false) (map bare_stmt) one_script "CREATE TABLE t (a int) ENGINE = x CHARSET = y;" /\
  unstable (parse_sql false) (map bare_stmt) one_script "CREATE TABLE t;" /\
  unstable (parse_sql false) (map bare_stmt) one_script "CREATE INDEX i ON t;".
Proof. split; [|split]; unstable. Qed.
(** BIGINT, and an item of a select list, at the end of a text. *)
Theorem C18_endings_refuted : unstable parse_data_type bare_dtype sql_dtype "bigint x" /\ unstable parse_statement bare_stmt sql_stmt "SELECT 1;".
Proof. split; unstable. Qed.
Print Assumptions C18_endings_refuted.

(** *** Cases *)

Definition sample : string := "select DISTINCT a , b c, t.* from t u cross join v, (select 1 from x) y where not a between 1 and -2 or b in (1,2) group by a having count(*) > 1.5 union all select 1 from z order by a asc, b limit 10; insert into t (a,b) values (1,'x'),(2,null); update t set a = 1 where c; create table t (a int default 1 not null, b varchar(10) references u (c), primary key (a)) engine = innodb; alter table t add column c bigint; drop table t; explain select CASE WHEN a THEN b::int ELSE (c) END from t;".
Example C18_ex :
  exists ss, parse_source generic (gs sample) = ROk ss /\ List.length ss = 7%nat /\ Forall (fun s => printable (of_stmt s)) ss /\
    gs sample <> script (combine ss (repeat (gs " ") 7)).
Proof.
  match goal with |- exists x, ?p = _ /\ _ => let v := eval vm_compute in p in match v with ROk ?x => exists x end end.
  split; [vm_compute; reflexivity|]. split; [reflexivity|]. split; [|vm_compute; discriminate].
  repeat constructor; apply (all_clean_printable 30); vm_compute; reflexivity.
Qed.
Example C18_ex_expr :
  exists e, parse_expr_source generic (gs "a+b*(-c) between 1 and 2 and x='y'") = ROk e /\ printable (AExpr e).
Proof.
  match goal with |- exists x, ?p = _ /\ _ => let v := eval vm_compute in p in match v with ROk ?x => exists x end end.
  split; [vm_compute; reflexivity|]. apply (all_clean_printable 30); vm_compute; reflexivity.
Qed.

(** C40: whatever happens to the positions of a tree, its text stays. *)
Theorem C40_positions_not_printed : forall fp : pos -> pos,
  (forall e, sql_node (er_node fp same_rune e) = sql_node e) /\
  (forall t, sql_dtype (er_dtype fp same_rune t) = sql_dtype t) /\
  (forall q, sql_query (er_query fp same_rune q) = sql_query q) /\
  (forall s, sql_stmt (er_stmt fp same_rune s) = sql_stmt s) /\
  (forall ss cs cs', sql_file (mkFile (map (er_stmt fp same_rune) ss) cs) = sql_file (mkFile ss cs')).
Proof.
  intros fp. unfold sql_node, sql_dtype, sql_query, sql_stmt, sql_file, wt_file. cbn [f_stmts].
  repeat split; intros; rewrite ?p_node, ?p_dtype, ?p_query, ?p_stmt, ?(map_map_ext wt_stmt _ _ (p_stmt fp)); reflexivity.
Qed.
Print Assumptions C40_positions_not_printed.
Example C40_ex : exists s, parse_stmt_source generic (gs "SELECT a, b FROM t WHERE a = 1 ORDER BY b DESC LIMIT 5;") = ROk s /\
  bare_stmt s <> s /\ sql_stmt (bare_stmt s) = gs "SELECT a, b FROM t WHERE a = 1 ORDER BY b DESC LIMIT 5".
Proof.
  match goal with |- exists x, ?p = _ /\ _ => let v := eval vm_compute in p in match v with ROk ?x => exists x end end.
  split; [vm_compute; reflexivity|]. split; [|vm_compute; reflexivity]. vm_compute. discriminate.
Qed.
