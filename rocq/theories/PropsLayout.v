(** Properties C41 and C42: any layout of a tree is read; printing is
    injective. *)
From Coq Require Import ZArith String List Bool Lia.
From Verif Require Import Base Dialect Token Lexer AST Num Erase Prog Parser ParseSpec Printer Render RoundSpec SrcThms LayoutSpec LayoutThms.
Import ListNotations.
Open Scope list_scope.
Open Scope Z_scope.

(** C41.  [t_node], [t_type], [t_stmt] (Render.v) are the tokens of a tree.
    Whatever text spells the tokens of a readable expression, with any blanks,
    line ends and comments between them and any letter case, ParseExpr reads it
    as this expression, and nothing is left. *)
Theorem C41_expressions : forall d src e, dialect_words d -> wf_node d e = true -> spells d src (t_node e) ->
  read_back parse_expr caseless_node d src e.
Proof. exact node_layout. Qed.
Print Assumptions C41_expressions.

Theorem C41_data_types : forall d src t, dialect_words d -> wf_type d t = true -> ends_type t = true -> spells d src (t_type t) ->
  read_back parse_data_type caseless_dtype d src t.
Proof. exact dtype_layout. Qed.
Print Assumptions C41_data_types.

Theorem C41_statements : forall d src s, dialect_words d -> wf_stmt d s = true -> ends_stmt s = true -> spells d src (t_stmt s) ->
  read_back parse_statement caseless_stmt d src s.
Proof. exact stmt_layout. Qed.
Print Assumptions C41_statements.

(** ParseSQL and ParseFile on any number of statements. *)
Theorem C41_scripts : forall d src ss, dialect_words d -> forallb (wf_stmt d) ss = true -> spells d src (t_script ss) ->
  exists ss', parse_source d src = ROk ss' /\ map caseless_stmt ss' = map caseless_stmt ss.
Proof.
  intros d src ss D W S. destruct (script_layout d src ss false D W S) as (toks & y & st & T & C & E & _). exists y. split; [|exact E].
  unfold parse_source, parse_with. rewrite T. change (run_raw (parse_sql false) toks) with (call (parse_sql false) [] toks). rewrite C. reflexivity.
Qed.
Print Assumptions C41_scripts.

Theorem C41_script_files : forall d src ss, dialect_words d -> forallb (wf_stmt d) ss = true -> spells d src (t_script ss) ->
  exists f, parse_file d src = ROk f /\ map caseless_stmt (f_stmts f) = map caseless_stmt ss.
Proof.
  intros d src ss D W S. destruct (C41_scripts d src ss D W S) as (ss' & H & E).
  pose proof (parse_file_source d src (proj1 D)) as F. rewrite H in F.
  destruct (parse_file d src) as [f| | |]; try discriminate F. injection F as F. exists f. rewrite F. auto.
Qed.
Print Assumptions C41_script_files.

(** Two texts that spell the same statements are read as the same trees. *)
Theorem C41_layout_free : forall d a b ss, dialect_words d -> forallb (wf_stmt d) ss = true ->
  spells d a (t_script ss) -> spells d b (t_script ss) ->
  exists x y, parse_source d a = ROk x /\ parse_source d b = ROk y /\ map caseless_stmt x = map caseless_stmt y.
Proof.
  intros d a b ss D W A B. destruct (C41_scripts d a ss D W A) as (x & X1 & X2). destruct (C41_scripts d b ss D W B) as (y & Y1 & Y2).
  exists x, y. split; [exact X1|]. split; [exact Y1|congruence].
Qed.
Print Assumptions C41_layout_free.

(** A text with comments, tabs, line ends and letters in any case. *)
Example C41_case : exists ss,
  spells generic (gs "select A,b /* first */ as C
	from  T where a+B>=1 -- last
 ; drop  TABLE if exists T;") (t_script ss) /\ forallb (wf_stmt generic) ss = true /\ List.length ss = 2%nat.
Proof.
  exists (match parse_source generic (gs "SELECT a, b AS c FROM t WHERE a + b >= 1; DROP TABLE IF EXISTS t;") with ROk l => l | _ => [] end).
  split; [eexists|]; vm_compute; split; reflexivity.
Qed.

(** C42.  Trees with the same text are the same but for positions. *)
Theorem C42_expressions : forall d a b, dialect_words d -> wf_node d a = true -> wf_node d b = true ->
  sql_node a = sql_node b -> bare_node a = bare_node b.
Proof. exact node_inj. Qed.
Print Assumptions C42_expressions.

Theorem C42_data_types : forall d a b, dialect_words d -> wf_type d a = true -> ends_type a = true -> wf_type d b = true -> ends_type b = true ->
  sql_dtype a = sql_dtype b -> bare_dtype a = bare_dtype b.
Proof. exact dtype_inj. Qed.
Print Assumptions C42_data_types.

Theorem C42_statements : forall d a b, dialect_words d -> wf_stmt d a = true -> wf_stmt d b = true ->
  sql_stmt a = sql_stmt b -> bare_stmt a = bare_stmt b.
Proof. exact stmt_inj. Qed.
Print Assumptions C42_statements.

(** For trees in general it is false: the printer adds no parentheses and no
    quotes. *)
Definition word_of (s : string) : node := EIdent (mkIdent (gs s) pos0 pos0).
Definition sum_of a b := EBinary a (mkOp OPlus pos0 pos0) b.
Definition times_of a b := EBinary a (mkOp OMultiply pos0 pos0) b.
Theorem C42_any_tree_refuted : forall p,
  In p [(times_of (sum_of (word_of "a") (word_of "b")) (word_of "c"), sum_of (word_of "a") (times_of (word_of "b") (word_of "c")));
        (word_of "a.b", ECompound [mkIdent (gs "a") pos0 pos0; mkIdent (gs "b") pos0 pos0]);
        (EDouble pos0 pos0 (mkF 4503599627370496 (-51)), ELong (mkLong pos0 pos0 2));
        (EString pos0 pos0 (gs "a' + 'b"), sum_of (EString pos0 pos0 (gs "a")) (EString pos0 pos0 (gs "b")))] ->
  sql_node (fst p) = sql_node (snd p) /\ bare_node (fst p) <> bare_node (snd p) /\
  wf_node generic (fst p) = false /\ wf_node generic (snd p) = true.
Proof.
  intros p I. repeat destruct I as [<-|I]; try contradiction;
    (split; [vm_compute; reflexivity|]; split; [vm_compute; discriminate|]; vm_compute; split; reflexivity).
Qed.
Print Assumptions C42_any_tree_refuted.

Example C42_case : exists a b, wf_node generic a = true /\ wf_node generic b = true /\ sql_node a = sql_node b /\ a <> b.
Proof.
  exists (match parse_expr_source generic (gs "a + b * c IN (1, 'x')") with ROk e => e | _ => word_of "" end),
    (match parse_expr_source generic (gs "a  +  b  *  c  in(1,  'x')") with ROk e => e | _ => word_of "" end).
  vm_compute. repeat split. discriminate.
Qed.
