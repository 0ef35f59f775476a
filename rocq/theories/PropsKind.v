(** Property C78: the first word tells the kind of a statement. *)
From Coq Require Import ZArith List Bool String.
From Verif Require Import Base Dialect Token Lexer LexSpec AST Prog Parser ParseSpec KindSpec KindThms.
Import ListNotations.
Open Scope string_scope.
Open Scope list_scope.
Open Scope Z_scope.

(** C78.  The statement ParseStatement returns has the type that goes with the
    first word in front of the parser, and behind EXPLAIN with the next. *)
Theorem C78_statement : forall done todo s st, Forall tok_wf todo -> call parse_statement done todo = Ok s st -> opens s (sig todo).
Proof. exact statement_kind. Qed.
Print Assumptions C78_statement.

(** For every statement ParseSQL returns there is such a word in the text. *)
Theorem C78_script : forall pc done todo l st, Forall tok_wf todo -> call (parse_sql pc) done todo = Ok l st ->
  Forall (fun s => exists a b, sig todo = a ++ b /\ opens s b) l.
Proof. exact sql_kind. Qed.
Print Assumptions C78_script.

(** So a text in which no token is one of the words INSERT, UPDATE, DELETE, CREATE,
    ALTER and DROP gives queries and explained queries only. *)
Theorem C78_guard : forall d src ts l, dialect_ok d -> tokenize d true src = TOk ts -> Forall (fun t => ~ one_of other_words t) ts ->
  parse_source d src = ROk l -> Forall (fun s => only_query s = true) l.
Proof. exact guard. Qed.
Print Assumptions C78_guard.

(** The same for ParseFile. *)
Theorem C78_guard_file : forall d src ts f, dialect_ok d -> tokenize d true src = TOk ts -> Forall (fun t => ~ one_of other_words t) ts ->
  parse_file d src = ROk f -> Forall (fun s => only_query s = true) (f_stmts f).
Proof. exact guard_file. Qed.
Print Assumptions C78_guard_file.

(** And for one word: where no token is the word, no statement of its kind is
    returned, not even behind EXPLAIN. *)
Theorem C78_guard_word : forall k d src ts l, dialect_ok d -> tokenize d true src = TOk ts -> Forall (fun t => ~ one_of [k] t) ts ->
  parse_source d src = ROk l -> Forall (fun s => first_words (explained s) <> [k]) l.
Proof. exact guard_word. Qed.
Print Assumptions C78_guard_word.

(** The second word tells the rest: what CREATE and DROP are about, INSERT INTO,
    DELETE FROM and ALTER TABLE. *)
Theorem C78_second : forall done todo s st, call parse_statement done todo = Ok s st -> goes_on s (sig todo).
Proof. exact statement_second. Qed.
Print Assumptions C78_second.

Theorem C78_script_second : forall pc done todo l st, Forall tok_wf todo -> call (parse_sql pc) done todo = Ok l st ->
  Forall (fun s => exists a b, sig todo = a ++ b /\ opens s b /\ goes_on s b) l.
Proof. exact sql_both. Qed.
Print Assumptions C78_script_second.

(** Examples. *)
Definition tokens_of (src : list rune) : list token := match tokenize generic true src with TOk ts => ts | _ => [] end.
Definition kinds_of (src : list rune) : list (list string) := match parse_source generic src with ROk l => map first_words l | _ => [] end.
Definition reads_only : list rune := gs "WITH a AS (SELECT 1) SELECT 'drop' FROM a; EXPLAIN SELECT 2;".
Example C78_ex :
  kinds_of (gs "drop TABLE a; explain DELETE FROM t; INSERT INTO t VALUES (1);") = [["DROP"]; ["EXPLAIN"]; ["INSERT"]] /\
  kinds_of reads_only = [["SELECT"; "WITH"]; ["EXPLAIN"]] /\
  Forall (fun t => ~ one_of other_words t) (tokens_of reads_only).
Proof.
  split; [vm_compute; reflexivity|]. split; [vm_compute; reflexivity|].
  apply Forall_forall. intros x I (w & V & H).
  assert (X : forallb (fun t => match tval t with VWord w => negb (existsb (fun s => gs_eqb (upper (wvalue w)) s) (map gs other_words)) | VStr _ => true end) (tokens_of reads_only) = true) by (vm_compute; reflexivity).
  rewrite forallb_forall in X. specialize (X x I). rewrite V in X. apply negb_true_iff in X.
  rewrite <- not_true_iff_false in X. apply X. apply existsb_exists. exists (upper (wvalue w)). split; [exact H|]. apply Sound.gs_eqb_refl.
Qed.

(** "The first word of the text is enough" is false: EXPLAIN may stand in front of
    a statement that is not a query.  And a text may begin with a quoted word. *)
Theorem C78_first_refuted : exists a b, kinds_of a = [["EXPLAIN"]] /\ kinds_of b = [["DROP"]] /\
  hd_error b = Some 34 /\ match parse_source generic a with ROk [s] => only_query s | _ => true end = false.
Proof. exists (gs "EXPLAIN DELETE FROM t;"), (gs """drop"" TABLE t;"). repeat split; vm_compute; reflexivity. Qed.
Print Assumptions C78_first_refuted.

Definition seconds_of (src : list rune) : list (list string) := match parse_source generic src with ROk l => map (fun s => second_words (explained s)) l | _ => [] end.
Example C78_second_ex :
  seconds_of (gs "create unique index i on t (a); drop index i; DROP TABLE t; explain delete from t; create materialized view v as select 1; select 1;") =
    [["INDEX"; "UNIQUE"]; ["INDEX"]; ["TABLE"]; ["FROM"]; ["MATERIALIZED"; "VIEW"]; []] /\
  forallb (fun t => match tval t with VWord w => negb (gs_eqb (upper (wvalue w)) (gs "DROP")) | VStr _ => true end) (tokens_of reads_only) = true /\
  (exists f, parse_file generic reads_only = ROk f /\ List.length (f_stmts f) = 2%nat).
Proof. split; [vm_compute; reflexivity|]. split; [vm_compute; reflexivity|]. eexists. split; [vm_compute; reflexivity|reflexivity]. Qed.
