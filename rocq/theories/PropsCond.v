(** Property C79: the condition of a DELETE or UPDATE comes from a WHERE. *)
From Coq Require Import ZArith List Bool String.
From Verif Require Import Base Dialect Token Lexer LexSpec AST Prog Parser ParseSpec Grammar KindSpec CondSpec CondThms.
Import ListNotations.
Open Scope string_scope.
Open Scope list_scope.
Open Scope Z_scope.

(** C79.  When ParseStatement returns a DELETE or UPDATE with a condition, it has
    read a WHERE; when it returns one without, the next token is not WHERE: no
    condition is left unread. *)
Theorem C79_statement : forall done todo s st, call parse_statement done todo = Ok s st ->
  exists read, sig todo = read ++ sig (snd st) /\ conditioned s read (sig (snd st)).
Proof. exact statement_condition. Qed.
Print Assumptions C79_statement.

(** The same for every statement ParseSQL returns. *)
Theorem C79_script : forall pc done todo l st, Forall tok_wf todo -> call (parse_sql pc) done todo = Ok l st ->
  Forall (fun s => exists a read rest, sig todo = a ++ read ++ rest /\ opens s (read ++ rest) /\ conditioned s read rest) l.
Proof. exact sql_condition. Qed.
Print Assumptions C79_script.

(** And exactly: the tokens of a DELETE or UPDATE without a condition are its words,
    its name and its assignments; with one, they go on with WHERE and the tokens of
    the condition, and nothing follows. *)
Theorem C79_exact : forall done todo s st, Forall tok_wf todo -> Forall placed todo -> call parse_statement done todo = Ok s st ->
  exists used, sig todo = used ++ sig (snd st) /\ accounts s used.
Proof. exact statement_accounts. Qed.
Print Assumptions C79_exact.

(** So a text in which no token is WHERE gives no condition. *)
Theorem C79_none : forall d src ts l, dialect_ok d -> tokenize d true src = TOk ts -> Forall (fun t => ~ where_tok t) ts ->
  parse_source d src = ROk l -> Forall (fun s => forall e, condition s <> Some (Some e)) l.
Proof. exact no_where. Qed.
Print Assumptions C79_none.

(** Examples. *)
Definition conds_of (src : list rune) : list (option bool) :=
  match parse_source generic src with
  | ROk l => map (fun s => match condition s with Some (Some _) => Some true | Some None => Some false | None => None end) l
  | _ => []
  end.
Definition toks_of (src : list rune) : list token := match tokenize generic true src with TOk ts => ts | _ => [] end.
Definition wheres (src : list rune) : nat :=
  List.length (filter (fun t => match tval t with VWord w => equal_fold (wvalue w) (gs "WHERE") | VStr _ => false end) (toks_of src)).
Definition script : list rune :=
  gs "DELETE FROM a where b = 1; UPDATE t SET c = 1; explain update t set c = 2 WHERE d; SELECT 1 WHERE b;".
Example C79_ex : conds_of script = [Some true; Some false; Some true; None] /\ wheres script = 3%nat /\
  conds_of (gs "DELETE FROM t; UPDATE t SET c = 'where';") = [Some false; Some false] /\
  wheres (gs "DELETE FROM t; UPDATE t SET c = 'where';") = 0%nat.
Proof. repeat split; vm_compute; reflexivity. Qed.

(** "A WHERE in the statement gives a condition" is false: it may belong to a
    subquery, or be the name of the table. *)
Theorem C79_where_refuted : exists a b, conds_of a = [Some false] /\ wheres a = 1%nat /\ conds_of b = [Some false] /\ wheres b = 1%nat.
Proof. exists (gs "UPDATE t SET a = (SELECT 1 FROM u WHERE b);"), (gs "DELETE FROM where;"). repeat split; vm_compute; reflexivity. Qed.
Print Assumptions C79_where_refuted.

(** The hypotheses of C79_exact hold of the tokens of a text. *)
Definition first_cond (ts : list token) : option bool :=
  match call parse_statement [] ts with
  | Ok s st => match condition s with Some (Some _) => Some (Nat.eqb (List.length (sig (snd st)) + 7) (List.length (sig ts))) | _ => None end
  | _ => None
  end.
Example C79_exact_ex : forallb (fun t => negb (no_pos (tfrom t))) (toks_of script) = true /\ first_cond (toks_of script) = Some true.
Proof. split; vm_compute; reflexivity. Qed.
