(** Property C76: where a call leaves the parser, also when it fails. *)
From Coq Require Import ZArith List Bool String.
From Verif Require Import Base Dialect Token Lexer LexSpec AST Num Prog Parser ParseSpec LookSpec After AfterThms.
Import ListNotations.
Open Scope string_scope.
Open Scope list_scope.
Open Scope Z_scope.

Definition tokens_of (d : dialect) (src : list rune) : list token := match tokenize d true src with TOk ts => ts | _ => [] end.

(** C76.  ParseStatement, ParseExpr and ParseDataType ([looks], LookSpec.v), whether
    they return a tree or an error or panic: the parser is not put back before
    the token the call began at.  Tokens are counted without blanks and
    comments. *)
Theorem C76_forward : forall A (P : rec -> prog A) erA K, looks P erA K -> forall done todo,
  exists used, sig todo = used ++ sig (snd (call_after P done todo)) /\ sig (fst (call_after P done todo)) = rev used ++ sig done.
Proof. exact @forward_calls. Qed.
Print Assumptions C76_forward.

(** Of the tokens the call has used up, only the last can be a semicolon: what
    follows the first semicolon is left for the next call. *)
Theorem C76_semicolon : forall A (P : rec -> prog A) erA K, looks P erA K -> forall done todo a s b, Forall tok_wf todo ->
  sig todo = (a ++ s :: b) ++ sig (snd (call_after P done todo)) -> tkind s = Semicolon -> b = [].
Proof. exact @wall_after. Qed.
Print Assumptions C76_semicolon.

(** A call uses up at least one token, if there is one and if no word has a
    dotless i in it. *)
Theorem C76_progress : forall A (P : rec -> prog A) erA K, looks P erA K -> forall done todo,
  Forall tok_wf todo -> Forall plain_word todo -> sig todo <> [] ->
  (List.length (sig (snd (call_after P done todo))) < List.length (sig todo))%nat.
Proof. exact @progress. Qed.
Print Assumptions C76_progress.

(** So a client that goes on after every failure comes to the end. *)
Theorem C76_retry : forall done todo n, Forall tok_wf todo -> Forall plain_word todo -> (List.length (sig todo) <= n)%nat ->
  sig (retry n done todo) = [].
Proof. exact retries. Qed.
Print Assumptions C76_retry.

(** ParseSQL too goes forward only, and uses up something. *)
Theorem C76_sql : forall pc done todo,
  (exists used, sig todo = used ++ sig (snd (call_after (parse_sql pc) done todo)) /\
     sig (fst (call_after (parse_sql pc) done todo)) = rev used ++ sig done) /\
  (Forall tok_wf todo -> Forall plain_word todo -> sig todo <> [] ->
   (List.length (sig (snd (call_after (parse_sql pc) done todo))) < List.length (sig todo))%nat).
Proof. intros pc done todo. split; [exact (sql_forward pc done todo)|exact (sql_progress pc done todo)]. Qed.
Print Assumptions C76_sql.

(** When the call succeeds, [call_after] is the parser that [call] returns. *)
Theorem C76_ok : forall A (P : rec -> prog A) done todo a st, call P done todo = Ok a st -> call_after P done todo = st.
Proof. exact @ok_calls. Qed.
Print Assumptions C76_ok.

(** Example: a failure in front of a whole statement.  ParseStatement panics at the
    second word; the next two calls fail as well, the fourth one parses the
    statement behind the semicolon and nothing is left.  An error returned, and a
    ParseExpr that panics, leave the semicolon too. *)
Definition alter : list token := tokens_of generic (gs "ALTER TABLE t x; DROP TABLE a").
Definition bad : list token := tokens_of generic (gs "DELETE x; DROP TABLE a").
Definition left_after (n : nat) (ts : list token) : nat := List.length (sig (retry n [] ts)).
Example C76_ex : Forall tok_wf bad /\ Forall plain_word bad /\
  call parse_statement [] bad = OPanic PLog /\ List.length (sig bad) = 6%nat /\
  map (fun n => left_after n bad) [0; 1; 2; 3; 4; 5]%nat = [6; 5; 4; 3; 0; 0]%nat /\
  call parse_statement [] alter = OErr /\ map tkind (sig (snd (call_after parse_statement [] alter))) = [SQLKeyword; Semicolon; SQLKeyword; SQLKeyword; SQLKeyword] /\
  call parse_expr [] (tokens_of generic (gs "CAST(1; x")) = OPanic PLog /\
  map tkind (sig (snd (call_after parse_expr [] (tokens_of generic (gs "CAST(1; x"))))) = [Semicolon; SQLKeyword].
Proof.
  split; [vm_compute; repeat constructor|].
  split.
  { unfold plain_word. vm_compute. repeat constructor; intros H; repeat (destruct H as [H|H]; [discriminate H|]); exact H. }
  repeat split; vm_compute; reflexivity.
Qed.

(** Without the condition on words it is false: a text that begins with the
    quoted name ınsert.  ToUpper makes INSERT of it, EqualFold does not, and
    ParseStatement puts the word back before it fails.  A client that goes on
    after failures calls for ever. *)
Definition dotless : list token := tokens_of generic (34 :: 305 :: gs "nsert" ++ 34 :: gs " INTO t VALUES (1)").
Theorem C76_progress_refuted : exists todo, Forall tok_wf todo /\ sig todo <> [] /\
  call parse_statement [] todo = OErr /\ forall n, retry n [] todo = todo.
Proof.
  exists dotless. split; [vm_compute; repeat constructor|]. split; [vm_compute; discriminate|]. split; [vm_compute; reflexivity|].
  assert (E : call_after parse_statement [] dotless = ([], dotless)) by (vm_compute; reflexivity).
  induction n as [|n IH]; [reflexivity|]. cbn [retry]. rewrite E. exact IH.
Qed.
Print Assumptions C76_progress_refuted.

(** A failed ParseStatement does not skip the statement: in front of the parser
    there may be the rest of it, which is then taken for a statement of its own. *)
Definition sort_of (o : outcome rstate stmt) : option bool :=
  match o with Ok (StQuery _) _ => Some true | Ok _ _ => Some false | _ => None end.
Fixpoint sorts (n : nat) (done todo : list token) : list (option bool) :=
  match n with
  | O => []
  | S n => sort_of (call parse_statement done todo) :: let '(done', todo') := call_after parse_statement done todo in sorts n done' todo'
  end.
Theorem C76_skip_refuted : exists todo, todo = tokens_of generic (gs "DELETE t SELECT 1; DROP TABLE a") /\ sorts 5 [] todo = [None; None; Some true; None; Some false].
Proof. eexists. split; [reflexivity|]. vm_compute. reflexivity. Qed.
Print Assumptions C76_skip_refuted.
