(** Property C54: how far a call looks ahead. *)
From Coq Require Import ZArith List Bool String.
From Verif Require Import Base Dialect Token Lexer AST Num Prog Parser Erase ParseSpec LookSpec LookThms.
Import ListNotations.
Open Scope string_scope.
Open Scope list_scope.
Open Scope Z_scope.

(** C54.  [looks P erA K] (LookSpec.v): K is 1 for ParseExpr and ParseDataType; for
    ParseStatement it is 4 if an INSERT was read, 2 for a query or CREATE VIEW,
    otherwise 1.  A successful call looks at no more than K tokens behind those it
    reads: on any other list that starts with the same tokens it gives the same
    tree up to positions and reads as many tokens. *)
Theorem C54_lookahead : forall A (P : rec -> prog A) erA K, looks P erA K ->
  forall done todo a st done' todo', Forall tok_wf todo -> Forall tok_wf todo' ->
  call P done todo = Ok a st -> same_start (K a) todo (snd st) todo' ->
  exists b st', call P done' todo' = Ok b st' /\ erA no_pos same_rune b = erA no_pos same_rune a /\
    sig (snd st') = skipn (List.length (sig todo) - List.length (sig (snd st))) (sig todo').
Proof. exact @look_calls. Qed.
Print Assumptions C54_lookahead.

(** Examples: 7 tokens read, 5 or 8 left, the first 4 of them the same. *)
Definition tokens_of (src : gostring) : list token := match tokenize generic true src with TOk ts => ts | _ => [] end.
Definition read_of {A} (P : rec -> prog A) (src : gostring) : option (nat * nat) :=
  match call P [] (tokens_of src) with
  | Ok _ st => Some ((List.length (sig (tokens_of src)) - List.length (sig (snd st)))%nat, List.length (sig (snd st)))
  | _ => None
  end.
Definition insert_a : gostring := gs "INSERT INTO t VALUES (1) ON DUPLICATE KEY x y".
Definition insert_b : gostring := gs "INSERT INTO t VALUES (1) ON DUPLICATE KEY x (z z z".
Example C54_ex : read_of parse_statement insert_a = Some (7, 5)%nat /\ read_of parse_statement insert_b = Some (7, 8)%nat.
Proof. split; vm_compute; reflexivity. Qed.
Example C54_ex_same : match call parse_statement [] (tokens_of insert_a) with
  | Ok a st => stmt_looks a = 4%nat /\ same_start 4 (tokens_of insert_a) (snd st) (tokens_of insert_b)
  | _ => False
  end.
Proof. vm_compute. split; reflexivity. Qed.

(** One token less is not enough, for none of the methods and none of the eleven
    sorts of statements. *)
Theorem C54_expression_one_less_refuted :
  exists todo todo' a st, Forall tok_wf todo /\ Forall tok_wf todo' /\ call parse_expr [] todo = Ok a st /\
    same_start 0 todo (snd st) todo' /\
    ~ exists b st', call parse_expr [] todo' = Ok b st' /\ er_node no_pos same_rune b = er_node no_pos same_rune a.
Proof. exact look_exact_expr. Qed.
Print Assumptions C54_expression_one_less_refuted.

Theorem C54_data_type_one_less_refuted :
  exists todo todo' a st, Forall tok_wf todo /\ Forall tok_wf todo' /\ call parse_data_type [] todo = Ok a st /\
    same_start 0 todo (snd st) todo' /\
    ~ exists b st', call parse_data_type [] todo' = Ok b st' /\ er_dtype no_pos same_rune b = er_dtype no_pos same_rune a.
Proof. exact look_exact_type. Qed.
Print Assumptions C54_data_type_one_less_refuted.

Theorem C54_statement_one_less_refuted : forall s,
  exists todo todo' a st, Forall tok_wf todo /\ Forall tok_wf todo' /\ call parse_statement [] todo = Ok a st /\ same_sort s a /\
    same_start (stmt_looks a - 1) todo (snd st) todo' /\
    ~ exists b st', call parse_statement [] todo' = Ok b st' /\ er_stmt no_pos same_rune b = er_stmt no_pos same_rune a.
Proof. exact look_exact_stmt. Qed.
Print Assumptions C54_statement_one_less_refuted.
