(** Property C70: the parser's tokens can be set, and what is left of those it
    had. *)
From Coq Require Import ZArith List Bool String.
From Verif Require Import Base Dialect Token Lexer LexSpec AST Num Prog Parser ParseSpec Session SessionThms.
Import ListNotations.
Open Scope string_scope.
Open Scope list_scope.
Open Scope Z_scope.

(** C70.  A parser from NewParserWithOptions that is given the tokens of a text
    behaves like one from NewParser for that text: all four methods, and
    ParseFile with ParseComment.  Here the parser is the struct itself, a slice and an
    index, and not the pair of lists used everywhere else. *)
Theorem C70_set_tokens : forall A (P : rec -> prog A) d src toks, tokenize d true src = TOk toks ->
  res_of (method P (set_tokens toks (new_parser_with_options false))) = parse_with P d src.
Proof. exact @fresh_tokens. Qed.
Print Assumptions C70_set_tokens.

Theorem C70_set_tokens_file : forall d src toks, tokenize d true src = TOk toks ->
  res_of (ParseFile (set_tokens toks (new_parser_with_options true))) = parse_file d src.
Proof. exact fresh_file. Qed.
Print Assumptions C70_set_tokens_file.

(** SetTokens on a parser in any state: the next call answers as a new parser
    that is given the tokens from the old index on. *)
Theorem C70_any_index : forall A (P : rec -> prog A) erA k, public P erA k -> forall p toks, p_collect p = false -> Forall tok_wf toks ->
  res_of (method P (set_tokens toks p)) = res_of (method P (new_parser (skipn (p_index p) toks) false)).
Proof. intros A P erA k H p toks C W. unfold set_tokens. rewrite C. exact (any_index_result P erA k H toks _ _ W). Qed.
Print Assumptions C70_any_index.

(** After a successful ParseSQL: a second text that has no more tokens than were
    read of the first is answered with no statements and no error, whatever it
    says. *)
Theorem C70_reuse_silent : forall toks ss p toks', Forall tok_wf toks -> ParseSQL (new_parser toks false) = Ok ss p ->
  sig (skipn (p_index p) toks) = [] /\
  ((List.length toks' <= p_index p)%nat -> ParseSQL (set_tokens toks' p) = Ok [] (set_tokens toks' p)).
Proof. exact (fun toks ss p toks' W E => reuse_silent toks [] ss p toks' W E). Qed.
Print Assumptions C70_reuse_silent.

(** With ParseComment, ParseFile gives a file without statements and with the
    comments of the first text. *)
Theorem C70_reuse_comments : forall toks f p toks', ParseFile (new_parser toks true) = Ok f p ->
  (List.length toks' <= List.length toks)%nat ->
  ParseFile (set_tokens toks' p) = Ok (mkFile [] (f_comments f)) (set_tokens toks' p).
Proof. exact file_reuse. Qed.
Print Assumptions C70_reuse_comments.

(** Examples. *)
Definition toks_of (s : string) : list token := match tokenize generic true (gs s) with TOk ts => ts | _ => [] end.
Definition after {A} (o : outcome parser A) : parser := match o with Ok _ p => p | _ => new_parser_with_options false end.
Definition first_parser : parser := after (ParseSQL (new_parser (toks_of "SELECT 1 ;") false)).
Definition first_file : parser := after (ParseFile (new_parser (toks_of "SELECT /*one*/ 1;") true)).
Example C70_ex :
  p_index first_parser = 5%nat /\ p_collect first_parser = false /\
  (exists s, ParseSQL (new_parser (toks_of "SELECT 1 ;") false) = Ok [s] first_parser) /\
  (List.length (toks_of "DROP TABLE t") <= p_index first_parser)%nat /\
  ParseSQL (set_tokens (toks_of "DROP TABLE t") first_parser) = Ok [] (set_tokens (toks_of "DROP TABLE t") first_parser) /\
  parse_source generic (gs "DROP TABLE t") = RErr /\
  p_index first_file = 6%nat /\
  match ParseFile (set_tokens (toks_of "SELECT 2;/*two*/") first_file) with
  | Ok f _ => f_stmts f = [] /\ map (map c_text) (f_comments f) = [[gs "one"]]
  | _ => False
  end.
Proof.
  split; [vm_compute; reflexivity|]. split; [vm_compute; reflexivity|]. split; [eexists; vm_compute; reflexivity|].
  split; [vm_compute; repeat constructor|]. split; [vm_compute; reflexivity|]. split; [vm_compute; reflexivity|].
  split; [vm_compute; reflexivity|]. vm_compute. auto.
Qed.

(** So a parser cannot be used again: of the second text the first statement is
    lost without an error (parser.go:60-62 leaves the index). *)
Theorem C70_reuse_refuted : exists a b sa, Forall tok_wf (toks_of b) /\
  parse_source generic (gs a) = ROk [sa] /\
  (exists s1 s2, parse_source generic (gs b) = ROk [s1; s2]) /\
  exists p, ParseSQL (new_parser (toks_of a) false) = Ok [sa] p /\
  exists s2 p', ParseSQL (set_tokens (toks_of b) p) = Ok [s2] p'.
Proof.
  exists "SELECT 1;", "SELECT 5;SELECT 2;".
  eexists. split; [vm_compute; repeat constructor|]. split; [vm_compute; reflexivity|].
  split; [eexists _, _; vm_compute; reflexivity|].
  eexists. split; [vm_compute; reflexivity|]. eexists _, _. vm_compute. reflexivity.
Qed.
Print Assumptions C70_reuse_refuted.
