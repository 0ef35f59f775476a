(** Properties C12-C16, C21, C23, C37: the parser as a whole. *)
From Coq Require Import ZArith List Bool String.
From Verif Require Import Base Dialect Token Lexer LexSpec LexFacts AST Erase Prog Parser ParseSpec SrcThms ApiThms PanicThms.
Import ListNotations.
Open Scope Z_scope.

(** C12.  For every public method, every parser state (tokens [done] read,
    [todo] left) and every recursion budget above the number of tokens left
    plus two: the answer is the same and is not "out of budget".  Every loop
    and every recursion of the parser uses the budget. *)
Theorem C12_methods_terminate : forall A (P : rec -> prog A) erA k, public P erA k ->
  forall done todo n, Forall tok_wf todo -> (fuel_for todo <= n)%nat ->
  res_of (run raw_machine (P (knot n)) (done, todo)) = res_of (call P done todo) /\
  res_of (call P done todo) <> RHang.
Proof. exact @calls_terminate. Qed.
Print Assumptions C12_methods_terminate.

(** On source text the only way not to come back is the tokenizer's. *)
Theorem C12_source_hangs_iff : forall A (P : rec -> prog A) erA k, public P erA k ->
  forall d src, dialect_ok d ->
  parse_with P d src = RHang <->
  exists l rem, reads d start_pos (skip_bom src) l rem /\ unclosed_delimited d rem.
Proof. exact @sources_hang. Qed.
Print Assumptions C12_source_hangs_iff.

Theorem C12_file_hangs_iff : forall d src, dialect_ok d ->
  parse_file d src = RHang <->
  exists l rem, reads d start_pos (skip_bom src) l rem /\ unclosed_delimited d rem.
Proof. exact file_hang. Qed.
Print Assumptions C12_file_hangs_iff.

(** The hypothesis on tokens is what the tokenizer delivers. *)
Theorem C12_tokenizer_delivers : forall d pc src toks, dialect_ok d ->
  tokenize d pc src = TOk toks -> Forall tok_wf toks.
Proof. exact tokenize_wf. Qed.
Print Assumptions C12_tokenizer_delivers.

Example C12_ex : parse_source generic (gs "SELECT a FROM t WHERE (a + 1) * 2 > 3;") <> RHang.
Proof. intros H. vm_compute in H. discriminate. Qed.

(** C13.  Same significant tokens, same result and same significant rest, in
    every parser state. *)
Theorem C13_blank_tokens_insignificant : forall A (P : rec -> prog A) erA k, public P erA k ->
  forall done todo done' todo', Forall tok_wf todo -> Forall tok_wf todo' -> sig todo = sig todo' ->
  match call P done todo, call P done' todo' with
  | Ok a s, Ok b s' => a = b /\ sig (snd s) = sig (snd s')
  | OErr, OErr => True
  | OPanic w, OPanic w' => w = w'
  | _, _ => False
  end.
Proof. exact @calls_sig. Qed.
Print Assumptions C13_blank_tokens_insignificant.

(** In source text: blanks and comments [w] inserted at a token boundary,
    where they do not extend the token before them, change nothing but
    positions.  [w] may contain any mixture of blanks and comments. *)
Theorem C13_blank_text_insignificant : forall A (P : rec -> prog A) erA k, public P erA k ->
  forall d src src' a w b la lw p, dialect_ok d ->
  skip_bom src = a ++ b -> skip_bom src' = a ++ w ++ b ->
  reads d start_pos (a ++ b) la b ->
  reads d p (w ++ b) lw b -> Forall (fun x => blank (fst x) = true) lw ->
  keeps d la (w ++ b) ->
  res_map (erA no_pos same_rune) (parse_with P d src')
  = res_map (erA no_pos same_rune) (parse_with P d src).
Proof. exact @blanks_insignificant. Qed.
Print Assumptions C13_blank_text_insignificant.

(** When [w] starts with a space, tab or line end and the token before is
    significant, the last condition holds by itself. *)
Theorem C13_whitespace_text_insignificant : forall A (P : rec -> prog A) erA k, public P erA k ->
  forall d src src' a c w b la lw p, dialect_ok d ->
  skip_bom src = a ++ b -> skip_bom src' = a ++ (c :: w) ++ b ->
  reads d start_pos (a ++ b) la b ->
  (forall t s m, rev la = (t, s) :: m -> blank t = false) ->
  blank_char c = true ->
  reads d p ((c :: w) ++ b) lw b -> Forall (fun x => blank (fst x) = true) lw ->
  res_map (erA no_pos same_rune) (parse_with P d src')
  = res_map (erA no_pos same_rune) (parse_with P d src).
Proof. exact @whitespace_insignificant. Qed.
Print Assumptions C13_whitespace_text_insignificant.

Example C13_ex :
  let a := gs "SELECT a+" in let w := gs " -- c
 " in let b := gs "b;" in
  exists la lw p,
    reads generic start_pos (a ++ b) la b /\
    (forall t s m, rev la = (t, s) :: m -> blank t = false) /\
    reads generic p (w ++ b) lw b /\ Forall (fun x => blank (fst x) = true) lw /\
    exists s, parse_source generic (a ++ w ++ b) = ROk [s].
Proof.
  assert (W : forall f w rest, is_start generic f = true -> forallb (is_part generic) w = true ->
            stops (is_part generic) rest -> f <> 78 ->
            lexeme generic SQLKeyword (VWord (mkWord (f :: w) 0 (upper (f :: w)))) (f :: w) rest).
  { intros f w rest H1 H2 H3 H4. constructor; auto. intros E. contradiction. }
  cbv zeta. do 2 eexists. exists start_pos. split; [|split; [|split; [|split]]].
  - eapply (Rd_cons generic _ _ (gs "SELECT") (gs " a+b;"));
      [apply W; try reflexivity; discriminate|reflexivity|].
    eapply (Rd_cons generic _ _ (gs " ") (gs "a+b;")); [apply Lx_space|reflexivity|].
    eapply (Rd_cons generic _ _ (gs "a") (gs "+b;"));
      [apply W; try reflexivity; discriminate|reflexivity|].
    eapply (Rd_cons generic _ _ (gs "+") (gs "b;")); [apply (Lx_symbol _ "+"%string Plus ""%string); [cbn; auto 20|reflexivity]|reflexivity|].
    constructor.
  - cbn. intros t s m [= <- _ _]. reflexivity.
  - eapply (Rd_cons generic _ _ (gs " ") _); [apply Lx_space|reflexivity|].
    eapply (Rd_cons generic _ _ (gs "-- c") (10 :: gs " b;"));
      [apply (Lx_line generic (gs " c")); [cbn; intuition discriminate|reflexivity]|reflexivity|].
    eapply (Rd_cons generic _ _ [10] (gs " b;")); [apply Lx_lf|reflexivity|].
    eapply (Rd_cons generic _ _ (gs " ") (gs "b;")); [apply Lx_space|reflexivity|].
    constructor.
  - repeat constructor.
  - eexists. vm_compute. reflexivity.
Qed.

(** C14.  ParseFile with comment collection gives the statements (or error or
    panic) of ParseSQL without it. *)
Theorem C14_comments_do_not_change_parse : forall d src, dialect_ok d ->
  res_map f_stmts (parse_file d src) = parse_source d src.
Proof. exact parse_file_source. Qed.
Print Assumptions C14_comments_do_not_change_parse.

Example C14_ex : exists f, parse_file generic (gs "/*x*/ SELECT a /*y*/ FROM t; -- z") = ROk f /\
  List.length (f_stmts f) = 1%nat /\ List.length (f_comments f) = 3%nat.
Proof. eexists. vm_compute. repeat split. Qed.

(** C15.  Tokens of the same kinds and values give the same result up to
    positions. *)
Theorem C15_positions_erased : forall A (P : rec -> prog A) erA k, public P erA k ->
  forall done todo done' todo', Forall tok_wf todo -> Forall tok_wf todo' ->
  map kv (sig todo) = map kv (sig todo') ->
  res_map (erA no_pos same_rune) (res_of (call P done todo))
  = res_map (erA no_pos same_rune) (res_of (call P done' todo')).
Proof. exact @positions_erased. Qed.
Print Assumptions C15_positions_erased.

(** Sharper: every position in the result is copied from a token (or is the
    zero value): moving the tokens' positions by any function moves the
    result's positions by the same function. *)
Theorem C15_positions_copied : forall A (P : rec -> prog A) erA k, public P erA k ->
  forall fp done todo, fp pos0 = pos0 -> Forall tok_wf todo ->
  res_of (call P done (map (er_tok fp same_rune) todo))
  = res_map (erA fp same_rune) (res_of (call P done todo)).
Proof. exact @positions_copied. Qed.
Print Assumptions C15_positions_copied.

Example C15_ex :
  res_map (map (er_stmt no_pos same_rune)) (parse_source generic (gs "SELECT a   FROM t;"))
  = res_map (map (er_stmt no_pos same_rune)) (parse_source generic (gs "SELECT a FROM    t ;"))
  /\ parse_source generic (gs "SELECT a   FROM t;") <> parse_source generic (gs "SELECT a FROM    t ;").
Proof. split; [vm_compute; reflexivity|intros H; vm_compute in H; discriminate]. Qed.

(** C16.  Word values that differ in ASCII case only give results that differ
    in the spelling of identifiers only. *)
Theorem C16_case_of_words_insignificant : forall A (P : rec -> prog A) erA k, public P erA k ->
  forall done todo done' todo', Forall tok_wf todo -> Forall tok_wf todo' ->
  map (er_tok (fun p => p) asc_up) todo = map (er_tok (fun p => p) asc_up) todo' ->
  res_map (erA (fun p => p) asc_up) (res_of (call P done todo))
  = res_map (erA (fun p => p) asc_up) (res_of (call P done' todo')).
Proof. exact @case_tokens. Qed.
Print Assumptions C16_case_of_words_insignificant.

(** In source text: the letter case inside unquoted words. *)
Theorem C16_case_of_text_insignificant : forall A (P : rec -> prog A) erA k, public P erA k ->
  forall d src src' l l' rem, dialect_ok d -> case_blind d ->
  reads d start_pos (skip_bom src) l rem -> recased l l' rem ->
  skip_bom src' = List.concat l' ++ rem ->
  res_map (erA (fun p => p) asc_up) (parse_with P d src')
  = res_map (erA (fun p => p) asc_up) (parse_with P d src).
Proof. exact @case_sources. Qed.
Print Assumptions C16_case_of_text_insignificant.

Theorem C16_shipped_dialects : case_blind generic /\ case_blind postgres /\ case_blind mysql.
Proof. exact case_blind_shipped. Qed.
Print Assumptions C16_shipped_dialects.

Example C16_ex :
  res_map (map (er_stmt (fun p => p) asc_up)) (parse_source generic (gs "SELECT Abc FROM t;"))
  = res_map (map (er_stmt (fun p => p) asc_up)) (parse_source generic (gs "select aBc From T;"))
  /\ parse_source generic (gs "SELECT Abc FROM t;") <> RErr.
Proof. split; [vm_compute; reflexivity|intros H; vm_compute in H; discriminate]. Qed.

(** The excluded case: [n'x'] is an alias and a string, [N'x'] a national
    string. *)
Example C16_ex_national :
  parse_expr_source generic (gs "N'x'") <> parse_expr_source generic (gs "n'x'").
Proof. intros H. vm_compute in H. discriminate. Qed.

(** C21.  Statements that contain no semicolon, each closed by one: ParseSQL
    returns the statements that ParseStatement returns on each, in order, or
    the first failure. *)
Theorem C21_statements_in_order : forall cs, Forall chunk_ok cs ->
  sql_of (flat_map (fun c => fst c ++ [snd c]) cs) = in_order (map one_of cs).
Proof. exact sql_in_order. Qed.
Print Assumptions C21_statements_in_order.

(** A successful ParseSQL means that there was nothing to parse or that the
    last statement was closed by a semicolon, and that every token was read. *)
Theorem C21_success_means_closed : forall ts l, Forall tok_wf ts -> sql_of ts = ROk l ->
  sig ts = [] \/ ends_semi (sig ts).
Proof. exact sql_success. Qed.
Print Assumptions C21_success_means_closed.

Theorem C21_success_means_all_read : forall done todo a st, Forall tok_wf todo ->
  call (parse_sql false) done todo = Ok a st -> sig (snd st) = [].
Proof. exact sql_consumes. Qed.
Print Assumptions C21_success_means_all_read.

Example C21_ex : exists a b, parse_source generic (gs "SELECT a FROM t; DROP TABLE u;") = ROk [a; b].
Proof. eexists. eexists. vm_compute. reflexivity. Qed.
Example C21_ex_open : parse_source generic (gs "SELECT a FROM t; DROP TABLE u") = RErr.
Proof. vm_compute. reflexivity. Qed.

(** C23.  As stated the property is false: all three kinds of panic happen on
    short texts. *)
Theorem C23_errors_not_panics_refuted :
  parse_stmt_source generic (gs "SELECT 1") = RPanic PNil /\
  parse_stmt_source generic (gs "ALTER TABLE t ADD COLUMN 1;") = RPanic PAssert /\
  exists src, parse_stmt_source generic src = RPanic PLog.
Proof. split; [vm_compute; reflexivity|split; [vm_compute; reflexivity|]]. exists (gs "SELECT a FROM t WHERE a NOT b;"). vm_compute. reflexivity. Qed.
Print Assumptions C23_errors_not_panics_refuted.

(** What does hold.  A failed type assertion needs a statement that starts
    with CREATE, ALTER or EXPLAIN; expressions and data types never fail
    one. *)
Theorem C23_failed_assertion_only_in_ddl : forall done todo, Forall tok_wf todo ->
  call parse_statement done todo = OPanic PAssert ->
  exists x rest w, sig todo = x :: rest /\ tval x = VWord w /\
    In (wkeyword w) (map gs ["CREATE"; "ALTER"; "EXPLAIN"]%string).
Proof. exact stmt_assert_head. Qed.
Print Assumptions C23_failed_assertion_only_in_ddl.

Theorem C23_expressions_never_fail_an_assertion : forall done todo w, Forall tok_wf todo ->
  call parse_expr done todo = OPanic w -> w <> PAssert.
Proof. exact expr_no_assert. Qed.
Print Assumptions C23_expressions_never_fail_an_assertion.

Theorem C23_data_types_never_fail_an_assertion : forall done todo w, Forall tok_wf todo ->
  call parse_data_type done todo = OPanic w -> w <> PAssert.
Proof. exact dtype_no_assert. Qed.
Print Assumptions C23_data_types_never_fail_an_assertion.

(** A nil dereference needs input that ends too early: it never happens when a
    semicolon follows anywhere, and ParseSQL never has one when the text ends
    with a semicolon. *)
Theorem C23_no_nil_dereference_before_semicolon : forall done todo, Forall tok_wf todo ->
  call parse_statement done todo = OPanic PNil ->
  Forall (fun x => tkind x <> Semicolon) todo.
Proof. exact stmt_nil. Qed.
Print Assumptions C23_no_nil_dereference_before_semicolon.

Theorem C23_no_nil_dereference_in_closed_list : forall ts, Forall tok_wf ts ->
  sql_of ts = RPanic PNil -> ~ ends_semi (sig ts).
Proof. exact sql_nil_end. Qed.
Print Assumptions C23_no_nil_dereference_in_closed_list.

(** C37.  What was read before does not matter ([C13_blank_tokens_insignificant]
    with [todo = todo']); a successful call moves at least [k] significant
    tokens from the unread side to the read side and leaves all others in
    place. *)
Theorem C37_history_independent : forall A (P : rec -> prog A) erA k, public P erA k ->
  forall done done' todo, Forall tok_wf todo ->
  match call P done todo, call P done' todo with
  | Ok a s, Ok b s' => a = b /\ sig (snd s) = sig (snd s')
  | OErr, OErr => True
  | OPanic w, OPanic w' => w = w'
  | _, _ => False
  end.
Proof. exact (fun A P erA k H done done' todo W => calls_sig P erA k H done todo done' todo W W eq_refl). Qed.
Print Assumptions C37_history_independent.

Theorem C37_progress : forall A (P : rec -> prog A) erA k, public P erA k ->
  forall done todo a st, Forall tok_wf todo -> call P done todo = Ok a st ->
  exists used, sig (fst st) = rev used ++ sig done /\ sig todo = used ++ sig (snd st) /\
               (k <= List.length used)%nat.
Proof. exact @calls_progress. Qed.
Print Assumptions C37_progress.

Example C37_ex :
  match tokenize generic true (gs "DROP TABLE t; SELECT 1") with
  | TOk toks => match call parse_statement [] toks with
                | Ok _ st => List.length (sig (snd st)) = 3%nat
                | _ => False
                end
  | _ => False
  end.
Proof. vm_compute. reflexivity. Qed.
