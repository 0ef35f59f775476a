(** Properties C59 (reading from an io.Reader) and C60 (the command astprinter). *)
From Coq Require Import ZArith String List Bool Lia.
From Verif Require Import Base Dialect Token Lexer LexSpec AST Nodes Prog Parser ParseSpec Printer Render RoundSpec StableSpec Utf8 Utf8Spec Utf8Thms SrcThms StableThms
  PropsRound PropsStable PropsLexer Reader ReaderSpec ReaderThms.
Import ListNotations.
Open Scope list_scope.
Open Scope Z_scope.

(** C59.  A reader that reports neither an error nor an end before its last
    delivery is read as the characters of its bytes, however it cuts them into
    pieces, also in the middle of a character; ... *)
Theorem C59_pieces : forall src, Forall (fun b => 0 <= b <= 255) (bytes src) -> plain src -> runes_of src = decode (bytes src).
Proof. exact runes_plain. Qed.
Print Assumptions C59_pieces.

(** ... so the result of every method depends on the bytes only. *)
Theorem C59_same_bytes : forall A (P : rec -> prog A) d a b, Forall (fun b => 0 <= b <= 255) (bytes a) -> plain a -> plain b -> bytes a = bytes b ->
  parse_reader P d a = parse_reader P d b /\ parse_reader P d a = parse_with P d (decode (bytes a)).
Proof.
  intros A P d a b F Pa Pb E. unfold parse_reader. rewrite (runes_plain a F Pa). split; [|reflexivity].
  rewrite E in *. rewrite (runes_plain b F Pb). reflexivity.
Qed.
Print Assumptions C59_same_bytes.

(** Whatever the reader does, the tokenizer's calls of Peek and Next get the
    answers of a text that is simply there, without its byte order mark. *)
Theorem C59_scanner : forall calls src, Forall (fun b => 0 <= b <= 255) (bytes src) ->
  answers calls (init src) = looks calls (skip_bom (runes_of src)).
Proof. exact answers_init. Qed.
Print Assumptions C59_scanner.

(** An error of the reader (or an early io.EOF) between two characters is the
    end of the text: what was read before is parsed as if it were all. *)
Theorem C59_failure : forall A (P : rec -> prog A) d q rest e text, e <> More -> Forall (fun x => snd x = More) q -> utf8_text text (bytes q) ->
  parse_reader P d (q ++ ([], e) :: rest) = parse_with P d text.
Proof. intros A P d q rest e text NE Q U. unfold parse_reader. rewrite (runes_stop q rest e text NE Q U). reflexivity. Qed.
Print Assumptions C59_failure.

(** So "an error of the reader is reported" is false: a DELETE whose reader
    fails before the WHERE is an accepted DELETE without WHERE, and the same
    happens to a script. *)
Definition failing : reader := [(gs "DELETE FROM ", More); (gs "t", More); ([], Failed); (gs " WHERE id = 1", More)].
Definition failing_script : reader := [(gs "DROP TABLE a;", More); ([], Failed); (gs " DROP TABLE b;", More)].
Definition said (r : result (list stmt)) : option (list gostring) := match r with ROk l => Some (map sql_stmt l) | _ => None end.
Definition one (r : result stmt) : result (list stmt) := match r with ROk s => ROk [s] | RErr => RErr | RPanic w => RPanic w | RHang => RHang end.
Theorem C59_errors_reported_refuted :
  said (one (parse_with parse_statement generic (decode (bytes failing)))) = Some [gs "DELETE FROM t WHERE id = 1"] /\
  said (one (parse_reader parse_statement generic failing)) = Some [gs "DELETE FROM t"] /\
  said (parse_with (parse_sql false) generic (decode (bytes failing_script))) = Some [gs "DROP TABLE a"; gs "DROP TABLE b"] /\
  said (parse_reader (parse_sql false) generic failing_script) = Some [gs "DROP TABLE a"].
Proof. repeat split; vm_compute; reflexivity. Qed.
Print Assumptions C59_errors_reported_refuted.

(** An error inside a character, or one that comes with bytes, is passed over:
    reading goes on. *)
Theorem C59_errors_end_the_text_refuted :
  runes_of [([97; 195], More); ([], Failed); (gs "b", More)] = [97; rune_error; 98] /\
  runes_of [(gs "a", Failed); (gs "b", More)] = gs "ab".
Proof. split; reflexivity. Qed.
Print Assumptions C59_errors_end_the_text_refuted.

(** Pieces of one byte. *)
Definition bytewise (l : list Z) : reader := map (fun b => ([b], More)) l ++ [([], AtEnd)].
Example C59_ex : plain (bytewise (gs "SELECT '" ++ [226; 130; 172] ++ gs "' FROM t;")) /\
  runes_of (bytewise (gs "SELECT '" ++ [226; 130; 172] ++ gs "' FROM t;")) = gs "SELECT '" ++ [8364] ++ gs "' FROM t;" /\
  answers [false; true; true; false; true] (init (bytewise ([239; 187; 191] ++ gs "ab"))) = [97; 97; 98; EOFr; EOFr].
Proof.
  split; [right; do 2 eexists; split; [reflexivity|]; repeat constructor|]. split; vm_compute; reflexivity.
Qed.

(** C60.  What astprinter prints for a statement is printed again unchanged
    when it is given back, in any pieces, if the statement is of the kind that
    can be read back (C18) and may end a text. *)
Theorem C60_fixed_point : forall input s toks st, tokenize generic true (runes_of input) = TOk toks -> call parse_statement [] toks = Ok s st ->
  printable (of_stmt s) -> ends_stmt s = true -> Forall scalar (sql_stmt s) ->
  astprinter input = Printed (sql_stmt s) /\
  forall again, plain again -> bytes again = encode (sql_stmt s) -> astprinter again = Printed (sql_stmt s).
Proof.
  intros input s toks st T C P E S. split.
  - unfold astprinter. rewrite T. change (run_raw parse_statement toks) with (call parse_statement [] toks). rewrite C. reflexivity.
  - intros again Q B. unfold astprinter.
    assert (X : runes_of again = sql_stmt s).
    { rewrite runes_plain; [rewrite B; apply decode_encode; exact S| |exact Q]. rewrite B. exact (utf8_bytes _ _ (encode_text _ S)). }
    rewrite X. destruct (C18_statements generic (runes_of input) [] toks s st (proj1 C17_shipped_dialects) T C P E) as (toks' & y & st' & T' & C' & B' & _).
    rewrite T'. change (run_raw parse_statement toks') with (call parse_statement [] toks'). rewrite C'. f_equal. exact (proj2 (proj2 C18_same_text) _ _ B').
Qed.
Print Assumptions C60_fixed_point.

Definition shouted : reader := bytewise (gs "delete  from t where a=1").
Definition shouted_toks : list token := match tokenize generic true (runes_of shouted) with TOk l => l | _ => [] end.
Definition shouted_stmt : stmt := match call parse_statement [] shouted_toks with Ok s _ => s | _ => StDropIndex pos0 [] end.
Lemma shouted_ok : match call parse_statement [] shouted_toks with Ok _ _ => True | _ => False end.
Proof. vm_compute. exact I. Qed.
Example C60_ex : tokenize generic true (runes_of shouted) = TOk shouted_toks /\ (exists st, call parse_statement [] shouted_toks = Ok shouted_stmt st) /\
  sql_stmt shouted_stmt = gs "DELETE FROM t WHERE a = 1" /\ printable (of_stmt shouted_stmt) /\ ends_stmt shouted_stmt = true /\ forallb (fun r => (0 <=? r) && (r <? 128)) (sql_stmt shouted_stmt) = true.
Proof.
  split; [vm_compute; reflexivity|]. split; [|split; [vm_compute; reflexivity|]; split; [apply (all_clean_printable 30); vm_compute; reflexivity|split; vm_compute; reflexivity]].
  pose proof shouted_ok as H. unfold shouted_stmt. destruct (call parse_statement [] shouted_toks) as [s st| | |]; try contradiction. exists st. reflexivity.
Qed.

(** A text with a lexical error never gets the message that line 36 would give:
    the command crashes, as it does when ParseStatement panics. *)
Theorem C60_crashes : forall input, astprinter input = Crash <->
  (exists l rem, reads generic start_pos (skip_bom (runes_of input)) l rem /\ lex_error rem) \/
  (exists w, parse_reader parse_statement generic input = RPanic w).
Proof.
  intros input. unfold astprinter, parse_reader, parse_with.
  rewrite <- (C08_errors_exact generic true (runes_of input) (proj1 (proj1 C17_shipped_dialects))).
  destruct (tokenize generic true (runes_of input)) as [toks| | |].
  - destruct (run_raw parse_statement toks); cbn [res_of]; split; try discriminate; eauto; intros [H|[w H]]; (discriminate || reflexivity).
  - split; auto.
  - split; [discriminate|]. intros [H|[w H]]; discriminate.
  - split; [discriminate|]. intros [H|[w H]]; discriminate.
Qed.
Print Assumptions C60_crashes.

(** So "bad input gets a message" is false. *)
Theorem C60_message_refuted : astprinter [(gs "SELECT 'a", AtEnd)] = Crash /\ astprinter [(gs "SELECT 1", AtEnd)] = Crash /\
  astprinter [(gs "HELLO", AtEnd)] = Exit.
Proof. repeat split; vm_compute; reflexivity. Qed.
Print Assumptions C60_message_refuted.
