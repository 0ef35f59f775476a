(** Property C77: what Debug prints, and what is printed before a panic. *)
From Coq Require Import ZArith List Bool String.
From Verif Require Import Base Dialect Token Lexer LexSpec AST Prog Parser ParseSpec LookSpec TextSpec After Debug DebugThms.
Import ListNotations.
Open Scope string_scope.
Open Scope list_scope.
Open Scope Z_scope.

(** C77.  The parser has read some tokens of a text and a function is called.
    Debug then prints the text read so far, piece by piece as [shows] says, and
    an end of line: whatever the function was and whether it returned, failed or
    panicked.  So do expectKeyword and expectToken just before they panic. *)
Theorem C77_debug : forall A (P : rec -> prog A) d src done todo, dialect_ok d -> tokenize d true src = TOk (rev done ++ todo) ->
  exists pieces outs rest, skip_bom src = List.concat pieces ++ rest /\ debug (fst (call_after P done todo)) = List.concat outs ++ [10] /\
    each3 shows (rev (fst (call_after P done todo))) pieces outs.
Proof. exact @call_debug. Qed.
Print Assumptions C77_debug.

(** Without strings, comments and carriage returns it is the text itself. *)
Theorem C77_text : forall A (P : rec -> prog A) d src done todo, dialect_ok d -> tokenize d true src = TOk (rev done ++ todo) ->
  ~ In 13 src -> Forall as_written (rev done ++ todo) ->
  exists text rest, skip_bom src = text ++ rest /\ debug (fst (call_after P done todo)) = text ++ [10].
Proof. exact @call_plain. Qed.
Print Assumptions C77_text.

(** The next call adds to it (tokens left, no word with a dotless i: see C76). *)
Theorem C77_grows : forall A (P : rec -> prog A) erA K, looks P erA K -> forall done todo,
  Forall tok_wf todo -> Forall plain_word todo -> sig todo <> [] ->
  exists text more, debug done = text ++ [10] /\ debug (fst (call_after P done todo)) = text ++ more ++ [10].
Proof. exact @call_debug_grows. Qed.
Print Assumptions C77_grows.

(** Examples: a panic in the middle of a text, and a text with a string and a
    comment. *)
Definition tokens_of (src : list rune) : list token := match tokenize generic true src with TOk ts => ts | _ => [] end.
Definition printed (src : list rune) : list rune := debug (fst (call_after parse_statement [] (tokens_of src))).
Example C77_ex :
  call parse_statement [] (tokens_of (gs "SELECT a, CAST(""b c"" 1) FROM t")) = OPanic PLog /\
  Forall as_written (tokens_of (gs "SELECT a, CAST(""b c"" 1) FROM t")) /\
  printed (gs "SELECT a, CAST(""b c"" 1) FROM t") = gs "SELECT a, CAST(""b c""" ++ [10] /\
  printed (gs "SELECT 'it''s' /*x*/ FROM t") = gs "SELECT it's x FROM t" ++ [10].
Proof.
  split; [vm_compute; reflexivity|]. split; [vm_compute; repeat constructor|]. split; vm_compute; reflexivity.
Qed.

(** "It is always the text" is false. *)
Theorem C77_text_refuted : exists src ts, tokenize generic true src = TOk ts /\ ~ In 13 src /\
  forall text rest, src = text ++ rest -> printed src <> text ++ [10].
Proof.
  exists (gs "SELECT 'a'"). eexists. split; [vm_compute; reflexivity|]. split; [vm_compute; intuition discriminate|].
  intros text rest E P. assert (X : printed (gs "SELECT 'a'") = gs "SELECT a" ++ [10]) by (vm_compute; reflexivity).
  rewrite X in P. apply app_inj_tail in P as [P _]. subst text. discriminate E.
Qed.
Print Assumptions C77_text_refuted.
