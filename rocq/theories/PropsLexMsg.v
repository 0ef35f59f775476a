(** Property C68: what a lexical error says. *)
From Coq Require Import ZArith List Bool String.
From Verif Require Import Base Dialect Token Lexer LexSpec Num ValueSpec ShowSpec LexMsg LexMsgSpec LexMsgThms.
Import ListNotations.
Open Scope string_scope.
Open Scope list_scope.
Open Scope Z_scope.

(** C68.  Tokenize returns an error exactly if there is a message. *)
Theorem C68_error_iff : forall d pc src, dialect_ok d ->
  tokenize d pc src = TErr <-> exists m, tokenize_message d pc src = Some m.
Proof. exact error_iff. Qed.
Print Assumptions C68_error_iff.

(** The message is about the first place where no token starts: behind the
    tokens [l] read so far.  It says what is wrong there, shows all that was
    read of the string or comment that is not closed, and for a string gives the
    position where those tokens end (one column more for N'...'). *)
Theorem C68_says : forall d pc src m, dialect_ok d -> tokenize_message d pc src = Some m ->
  exists l rem c, reads d start_pos (skip_bom src) l rem /\ complaint (reached l) rem c /\ m = gs "tokenize failed: " ++ c.
Proof. exact error_says. Qed.
Print Assumptions C68_says.

(** The error of NewParser. *)
Theorem C68_parser_says : forall d src m, dialect_ok d -> new_parser_message d src = Some m ->
  exists l rem c, reads d start_pos (skip_bom src) l rem /\ complaint (reached l) rem c /\ m = gs "tokenize err failed: tokenize failed: " ++ c.
Proof. exact parser_says. Qed.
Print Assumptions C68_parser_says.

(** Examples. *)
Example C68_ex :
  new_parser_message generic (gs "SELECT 'it''s") =
    Some (gs "tokenize err failed: tokenize failed: unclosed single quoted string: it's at {Line:1 Col:8}") /\
  new_parser_message generic (gs "SELECT" ++ [10] ++ gs " N'x") =
    Some (gs "tokenize err failed: tokenize failed: unclosed single quoted string: x at {Line:2 Col:3}") /\
  new_parser_message generic (gs "a /* b" ++ [10] ++ gs "cd *") =
    Some (gs "tokenize err failed: tokenize failed: unclosed multiline comment:  b" ++ [10] ++ gs "cd  at {Line:2 Col:5}") /\
  new_parser_message generic (gs "a !b") = Some (gs "tokenize err failed: tokenize failed: tokenizer error: illegal sequence !b") /\
  new_parser_message generic (gs "a !=b") = None.
Proof. vm_compute. repeat split. Qed.

(** The position in the message is not always where the trouble begins: for a
    comment it is the end of the input. *)
Theorem C68_comment_start_refuted : exists src,
  tokenize_message generic true src = Some (gs "tokenize failed: unclosed multiline comment: x at {Line:1 Col:6}") /\
  reads generic start_pos src [(mkTok Whitespace (VStr [32]) start_pos (mkPos 1 2), [32]); (mkTok Whitespace (VStr [32]) (mkPos 1 2) (mkPos 1 3), [32])] (gs "/*x").
Proof.
  exists (gs "  /*x"). split; [vm_compute; reflexivity|].
  exact (Rd_cons generic start_pos (mkPos 1 2) [32] _ _ _ _ _ (Lx_space generic _) eq_refl
    (Rd_cons generic (mkPos 1 2) (mkPos 1 3) [32] _ _ _ _ _ (Lx_space generic _) eq_refl (Rd_nil generic (mkPos 1 3) (gs "/*x")))).
Qed.
Print Assumptions C68_comment_start_refuted.

(** And the message about an exclamation mark has no position at all: it is the
    same wherever the mark stands. *)
Theorem C68_bang_position_refuted : exists src src' m,
  tokenize_message generic true src = Some m /\ tokenize_message generic true src' = Some m /\ List.length src <> List.length src'.
Proof.
  exists (gs "!b"), (gs "SELECT a !b"). vm_compute. eexists. split; [reflexivity|]. split; [reflexivity|]. discriminate.
Qed.
Print Assumptions C68_bang_position_refuted.
