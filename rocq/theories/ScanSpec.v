(** Reading a text token by token (property C50): what a caller of NextToken
    sees. *)
From Coq Require Import ZArith List Bool String.
From Verif Require Import Base Dialect Token Lexer LexSpec.
Import ListNotations.
Open Scope list_scope.
Open Scope Z_scope.

(** Answers of one call: a token; nil without an error (a blank or comment that
    is not wanted); an error with an ILLEGAL token; io.EOF; no answer. *)
Inductive answer := AnTok (t : token) | AnNil | AnErr (t : token) | AnEof | AnNone.

(** The slice an error uses up: an exclamation mark alone, otherwise everything
    that is left. *)
Definition bad_slice (s rest : list rune) : Prop := s = [33] \/ rest = [].

(** Where an ILLEGAL token ends: an unclosed comment at the end of the text, an
    unclosed national string one column after its start, anything else where it
    starts. *)
Definition bad_end (s : list rune) (p : pos) : pos :=
  match s with 47 :: _ => advance s p | 78 :: _ => mkPos (pline p) (pcol p + 1) | _ => p end.

(** [scans d p text l rest]: the text is cut into slices, each a lexeme or a
    slice that starts no lexeme; [l] has the tokens, ILLEGAL for the latter. *)
Inductive scans (d : dialect) : pos -> list rune -> list (token * list rune) -> list rune -> Prop :=
| Sc_nil p text : scans d p text [] text
| Sc_tok p s text k v l rest :
    lexeme d k v s text -> s <> [] ->
    scans d (token_end k v s p) text l rest ->
    scans d p (s ++ text) ((mkTok k v p (token_end k v s p), s) :: l) rest
| Sc_bad p s text l rest :
    lex_error (s ++ text) -> bad_slice s text -> s <> [] ->
    scans d (bad_end s p) text l rest ->
    scans d p (s ++ text) ((mkTok ILLEGAL (VStr []) p (bad_end s p), s) :: l) rest.

(** The answer a token stands for, when blanks and comments are wanted ([pc]) or not. *)
Definition answer_of (pc : bool) (t : token) : answer :=
  match tkind t with
  | ILLEGAL => AnErr t
  | Whitespace | Comment => if pc then AnTok t else AnNil
  | _ => AnTok t
  end.

(** The first [n] answers: one per token, then io.EOF for ever, or no answer
    at a delimited identifier that is never closed. *)
Definition answers (pc : bool) (n : nat) (l : list token) (rest : list rune) : list answer :=
  firstn n (map (answer_of pc) l ++ match rest with [] => repeat AnEof n | _ => [AnNone] end).

(** The tokens among the answers. *)
Definition toks_of (l : list answer) : list token :=
  flat_map (fun a => match a with AnTok t => [t] | _ => [] end) l.
