(** Calls of NextToken, one after the other, on one tokenizer. *)
From Coq Require Import ZArith List Bool.
From Verif Require Import Base Dialect Token Lexer LexSpec ScanSpec.
Import ListNotations.

(** The state after a call (sqltoken/tokenizer.go:183-211); [None]: the call
    does not return.  At the end of the text the state stays. *)
Definition after (st : tstate) (r : scanres) : option tstate :=
  match r with STok _ st' | SSkip st' | SErr _ st' => Some st' | SEof => Some st | SHang => None end.

(** What the call returns. *)
Definition seen (r : scanres) : answer :=
  match r with STok t _ => AnTok t | SSkip _ => AnNil | SErr t _ => AnErr t | SEof => AnEof | SHang => AnNone end.

(** [n] calls of NextToken whatever they answer. *)
Fixpoint calls (d : dialect) (pc : bool) (n : nat) (st : tstate) : list answer * option tstate :=
  match n with
  | O => ([], Some st)
  | S m =>
      let r := scan d pc st in
      match after st r with
      | Some st' => let '(l, o) := calls d pc m st' in (seen r :: l, o)
      | None => ([seen r], None)
      end
  end.

(** NewTokenizer (sqltoken/tokenizer.go:129-138). *)
Definition start (src : list rune) : tstate := mkTS (skip_bom src) 1 1.

(** Tokenize (sqltoken/tokenizer.go:162-181) on a tokenizer in use. *)
Definition tokenize_on (d : dialect) (pc : bool) (st : tstate) : tokres :=
  tokenize_loop d pc (S (List.length (ts_src st))) st [].
