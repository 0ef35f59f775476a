(** Where a call leaves the parser, also when it fails. *)
From Coq Require Import ZArith List Bool.
From Verif Require Import Base Token AST Prog Parser.
Import ListNotations.
Open Scope list_scope.

(** The Parser (parser.go:15-21) after the calls of nextToken, peekToken,
    prevToken (2925-3054) and parseKeywords (3079-3093) that a function makes,
    whether it then returns a value or an error or panics. *)
Fixpoint after {S A} (m : machine S) (p : prog A) (s : S) : S :=
  match p with
  | Ret _ | Err | Panic _ | Fuel => s
  | Next k => let '(o, s') := m_next m s in after m (k o) s'
  | Peek k => after m (k (m_peek m s)) s
  | Prev k => match m_prev m s with Some s' => after m k s' | None => s end
  | Kws ks k => let '(o, s') := run_kws m s ks [] s in after m (k o) s'
  end.

(** A method called on a Parser with the tokens [done] read and [todo] left:
    the Parser afterwards. *)
Definition call_after {A} (p : rec -> prog A) (done todo : list token) : rstate :=
  after raw_machine (p (knot (fuel_for todo))) (done, todo).

(** A client that calls ParseStatement (parser.go:129-170) again and again, also
    after errors and recovered panics, until no token is left; [n] calls at
    most.  The tokens left after the last call. *)
Fixpoint retry (n : nat) (done todo : list token) : list token :=
  match n with
  | O => todo
  | S n => let '(done', todo') := call_after parse_statement done todo in retry n done' todo'
  end.

(** A token that is not a word with a dotless i (U+0131) in it.
    strings.ToUpper (sqltoken/tokenizer.go:63) makes it an I, strings.EqualFold
    (parser.go:3106) does not. *)
Definition plain_word (t : token) : Prop := match tval t with VWord w => ~ In 305%Z (wvalue w) | VStr _ => True end.
