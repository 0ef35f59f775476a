(** The work of a parser run: the calls of nextToken, peekToken and prevToken,
    and the tokens these look at (C45). *)
From Coq Require Import ZArith List Bool String.
From Verif Require Import Base Dialect Token Lexer AST Prog.
Import ListNotations.
Open Scope nat_scope.

Section Cost.
  (** What a call of nextToken or peekToken, and a call of prevToken, costs in
      a state. *)
  Context {S : Type} (ahead back : S -> nat) (m : machine S).

  (** parseKeywords peeks at every word and reads it if it is the one asked for
      (parser.go:3079-3111). *)
  Fixpoint cost_kws (ks : list gostring) (s : S) : nat :=
    match ks with
    | [] => 0
    | k :: ks' =>
        ahead s + match m_peek m s with
                  | Some t => if is_kw k t then ahead s + cost_kws ks' (snd (m_next m s)) else 0
                  | None => 0
                  end
    end.

  (** Whatever the run ends in. *)
  Fixpoint cost {A} (p : prog A) (s : S) : nat :=
    match p with
    | Ret _ | Err | Panic _ | Fuel => 0
    | Next k => let '(o, s') := m_next m s in ahead s + cost (k o) s'
    | Peek k => ahead s + cost (k (m_peek m s)) s
    | Prev k => back s + match m_prev m s with Some s' => cost k s' | None => 0 end
    | Kws ks k => cost_kws ks s + let '(o, s') := run_kws m s ks [] s in cost (k o) s'
    end.
End Cost.

(** The number of calls. *)
Definition operations {S A} (m : machine S) (p : prog A) (s : S) : nat :=
  cost (fun _ => 1) (fun _ => 1) m p s.

(** Blanks and comments passed over, and the token (or the end) behind them:
    the rounds of the loops at parser.go:2925-2934, 3038-3046 and 3064-3077. *)
Fixpoint rounds (l : list token) : nat :=
  match l with
  | [] => 1
  | t :: l' => if skipped t then 1 + rounds l' else 1
  end.

(** Without ParseComment: the rounds of all calls. *)
Definition visits {A} (p : prog A) (done todo : list token) : nat :=
  cost (fun s => rounds (snd s)) (fun s => rounds (fst s)) raw_machine p (done, todo).

(** No more than [k] blanks and comments in a row. *)
Definition blanks_at_most (k : nat) (l : list token) : Prop :=
  forall a b c, l = a ++ b ++ c -> forallb skipped b = true -> List.length b <= k.
