(** Calling NextToken some times on a tokenizer over a reader. *)
From Coq Require Import ZArith List Bool.
From Verif Require Import Base Dialect Token Lexer Reader LexProg.
Import ListNotations.
Open Scope list_scope.
Open Scope Z_scope.

(** sqltoken/tokenizer.go:183-211, [k] calls with ParseComment; [None] if one of
    them gives an error or io.EOF; [n] rounds for each loop. *)
Fixpoint first_prog (d : dialect) (n k : nat) (line col : Z) (acc : list token) : sprog (option (list token)) :=
  match k with
  | O => SRet (Some acc)
  | S k =>
      sbind (next_prog d n line col) (fun a =>
        match a with
        | AEof | AErr _ _ => SRet None
        | ATok kd v line' col' => first_prog d n k line' col' (acc ++ [mkTok kd v (mkPos line col) (mkPos line' col')])
        end)
  end.
