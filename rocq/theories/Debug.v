(** What a parser prints about its position. *)
From Coq Require Import ZArith List.
From Verif Require Import Base Token LexSpec.
Import ListNotations.
Open Scope list_scope.
Open Scope Z_scope.

(** fmt.Printf of a token's value with the verb %v: a string as it is, an SQLWord
    with its String method (sqltoken/tokenizer.go:20-27). *)
Definition value_text (t : token) : gostring := match tval t with VWord w => word_string w | VStr s => s end.

(** Debug (parser.go:3113-3118) on a Parser with the tokens [done] read, the last
    one first; also what expectKeyword (2872-2875) and expectToken (2887-2890)
    print before they panic. *)
Definition debug (done : list token) : gostring := List.concat (map value_text (rev done)) ++ [10].

(** What is printed for a piece of the text ([escape] doubles quotes, [block_text] is
    what the tokenizer keeps of a block comment; LexSpec.v). *)
Definition shows (t : token) (piece out : list rune) : Prop :=
  match tkind t with
  | Whitespace => piece = out \/ out = [10] /\ (piece = [13] \/ piece = [13; 10])
  | SingleQuotedString => piece = 39 :: escape out ++ [39]
  | NationalStringLiteral => piece = 78 :: 39 :: escape out ++ [39]
  | Comment => piece = 45 :: 45 :: out \/ exists body, piece = 47 :: 42 :: body ++ [42; 47] /\ out = block_text body
  | _ => piece = out
  end.

(** Tokens printed as they are written. *)
Definition as_written (t : token) : Prop :=
  match tkind t with SingleQuotedString | NationalStringLiteral | Comment => False | _ => True end.
