(** What tokens tell about a text (C75). *)
From Coq Require Import ZArith List Bool String.
From Verif Require Import Base Token LexSpec.
Import ListNotations.
Open Scope list_scope.
Open Scope Z_scope.

(** The ways to end a line. *)
Definition newline (s : list rune) : Prop := s = [10] \/ s = [13] \/ s = [13; 10].

(** A block comment with [body] between the marks. *)
Definition block (body : list rune) : list rune := [47; 42] ++ body ++ [42; 47].

(** Two spellings of the same token: the same characters, two ends of line, or
    two block comments, one of them with a star before another character or
    with CR LF inside. *)
Definition same_spelling (t : token) (a b : list rune) : Prop :=
  a = b \/
  (tkind t = Whitespace /\ newline a /\ newline b) \/
  (tkind t = Comment /\ exists x y, a = block x /\ b = block y /\ (~ plain_body x \/ ~ plain_body y)).

Inductive each3 {A B C} (P : A -> B -> C -> Prop) : list A -> list B -> list C -> Prop :=
| each3_nil : each3 P [] [] []
| each3_cons x y z l m n : P x y z -> each3 P l m n -> each3 P (x :: l) (y :: m) (z :: n).
