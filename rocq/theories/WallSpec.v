(** What stands before a semicolon (C66). *)
From Coq Require Import ZArith List Bool String.
From Verif Require Import Base Dialect Token Lexer AST Prog Parser ParseSpec.
Import ListNotations.
Open Scope Z_scope.

(** The tokens up to and including the first semicolon, if there is one. *)
Fixpoint to_semi (l : list (kind * tvalue)) : option (list (kind * tvalue)) :=
  match l with
  | [] => None
  | (k, v) :: l' => if kind_eqb k Semicolon then Some [(k, v)] else option_map (cons (k, v)) (to_semi l')
  end.

(** Two calls give the same up to positions: the same tree, having read [n]
    tokens both, or the same failure. *)
Definition same_call {A} (erA : A -> A) (limit : nat) (todo todo' : list token) (o o' : outcome rstate A) : Prop :=
  match o, o' with
  | Ok a st, Ok b st' =>
      erA a = erA b /\
      exists n, (n < limit)%nat /\
        List.length (sig todo) = (n + List.length (sig (snd st)))%nat /\
        List.length (sig todo') = (n + List.length (sig (snd st')))%nat
  | OErr, OErr => True
  | OPanic p, OPanic p' => p = p'
  | _, _ => False
  end.

(** The text is one of whole statements, accepted or not: its last token that
    is neither blank nor comment is a semicolon. *)
Definition ends_with_semi (d : dialect) (src : list rune) : Prop :=
  exists ts l s, tokenize d true src = TOk ts /\ sig ts = l ++ [s] /\ tkind s = Semicolon.

(** Results one after the other: the first failure is the failure of all. *)
Definition and_then (r1 r2 : result (list stmt)) : result (list stmt) :=
  match r1 with ROk l1 => res_map (app l1) r2 | r => r end.

(** A text of whole statements that can be put behind another text. *)
Definition whole_text (d : dialect) (b : list rune) : Prop :=
  ends_with_semi d b /\ skip_bom b = b /\
  forall ts t r, tokenize d true b = TOk ts -> sig ts = t :: r -> tkind t <> Semicolon.
