(** When the parser drops nothing of a text: conditions on the tokens of the
    text alone. *)
From Coq Require Import ZArith List Bool String.
From Verif Require Import Base Token Grammar.
Import ListNotations.
Open Scope list_scope.
Open Scope nat_scope.

(** The number of tokens of a kind. *)
Fixpoint nb (k : kind) (ts : list token) : nat :=
  match ts with [] => 0 | t :: r => (if kind_eqb (tkind t) k then 1 else 0) + nb k r end.

(** [Q] holds of a token and what follows it before the next comma or closing
    parenthesis, what stands in parentheses left out; [n] parentheses are
    still open. *)
Fixpoint soon (Q : token -> list token -> Prop) (n : nat) (ts : list token) : Prop :=
  match ts with
  | [] => False
  | t :: r =>
      n = 0 /\ Q t r \/
      match tkind t, n with
      | LParen, _ => soon Q (S n) r
      | RParen, 0 | Comma, 0 => False
      | RParen, S m => soon Q m r
      | _, _ => soon Q n r
      end
  end.

Definition spells_one (l : list string) (t : token) : Prop := exists s, In s l /\ spells s t.
Definition opens_constraint : token -> Prop := spells_one ("CONSTRAINT"%string :: constraint_words).
Definition opens_other : token -> Prop := spells_one ["DEFAULT"; "AUTO_INCREMENT"]%string.

(** A place in the text of a file that makes the parser drop something: the
    token [t] and the (significant) tokens after it. *)
Definition hazard (d : defect) (t : token) (after : list token) : Prop :=
  match d with
  | LostComma => tkind t = Comma /\ next_kind_is Semicolon after
  | LostDefault => spells "DEFAULT" t /\ soon (fun x _ => spells "DEFAULT" x) 0 after
  | LostConstraints =>
      opens_constraint t /\
      soon (fun x r => opens_other x /\ soon (fun y _ => opens_constraint y) 0 r) 0 after
  | OpenArgs => False
  | _ => trigger d t after
  end.

(** No such place, and no parenthesis left open. *)
Definition safe (ts : list token) : Prop :=
  (forall a t b d, ts = a ++ t :: b -> ~ hazard d t b) /\ nb LParen ts <= nb RParen ts.
