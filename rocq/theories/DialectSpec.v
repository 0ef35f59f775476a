(** When two dialects read a text the same way (property C51). *)
From Coq Require Import ZArith List Bool.
From Verif Require Import Base Dialect Token.
Import ListNotations.
Open Scope list_scope.
Open Scope Z_scope.

(** The dialects treat the character alike. *)
Definition alike (d d' : dialect) (r : rune) : Prop :=
  is_start d r = is_start d' r /\ is_part d r = is_part d' r /\ is_delim d r = is_delim d' r.

(** A token and its slice: its first character is treated alike and, in a word
    that is not quoted, the others are word characters of both or of neither.
    The inside of strings, comments and quoted names does not matter. *)
Definition alike_slice (d d' : dialect) (x : token * list rune) : Prop :=
  match snd x with
  | [] => True
  | c :: s => alike d d' c /\
      match tval (fst x) with
      | VWord w => wquote w = 0 -> Forall (fun r => is_part d r = is_part d' r) s
      | VStr _ => True
      end
  end.

(** Where the shipped dialects differ: @ $ _ and the backquote at the start of
    a token, @ and $ in a word. *)
Definition common_slice (x : token * list rune) : Prop :=
  match snd x with
  | [] => True
  | c :: s => ~ In c [64; 36; 95; 96] /\
      match tval (fst x) with
      | VWord w => wquote w = 0 -> Forall (fun r => ~ In r [64; 36]) s
      | VStr _ => True
      end
  end.
