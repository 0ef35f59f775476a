(** What a lexical error says (C68). *)
From Coq Require Import ZArith List Bool String.
From Verif Require Import Base Dialect Token LexSpec ValueSpec ShowSpec.
Import ListNotations.
Open Scope Z_scope.
Open Scope list_scope.

(** No needless zero in front. *)
Definition plain_int (s : gostring) : Prop := forall t, s = 48 :: t -> t = [].

(** A position as it is shown in a message. *)
Definition shows_pos (p : pos) (s : gostring) : Prop :=
  exists a b, int_text a (pline p) /\ int_text b (pcol p) /\ plain_int a /\ plain_int b /\ s = gs "{Line:" ++ a ++ gs " Col:" ++ b ++ gs "}".

(** The text of a comment that is not closed: like that of a closed one (see
    [block_text]), but a star at the end is not shown. *)
Fixpoint open_text (body : list rune) : list rune :=
  match body with
  | [] => []
  | c :: s =>
      if c =? 42 then match s with [] => [] | n :: _ => n :: open_text s end
      else if c =? 13 then
        match s with
        | n :: s' => if n =? 10 then 13 :: open_text s' else 13 :: open_text s
        | [] => [13]
        end
      else c :: open_text s
  end.

(** What is said about a text that does not start with a token and stands at [p]. *)
Inductive complaint (p : pos) : list rune -> gostring -> Prop :=
| Co_bang n rest : n <> 61 ->
    complaint p (33 :: n :: rest) (gs "tokenizer error: illegal sequence !" ++ [n])
| Co_bang_end : complaint p [33] (gs "tokenizer error: illegal sequence !" ++ [65533])
| Co_string str at_ : shows_pos p at_ ->
    complaint p (39 :: escape str) (gs "unclosed single quoted string: " ++ str ++ gs " at " ++ at_)
| Co_nstring str at_ : shows_pos (mkPos (pline p) (pcol p + 1)) at_ ->
    complaint p (78 :: 39 :: escape str) (gs "unclosed single quoted string: " ++ str ++ gs " at " ++ at_)
| Co_comment s at_ : (forall body rest, s <> body ++ 42 :: 47 :: rest) ->
    shows_pos (advance s (mkPos (pline p) (pcol p + 2))) at_ ->
    complaint p (47 :: 42 :: s) (gs "unclosed multiline comment: " ++ open_text s ++ gs " at " ++ at_).

(** Where the tokens read so far end. *)
Definition reached (l : list (token * list rune)) : pos :=
  match rev l with [] => start_pos | (t, _) :: _ => tto t end.
