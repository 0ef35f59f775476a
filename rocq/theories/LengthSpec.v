(** The length of printed text (C62): small, separate definitions. *)
From Coq Require Import ZArith List Bool.
From Verif Require Import Base Token AST Num.
Import ListNotations.
Open Scope list_scope.
Open Scope nat_scope.

(** What is written for the content of a token: a word or a string as it is,
    the decimal writing of a number with a dot; all else is written with a
    bounded number of characters. *)
Definition written_for (t : token) : gostring :=
  match tkind t, tval t with
  | SQLKeyword, VWord w => word_string w
  | (SingleQuotedString | NationalStringLiteral), VStr s => s
  | Number, VStr s =>
      if existsb (fun c => Z.eqb c 46) s
      then match parse_float s with Some f => format_float f | None => [] end
      else []
  | _, _ => []
  end.

(** Every token pays for its content and for twenty characters. *)
Definition allowance (ts : list token) : nat :=
  fold_right (fun t n => 20 + List.length (written_for t) + n) 0 ts.
