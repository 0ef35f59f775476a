(** The characters of a printed text. *)
From Coq Require Import ZArith List Bool String.
From Verif Require Import Base Token AST Nodes.
Import ListNotations.
Open Scope Z_scope.

(** The characters that SQL is written with: from the blank to the tilde. *)
Definition sql_char (c : rune) : Prop := 32 <= c <= 126.

(** The text that a node holds itself: the spelling of a name, the contents of a
    string. *)
Definition holds (x : any) : gostring :=
  match x with
  | AExpr (EIdent i) => id_value i
  | AExpr (EString _ _ s) | AExpr (ENString _ _ s) => s
  | _ => []
  end.

(** The same for a token: only words and strings say something of their own. *)
Definition says (t : token) : gostring :=
  match tkind t, tval t with
  | SQLKeyword, VWord w => wvalue w
  | SingleQuotedString, VStr s | NationalStringLiteral, VStr s => s
  | _, _ => []
  end.

(** The lines of a text: the parts between its newlines. *)
Fixpoint lines (s : gostring) : list gostring :=
  match s with
  | [] => [[]]
  | c :: r =>
      if c =? 10 then [] :: lines r
      else match lines r with l :: m => (c :: l) :: m | [] => [[c]] end
  end.
