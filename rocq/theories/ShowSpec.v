(** Integers as texts (property C65). *)
From Coq Require Import ZArith List Bool String.
From Verif Require Import Base Dialect Token ValueSpec.
Import ListNotations.
Open Scope Z_scope.
Open Scope list_scope.

(** The text of an integer: decimal digits, after a minus sign if it is negative. *)
Definition int_text (s : gostring) (z : Z) : Prop :=
  (0 <= z /\ digits s /\ dec_val s = z) \/ (z < 0 /\ exists t, s = 45 :: t /\ digits t /\ dec_val t = - z).

(** The kinds of tokens by the names of their constants. *)
Definition named_kinds : list (kind * string) :=
  [(SQLKeyword, "SQLKeyword"); (Number, "Number"); (Char, "Char"); (SingleQuotedString, "SingleQuotedString");
   (NationalStringLiteral, "NationalStringLiteral"); (Comma, "Comma"); (Whitespace, "Whitespace"); (Comment, "Comment");
   (Eq, "Eq"); (Neq, "Neq"); (Lt, "Lt"); (Gt, "Gt"); (LtEq, "LtEq"); (GtEq, "GtEq"); (Plus, "Plus"); (Minus, "Minus");
   (Mult, "Mult"); (Div, "Div"); (Mod, "Mod"); (LParen, "LParen"); (RParen, "RParen"); (Period, "Period");
   (Colon, "Colon"); (DoubleColon, "DoubleColon"); (Semicolon, "Semicolon"); (Backslash, "Backslash");
   (LBracket, "LBracket"); (RBracket, "RBracket"); (Ampersand, "Ampersand"); (LBrace, "LBrace"); (RBrace, "RBrace");
   (ILLEGAL, "ILLEGAL")]%string.
