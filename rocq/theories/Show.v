(** How kinds and positions are shown in messages. *)
From Coq Require Import ZArith List Bool String.
From Verif Require Import Base Dialect Token Num.
Import ListNotations.
Open Scope Z_scope.
Open Scope list_scope.

(** sqltoken/kind.go:6-71, the numbers given by iota. *)
Definition kind_number (k : kind) : Z :=
  match k with
  | SQLKeyword => 0 | Number => 1 | Char => 2 | SingleQuotedString => 3 | NationalStringLiteral => 4
  | Comma => 5 | Whitespace => 6 | Comment => 7 | Eq => 8 | Neq => 9 | Lt => 10 | Gt => 11 | LtEq => 12 | GtEq => 13
  | Plus => 14 | Minus => 15 | Mult => 16 | Div => 17 | Mod => 18 | LParen => 19 | RParen => 20 | Period => 21
  | Colon => 22 | DoubleColon => 23 | Semicolon => 24 | Backslash => 25 | LBracket => 26 | RBracket => 27
  | Ampersand => 28 | LBrace => 29 | RBrace => 30 | ILLEGAL => 31
  end.

(** sqltoken/kind_string.go:45. *)
Definition kind_names : gostring :=
  gs "SQLKeywordNumberCharSingleQuotedStringNationalStringLiteralCommaWhitespaceCommentEqNeqLtGtLtEqGtEqPlusMinusMultDivModLParenRParenPeriodColonDoubleColonSemicolonBackslashLBracketRBracketAmpersandLBraceRBraceILLEGAL".

(** sqltoken/kind_string.go:47. *)
Definition kind_index : list Z :=
  [0; 10; 16; 20; 38; 59; 64; 74; 81; 83; 86; 88; 90; 94; 98; 102; 107; 111; 114; 117; 123; 129; 135; 140; 151; 160;
   169; 177; 185; 194; 200; 206; 213].

(** A slice s[a:b]; [None]: out of range. *)
Definition slice (s : gostring) (a b : Z) : option gostring :=
  if (0 <=? a) && (a <=? b) && (b <=? zlen s) then Some (firstn (Z.to_nat (b - a)) (skipn (Z.to_nat a) s)) else None.

(** sqltoken/kind_string.go:49-54; [None]: a panic. *)
Definition kind_string (i : Z) : option gostring :=
  if (i <? 0) || (zlen kind_index - 1 <=? i) then Some (gs "Kind(" ++ format_int i ++ gs ")")
  else match nth_error kind_index (Z.to_nat i), nth_error kind_index (Z.to_nat (i + 1)) with
       | Some a, Some b => slice kind_names a b
       | _, _ => None
       end.

(** sqltoken/tokenizer.go:99-101. *)
Definition pos_string (p : pos) : gostring :=
  gs "{Line: " ++ format_int (pline p) ++ gs " Col: " ++ format_int (pcol p) ++ gs "}".
