(** Model of the data types of package sqltoken. *)
From Coq Require Import ZArith List Bool String.
From Verif Require Import Base Dialect.
Import ListNotations.
Open Scope Z_scope.

(** sqltoken/kind.go:3-71. *)
Inductive kind :=
| SQLKeyword | Number | Char | SingleQuotedString | NationalStringLiteral
| Comma | Whitespace | Comment | Eq | Neq | Lt | Gt | LtEq | GtEq
| Plus | Minus | Mult | Div | Mod | LParen | RParen | Period | Colon
| DoubleColon | Semicolon | Backslash | LBracket | RBracket | Ampersand
| LBrace | RBrace | ILLEGAL.

Definition kind_eqb (a b : kind) : bool :=
  match a, b with
  | SQLKeyword, SQLKeyword | Number, Number | Char, Char
  | SingleQuotedString, SingleQuotedString
  | NationalStringLiteral, NationalStringLiteral | Comma, Comma
  | Whitespace, Whitespace | Comment, Comment | Eq, Eq | Neq, Neq | Lt, Lt
  | Gt, Gt | LtEq, LtEq | GtEq, GtEq | Plus, Plus | Minus, Minus | Mult, Mult
  | Div, Div | Mod, Mod | LParen, LParen | RParen, RParen | Period, Period
  | Colon, Colon | DoubleColon, DoubleColon | Semicolon, Semicolon
  | Backslash, Backslash | LBracket, LBracket | RBracket, RBracket
  | Ampersand, Ampersand | LBrace, LBrace | RBrace, RBrace
  | ILLEGAL, ILLEGAL => true
  | _, _ => false
  end.

(** sqltoken/tokenizer.go:94-97. *)
Record pos := mkPos { pline : Z; pcol : Z }.

(** Go zero value sqltoken.Pos{}. *)
Definition pos0 : pos := mkPos 0 0.

(** sqltoken/tokenizer.go:103-119. *)
Definition compare_pos (x y : pos) : Z :=
  if (pline x =? pline y) && (pcol x =? pcol y) then 0
  else if pline y <? pline x then 1
  else if pline x <? pline y then -1
  else if pcol y <? pcol x then 1
  else -1.

(** sqltoken/tokenizer.go:14-18. *)
Record sqlword := mkWord { wvalue : gostring; wquote : rune; wkeyword : gostring }.

(** sqltoken/tokenizer.go:29-39. *)
Definition matching_end_quote (q : rune) : rune :=
  if q =? 34 then 34 else if q =? 91 then 93 else if q =? 96 then 96 else 0.

(** sqltoken/tokenizer.go:20-27. *)
Definition word_string (w : sqlword) : gostring :=
  if (wquote w =? 34) || (wquote w =? 91) || (wquote w =? 96)
  then wquote w :: wvalue w ++ [matching_end_quote (wquote w)]
  else if wquote w =? 0 then wvalue w
  else [].

(** sqltoken/tokenizer.go:41-55: the cache filled by init, as a lookup function.
    Each keyword is stored under its own spelling and under its lower case. *)
Definition keyword_cache (word : gostring) : option sqlword :=
  match find (fun k => gs_eqb word k || gs_eqb word (lower k)) keywords with
  | Some k => Some (mkWord word 0 k)
  | None => None
  end.

(** sqltoken/tokenizer.go:57-78. *)
Definition make_keyword (word : gostring) (quote : rune) : sqlword :=
  match (if quote =? 0 then keyword_cache word else None) with
  | Some w => w
  | None =>
      let w := upper word in
      if (quote =? 0) && mem_gs w keywords
      then mkWord word 0 w
      else mkWord word quote w
  end.

(** Token.Value is an interface{}: the tokenizer stores *SQLWord or string. *)
Inductive tvalue := VWord (w : sqlword) | VStr (s : gostring).

(** sqltoken/tokenizer.go:80-85. *)
Record token := mkTok { tkind : kind; tval : tvalue; tfrom : pos; tto : pos }.
