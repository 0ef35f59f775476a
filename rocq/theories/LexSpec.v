(** What the tokenizer is supposed to do, written without its code: the lexical
    rules of the SQL dialects as a relation, and the true line and column. *)
From Coq Require Import ZArith List Bool String.
From Verif Require Import Base Dialect Token.
Import ListNotations.
Open Scope Z_scope.

(** Characters that may occur in a word: letters, digits, @ _ $ and everything
    outside ASCII. *)
Definition word_char (r : rune) : bool :=
  is_letter r || is_digit r || (r =? 64) || (r =? 95) || (r =? 36) || (128 <=? r).

(** Dialects covered: words use word characters and do not start with a digit;
    delimited identifiers use double quotes or backquotes.  The three shipped
    dialects satisfy this. *)
Definition dialect_ok (d : dialect) : Prop :=
  (forall r, is_start d r = true -> word_char r = true /\ is_digit r = false) /\
  (forall r, is_part d r = true -> word_char r = true) /\
  (forall r, is_delim d r = true -> r = 34 \/ r = 96).

(** The first character of the text, if any, is not [P]. *)
Definition stops (P : rune -> bool) (rest : list rune) : Prop :=
  match rest with [] => True | r :: _ => P r = false end.

(** SQL escaping of a string literal: each quote is doubled. *)
Definition escape (s : list rune) : list rune :=
  flat_map (fun c => if c =? 39 then [39; 39] else [c]) s.

(** Symbols and the characters that must not follow them (longest match). *)
Definition symbols : list (string * kind * string) := [
  ("(", LParen, ""); (")", RParen, ""); (",", Comma, ""); ("+", Plus, "");
  ("*", Mult, ""); ("%", Mod, ""); ("=", Eq, ""); (".", Period, "");
  (";", Semicolon, ""); ("\", Backslash, ""); ("[", LBracket, "");
  ("]", RBracket, ""); ("&", Ampersand, ""); ("{", LBrace, ""); ("}", RBrace, "");
  ("!=", Neq, ""); ("<=", LtEq, ""); ("<>", Neq, ""); (">=", GtEq, "");
  ("::", DoubleColon, ""); ("-", Minus, "-"); ("/", Div, "*"); ("<", Lt, "=>");
  (">", Gt, "="); (":", Colon, ":")]%string.

Definition starts_symbol (r : rune) : bool :=
  existsb (fun '(s, _, _) => match gs s with c :: _ => c =? r | [] => false end) symbols
  || (r =? 33).

(** The text of a block comment as the tokenizer reports it.  SQL would keep
    [body]; the code replaces each star by the character after it and a CR LF
    by CR. *)
Fixpoint block_text (body : list rune) : list rune :=
  match body with
  | [] => []
  | c :: s =>
      if c =? 42 then
        match s with
        | [] => [42]
        | n :: _ => n :: block_text s
        end
      else if c =? 13 then
        match s with
        | n :: s' => if n =? 10 then 13 :: block_text s' else 13 :: block_text s
        | [] => [13]
        end
      else c :: block_text s
  end.

(** [lexeme d k v s rest]: at the start of the text [s ++ rest] the token is
    [s], of kind [k] and value [v]. *)
Inductive lexeme (d : dialect) : kind -> tvalue -> list rune -> list rune -> Prop :=
| Lx_space rest : lexeme d Whitespace (VStr [32]) [32] rest
| Lx_tab rest : lexeme d Whitespace (VStr [9]) [9] rest
| Lx_lf rest : lexeme d Whitespace (VStr [10]) [10] rest
| Lx_cr rest : stops (fun r => r =? 10) rest -> lexeme d Whitespace (VStr [10]) [13] rest
| Lx_crlf rest : lexeme d Whitespace (VStr [10]) [13; 10] rest
| Lx_word f w rest :
    is_start d f = true \/ f = 78 ->
    forallb (is_part d) w = true ->
    stops (is_part d) rest ->
    (f = 78 -> w = [] -> stops (fun r => r =? 39) rest) ->
    lexeme d SQLKeyword (VWord (mkWord (f :: w) 0 (upper (f :: w)))) (f :: w) rest
| Lx_delimited q s rest :
    is_delim d q = true ->
    ~ In q s ->
    lexeme d SQLKeyword (VWord (mkWord s q (upper s))) (q :: s ++ [q]) rest
| Lx_string s rest :
    stops (fun r => r =? 39) rest ->
    lexeme d SingleQuotedString (VStr s) (39 :: escape s ++ [39]) rest
| Lx_nstring s rest :
    stops (fun r => r =? 39) rest ->
    lexeme d NationalStringLiteral (VStr s) (78 :: 39 :: escape s ++ [39]) rest
| Lx_number c w rest :
    is_digit c = true ->
    forallb (fun r => is_digit r || (r =? 46)) w = true ->
    stops (fun r => is_digit r || (r =? 46)) rest ->
    lexeme d Number (VStr (c :: w)) (c :: w) rest
| Lx_line w rest :
    ~ In 10 w ->
    stops (fun r => negb (r =? 10)) rest ->
    lexeme d Comment (VStr w) (45 :: 45 :: w) rest
| Lx_block body rest :
    (forall a b, body ++ [42; 47] = a ++ 42 :: 47 :: b -> b = []) ->
    lexeme d Comment (VStr (block_text body)) (47 :: 42 :: body ++ [42; 47]) rest
| Lx_symbol s k f rest :
    In (s, k, f) symbols ->
    stops (fun r => existsb (Z.eqb r) (gs f)) rest ->
    lexeme d k (VStr (gs s)) (gs s) rest
| Lx_other r rest :
    ~ In r [32; 9; 10; 13; 78; 39] ->
    is_start d r = false -> is_delim d r = false -> is_digit r = false ->
    starts_symbol r = false ->
    lexeme d Char (VStr [r]) [r] rest.

(** Texts that do not start with a token. *)
Inductive lex_error : list rune -> Prop :=
| Le_bang rest : stops (fun r => r =? 61) rest -> lex_error (33 :: rest)
| Le_string s :
    (forall str rest, s = escape str ++ 39 :: rest -> exists rest', rest = 39 :: rest') ->
    lex_error (39 :: s)
| Le_nstring s :
    (forall str rest, s = escape str ++ 39 :: rest -> exists rest', rest = 39 :: rest') ->
    lex_error (78 :: 39 :: s)
| Le_block s :
    (forall body rest, s <> body ++ 42 :: 47 :: rest) ->
    lex_error (47 :: 42 :: s).

(** A delimited identifier that is never closed. *)
Definition unclosed_delimited (d : dialect) (text : list rune) : Prop :=
  exists q s, text = q :: s /\ is_delim d q = true /\ ~ In q s.

(** The true position after reading a text: CR LF, CR and LF end a line, every
    other character is one column. *)
Fixpoint advance (text : list rune) (p : pos) : pos :=
  match text with
  | [] => p
  | c :: s =>
      if c =? 10 then advance s (mkPos (pline p + 1) 1)
      else if c =? 13 then
        match s with
        | n :: s' => if n =? 10 then advance s' (mkPos (pline p + 1) 1)
                     else advance s (mkPos (pline p + 1) 1)
        | [] => mkPos (pline p + 1) 1
        end
      else advance s (mkPos (pline p) (pcol p + 1))
  end.

(** How far the tokenizer moves for a token of kind [k], value [v], text [s]:
    tabs count 4, words count UTF-8 bytes, strings count the bytes of their
    decoded value plus the quotes, and only blanks and block comments change
    the line. *)
Definition token_end (k : kind) (v : tvalue) (s : list rune) (p : pos) : pos :=
  match k, v with
  | Whitespace, VStr [9] => mkPos (pline p) (pcol p + 4)
  | Whitespace, _ => advance s p
  | Comment, _ =>
      match s with
      | 47 :: _ => advance s p
      | _ => mkPos (pline p) (pcol p + zlen s)
      end
  | SQLKeyword, VWord w =>
      mkPos (pline p) (pcol p + (if wquote w =? 0 then glen s else zlen s))
  | SingleQuotedString, VStr str => mkPos (pline p) (pcol p + 2 + glen str)
  | NationalStringLiteral, VStr str => mkPos (pline p) (pcol p + 3 + glen str)
  | _, _ => mkPos (pline p) (pcol p + zlen s)
  end.

(** [reads d p text l rest]: reading [text] from position [p] gives the tokens
    with slices [l] and leaves [rest]. *)
Inductive reads (d : dialect) : pos -> list rune -> list (token * list rune) -> list rune -> Prop :=
| Rd_nil p text : reads d p text [] text
| Rd_cons p q s text k v l rest :
    lexeme d k v s text ->
    q = token_end k v s p ->
    reads d q text l rest ->
    reads d p (s ++ text) ((mkTok k v p q, s) :: l) rest.

(** The same with the position only. *)
Definition start_pos : pos := mkPos 1 1.

(** Tokens whose width the tokenizer counts truly. *)
Definition ascii (s : list rune) : bool := forallb (fun r => (0 <=? r) && (r <? 128)) s.
Definition one_line (s : list rune) : bool := forallb (fun r => negb ((r =? 10) || (r =? 13))) s.
Definition counted_truly (k : kind) (s : list rune) : Prop :=
  match k with
  | Whitespace => s <> [9]
  | SingleQuotedString => ascii s = true /\ one_line s = true /\ exists b, s = 39 :: b ++ [39] /\ ~ In 39 b
  | NationalStringLiteral =>
      ascii s = true /\ one_line s = true /\ exists b, s = 78 :: 39 :: b ++ [39] /\ ~ In 39 b
  | SQLKeyword => one_line s = true /\ (ascii s = true \/ exists q b, s = q :: b ++ [q] /\ (q = 34 \/ q = 96))
  | Comment => match s with 45 :: _ => one_line s = true | _ => True end
  | _ => True
  end.

(** Reading order of positions. *)
Definition before (p q : pos) : Prop :=
  pline p < pline q \/ (pline p = pline q /\ pcol p < pcol q).

(** Bodies of block comments reported verbatim: a star that is not the last
    character is followed by a star, and there is no CR LF. *)
Definition plain_body (body : list rune) : Prop :=
  (forall a c b, body = a ++ 42 :: c :: b -> c = 42) /\
  (forall a b, body <> a ++ 13 :: 10 :: b).
