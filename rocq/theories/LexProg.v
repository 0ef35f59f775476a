(** The tokenizer as the program it is: a sequence of calls of Peek and Next on
    its scanner (sqltoken/tokenizer.go:121-544), each case with the calls in the
    order of the source.  Lexer.v says what the outcome is; here are the calls
    that lead to it. *)
From Coq Require Import ZArith List Bool String.
From Verif Require Import Base Dialect Token Lexer Reader.
Import ListNotations.
Open Scope list_scope.
Open Scope Z_scope.

(** A program that asks a scanner.  [SOut] marks a loop that has used up its
    rounds (a model artefact: Go's loops have no limit). *)
Inductive sprog (A : Type) : Type :=
| SRet (a : A)
| SPeek (k : rune -> sprog A)
| SNext (k : rune -> sprog A)
| SOut.
Arguments SRet {A} a.
Arguments SPeek {A} k.
Arguments SNext {A} k.
Arguments SOut {A}.

Fixpoint sbind {A B} (p : sprog A) (f : A -> sprog B) : sprog B :=
  match p with
  | SRet a => f a
  | SPeek k => SPeek (fun r => sbind (k r) f)
  | SNext k => SNext (fun r => sbind (k r) f)
  | SOut => SOut
  end.

(** The answer of [next] (sqltoken/tokenizer.go:220): a token, io.EOF or an
    error, with the tokenizer's line and column afterwards. *)
Inductive lexans :=
| ATok (k : kind) (v : tvalue) (line col : Z)
| AEof
| AErr (line col : Z).

(** sqltoken/tokenizer.go:464-472. *)
Fixpoint word_loop (d : dialect) (n : nat) (acc : list rune) : sprog (list rune) :=
  match n with
  | O => SOut
  | S n => SPeek (fun r => if is_part d r then SNext (fun _ => word_loop d n (acc ++ [r])) else SRet acc)
  end.

(** sqltoken/tokenizer.go:481-502; [None] is the error in 495. *)
Fixpoint string_loop (n : nat) (acc : list rune) : sprog (option (list rune)) :=
  match n with
  | O => SOut
  | S n =>
      SPeek (fun r =>
        if r =? 39 then
          SNext (fun _ => SPeek (fun m => if m =? 39 then SNext (fun _ => string_loop n (acc ++ [39])) else SRet (Some acc)))
        else if r =? EOFr then SRet None
        else SNext (fun _ => string_loop n (acc ++ [r])))
  end.

(** sqltoken/tokenizer.go:281-287. *)
Fixpoint delim_loop (q : rune) (n : nat) (acc : list rune) : sprog (list rune) :=
  match n with
  | O => SOut
  | S n => SNext (fun r => if r =? q then SRet acc else delim_loop q n (acc ++ [r]))
  end.

(** sqltoken/tokenizer.go:294-302. *)
Fixpoint number_loop (n : nat) (acc : list rune) : sprog (list rune) :=
  match n with
  | O => SOut
  | S n => SPeek (fun r => if is_digit r || (r =? 46) then SNext (fun _ => number_loop n (acc ++ [r])) else SRet acc)
  end.

(** sqltoken/tokenizer.go:327-337. *)
Fixpoint line_loop (n : nat) (acc : list rune) : sprog (list rune) :=
  match n with
  | O => SOut
  | S n => SPeek (fun r => if negb (r =? EOFr) && negb (r =? 10) then SNext (fun _ => line_loop n (acc ++ [r])) else SRet acc)
  end.

(** sqltoken/tokenizer.go:512-541: text, line and column, or the error in 525
    with line and column. *)
Fixpoint block_loop (n : nat) (may : bool) (acc : list rune) (line col : Z) : sprog ((list rune * Z * Z) + (Z * Z)) :=
  match n with
  | O => SOut
  | S n =>
      (* 530-540 *)
      let rest r line col :=
        if may && (r =? 47) then SRet (inl (acc, line, col))
        else let acc := if may then acc ++ [r] else acc in
             block_loop n (r =? 42) (if r =? 42 then acc else acc ++ [r]) line col in
      SNext (fun r =>
        if r =? 13 then SPeek (fun m => if m =? 10 then SNext (fun _ => rest r (line + 1) 1) else rest r (line + 1) 1)
        else if r =? 10 then rest r (line + 1) 1
        else if r =? EOFr then SRet (inr (line, col))
        else rest r line (col + 1))
  end.

(** sqltoken/tokenizer.go:460-476 with the caller's MakeKeyword(s, 0). *)
Definition word_prog (d : dialect) (n : nat) (f : rune) (line col : Z) : sprog lexans :=
  sbind (word_loop d n [f]) (fun w => SRet (ATok SQLKeyword (VWord (make_keyword w 0)) line (col + glen w))).

(** sqltoken/tokenizer.go:478-506. *)
Definition string_prog (k : kind) (n : nat) (line col : Z) : sprog lexans :=
  SNext (fun _ => sbind (string_loop n []) (fun o =>
    SRet match o with Some s => ATok k (VStr s) line (col + 2 + glen s) | None => AErr line col end)).

(** A token of one or two given runes. *)
Definition sym1 (k : kind) (s : string) (line col : Z) : sprog lexans := SRet (ATok k (vs s) line (col + 1)).
Definition sym2 (k : kind) (s : string) (line col : Z) : sprog lexans := SNext (fun _ => SRet (ATok k (vs s) line (col + 2))).

(** sqltoken/tokenizer.go:220-458, the cases in source order; [n] is the number
    of rounds granted to each loop. *)
Definition next_prog (d : dialect) (n : nat) (line col : Z) : sprog lexans :=
  SPeek (fun r =>
    if r =? 32 then SNext (fun _ => sym1 Whitespace " " line col)                        (* 223-226 *)
    else if r =? 9 then SNext (fun _ => SRet (ATok Whitespace (VStr [9]) line (col + 4))) (* 228-231 *)
    else if r =? 10 then SNext (fun _ => SRet (ATok Whitespace (VStr [10]) (line + 1) 1)) (* 233-237 *)
    else if r =? 13 then                                                                 (* 239-247 *)
      SNext (fun _ => SPeek (fun m =>
        if m =? 10 then SNext (fun _ => SRet (ATok Whitespace (VStr [10]) (line + 1) 1))
        else SRet (ATok Whitespace (VStr [10]) (line + 1) 1)))
    else if r =? 78 then                                                                 (* 249-262 *)
      SNext (fun _ => SPeek (fun m =>
        if m =? 39 then string_prog NationalStringLiteral n line (col + 1) else word_prog d n 78 line col))
    else if is_start d r then SNext (fun _ => word_prog d n r line col)                  (* 264-267 *)
    else if r =? 39 then string_prog SingleQuotedString n line col                       (* 269-274 *)
    else if is_delim d r then                                                            (* 276-290 *)
      SNext (fun _ => sbind (delim_loop (matching_end_quote r) n []) (fun s =>
        SRet (ATok SQLKeyword (VWord (make_keyword s r)) line (col + 2 + zlen s))))
    else if is_digit r then                                                              (* 292-304 *)
      sbind (number_loop n []) (fun s => SRet (ATok Number (VStr s) line (col + zlen s)))
    else if r =? 40 then SNext (fun _ => sym1 LParen "(" line col)                       (* 306-309 *)
    else if r =? 41 then SNext (fun _ => sym1 RParen ")" line col)                       (* 311-314 *)
    else if r =? 44 then SNext (fun _ => sym1 Comma "," line col)                        (* 316-319 *)
    else if r =? 45 then                                                                 (* 321-340 *)
      SNext (fun _ => SPeek (fun m =>
        if m =? 45 then SNext (fun _ => sbind (line_loop n []) (fun s => SRet (ATok Comment (VStr s) line (col + zlen s + 2))))
        else sym1 Minus "-" line col))
    else if r =? 47 then                                                                 (* 342-354 *)
      SNext (fun _ => SPeek (fun m =>
        if m =? 42 then
          SNext (fun _ => sbind (block_loop n false [] line (col + 2)) (fun o =>
            SRet match o with inl (s, line, col) => ATok Comment (VStr s) line col | inr (line, col) => AErr line col end))
        else sym1 Div "/" line col))
    else if r =? 43 then SNext (fun _ => sym1 Plus "+" line col)                         (* 356-359 *)
    else if r =? 42 then SNext (fun _ => sym1 Mult "*" line col)                         (* 360-363 *)
    else if r =? 37 then SNext (fun _ => sym1 Mod "%" line col)                          (* 364-367 *)
    else if r =? 61 then SNext (fun _ => sym1 Eq "=" line col)                           (* 368-371 *)
    else if r =? 46 then SNext (fun _ => sym1 Period "." line col)                       (* 372-375 *)
    else if r =? 33 then                                                                 (* 377-385 *)
      SNext (fun _ => SPeek (fun m => if m =? 61 then sym2 Neq "!=" line col else SRet (AErr line col)))
    else if r =? 60 then                                                                 (* 387-401 *)
      SNext (fun _ => SPeek (fun m =>
        if m =? 61 then sym2 LtEq "<=" line col
        else if m =? 62 then sym2 Neq "<>" line col
        else sym1 Lt "<" line col))
    else if r =? 62 then                                                                 (* 402-412 *)
      SNext (fun _ => SPeek (fun m => if m =? 61 then sym2 GtEq ">=" line col else sym1 Gt ">" line col))
    else if r =? 58 then                                                                 (* 413-422 *)
      SNext (fun _ => SPeek (fun m => if m =? 58 then sym2 DoubleColon "::" line col else sym1 Colon ":" line col))
    else if r =? 59 then SNext (fun _ => sym1 Semicolon ";" line col)                    (* 423-426 *)
    else if r =? 92 then SNext (fun _ => sym1 Backslash "\" line col)                    (* 427-430 *)
    else if r =? 91 then SNext (fun _ => sym1 LBracket "[" line col)                     (* 431-434 *)
    else if r =? 93 then SNext (fun _ => sym1 RBracket "]" line col)                     (* 435-438 *)
    else if r =? 38 then SNext (fun _ => sym1 Ampersand "&" line col)                    (* 439-442 *)
    else if r =? 123 then SNext (fun _ => sym1 LBrace "{" line col)                      (* 443-446 *)
    else if r =? 125 then SNext (fun _ => sym1 RBrace "}" line col)                      (* 447-450 *)
    else if r =? EOFr then SRet AEof                                                     (* 451-452 *)
    else SNext (fun _ => SRet (ATok Char (VStr [r]) line (col + 1)))).                   (* 453-456 *)

(** sqltoken/tokenizer.go:162-211 (Tokenize, NextToken, Scan); [f] is the number
    of rounds granted to the loop in Tokenize. *)
Fixpoint tokenize_prog (d : dialect) (pc : bool) (n f : nat) (line col : Z) (acc : list token) : sprog tokres :=
  match f with
  | O => SOut
  | S f =>
      sbind (next_prog d n line col) (fun a =>
        match a with
        | AEof => SRet (TOk acc)
        | AErr _ _ => SRet TErr
        | ATok k v line' col' =>
            tokenize_prog d pc n f line' col'
              (if negb pc && is_ws_kind k then acc else acc ++ [mkTok k v (mkPos line col) (mkPos line' col')])
        end)
  end.

(** Running such a program on a scanner: the answer ([None]: a loop ran out of
    rounds), the scanner afterwards, and how often Peek and Next were called. *)
Record usage := mkUsage { peeks : nat; nexts : nat }.
Section Exec.
  Context {S A : Type} (pk nx : S -> rune * S).
  Fixpoint exec (p : sprog A) (s : S) : option A * S * usage :=
    match p with
    | SRet a => (Some a, s, mkUsage 0 0)
    | SOut => (None, s, mkUsage 0 0)
    | SPeek k => let '(r, s) := pk s in
                 let '(a, s, u) := exec (k r) s in (a, s, mkUsage (1 + peeks u) (nexts u))
    | SNext k => let '(r, s) := nx s in
                 let '(a, s, u) := exec (k r) s in (a, s, mkUsage (peeks u) (1 + nexts u))
    end.
End Exec.

(** A scanner over a text that is simply there: text/scanner answers EOF at the
    end, for ever. *)
Definition text_peek (s : list rune) : rune * list rune := (hd EOFr s, s).
Definition text_next (s : list rune) : rune * list rune := (hd EOFr s, tl s).
Definition on_text {A} (p : sprog A) (s : list rune) := exec text_peek text_next p s.

(** text/scanner over an io.Reader (Reader.v). *)
Definition on_reader {A} (p : sprog A) (s : scanner) := exec sc_peek sc_next p s.

(** NewTokenizer and Tokenize on a reader, with [n] rounds for every loop. *)
Definition tokenize_reader (d : dialect) (pc : bool) (n : nat) (src : reader) :=
  on_reader (tokenize_prog d pc n n 1 1 []) (init src).
