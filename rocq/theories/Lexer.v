(** Model of sqltoken.Tokenizer (sqltoken/tokenizer.go:121-544). *)
From Coq Require Import ZArith List Bool String.
From Verif Require Import Base Dialect Token.
Import ListNotations.
Open Scope Z_scope.

(** Scanner.Peek: the next rune or EOF (text/scanner; the source is the list of
    runes still to be read). *)
Definition peek (s : list rune) : rune := match s with [] => EOFr | r :: _ => r end.

(** The scanner skips a leading byte order mark (text/scanner Peek). *)
Definition skip_bom (s : list rune) : list rune :=
  match s with r :: s' => if r =? 65279 then s' else s | [] => [] end.

(** Result of [next] (sqltoken/tokenizer.go:220): a token, io.EOF, an error
    (with the tokenizer state left behind), or the endless loop at 281-287. *)
Inductive lexres :=
| LTok (k : kind) (v : tvalue) (rest : list rune) (line col : Z)
| LEof
| LErr (rest : list rune) (line col : Z)
| LHang.

(** sqltoken/tokenizer.go:460-476, the loop: identifier characters taken from
    the source.  [None]: the loop does not end (only if the dialect accepts EOF
    as an identifier part). *)
Fixpoint scan_part (d : dialect) (s : list rune) : option (list rune * list rune) :=
  match s with
  | [] => if is_part d EOFr then None else Some ([], [])
  | r :: s' =>
      if is_part d r
      then match scan_part d s' with
           | Some (w, rest) => Some (r :: w, rest)
           | None => None
           end
      else Some ([], s)
  end.

(** sqltoken/tokenizer.go:478-506 after the opening quote has been skipped
    (480).  [None]: EOF reached, unclosed literal (494-496). *)
Fixpoint scan_string (s : list rune) : option (list rune * list rune) :=
  match s with
  | [] => None
  | n :: s' =>
      if n =? 39 then
        match s' with
        | m :: s'' =>
            if m =? 39
            then match scan_string s'' with
                 | Some (str, rest) => Some (39 :: str, rest)
                 | None => None
                 end
            else Some ([], s')
        | [] => Some ([], s')
        end
      else match scan_string s' with
           | Some (str, rest) => Some (n :: str, rest)
           | None => None
           end
  end.

(** sqltoken/tokenizer.go:281-287: runes up to the closing quote.  [None]: no
    closing quote follows; Go's loop then appends EOF for ever (see
    LexHang.v for the step-by-step justification). *)
Fixpoint scan_delim (q : rune) (s : list rune) : option (list rune * list rune) :=
  match s with
  | [] => None
  | n :: s' =>
      if n =? q then Some ([], s')
      else match scan_delim q s' with
           | Some (str, rest) => Some (n :: str, rest)
           | None => None
           end
  end.

(** sqltoken/tokenizer.go:294-302. *)
Fixpoint scan_number (s : list rune) : list rune * list rune :=
  match s with
  | [] => ([], [])
  | n :: s' =>
      if is_digit n || (n =? 46)
      then let '(w, rest) := scan_number s' in (n :: w, rest)
      else ([], s)
  end.

(** sqltoken/tokenizer.go:327-337. *)
Fixpoint scan_line (s : list rune) : list rune * list rune :=
  match s with
  | [] => ([], [])
  | n :: s' =>
      if n =? 10 then ([], s)
      else let '(w, rest) := scan_line s' in (n :: w, rest)
  end.

(** sqltoken/tokenizer.go:508-544.  [may] is mayBeClosingComment; the text is
    accumulated in reverse.  Result: [inl (text, rest, line, col)] or, at EOF,
    [inr (line, col)]. *)
Fixpoint scan_block (s : list rune) (may : bool) (acc : list rune) (line col : Z)
  : (list rune * list rune * Z * Z) + (Z * Z) :=
  match s with
  | [] => inr (line, col)
  | n :: s1 =>
      (* 530-540 *)
      let acc1 := if may then n :: acc else acc in
      let acc2 := if n =? 42 then acc1 else n :: acc1 in
      if n =? 13 then
        (* 515-520: also skips a following line feed *)
        match s1 with
        | m :: s2 =>
            if m =? 10 then scan_block s2 false acc2 (line + 1) 1
            else scan_block s1 false acc2 (line + 1) 1
        | [] => scan_block s1 false acc2 (line + 1) 1
        end
      else if n =? 10 then scan_block s1 false acc2 (line + 1) 1
      else if may && (n =? 47) then inl (rev acc, s1, line, col + 1)
      else scan_block s1 (n =? 42) acc2 line (col + 1)
  end.

Definition vs (s : string) : tvalue := VStr (gs s).

(** sqltoken/tokenizer.go:478-506 with the column update (503). *)
Definition tokenize_string (k : kind) (s : list rune) (line col : Z) : lexres :=
  match scan_string s with
  | Some (str, rest) => LTok k (VStr str) rest line (col + 2 + glen str)
  | None => LErr [] line col
  end.

(** sqltoken/tokenizer.go:460-476 with the caller's MakeKeyword(s, 0). *)
Definition tokenize_word (d : dialect) (f : rune) (s : list rune) (line col : Z) : lexres :=
  match scan_part d s with
  | Some (w, rest) =>
      LTok SQLKeyword (VWord (make_keyword (f :: w) 0)) rest line (col + glen (f :: w))
  | None => LHang
  end.

(** sqltoken/tokenizer.go:220-458, the cases in source order. *)
Definition next (d : dialect) (src : list rune) (line col : Z) : lexres :=
  match src with
  | [] =>
      (* r = EOF: every earlier case is false unless the dialect accepts EOF *)
      if is_start d EOFr then LHang
      else if is_delim d EOFr then LHang
      else LEof                                                  (* 451-452 *)
  | r :: s =>
    if r =? 32 then LTok Whitespace (vs " ") s line (col + 1)    (* 223-226 *)
    else if r =? 9 then LTok Whitespace (VStr [9]) s line (col + 4) (* 228-231 *)
    else if r =? 10 then LTok Whitespace (VStr [10]) s (line + 1) 1 (* 233-237 *)
    else if r =? 13 then                                         (* 239-247 *)
      match s with
      | n :: s' => if n =? 10 then LTok Whitespace (VStr [10]) s' (line + 1) 1
                   else LTok Whitespace (VStr [10]) s (line + 1) 1
      | [] => LTok Whitespace (VStr [10]) s (line + 1) 1
      end
    else if r =? 78 then                                         (* 249-262 *)
      match s with
      | n :: s' => if n =? 39 then tokenize_string NationalStringLiteral s' line (col + 1)
                   else tokenize_word d 78 s line col
      | [] => tokenize_word d 78 s line col
      end
    else if is_start d r then tokenize_word d r s line col       (* 264-267 *)
    else if r =? 39 then tokenize_string SingleQuotedString s line col (* 269-274 *)
    else if is_delim d r then                                    (* 276-290 *)
      match scan_delim (matching_end_quote r) s with
      | Some (str, rest) =>
          LTok SQLKeyword (VWord (make_keyword str r)) rest line (col + 2 + zlen str)
      | None => LHang
      end
    else if is_digit r then                                      (* 292-304 *)
      let '(w, rest) := scan_number src in
      LTok Number (VStr w) rest line (col + zlen w)
    else if r =? 40 then LTok LParen (vs "(") s line (col + 1)   (* 306-309 *)
    else if r =? 41 then LTok RParen (vs ")") s line (col + 1)   (* 311-314 *)
    else if r =? 44 then LTok Comma (vs ",") s line (col + 1)    (* 316-319 *)
    else if r =? 45 then                                         (* 321-340 *)
      match s with
      | n :: s' =>
          if n =? 45
          then let '(w, rest) := scan_line s' in
               LTok Comment (VStr w) rest line (col + zlen w + 2)
          else LTok Minus (vs "-") s line (col + 1)
      | [] => LTok Minus (vs "-") s line (col + 1)
      end
    else if r =? 47 then                                         (* 342-354 *)
      match s with
      | n :: s' =>
          if n =? 42
          then match scan_block s' false [] line (col + 2) with
               | inl (w, rest, line', col') => LTok Comment (VStr w) rest line' col'
               | inr (line', col') => LErr [] line' col'
               end
          else LTok Div (vs "/") s line (col + 1)
      | [] => LTok Div (vs "/") s line (col + 1)
      end
    else if r =? 43 then LTok Plus (vs "+") s line (col + 1)     (* 356-359 *)
    else if r =? 42 then LTok Mult (vs "*") s line (col + 1)     (* 360-363 *)
    else if r =? 37 then LTok Mod (vs "%") s line (col + 1)      (* 364-367 *)
    else if r =? 61 then LTok Eq (vs "=") s line (col + 1)       (* 368-371 *)
    else if r =? 46 then LTok Period (vs ".") s line (col + 1)   (* 372-375 *)
    else if r =? 33 then                                         (* 377-385 *)
      match s with
      | n :: s' => if n =? 61 then LTok Neq (vs "!=") s' line (col + 2)
                   else LErr s line col
      | [] => LErr s line col
      end
    else if r =? 60 then                                         (* 387-401 *)
      match s with
      | n :: s' => if n =? 61 then LTok LtEq (vs "<=") s' line (col + 2)
                   else if n =? 62 then LTok Neq (vs "<>") s' line (col + 2)
                   else LTok Lt (vs "<") s line (col + 1)
      | [] => LTok Lt (vs "<") s line (col + 1)
      end
    else if r =? 62 then                                         (* 402-412 *)
      match s with
      | n :: s' => if n =? 61 then LTok GtEq (vs ">=") s' line (col + 2)
                   else LTok Gt (vs ">") s line (col + 1)
      | [] => LTok Gt (vs ">") s line (col + 1)
      end
    else if r =? 58 then                                         (* 413-422 *)
      match s with
      | n :: s' => if n =? 58 then LTok DoubleColon (vs "::") s' line (col + 2)
                   else LTok Colon (vs ":") s line (col + 1)
      | [] => LTok Colon (vs ":") s line (col + 1)
      end
    else if r =? 59 then LTok Semicolon (vs ";") s line (col + 1) (* 423-426 *)
    else if r =? 92 then LTok Backslash (vs "\") s line (col + 1) (* 427-430 *)
    else if r =? 91 then LTok LBracket (vs "[") s line (col + 1) (* 431-434 *)
    else if r =? 93 then LTok RBracket (vs "]") s line (col + 1) (* 435-438 *)
    else if r =? 38 then LTok Ampersand (vs "&") s line (col + 1) (* 439-442 *)
    else if r =? 123 then LTok LBrace (vs "{") s line (col + 1)  (* 443-446 *)
    else if r =? 125 then LTok RBrace (vs "}") s line (col + 1)  (* 447-450 *)
    else LTok Char (VStr [r]) s line (col + 1)                   (* 453-456 *)
  end.

(** Tokenizer state: sqltoken/tokenizer.go:121-127 without the dialect. *)
Record tstate := mkTS { ts_src : list rune; ts_line : Z; ts_col : Z }.

(** sqltoken/tokenizer.go:183-211 (NextToken and Scan).  [SSkip] is the
    (nil, nil) result for a dropped comment or whitespace. *)
Inductive scanres :=
| STok (t : token) (st : tstate)
| SSkip (st : tstate)
| SEof
| SErr (t : token) (st : tstate)
| SHang.

Definition is_ws_kind (k : kind) : bool :=
  match k with Whitespace | Comment => true | _ => false end.

Definition scan (d : dialect) (parse_comment : bool) (st : tstate) : scanres :=
  let p := mkPos (ts_line st) (ts_col st) in
  match next d (ts_src st) (ts_line st) (ts_col st) with
  | LEof => SEof
  | LHang => SHang
  | LErr rest line col =>
      SErr (mkTok ILLEGAL (VStr []) p (mkPos line col)) (mkTS rest line col)
  | LTok k v rest line col =>
      if negb parse_comment && is_ws_kind k then SSkip (mkTS rest line col)
      else STok (mkTok k v p (mkPos line col)) (mkTS rest line col)
  end.

(** sqltoken/tokenizer.go:162-181.  [TFuel] is a model artefact, proved
    unreachable from [tokenize]. *)
Inductive tokres := TOk (l : list token) | TErr | THang | TFuel.

Fixpoint tokenize_loop (d : dialect) (pc : bool) (fuel : nat) (st : tstate)
  (acc : list token) : tokres :=
  match fuel with
  | O => TFuel
  | S f =>
      match scan d pc st with
      | SEof => TOk (rev acc)
      | SErr _ _ => TErr
      | SHang => THang
      | SSkip st' => tokenize_loop d pc f st' acc
      | STok t st' => tokenize_loop d pc f st' (t :: acc)
      end
  end.

(** sqltoken/tokenizer.go:129-138 then Tokenize. *)
Definition tokenize (d : dialect) (pc : bool) (src : list rune) : tokres :=
  let s := skip_bom src in
  tokenize_loop d pc (S (List.length s)) (mkTS s 1 1) [].
