(** The messages of lexical errors. *)
From Coq Require Import ZArith List Bool String.
From Verif Require Import Base Dialect Token Lexer Num.
Import ListNotations.
Open Scope Z_scope.
Open Scope list_scope.

(** sqltoken/tokenizer.go:478-506: what [builder] holds when the end of the
    input is reached (494-496). *)
Fixpoint string_so_far (s : list rune) : gostring :=
  match s with
  | [] => []
  | n :: s' =>
      if n =? 39 then
        match s' with
        | m :: s'' => if m =? 39 then 39 :: string_so_far s'' else []
        | [] => []
        end
      else n :: string_so_far s'
  end.

(** sqltoken/tokenizer.go:508-544: what [str] holds when the end of the input is
    reached (524-526), accumulated in reverse; [may] is mayBeClosingComment. *)
Fixpoint block_so_far (s : list rune) (may : bool) (acc : list rune) : gostring :=
  match s with
  | [] => rev acc
  | n :: s1 =>
      let acc1 := if may then n :: acc else acc in               (* 530-536 *)
      let acc2 := if n =? 42 then acc1 else n :: acc1 in         (* 537-540 *)
      if n =? 13 then                                            (* 515-520 *)
        match s1 with
        | m :: s2 => if m =? 10 then block_so_far s2 false acc2 else block_so_far s1 false acc2
        | [] => block_so_far s1 false acc2
        end
      else block_so_far s1 (n =? 42) acc2
  end.

(** A Pos under the verb %+v: its String method has a pointer receiver
    (sqltoken/tokenizer.go:99), so the value is shown as a struct with field
    names. *)
Definition pos_fields (p : pos) : gostring :=
  gs "{Line:" ++ format_int (pline p) ++ gs " Col:" ++ format_int (pcol p) ++ gs "}".

(** The error of [next] (sqltoken/tokenizer.go:220): 385, 495 and 525.  The
    value of string(n) for n = EOF is U+FFFD. *)
Definition next_message (d : dialect) (src : list rune) (line col : Z) : option gostring :=
  match next d src line col, src with
  | LErr _ l c, r :: s =>
      if r =? 33 then
        Some (gs "tokenizer error: illegal sequence " ++ [r] ++ [match s with n :: _ => n | [] => 65533 end]) (* 377-385 *)
      else if r =? 39 then
        Some (gs "unclosed single quoted string: " ++ string_so_far s ++ gs " at " ++ pos_fields (mkPos l c)) (* 269-273 *)
      else if r =? 78 then
        Some (gs "unclosed single quoted string: " ++ string_so_far (tl s) ++ gs " at " ++ pos_fields (mkPos l c)) (* 252-257 *)
      else Some (gs "unclosed multiline comment: " ++ block_so_far (tl s) false [] ++ gs " at " ++ pos_fields (mkPos l c)) (* 342-349 *)
  | _, _ => None
  end.

(** sqltoken/tokenizer.go:188-200 (Scan wraps the error) and 162-181; the text
    of the error Tokenize returns, if it returns one.  An error wrapped with a
    final colon and %w shows its own text, a colon, and the inner one. *)
Fixpoint message_loop (d : dialect) (pc : bool) (fuel : nat) (st : tstate) : option gostring :=
  match fuel with
  | O => None
  | S f =>
      match scan d pc st with
      | SErr _ _ => option_map (app (gs "tokenize failed: ")) (next_message d (ts_src st) (ts_line st) (ts_col st))
      | SSkip st' | STok _ st' => message_loop d pc f st'
      | SEof | SHang => None
      end
  end.
Definition tokenize_message (d : dialect) (pc : bool) (src : list rune) : option gostring :=
  let s := skip_bom src in message_loop d pc (S (List.length s)) (mkTS s 1 1).

(** NewParser (parser.go:34-49). *)
Definition new_parser_message (d : dialect) (src : list rune) : option gostring :=
  option_map (app (gs "tokenize err failed: ")) (tokenize_message d true src).
