(** Reading: how text/scanner takes bytes from the io.Reader given to NewParser
    and NewTokenizer, and the two tools built on it. *)
From Coq Require Import ZArith List Bool.
From Verif Require Import Base Dialect Token Lexer AST Prog Parser Printer Utf8.
Import ListNotations.
Open Scope list_scope.
Open Scope Z_scope.

(** One call of Read on the reader (sqltoken/tokenizer.go:129-138 hands it to
    scanner.Init): the bytes it delivers and whether it reports no error, io.EOF
    or another error.  A reader is the list of its deliveries; after the last
    one it reports io.EOF.  Simplified: the room in the scanner's buffer (1024
    bytes) is not modelled; a reader that has more bytes than room delivers
    them in several calls. *)
Inductive report := More | AtEnd | Failed.
Definition delivery := (list byte * report)%type.
Definition reader := list delivery.

(** How many bytes a first byte asks for (the table [first] of Go's
    unicode/utf8; 1 for bytes that start nothing). *)
Definition asks (b0 : byte) : nat :=
  if b0 <? 128 then 1 else if (194 <=? b0) && (b0 <=? 223) then 2
  else if (224 <=? b0) && (b0 <=? 239) then 3 else if (240 <=? b0) && (b0 <=? 244) then 4 else 1.
(** The second byte accepted after a first byte. *)
Definition accepts (b0 b1 : byte) : bool :=
  if (224 <=? b0) && (b0 <=? 239) then second3 b0 b1
  else if (240 <=? b0) && (b0 <=? 244) then second4 b0 b1 else cont b1.

(** utf8.FullRune: do the bytes begin with an encoding or with an error? *)
Definition full_rune (l : list byte) : bool :=
  match l with
  | [] => false
  | b0 :: l1 =>
      (asks b0 <=? List.length l)%nat ||
      match l1 with
      | [] => false
      | b1 :: l2 => negb (accepts b0 b1) || match l2 with [] => false | b2 :: _ => negb (cont b2) end
      end
  end.

(** utf8.DecodeRune: the first rune and its width. *)
Definition decode_rune (l : list byte) : rune * nat :=
  match l with
  | [] => (rune_error, 0%nat)
  | b0 :: l1 =>
      if b0 <? 128 then (b0, 1%nat)
      else match asks b0, l1 with
           | 2%nat, b1 :: _ => if accepts b0 b1 then ((b0 - 192) * 64 + (b1 - 128), 2%nat) else (rune_error, 1%nat)
           | 3%nat, b1 :: b2 :: _ =>
               if accepts b0 b1 && cont b2
               then ((b0 - 224) * 4096 + (b1 - 128) * 64 + (b2 - 128), 3%nat) else (rune_error, 1%nat)
           | 4%nat, b1 :: b2 :: b3 :: _ =>
               if accepts b0 b1 && cont b2 && cont b3
               then ((b0 - 240) * 262144 + (b1 - 128) * 4096 + (b2 - 128) * 64 + (b3 - 128), 4%nat) else (rune_error, 1%nat)
           | _, _ => (rune_error, 1%nat)
           end
  end.

(** The loop in text/scanner's [next] that reads until the buffer begins with a
    whole rune or the reader reports an end or an error.  That report is
    written to stderr if it is not io.EOF (Scanner.Error is not set,
    sqltoken/tokenizer.go:129-138), and then forgotten. *)
Fixpoint fill (buf : list byte) (src : reader) : list byte * reader :=
  if (4 <=? List.length buf)%nat || full_rune buf then (buf, src)
  else match src with
       | [] => (buf, [])
       | (bs, More) :: src => fill (buf ++ bs) src
       | (bs, _) :: src => (buf ++ bs, src)
       end.

(** text/scanner: [next]. *)
Record scanner := mkScanner { sc_ch : option rune; sc_buf : list byte; sc_src : reader }.
Definition read_rune (buf : list byte) (src : reader) : rune * (list byte * reader) :=
  let '(buf, src) := fill buf src in
  match buf with
  | [] => (EOFr, ([], src))
  | _ => let '(r, w) := decode_rune buf in (r, (skipn w buf, src))
  end.

(** text/scanner: Init, Peek (a byte order mark at the start is dropped) and
    Next (nothing is read after the end). *)
Definition init (src : reader) : scanner := mkScanner None [] src.
Definition sc_peek (s : scanner) : rune * scanner :=
  match sc_ch s with
  | Some c => (c, s)
  | None =>
      let '(c, (buf, src)) := read_rune (sc_buf s) (sc_src s) in
      if c =? 65279 then let '(c, (buf, src)) := read_rune buf src in (c, mkScanner (Some c) buf src)
      else (c, mkScanner (Some c) buf src)
  end.
Definition sc_next (s : scanner) : rune * scanner :=
  let '(c, s) := sc_peek s in
  if c =? EOFr then (c, s)
  else let '(c', (buf, src)) := read_rune (sc_buf s) (sc_src s) in (c, mkScanner (Some c') buf src).

(** The answers to a series of calls of Peek ([false]) and Next ([true]). *)
Fixpoint answers (calls : list bool) (s : scanner) : list rune :=
  match calls with
  | [] => []
  | b :: calls => let '(c, s) := if b : bool then sc_next s else sc_peek s in c :: answers calls s
  end.

(** All runes up to the end, the byte order mark included. *)
Fixpoint all_runes (n : nat) (buf : list byte) (src : reader) : list rune :=
  match n with
  | O => []
  | S n => let '(c, (buf, src)) := read_rune buf src in if c =? EOFr then [] else c :: all_runes n buf src
  end.
Definition runes_of (src : reader) : list rune := all_runes (S (List.length (flat_map fst src))) [] src.

(** NewParser on a reader, then an entry point: parser.go:28-48 and
    sqltoken/tokenizer.go:129-138, 161-183. *)
Definition parse_reader {A} (p : rec -> prog A) (d : dialect) (src : reader) : result A := parse_with p d (runes_of src).

(** cmd/astprinter/main.go:17-42.  The error of NewParser is dropped (33), so a
    text that cannot be split into tokens leaves a nil parser and the call in
    line 34 dereferences it.  [Printed] is the text of line 41; the dump of the
    tree (39) is not modelled.  [Exit] is log.Fatal (36). *)
Inductive tool := Printed (text : gostring) | Exit | Crash | Hangs.
Definition astprinter (input : reader) : tool :=
  match tokenize generic true (runes_of input) with
  | TOk toks =>
      match run_raw parse_statement toks with
      | Ok s _ => Printed (sql_stmt s)
      | OErr => Exit
      | OPanic _ => Crash
      | OFuel => Hangs
      end
  | TErr => Crash
  | THang | TFuel => Hangs
  end.
