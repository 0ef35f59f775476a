(** Bytes: what the reader given to NewParser delivers and what WriteTo writes. *)
From Coq Require Import ZArith List Bool.
From Verif Require Import Base Dialect Token Lexer AST Prog Parser Printer.
Import ListNotations.
Open Scope list_scope.
Open Scope Z_scope.

(** A byte is a number from 0 to 255. *)
Definition byte := Z.
Definition is_byte (b : byte) : bool := (0 <=? b) && (b <=? 255).

(** Go utf8.RuneError. *)
Definition rune_error : rune := 65533.

(** Continuation bytes. *)
Definition cont (b : byte) : bool := (128 <=? b) && (b <=? 191).

(** The second byte allowed after a first byte (the accept ranges of Go's
    unicode/utf8). *)
Definition second3 (b0 b1 : byte) : bool :=
  ((if b0 =? 224 then 160 else 128) <=? b1) && (b1 <=? (if b0 =? 237 then 159 else 191)).
Definition second4 (b0 b1 : byte) : bool :=
  ((if b0 =? 240 then 144 else 128) <=? b1) && (b1 <=? (if b0 =? 244 then 143 else 191)).

(** The runes text/scanner hands to the tokenizer (sqltoken/tokenizer.go:129-138
    calls Init, 221-540 Peek and Next): utf8.DecodeRune again and again; a byte
    that starts no encoding is U+FFFD and one byte is skipped.  Simplified: the
    reader delivers its bytes without an error (Reader.v models any reader); the
    scanner also complains on stderr about such bytes and about NUL. *)
Fixpoint decode (l : list byte) : list rune :=
  match l with
  | [] => []
  | b0 :: l1 =>
      if b0 <? 128 then b0 :: decode l1
      else if (194 <=? b0) && (b0 <=? 223) then
        match l1 with
        | b1 :: l2 =>
            if cont b1 then (b0 - 192) * 64 + (b1 - 128) :: decode l2 else rune_error :: decode l1
        | [] => [rune_error]
        end
      else if (224 <=? b0) && (b0 <=? 239) then
        match l1 with
        | b1 :: l2 =>
            match l2 with
            | b2 :: l3 =>
                if second3 b0 b1 && cont b2
                then (b0 - 224) * 4096 + (b1 - 128) * 64 + (b2 - 128) :: decode l3
                else rune_error :: decode l1
            | [] => rune_error :: decode l1
            end
        | [] => [rune_error]
        end
      else if (240 <=? b0) && (b0 <=? 244) then
        match l1 with
        | b1 :: l2 =>
            match l2 with
            | b2 :: l3 =>
                match l3 with
                | b3 :: l4 =>
                    if second4 b0 b1 && cont b2 && cont b3
                    then (b0 - 240) * 262144 + (b1 - 128) * 4096 + (b2 - 128) * 64 + (b3 - 128) :: decode l4
                    else rune_error :: decode l1
                | [] => rune_error :: decode l1
                end
            | [] => rune_error :: decode l1
            end
        | [] => [rune_error]
        end
      else rune_error :: decode l1
  end.

(** utf8.EncodeRune, with which Go makes strings from runes ([string(runes)],
    sqltoken/tokenizer.go:290-335, 456; WriteRune, 462-499). *)
Definition encode_rune (r : rune) : list byte :=
  if (0 <=? r) && (r <? 128) then [r]
  else if (0 <=? r) && (r <? 2048) then [192 + r / 64; 128 + r mod 64]
  else if (r <? 0) || (1114111 <? r) || ((55296 <=? r) && (r <=? 57343)) then [239; 191; 189]
  else if r <? 65536 then [224 + r / 4096; 128 + (r / 64) mod 64; 128 + r mod 64]
  else [240 + r / 262144; 128 + (r / 4096) mod 64; 128 + (r / 64) mod 64; 128 + r mod 64].
Definition encode (s : gostring) : list byte := flat_map encode_rune s.

(** The entry points on bytes. *)
Definition parse_bytes (d : dialect) (bs : list byte) : result (list stmt) := parse_source d (decode bs).
Definition stmt_bytes (s : stmt) : list byte := encode (sql_stmt s).
