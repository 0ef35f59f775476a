(** UTF-8 as the Unicode standard defines it, without the code (C47). *)
From Coq Require Import ZArith List Bool.
From Verif Require Import Base.
Import ListNotations.
Open Scope list_scope.
Open Scope Z_scope.

(** Unicode scalar values: no surrogates. *)
Definition scalar (r : rune) : Prop := 0 <= r <= 1114111 /\ ~ (55296 <= r <= 57343).

(** The bytes of one scalar value: six bits in each byte after the first, and
    no longer than needed. *)
Inductive utf8_char : rune -> list Z -> Prop :=
| Utf1 r : 0 <= r < 128 -> utf8_char r [r]
| Utf2 a b r : 0 <= a < 32 -> 0 <= b < 64 -> r = 64 * a + b -> 128 <= r -> utf8_char r [192 + a; 128 + b]
| Utf3 a b c r : 0 <= a < 16 -> 0 <= b < 64 -> 0 <= c < 64 -> r = 64 * (64 * a + b) + c -> 2048 <= r -> scalar r ->
    utf8_char r [224 + a; 128 + b; 128 + c]
| Utf4 a b c e r : 0 <= a < 8 -> 0 <= b < 64 -> 0 <= c < 64 -> 0 <= e < 64 -> r = 64 * (64 * (64 * a + b) + c) + e ->
    65536 <= r -> scalar r -> utf8_char r [240 + a; 128 + b; 128 + c; 128 + e].

(** The bytes of a text. *)
Inductive utf8_text : list rune -> list Z -> Prop :=
| Utf_nil : utf8_text [] []
| Utf_cons r bs l rest : utf8_char r bs -> utf8_text l rest -> utf8_text (r :: l) (bs ++ rest).

(** Lossy decoding: characters where the bytes have one; a byte that starts
    none is U+FFFD. *)
Inductive decoded : list Z -> list rune -> Prop :=
| Dec_nil : decoded [] []
| Dec_char r c bs rs : utf8_char r c -> decoded bs rs -> decoded (c ++ bs) (r :: rs)
| Dec_bad b bs rs : (forall r c l, utf8_char r c -> b :: bs <> c ++ l) -> decoded bs rs -> decoded (b :: bs) (65533 :: rs).
