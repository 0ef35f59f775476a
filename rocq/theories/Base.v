(** Runes, Go strings and small helpers used by every model file. *)
From Coq Require Import ZArith List Bool Ascii String.
Import ListNotations.
Open Scope Z_scope.

(** Go [rune] (int32).  [scanner.EOF] is -1 (Go text/scanner). *)
Definition rune := Z.
Definition EOFr : rune := -1.

(** Go [string]: kept as the sequence of runes it encodes.  Simplification: all
    strings in the code come from decoded runes or ASCII constants, so the
    UTF-8 encoding is injective on them; byte counts use [glen] below. *)
Definition gostring := list rune.

(** ASCII string constants of the Go source. *)
Fixpoint gs (s : string) : gostring :=
  match s with
  | EmptyString => []
  | String a s' => Z.of_N (N_of_ascii a) :: gs s'
  end.

Fixpoint gs_eqb (a b : gostring) : bool :=
  match a, b with
  | [], [] => true
  | x :: a', y :: b' => (x =? y) && gs_eqb a' b'
  | _, _ => false
  end.

(** Number of bytes of the UTF-8 encoding of a rune (Go utf8.RuneLen). *)
Definition rune_len (r : rune) : Z :=
  if r <? 128 then 1 else if r <? 2048 then 2 else if r <? 65536 then 3 else 4.

(** Go [len(string)]. *)
Fixpoint glen (s : gostring) : Z :=
  match s with [] => 0 | r :: s' => rune_len r + glen s' end.

(** Go [len([]rune)]. *)
Definition zlen {A} (l : list A) : Z := Z.of_nat (List.length l).

(** Go [unicode.ToUpper], restricted to what is observable: the result is only
    ever compared with ASCII keywords.  The only non-ASCII runes whose upper
    case is ASCII are U+0131 (dotless i) and U+017F (long s); other non-ASCII
    runes are left unchanged here, Go maps them to other non-ASCII runes. *)
Definition to_upper (r : rune) : rune :=
  if (97 <=? r) && (r <=? 122) then r - 32
  else if r =? 305 then 73
  else if r =? 383 then 83
  else r.

Definition upper (s : gostring) : gostring := map to_upper s.

(** Go [unicode.ToLower] on ASCII (used by the model only for the ASCII keyword
    table, sqltoken/tokenizer.go:49). *)
Definition to_lower (r : rune) : rune :=
  if (65 <=? r) && (r <=? 90) then r + 32 else r.
Definition lower (s : gostring) : gostring := map to_lower s.

(** One rune of Go [strings.EqualFold] against an ASCII rune [b]: simple case
    folding.  U+017F folds with s/S and U+212A (Kelvin) folds with k/K. *)
Definition fold1 (r : rune) : rune :=
  if (97 <=? r) && (r <=? 122) then r - 32
  else if r =? 383 then 83
  else if r =? 8490 then 75
  else r.

(** Go [strings.EqualFold(a, b)] for an ASCII second argument. *)
Fixpoint equal_fold (a b : gostring) : bool :=
  match a, b with
  | [], [] => true
  | x :: a', y :: b' => (fold1 x =? fold1 y) && equal_fold a' b'
  | _, _ => false
  end.

Definition mem_gs (s : gostring) (l : list gostring) : bool := existsb (gs_eqb s) l.
