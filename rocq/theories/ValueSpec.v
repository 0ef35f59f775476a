(** What literals denote, independent of the code (properties C24-C27). *)
From Coq Require Import ZArith QArith Qabs List Bool String.
From Verif Require Import Base Dialect AST.
Import ListNotations.
Open Scope Z_scope.

(** The number written by decimal digits. *)
Definition dec_val (s : list rune) : Z := fold_left (fun a c => 10 * a + (c - 48)) s 0.
Definition digits (s : list rune) : Prop := s <> [] /\ forallb is_digit s = true.

(** The rational denoted by a.b. *)
Definition dec_frac (a b : list rune) : Q :=
  Qmake (dec_val (a ++ b)) (Z.to_pos (10 ^ Z.of_nat (List.length b))).

(** The finite non-negative IEEE 754 binary64 numbers, each represented once. *)
Definition canonical (f : f64) : Prop :=
  f = mkF 0 0 \/
  (0 < fm f < 2 ^ 53 /\ -1074 <= fe f <= 971 /\ (2 ^ 52 <= fm f \/ fe f = -1074)).

(** The rational a float stands for. *)
Definition f_val (f : f64) : Q :=
  if 0 <=? fe f then inject_Z (fm f * 2 ^ fe f)
  else Qmake (fm f) (Z.to_pos (2 ^ (- fe f))).

(** [f] is the binary64 number nearest to [x], ties to the even significand. *)
Definition nearest (x : Q) (f : f64) : Prop :=
  canonical f /\
  forall g, canonical g ->
    (Qabs (f_val f - x) <= Qabs (f_val g - x))%Q /\
    ((Qabs (f_val f - x) == Qabs (f_val g - x))%Q -> g <> f -> Z.even (fm f) = true).

(** Half a unit above the largest finite number: from here on binary64
    rounding overflows. *)
Definition f_overflow : Q := inject_Z (2 ^ 1024 - 2 ^ 970).

(** The words that begin an expression other than a name. *)
Definition expr_keywords : list gostring :=
  map gs ["TRUE"; "FALSE"; "NULL"; "CASE"; "CAST"; "EXISTS"; "NOT"]%string.
