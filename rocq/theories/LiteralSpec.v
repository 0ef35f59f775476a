(** What literal values are, independent of the code (properties C48 and C49). *)
From Coq Require Import ZArith List Bool String.
From Verif Require Import Base Dialect AST Num LexSpec ValueSpec Literals.
Import ListNotations.
Open Scope list_scope.
Open Scope Z_scope.

(** A day and time that time.Time can hold and four digits can write. *)
Definition valid_civil (t : civil) : Prop :=
  0 <= c_year t <= 9999 /\ 1 <= c_month t <= 12 /\ 1 <= c_day t <= 31 /\
  0 <= c_hour t <= 23 /\ 0 <= c_min t <= 59 /\ 0 <= c_sec t <= 59.

(** [field w z s]: [s] is [z] in exactly [w] decimal digits. *)
Definition field (w : nat) (z : Z) (s : list rune) : Prop :=
  List.length s = w /\ forallb is_digit s = true /\ dec_val s = z.

(** ISO 8601 dates and times. *)
Definition iso_date (t : civil) (s : list rune) : Prop := exists y m d,
  field 4 (c_year t) y /\ field 2 (c_month t) m /\ field 2 (c_day t) d /\ s = y ++ gs "-" ++ m ++ gs "-" ++ d.
Definition iso_time (t : civil) (s : list rune) : Prop := exists h m c,
  field 2 (c_hour t) h /\ field 2 (c_min t) m /\ field 2 (c_sec t) c /\ s = h ++ gs ":" ++ m ++ gs ":" ++ c.

(** The expression year - month - day. *)
Definition subtraction (t : civil) (e : node) : Prop := exists p1 q1 a1 b1 p2 q2 a2 b2 p3 q3,
  e = EBinary (EBinary (ELong (mkLong p1 q1 (c_year t))) (mkOp OMinus a1 b1) (ELong (mkLong p2 q2 (c_month t))))
              (mkOp OMinus a2 b2) (ELong (mkLong p3 q3 (c_day t))).


(** The words a statement starts with. *)
Definition openers : list gostring :=
  map gs ["SELECT"; "WITH"; "CREATE"; "DELETE"; "INSERT"; "ALTER"; "UPDATE"; "DROP"; "EXPLAIN"]%string.
