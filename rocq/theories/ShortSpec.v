(** Decimal texts and what they denote (C63): small, separate definitions. *)
From Coq Require Import ZArith QArith Qpower List Bool.
From Verif Require Import Base Dialect AST ValueSpec.
Import ListNotations.
Open Scope Z_scope.

(** The text s has k digits after its dot (none without a dot) and denotes x. *)
Inductive written : list rune -> Z -> Q -> Prop :=
| W_whole a x : digits a -> (inject_Z (dec_val a) == x)%Q -> written a 0 x
| W_dotted a b x : digits a -> digits b -> (dec_frac a b == x)%Q -> written (a ++ 46 :: b) (Z.of_nat (List.length b)) x.

(** n in units of the k-th digit after the dot (before it, if k is negative). *)
Definition scaled (n k : Z) : Q := inject_Z n * (10 # 1) ^ (- k).

(** A reader takes x for the float f. *)
Definition reads_as (x : Q) (f : f64) : Prop := nearest x f /\ (x < f_overflow)%Q.
