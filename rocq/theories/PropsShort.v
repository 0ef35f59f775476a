(** Property C63: decimals are printed with as few digits as possible. *)
From Coq Require Import ZArith QArith Qabs Qpower List Bool String.
From Verif Require Import Base Dialect AST Num LexSpec Token Prog Parser Printer RoundSpec ValueSpec ShortSpec ShortThms.
Import ListNotations.
Open Scope Z_scope.

(** The printed text is a decimal that reads as the number; no decimal with
    fewer places (for whole numbers: with more zeros at the end) does, and of
    those with as many places it is one of the closest. *)
Theorem C63_shortest : forall p q f, canonical f -> f <> mkF 0 0 -> exists n k, 0 <= n /\
  written (sql_node (EDouble p q f)) (Z.max k 0) (scaled n k) /\ reads_as (scaled n k) f /\
  (forall m, 0 <= m -> reads_as (scaled m k) f -> (Qabs (scaled n k - f_val f) <= Qabs (scaled m k - f_val f))%Q) /\
  (forall m i, 0 <= m -> i < k -> ~ reads_as (scaled m i) f).
Proof. exact print_shortest. Qed.
Print Assumptions C63_shortest.

Theorem C63_zero : forall p q, sql_node (EDouble p q (mkF 0 0)) = gs "0".
Proof. intros p q. reflexivity. Qed.
Print Assumptions C63_zero.

(** Different numbers are printed differently. *)
Theorem C63_distinct : forall p q p' q' f g, canonical f -> canonical g ->
  sql_node (EDouble p q f) = sql_node (EDouble p' q' g) -> f = g.
Proof. exact print_distinct. Qed.
Print Assumptions C63_distinct.

(** No text with a dot that reads as the number is shorter; *)
Theorem C63_never_longer : forall p q f a b, digits a -> forallb is_digit b = true -> reads_as (dec_frac a b) f ->
  (List.length (sql_node (EDouble p q f)) <= List.length (a ++ 46%Z :: b))%nat.
Proof. exact print_short. Qed.
Print Assumptions C63_never_longer.

(** so a decimal literal is never printed longer than it was written. *)
Theorem C63_literal : forall d a b p q f, dialect_ok d -> digits a -> digits b ->
  parse_expr_source d (a ++ 46 :: b) = ROk (EDouble p q f) ->
  (List.length (sql_node (EDouble p q f)) <= List.length (a ++ 46%Z :: b))%nat.
Proof. exact literal_short. Qed.
Print Assumptions C63_literal.

(** Without a dot it may be one longer. *)
Theorem C63_without_dot_refuted : exists a f p q, digits a /\ reads_as (inject_Z (dec_val a)) f /\
  (List.length (sql_node (EDouble p q f)) > List.length a)%nat.
Proof. exact without_dot. Qed.
Print Assumptions C63_without_dot_refuted.

(** 0.1 + 0.2 in binary64 needs seventeen digits, 0.30 only one. *)
Example C63_ex :
  canonical (mkF 5404319552844596 (-54)) /\
  sql_node (EDouble pos0 pos0 (mkF 5404319552844596 (-54))) = gs "0.30000000000000004" /\
  (exists p q f, parse_expr_source generic (gs "0.30") = ROk (EDouble p q f) /\ sql_node (EDouble p q f) = gs "0.3") /\
  (exists p q f, parse_expr_source generic (gs "0.29999999999999998889776975") = ROk (EDouble p q f) /\ sql_node (EDouble p q f) = gs "0.3").
Proof.
  split; [right; cbn; intuition Lia.lia|]. split; [vm_compute; reflexivity|].
  split; do 3 eexists; (split; [vm_compute; reflexivity|]); vm_compute; reflexivity.
Qed.
