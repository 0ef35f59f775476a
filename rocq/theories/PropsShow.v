(** Property C65: how kinds of tokens and positions are shown. *)
From Coq Require Import ZArith List Bool String.
From Verif Require Import Base Dialect Token Lexer Num ValueSpec LexSpec Show ShowSpec ShowThms.
Import ListNotations.
Open Scope Z_scope.
Open Scope list_scope.

(** C65.  Every kind is shown by the name of its constant. *)
Theorem C65_kinds : forall k, exists s, In (k, s) named_kinds /\ kind_string (kind_number k) = Some (gs s).
Proof.
  intros k. destruct (named_kinds_all k) as [s H]. exists s. split; [exact H|exact (kind_string_name k s H)].
Qed.
Print Assumptions C65_kinds.

(** String never panics; other numbers than those of kinds are shown as numbers. *)
Theorem C65_total : forall i, kind_string i <> None /\
  ((exists k, kind_number k = i) \/ exists t, int_text t i /\ kind_string i = Some (gs "Kind(" ++ t ++ gs ")")).
Proof. exact kind_string_shape. Qed.
Print Assumptions C65_total.

(** No two numbers are shown alike. *)
Theorem C65_distinct : forall i j, kind_string i = kind_string j -> i = j.
Proof. exact kind_string_inj. Qed.
Print Assumptions C65_distinct.

(** A position is shown by its line and its column, whatever these are, and no
    two positions are shown alike. *)
Theorem C65_positions : forall p, exists l c, int_text l (pline p) /\ int_text c (pcol p) /\
  pos_string p = gs "{Line: " ++ l ++ gs " Col: " ++ c ++ gs "}".
Proof. exact pos_string_shape. Qed.
Print Assumptions C65_positions.

Theorem C65_positions_distinct : forall p q, pos_string p = pos_string q -> p = q.
Proof. exact pos_string_inj. Qed.
Print Assumptions C65_positions_distinct.

(** A word is shown as it is written, quotes included. *)
Theorem C65_words : forall d src toks, dialect_ok d -> tokenize d true src = TOk toks ->
  exists slices, List.length slices = List.length toks /\ skip_bom src = List.concat slices /\
    forall a t b sa s sb w, toks = a ++ t :: b -> slices = sa ++ s :: sb -> List.length a = List.length sa ->
      tval t = VWord w -> word_string w = s.
Proof. exact words_shown. Qed.
Print Assumptions C65_words.

(** A dialect of the user's own with other quotes is not covered: a word in such
    a quote ends at the next NUL (without one the tokenizer does not answer),
    and it is shown as nothing. *)
Definition hash : dialect := mkDialect (is_start generic) (is_part generic) (fun r => r =? 35).
Theorem C65_other_quotes_refuted :
  exists t w, tokenize hash true (gs "#a" ++ [0]) = TOk [t] /\ tokenize hash true (gs "#a#") = THang /\ tval t = VWord w /\ word_string w = [].
Proof.
  exists (mkTok SQLKeyword (VWord (mkWord (gs "a") 35 (gs "A"))) (mkPos 1 1) (mkPos 1 4)), (mkWord (gs "a") 35 (gs "A")).
  repeat split; vm_compute; reflexivity.
Qed.
Print Assumptions C65_other_quotes_refuted.

Example C65_ex :
  kind_string (kind_number NationalStringLiteral) = Some (gs "NationalStringLiteral") /\
  kind_string 32 = Some (gs "Kind(32)") /\ kind_string (-5) = Some (gs "Kind(-5)") /\
  pos_string (mkPos 12 345) = gs "{Line: 12 Col: 345}" /\ int_text (gs "-5") (-5) /\ ~ int_text (gs "5") (-5).
Proof.
  repeat match goal with |- _ /\ _ => split end; try (vm_compute; reflexivity).
  - right. split; [reflexivity|]. exists (gs "5"). split; [reflexivity|]. split; [split; [discriminate|reflexivity]|reflexivity].
  - intros [(H & _)|(_ & t & E & _)]; [apply H; reflexivity|discriminate].
Qed.
