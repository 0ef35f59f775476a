(** Property C75: the tokens determine the text. *)
From Coq Require Import ZArith List Bool String Lia.
From Verif Require Import Base Dialect Token Lexer LexSpec LexFacts TextSpec TextThms.
Import ListNotations.
Open Scope list_scope.
Open Scope Z_scope.

(** C75.  Two texts with the same tokens (kinds, values and positions) are made
    of the same pieces, token by token, except for how lines end and for block
    comments with a star before another character or CR LF inside. *)
Theorem C75_pieces : forall d s s' l, dialect_ok d -> tokenize d true s = TOk l -> tokenize d true s' = TOk l ->
  exists a b, skip_bom s = List.concat a /\ skip_bom s' = List.concat b /\ each3 same_spelling l a b.
Proof. exact same_tokens. Qed.
Print Assumptions C75_pieces.

(** So texts without carriage returns are equal when one has no block comment. *)
Theorem C75_determined : forall d s s' l, dialect_ok d -> tokenize d true s = TOk l -> tokenize d true s' = TOk l ->
  ~ In 13 s -> ~ In 13 s' -> (forall a b, s <> a ++ 47 :: 42 :: b) -> hd_error s <> Some 65279 -> hd_error s' <> Some 65279 -> s = s'.
Proof. exact same_plain. Qed.
Print Assumptions C75_determined.

(** One text ended by LF, CR LF and CR, and a text that meets all conditions. *)
Definition toks_of (s : list rune) : list token := match tokenize generic true s with TOk l => l | _ => [] end.
Definition plain_sql : list rune := gs "SELECT 'it''s', N'x', ""a b"" -- all".
Example C75_ex :
  toks_of (gs "SELECT" ++ [13; 10] ++ gs "1") = toks_of (gs "SELECT" ++ [10] ++ gs "1") /\
  toks_of (gs "SELECT" ++ [13] ++ gs "1") = toks_of (gs "SELECT" ++ [10] ++ gs "1") /\
  tokenize generic true plain_sql = TOk (toks_of plain_sql) /\ List.length (toks_of plain_sql) = 11%nat /\ ~ In 13 plain_sql /\ hd_error plain_sql <> Some 65279 /\
  (forall s', tokenize generic true s' = TOk (toks_of plain_sql) -> ~ In 13 s' -> hd_error s' <> Some 65279 -> plain_sql = s').
Proof.
  assert (T : tokenize generic true plain_sql = TOk (toks_of plain_sql)) by (vm_compute; reflexivity).
  assert (N : ~ In 13 plain_sql) by (vm_compute; intuition discriminate).
  repeat (split; [first [exact T|exact N|vm_compute; reflexivity|discriminate]|]).
  intros s' T' N' H'. refine (C75_determined generic plain_sql s' _ (proj1 shipped_ok) T T' N N' _ _ H'); [|discriminate].
  intros a b E. assert (X : In 47 plain_sql) by (rewrite E; apply in_or_app; right; left; reflexivity).
  vm_compute in X. intuition discriminate.
Qed.

(** "Kinds and values alone determine the text" is false: they do not tell the
    two sorts of comments apart. *)
Theorem C75_values_refuted : exists s s', s <> s' /\ ~ In 13 s /\ ~ In 13 s' /\
  map (fun t => (tkind t, tval t)) (toks_of s) = map (fun t => (tkind t, tval t)) (toks_of s') /\ toks_of s <> [].
Proof.
  exists (gs "--a"), (gs "/*a*/"). split; [discriminate|]. split; [vm_compute; intuition discriminate|]. split; [vm_compute; intuition discriminate|].
  split; [vm_compute; reflexivity|vm_compute; discriminate].
Qed.
Print Assumptions C75_values_refuted.

(** "The tokens determine every text" is false: a star in a block comment is
    replaced by the character behind it. *)
Theorem C75_star_refuted : exists s s', s <> s' /\ ~ In 13 s /\ ~ In 13 s' /\ tokenize generic true s = tokenize generic true s' /\ toks_of s <> [].
Proof.
  exists (gs "/*a*b*/"), (gs "/*abb*/"). split; [discriminate|]. split; [vm_compute; intuition discriminate|]. split; [vm_compute; intuition discriminate|].
  split; [vm_compute; reflexivity|vm_compute; discriminate].
Qed.
Print Assumptions C75_star_refuted.
