(** Property C72: how the tokenizer uses its scanner. *)
From Coq Require Import ZArith List Bool String Lia.
From Verif Require Import Base Dialect Token Lexer LexSpec Utf8 Reader ReaderSpec ReaderThms LexProg LexProgThms SrcThms PropsRound.
Import ListNotations.
Open Scope list_scope.
Open Scope Z_scope.

(** C72.  Tokenize as the calls of Peek and Next it makes on text/scanner, over
    a reader that delivers its bytes in any pieces: the outcome is that of
    [tokenize]; for a text without errors Next is called once for each
    character and Peek at most once for each character, twice for each token
    and once at the end; with an error the calls are as few.  A loop that has
    more rounds than the text has characters never runs out of them, unless a
    delimited identifier is not closed: then no number of rounds is enough. *)
Theorem C72_calls : forall d pc src n, dialect_ok d -> Forall (fun b => 0 <= b <= 255) (bytes src) -> (List.length (runes_of src) < n)%nat ->
  let text := skip_bom (runes_of src) in
  match tokenize d pc (runes_of src) with
  | TOk l => exists p s, tokenize_reader d pc n src = (Some (TOk l), s, mkUsage p (List.length text)) /\
      (p <= 3 * List.length text + 1)%nat /\ (pc = true -> p <= List.length text + 2 * List.length l + 1)%nat
  | TErr => exists p x s, tokenize_reader d pc n src = (Some TErr, s, mkUsage p x) /\ (p <= 3 * List.length text)%nat /\ (x <= List.length text + 1)%nat
  | THang => fst (fst (tokenize_reader d pc n src)) = None
  | TFuel => False
  end.
Proof. exact tokenize_calls. Qed.
Print Assumptions C72_calls.

(** One call of Scan: the characters taken with Next are those of the token, and
    Peek is called at most twice more often. *)
Theorem C72_token : forall d n text line col k v rest l c, dialect_ok d -> Forall (fun r => r <> EOFr) text -> (List.length text < n)%nat ->
  next d text line col = LTok k v rest l c ->
  exists p x, on_text (next_prog d n line col) text = (Some (ATok k v l c), rest, mkUsage p x) /\
    List.length text = (x + List.length rest)%nat /\ (0 < x)%nat /\ (p <= x + 2)%nat.
Proof.
  intros d n text line col k v rest l c D R L H. pose proof (next_runs d n text line col (dialect_ok_eof d D) R L) as N. unfold next_ok in N. rewrite H in N.
  destruct N as (p & x & X1 & X2 & X3 & X). exists p, x. auto.
Qed.
Print Assumptions C72_token.

(** No more than one character behind a token is looked at: whatever follows
    that character, Scan gives the same token. *)
Theorem C72_one_ahead : forall d pc a r s s' line col t l c, dialect_ok d -> Forall (fun r => r <> EOFr) (a ++ r :: s) -> Forall (fun r => r <> EOFr) s' ->
  scan d pc (mkTS (a ++ r :: s) line col) = STok t (mkTS (r :: s) l c) ->
  scan d pc (mkTS (a ++ r :: s') line col) = STok t (mkTS (r :: s') l c).
Proof.
  intros d pc a r s s' line col t l c D R R' H. unfold scan in *. cbn [ts_src ts_line ts_col] in *.
  destruct (next d (a ++ r :: s) line col) as [k v rest l0 c0| | |] eqn:E; try discriminate.
  destruct (negb pc && is_ws_kind k) eqn:Q; [discriminate|]. injection H as H1 -> -> ->.
  rewrite (next_sees_one d line col a r s s' k v l c (dialect_ok_eof d D) R R' E), Q, H1. reflexivity.
Qed.
Print Assumptions C72_one_ahead.

(** The bounds are reached: a number alone,
    an unclosed comment; one character is needed to tell two tokens apart. *)
Definition in_bytes (l : list Z) : reader := map (fun b => ([b], More)) l.
Example C72_ex :
  (let '(o, _, u) := tokenize_reader generic true 20 (in_bytes (gs "1,2")) in
    match o with Some (TOk l) => Some (List.length l, u) | _ => None end) = Some (3%nat, mkUsage 8 3) /\
  (let '(o, _, u) := tokenize_reader generic true 20 (in_bytes (gs "12")) in
    match o with Some (TOk l) => Some (List.length l, u) | _ => None end) = Some (1%nat, mkUsage (2 + 2 * 1 + 1)%nat 2) /\
  snd (tokenize_reader generic true 20 (in_bytes (gs "a/*b"))) = mkUsage 4 5 /\
  fst (fst (tokenize_reader generic true 20 (in_bytes (gs "a/*b")))) = Some TErr /\
  fst (fst (tokenize_reader generic true 500 (in_bytes (gs "a ""b")))) = None /\
  (exists t l c, scan generic true (mkTS (gs "<" ++ 32 :: gs "=") 1 1) = STok t (mkTS (32 :: gs "=") l c)).
Proof. repeat split; try (vm_compute; reflexivity). do 3 eexists. vm_compute. reflexivity. Qed.

(** So "the token itself decides" is false: the character behind it matters. *)
Theorem C72_no_lookahead_refuted : exists t u st su, scan generic true (mkTS (gs "<" ++ gs " ") 1 1) = STok t st /\
  scan generic true (mkTS (gs "<" ++ gs ">") 1 1) = STok u su /\ tkind t <> tkind u.
Proof. do 4 eexists. split; [vm_compute; reflexivity|]. split; [vm_compute; reflexivity|]. discriminate. Qed.
Print Assumptions C72_no_lookahead_refuted.
