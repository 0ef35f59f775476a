(** Property C73: tokens come as soon as they are decided. *)
From Coq Require Import ZArith List Bool String Lia.
From Verif Require Import Base Dialect Token Lexer LexSpec LexFacts Utf8 Utf8Spec Utf8Thms Reader ReaderSpec ReaderThms LexProg LexProgThms Stream StreamThms.
Import ListNotations.
Open Scope list_scope.
Open Scope Z_scope.

(** C73.  What a reader has delivered so far is [q], a text that splits into the
    tokens [l]; what it will deliver later, or whether it will fail, is [post].
    The first calls of NextToken give the tokens of [l] up to the last but one
    without asking the reader again: all of [post] is still to come. *)
Theorem C73_no_waiting : forall d n (q post : reader) text l k, dialect_ok d -> Forall (fun x => snd x = More) q -> utf8_text text (bytes q) ->
  (List.length text < n)%nat -> tokenize d true text = TOk l -> (0 < k < List.length l)%nat ->
  exists s q' u, on_reader (first_prog d n k 1 1 []) (init (q ++ post)) = (Some (Some (firstn k l)), s, u) /\ sc_src s = q' ++ post.
Proof. exact first_tokens. Qed.
Print Assumptions C73_no_waiting.

(** A script typed line by line: with the first line there, the six tokens
    before its end are answered, whatever comes. *)
Definition typed : reader := [(gs "DROP TA", More); (gs "BLE a;", More); ([10], More)].
Definition typed_toks : list token := match tokenize generic true (bytes typed) with TOk l => l | _ => [] end.
Example C73_ex : Forall (fun x => snd x = More) typed /\ utf8_text (bytes typed) (bytes typed) /\
  tokenize generic true (bytes typed) = TOk typed_toks /\ List.length typed_toks = 7%nat /\
  (forall post, exists s q' u, on_reader (first_prog generic 50 6 1 1 []) (init (typed ++ post)) = (Some (Some (firstn 6 typed_toks)), s, u) /\ sc_src s = q' ++ post) /\
  map tkind (firstn 6 typed_toks) = [SQLKeyword; Whitespace; SQLKeyword; Whitespace; SQLKeyword; Semicolon].
Proof.
  assert (Q : Forall (fun x => snd x = More) typed) by (repeat constructor).
  assert (U : utf8_text (bytes typed) (bytes typed)).
  { assert (G : forall l, forallb (fun r => (0 <=? r) && (r <? 128)) l = true -> utf8_text l l).
    { induction l as [|r l IH]; [constructor|]. cbn [forallb]. intros H. apply andb_true_iff in H. destruct H as [H1 H2].
      change (r :: l) with ([r] ++ l) at 2. constructor; [|auto]. constructor; lia. }
    apply G. vm_compute. reflexivity. }
  assert (T : tokenize generic true (bytes typed) = TOk typed_toks) by (vm_compute; reflexivity).
  assert (L : List.length typed_toks = 7%nat) by (vm_compute; reflexivity).
  split; [exact Q|]. split; [exact U|]. split; [exact T|]. split; [exact L|]. split; [|vm_compute; reflexivity].
  intros post. apply (C73_no_waiting generic 50 typed post (bytes typed) typed_toks 6); auto; [|vm_compute; lia|lia].
  apply (proj1 shipped_ok).
Qed.

(** "Every token that has been typed is answered" is false: the last one may go
    on, so the reader is asked again. *)
Theorem C73_last_token_refuted : exists (q post : reader) t, Forall (fun x => snd x = More) q /\ tokenize generic true (bytes q) = TOk [t] /\
  exists u s v, on_reader (first_prog generic 50 1 1 1 []) (init (q ++ post)) = (Some (Some [u]), s, v) /\ sc_src s = [] /\ u <> t.
Proof.
  exists [(gs "dro", More)], [(gs "p", More)]. eexists. split; [repeat constructor|]. split; [vm_compute; reflexivity|].
  do 3 eexists. split; [vm_compute; reflexivity|]. split; [reflexivity|discriminate].
Qed.
Print Assumptions C73_last_token_refuted.
