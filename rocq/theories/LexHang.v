(** The loop of sqltoken/tokenizer.go:281-287, step by step, to justify the
    summary [scan_delim] of Lexer.v and in particular its non-termination. *)
From Coq Require Import ZArith List Bool Lia.
From Verif Require Import Base Dialect Token Lexer.
Import ListNotations.
Open Scope Z_scope.

(** Scanner.Next: a rune is consumed; at the end it answers EOF for ever
    (text/scanner). *)
Definition scanner_next (s : list rune) : rune * list rune :=
  match s with [] => (EOFr, []) | r :: s' => (r, s') end.

(** One iteration (282-286): [inr] is the break. *)
Definition delim_step (q : rune) (st : list rune * list rune) : (list rune * list rune) + (list rune * list rune) :=
  let '(acc, s) := st in
  let '(n, s') := scanner_next s in
  if n =? q then inr (acc, s') else inl (acc ++ [n], s').

(** [n] iterations. *)
Fixpoint delim_steps (q : rune) (n : nat) (st : list rune * list rune)
  : (list rune * list rune) + (list rune * list rune) :=
  match n with
  | O => inl st
  | S m => match delim_step q st with
           | inl st' => delim_steps q m st'
           | inr r => inr r
           end
  end.

Lemma delim_steps_none q : q <> EOFr -> forall n acc s, ~ In q s ->
  exists st, delim_steps q n (acc, s) = inl st.
Proof.
  intros Q. induction n as [|n IH]; intros acc s N; cbn [delim_steps]; [eauto|].
  unfold delim_step. destruct s as [|r s]; cbn [scanner_next].
  - destruct (EOFr =? q) eqn:E; [apply Z.eqb_eq in E; congruence|]. apply IH. auto.
  - destruct (r =? q) eqn:E; [apply Z.eqb_eq in E; subst; cbn in N; tauto|].
    apply IH. cbn in N. tauto.
Qed.

Lemma delim_steps_some q s : forall acc str rest, scan_delim q s = Some (str, rest) ->
  delim_steps q (S (length str)) (acc, s) = inr (acc ++ str, rest).
Proof.
  induction s as [|r s IH]; intros acc str rest E; cbn in E; [discriminate|].
  cbn [delim_steps]. unfold delim_step. cbn [scanner_next].
  destruct (r =? q) eqn:R.
  - injection E as <- <-. now rewrite app_nil_r.
  - destruct (scan_delim q s) as [[str' rest']|]; [|discriminate].
    injection E as <- <-. cbn [length].
    rewrite (IH (acc ++ [r]) _ _ eq_refl). now rewrite <- app_assoc.
Qed.

Lemma scan_delim_none_in q s : scan_delim q s = None -> ~ In q s.
Proof.
  induction s as [|r s IH]; cbn; auto. destruct (r =? q) eqn:R; [discriminate|].
  destruct (scan_delim q s) as [[? ?]|]; [discriminate|]. intros _ [->|I].
  - rewrite Z.eqb_refl in R. discriminate.
  - now apply IH.
Qed.

(** The loop ends after finitely many iterations exactly when [scan_delim]
    finds the closing quote. *)
Lemma delim_loop_ends q s : q <> EOFr ->
  (exists n r, delim_steps q n ([], s) = inr r) <-> scan_delim q s <> None.
Proof.
  intros Q. split.
  - intros (n & r & E) N. apply scan_delim_none_in in N.
    destruct (delim_steps_none q Q n [] s N) as [st E']. congruence.
  - intros N. destruct (scan_delim q s) as [[str rest]|] eqn:E; [|congruence].
    eexists _, _. eapply delim_steps_some; eauto.
Qed.
