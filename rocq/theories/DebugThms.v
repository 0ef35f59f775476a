(** Proofs for C77. *)
From Coq Require Import ZArith List Bool String Lia.
From Verif Require Import Base Dialect Token Lexer LexSpec LexFacts LexThms AST Prog Parser ParseSpec LookSpec CostThms TextSpec After AfterThms Debug.
Import ListNotations.
Open Scope list_scope.
Open Scope Z_scope.

Lemma piece_shows d k v s rest p q : dialect_ok d -> lexeme d k v s rest -> shows (mkTok k v p q) s (value_text (mkTok k v p q)).
Proof.
  intros D L. unfold shows, value_text. cbn [tkind tval].
  destruct L; cbn [tkind]; try (left; reflexivity); try reflexivity.
  - right. auto.
  - right. auto.
  - destruct D as (_ & _ & D). destruct (D q0 ltac:(assumption)) as [-> | ->]; reflexivity.
  - right. exists body. split; reflexivity.
  - assert (X : k <> Whitespace /\ k <> SingleQuotedString /\ k <> NationalStringLiteral /\ k <> Comment)
      by (unfold symbols in H; cbn [In] in H; repeat (destruct H as [H|H]; [injection H as <- <- <-; repeat split; discriminate|]); contradiction H).
    destruct k; try reflexivity; exfalso; intuition congruence.
Qed.

Lemma reads_shows d p s l r : dialect_ok d -> reads d p s l r ->
  s = List.concat (map snd l) ++ r /\ each3 shows (map fst l) (map snd l) (map value_text (map fst l)).
Proof.
  intros D R. induction R as [p text|p q s text k v l rest L EQ R IH]; [split; [reflexivity|constructor]|].
  destruct IH as [E F]. cbn [map fst snd List.concat]. split; [rewrite E at 1; rewrite app_assoc; reflexivity|].
  constructor; [|exact F]. eapply piece_shows; eauto.
Qed.

Lemma each3_app {A B C} (P : A -> B -> C -> Prop) a b m n : each3 P (a ++ b) m n ->
  exists m1 m2 n1 n2, m = m1 ++ m2 /\ n = n1 ++ n2 /\ each3 P a m1 n1 /\ each3 P b m2 n2.
Proof.
  revert m n. induction a as [|x a IH]; intros m n H.
  - exists [], m, [], n. repeat split; auto. constructor.
  - inversion H as [|x' y z a' m' n' H1 H2]; subst. destruct (IH m' n' H2) as (m1 & m2 & n1 & n2 & -> & -> & H3 & H4).
    exists (y :: m1), m2, (z :: n1), n2. repeat split; auto. constructor; auto.
Qed.
Lemma each3_length {A B C} (P : A -> B -> C -> Prop) a m n : each3 P a m n -> List.length a = List.length n.
Proof. induction 1; cbn; congruence. Qed.

Lemma debug_pieces d src done todo : dialect_ok d -> tokenize d true src = TOk (rev done ++ todo) ->
  exists pieces outs rest, skip_bom src = List.concat pieces ++ rest /\ debug done = List.concat outs ++ [10] /\ each3 shows (rev done) pieces outs.
Proof.
  intros D T. destruct (tokenize_reads _ _ _ D T) as (l & R & E). destruct (reads_shows d _ _ l [] D R) as [S F].
  rewrite <- E in F. destruct (each3_app _ _ _ _ _ F) as (m1 & m2 & n1 & n2 & E1 & E2 & F1 & _).
  exists m1, n1, (List.concat m2). rewrite S, E1, concat_app, app_nil_r. split; [reflexivity|]. split; [|exact F1].
  unfold debug. f_equal. f_equal. rewrite map_app in E2. apply each3_length in F1.
  apply (f_equal (firstn (List.length (rev done)))) in E2. rewrite F1 in E2 at 2.
  rewrite !firstn_app, firstn_all in E2. rewrite map_length in E2. rewrite <- (map_length value_text (rev done)), firstn_all in E2.
  rewrite map_length, !Nat.sub_diag, !app_nil_r in E2. exact E2.
Qed.

Lemma debug_plain d src done todo : dialect_ok d -> tokenize d true src = TOk (rev done ++ todo) -> ~ In 13 src -> Forall as_written done ->
  exists text rest, skip_bom src = text ++ rest /\ debug done = text ++ [10].
Proof.
  intros D T N W. destruct (debug_pieces d src done todo D T) as (pieces & outs & rest & S & O & F).
  assert (NB : ~ In 13 (skip_bom src)) by (intros X; apply N; unfold skip_bom in X; destruct src as [|c src']; [exact X|]; destruct (c =? 65279); [right; exact X|exact X]).
  exists (List.concat pieces), rest. split; [exact S|]. rewrite O. f_equal. f_equal.
  assert (NP : ~ In 13 (List.concat pieces)) by (intros X; apply NB; rewrite S; apply in_or_app; left; exact X).
  assert (W' : Forall as_written (rev done)) by (apply Forall_rev, W). clear - F NP W'.
  induction F as [|t y z l m n P F IH]; [reflexivity|]. cbn [List.concat] in *.
  assert (IH' : n = m). { apply IH; [intros X; apply NP; apply in_or_app; right; exact X|inversion W'; assumption]. }
  f_equal; [|exact IH'].
  assert (W1 := Forall_inv W'). unfold shows in P. unfold as_written in W1.
  destruct (tkind t); try contradiction; try (symmetry; exact P).
  destruct P as [P|[_ [P|P]]]; [symmetry; exact P| |]; exfalso; apply NP; rewrite P; left; reflexivity.
Qed.

(** Calls keep the tokens. *)
Lemma kws_zip ks : forall st l s, (rev (fst st) ++ snd st = rev (fst s) ++ snd s) ->
  let r := snd (run_kws raw_machine st ks l s) in rev (fst r) ++ snd r = rev (fst s) ++ snd s.
Proof.
  induction ks as [|k ks IH]; intros st l s H; cbn zeta in *; cbn [run_kws]; [reflexivity|].
  destruct (m_peek raw_machine s) as [t|]; [|exact H]. destruct (is_kw k t); [|exact H].
  assert (Z : rev (fst (snd (m_next raw_machine s))) ++ snd (snd (m_next raw_machine s)) = rev (fst s) ++ snd s) by apply raw_next_zip.
  rewrite IH; [exact Z|]. rewrite Z. exact H.
Qed.

Lemma after_zip {A} (p : prog A) : forall s, let r := after raw_machine p s in rev (fst r) ++ snd r = rev (fst s) ++ snd s.
Proof.
  induction p as [a0| |w| |k IH|k IH|k IH|ks k IH]; intros s; cbn [after]; cbn zeta in *; try reflexivity.
  - cbn [m_next raw_machine]. pose proof (raw_next_zip (snd s) (fst s)) as Z. destruct (raw_next (fst s) (snd s)) as [o s']. cbn [snd] in Z. rewrite IH. exact Z.
  - apply IH.
  - cbn [m_prev raw_machine]. destruct (raw_prev (fst s) (snd s)) as [s'|] eqn:E; [|reflexivity]. rewrite IH. exact (raw_prev_zip _ _ _ E).
  - pose proof (kws_zip ks s [] s eq_refl) as Z. cbn zeta in Z. destruct (run_kws raw_machine s ks [] s) as [o s']. cbn [snd] in Z. rewrite IH. exact Z.
Qed.

Lemma call_zip {A} (P : rec -> prog A) done todo : let st := call_after P done todo in rev (fst st) ++ snd st = rev done ++ todo.
Proof. exact (after_zip (P (knot (fuel_for todo))) (done, todo)). Qed.

Lemma call_debug {A} (P : rec -> prog A) d src done todo : dialect_ok d -> tokenize d true src = TOk (rev done ++ todo) ->
  exists pieces outs rest, skip_bom src = List.concat pieces ++ rest /\ debug (fst (call_after P done todo)) = List.concat outs ++ [10] /\
    each3 shows (rev (fst (call_after P done todo))) pieces outs.
Proof. intros D T. rewrite <- (call_zip P done todo) in T. exact (debug_pieces d src _ _ D T). Qed.

Lemma call_plain {A} (P : rec -> prog A) d src done todo : dialect_ok d -> tokenize d true src = TOk (rev done ++ todo) ->
  ~ In 13 src -> Forall as_written (rev done ++ todo) ->
  exists text rest, skip_bom src = text ++ rest /\ debug (fst (call_after P done todo)) = text ++ [10].
Proof.
  intros D T N W. pose proof (call_zip P done todo) as Z. cbn zeta in Z. rewrite <- Z in T, W.
  apply (debug_plain d src _ _ D T N). apply Forall_app in W as [W _]. apply Forall_rev in W. rewrite rev_involutive in W. exact W.
Qed.

Lemma longer {A} (a b c d : list A) : a ++ b = c ++ d -> (List.length c < List.length a)%nat -> exists m, a = c ++ m /\ m <> [].
Proof.
  revert c. induction a as [|x a IH]; intros [|y c] E L; cbn [List.length] in L; try lia.
  - exists (x :: a). split; [reflexivity|discriminate].
  - cbn [List.app] in E. injection E as -> E. destruct (IH c E ltac:(lia)) as (m & -> & M). exists m. split; [reflexivity|exact M].
Qed.

Lemma call_grows {A} (P : rec -> prog A) erA K : LookSpec.looks P erA K -> forall done todo,
  Forall tok_wf todo -> Forall plain_word todo -> ParseSpec.sig todo <> [] ->
  exists more, rev (fst (call_after P done todo)) = rev done ++ more /\ more <> [].
Proof.
  intros L done todo W N E. pose proof (progress P erA K L done todo W N E) as H. pose proof (call_zip P done todo) as Z. cbn zeta in Z.
  apply (longer _ _ _ _ Z). destruct (call_after P done todo) as [d' t']. cbn [fst snd] in *.
  destruct (le_lt_dec (List.length (rev d')) (List.length (rev done))) as [G|G]; [exfalso|exact G].
  assert (X : exists m, t' = m ++ todo).
  { clear - Z G. revert Z G. generalize (rev done) as a, (rev d') as b. intros a b. revert a.
    induction b as [|y b IH]; intros a Z G; [exists a; exact Z|]. destruct a as [|x a]; cbn [List.length] in G; [lia|].
    cbn [List.app] in Z. injection Z as _ Z. apply (IH a Z). lia. }
  destruct X as [m ->]. unfold ParseSpec.sig in H. rewrite filter_app, app_length in H. lia.
Qed.

Lemma call_debug_grows {A} (P : rec -> prog A) erA K : LookSpec.looks P erA K -> forall done todo,
  Forall tok_wf todo -> Forall plain_word todo -> ParseSpec.sig todo <> [] ->
  exists text more, debug done = text ++ [10] /\ debug (fst (call_after P done todo)) = text ++ more ++ [10].
Proof.
  intros L done todo W N E. destruct (call_grows P erA K L done todo W N E) as (m & M & _).
  exists (List.concat (map value_text (rev done))), (List.concat (map value_text m)). split; [reflexivity|].
  unfold debug. rewrite M, map_app, concat_app, <- app_assoc. reflexivity.
Qed.
