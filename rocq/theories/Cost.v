(** The work of the parser: one walk over it with a calculus of budgets. *)
From Coq Require Import ZArith List Bool String Lia.
From Verif Require Import Base Dialect Token Lexer AST Num Prog Parser ParseSpec Wp Term LexFacts CostSpec.
Import ListNotations.
Open Scope Z_scope.

Section Wc.
  Variable ok : token -> Prop.

  (** Like [wp], with a budget of operations that must never be exceeded. *)
  Fixpoint wc {A} (p : prog A) (Q : A -> toks -> toks -> Z -> Prop) (d t : toks) (b : Z) : Prop :=
    match p with
    | Ret a => Q a d t b
    | Err | Panic _ | Fuel => True
    | Next k => 1 <= b /\ match t with [] => wc (k None) Q d [] (b - 1) | x :: t' => ok x -> wc (k (Some x)) Q (x :: d) t' (b - 1) end
    | Peek k => 1 <= b /\ match t with [] => wc (k None) Q d [] (b - 1) | x :: t' => ok x -> wc (k (Some x)) Q d (x :: t') (b - 1) end
    | Prev k => 1 <= b /\ match d with [] => False | x :: d' => wc k Q d' (x :: t) (b - 1) end
    | Kws ks k =>
        2 * Z.of_nat (List.length ks) <= b /\
        let o := run_kws fm_machine (d, t) ks [] (d, t) in
        wc (k (fst o)) Q (fst (snd o)) (snd (snd o)) (b - 2 * Z.of_nat (List.length ks))
    end.

  Lemma wc_conseq {A} (p : prog A) (Q Q' : A -> toks -> toks -> Z -> Prop) : forall d t b,
    wc p Q d t b -> (forall a d' t' b', Q a d' t' b' -> Q' a d' t' b') -> wc p Q' d t b.
  Proof.
    induction p as [a| |w| |k IH|k IH|k IH|ks k IH]; intros d t b H HQ; cbn in *; auto; destruct H as [Hb H]; (split; [exact Hb|]).
    - destruct t; intros; eapply IH; eauto.
    - destruct t; intros; eapply IH; eauto.
    - destruct d; [auto|]. eapply IH; eauto.
    - eapply IH; eauto.
  Qed.

  Lemma wc_bind {A B} (p : prog A) (f : A -> prog B) Q : forall d t b,
    wc p (fun a d' t' b' => wc (f a) Q d' t' b') d t b -> wc (bind p f) Q d t b.
  Proof.
    induction p as [a| |w| |k IH|k IH|k IH|ks k IH]; intros d t b H; cbn in *; auto; destruct H as [Hb H]; (split; [exact Hb|]).
    - destruct t; auto.
    - destruct t; auto.
    - destruct d; auto.
    - auto.
  Qed.

  Lemma wc_kws {A} ks (k : option toks -> prog A) Q d t b :
    2 * Z.of_nat (List.length ks) <= b ->
    wc (k None) Q d t (b - 2 * Z.of_nat (List.length ks)) ->
    (forall l t', kws_match ks t = Some l -> List.length l = List.length ks -> t = l ++ t' ->
       wc (k (Some l)) Q (rev l ++ d) t' (b - 2 * Z.of_nat (List.length ks))) ->
    wc (Kws ks k) Q d t b.
  Proof.
    intros Hb H1 H2. cbn. split; [exact Hb|]. rewrite run_kws_fm.
    destruct (kws_match ks t) as [l|] eqn:E; cbn; [|exact H1].
    destruct (kws_match_spec _ _ _ E) as [E1 E2]. apply H2; auto.
  Qed.

  Lemma wc_frame {A} (p : prog A) Q D : forall d t b,
    wc p Q d t b ->
    wc p (fun a d' t' b' => exists d1, d' = d1 ++ D /\ Q a d1 t' b' /\ rev d1 ++ t' = rev d ++ t) (d ++ D) t b.
  Proof.
    induction p as [a| |w| |k IH|k IH|k IH|ks k IH]; intros d t b H; cbn in *; auto; try (destruct H as [Hb H]; split; [exact Hb|]).
    - exists d. auto.
    - destruct t as [|x t]; [auto|]. intros Hx. specialize (H Hx).
      change (x :: d ++ D) with ((x :: d) ++ D).
      eapply wc_conseq; [apply IH, H|]. cbn. intros a d' t' b' (d1 & E1 & E2 & E3).
      exists d1. repeat split; auto. rewrite E3. rewrite <- app_assoc. reflexivity.
    - destruct t as [|x t]; auto.
    - destruct d as [|x d]; [contradiction|]. cbn.
      eapply wc_conseq; [apply IH, H|]. cbn. intros a d' t' b' (d1 & E1 & E2 & E3).
      exists d1. repeat split; auto. rewrite E3. rewrite <- app_assoc. reflexivity.
    - rewrite run_kws_fm in *. destruct (kws_match ks t) as [l|] eqn:E; cbn in *.
      + rewrite app_assoc. eapply wc_conseq; [apply IH, H|]. cbn.
        intros a d' t' b' (d1 & E1 & E2 & E3). exists d1. repeat split; auto. rewrite E3.
        destruct (kws_match_spec _ _ _ E) as [E4 _].
        rewrite rev_app_distr, rev_involutive, <- app_assoc. f_equal. symmetry; exact E4.
      + apply IH, H.
  Qed.

  Lemma wc_call {A} (p : prog A) Q (R : A -> toks -> toks -> Z -> Prop) d t b :
    wc p Q [] t b ->
    (forall a d1 t' b', Q a d1 t' b' -> t = rev d1 ++ t' -> R a (d1 ++ d) t' b') ->
    wc p R d t b.
  Proof.
    intros H HR. apply (wc_frame p Q d [] t) in H. cbn in H.
    eapply wc_conseq; [exact H|]. cbn. intros a d' t' b' (d1 & -> & HQ & E). auto.
  Qed.

  Lemma wc_loop {S A} (Inv : S -> toks -> toks -> Z -> Prop) (body : S -> prog (S + A)) Q :
    (forall s d t b, Inv s d t b ->
       wc (body s) (fun r d' t' b' => match r with
                                      | inl s' => Inv s' d' t' b'
                                      | inr a => Q a d' t' b'
                                      end) d t b) ->
    forall n s d t b, Inv s d t b -> wc (loop n body s) Q d t b.
  Proof.
    intros Hb. induction n as [|n IH]; intros s d t b HI; [exact I|].
    cbn [loop]. apply wc_bind. eapply wc_conseq; [apply Hb, HI|].
    cbn. intros [s'|a] d' t' b' H; [|exact H]. apply IH, H.
  Qed.

  (** Adequacy: the budget bounds the number of operations. *)
  Lemma cost_kws_le ks : forall d t, (cost_kws (fun _ => 1%nat) fm_machine ks (d, t) <= 2 * List.length ks)%nat.
  Proof.
    induction ks as [|k ks IH]; intros d t; cbn [cost_kws List.length]; [lia|].
    destruct t as [|x t]; cbn [m_peek m_next fm_machine snd fst]; [lia|]. specialize (IH (x :: d) t). destruct (is_kw k x); lia.
  Qed.
  Lemma wc_run {A} (p : prog A) Q D : forall d t b,
    Forall ok d -> Forall ok t -> 0 <= b -> wc p Q d t b -> Z.of_nat (operations fm_machine p (d ++ D, t)) <= b.
  Proof.
    unfold operations.
    induction p as [a| |w| |k IH|k IH|k IH|ks k IH]; intros d t b Hd Ht H0 H; cbn [cost wc] in *; try lia; destruct H as [Hb H].
    - destruct t as [|x t]; cbn [m_next fm_machine fst snd].
      + specialize (IH None d [] (b - 1) Hd Ht ltac:(lia) H). lia.
      + inversion_clear Ht. specialize (IH (Some x) (x :: d) t (b - 1) ltac:(auto) ltac:(auto) ltac:(lia) (H ltac:(auto))). cbn [app] in IH. lia.
    - destruct t as [|x t]; cbn [m_peek fm_machine fst snd].
      + specialize (IH None d [] (b - 1) Hd Ht ltac:(lia) H). lia.
      + assert (Hx : ok x) by (inversion_clear Ht; auto). specialize (IH (Some x) d (x :: t) (b - 1) ltac:(auto) ltac:(auto) ltac:(lia) (H Hx)). lia.
    - destruct d as [|x d]; [contradiction|]. cbn [m_prev fm_machine fst snd app].
      inversion_clear Hd. specialize (IH d (x :: t) (b - 1) ltac:(auto) ltac:(auto) ltac:(lia) H). lia.
    - pose proof (cost_kws_le ks (d ++ D) t) as Hk. rewrite run_kws_fm in *. destruct (kws_match ks t) as [l|] eqn:E; cbn [fst snd rev app] in *.
      + destruct (kws_match_spec _ _ _ E) as [E4 _]. rewrite E4 in Ht. apply Forall_app in Ht. destruct Ht as [Hl Ht].
        assert (Hd' : Forall ok (rev l ++ d)) by (apply Forall_app; split; [apply Forall_rev|]; auto).
        specialize (IH (Some l) _ _ (b - 2 * Z.of_nat (List.length ks)) Hd' Ht ltac:(lia) H). rewrite app_assoc in *. lia.
      + specialize (IH None d t (b - 2 * Z.of_nat (List.length ks)) Hd Ht ltac:(lia) H). lia.
  Qed.
End Wc.


Section Walk.
  Notation wcr := (wc tok_wf).
  Notation lz t := (Z.of_nat (len t)).

  (** [p] needs at most [P] operations and a hundred for each token ahead;
      when it succeeds it has consumed at least [k] tokens and used at most [B]
      operations and a hundred for each token consumed. *)
  Definition sc {A} (P B : Z) (k : nat) (p : prog A) : Prop :=
    forall t b, 100 * lz t + P <= b ->
      wcr p (fun _ d' _ b' => (k <= len d')%nat /\ b - b' <= 100 * lz d' + B) [] t b.

  Notation post A := (A -> toks -> toks -> Z -> Prop).

  Lemma wc_next_nn (Q : post token) d t b :
    1 <= b -> (forall x t', t = x :: t' -> tok_wf x -> Q x (x :: d) t' (b - 1)) -> wcr next_nn Q d t b.
  Proof. intros Hb H. destruct t; cbn; auto. Qed.
  Lemma wc_next_err (Q : post token) d t b :
    1 <= b -> (forall x t', t = x :: t' -> tok_wf x -> Q x (x :: d) t' (b - 1)) -> wcr next_err Q d t b.
  Proof. intros Hb H. destruct t; cbn; auto. Qed.
  Lemma wc_must_next (Q : post token) d t b :
    1 <= b -> (forall x t', t = x :: t' -> tok_wf x -> Q x (x :: d) t' (b - 1)) -> wcr must_next Q d t b.
  Proof. intros Hb H. destruct t; cbn; auto. Qed.
  Lemma wc_peek_nn (Q : post token) d t b :
    1 <= b -> (forall x t', t = x :: t' -> tok_wf x -> Q x d (x :: t') (b - 1)) -> wcr peek_nn Q d t b.
  Proof. intros Hb H. destruct t; cbn; auto. Qed.
  Lemma wc_peek (Q : post (option token)) d t b :
    1 <= b -> (t = [] -> Q None d [] (b - 1)) ->
    (forall x t', t = x :: t' -> tok_wf x -> Q (Some x) d (x :: t') (b - 1)) -> wcr peek Q d t b.
  Proof. intros Hb H1 H2. destruct t; cbn; auto. Qed.
  Lemma wc_next_ret (Q : post (option token)) d t b :
    1 <= b -> (t = [] -> Q None d [] (b - 1)) ->
    (forall x t', t = x :: t' -> tok_wf x -> Q (Some x) (x :: d) t' (b - 1)) -> wcr (Next Ret) Q d t b.
  Proof. intros Hb H1 H2. destruct t; cbn; auto. Qed.
  Lemma wc_prev (Q : post unit) d t b :
    1 <= b -> (1 <= len d)%nat -> (forall x d', d = x :: d' -> Q tt d' (x :: t) (b - 1)) -> wcr prev Q d t b.
  Proof. intros Hb H1 H2. destruct d; cbn in *; [lia|]. auto. Qed.
  Lemma wc_parse_keyword s (Q : post kwres) d t b :
    2 <= b -> (t = [] -> Q KwEOF d [] (b - 1)) ->
    (forall x t', t = x :: t' -> tok_wf x -> is_kw (gs s) x = false -> Q (KwNo x) d (x :: t') (b - 1)) ->
    (forall x t', t = x :: t' -> tok_wf x -> is_kw (gs s) x = true -> Q (KwYes x) (x :: d) t' (b - 1 - 1)) ->
    wcr (parse_keyword s) Q d t b.
  Proof.
    intros Hb H1 H2 H3. destruct t as [|x t]; cbn; (split; [lia|]); auto. intros Hx.
    destruct (is_kw (gs s) x) eqn:E; cbn; auto. split; [lia|auto].
  Qed.
  Lemma wc_kw_ok s (Q : post bool) d t b :
    2 <= b -> (kwno s t -> Q false d t (b - 1)) ->
    (forall x t', t = x :: t' -> tok_wf x -> is_kw (gs s) x = true -> Q true (x :: d) t' (b - 1 - 1)) ->
    wcr (kw_ok s) Q d t b.
  Proof.
    intros Hb H2 H3. unfold kw_ok. apply wc_bind. apply wc_parse_keyword; intros; subst; cbn; auto.
    apply H2. exact I.
  Qed.
  Lemma wc_kw_tok s (Q : post (option token)) d t b :
    2 <= b -> (kwno s t -> Q None d t (b - 1)) ->
    (forall x t', t = x :: t' -> tok_wf x -> is_kw (gs s) x = true -> Q (Some x) (x :: d) t' (b - 1 - 1)) ->
    wcr (kw_tok s) Q d t b.
  Proof.
    intros Hb H2 H3. unfold kw_tok. apply wc_bind. apply wc_parse_keyword; intros; subst; cbn; auto.
    apply H2. exact I.
  Qed.
  Lemma wc_expect_keyword s (Q : post token) d t b :
    2 <= b -> (forall x t', t = x :: t' -> tok_wf x -> is_kw (gs s) x = true -> Q x (x :: d) t' (b - 1 - 1)) ->
    wcr (expect_keyword s) Q d t b.
  Proof.
    intros Hb H3. unfold expect_keyword. apply wc_bind. apply wc_parse_keyword; intros; subst; cbn; auto.
  Qed.
  Lemma wc_kws_ok l (Q : post bool) d t b :
    2 * Z.of_nat (List.length l) <= b -> Q false d t (b - 2 * Z.of_nat (List.length l)) ->
    (forall l1 t', List.length l1 = List.length l -> t = l1 ++ t' -> Q true (rev l1 ++ d) t' (b - 2 * Z.of_nat (List.length l))) ->
    wcr (kws_ok l) Q d t b.
  Proof.
    intros Hb H1 H2. unfold kws_ok. apply wc_kws; rewrite map_length; [exact Hb|exact H1|]. intros l1 t' _ E1 E2. apply H2; auto.
  Qed.
  Lemma wc_kws_toks l (Q : post (option toks)) d t b :
    2 * Z.of_nat (List.length l) <= b -> Q None d t (b - 2 * Z.of_nat (List.length l)) ->
    (forall l1 t', List.length l1 = List.length l -> t = l1 ++ t' -> Q (Some l1) (rev l1 ++ d) t' (b - 2 * Z.of_nat (List.length l))) ->
    wcr (kws_toks l) Q d t b.
  Proof.
    intros Hb H1 H2. unfold kws_toks. apply wc_kws; rewrite map_length; [exact Hb|exact H1|]. intros l1 t' _ E1 E2. apply H2; auto.
  Qed.
  Lemma wc_consume k (Q : post bool) d t b :
    2 <= b -> Q false d t (b - 1) ->
    (forall x t', t = x :: t' -> tok_wf x -> is_kind k x = true -> Q true (x :: d) t' (b - 1 - 1)) ->
    wcr (consume_token k) Q d t b.
  Proof.
    intros Hb H1 H2. destruct t as [|x t]; cbn; (split; [lia|]); auto. intros Hx. destruct (is_kind k x) eqn:E; cbn; auto. split; [lia|auto].
  Qed.
  Lemma wc_expect_token k (Q : post unit) d t b :
    2 <= b -> (forall x t', t = x :: t' -> tok_wf x -> is_kind k x = true -> Q tt (x :: d) t' (b - 1 - 1)) ->
    wcr (expect_token k) Q d t b.
  Proof.
    intros Hb H1. unfold expect_token. apply wc_bind. apply wc_consume; cbn; auto.
  Qed.
  Lemma wc_next_kind k (Q : post token) d t b :
    1 <= b -> (forall x t', t = x :: t' -> tok_wf x -> is_kind k x = true -> Q x (x :: d) t' (b - 1)) ->
    wcr (next_kind k) Q d t b.
  Proof.
    intros Hb H1. unfold next_kind. apply wc_bind, wc_next_nn; [exact Hb|]. intros x t' -> Hx.
    destruct (is_kind k x) eqn:E; cbn; auto.
  Qed.
  Lemma wc_word_of x (Q : post sqlword) d t b :
    (forall w, tval x = VWord w -> Q w d t b) -> wcr (word_of x) Q d t b.
  Proof. unfold word_of. intros H3. destruct (tval x) as [w|s] eqn:E; cbn; auto. Qed.
  Lemma wc_str_of x (Q : post gostring) d t b :
    (forall w, tval x = VStr w -> Q w d t b) -> wcr (str_of x) Q d t b.
  Proof. unfold str_of. intros H3. destruct (tval x) as [w|s] eqn:E; cbn; auto. Qed.
  Lemma wc_or_err {A} (o : option A) (Q : post A) d t b :
    (forall a, o = Some a -> Q a d t b) -> wcr (or_err o) Q d t b.
  Proof. intros H. destruct o; cbn; auto. Qed.

  Record rsc (r : rec) : Prop := {
    rc_query : sc 40 (-10) 1 (r_query r);
    rc_body : forall p, sc 30 (-20) 1 (r_body r p);
    rc_subexpr : forall p, sc 20 (-40) 1 (r_subexpr r p);
    rc_tref : sc 20 (-30) 1 (r_tref r) }.

  Lemma wc_call_sc {A} P B k (p : prog A) (R : post A) d t b :
    sc P B k p -> 100 * lz t + P <= b ->
    (forall a d1 t' b', (k <= len d1)%nat -> b - b' <= 100 * lz d1 + B -> t = rev d1 ++ t' -> R a (d1 ++ d) t' b') ->
    wcr p R d t b.
  Proof. intros H Hb HR. eapply wc_call; [apply H, Hb|]. cbn beta. intros a d1 t' b' [H1 H2] E. auto. Qed.

  Create HintDb cs.
  Ltac nlia :=
    repeat match goal with
    | H : @eq bool _ _ |- _ => clear H
    | H : @eq (list _) _ _ |- _ => clear H
    | H : @eq tvalue _ _ |- _ => clear H
    | H : @eq kind _ _ |- _ => clear H
    | H : tok_wf _ |- _ => clear H
    end; cbn [List.length] in *; lia.
  Hint Resolve rc_query rc_body rc_subexpr rc_tref : cs.

  Ltac lens :=
    repeat match goal with
    | H : ?t = ?x :: ?t' |- _ => is_var t; subst t
    | H : ?x :: ?t = ?y :: ?t' |- _ => injection H as ? ?; try subst
    | H : ?t = ?x :: ?t' |- _ =>
        let E := fresh "L" in
        assert (E : len t = S (len t')) by (rewrite H; reflexivity);
        revert H; intros _
    | H : ?t = rev ?d ++ ?t' |- _ =>
        let E := fresh "L" in
        assert (E : len t = (len d + len t')%nat) by (rewrite H, app_length, rev_length; reflexivity);
        revert H; intros _
    | H : ?t = ?d ++ ?t' |- _ =>
        let E := fresh "L" in
        assert (E : len t = (len d + len t')%nat) by (rewrite H, app_length; reflexivity);
        revert H; intros _
    end;
    cbn [List.length] in *; repeat progress (rewrite ?app_length, ?rev_length in *; cbn [List.length] in * ).

  Ltac kinds :=
    repeat match goal with
    | H : is_kind _ _ = true |- _ => apply is_kind_eq in H
    | H : _ && _ = true |- _ => apply andb_prop in H; destruct H
    | H : negb (is_kind _ _) = false |- _ => apply negb_false_iff in H
    end.
  Ltac num := lens; nlia.

  Ltac fin :=
    repeat match goal with
    | |- match ?x with _ => _ end => destruct x eqn:?
    | H : ?x = Some _ |- _ => is_var x; subst x
    | H : match match ?x with _ => _ end with _ => _ end = _ |- _ => destruct x eqn:?
    | H : match ?x with _ => _ end = inl _ |- _ => destruct x eqn:?; try discriminate H
    | H : match ?x with _ => _ end = inr _ |- _ => destruct x eqn:?; try discriminate H
    end; lens; repeat split; intros; first [assumption | discriminate | nlia | congruence | idtac].

  Ltac go1 :=
    lazymatch goal with
    | |- wc _ (bind _ _) _ _ _ _ => apply wc_bind
    | |- wc _ (Ret _) _ _ _ _ => cbn [wc]
    | |- wc _ Err _ _ _ _ => exact I
    | |- wc _ (Panic _) _ _ _ _ => exact I
    | |- wc _ next_nn _ _ _ _ => apply wc_next_nn; [num|intros]
    | |- wc _ next_err _ _ _ _ => apply wc_next_err; [num|intros]
    | |- wc _ must_next _ _ _ _ => apply wc_must_next; [num|intros]
    | |- wc _ peek_nn _ _ _ _ => apply wc_peek_nn; [num|intros]
    | |- wc _ peek _ _ _ _ => apply wc_peek; [num|intros|intros]
    | |- wc _ (Next Ret) _ _ _ _ => apply wc_next_ret; [num|intros|intros]
    | |- wc _ prev _ _ _ _ => apply wc_prev; [num|num|intros]
    | |- wc _ (parse_keyword _) _ _ _ _ => apply wc_parse_keyword; [num|intros|intros|intros]
    | |- wc _ (kw_ok _) _ _ _ _ => apply wc_kw_ok; [num|intros|intros]
    | |- wc _ (kw_tok _) _ _ _ _ => apply wc_kw_tok; [num|intros|intros]
    | |- wc _ (expect_keyword _) _ _ _ _ => apply wc_expect_keyword; [num|intros]
    | |- wc _ (kws_ok _) _ _ _ _ => apply wc_kws_ok; [num|intros|intros]
    | |- wc _ (kws_toks _) _ _ _ _ => apply wc_kws_toks; [num|intros|intros]
    | |- wc _ (consume_token _) _ _ _ _ => apply wc_consume; [num|intros|intros]
    | |- wc _ (expect_token _) _ _ _ _ => apply wc_expect_token; [num|intros]
    | |- wc _ (next_kind _) _ _ _ _ => apply wc_next_kind; [num|intros]
    | |- wc _ (word_of _) _ _ _ _ => apply wc_word_of; intros
    | |- wc _ (str_of _) _ _ _ _ => apply wc_str_of; intros
    | |- wc _ (or_err _) _ _ _ _ => apply wc_or_err; intros
    | |- wc _ (let _ := _ in _) _ _ _ _ => cbv zeta
    | |- wc _ (match ?x with _ => _ end) _ _ _ _ => destruct x eqn:?
    | |- wc _ (Next _) _ _ ?t _ => destruct t eqn:?; cbn [wc]; (split; [num|]); [|intros ?]
    | |- wc _ (Peek _) _ _ ?t _ => destruct t eqn:?; cbn [wc]; (split; [num|]); [|intros ?]
    | |- wc _ (loop _ _ _) _ _ _ _ => fail
    | |- wc _ _ _ _ _ _ => lens; first [eapply wc_call_sc; [solve [eauto with cs]|num|intros] | eapply wc_call; [solve [eauto with cs]|cbn beta; intros]]
    end.
  Ltac go := unfold sc; intros; repeat (cbn beta; go1); try solve [fin].

  Lemma parse_identifier_sc : sc 1 (-99) 1 parse_identifier.
  Proof. unfold parse_identifier. go. Qed.
  Hint Resolve parse_identifier_sc : cs.
  Lemma parse_list_of_ids_sc r k t b : 100 * lz t + 2 <= b ->
    wcr (parse_list_of_ids r k) (fun o d' _ b' => match o with Some _ => (1 <= len d')%nat /\ b - b' <= 100 * lz d' - 97 | None => b - b' <= 100 * lz d' + 2 end) [] t b.
  Proof.
    intros Hb. unfold parse_list_of_ids.
    apply wc_loop with (Inv := fun s d t1 b1 => (len d + len t1 = len t)%nat /\ (snd s = false -> (1 <= len d)%nat) /\ b - b1 <= 100 * lz d + if snd s then 0 else -99).
    - intros [acc ex] d t1 b1 (HI1 & HI2 & HI3). cbn [snd] in *. go; destruct ex; cbn [snd] in *; fin; cbn [snd] in *; try discriminate; try nlia; auto.
    - cbn. repeat split; [discriminate|lia].
  Qed.
  Lemma parse_column_names_sc r : sc 2 (-97) 1 (parse_column_names r).
  Proof. unfold parse_column_names, sc. intros t b Hb. apply wc_bind. eapply wc_call; [apply parse_list_of_ids_sc; lia|]. cbn beta. intros [l|] d1 t' b' H E; go. Qed.
  Hint Resolve parse_column_names_sc : cs.
  Lemma parse_object_name_sc r : sc 2 (-97) 1 (parse_object_name r).
  Proof. unfold parse_object_name, sc. intros t b Hb. apply wc_bind. eapply wc_call; [apply parse_list_of_ids_sc; lia|]. cbn beta. intros [l|] d1 t' b' H E; go. Qed.
  Hint Resolve parse_object_name_sc : cs.
  Lemma parse_literal_int_sc : sc 1 (-99) 1 parse_literal_int.
  Proof. unfold parse_literal_int. go. Qed.
  Hint Resolve parse_literal_int_sc : cs.
  Lemma parse_optional_precision_sc : sc 2 1 0 parse_optional_precision.
  Proof. unfold parse_optional_precision. go. Qed.
  Hint Resolve parse_optional_precision_sc : cs.
  Lemma parse_optional_precision_scale_sc : sc 2 1 0 parse_optional_precision_scale.
  Proof. unfold parse_optional_precision_scale. go. Qed.
  Hint Resolve parse_optional_precision_scale_sc : cs.
  Lemma parse_my_unsigned_sc : sc 2 1 0 parse_my_unsigned.
  Proof. unfold parse_my_unsigned. go. Qed.
  Hint Resolve parse_my_unsigned_sc : cs.
  Lemma parse_time_zone_sc : sc 4 2 0 parse_time_zone.
  Proof. unfold parse_time_zone. go. Qed.
  Hint Resolve parse_time_zone_sc : cs.
  Lemma parse_data_type_sc r : sc 4 (-90) 1 (parse_data_type r).
  Proof. unfold parse_data_type. go. Qed.
  Hint Resolve parse_data_type_sc : cs.
  Lemma parse_expr_sc r : rsc r -> sc 20 (-40) 1 (parse_expr r).
  Proof. intros HR. unfold parse_expr. eauto with cs. Qed.
  Hint Resolve parse_expr_sc : cs.
  Lemma parse_optional_alias_sc l : sc 5 4 0 (parse_optional_alias l).
  Proof. unfold parse_optional_alias. go. Qed.
  Hint Resolve parse_optional_alias_sc : cs.

  (** The state of a loop that started with [t0] ahead and budget [b0]. *)
  Ltac start t b n Hb :=
    unfold sc; intros t b Hb; assert (Hn : exists n, n = len t) by (eexists; reflexivity); destruct Hn as [n Hn].
  Ltac inv n b0 X :=
    lazymatch goal with
    | |- wc _ (@loop ?S _ _ _ _) _ _ _ _ =>
      apply wc_loop with (Inv := fun (_ : S) (d t1 : toks) (b1 : Z) => (len d + len t1 = n)%nat /\ b0 - b1 <= 100 * lz d + X);
      [|cbn beta; lens; split; nlia]
    end.
  Ltac inv1 n b0 X :=
    lazymatch goal with
    | |- wc _ (@loop ?S _ _ _ _) _ _ _ _ =>
      apply wc_loop with (Inv := fun (_ : S) (d t1 : toks) (b1 : Z) => (len d + len t1 = n)%nat /\ b0 - b1 <= 100 * lz d + X /\ (1 <= len d)%nat);
      [|cbn beta; lens; repeat split; nlia]
    end.

  Lemma parse_expr_list_sc r : rsc r -> sc 20 (-39) 1 (parse_expr_list r).
  Proof.
    intros HR. unfold parse_expr_list. start t b n Hb. inv n b 0.
    intros acc d t1 b1 [HI1 HI2]. go.
  Qed.
  Hint Resolve parse_expr_list_sc : cs.
  Lemma parse_optional_args_sc r : rsc r -> sc 25 5 0 (parse_optional_args r).
  Proof. intros HR. unfold parse_optional_args. go. Qed.
  Hint Resolve parse_optional_args_sc : cs.
  Lemma parse_order_by_list_sc r : rsc r -> sc 20 (-36) 1 (parse_order_by_list r).
  Proof.
    intros HR. unfold parse_order_by_list. start t b n Hb. inv n b 0.
    intros acc d t1 b1 [HI1 HI2]. go.
  Qed.
  Hint Resolve parse_order_by_list_sc : cs.
  Lemma parse_window_frame_bound_sc : sc 10 (-80) 1 parse_window_frame_bound.
  Proof. unfold parse_window_frame_bound. go. Qed.
  Hint Resolve parse_window_frame_bound_sc : cs.
  Lemma parse_window_frame_sc : sc 10 (-60) 1 parse_window_frame.
  Proof. unfold parse_window_frame. go. Qed.
  Hint Resolve parse_window_frame_sc : cs.
  Lemma parse_function_sc r n : rsc r -> sc 10 (-80) 1 (parse_function r n).
  Proof. intros HR. unfold parse_function. go. Qed.
  Hint Resolve parse_function_sc : cs.
  Lemma parse_value_sc : sc 10 (-90) 1 parse_value.
  Proof. unfold parse_value. go. Qed.
  Hint Resolve parse_value_sc : cs.
  Lemma parse_case_sc r : rsc r -> sc 10 (-60) 1 (parse_case r).
  Proof.
    intros HR. unfold parse_case. start t b n Hb. go.
    all: inv n b (-90).
    all: intros acc d' t1 b1 [HI1 HI2]; go.
  Qed.
  Hint Resolve parse_case_sc : cs.
  Lemma parse_cast_sc r : rsc r -> sc 10 (-60) 1 (parse_cast r).
  Proof. intros HR. unfold parse_cast. go. Qed.
  Hint Resolve parse_cast_sc : cs.
  Lemma parse_exists_sc r o : rsc r -> sc 10 (-60) 1 (parse_exists r o).
  Proof. intros HR. unfold parse_exists. go. Qed.
  Hint Resolve parse_exists_sc : cs.
  Lemma wc_get_precedence x (Q : post Z) d t b : (forall p, Q p d t b) -> wcr (get_precedence x) Q d t b.
  Proof. intros HQ. unfold get_precedence. go; apply HQ. Qed.
  Lemma wc_get_next_precedence (Q : post Z) d t b :
    1 <= b -> (forall p, Q p d t (b - 1)) -> wcr get_next_precedence Q d t b.
  Proof.
    intros Hb HQ. unfold get_next_precedence. apply wc_bind, wc_peek; [assumption| |].
    - intros ->. cbn. apply HQ.
    - intros x t' -> Hx. apply wc_get_precedence. auto.
  Qed.
  Ltac go1 ::=
    lazymatch goal with
    | |- wc _ (bind _ _) _ _ _ _ => apply wc_bind
    | |- wc _ (Ret _) _ _ _ _ => cbn [wc]
    | |- wc _ Err _ _ _ _ => exact I
    | |- wc _ (Panic _) _ _ _ _ => exact I
    | |- wc _ next_nn _ _ _ _ => apply wc_next_nn; [num|intros]
    | |- wc _ next_err _ _ _ _ => apply wc_next_err; [num|intros]
    | |- wc _ must_next _ _ _ _ => apply wc_must_next; [num|intros]
    | |- wc _ peek_nn _ _ _ _ => apply wc_peek_nn; [num|intros]
    | |- wc _ peek _ _ _ _ => apply wc_peek; [num|intros|intros]
    | |- wc _ get_next_precedence _ _ _ _ => apply wc_get_next_precedence; [num|intros]
    | |- wc _ (get_precedence _) _ _ _ _ => apply wc_get_precedence; intros
    | |- wc _ (Next Ret) _ _ _ _ => apply wc_next_ret; [num|intros|intros]
    | |- wc _ prev _ _ _ _ => apply wc_prev; [num|num|intros]
    | |- wc _ (parse_keyword _) _ _ _ _ => apply wc_parse_keyword; [num|intros|intros|intros]
    | |- wc _ (kw_ok _) _ _ _ _ => apply wc_kw_ok; [num|intros|intros]
    | |- wc _ (kw_tok _) _ _ _ _ => apply wc_kw_tok; [num|intros|intros]
    | |- wc _ (expect_keyword _) _ _ _ _ => apply wc_expect_keyword; [num|intros]
    | |- wc _ (kws_ok _) _ _ _ _ => apply wc_kws_ok; [num|intros|intros]
    | |- wc _ (kws_toks _) _ _ _ _ => apply wc_kws_toks; [num|intros|intros]
    | |- wc _ (consume_token _) _ _ _ _ => apply wc_consume; [num|intros|intros]
    | |- wc _ (expect_token _) _ _ _ _ => apply wc_expect_token; [num|intros]
    | |- wc _ (next_kind _) _ _ _ _ => apply wc_next_kind; [num|intros]
    | |- wc _ (word_of _) _ _ _ _ => apply wc_word_of; intros
    | |- wc _ (str_of _) _ _ _ _ => apply wc_str_of; intros
    | |- wc _ (or_err _) _ _ _ _ => apply wc_or_err; intros
    | |- wc _ (let _ := _ in _) _ _ _ _ => cbv zeta
    | |- wc _ (match ?x with _ => _ end) _ _ _ _ => destruct x eqn:?
    | |- wc _ (Next _) _ _ ?t _ => destruct t eqn:?; cbn [wc]; (split; [num|]); [|intros ?]
    | |- wc _ (Peek _) _ _ ?t _ => destruct t eqn:?; cbn [wc]; (split; [num|]); [|intros ?]
    | |- wc _ (loop _ _ _) _ _ _ _ => fail
    | |- wc _ _ _ _ _ _ => lens; first [eapply wc_call_sc; [solve [eauto with cs]|num|intros] | eapply wc_call; [solve [eauto with cs]|cbn beta; intros]]
    end.
  Lemma parse_in_sc r e b : rsc r -> sc 10 (-5) 1 (parse_in r e b).
  Proof. intros HR. unfold parse_in. go. Qed.
  Hint Resolve parse_in_sc : cs.
  Lemma parse_dotted_sc r i : sc 3 2 0 (parse_dotted r i).
  Proof.
    unfold parse_dotted. start t b n Hb. inv n b 0.
    intros acc d t1 b1 [HI1 HI2]. go.
  Qed.
  Hint Resolve parse_dotted_sc : cs.
  Lemma parse_prefix_sc r : rsc r -> sc 15 (-50) 1 (parse_prefix r).
  Proof. intros HR. unfold parse_prefix. go. Qed.
  Hint Resolve parse_prefix_sc : cs.
  Lemma parse_between_sc r e b : rsc r -> sc 20 (-10) 1 (parse_between r e b).
  Proof. intros HR. unfold parse_between. go. Qed.
  Hint Resolve parse_between_sc : cs.
  Lemma infix_operator_sc x : sc 5 5 0 (infix_operator x).
  Proof. unfold infix_operator. go. Qed.
  Hint Resolve infix_operator_sc : cs.
  Lemma parse_infix_sc r e p : rsc r -> sc 10 (-50) 1 (parse_infix r e p).
  Proof. intros HR. unfold parse_infix. go. Qed.
  Hint Resolve parse_infix_sc : cs.
  Lemma infix_loop_sc r e p : rsc r -> sc 15 2 0 (infix_loop r p e).
  Proof.
    intros HR. unfold infix_loop. start t b n Hb. inv n b 0.
    intros acc d t1 b1 [HI1 HI2]. go.
  Qed.
  Hint Resolve infix_loop_sc : cs.
  Lemma parse_subexpr_sc r p : rsc r -> sc 20 (-40) 1 (parse_subexpr r p).
  Proof. intros HR. unfold parse_subexpr. go. Qed.
  Hint Resolve parse_subexpr_sc : cs.
  Lemma parse_default_expr_sc r : rsc r -> sc 20 (-40) 1 (parse_default_expr r).
  Proof.
    intros HR. unfold parse_default_expr. start t b n Hb. go.
    inv1 n b (-45).
    intros acc d t1 b1 (HI1 & HI2 & HI3). go.
  Qed.
  Hint Resolve parse_default_expr_sc : cs.

  Lemma parse_limit_sc : sc 5 (-90) 1 parse_limit.
  Proof. unfold parse_limit. go. Qed.
  Hint Resolve parse_limit_sc : cs.
  Lemma parse_table_factor_sc r : rsc r -> sc 15 (-60) 1 (parse_table_factor r).
  Proof. intros HR. unfold parse_table_factor. go. Qed.
  Hint Resolve parse_table_factor_sc : cs.
  Lemma parse_join_type_sc : sc 12 10 0 parse_join_type.
  Proof. unfold parse_join_type. go. Qed.
  Hint Resolve parse_join_type_sc : cs.
  Lemma parse_join_spec_sc r : rsc r -> sc 10 (-30) 1 (parse_join_spec r).
  Proof. intros HR. unfold parse_join_spec. go. Qed.
  Hint Resolve parse_join_spec_sc : cs.
  Lemma parse_table_reference_right_sc r t b : rsc r -> 100 * lz t + 15 <= b ->
    wcr (parse_table_reference_right r)
      (fun o d' _ b' => match o with Some _ => (1 <= len d')%nat /\ b - b' <= 100 * lz d' - 20 | None => b - b' <= 100 * lz d' + 15 end) [] t b.
  Proof. intros HR Hb. unfold parse_table_reference_right. go. Qed.
  Lemma parse_table_reference_sc r : rsc r -> sc 20 (-30) 1 (parse_table_reference r).
  Proof.
    intros HR. unfold parse_table_reference. start t b n Hb. go.
    inv1 n b (-55).
    intros acc d t1 b1 (HI1 & HI2 & HI3). apply wc_bind. lens. eapply wc_call; [apply parse_table_reference_right_sc; [assumption|nlia]|]. cbn beta. intros o d2 t2 b2 H2 E. go.
  Qed.
  Hint Resolve parse_table_reference_sc : cs.
  Lemma parse_from_clause_sc r : rsc r -> sc 20 (-25) 1 (parse_from_clause r).
  Proof.
    intros HR. unfold parse_from_clause. start t b n Hb. go.
    inv1 n b (-28).
    intros acc d t1 b1 (HI1 & HI2 & HI3). go.
  Qed.
  Hint Resolve parse_from_clause_sc : cs.
  Lemma parse_select_list_sc r : rsc r -> sc 25 (-28) 1 (parse_select_list r).
  Proof.
    intros HR. unfold parse_select_list. start t b n Hb. inv n b 0.
    intros acc d t1 b1 [HI1 HI2]. go.
  Qed.
  Hint Resolve parse_select_list_sc : cs.
  Lemma parse_select_sc r p : rsc r -> sc 40 20 1 (parse_select r p).
  Proof. intros HR. unfold parse_select. go. Qed.
  Hint Resolve parse_select_sc : cs.
  Lemma parse_set_operator_sc o t b : wcr (parse_set_operator o) (fun op d' _ b' => d' = [] /\ b' = b) [] t b.
  Proof. destruct o as [x|]; unfold parse_set_operator; go; auto. Qed.
  Lemma body_loop_sc r p e : rsc r -> sc 10 5 0 (body_loop r p e).
  Proof.
    intros HR. unfold body_loop. start t b n Hb. inv n b 0.
    intros acc d t1 b1 [HI1 HI2]. apply wc_bind, wc_peek; [num| |].
    - intros ->. cbn [wc]. fin.
    - intros x t' -> Hx. apply wc_bind. eapply wc_call; [apply parse_set_operator_sc|].
      cbn beta. intros op d1 t2 b2 [-> ->] E. cbn in E. subst t2. go.
  Qed.
  Hint Resolve body_loop_sc : cs.
  Lemma parse_query_body_sc r p : rsc r -> sc 30 (-20) 1 (parse_query_body r p).
  Proof. intros HR. unfold parse_query_body. go. Qed.
  Hint Resolve parse_query_body_sc : cs.
  Lemma parse_cte_list_sc r : rsc r -> sc 10 (-50) 1 (parse_cte_list r).
  Proof.
    intros HR. unfold parse_cte_list. start t b n Hb. inv n b 0.
    intros acc d t1 b1 [HI1 HI2]. go.
  Qed.
  Hint Resolve parse_cte_list_sc : cs.
  Lemma parse_query_sc r : rsc r -> sc 40 (-10) 1 (parse_query r).
  Proof. intros HR. unfold parse_query. go. Qed.
  Hint Resolve parse_query_sc : cs.

  Lemma knot_rsc n : rsc (knot n).
  Proof.
    induction n as [|n IH].
    - constructor; intros; intros t b Hb; exact I.
    - constructor; intros; cbn [knot r_fuel r_stmt r_query r_body r_subexpr r_tref]; auto with cs.
  Qed.

  Lemma parse_delete_sc r : rsc r -> sc 30 (-60) 1 (parse_delete r).
  Proof. intros HR. unfold parse_delete. go. Qed.
  Hint Resolve parse_delete_sc : cs.
  Lemma parse_assignments_sc r : rsc r -> sc 10 (-90) 1 (parse_assignments r).
  Proof.
    intros HR. unfold parse_assignments. start t b n Hb. inv n b 0.
    intros acc d t1 b1 [HI1 HI2]. go.
  Qed.
  Hint Resolve parse_assignments_sc : cs.
  Lemma parse_update_sc r : rsc r -> sc 30 (-60) 1 (parse_update r).
  Proof. intros HR. unfold parse_update. go. Qed.
  Hint Resolve parse_update_sc : cs.
  Lemma parse_rows_sc r : rsc r -> sc 10 (-90) 1 (parse_rows r).
  Proof.
    intros HR. unfold parse_rows. start t b n Hb. inv n b 0.
    intros acc d t1 b1 [HI1 HI2]. go.
  Qed.
  Hint Resolve parse_rows_sc : cs.
  Lemma parse_insert_sc r : rsc r -> sc 30 (-60) 1 (parse_insert r).
  Proof. intros HR. unfold parse_insert. go. Qed.
  Hint Resolve parse_insert_sc : cs.
  Lemma parse_cascade_sc : sc 2 2 0 parse_cascade.
  Proof. unfold parse_cascade. go. Qed.
  Hint Resolve parse_cascade_sc : cs.
  Lemma parse_drop_sc r : sc 30 (-60) 1 (parse_drop r).
  Proof. unfold parse_drop. go. Qed.
  Hint Resolve parse_drop_sc : cs.
  Lemma parse_create_view_sc r c : rsc r -> sc 30 0 1 (parse_create_view r c).
  Proof. intros HR. unfold parse_create_view. go. Qed.
  Hint Resolve parse_create_view_sc : cs.
  Lemma parse_create_index_sc r c : rsc r -> sc 30 0 1 (parse_create_index r c).
  Proof. intros HR. unfold parse_create_index. go. Qed.
  Hint Resolve parse_create_index_sc : cs.
  Lemma parse_option_value_sc : sc 5 (-90) 1 parse_option_value.
  Proof. unfold parse_option_value. go. Qed.
  Hint Resolve parse_option_value_sc : cs.
  Lemma parse_table_option_sc : sc 20 (-50) 1 parse_table_option.
  Proof. unfold parse_table_option. go. Qed.
  Hint Resolve parse_table_option_sc : cs.
  Lemma parse_table_options_sc r : sc 25 5 0 (parse_table_options r).
  Proof.
    unfold parse_table_options. start t b n Hb. inv n b 0.
    intros acc d t1 b1 [HI1 HI2]. go.
  Qed.
  Hint Resolve parse_table_options_sc : cs.

  (** *** Column definitions *)
  Lemma parse_list_of_ids_weak r k : sc 2 2 0 (parse_list_of_ids r k).
  Proof. intros t b Hb. eapply wc_conseq; [apply parse_list_of_ids_sc; exact Hb|]. cbn beta. intros [l|] d' t' b' H; lia. Qed.
  Hint Resolve parse_list_of_ids_weak : cs.
  Lemma parse_table_constraints_sc r : rsc r -> sc 20 (-40) 1 (parse_table_constraints r).
  Proof. intros HR. unfold parse_table_constraints. go. Qed.
  Hint Resolve parse_table_constraints_sc : cs.

  Lemma parse_column_spec_sc r x w t b : rsc r -> 100 * lz t + 10 <= b ->
    wcr (parse_column_spec r x w)
      (fun o d' _ b' => match o with
                     | Some _ => (1 <= len d')%nat /\ b - b' <= 100 * lz d' - 20
                     | None => (kw w "NOT" || kw w "UNIQUE" || kw w "PRIMARY" || kw w "REFERENCES"
                               || kw w "CHECK" = false) /\ d' = [] /\ b' = b
                     end) [] t b.
  Proof. intros HR Hb. unfold parse_column_spec. go. Qed.

  Lemma parse_column_constraints_sc r t b : rsc r -> 100 * lz t + 20 <= b ->
    wcr (parse_column_constraints r)
      (fun _ d' _ b' => b - b' <= 100 * lz d' + 5 /\
         (head_kw ["CONSTRAINT"; "NOT"; "UNIQUE"; "PRIMARY"; "REFERENCES"; "CHECK"]%string t -> (1 <= len d')%nat /\ b - b' <= 100 * lz d' - 10)) [] t b.
  Proof.
    intros HR Hb. unfold parse_column_constraints.
    apply wc_loop with (Inv := fun (_ : list colconstraint) (d t1 : toks) b1 =>
      (len d + len t1 = len t)%nat /\ ((d = [] /\ t1 = t /\ b1 = b) \/ ((1 <= len d)%nat /\ b - b1 <= 100 * lz d - 15))); [|auto].
    intros acc d t1 b1 [HI1 HI2]. go.
    - destruct HI2 as [(-> & -> & ->)|HI2]; [|split; [lia|intros _; lia]]. split; [cbn; lia|].
      intros (y & t2 & w & E1 & _). congruence.
    - lens. eapply wc_call; [apply parse_column_spec_sc; [assumption|nlia]|]. cbn beta. intros [spec|] d2 t2 b2 HS E; cbn [wc].
      + lens. split; [nlia|right; nlia].
      + destruct HS as (_ & -> & ->). lens. split; [nlia|]. intros _. nlia.
    - destruct HI2 as [(-> & HI2 & ->)|HI2]; [|split; [lia|intros _; lia]]. split; [cbn; lia|].
      intros (y & t2 & w & E1 & E2 & E3 & E4). exfalso.
      assert (y = x0) by congruence. subst y.
      match goal with H : negb (is_kind _ x0) = true |- _ => unfold is_kind in H; rewrite E2 in H; discriminate H end.
    - lens. eapply wc_call; [apply parse_column_spec_sc; [assumption|nlia]|]. cbn beta. intros [spec|] d2 t2 b2 HS E; cbn [wc].
      + lens. split; [nlia|right; nlia].
      + destruct HS as (HS & -> & ->). destruct HI2 as [(-> & HI2 & ->)|HI2]; [|cbn [app]; split; [nlia|intros _; nlia]]. split; [cbn [app List.length]; nlia|].
        intros (y & t3 & w' & E1 & E2 & E3 & E4). exfalso.
        assert (y = x0) by congruence. subst y.
        match goal with H : tval x0 = VWord w |- _ => rewrite H in * end. injection E3 as <-. cbn in E4.
        match goal with H : kw w "CONSTRAINT" = false |- _ => rewrite H in E4 end. rewrite !orb_assoc, orb_false_r in E4. cbn [orb] in E4. congruence.
  Qed.
  Lemma parse_column_definition_sc r : rsc r -> sc 25 10 0 (parse_column_definition r).
  Proof.
    intros HR. unfold parse_column_definition. start t b n Hb. inv n b 0.
    intros [[def specs] decs] d t1 b1 [HI1 HI2]. go.
    - exfalso. cbn [kwno] in *. match goal with H : is_kw _ _ = false |- _ => rewrite (default_kw _ w) in H by assumption; discriminate H end.
    - lens. eapply wc_call; [apply parse_column_constraints_sc; [assumption|nlia]|]. cbn beta. intros l d2 t2 b2 [_ HS] E. cbn [wc].
      destruct HS as [HS1 HS2].
      { exists x, t', w. repeat split; auto.
        - kinds. assumption.
        - cbn [existsb]. rewrite orb_false_r, !orb_assoc. assumption. }
      lens. split; nlia.
  Qed.
  Hint Resolve parse_column_definition_sc : cs.
  Lemma parse_column_def_sc r : rsc r -> sc 10 (-50) 1 (parse_column_def r).
  Proof. intros HR. unfold parse_column_def. go. Qed.
  Hint Resolve parse_column_def_sc : cs.
  Lemma parse_elements_sc r : rsc r -> sc 10 10 0 (parse_elements r).
  Proof.
    intros HR. unfold parse_elements. start t b n Hb. go. inv n b (-60).
    intros acc d t1 b1 [HI1 HI2]. go.
  Qed.
  Hint Resolve parse_elements_sc : cs.
  Lemma parse_create_table_sc r c : rsc r -> sc 30 0 1 (parse_create_table r c).
  Proof. intros HR. unfold parse_create_table. go. Qed.
  Hint Resolve parse_create_table_sc : cs.
  Lemma parse_create_sc r : rsc r -> sc 30 (-10) 1 (parse_create r).
  Proof. intros HR. unfold parse_create. go. Qed.
  Hint Resolve parse_create_sc : cs.
  Lemma parse_alter_column_sc r a : rsc r -> sc 30 0 1 (parse_alter_column r a).
  Proof. intros HR. unfold parse_alter_column. go. Qed.
  Hint Resolve parse_alter_column_sc : cs.
  Lemma parse_alter_sc r : rsc r -> sc 30 (-10) 1 (parse_alter r).
  Proof. intros HR. unfold parse_alter. go. Qed.
  Hint Resolve parse_alter_sc : cs.
  Lemma parse_statement_sc r : rsc r -> sc 50 (-5) 1 (r_stmt r) -> sc 50 (-5) 1 (parse_statement r).
  Proof. intros HR HS. unfold parse_statement. go. Qed.
  Hint Resolve parse_statement_sc : cs.
  Lemma knot_stmt_sc n : sc 50 (-5) 1 (r_stmt (knot n)).
  Proof.
    induction n as [|n IH]; [intros t b Hb; exact I|].
    cbn [knot r_stmt]. auto using knot_rsc with cs.
  Qed.
  Lemma parse_sql_sc pc n : sc 60 60 0 (parse_sql pc (knot n)).
  Proof.
    pose proof (knot_rsc n) as HR. pose proof (knot_stmt_sc n) as HS.
    remember (knot n) as r. unfold parse_sql. start t b m Hb. inv m b 0.
    intros [acc ex] d t1 b1 [HI1 HI2]. go.
  Qed.
End Walk.
