(** How far the parser looks ahead: one walk over it, with the number of
    tokens seen from the present position on. *)
From Coq Require Import ZArith List Bool String Lia.
From Verif Require Import Base Dialect Token Lexer AST Num Prog Parser ParseSpec Wp Term LexFacts LookSpec.
From Verif Require Sound.
Import ListNotations.
Open Scope Z_scope.

(** How many tokens a test for keywords looks at if it fails. *)
Fixpoint kws_seen (ks : list gostring) (t : toks) : Z :=
  match ks, t with
  | [], _ => 0
  | k :: ks', x :: t' => if is_kw k x then 1 + kws_seen ks' t' else 1
  | _, [] => 1
  end.
Lemma kws_seen_le ks : forall t, 0 <= kws_seen ks t <= Z.of_nat (List.length ks).
Proof.
  induction ks as [|k ks IH]; intros [|x t]; cbn [kws_seen List.length]; try lia. specialize (IH t).
  destruct (is_kw k x); lia.
Qed.

Section Wl.
  Variable ok : token -> Prop.

  (** Like [wp]; [h] is how many of the tokens left have been seen.  The end of
      the input counts as one token. *)
  Fixpoint wl {A} (p : prog A) (Q : A -> toks -> toks -> Z -> Prop) (d t : toks) (h : Z) : Prop :=
    match p with
    | Ret a => Q a d t h
    | Err | Panic _ | Fuel => True
    | Next k => match t with [] => wl (k None) Q d [] (Z.max h 1) | x :: t' => ok x -> wl (k (Some x)) Q (x :: d) t' (Z.max (h - 1) 0) end
    | Peek k => match t with [] => wl (k None) Q d [] (Z.max h 1) | x :: t' => ok x -> wl (k (Some x)) Q d (x :: t') (Z.max h 1) end
    | Prev k => match d with [] => False | x :: d' => wl k Q d' (x :: t) (h + 1) end
    | Kws ks k =>
        match kws_match ks t with
        | Some l => wl (k (Some l)) Q (rev l ++ d) (skipn (List.length l) t) (Z.max (h - Z.of_nat (List.length ks)) 0)
        | None => wl (k None) Q d t (Z.max h (kws_seen ks t))
        end
    end.

  Lemma wl_conseq {A} (p : prog A) (Q Q' : A -> toks -> toks -> Z -> Prop) : forall d t h,
    wl p Q d t h -> (forall a d' t' h', Q a d' t' h' -> Q' a d' t' h') -> wl p Q' d t h.
  Proof.
    induction p as [a| |w| |k IH|k IH|k IH|ks k IH]; intros d t h H HQ; cbn [wl] in *; auto.
    - destruct t; intros; eapply IH; eauto.
    - destruct t; intros; eapply IH; eauto.
    - destruct d; [auto|]. eapply IH; eauto.
    - destruct (kws_match ks t); eapply IH; eauto.
  Qed.

  Lemma wl_bind {A B} (p : prog A) (f : A -> prog B) Q : forall d t h,
    wl p (fun a d' t' h' => wl (f a) Q d' t' h') d t h -> wl (bind p f) Q d t h.
  Proof.
    induction p as [a| |w| |k IH|k IH|k IH|ks k IH]; intros d t h H; cbn [wl bind] in *; auto.
    - destruct t; auto.
    - destruct t; auto.
    - destruct d; auto.
    - destruct (kws_match ks t); auto.
  Qed.

  Lemma wl_frame {A} (p : prog A) Q D : forall d t h,
    wl p Q d t h ->
    wl p (fun a d' t' h' => exists d1, d' = d1 ++ D /\ Q a d1 t' h' /\ rev d1 ++ t' = rev d ++ t) (d ++ D) t h.
  Proof.
    induction p as [a| |w| |k IH|k IH|k IH|ks k IH]; intros d t h H; cbn [wl] in *; auto.
    - exists d. auto.
    - destruct t as [|x t]; [auto|]. intros Hx. specialize (H Hx).
      change (x :: d ++ D) with ((x :: d) ++ D).
      eapply wl_conseq; [apply IH, H|]. cbn. intros a d' t' h' (d1 & E1 & E2 & E3).
      exists d1. repeat split; auto. rewrite E3. rewrite <- app_assoc. reflexivity.
    - destruct t as [|x t]; auto.
    - destruct d as [|x d]; [contradiction|]. cbn [app].
      eapply wl_conseq; [apply IH, H|]. cbn. intros a d' t' h' (d1 & E1 & E2 & E3).
      exists d1. repeat split; auto. rewrite E3. rewrite <- app_assoc. reflexivity.
    - destruct (kws_match ks t) as [l|] eqn:E.
      + rewrite app_assoc. eapply wl_conseq; [apply IH, H|]. cbn.
        intros a d' t' h' (d1 & E1 & E2 & E3). exists d1. repeat split; auto. rewrite E3.
        destruct (kws_match_spec _ _ _ E) as [E4 E5]. rewrite rev_app_distr, rev_involutive, <- app_assoc. f_equal.
        symmetry; exact E4.
      + apply IH, H.
  Qed.

  Lemma wl_call {A} (p : prog A) Q (R : A -> toks -> toks -> Z -> Prop) d t h :
    wl p Q [] t h ->
    (forall a d1 t' h', Q a d1 t' h' -> t = rev d1 ++ t' -> R a (d1 ++ d) t' h') ->
    wl p R d t h.
  Proof.
    intros H HR. apply (wl_frame p Q d [] t) in H. cbn in H.
    eapply wl_conseq; [exact H|]. cbn. intros a d' t' h' (d1 & -> & HQ & E). auto.
  Qed.

  Lemma wl_loop {S A} (Inv : S -> toks -> toks -> Z -> Prop) (body : S -> prog (S + A)) Q :
    (forall s d t h, Inv s d t h ->
       wl (body s) (fun r d' t' h' => match r with
                                      | inl s' => Inv s' d' t' h'
                                      | inr a => Q a d' t' h'
                                      end) d t h) ->
    forall n s d t h, Inv s d t h -> wl (loop n body s) Q d t h.
  Proof.
    intros Hb. induction n as [|n IH]; intros s d t h HI; [exact I|].
    cbn [loop]. apply wl_bind. eapply wl_conseq; [apply Hb, HI|].
    cbn. intros [s'|a] d' t' h' H; [|exact H]. apply IH, H.
  Qed.
End Wl.

Section Walk.
  Notation wlr := (wl tok_wf).

  (** [p] consumes [k] tokens (0 or 1) or more, and sees no more than [E] tokens
      from its end on unless they were seen before. *)
  Definition la {A} (E : Z) (k : nat) (p : prog A) : Prop :=
    forall c, In c [1; 2; 3] -> forall t h, h <= c ->
    wlr p (fun _ d' _ h' => (k <= len d')%nat /\ h' <= Z.max (c - Z.of_nat k) E) [] t h.

  Notation post A := (A -> toks -> toks -> Z -> Prop).

  Lemma wl_next c {A} (k : option token -> prog A) (Q : post A) d t h :
    h <= c -> (forall h', t = [] -> h' <= Z.max c 1 -> wlr (k None) Q d [] h') ->
    (forall x t' h', t = x :: t' -> tok_wf x -> h' <= Z.max (c - 1) 0 -> wlr (k (Some x)) Q (x :: d) t' h') -> wlr (Next k) Q d t h.
  Proof. intros Hc H1 H2. destruct t; cbn [wl]; [|intros]; [apply H1|apply H2]; auto; lia. Qed.
  Lemma wl_next_ret c (Q : post (option token)) d t h :
    h <= c -> (forall h', t = [] -> h' <= Z.max c 1 -> Q None d [] h') ->
    (forall x t' h', t = x :: t' -> tok_wf x -> h' <= Z.max (c - 1) 0 -> Q (Some x) (x :: d) t' h') -> wlr (Next Ret) Q d t h.
  Proof. intros Hc H1 H2. eapply wl_next; cbn [wl]; eauto. Qed.
  Lemma wl_next_nn c (Q : post token) d t h :
    h <= c -> (forall x t' h', t = x :: t' -> tok_wf x -> h' <= Z.max (c - 1) 0 -> Q x (x :: d) t' h') -> wlr next_nn Q d t h.
  Proof. intros Hc H. destruct t; cbn; [auto|]. intros. apply H; auto. lia. Qed.
  Lemma wl_next_err c (Q : post token) d t h :
    h <= c -> (forall x t' h', t = x :: t' -> tok_wf x -> h' <= Z.max (c - 1) 0 -> Q x (x :: d) t' h') -> wlr next_err Q d t h.
  Proof. intros Hc H. destruct t; cbn; [auto|]. intros. apply H; auto. lia. Qed.
  Lemma wl_must_next c (Q : post token) d t h :
    h <= c -> (forall x t' h', t = x :: t' -> tok_wf x -> h' <= Z.max (c - 1) 0 -> Q x (x :: d) t' h') -> wlr must_next Q d t h.
  Proof. intros Hc H. destruct t; cbn; [auto|]. intros. apply H; auto. lia. Qed.
  Lemma wl_peek_nn c (Q : post token) d t h :
    h <= c -> (forall x t' h', t = x :: t' -> tok_wf x -> h' <= Z.max c 1 -> Q x d (x :: t') h') -> wlr peek_nn Q d t h.
  Proof. intros Hc H. destruct t; cbn; auto. intros. apply H; auto. lia. Qed.
  Lemma wl_peek c (Q : post (option token)) d t h :
    h <= c -> (forall h', t = [] -> h' <= Z.max c 1 -> Q None d [] h') ->
    (forall x t' h', t = x :: t' -> tok_wf x -> h' <= Z.max c 1 -> Q (Some x) d (x :: t') h') -> wlr peek Q d t h.
  Proof. intros Hc H1 H2. destruct t; cbn; intros; [apply H1|apply H2]; auto; lia. Qed.
  Lemma wl_prev c (Q : post unit) d t h :
    h <= c -> (1 <= len d)%nat -> (forall x d' h', d = x :: d' -> h' <= Z.max (c + 1) 1 -> Q tt d' (x :: t) h') -> wlr prev Q d t h.
  Proof. intros Hc H1 H2. destruct d; cbn in *; [lia|]. apply H2; auto. lia. Qed.
  Lemma wl_parse_keyword c s (Q : post kwres) d t h :
    h <= c -> (forall h', t = [] -> h' <= Z.max c 1 -> Q KwEOF d [] h') ->
    (forall x t' h', t = x :: t' -> tok_wf x -> is_kw (gs s) x = false -> h' <= Z.max c 1 -> Q (KwNo x) d (x :: t') h') ->
    (forall x t' h', t = x :: t' -> tok_wf x -> is_kw (gs s) x = true -> h' <= Z.max (c - 1) 0 -> Q (KwYes x) (x :: d) t' h') ->
    wlr (parse_keyword s) Q d t h.
  Proof.
    intros Hc H1 H2 H3. destruct t as [|x t]; cbn; [apply H1; auto; lia|]. intros Hx.
    destruct (is_kw (gs s) x) eqn:E; cbn; [intros _; apply H3|apply H2]; auto; lia.
  Qed.
  Lemma wl_kw_ok c s (Q : post bool) d t h :
    h <= c -> (forall h', kwno s t -> h' <= Z.max c 1 -> Q false d t h') ->
    (forall x t' h', t = x :: t' -> tok_wf x -> is_kw (gs s) x = true -> h' <= Z.max (c - 1) 0 -> Q true (x :: d) t' h') ->
    wlr (kw_ok s) Q d t h.
  Proof.
    intros Hc H2 H3. unfold kw_ok. apply wl_bind. eapply wl_parse_keyword; [exact Hc| | |]; intros; subst; cbn; auto.
    - apply H2; [exact I|assumption].
  Qed.
  Lemma wl_kw_tok c s (Q : post (option token)) d t h :
    h <= c -> (forall h', kwno s t -> h' <= Z.max c 1 -> Q None d t h') ->
    (forall x t' h', t = x :: t' -> tok_wf x -> is_kw (gs s) x = true -> h' <= Z.max (c - 1) 0 -> Q (Some x) (x :: d) t' h') ->
    wlr (kw_tok s) Q d t h.
  Proof.
    intros Hc H2 H3. unfold kw_tok. apply wl_bind. eapply wl_parse_keyword; [exact Hc| | |]; intros; subst; cbn; auto.
    - apply H2; [exact I|assumption].
  Qed.
  Lemma wl_expect_keyword c s (Q : post token) d t h :
    h <= c -> (forall x t' h', t = x :: t' -> tok_wf x -> is_kw (gs s) x = true -> h' <= Z.max (c - 1) 0 -> Q x (x :: d) t' h') ->
    wlr (expect_keyword s) Q d t h.
  Proof.
    intros Hc H3. unfold expect_keyword. apply wl_bind. eapply wl_parse_keyword; [exact Hc| | |]; intros; subst; cbn; auto.
  Qed.
  Lemma wl_kws_ok c l (Q : post bool) d t h :
    h <= c -> (forall h', h' <= Z.max c (Z.of_nat (List.length l)) -> Q false d t h') ->
    (forall l1 t' h', List.length l1 = List.length l -> t = l1 ++ t' -> h' <= Z.max (c - Z.of_nat (List.length l)) 0 -> Q true (rev l1 ++ d) t' h') ->
    wlr (kws_ok l) Q d t h.
  Proof.
    intros Hc H1 H2. unfold kws_ok. cbn [wl]. rewrite map_length. destruct (kws_match (map gs l) t) as [l1|] eqn:E; cbn.
    - destruct (kws_match_spec _ _ _ E) as [E1 E2]. rewrite map_length in E2. apply H2; auto. lia.
    - apply H1. pose proof (kws_seen_le (map gs l) t) as X. rewrite map_length in X. lia.
  Qed.
  Lemma wl_kws_toks c l (Q : post (option toks)) d t h :
    h <= c -> (forall h', h' <= Z.max c (Z.of_nat (List.length l)) -> Q None d t h') ->
    (forall l1 t' h', List.length l1 = List.length l -> t = l1 ++ t' -> h' <= Z.max (c - Z.of_nat (List.length l)) 0 -> Q (Some l1) (rev l1 ++ d) t' h') ->
    wlr (kws_toks l) Q d t h.
  Proof.
    intros Hc H1 H2. unfold kws_toks. cbn [wl]. rewrite map_length. destruct (kws_match (map gs l) t) as [l1|] eqn:E; cbn.
    - destruct (kws_match_spec _ _ _ E) as [E1 E2]. rewrite map_length in E2. apply H2; auto. lia.
    - apply H1. pose proof (kws_seen_le (map gs l) t) as X. rewrite map_length in X. lia.
  Qed.
  Lemma wl_consume c k (Q : post bool) d t h :
    h <= c -> (forall h', h' <= Z.max c 1 -> Q false d t h') ->
    (forall x t' h', t = x :: t' -> tok_wf x -> is_kind k x = true -> h' <= Z.max (c - 1) 0 -> Q true (x :: d) t' h') ->
    wlr (consume_token k) Q d t h.
  Proof.
    intros Hc H1 H2. destruct t as [|x t]; cbn; [apply H1; lia|]. intros Hx.
    destruct (is_kind k x) eqn:E; cbn; [intros _; apply H2|apply H1]; auto; lia.
  Qed.
  Lemma wl_expect_token c k (Q : post unit) d t h :
    h <= c -> (forall x t' h', t = x :: t' -> tok_wf x -> is_kind k x = true -> h' <= Z.max (c - 1) 0 -> Q tt (x :: d) t' h') ->
    wlr (expect_token k) Q d t h.
  Proof.
    intros Hc H1. unfold expect_token. apply wl_bind. eapply wl_consume; [exact Hc| |]; cbn; auto.
  Qed.
  Lemma wl_next_kind c k (Q : post token) d t h :
    h <= c -> (forall x t' h', t = x :: t' -> tok_wf x -> is_kind k x = true -> h' <= Z.max (c - 1) 0 -> Q x (x :: d) t' h') ->
    wlr (next_kind k) Q d t h.
  Proof.
    intros Hc H1. unfold next_kind. apply wl_bind. eapply wl_next_nn; [exact Hc|]. intros x t' h' -> Hx H2.
    destruct (is_kind k x) eqn:E; cbn; auto.
  Qed.
  Lemma wl_word_of x (Q : post sqlword) d t h :
    (forall w, tval x = VWord w -> Q w d t h) -> wlr (word_of x) Q d t h.
  Proof. unfold word_of. intros H3. destruct (tval x) as [w|s] eqn:E; cbn; auto. Qed.
  Lemma wl_str_of x (Q : post gostring) d t h :
    (forall w, tval x = VStr w -> Q w d t h) -> wlr (str_of x) Q d t h.
  Proof. unfold str_of. intros H3. destruct (tval x) as [w|s] eqn:E; cbn; auto. Qed.
  Lemma wl_or_err {A} (o : option A) (Q : post A) d t h :
    (forall a, o = Some a -> Q a d t h) -> wlr (or_err o) Q d t h.
  Proof. intros H. destruct o; cbn; auto. Qed.

  Record rla (r : rec) : Prop := {
    rc_query : la 2 1 (r_query r);
    rc_body : forall p, la 2 1 (r_body r p);
    rc_subexpr : forall p, la 1 1 (r_subexpr r p);
    rc_tref : la 2 1 (r_tref r) }.

  Lemma wl_call_la {A} c E k (p : prog A) (R : post A) d t h :
    la E k p -> h <= c -> In (Z.max c 1) [1; 2; 3] ->
    (forall a d1 t' h', (k <= len d1)%nat -> h' <= Z.max (Z.max c 1 - Z.of_nat k) E -> t = rev d1 ++ t' -> R a (d1 ++ d) t' h') ->
    wlr p R d t h.
  Proof. intros HP Hh Hc HR. eapply wl_call; [apply (HP _ Hc); lia|]. cbn beta. intros a d1 t' h' [H1 H2] E1. auto. Qed.

  Create HintDb ls.
  Ltac nlia :=
    repeat match goal with
    | H : @eq bool _ _ |- _ => clear H
    | H : @eq (list _) _ _ |- _ => clear H
    | H : @eq tvalue _ _ |- _ => clear H
    | H : @eq kind _ _ |- _ => clear H
    | H : tok_wf _ |- _ => clear H
    end; cbn [List.length] in *; lia.
  Hint Resolve rc_query rc_body rc_subexpr rc_tref : ls.
  Ltac norm := repeat match goal with
    | H : ?h <= Z.max ?a ?b |- _ => let v := eval vm_compute in (Z.max a b) in change (h <= v) in H
    end.
  Ltac lens :=
    repeat match goal with
    | H : ?t = ?x :: ?t' |- _ => is_var t; subst t
    | H : ?x :: ?t = ?y :: ?t' |- _ => injection H as ? ?; try subst
    | H : ?t = ?x :: ?t' |- _ =>
        let E := fresh "L" in
        assert (E : len t = S (len t')) by (rewrite H; reflexivity);
        revert H; intros _
    | H : ?t = rev ?d ++ ?t' |- _ =>
        let E := fresh "L" in
        assert (E : len t = (len d + len t')%nat) by (rewrite H, app_length, rev_length; reflexivity);
        revert H; intros _
    | H : ?t = ?d ++ ?t' |- _ =>
        let E := fresh "L" in
        assert (E : len t = (len d + len t')%nat) by (rewrite H, app_length; reflexivity);
        revert H; intros _
    end;
    cbn [List.length] in *; repeat progress (rewrite ?app_length, ?rev_length in *; cbn [List.length] in * ).

  Ltac kinds :=
    repeat match goal with
    | H : is_kind _ _ = true |- _ => apply is_kind_eq in H
    | H : _ && _ = true |- _ => apply andb_prop in H; destruct H
    | H : negb (is_kind _ _) = false |- _ => apply negb_false_iff in H
    end.
  Ltac num := lens; nlia.
  Ltac inc := vm_compute; tauto.

  Ltac fin :=
    repeat match goal with
    | |- match ?x with _ => _ end => destruct x eqn:?
    | H : ?x = Some _ |- _ => is_var x; subst x
    | H : match match ?x with _ => _ end with _ => _ end = _ |- _ => destruct x eqn:?
    | H : match ?x with _ => _ end = inl _ |- _ => destruct x eqn:?; try discriminate H
    | H : match ?x with _ => _ end = inr _ |- _ => destruct x eqn:?; try discriminate H
    end; lens; repeat split; intros; first [assumption | discriminate | nlia | congruence | idtac].

  Ltac go1 :=
    lazymatch goal with
    | |- wl _ (bind _ _) _ _ _ _ => apply wl_bind
    | |- wl _ (Ret _) _ _ _ _ => cbn [wl]
    | |- wl _ Err _ _ _ _ => exact I
    | |- wl _ (Panic _) _ _ _ _ => exact I
    | |- wl _ next_nn _ _ _ _ => eapply wl_next_nn; [eassumption|intros]
    | |- wl _ next_err _ _ _ _ => eapply wl_next_err; [eassumption|intros]
    | |- wl _ must_next _ _ _ _ => eapply wl_must_next; [eassumption|intros]
    | |- wl _ peek_nn _ _ _ _ => eapply wl_peek_nn; [eassumption|intros]
    | |- wl _ peek _ _ _ _ => eapply wl_peek; [eassumption|intros|intros]
    | |- wl _ (Next Ret) _ _ _ _ => eapply wl_next_ret; [eassumption|intros|intros]
    | |- wl _ prev _ _ _ _ => eapply wl_prev; [eassumption|num|intros]
    | |- wl _ (parse_keyword _) _ _ _ _ => eapply wl_parse_keyword; [eassumption|intros|intros|intros]
    | |- wl _ (kw_ok _) _ _ _ _ => eapply wl_kw_ok; [eassumption|intros|intros]
    | |- wl _ (kw_tok _) _ _ _ _ => eapply wl_kw_tok; [eassumption|intros|intros]
    | |- wl _ (expect_keyword _) _ _ _ _ => eapply wl_expect_keyword; [eassumption|intros]
    | |- wl _ (kws_ok _) _ _ _ _ => eapply wl_kws_ok; [eassumption|intros|intros]
    | |- wl _ (kws_toks _) _ _ _ _ => eapply wl_kws_toks; [eassumption|intros|intros]
    | |- wl _ (consume_token _) _ _ _ _ => eapply wl_consume; [eassumption|intros|intros]
    | |- wl _ (expect_token _) _ _ _ _ => eapply wl_expect_token; [eassumption|intros]
    | |- wl _ (next_kind _) _ _ _ _ => eapply wl_next_kind; [eassumption|intros]
    | |- wl _ (word_of _) _ _ _ _ => apply wl_word_of; intros
    | |- wl _ (str_of _) _ _ _ _ => apply wl_str_of; intros
    | |- wl _ (or_err _) _ _ _ _ => apply wl_or_err; intros
    | |- wl _ (let _ := _ in _) _ _ _ _ => cbv zeta
    | |- wl _ (match ?x with _ => _ end) _ _ _ _ => destruct x eqn:?
    | |- wl _ (Next _) _ _ _ _ => eapply wl_next; [eassumption|intros|intros]
    | |- wl _ (Peek _) _ _ ?t _ => destruct t eqn:?; cbn [wl]; [|intros ?]
    | |- wl _ (loop _ _ _) _ _ _ _ => fail
    | |- wl _ _ _ _ _ _ => lens; eapply wl_call_la; [solve [eauto with ls]|eassumption|inc|intros]
    end; norm.
  Ltac split_c := repeat match goal with H : In _ [1; 2; 3] |- _ => destruct H as [<-|[<-|[<-|[]]]] end; norm.
  Ltac go := unfold la; intros; split_c; repeat (cbn beta; go1); try solve [fin].

  Lemma parse_identifier_la : la 1 1 parse_identifier.
  Proof. unfold parse_identifier. go. Qed.
  Hint Resolve parse_identifier_la : ls.
  Lemma parse_list_of_ids_la r k c t h : In c [1; 2; 3] -> h <= c ->
    wlr (parse_list_of_ids r k) (fun o d' _ h' => match o with Some _ => (1 <= len d')%nat /\ h' <= Z.max (c - 1) 1 | None => h' <= c end) [] t h.
  Proof.
    intros Hc Hh. unfold parse_list_of_ids.
    apply wl_loop with (Inv := fun s d t1 h1 => if snd s : bool then h1 <= c else (1 <= len d)%nat /\ h1 <= Z.max (c - 1) 1).
    - intros [acc ex] d t1 h1 HI. cbn [snd] in *. destruct ex; [|destruct HI as [HI1 HI2]]; go; cbn [snd] in *; fin; cbn [snd] in *; try discriminate; try nlia; auto.
    - cbn. exact Hh.
  Qed.
  Lemma parse_column_names_la r : la 1 1 (parse_column_names r).
  Proof. unfold parse_column_names, la. intros c Hc t h Hh. apply wl_bind. eapply wl_call; [eapply parse_list_of_ids_la; eassumption|]. cbn beta. intros [l|] d1 t' h' H2 E; [destruct H2|]; go. Qed.
  Hint Resolve parse_column_names_la : ls.
  Lemma parse_object_name_la r : la 1 1 (parse_object_name r).
  Proof. unfold parse_object_name, la. intros c Hc t h Hh. apply wl_bind. eapply wl_call; [eapply parse_list_of_ids_la; eassumption|]. cbn beta. intros [l|] d1 t' h' H2 E; [destruct H2|]; go. Qed.
  Hint Resolve parse_object_name_la : ls.
  Lemma parse_literal_int_la : la 1 1 parse_literal_int.
  Proof. unfold parse_literal_int. go. Qed.
  Hint Resolve parse_literal_int_la : ls.
  Lemma parse_optional_precision_la : la 1 0 parse_optional_precision.
  Proof. unfold parse_optional_precision. go. Qed.
  Hint Resolve parse_optional_precision_la : ls.
  Lemma parse_optional_precision_scale_la : la 1 0 parse_optional_precision_scale.
  Proof. unfold parse_optional_precision_scale. go. Qed.
  Hint Resolve parse_optional_precision_scale_la : ls.
  Lemma parse_my_unsigned_la : la 1 0 parse_my_unsigned.
  Proof. unfold parse_my_unsigned. go. Qed.
  Hint Resolve parse_my_unsigned_la : ls.
  Lemma parse_time_zone_la : la 1 0 parse_time_zone.
  Proof. unfold parse_time_zone. go. Qed.
  Hint Resolve parse_time_zone_la : ls.
  Lemma parse_data_type_la r : la 1 1 (parse_data_type r).
  Proof. unfold parse_data_type. go. Qed.
  Hint Resolve parse_data_type_la : ls.
  Lemma parse_expr_la r : rla r -> la 1 1 (parse_expr r).
  Proof. intros HR. unfold parse_expr. eauto with ls. Qed.
  Hint Resolve parse_expr_la : ls.
  Lemma parse_optional_alias_la l : la 1 0 (parse_optional_alias l).
  Proof. unfold parse_optional_alias. go. Qed.
  Hint Resolve parse_optional_alias_la : ls.

  (** The state of a loop that started with [t0] ahead and budget [b0]. *)
  Ltac start t h n Hh :=
    unfold la; intros c Hc t h Hh; assert (Hn : exists n, n = len t) by (eexists; reflexivity); destruct Hn as [n Hn].
  Ltac inv n X :=
    lazymatch goal with
    | H : ?h <= ?c |- wl _ (@loop ?S _ _ _ _) _ _ _ ?h =>
      apply wl_loop with (Inv := fun (_ : S) (d t1 : toks) (h1 : Z) => (len d + len t1 = n)%nat /\ h1 <= Z.max c X);
      [|cbn beta; lens; split; nlia]
    end.
  Ltac inv1 n X :=
    lazymatch goal with
    | H : ?h <= ?c |- wl _ (@loop ?S _ _ _ _) _ _ _ ?h =>
      apply wl_loop with (Inv := fun (_ : S) (d t1 : toks) (h1 : Z) => (len d + len t1 = n)%nat /\ h1 <= Z.max c X /\ (1 <= len d)%nat);
      [|cbn beta; lens; repeat split; nlia]
    end.

  Lemma parse_expr_list_la r : rla r -> la 1 1 (parse_expr_list r).
  Proof.
    intros HR. unfold parse_expr_list. start t h n Hh. inv n 1.
    intros acc d t1 b1 [HI1 HI2]. go.
  Qed.
  Hint Resolve parse_expr_list_la : ls.
  Lemma parse_optional_args_la r : rla r -> la 1 0 (parse_optional_args r).
  Proof. intros HR. unfold parse_optional_args. go. Qed.
  Hint Resolve parse_optional_args_la : ls.
  Lemma parse_order_by_list_la r : rla r -> la 1 1 (parse_order_by_list r).
  Proof.
    intros HR. unfold parse_order_by_list. start t h n Hh. inv n 1.
    intros acc d t1 b1 [HI1 HI2]. go.
  Qed.
  Hint Resolve parse_order_by_list_la : ls.
  Lemma parse_window_frame_bound_la : la 1 1 parse_window_frame_bound.
  Proof. unfold parse_window_frame_bound. go. Qed.
  Hint Resolve parse_window_frame_bound_la : ls.
  Lemma parse_window_frame_la : la 1 1 parse_window_frame.
  Proof. unfold parse_window_frame. go. Qed.
  Hint Resolve parse_window_frame_la : ls.
  Lemma parse_function_la r n : rla r -> la 1 1 (parse_function r n).
  Proof. intros HR. unfold parse_function. go. Qed.
  Hint Resolve parse_function_la : ls.
  Lemma parse_value_la : la 1 1 parse_value.
  Proof. unfold parse_value. go. Qed.
  Hint Resolve parse_value_la : ls.
  Lemma parse_case_la r : rla r -> la 1 1 (parse_case r).
  Proof.
    intros HR. unfold parse_case. start t h n Hh. go.
    all: inv n 1.
    all: intros acc d' t1 b1 [HI1 HI2]; go.
  Qed.
  Hint Resolve parse_case_la : ls.
  Lemma parse_cast_la r : rla r -> la 1 1 (parse_cast r).
  Proof. intros HR. unfold parse_cast. go. Qed.
  Hint Resolve parse_cast_la : ls.
  Lemma parse_exists_la r o : rla r -> la 1 1 (parse_exists r o).
  Proof. intros HR. unfold parse_exists. go. Qed.
  Hint Resolve parse_exists_la : ls.
  Lemma wl_get_precedence x (Q : post Z) d t h : (forall p, Q p d t h) -> wlr (get_precedence x) Q d t h.
  Proof. intros HQ. unfold get_precedence. go; apply HQ. Qed.
  Lemma wl_get_next_precedence c (Q : post Z) d t h :
    h <= c -> (forall p h', h' <= Z.max c 1 -> Q p d t h') -> wlr get_next_precedence Q d t h.
  Proof.
    intros Hc HQ. unfold get_next_precedence. apply wl_bind. eapply wl_peek; [exact Hc| |].
    - intros h' -> H. cbn. apply HQ, H.
    - intros x t' h' -> Hx H. apply wl_get_precedence. auto.
  Qed.
  Ltac go1 ::=
    lazymatch goal with
    | |- wl _ (bind _ _) _ _ _ _ => apply wl_bind
    | |- wl _ (Ret _) _ _ _ _ => cbn [wl]
    | |- wl _ Err _ _ _ _ => exact I
    | |- wl _ (Panic _) _ _ _ _ => exact I
    | |- wl _ next_nn _ _ _ _ => eapply wl_next_nn; [eassumption|intros]
    | |- wl _ next_err _ _ _ _ => eapply wl_next_err; [eassumption|intros]
    | |- wl _ must_next _ _ _ _ => eapply wl_must_next; [eassumption|intros]
    | |- wl _ peek_nn _ _ _ _ => eapply wl_peek_nn; [eassumption|intros]
    | |- wl _ peek _ _ _ _ => eapply wl_peek; [eassumption|intros|intros]
    | |- wl _ get_next_precedence _ _ _ _ => eapply wl_get_next_precedence; [eassumption|intros]
    | |- wl _ (get_precedence _) _ _ _ _ => apply wl_get_precedence; intros
    | |- wl _ (Next Ret) _ _ _ _ => eapply wl_next_ret; [eassumption|intros|intros]
    | |- wl _ prev _ _ _ _ => eapply wl_prev; [eassumption|num|intros]
    | |- wl _ (parse_keyword _) _ _ _ _ => eapply wl_parse_keyword; [eassumption|intros|intros|intros]
    | |- wl _ (kw_ok _) _ _ _ _ => eapply wl_kw_ok; [eassumption|intros|intros]
    | |- wl _ (kw_tok _) _ _ _ _ => eapply wl_kw_tok; [eassumption|intros|intros]
    | |- wl _ (expect_keyword _) _ _ _ _ => eapply wl_expect_keyword; [eassumption|intros]
    | |- wl _ (kws_ok _) _ _ _ _ => eapply wl_kws_ok; [eassumption|intros|intros]
    | |- wl _ (kws_toks _) _ _ _ _ => eapply wl_kws_toks; [eassumption|intros|intros]
    | |- wl _ (consume_token _) _ _ _ _ => eapply wl_consume; [eassumption|intros|intros]
    | |- wl _ (expect_token _) _ _ _ _ => eapply wl_expect_token; [eassumption|intros]
    | |- wl _ (next_kind _) _ _ _ _ => eapply wl_next_kind; [eassumption|intros]
    | |- wl _ (word_of _) _ _ _ _ => apply wl_word_of; intros
    | |- wl _ (str_of _) _ _ _ _ => apply wl_str_of; intros
    | |- wl _ (or_err _) _ _ _ _ => apply wl_or_err; intros
    | |- wl _ (let _ := _ in _) _ _ _ _ => cbv zeta
    | |- wl _ (match ?x with _ => _ end) _ _ _ _ => destruct x eqn:?
    | |- wl _ (Next _) _ _ _ _ => eapply wl_next; [eassumption|intros|intros]
    | |- wl _ (Peek _) _ _ ?t _ => destruct t eqn:?; cbn [wl]; [|intros ?]
    | |- wl _ (loop _ _ _) _ _ _ _ => fail
    | |- wl _ _ _ _ _ _ => lens; eapply wl_call_la; [solve [eauto with ls]|eassumption|inc|intros]
    end; norm.
  Lemma parse_in_la r e b : rla r -> la 1 1 (parse_in r e b).
  Proof. intros HR. unfold parse_in. go. Qed.
  Hint Resolve parse_in_la : ls.
  Lemma parse_dotted_la r i : la 1 0 (parse_dotted r i).
  Proof.
    unfold parse_dotted. start t h n Hh. inv n 1.
    intros acc d t1 b1 [HI1 HI2]. go.
  Qed.
  Hint Resolve parse_dotted_la : ls.
  Lemma parse_prefix_la r : rla r -> la 1 1 (parse_prefix r).
  Proof. intros HR. unfold parse_prefix. go. Qed.
  Hint Resolve parse_prefix_la : ls.
  Lemma parse_between_la r e b : rla r -> la 1 1 (parse_between r e b).
  Proof. intros HR. unfold parse_between. go. Qed.
  Hint Resolve parse_between_la : ls.
  Lemma infix_operator_la x : la 1 0 (infix_operator x).
  Proof. unfold infix_operator. go. Qed.
  Hint Resolve infix_operator_la : ls.
  Lemma parse_infix_la r e p : rla r -> la 1 1 (parse_infix r e p).
  Proof. intros HR. unfold parse_infix. go. Qed.
  Hint Resolve parse_infix_la : ls.
  Lemma infix_loop_la r e p : rla r -> la 1 0 (infix_loop r p e).
  Proof.
    intros HR. unfold infix_loop. start t h n Hh. inv n 1.
    intros acc d t1 b1 [HI1 HI2]. go.
  Qed.
  Hint Resolve infix_loop_la : ls.
  Lemma parse_subexpr_la r p : rla r -> la 1 1 (parse_subexpr r p).
  Proof. intros HR. unfold parse_subexpr. go. Qed.
  Hint Resolve parse_subexpr_la : ls.
  Lemma parse_default_expr_la r : rla r -> la 1 1 (parse_default_expr r).
  Proof.
    intros HR. unfold parse_default_expr. start t h n Hh. go.
    all: inv1 n 1.
    all: intros acc d t1 b1 (HI1 & HI2 & HI3); go.
  Qed.
  Hint Resolve parse_default_expr_la : ls.

  Lemma parse_limit_la : la 1 1 parse_limit.
  Proof. unfold parse_limit. go. Qed.
  Hint Resolve parse_limit_la : ls.
  Lemma parse_table_factor_la r : rla r -> la 2 1 (parse_table_factor r).
  Proof. intros HR. unfold parse_table_factor. go. Qed.
  Hint Resolve parse_table_factor_la : ls.
  Lemma parse_join_type_la : la 1 0 parse_join_type.
  Proof. unfold parse_join_type. go. Qed.
  Hint Resolve parse_join_type_la : ls.
  Lemma parse_join_spec_la r : rla r -> la 1 1 (parse_join_spec r).
  Proof. intros HR. unfold parse_join_spec. go. Qed.
  Hint Resolve parse_join_spec_la : ls.
  Lemma parse_table_reference_right_la r : rla r -> la 2 0 (parse_table_reference_right r).
  Proof. intros HR. unfold parse_table_reference_right. go. Qed.
  Hint Resolve parse_table_reference_right_la : ls.
  Lemma parse_table_reference_la r : rla r -> la 2 1 (parse_table_reference r).
  Proof.
    intros HR. unfold parse_table_reference. start t h n Hh. go.
    all: inv1 n 1.
    all: intros acc d t1 b1 (HI1 & HI2 & HI3); go.
  Qed.
  Hint Resolve parse_table_reference_la : ls.
  Lemma parse_from_clause_la r : rla r -> la 2 1 (parse_from_clause r).
  Proof.
    intros HR. unfold parse_from_clause. start t h n Hh. go.
    all: inv1 n 1.
    all: intros acc d t1 b1 (HI1 & HI2 & HI3); go.
  Qed.
  Hint Resolve parse_from_clause_la : ls.
  Lemma parse_select_list_la r : rla r -> la 1 1 (parse_select_list r).
  Proof.
    intros HR. unfold parse_select_list. start t h n Hh. inv n 1.
    intros acc d t1 b1 [HI1 HI2]. go.
  Qed.
  Hint Resolve parse_select_list_la : ls.
  Lemma parse_select_la r p : rla r -> la 2 1 (parse_select r p).
  Proof. intros HR. unfold parse_select. go. Qed.
  Hint Resolve parse_select_la : ls.
  Lemma parse_set_operator_la o : la 1 0 (parse_set_operator o).
  Proof. destruct o as [x|]; unfold parse_set_operator; go. Qed.
  Hint Resolve parse_set_operator_la : ls.
  Lemma body_loop_la r p e : rla r -> la 2 0 (body_loop r p e).
  Proof.
    intros HR. unfold body_loop. start t h n Hh. inv n 2.
    intros acc d t1 h1 [HI1 HI2]. go.
  Qed.
  Hint Resolve body_loop_la : ls.
  Lemma parse_query_body_la r p : rla r -> la 2 1 (parse_query_body r p).
  Proof. intros HR. unfold parse_query_body. go. Qed.
  Hint Resolve parse_query_body_la : ls.
  Lemma parse_cte_list_la r : rla r -> la 1 1 (parse_cte_list r).
  Proof.
    intros HR. unfold parse_cte_list. start t h n Hh. inv n 1.
    intros acc d t1 b1 [HI1 HI2]. go.
  Qed.
  Hint Resolve parse_cte_list_la : ls.
  Lemma parse_query_la r : rla r -> la 2 1 (parse_query r).
  Proof. intros HR. unfold parse_query. go. Qed.
  Hint Resolve parse_query_la : ls.

  Lemma knot_rla n : rla (knot n).
  Proof.
    induction n as [|n IH].
    - constructor; intros; intros c Hc t h Hh; exact I.
    - constructor; intros; cbn [knot r_fuel r_stmt r_query r_body r_subexpr r_tref]; auto with ls.
  Qed.

  Lemma parse_assignments_la r : rla r -> la 1 1 (parse_assignments r).
  Proof.
    intros HR. unfold parse_assignments. start t h n Hh. inv n 1.
    intros acc d t1 b1 [HI1 HI2]. go.
  Qed.
  Hint Resolve parse_assignments_la : ls.
  Lemma parse_rows_la r : rla r -> la 1 1 (parse_rows r).
  Proof.
    intros HR. unfold parse_rows. start t h n Hh. inv n 1.
    intros acc d t1 b1 [HI1 HI2]. go.
  Qed.
  Hint Resolve parse_rows_la : ls.
  Lemma parse_cascade_la : la 1 0 parse_cascade.
  Proof. unfold parse_cascade. go. Qed.
  Hint Resolve parse_cascade_la : ls.
  Lemma parse_option_value_la : la 1 1 parse_option_value.
  Proof. unfold parse_option_value. go. Qed.
  Hint Resolve parse_option_value_la : ls.
  Lemma parse_table_option_la : la 1 1 parse_table_option.
  Proof. unfold parse_table_option. go. Qed.
  Hint Resolve parse_table_option_la : ls.
  Lemma parse_table_options_la r : la 1 0 (parse_table_options r).
  Proof.
    unfold parse_table_options. start t h n Hh. inv n 1.
    intros acc d t1 b1 [HI1 HI2]. go.
  Qed.
  Hint Resolve parse_table_options_la : ls.

  (** *** Column definitions *)
  Lemma parse_list_of_ids_weak r k : la 1 0 (parse_list_of_ids r k).
  Proof. intros c Hc t h Hh. eapply wl_conseq; [eapply parse_list_of_ids_la; eassumption|]. cbn beta. intros [l|] d' t' h' H; [|destruct Hc as [<-|[<-|[<-|[]]]]]; lia. Qed.
  Hint Resolve parse_list_of_ids_weak : ls.
  Lemma parse_table_constraints_la r : rla r -> la 1 1 (parse_table_constraints r).
  Proof. intros HR. unfold parse_table_constraints. go. Qed.
  Hint Resolve parse_table_constraints_la : ls.

  Lemma parse_column_spec_la r x w : rla r -> la 1 0 (parse_column_spec r x w).
  Proof. intros HR. unfold parse_column_spec. go. Qed.
  Hint Resolve parse_column_spec_la : ls.
  Lemma parse_column_constraints_la r : rla r -> la 1 0 (parse_column_constraints r).
  Proof.
    intros HR. unfold parse_column_constraints. start t h n Hh. inv n 1.
    intros acc d t1 h1 [HI1 HI2]. go.
  Qed.
  Hint Resolve parse_column_constraints_la : ls.
  Lemma parse_column_definition_la r : rla r -> la 1 0 (parse_column_definition r).
  Proof.
    intros HR. unfold parse_column_definition. start t h n Hh. inv n 1.
    intros [[def specs] decs] d t1 h1 [HI1 HI2]. go.
  Qed.
  Hint Resolve parse_column_definition_la : ls.
  Lemma parse_column_def_la r : rla r -> la 1 1 (parse_column_def r).
  Proof. intros HR. unfold parse_column_def. go. Qed.
  Hint Resolve parse_column_def_la : ls.
  Lemma parse_elements_la r : rla r -> la 1 0 (parse_elements r).
  Proof.
    intros HR. unfold parse_elements. start t h n Hh. go. all: inv n 1.
    all: intros acc d t1 b1 [HI1 HI2]; go.
  Qed.
  Hint Resolve parse_elements_la : ls.
  Lemma parse_alter_column_la r a : rla r -> la 1 1 (parse_alter_column r a).
  Proof. intros HR. unfold parse_alter_column. go. Qed.
  Hint Resolve parse_alter_column_la : ls.
  (** The same for statements, by the kind of statement read. *)
  Definition las (p : prog stmt) : Prop :=
    forall c, In c [1; 2; 3] -> forall t h, h <= c ->
    wlr p (fun a d' _ h' => (1 <= len d')%nat /\ h' <= Z.max (c - 1) (Z.of_nat (stmt_looks a))) [] t h.
  Lemma wl_call_las c (p : prog stmt) (R : post stmt) d t h :
    las p -> h <= c -> In (Z.max c 1) [1; 2; 3] ->
    (forall a d1 t' h', (1 <= len d1)%nat -> h' <= Z.max (Z.max c 1 - 1) (Z.of_nat (stmt_looks a)) -> t = rev d1 ++ t' -> R a (d1 ++ d) t' h') ->
    wlr p R d t h.
  Proof. intros HP Hh Hc HR. eapply wl_call; [apply (HP _ Hc); lia|]. cbn beta. intros a d1 t' h' [H1 H2] E1. auto. Qed.
  Lemma stmt_looks_pos s : (1 <= stmt_looks s)%nat.
  Proof. induction s; cbn [stmt_looks]; lia. Qed.
  Create HintDb lst.
  Ltac gos := unfold las; go;
    try (lens; eapply wl_call_las; [solve [eauto with lst]|eassumption|inc|intros; try apply wl_bind; cbn [wl]]);
    repeat match goal with a : stmt |- _ => lazymatch goal with H : (1 <= stmt_looks a)%nat |- _ => fail | _ => pose proof (stmt_looks_pos a) end end;
    cbn [stmt_looks] in *; fin.

  Lemma parse_delete_ls r : rla r -> las (parse_delete r).
  Proof. intros HR. unfold parse_delete. gos. Qed.
  Lemma parse_update_ls r : rla r -> las (parse_update r).
  Proof. intros HR. unfold parse_update. gos. Qed.
  Lemma parse_insert_ls r : rla r -> las (parse_insert r).
  Proof. intros HR. unfold parse_insert. gos. Qed.
  Lemma parse_drop_ls r : las (parse_drop r).
  Proof. unfold parse_drop. gos. Qed.
  Lemma parse_create_view_ls r c : rla r -> las (parse_create_view r c).
  Proof. intros HR. unfold parse_create_view. gos. Qed.
  Lemma parse_create_index_ls r c : rla r -> las (parse_create_index r c).
  Proof. intros HR. unfold parse_create_index. gos. Qed.
  (** CREATE TABLE IF NOT x fails. *)
  Definition a_not (x : token) : Prop := is_kind SQLKeyword x = true /\ exists w, tval x = VWord w /\ wkeyword w = gs "NOT".
  Lemma a_not_kind x : a_not x -> is_kind Period x = false /\ is_kind LParen x = false /\ is_kind Comma x = false.
  Proof. intros [H _]. unfold is_kind in *. destruct (tkind x); try discriminate H. auto. Qed.
  Lemma if_name r x1 x2 t' h : is_kw (gs "NOT") x2 = true ->
    wlr (parse_object_name r) (fun _ _ t1 _ => t1 = x2 :: t' /\ a_not x2) [] (x1 :: x2 :: t') h.
  Proof.
    intros K. unfold parse_object_name, parse_list_of_ids. apply wl_bind.
    destruct (r_fuel r) as [|n]; [exact I|]. cbn [loop]. apply wl_bind. cbn [wl]. intros _.
    destruct (is_kind SQLKeyword x1 && true).
    - apply wl_bind, wl_word_of. intros w _. cbn [wl]. destruct n as [|n]; [exact I|]. cbn [loop]. apply wl_bind. cbn [wl]. intros Hx.
      rewrite andb_false_r.
      assert (W2 : a_not x2).
      { unfold is_kw in K. unfold tok_wf in Hx. unfold a_not, is_kind. destruct (tval x2) as [u|]; [|discriminate K].
        destruct (tkind x2); try contradiction. split; [reflexivity|]. exists u. split; [reflexivity|].
        rewrite Hx. exact (proj1 (Sound.kw_fold (gs "NOT") eq_refl _) K). }
      destruct (a_not_kind _ W2) as (P2 & _). rewrite P2. cbn. auto.
    - rewrite andb_false_r. cbn. exact I.
  Qed.
  Lemma if_elements r x2 t' h : a_not x2 -> wlr (parse_elements r) (fun _ _ t1 _ => t1 = x2 :: t') [] (x2 :: t') h.
  Proof.
    intros W. destruct (a_not_kind _ W) as (_ & P & _). unfold parse_elements. apply wl_bind. unfold consume_token. cbn [wl]. intros _.
    rewrite P. reflexivity.
  Qed.
  Lemma if_options (Q : post (list tableoption)) r d x2 t' h : a_not x2 -> wlr (parse_table_options r) Q d (x2 :: t') h.
  Proof.
    intros W. destruct (a_not_kind _ W) as (_ & _ & P). destruct W as (W & w & V & U). unfold parse_table_options.
    destruct (r_fuel r) as [|n]; [exact I|]. cbn [loop]. apply wl_bind, wl_bind. cbn [wl peek]. intros _. rewrite P. cbn [bind].
    rewrite W. cbn [negb]. apply wl_bind. unfold parse_table_option. apply wl_bind. unfold peek_nn. cbn [wl]. intros _.
    rewrite W. cbn [negb]. apply wl_bind. unfold must_next. cbn [wl]. intros _. rewrite V. unfold kw. rewrite U. exact I.
  Qed.

  Lemma parse_create_table_ls r c : rla r -> las (parse_create_table r c).
  Proof.
    intros HR. unfold parse_create_table, las. intros c0 Hc t h Hh. apply wl_bind. unfold kws_ok. cbn [wl].
    destruct (kws_match (map gs ["IF"; "NOT"; "EXISTS"]%string) t) as [l1|] eqn:E.
    - destruct (kws_match_spec _ _ _ E) as [E1 E2]. cbn [wl List.length map] in *.
      match goal with |- wl _ _ _ _ _ ?h => assert (X : h <= Z.max (c0 - 3) 0) by lia; generalize dependent h end.
      intros h1 X. gos.
    - cbn [wl].
      assert (C : kws_seen (map gs ["IF"; "NOT"; "EXISTS"]%string) t <= 2 \/
                  exists x1 x2 t', t = x1 :: x2 :: t' /\ is_kw (gs "NOT") x2 = true).
      { cbn [map kws_seen]. destruct t as [|x1 [|x2 t]]; [left; lia|left; destruct (is_kw _ x1); lia|].
        destruct (is_kw (gs "NOT") x2) eqn:E2; [right; exists x1, x2, t; auto|left; destruct (is_kw _ x1); lia]. }
      destruct C as [C|(x1 & x2 & t' & -> & K)].
      + match goal with |- wl _ _ _ _ _ ?h => assert (X : h <= Z.max c0 2) by lia; generalize dependent h end.
        intros h1 X. gos.
      + apply wl_bind. eapply wl_call; [apply (if_name r x1 x2 t' _ K)|]. cbn beta. intros a d1 t1 h1 (-> & W2) _.
        apply wl_bind. eapply wl_call; [apply (if_elements r x2 t' _ W2)|]. cbn beta. intros l d2 t2 h2 -> _.
        apply wl_bind, if_options; assumption.
  Qed.
  Lemma parse_alter_ls r : rla r -> las (parse_alter r).
  Proof. intros HR. unfold parse_alter. gos. Qed.
  Hint Resolve parse_delete_ls parse_update_ls parse_insert_ls parse_drop_ls parse_create_view_ls parse_create_index_ls
    parse_create_table_ls parse_alter_ls : lst.
  Lemma parse_create_ls r : rla r -> las (parse_create r).
  Proof. intros HR. unfold parse_create. gos. Qed.
  Hint Resolve parse_create_ls : lst.
  Lemma parse_statement_ls r : rla r -> las (r_stmt r) -> las (parse_statement r).
  Proof. intros HR HS. unfold parse_statement. gos. Qed.
  Lemma knot_stmt_ls n : las (r_stmt (knot n)).
  Proof.
    induction n as [|n IH]; [intros c Hc t h Hh; exact I|].
    cbn [knot r_stmt]. auto using knot_rla, parse_statement_ls.
  Qed.
End Walk.
