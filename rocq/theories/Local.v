(** Locality: below ParseSQL nothing looks past a semicolon.  The walk is like
    Term.v, with the rule that the token stream may only be consulted while no
    semicolon has been read. *)
From Coq Require Import ZArith List Bool String Lia.
From Verif Require Import Base Dialect Token Lexer AST Num Prog Parser ParseSpec Wp LexFacts Term.
Import ListNotations.
Open Scope Z_scope.

Definition ns (x : token) : Prop := tkind x <> Semicolon.
Notation nss := (Forall ns).

(** A nil dereference happens only when all tokens were read and none of them
    was a semicolon. *)
Definition lpa (w : panick) (d t : toks) : Prop :=
  match w with PNil => nss d /\ t = [] | _ => True end.

Fixpoint wl {A} (p : prog A) (Q : A -> toks -> toks -> Prop) (d t : toks) : Prop :=
  match p with
  | Ret a => Q a d t
  | Err => True
  | Panic w => lpa w d t
  | Fuel => True
  | Next k => nss d /\
      match t with [] => wl (k None) Q d [] | x :: t' => tok_wf x -> wl (k (Some x)) Q (x :: d) t' end
  | Peek k => nss d /\
      match t with [] => wl (k None) Q d [] | x :: t' => tok_wf x -> wl (k (Some x)) Q d (x :: t') end
  | Prev k => match d with [] => False | x :: d' => wl k Q d' (x :: t) end
  | Kws ks k => nss d /\
      match kws_match ks t with
      | Some l => Forall tok_wf l -> wl (k (Some l)) Q (rev l ++ d) (skipn (List.length l) t)
      | None => wl (k None) Q d t
      end
  end.

Lemma wl_conseq {A} (p : prog A) (Q Q' : A -> toks -> toks -> Prop) : forall d t,
  wl p Q d t -> (forall a d' t', Q a d' t' -> Q' a d' t') -> wl p Q' d t.
Proof.
  induction p as [a| |w| |k IH|k IH|k IH|ks k IH]; intros d t H HQ; cbn in *; auto.
  - destruct H as [H1 H]. split; auto. destruct t; intros; eapply IH; eauto.
  - destruct H as [H1 H]. split; auto. destruct t; intros; eapply IH; eauto.
  - destruct d; [auto|]. eapply IH; eauto.
  - destruct H as [H1 H]. split; auto. destruct (kws_match ks t); [intros|]; eapply IH; eauto.
Qed.

Lemma wl_bind {A B} (p : prog A) (f : A -> prog B) Q : forall d t,
  wl p (fun a d' t' => wl (f a) Q d' t') d t -> wl (bind p f) Q d t.
Proof.
  induction p as [a| |w| |k IH|k IH|k IH|ks k IH]; intros d t H; cbn in *; auto.
  - destruct H as [H1 H]. split; auto. destruct t; auto.
  - destruct H as [H1 H]. split; auto. destruct t; auto.
  - destruct d; auto.
  - destruct H as [H1 H]. split; auto. destruct (kws_match ks t); auto.
Qed.

Lemma wl_frame {A} (p : prog A) Q D : nss D -> forall d t,
  wl p Q d t ->
  wl p (fun a d' t' => exists d1, d' = d1 ++ D /\ Q a d1 t' /\ rev d1 ++ t' = rev d ++ t) (d ++ D) t.
Proof.
  intros HD. induction p as [a| |w| |k IH|k IH|k IH|ks k IH]; intros d t H; cbn in *; auto.
  - exists d. auto.
  - destruct w; cbn in *; auto. destruct H. split; auto. apply Forall_app; auto.
  - destruct H as [H1 H]. split; [apply Forall_app; auto|].
    destruct t as [|x t]; [auto|]. intros Hx. specialize (H Hx).
    change (x :: d ++ D) with ((x :: d) ++ D).
    eapply wl_conseq; [apply IH, H|]. cbn. intros a d' t' (d1 & E1 & E2 & E3).
    exists d1. repeat split; auto. rewrite E3. rewrite <- app_assoc. reflexivity.
  - destruct H as [H1 H]. split; [apply Forall_app; auto|]. destruct t as [|x t]; auto.
  - destruct d as [|x d]; [contradiction|]. cbn.
    eapply wl_conseq; [apply IH, H|]. cbn. intros a d' t' (d1 & E1 & E2 & E3).
    exists d1. repeat split; auto. rewrite E3. rewrite <- app_assoc. reflexivity.
  - destruct H as [H1 H]. split; [apply Forall_app; auto|].
    destruct (kws_match ks t) as [l|] eqn:E; cbn in *.
    + intros W. rewrite app_assoc. eapply wl_conseq; [apply IH, (H W)|]. cbn.
      intros a d' t' (d1 & E1 & E2 & E3). exists d1. repeat split; auto. rewrite E3.
      destruct (kws_match_spec _ _ _ E) as [E4 _].
      rewrite rev_app_distr, rev_involutive, <- app_assoc. f_equal. symmetry; exact E4.
    + apply IH, H.
Qed.

Lemma wl_call {A} (p : prog A) Q (R : A -> toks -> toks -> Prop) d t :
  wl p Q [] t -> nss d ->
  (forall a d1 t', Q a d1 t' -> t = rev d1 ++ t' -> R a (d1 ++ d) t') ->
  wl p R d t.
Proof.
  intros H Hd HR. apply (wl_frame p Q d Hd [] t) in H. cbn in H.
  eapply wl_conseq; [exact H|]. cbn. intros a d' t' (d1 & -> & HQ & E). auto.
Qed.

Lemma wl_loop {S A} (body : S -> prog (S + A)) Q :
  (forall s d t, nss d ->
     wl (body s) (fun r d' t' => match r with inl _ => nss d' | inr a => Q a d' t' end) d t) ->
  forall n s d t, nss d -> wl (loop n body s) Q d t.
Proof.
  intros Hb. induction n as [|n IH]; intros s d t HI; [exact I|].
  cbn [loop]. apply wl_bind. eapply wl_conseq; [apply Hb, HI|].
  cbn. intros [s'|a] d' t' H; [apply IH|]; exact H.
Qed.

(** [p] reads no semicolon when it succeeds and never looks past one. *)
Definition lp {A} (p : prog A) (t : toks) : Prop := wl p (fun _ d' _ => nss d') [] t.

Lemma wl_call_lp {A} (p : prog A) (R : A -> toks -> toks -> Prop) d t :
  lp p t -> nss d ->
  (forall a d1 t', nss d1 -> t = rev d1 ++ t' -> R a (d1 ++ d) t') -> wl p R d t.
Proof. intros H. apply wl_call. exact H. Qed.

(** *** Rules *)
Lemma wl_next_nn (Q : token -> toks -> toks -> Prop) d t : nss d ->
  (forall x t', t = x :: t' -> tok_wf x -> Q x (x :: d) t') -> wl next_nn Q d t.
Proof. intros N H. destruct t; cbn; auto. Qed.
Lemma wl_next_err (Q : token -> toks -> toks -> Prop) d t : nss d ->
  (forall x t', t = x :: t' -> tok_wf x -> Q x (x :: d) t') -> wl next_err Q d t.
Proof. intros N H. destruct t; cbn; auto. Qed.
Lemma wl_must_next (Q : token -> toks -> toks -> Prop) d t : nss d ->
  (forall x t', t = x :: t' -> tok_wf x -> Q x (x :: d) t') -> wl must_next Q d t.
Proof. intros N H. destruct t; cbn; auto. Qed.
Lemma wl_peek_nn (Q : token -> toks -> toks -> Prop) d t : nss d ->
  (forall x t', t = x :: t' -> tok_wf x -> Q x d (x :: t')) -> wl peek_nn Q d t.
Proof. intros N H. destruct t; cbn; auto. Qed.
Lemma wl_peek (Q : option token -> toks -> toks -> Prop) d t : nss d ->
  (t = [] -> Q None d []) ->
  (forall x t', t = x :: t' -> tok_wf x -> Q (Some x) d (x :: t')) -> wl peek Q d t.
Proof. intros N H1 H2. destruct t; cbn; auto. Qed.
Lemma wl_next_ret (Q : option token -> toks -> toks -> Prop) d t : nss d ->
  (t = [] -> Q None d []) ->
  (forall x t', t = x :: t' -> tok_wf x -> Q (Some x) (x :: d) t') -> wl (Next Ret) Q d t.
Proof. intros N H1 H2. destruct t; cbn; auto. Qed.
Lemma wl_prev (Q : unit -> toks -> toks -> Prop) d t :
  d <> [] -> (forall x d', d = x :: d' -> Q tt d' (x :: t)) -> wl prev Q d t.
Proof. intros H1 H2. destruct d; cbn in *; [congruence|]. auto. Qed.
Lemma wl_parse_keyword s (Q : kwres -> toks -> toks -> Prop) d t : nss d ->
  (t = [] -> Q KwEOF d []) ->
  (forall x t', t = x :: t' -> tok_wf x -> is_kw (gs s) x = false -> Q (KwNo x) d (x :: t')) ->
  (forall x t', t = x :: t' -> tok_wf x -> is_kw (gs s) x = true -> Q (KwYes x) (x :: d) t') ->
  wl (parse_keyword s) Q d t.
Proof.
  intros N H1 H2 H3. destruct t as [|x t]; cbn; auto. split; auto. intros Hx.
  destruct (is_kw (gs s) x) eqn:E; cbn; auto.
Qed.
Lemma wl_kw_ok s (Q : bool -> toks -> toks -> Prop) d t : nss d ->
  (kwno s t -> Q false d t) ->
  (forall x t', t = x :: t' -> tok_wf x -> is_kw (gs s) x = true -> Q true (x :: d) t') ->
  wl (kw_ok s) Q d t.
Proof.
  intros N H2 H3. unfold kw_ok. apply wl_bind. apply wl_parse_keyword; intros; subst; cbn; auto.
  apply H2. exact I.
Qed.
Lemma wl_kw_tok s (Q : option token -> toks -> toks -> Prop) d t : nss d ->
  (kwno s t -> Q None d t) ->
  (forall x t', t = x :: t' -> tok_wf x -> is_kw (gs s) x = true -> Q (Some x) (x :: d) t') ->
  wl (kw_tok s) Q d t.
Proof.
  intros N H2 H3. unfold kw_tok. apply wl_bind. apply wl_parse_keyword; intros; subst; cbn; auto.
  apply H2. exact I.
Qed.
Lemma wl_expect_keyword s (Q : token -> toks -> toks -> Prop) d t : nss d ->
  (forall x t', t = x :: t' -> tok_wf x -> is_kw (gs s) x = true -> Q x (x :: d) t') ->
  wl (expect_keyword s) Q d t.
Proof.
  intros N H3. unfold expect_keyword. apply wl_bind. apply wl_parse_keyword; intros; subst; cbn; auto.
Qed.
Lemma wl_consume k (Q : bool -> toks -> toks -> Prop) d t : nss d ->
  Q false d t ->
  (forall x t', t = x :: t' -> tok_wf x -> is_kind k x = true -> Q true (x :: d) t') ->
  wl (consume_token k) Q d t.
Proof.
  intros N H1 H2. destruct t as [|x t]; cbn; auto. split; auto. intros Hx. destruct (is_kind k x) eqn:E; cbn; auto.
Qed.
Lemma wl_expect_token k (Q : unit -> toks -> toks -> Prop) d t : nss d ->
  (forall x t', t = x :: t' -> tok_wf x -> is_kind k x = true -> Q tt (x :: d) t') ->
  wl (expect_token k) Q d t.
Proof.
  intros N H1. unfold expect_token. apply wl_bind. apply wl_consume; cbn; auto.
Qed.
Lemma wl_next_kind k (Q : token -> toks -> toks -> Prop) d t : nss d ->
  (forall x t', t = x :: t' -> tok_wf x -> is_kind k x = true -> Q x (x :: d) t') ->
  wl (next_kind k) Q d t.
Proof.
  intros N H1. unfold next_kind. apply wl_bind, wl_next_nn; [assumption|]. intros x t' -> Hx.
  destruct (is_kind k x) eqn:E; cbn; auto.
Qed.
Lemma wl_word_of x (Q : sqlword -> toks -> toks -> Prop) d t :
  (forall w, tval x = VWord w -> Q w d t) -> wl (word_of x) Q d t.
Proof. unfold word_of. intros H. destruct (tval x) as [w|s] eqn:E; cbn; auto. Qed.
Lemma wl_str_of x (Q : gostring -> toks -> toks -> Prop) d t :
  (forall w, tval x = VStr w -> Q w d t) -> wl (str_of x) Q d t.
Proof. unfold str_of. intros H. destruct (tval x) as [w|s] eqn:E; cbn; auto. Qed.
Lemma wl_or_err {A} (o : option A) (Q : A -> toks -> toks -> Prop) d t :
  (forall a, o = Some a -> Q a d t) -> wl (or_err o) Q d t.
Proof. intros H. destruct o; cbn; auto. Qed.

Lemma ns_kw s x : tok_wf x -> is_kw s x = true -> ns x.
Proof.
  unfold tok_wf, is_kw, ns. intros H1 H2. destruct (tval x); [|discriminate].
  intros E. rewrite E in H1. exact H1.
Qed.
Lemma ns_word x w : tok_wf x -> tval x = VWord w -> ns x.
Proof. unfold tok_wf, ns. intros H1 H2 E. rewrite H2, E in H1. exact H1. Qed.

Lemma kws_match_ns ks : forall t l, kws_match ks t = Some l ->
  Forall tok_wf l -> nss l.
Proof.
  induction ks as [|k ks IH]; intros t l H W.
  - destruct t; injection H as <-; constructor.
  - destruct t as [|x t]; [discriminate|]. cbn in H. destruct (is_kw k x) eqn:K; [|discriminate].
    destruct (kws_match ks t) eqn:E; [|discriminate]. injection H as <-. inversion_clear W.
    constructor; [eapply ns_kw|]; eauto.
Qed.

Lemma wl_kws_ok l (Q : bool -> toks -> toks -> Prop) d t : nss d ->
  Q false d t ->
  (forall l1 t', t = l1 ++ t' -> nss l1 -> Q true (rev l1 ++ d) t') ->
  wl (kws_ok l) Q d t.
Proof.
  intros N H1 H2. unfold kws_ok. cbn. split; auto. destruct (kws_match _ t) as [l1|] eqn:E; [|exact H1].
  intros W. apply H2; [apply (kws_match_spec _ _ _ E)|eapply kws_match_ns; eauto].
Qed.
Lemma wl_kws_toks l (Q : option toks -> toks -> toks -> Prop) d t : nss d ->
  Q None d t ->
  (forall l1 t', t = l1 ++ t' -> nss l1 -> Q (Some l1) (rev l1 ++ d) t') ->
  wl (kws_toks l) Q d t.
Proof.
  intros N H1 H2. unfold kws_toks. cbn. split; auto. destruct (kws_match _ t) as [l1|] eqn:E; [|exact H1].
  intros W. apply H2; [apply (kws_match_spec _ _ _ E)|eapply kws_match_ns; eauto].
Qed.

Lemma ns_named x f : tok_wf x -> match tval x with VWord w => f w | VStr _ => false end = true -> ns x.
Proof. intros W H. destruct (tval x) eqn:E; [|discriminate]. eapply ns_word; eauto. Qed.

Create HintDb lo.

Ltac nstok :=
  first [ assumption
        | match goal with
          | H : is_kind ?k ?x = true |- ns ?x => apply is_kind_eq in H; unfold ns; rewrite H; discriminate
          | H : negb (is_kind ?k ?x) = false |- ns ?x =>
              apply negb_false_iff, is_kind_eq in H; unfold ns; rewrite H; discriminate
          | H : is_kind ?k ?x && _ = true |- ns ?x =>
              apply andb_prop in H; destruct H as [H _]; apply is_kind_eq in H; unfold ns; rewrite H; discriminate
          | H : tkind ?x = _ |- ns ?x => unfold ns; rewrite H; discriminate
          | W : tok_wf ?x, H : is_kw _ ?x = true |- ns ?x => exact (ns_kw _ x W H)
          | W : tok_wf ?x, H : tval ?x = VWord ?w |- ns ?x => exact (ns_word x w W H)
          | W : tok_wf ?x, H : match tval ?x with _ => _ end = true |- ns ?x =>
              exact (ns_named x _ W H)
          end ].
Ltac nsl :=
  repeat match goal with
  | H : ?t = ?x :: ?t' |- _ => is_var t; subst t
  | H : ?x :: ?t = ?y :: ?t' |- _ => injection H as ? ?; try subst
  | H : _ /\ _ |- _ => destruct H
  end;
  repeat first [ assumption | apply Forall_nil | apply Forall_rev
               | apply Forall_cons; [nstok|] | apply Forall_app; split ].

(** Push-back: the last token read may be anything. *)
Ltac unprev :=
  repeat match goal with
  | H : ?x :: ?d = ?y :: ?d' |- _ => injection H as ? ?; subst
  | H : ?d1 ++ ?x :: ?d = ?y :: ?d' |- _ =>
      let N := fresh in
      assert (N : nss (d1 ++ x :: d)) by (solve [nsl]); rewrite H in N; inversion N; subst; clear N H
  | H : (?d1 ++ ?d2) ++ ?x :: ?d = ?y :: ?d' |- _ =>
      let N := fresh in
      assert (N : nss ((d1 ++ d2) ++ x :: d)) by (solve [nsl]); rewrite H in N; inversion N; subst; clear N H
  end.

Ltac go1 :=
  lazymatch goal with
  | |- wl (bind _ _) _ _ _ => apply wl_bind
  | |- wl (Ret _) _ _ _ => cbn [wl]
  | |- wl Err _ _ _ => exact I
  | |- wl Fuel _ _ _ => exact I
  | |- wl (Panic _) _ _ _ => cbn [wl lpa]; first [exact I | solve [split; [nsl|auto]]]
  | |- wl next_nn _ _ _ => apply wl_next_nn; [nsl|intros]
  | |- wl next_err _ _ _ => apply wl_next_err; [nsl|intros]
  | |- wl must_next _ _ _ => apply wl_must_next; [nsl|intros]
  | |- wl peek_nn _ _ _ => apply wl_peek_nn; [nsl|intros]
  | |- wl peek _ _ _ => apply wl_peek; [nsl|intros..]
  | |- wl (Next Ret) _ _ _ => apply wl_next_ret; [nsl|intros..]
  | |- wl prev _ _ _ => apply wl_prev; [first [discriminate | intros ?N; apply app_eq_nil in N; destruct N; discriminate]|intros; unprev]
  | |- wl (parse_keyword _) _ _ _ => apply wl_parse_keyword; [nsl|intros..]
  | |- wl (kw_ok _) _ _ _ => apply wl_kw_ok; [nsl|intros..]
  | |- wl (kw_tok _) _ _ _ => apply wl_kw_tok; [nsl|intros..]
  | |- wl (expect_keyword _) _ _ _ => apply wl_expect_keyword; [nsl|intros..]
  | |- wl (kws_ok _) _ _ _ => apply wl_kws_ok; [nsl|intros..]
  | |- wl (kws_toks _) _ _ _ => apply wl_kws_toks; [nsl|intros..]
  | |- wl (consume_token _) _ _ _ => apply wl_consume; [nsl|intros..]
  | |- wl (expect_token _) _ _ _ => apply wl_expect_token; [nsl|intros..]
  | |- wl (next_kind _) _ _ _ => apply wl_next_kind; [nsl|intros..]
  | |- wl (word_of _) _ _ _ => apply wl_word_of; intros
  | |- wl (str_of _) _ _ _ => apply wl_str_of; intros
  | |- wl (or_err _) _ _ _ => apply wl_or_err; intros
  | |- wl (let _ := _ in _) _ _ _ => cbv zeta
  | |- wl (match ?x with _ => _ end) _ _ _ => destruct x eqn:?
  | |- wl (Next _) _ _ ?t => destruct t eqn:?; cbn [wl]; (split; [nsl|]); [|intros ?]
  | |- wl (Peek _) _ _ ?t => destruct t eqn:?; cbn [wl]; (split; [nsl|]); [|intros ?]
  | |- wl (loop _ _ _) _ _ _ => apply wl_loop; [intros ? ? ? ?|nsl]
  | |- wl _ _ _ _ => first [eapply wl_call_lp; [solve [eauto with lo]|nsl|intros]
                           | eapply wl_call; [solve [eauto with lo]|nsl|cbn beta; intros]]
  end.
Ltac fin :=
  repeat match goal with
  | |- match ?x with _ => _ end => destruct x eqn:?
  end; repeat split; intros; first [assumption | discriminate | solve [nsl] | congruence | idtac].
Ltac go := unfold lp; repeat (cbn beta; go1); try solve [fin].

(** What the recursion offers. *)
Record rl (r : rec) : Prop := {
  rl_query : forall t, lp (r_query r) t;
  rl_body : forall p t, lp (r_body r p) t;
  rl_subexpr : forall p t, lp (r_subexpr r p) t;
  rl_tref : forall t, lp (r_tref r) t }.
#[global] Hint Resolve rl_query rl_body rl_subexpr rl_tref : lo.

Lemma parse_identifier_lp  t0 : lp parse_identifier t0.
Proof. unfold parse_identifier. go. Qed.
#[global] Hint Resolve parse_identifier_lp : lo.
Lemma parse_list_of_ids_lp (r : rec) (sep : kind) t0 : rl r -> sep <> Semicolon -> lp (parse_list_of_ids r sep) t0.
Proof.
  intros HR HS. unfold parse_list_of_ids. go.
  apply andb_prop in Heqb1. destruct Heqb1 as [H1 _]. apply is_kind_eq in H1. constructor; [|nsl]. unfold ns. congruence.
Qed.
#[global] Hint Extern 1 (_ <> Semicolon) => discriminate : lo.
#[global] Hint Resolve parse_list_of_ids_lp : lo.
Lemma parse_column_names_lp (r : rec) t0 : rl r -> lp (parse_column_names r) t0.
Proof. intros HR. unfold parse_column_names. go. Qed.
#[global] Hint Resolve parse_column_names_lp : lo.
Lemma parse_object_name_lp (r : rec) t0 : rl r -> lp (parse_object_name r) t0.
Proof. intros HR. unfold parse_object_name. go. Qed.
#[global] Hint Resolve parse_object_name_lp : lo.
Lemma parse_literal_int_lp  t0 : lp parse_literal_int t0.
Proof. unfold parse_literal_int. go. Qed.
#[global] Hint Resolve parse_literal_int_lp : lo.
Lemma parse_optional_precision_lp  t0 : lp parse_optional_precision t0.
Proof. unfold parse_optional_precision. go. Qed.
#[global] Hint Resolve parse_optional_precision_lp : lo.
Lemma parse_optional_precision_scale_lp  t0 : lp parse_optional_precision_scale t0.
Proof. unfold parse_optional_precision_scale. go. Qed.
#[global] Hint Resolve parse_optional_precision_scale_lp : lo.
Lemma parse_my_unsigned_lp  t0 : lp parse_my_unsigned t0.
Proof. unfold parse_my_unsigned. go. Qed.
#[global] Hint Resolve parse_my_unsigned_lp : lo.
Lemma parse_time_zone_lp  t0 : lp parse_time_zone t0.
Proof. unfold parse_time_zone. go. Qed.
#[global] Hint Resolve parse_time_zone_lp : lo.
Lemma parse_data_type_lp (r : rec) t0 : rl r -> lp (parse_data_type r) t0.
Proof. intros HR. unfold parse_data_type. go. Qed.
#[global] Hint Resolve parse_data_type_lp : lo.
Lemma parse_expr_lp (r : rec) t0 : rl r -> lp (parse_expr r) t0.
Proof. intros HR. unfold parse_expr. go. Qed.
#[global] Hint Resolve parse_expr_lp : lo.
Lemma parse_optional_alias_lp (reserved : list gostring) t0 : lp (parse_optional_alias reserved) t0.
Proof. unfold parse_optional_alias. go. Qed.
#[global] Hint Resolve parse_optional_alias_lp : lo.
Lemma parse_expr_list_lp (r : rec) t0 : rl r -> lp (parse_expr_list r) t0.
Proof. intros HR. unfold parse_expr_list. go. Qed.
#[global] Hint Resolve parse_expr_list_lp : lo.
Lemma parse_optional_args_lp (r : rec) t0 : rl r -> lp (parse_optional_args r) t0.
Proof. intros HR. unfold parse_optional_args. go. Qed.
#[global] Hint Resolve parse_optional_args_lp : lo.
Lemma parse_order_by_list_lp (r : rec) t0 : rl r -> lp (parse_order_by_list r) t0.
Proof. intros HR. unfold parse_order_by_list. go. Qed.
#[global] Hint Resolve parse_order_by_list_lp : lo.
Lemma parse_window_frame_bound_lp  t0 : lp parse_window_frame_bound t0.
Proof. unfold parse_window_frame_bound. go. Qed.
#[global] Hint Resolve parse_window_frame_bound_lp : lo.
Lemma parse_window_frame_lp  t0 : lp parse_window_frame t0.
Proof. unfold parse_window_frame. go. Qed.
#[global] Hint Resolve parse_window_frame_lp : lo.
Lemma parse_function_lp (r : rec) (name : objname) t0 : rl r -> lp (parse_function r name) t0.
Proof. intros HR. unfold parse_function. go. Qed.
#[global] Hint Resolve parse_function_lp : lo.
Lemma parse_value_lp  t0 : lp parse_value t0.
Proof. unfold parse_value. go. Qed.
#[global] Hint Resolve parse_value_lp : lo.
Lemma parse_case_lp (r : rec) t0 : rl r -> lp (parse_case r) t0.
Proof. intros HR. unfold parse_case. go. Qed.
#[global] Hint Resolve parse_case_lp : lo.
Lemma parse_cast_lp (r : rec) t0 : rl r -> lp (parse_cast r) t0.
Proof. intros HR. unfold parse_cast. go. Qed.
#[global] Hint Resolve parse_cast_lp : lo.
Lemma parse_exists_lp (r : rec) (neg : option token) t0 : rl r -> lp (parse_exists r neg) t0.
Proof. intros HR. unfold parse_exists. go. Qed.
#[global] Hint Resolve parse_exists_lp : lo.
Lemma get_precedence_lp (t : token) t0 : lp (get_precedence t) t0.
Proof. unfold get_precedence. go. Qed.
#[global] Hint Resolve get_precedence_lp : lo.
Lemma get_next_precedence_lp  t0 : lp get_next_precedence t0.
Proof. unfold get_next_precedence. go. Qed.
#[global] Hint Resolve get_next_precedence_lp : lo.
Lemma parse_in_lp (r : rec) (e : node) (neg : bool) t0 : rl r -> lp (parse_in r e neg) t0.
Proof. intros HR. unfold parse_in. go. Qed.
#[global] Hint Resolve parse_in_lp : lo.
Lemma parse_dotted_lp (r : rec) (first : ident) t0 : rl r -> lp (parse_dotted r first) t0.
Proof. intros HR. unfold parse_dotted. go. Qed.
#[global] Hint Resolve parse_dotted_lp : lo.
Lemma parse_prefix_lp (r : rec) t0 : rl r -> lp (parse_prefix r) t0.
Proof. intros HR. unfold parse_prefix. go. Qed.
#[global] Hint Resolve parse_prefix_lp : lo.
Lemma parse_between_lp (r : rec) (e : node) (neg : bool) t0 : rl r -> lp (parse_between r e neg) t0.
Proof. intros HR. unfold parse_between. go. Qed.
#[global] Hint Resolve parse_between_lp : lo.
Lemma parse_infix_lp (r : rec) (e : node) (prec : Z) t0 : rl r -> lp (parse_infix r e prec) t0.
Proof. intros HR. unfold parse_infix, infix_operator. go. Qed.
#[global] Hint Resolve parse_infix_lp : lo.
Lemma infix_loop_lp (r : rec) (prec : Z) (e : node) t0 : rl r -> lp (infix_loop r prec e) t0.
Proof. intros HR. unfold infix_loop. go. Qed.
#[global] Hint Resolve infix_loop_lp : lo.
Lemma parse_subexpr_lp (r : rec) (prec : Z) t0 : rl r -> lp (parse_subexpr r prec) t0.
Proof. intros HR. unfold parse_subexpr. go. Qed.
#[global] Hint Resolve parse_subexpr_lp : lo.
Lemma parse_default_expr_lp (r : rec) t0 : rl r -> lp (parse_default_expr r) t0.
Proof. intros HR. unfold parse_default_expr. go. Qed.
#[global] Hint Resolve parse_default_expr_lp : lo.
Lemma parse_limit_lp  t0 : lp parse_limit t0.
Proof. unfold parse_limit. go. Qed.
#[global] Hint Resolve parse_limit_lp : lo.
Lemma parse_table_factor_lp (r : rec) t0 : rl r -> lp (parse_table_factor r) t0.
Proof. intros HR. unfold parse_table_factor. go. Qed.
#[global] Hint Resolve parse_table_factor_lp : lo.
Lemma parse_join_type_lp  t0 : lp parse_join_type t0.
Proof. unfold parse_join_type. go. Qed.
#[global] Hint Resolve parse_join_type_lp : lo.
Lemma parse_join_spec_lp (r : rec) t0 : rl r -> lp (parse_join_spec r) t0.
Proof. intros HR. unfold parse_join_spec. go. Qed.
#[global] Hint Resolve parse_join_spec_lp : lo.
Lemma parse_table_reference_right_lp (r : rec) t0 : rl r -> lp (parse_table_reference_right r) t0.
Proof. intros HR. unfold parse_table_reference_right. go. Qed.
#[global] Hint Resolve parse_table_reference_right_lp : lo.
Lemma parse_table_reference_lp (r : rec) t0 : rl r -> lp (parse_table_reference r) t0.
Proof. intros HR. unfold parse_table_reference. go. Qed.
#[global] Hint Resolve parse_table_reference_lp : lo.
Lemma parse_from_clause_lp (r : rec) t0 : rl r -> lp (parse_from_clause r) t0.
Proof. intros HR. unfold parse_from_clause. go. Qed.
#[global] Hint Resolve parse_from_clause_lp : lo.
Lemma parse_select_list_lp (r : rec) t0 : rl r -> lp (parse_select_list r) t0.
Proof. intros HR. unfold parse_select_list. go. Qed.
#[global] Hint Resolve parse_select_list_lp : lo.
Lemma parse_select_lp (r : rec) (p : pos) t0 : rl r -> lp (parse_select r p) t0.
Proof. intros HR. unfold parse_select. go. Qed.
#[global] Hint Resolve parse_select_lp : lo.
Lemma body_loop_lp (r : rec) (prec : Z) (e : setexpr) t0 : rl r -> lp (body_loop r prec e) t0.
Proof. intros HR. unfold body_loop, parse_set_operator. go. Qed.
#[global] Hint Resolve body_loop_lp : lo.
Lemma parse_query_body_lp (r : rec) (prec : Z) t0 : rl r -> lp (parse_query_body r prec) t0.
Proof. intros HR. unfold parse_query_body. go. Qed.
#[global] Hint Resolve parse_query_body_lp : lo.
Lemma parse_cte_list_lp (r : rec) t0 : rl r -> lp (parse_cte_list r) t0.
Proof. intros HR. unfold parse_cte_list. go. Qed.
#[global] Hint Resolve parse_cte_list_lp : lo.
Lemma parse_query_lp (r : rec) t0 : rl r -> lp (parse_query r) t0.
Proof. intros HR. unfold parse_query. go. Qed.
#[global] Hint Resolve parse_query_lp : lo.
Lemma parse_table_constraints_lp (r : rec) t0 : rl r -> lp (parse_table_constraints r) t0.
Proof. intros HR. unfold parse_table_constraints. go. Qed.
#[global] Hint Resolve parse_table_constraints_lp : lo.
Lemma parse_column_constraints_lp (r : rec) t0 : rl r -> lp (parse_column_constraints r) t0.
Proof. intros HR. unfold parse_column_constraints, parse_column_spec. go. Qed.
#[global] Hint Resolve parse_column_constraints_lp : lo.
Lemma parse_column_definition_lp (r : rec) t0 : rl r -> lp (parse_column_definition r) t0.
Proof. intros HR. unfold parse_column_definition. go. Qed.
#[global] Hint Resolve parse_column_definition_lp : lo.
Lemma parse_column_def_lp (r : rec) t0 : rl r -> lp (parse_column_def r) t0.
Proof. intros HR. unfold parse_column_def. go. Qed.
#[global] Hint Resolve parse_column_def_lp : lo.
Lemma parse_elements_lp (r : rec) t0 : rl r -> lp (parse_elements r) t0.
Proof. intros HR. unfold parse_elements. go. Qed.
#[global] Hint Resolve parse_elements_lp : lo.
Lemma parse_option_value_lp  t0 : lp parse_option_value t0.
Proof. unfold parse_option_value. go. Qed.
#[global] Hint Resolve parse_option_value_lp : lo.
Lemma parse_table_option_lp  t0 : lp parse_table_option t0.
Proof.
  unfold parse_table_option. go. exfalso. apply negb_false_iff, is_kind_eq in Heqb.
  unfold tok_wf in H0. rewrite Heqb, Heqt in H0. exact H0.
Qed.
#[global] Hint Resolve parse_table_option_lp : lo.
Lemma parse_table_options_lp (r : rec) t0 : rl r -> lp (parse_table_options r) t0.
Proof. intros HR. unfold parse_table_options. go. Qed.
#[global] Hint Resolve parse_table_options_lp : lo.
Lemma parse_create_table_lp (r : rec) (create : token) t0 : rl r -> lp (parse_create_table r create) t0.
Proof. intros HR. unfold parse_create_table. go. Qed.
#[global] Hint Resolve parse_create_table_lp : lo.
Lemma parse_create_view_lp (r : rec) (create : token) t0 : rl r -> lp (parse_create_view r create) t0.
Proof. intros HR. unfold parse_create_view. go. Qed.
#[global] Hint Resolve parse_create_view_lp : lo.
Lemma parse_create_index_lp (r : rec) (unique : bool) t0 : rl r -> lp (parse_create_index r unique) t0.
Proof. intros HR. unfold parse_create_index. go. Qed.
#[global] Hint Resolve parse_create_index_lp : lo.
Lemma parse_create_lp (r : rec) t0 : rl r -> lp (parse_create r) t0.
Proof. intros HR. unfold parse_create. go. Qed.
#[global] Hint Resolve parse_create_lp : lo.
Lemma parse_delete_lp (r : rec) t0 : rl r -> lp (parse_delete r) t0.
Proof. intros HR. unfold parse_delete. go. Qed.
#[global] Hint Resolve parse_delete_lp : lo.
Lemma parse_assignments_lp (r : rec) t0 : rl r -> lp (parse_assignments r) t0.
Proof. intros HR. unfold parse_assignments. go. Qed.
#[global] Hint Resolve parse_assignments_lp : lo.
Lemma parse_update_lp (r : rec) t0 : rl r -> lp (parse_update r) t0.
Proof. intros HR. unfold parse_update. go. Qed.
#[global] Hint Resolve parse_update_lp : lo.
Lemma parse_rows_lp (r : rec) t0 : rl r -> lp (parse_rows r) t0.
Proof. intros HR. unfold parse_rows. go. Qed.
#[global] Hint Resolve parse_rows_lp : lo.
Lemma parse_insert_lp (r : rec) t0 : rl r -> lp (parse_insert r) t0.
Proof. intros HR. unfold parse_insert. go. Qed.
#[global] Hint Resolve parse_insert_lp : lo.
Lemma parse_alter_column_lp (r : rec) (alt : token) t0 : rl r -> lp (parse_alter_column r alt) t0.
Proof. intros HR. unfold parse_alter_column. go. Qed.
#[global] Hint Resolve parse_alter_column_lp : lo.
Lemma parse_cascade_lp  t0 : lp parse_cascade t0.
Proof. unfold parse_cascade. go. Qed.
#[global] Hint Resolve parse_cascade_lp : lo.
Lemma parse_alter_lp (r : rec) t0 : rl r -> lp (parse_alter r) t0.
Proof. intros HR. unfold parse_alter. go. Qed.
#[global] Hint Resolve parse_alter_lp : lo.
Lemma parse_drop_lp (r : rec) t0 : rl r -> lp (parse_drop r) t0.
Proof. intros HR. unfold parse_drop. go. Qed.
#[global] Hint Resolve parse_drop_lp : lo.

Definition sl (r : rec) : Prop := forall t, lp (r_stmt r) t.
Lemma parse_statement_lp (r : rec) t0 : rl r -> sl r -> lp (parse_statement r) t0.
Proof. intros HR HS. unfold parse_statement. unfold sl in HS. go. Qed.

Lemma knot_rl n : rl (knot n) /\ sl (knot n).
Proof.
  induction n as [|n [IH1 IH2]].
  - split; [constructor|unfold sl]; intros; exact I.
  - split; [constructor|unfold sl]; intros; cbn [knot r_stmt r_query r_body r_subexpr r_tref]; eauto with lo.
    apply parse_statement_lp; auto.
Qed.

(** *** Adequacy *)
Lemma wl_panic {A} (p : prog A) Q D w : forall d t,
  Forall tok_wf d -> Forall tok_wf t -> wl p Q d t ->
  run fm_machine p (d ++ D, t) = OPanic w ->
  exists d1 t', lpa w d1 t' /\ rev d1 ++ t' = rev d ++ t.
Proof.
  induction p as [a| |w'| |k IH|k IH|k IH|ks k IH]; intros d t Hd Ht H R; cbn [run wl] in *; try discriminate.
  - injection R as ->. exists d, t. auto.
  - destruct H as [Hn H]. destruct t as [|x t]; cbn [m_next fm_machine fst snd] in R.
    + apply (IH None d []); auto.
    + inversion_clear Ht.
      destruct (IH (Some x) (x :: d) t ltac:(auto) ltac:(auto) (H ltac:(auto)) R) as (d1 & t' & E1 & E2).
      exists d1, t'. split; auto. rewrite E2. cbn. now rewrite <- app_assoc.
  - destruct H as [Hn H]. destruct t as [|x t]; cbn [m_peek fm_machine fst snd] in R.
    + apply (IH None d []); auto.
    + apply (IH (Some x) d (x :: t)); auto. apply H. now inversion Ht.
  - destruct d as [|x d]; [contradiction|]. cbn [m_prev fm_machine fst snd app] in R.
    inversion_clear Hd. destruct (IH d (x :: t) ltac:(auto) ltac:(auto) H R) as (d1 & t' & E1 & E2).
    exists d1, t'. split; auto. rewrite E2. cbn. now rewrite <- app_assoc.
  - destruct H as [Hn H]. rewrite run_kws_fm in R. destruct (kws_match ks t) as [l|] eqn:E; cbn [fst snd rev app] in *.
    + destruct (kws_match_spec _ _ _ E) as [E4 _]. rewrite E4 in Ht. apply Forall_app in Ht.
      destruct Ht as [Hl Ht].
      assert (Hd' : Forall tok_wf (rev l ++ d)) by (apply Forall_app; split; [apply Forall_rev|]; auto).
      rewrite app_assoc in R.
      destruct (IH (Some l) _ _ Hd' Ht (H Hl) R) as (d1 & t' & E1 & E2).
      exists d1, t'. split; auto. rewrite E2, rev_app_distr, rev_involutive, <- app_assoc. f_equal.
      symmetry; exact E4.
    + apply (IH None d t Hd Ht H R).
Qed.

Lemma semi_not_kw s k : tok_wf s -> tkind s = Semicolon -> is_kw k s = false.
Proof.
  unfold tok_wf, is_kw. intros H E. rewrite E in H. destruct (tval s); [contradiction|reflexivity].
Qed.

Lemma kws_match_semi ks s u : tok_wf s -> tkind s = Semicolon -> forall t,
  kws_match ks (t ++ s :: u) = kws_match ks t.
Proof.
  intros W E. induction ks as [|k ks IH]; intros t.
  - destruct t; reflexivity.
  - destruct t as [|x t]; cbn.
    + now rewrite semi_not_kw.
    + rewrite IH. reflexivity.
Qed.

(** What follows a semicolon does not matter. *)
Lemma wl_local {A} (p : prog A) (Q : A -> toks -> toks -> Prop) (s : token) (u u' : toks) : tok_wf s -> tkind s = Semicolon ->
  (forall a d t, Q a d t -> nss d) ->
  forall d, Forall tok_wf d ->
  (forall t, Forall tok_wf t -> wl p Q d (t ++ s :: u) ->
    match run fm_machine p (d, t ++ s :: u) with
    | Ok a st => exists t2, snd st = t2 ++ s :: u /\
                            run fm_machine p (d, t ++ s :: u') = Ok a (fst st, t2 ++ s :: u')
    | OErr => run fm_machine p (d, t ++ s :: u') = OErr
    | OPanic w => run fm_machine p (d, t ++ s :: u') = OPanic w
    | OFuel => run fm_machine p (d, t ++ s :: u') = OFuel
    end) /\
  (forall d0, d = s :: d0 -> wl p Q d u ->
    match run fm_machine p (d, u) with
    | Ok a st => exists t2, snd st = t2 ++ s :: u /\
                            run fm_machine p (d, u') = Ok a (fst st, t2 ++ s :: u')
    | OErr => run fm_machine p (d, u') = OErr
    | OPanic w => run fm_machine p (d, u') = OPanic w
    | OFuel => run fm_machine p (d, u') = OFuel
    end).
Proof.
  intros W E HQ.
  assert (NS : forall d0, nss (s :: d0) -> False).
  { intros d0 H. inversion_clear H. contradiction. }
  induction p as [a| |w| |k IH|k IH|k IH|ks k IH]; intros d Hd; cbn [run wl]; (split; [intros t Ht H|intros d0 -> H]);
    auto.
  - exists t. auto.
  - exfalso. eapply NS, HQ, H.
  - destruct H as [Hn H]. destruct t as [|x t]; cbn [m_next fm_machine fst snd app] in *.
    + apply (IH (Some s) (s :: d)) with (d0 := d); auto.
    + inversion_clear Ht. apply (IH (Some x) (x :: d)); auto.
  - exfalso. eapply NS, (proj1 H).
  - destruct H as [Hn H]. destruct t as [|x t]; cbn [m_peek fm_machine fst snd app] in *.
    + apply (IH (Some s) d Hd) with (t := []); auto.
    + inversion_clear Ht. apply (IH (Some x) d Hd) with (t := x :: t); auto.
  - exfalso. eapply NS, (proj1 H).
  - destruct d as [|x d]; [contradiction|]. cbn [m_prev fm_machine fst snd app].
    inversion_clear Hd. apply (IH d) with (t := x :: t); auto.
  - cbn [m_prev fm_machine fst snd app]. inversion_clear Hd. apply (IH d0) with (t := []); auto.
  - destruct H as [Hn H]. rewrite !run_kws_fm. rewrite !kws_match_semi in * by assumption.
    destruct (kws_match ks t) as [l|] eqn:K; cbn [fst snd rev app] in *.
    + destruct (kws_match_spec _ _ _ K) as [E4 _].
      assert (L : (List.length l <= List.length t)%nat) by (rewrite E4, app_length; lia).
      assert (SK : forall v, skipn (List.length l) (t ++ s :: v) = skipn (List.length l) t ++ s :: v).
      { intros v. rewrite skipn_app. replace (List.length l - List.length t)%nat with 0%nat by lia. reflexivity. }
      rewrite !SK in *. rewrite E4 in Ht. apply Forall_app in Ht. destruct Ht as [Hl Ht].
      apply (IH (Some l)); auto. apply Forall_app; split; [apply Forall_rev|]; auto.
    + apply (IH None); auto.
  - exfalso. eapply NS, (proj1 H).
Qed.
