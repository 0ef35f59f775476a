(** Termination, progress and absence of failed assertions: one walk over the
    parser with the calculus of Wp.v. *)
From Coq Require Import ZArith List Bool String Lia.
From Verif Require Import Base Dialect Token Lexer AST Num Prog Parser ParseSpec Wp LexFacts.
Import ListNotations.
Open Scope Z_scope.

Notation len := (@List.length token).

Section Term.
  Variable pa : panick -> Prop.
  Hypothesis paN : pa PNil.
  Hypothesis paL : pa PLog.

  Notation wpr := (wp pa tok_wf).

  (** [p] on input [t] succeeds, fails or panics as allowed, never steps back
      before its start, and consumes at least [k] tokens when it succeeds. *)
  Definition sp {A} (k : nat) (p : prog A) (t : toks) : Prop :=
    wpr p (fun _ d' _ => (k <= len d')%nat) [] t.

  Definition kwno (s : string) (t : toks) : Prop :=
    match t with [] => True | x :: _ => is_kw (gs s) x = false end.

  Lemma wp_next_nn (Q : token -> toks -> toks -> Prop) d t :
    (forall x t', t = x :: t' -> tok_wf x -> Q x (x :: d) t') -> wpr next_nn Q d t.
  Proof. intros H. destruct t; cbn; auto. Qed.
  Lemma wp_next_err (Q : token -> toks -> toks -> Prop) d t :
    (forall x t', t = x :: t' -> tok_wf x -> Q x (x :: d) t') -> wpr next_err Q d t.
  Proof. intros H. destruct t; cbn; auto. Qed.
  Lemma wp_must_next (Q : token -> toks -> toks -> Prop) d t :
    (forall x t', t = x :: t' -> tok_wf x -> Q x (x :: d) t') -> wpr must_next Q d t.
  Proof. intros H. destruct t; cbn; auto. Qed.
  Lemma wp_peek_nn (Q : token -> toks -> toks -> Prop) d t :
    (forall x t', t = x :: t' -> tok_wf x -> Q x d (x :: t')) -> wpr peek_nn Q d t.
  Proof. intros H. destruct t; cbn; auto. Qed.
  Lemma wp_peek (Q : option token -> toks -> toks -> Prop) d t :
    (t = [] -> Q None d []) ->
    (forall x t', t = x :: t' -> tok_wf x -> Q (Some x) d (x :: t')) -> wpr peek Q d t.
  Proof. intros H1 H2. destruct t; cbn; auto. Qed.
  Lemma wp_next_ret (Q : option token -> toks -> toks -> Prop) d t :
    (t = [] -> Q None d []) ->
    (forall x t', t = x :: t' -> tok_wf x -> Q (Some x) (x :: d) t') -> wpr (Next Ret) Q d t.
  Proof. intros H1 H2. destruct t; cbn; auto. Qed.
  Lemma wp_prev (Q : unit -> toks -> toks -> Prop) d t :
    (1 <= len d)%nat -> (forall x d', d = x :: d' -> Q tt d' (x :: t)) -> wpr prev Q d t.
  Proof. intros H1 H2. destruct d; cbn in *; [lia|]. auto. Qed.
  Lemma wp_parse_keyword s (Q : kwres -> toks -> toks -> Prop) d t :
    (t = [] -> Q KwEOF d []) ->
    (forall x t', t = x :: t' -> tok_wf x -> is_kw (gs s) x = false -> Q (KwNo x) d (x :: t')) ->
    (forall x t', t = x :: t' -> tok_wf x -> is_kw (gs s) x = true -> Q (KwYes x) (x :: d) t') ->
    wpr (parse_keyword s) Q d t.
  Proof.
    intros H1 H2 H3. destruct t as [|x t]; cbn; auto. intros Hx.
    destruct (is_kw (gs s) x) eqn:E; cbn; auto.
  Qed.
  Lemma wp_kw_ok s (Q : bool -> toks -> toks -> Prop) d t :
    (kwno s t -> Q false d t) ->
    (forall x t', t = x :: t' -> tok_wf x -> is_kw (gs s) x = true -> Q true (x :: d) t') ->
    wpr (kw_ok s) Q d t.
  Proof.
    intros H2 H3. unfold kw_ok. apply wp_bind. apply wp_parse_keyword; intros; subst; cbn; auto.
    apply H2. exact I.
  Qed.
  Lemma wp_kw_tok s (Q : option token -> toks -> toks -> Prop) d t :
    (kwno s t -> Q None d t) ->
    (forall x t', t = x :: t' -> tok_wf x -> is_kw (gs s) x = true -> Q (Some x) (x :: d) t') ->
    wpr (kw_tok s) Q d t.
  Proof.
    intros H2 H3. unfold kw_tok. apply wp_bind. apply wp_parse_keyword; intros; subst; cbn; auto.
    apply H2. exact I.
  Qed.
  Lemma wp_expect_keyword s (Q : token -> toks -> toks -> Prop) d t :
    (forall x t', t = x :: t' -> tok_wf x -> is_kw (gs s) x = true -> Q x (x :: d) t') ->
    wpr (expect_keyword s) Q d t.
  Proof.
    intros H3. unfold expect_keyword. apply wp_bind. apply wp_parse_keyword; intros; subst; cbn; auto.
  Qed.
  Lemma wp_kws_ok l (Q : bool -> toks -> toks -> Prop) d t :
    Q false d t ->
    (forall l1 t', List.length l1 = List.length l -> t = l1 ++ t' -> Q true (rev l1 ++ d) t') ->
    wpr (kws_ok l) Q d t.
  Proof.
    intros H1 H2. unfold kws_ok. apply wp_kws; [exact H1|]. intros l1 t' _ E1 E2. apply H2; auto.
    rewrite map_length in E1. exact E1.
  Qed.
  Lemma wp_kws_toks l (Q : option toks -> toks -> toks -> Prop) d t :
    Q None d t ->
    (forall l1 t', List.length l1 = List.length l -> t = l1 ++ t' -> Q (Some l1) (rev l1 ++ d) t') ->
    wpr (kws_toks l) Q d t.
  Proof.
    intros H1 H2. unfold kws_toks. apply wp_kws; [exact H1|]. intros l1 t' _ E1 E2. apply H2; auto.
    rewrite map_length in E1. exact E1.
  Qed.
  Lemma wp_consume k (Q : bool -> toks -> toks -> Prop) d t :
    Q false d t ->
    (forall x t', t = x :: t' -> tok_wf x -> is_kind k x = true -> Q true (x :: d) t') ->
    wpr (consume_token k) Q d t.
  Proof.
    intros H1 H2. destruct t as [|x t]; cbn; auto. intros Hx. destruct (is_kind k x) eqn:E; cbn; auto.
  Qed.
  Lemma wp_expect_token k (Q : unit -> toks -> toks -> Prop) d t :
    (forall x t', t = x :: t' -> tok_wf x -> is_kind k x = true -> Q tt (x :: d) t') ->
    wpr (expect_token k) Q d t.
  Proof.
    intros H1. unfold expect_token. apply wp_bind. apply wp_consume; cbn; auto.
  Qed.
  Lemma wp_next_kind k (Q : token -> toks -> toks -> Prop) d t :
    (forall x t', t = x :: t' -> tok_wf x -> is_kind k x = true -> Q x (x :: d) t') ->
    wpr (next_kind k) Q d t.
  Proof.
    intros H1. unfold next_kind. apply wp_bind, wp_next_nn. intros x t' -> Hx.
    destruct (is_kind k x) eqn:E; cbn; auto.
  Qed.
  Lemma is_kind_eq k x : is_kind k x = true -> tkind x = k.
  Proof. unfold is_kind. destruct (tkind x), k; cbn; congruence. Qed.
  Lemma wp_word_of x (Q : sqlword -> toks -> toks -> Prop) d t :
    tok_wf x -> (tkind x = SQLKeyword \/ pa PAssert) ->
    (forall w, tval x = VWord w -> wkeyword w = upper (wvalue w) -> Q w d t) -> wpr (word_of x) Q d t.
  Proof.
    unfold tok_wf, word_of. intros H1 H2 H3. destruct (tval x) as [w|s] eqn:E.
    - cbn. apply H3; auto. destruct (tkind x); contradiction || auto.
    - cbn. destruct H2 as [H2|H2]; [rewrite H2 in H1; contradiction|exact H2].
  Qed.
  Lemma wp_str_of x (Q : gostring -> toks -> toks -> Prop) d t :
    tok_wf x -> (tkind x <> SQLKeyword) ->
    (forall w, tval x = VStr w -> Q w d t) -> wpr (str_of x) Q d t.
  Proof.
    unfold tok_wf, str_of. intros H1 H2 H3. destruct (tval x) as [w|s] eqn:E; cbn; auto.
    destruct (tkind x); contradiction.
  Qed.
  Lemma wp_or_err {A} (o : option A) (Q : A -> toks -> toks -> Prop) d t :
    (forall a, o = Some a -> Q a d t) -> wpr (or_err o) Q d t.
  Proof. intros H. destruct o; cbn; auto. Qed.

  Record rspec (r : rec) (N : nat) : Prop := {
    rs_fuel : (N < r_fuel r)%nat;
    rs_query : forall t, (len t < N)%nat -> sp 1 (r_query r) t;
    rs_body : forall p t, (len t < N)%nat -> sp 1 (r_body r p) t;
    rs_subexpr : forall p t, (len t < N)%nat -> sp 1 (r_subexpr r p) t;
    rs_tref : forall t, (len t < N)%nat -> sp 1 (r_tref r) t }.

  Lemma wp_call_sp {A} k (p : prog A) (R : A -> toks -> toks -> Prop) d t :
    sp k p t ->
    (forall a d1 t', (k <= len d1)%nat -> t = rev d1 ++ t' -> R a (d1 ++ d) t') ->
    wpr p R d t.
  Proof. intros H. apply wp_call. exact H. Qed.

  Create HintDb tm.
  Ltac nlia :=
    repeat match goal with
    | H : @eq bool _ _ |- _ => clear H
    | H : @eq (list _) _ _ |- _ => clear H
    | H : @eq tvalue _ _ |- _ => clear H
    | H : @eq kind _ _ |- _ => clear H
    | H : tok_wf _ |- _ => clear H
    end; cbn [List.length] in *; lia.
  Hint Resolve rs_query rs_body rs_subexpr rs_tref : tm.
  Hint Extern 1 (_ < _)%nat => nlia : tm.
  Hint Extern 1 (_ <= _)%nat => nlia : tm.

  Ltac lens :=
    repeat match goal with
    | H : ?t = ?x :: ?t' |- _ => is_var t; subst t
    | H : ?x :: ?t = ?y :: ?t' |- _ => injection H as ? ?; try subst
    | H : ?t = rev ?d ++ ?t' |- _ =>
        let E := fresh "L" in
        assert (E : len t = (len d + len t')%nat) by (rewrite H, app_length, rev_length; reflexivity);
        revert H; intros _
    | H : ?t = ?d ++ ?t' |- _ =>
        let E := fresh "L" in
        assert (E : len t = (len d + len t')%nat) by (rewrite H, app_length; reflexivity);
        revert H; intros _
    end;
    cbn [List.length] in *; rewrite ?app_length, ?rev_length in *; cbn [List.length] in *.

  Ltac kinds :=
    repeat match goal with
    | H : is_kind _ _ = true |- _ => apply is_kind_eq in H
    | H : _ && _ = true |- _ => apply andb_prop in H; destruct H
    | H : negb (is_kind _ _) = false |- _ => apply negb_false_iff in H
    end.
  Ltac side := first [assumption | solve [kinds; first [assumption | left; assumption | congruence]] | lens; nlia].

  Ltac fin :=
    repeat match goal with
    | |- match ?x with _ => _ end => destruct x eqn:?
    | H : ?x = Some _ |- _ => is_var x; subst x
    | H : match match ?x with _ => _ end with _ => _ end = _ |- _ => destruct x eqn:?
    | H : match ?x with _ => _ end = inl _ |- _ => destruct x eqn:?; try discriminate H
    | H : match ?x with _ => _ end = inr _ |- _ => destruct x eqn:?; try discriminate H
    end; lens; repeat split; intros; first [assumption | discriminate | nlia | congruence | idtac].

  Ltac go1 :=
    lazymatch goal with
    | |- wp _ _ (bind _ _) _ _ _ => apply wp_bind
    | |- wp _ _ (Ret _) _ _ _ => cbn [wp]
    | |- wp _ _ Err _ _ _ => exact I
    | |- wp _ _ (Panic _) _ _ _ => cbn [wp]; solve [assumption]
    | |- wp _ _ next_nn _ _ _ => apply wp_next_nn; intros
    | |- wp _ _ next_err _ _ _ => apply wp_next_err; intros
    | |- wp _ _ must_next _ _ _ => apply wp_must_next; intros
    | |- wp _ _ peek_nn _ _ _ => apply wp_peek_nn; intros
    | |- wp _ _ peek _ _ _ => apply wp_peek; intros
    | |- wp _ _ (Next Ret) _ _ _ => apply wp_next_ret; intros
    | |- wp _ _ prev _ _ _ => apply wp_prev; [lens; nlia|intros]
    | |- wp _ _ (parse_keyword _) _ _ _ => apply wp_parse_keyword; intros
    | |- wp _ _ (kw_ok _) _ _ _ => apply wp_kw_ok; intros
    | |- wp _ _ (kw_tok _) _ _ _ => apply wp_kw_tok; intros
    | |- wp _ _ (expect_keyword _) _ _ _ => apply wp_expect_keyword; intros
    | |- wp _ _ (kws_ok _) _ _ _ => apply wp_kws_ok; intros
    | |- wp _ _ (kws_toks _) _ _ _ => apply wp_kws_toks; intros
    | |- wp _ _ (consume_token _) _ _ _ => apply wp_consume; intros
    | |- wp _ _ (expect_token _) _ _ _ => apply wp_expect_token; intros
    | |- wp _ _ (next_kind _) _ _ _ => apply wp_next_kind; intros
    | |- wp _ _ (word_of _) _ _ _ => apply wp_word_of; [side|side|intros]
    | |- wp _ _ (str_of _) _ _ _ => apply wp_str_of; [side|side|intros]
    | |- wp _ _ (or_err _) _ _ _ => apply wp_or_err; intros
    | |- wp _ _ (let _ := _ in _) _ _ _ => cbv zeta
    | |- wp _ _ (match ?x with _ => _ end) _ _ _ => destruct x eqn:?
    | |- wp _ _ (Next _) _ _ ?t => destruct t eqn:?; cbn [wp]; [|intros ?]
    | |- wp _ _ (Peek _) _ _ ?t => destruct t eqn:?; cbn [wp]; [|intros ?]
    | |- wp _ _ (loop _ _ _) _ _ _ => fail
    | |- wp _ _ _ _ _ _ => lens; first [eapply wp_call_sp; [solve [eauto with tm]|intros] | eapply wp_call; [solve [eauto with tm]|cbn beta; intros]]
    end.
  Ltac go := unfold sp; repeat (cbn beta; go1); try solve [fin].

  Lemma parse_identifier_sp t : sp 1 parse_identifier t.
  Proof. unfold parse_identifier. go. Qed.
  Hint Resolve parse_identifier_sp : tm.

  Lemma parse_list_of_ids_sp r N k t : rspec r N -> (len t <= N)%nat ->
    wpr (parse_list_of_ids r k) (fun o d' _ => match o with Some _ => (1 <= len d')%nat | None => True end) [] t.
  Proof.
    intros HR HN. unfold parse_list_of_ids.
    apply wp_loop with (Inv := fun s d _ => snd s = false -> (1 <= len d)%nat).
    - intros [acc ex] d t1 HI. cbn [snd] in *. go; destruct ex; fin; auto.
    - cbn. discriminate.
    - pose proof (rs_fuel _ _ HR). nlia.
  Qed.
  Hint Resolve parse_list_of_ids_sp : tm.

  Lemma parse_column_names_sp r N t : rspec r N -> (len t <= N)%nat -> sp 1 (parse_column_names r) t.
  Proof. intros HR HN. unfold parse_column_names. go. Qed.
  Hint Resolve parse_column_names_sp : tm.
  Lemma parse_object_name_sp r N t : rspec r N -> (len t <= N)%nat -> sp 1 (parse_object_name r) t.
  Proof. intros HR HN. unfold parse_object_name. go. Qed.
  Hint Resolve parse_object_name_sp : tm.
  Lemma parse_literal_int_sp t : sp 1 parse_literal_int t.
  Proof. unfold parse_literal_int. go. Qed.
  Hint Resolve parse_literal_int_sp : tm.
  Lemma parse_optional_precision_sp t : sp 0 parse_optional_precision t.
  Proof. unfold parse_optional_precision. go. Qed.
  Hint Resolve parse_optional_precision_sp : tm.
  Lemma parse_optional_precision_scale_sp t : sp 0 parse_optional_precision_scale t.
  Proof. unfold parse_optional_precision_scale. go. Qed.
  Hint Resolve parse_optional_precision_scale_sp : tm.
  Lemma parse_my_unsigned_sp t : sp 0 parse_my_unsigned t.
  Proof. unfold parse_my_unsigned. go. Qed.
  Hint Resolve parse_my_unsigned_sp : tm.
  Lemma parse_time_zone_sp t : sp 0 parse_time_zone t.
  Proof. unfold parse_time_zone. go. Qed.
  Hint Resolve parse_time_zone_sp : tm.
  Lemma parse_data_type_sp r N t : rspec r N -> (len t <= N)%nat -> sp 1 (parse_data_type r) t.
  Proof. intros HR HN. unfold parse_data_type. go. Qed.
  Hint Resolve parse_data_type_sp : tm.
  Lemma parse_expr_sp r N t : rspec r N -> (len t < N)%nat -> sp 1 (parse_expr r) t.
  Proof. intros HR HN. unfold parse_expr. eauto with tm. Qed.
  Hint Resolve parse_expr_sp : tm.
  Lemma parse_optional_alias_sp l t : sp 0 (parse_optional_alias l) t.
  Proof. unfold parse_optional_alias. go. Qed.
  Hint Resolve parse_optional_alias_sp : tm.

  (** A loop whose every round reads at least one token. *)
  Ltac inv HR I := apply wp_loop with (Inv := I);
    [|cbn; lens; repeat split; intros; first [nlia | discriminate | idtac]|pose proof (rs_fuel _ _ HR); lens; nlia].

  Lemma parse_expr_list_sp r N t : rspec r N -> (len t < N)%nat -> sp 1 (parse_expr_list r) t.
  Proof.
    intros HR HN. unfold parse_expr_list, sp.
    inv HR (fun (_ : list node) (_ t1 : toks) => (len t1 < N)%nat).
    intros acc d t1 HI. go.
  Qed.
  Hint Resolve parse_expr_list_sp : tm.
  Lemma parse_optional_args_sp r N t : rspec r N -> (len t < N)%nat -> sp 0 (parse_optional_args r) t.
  Proof. intros HR HN. unfold parse_optional_args. go. Qed.
  Hint Resolve parse_optional_args_sp : tm.
  Lemma parse_order_by_list_sp r N t : rspec r N -> (len t < N)%nat -> sp 1 (parse_order_by_list r) t.
  Proof.
    intros HR HN. unfold parse_order_by_list, sp.
    inv HR (fun (_ : list orderby) (_ t1 : toks) => (len t1 < N)%nat).
    intros acc d t1 HI. go.
  Qed.
  Hint Resolve parse_order_by_list_sp : tm.
  Lemma parse_window_frame_bound_sp t : sp 1 parse_window_frame_bound t.
  Proof. unfold parse_window_frame_bound. go. Qed.
  Hint Resolve parse_window_frame_bound_sp : tm.
  Lemma parse_window_frame_sp t : sp 1 parse_window_frame t.
  Proof. unfold parse_window_frame. go. Qed.
  Hint Resolve parse_window_frame_sp : tm.
  Lemma parse_function_sp r N n t : rspec r N -> (len t <= N)%nat -> sp 1 (parse_function r n) t.
  Proof. intros HR HN. unfold parse_function. go. Qed.
  Hint Resolve parse_function_sp : tm.
  Lemma parse_value_sp t : sp 1 parse_value t.
  Proof. unfold parse_value. go. Qed.
  Hint Resolve parse_value_sp : tm.
  Lemma parse_case_sp r N t : rspec r N -> (len t <= N)%nat -> sp 1 (parse_case r) t.
  Proof.
    intros HR HN. unfold parse_case. go.
    all: inv HR (fun (_ : list (node * node)) (d t1 : toks) => (1 <= len d)%nat /\ (len t1 < N)%nat).
    all: intros acc d' t1 [HI1 HI2]; go.
  Qed.
  Hint Resolve parse_case_sp : tm.
  Lemma parse_cast_sp r N t : rspec r N -> (len t <= N)%nat -> sp 1 (parse_cast r) t.
  Proof. intros HR HN. unfold parse_cast. go. Qed.
  Hint Resolve parse_cast_sp : tm.
  Lemma parse_exists_sp r N o t : rspec r N -> (len t <= N)%nat -> sp 1 (parse_exists r o) t.
  Proof. intros HR HN. unfold parse_exists. go. Qed.
  Hint Resolve parse_exists_sp : tm.
  Lemma wp_get_precedence x (Q : Z -> toks -> toks -> Prop) d t :
    tok_wf x -> (forall p, Q p d t) -> wpr (get_precedence x) Q d t.
  Proof. intros H HQ. unfold get_precedence. go; apply HQ. Qed.
  Lemma get_next_precedence_sp t :
    wpr get_next_precedence (fun p d' _ => d' = [] /\ (p <= 0 \/ (1 <= len t)%nat)) [] t.
  Proof.
    unfold get_next_precedence. apply wp_bind, wp_peek.
    - intros ->. cbn. split; [reflexivity|left; lia].
    - intros x t' -> Hx. apply wp_get_precedence; [assumption|]. intros p. split; [reflexivity|].
      right. cbn. lia.
  Qed.
  Hint Resolve get_next_precedence_sp : tm.
  Lemma parse_in_sp r N e b t : rspec r N -> (len t <= N)%nat -> sp 1 (parse_in r e b) t.
  Proof. intros HR HN. unfold parse_in. go. Qed.
  Hint Resolve parse_in_sp : tm.
  Lemma parse_dotted_sp r N i t : rspec r N -> (len t <= N)%nat -> sp 0 (parse_dotted r i) t.
  Proof.
    intros HR HN. unfold parse_dotted, sp.
    inv HR (fun (_ : list ident) (_ t1 : toks) => True).
    intros acc d t1 HI. go.
  Qed.
  Hint Resolve parse_dotted_sp : tm.
  Lemma parse_prefix_sp r N t : rspec r N -> (len t <= N)%nat -> sp 1 (parse_prefix r) t.
  Proof. intros HR HN. unfold parse_prefix. go. Qed.
  Hint Resolve parse_prefix_sp : tm.
  Lemma parse_between_sp r N e b t : rspec r N -> (len t <= N)%nat -> sp 1 (parse_between r e b) t.
  Proof. intros HR HN. unfold parse_between. go. Qed.
  Hint Resolve parse_between_sp : tm.
  Lemma wp_infix_operator x t : tok_wf x -> sp 0 (infix_operator x) t.
  Proof. intros H. unfold infix_operator. go. Qed.
  Hint Resolve wp_infix_operator : tm.
  Lemma parse_infix_sp r N e p t : rspec r N -> (len t <= N)%nat -> sp 1 (parse_infix r e p) t.
  Proof. intros HR HN. unfold parse_infix. go. Qed.
  Hint Resolve parse_infix_sp : tm.
  Lemma infix_loop_sp r N e p t : rspec r N -> (len t <= N)%nat -> sp 0 (infix_loop r p e) t.
  Proof.
    intros HR HN. unfold infix_loop, sp.
    inv HR (fun (_ : node) (_ t1 : toks) => (len t1 <= N)%nat).
    intros acc d t1 HI. go.
  Qed.
  Hint Resolve infix_loop_sp : tm.
  Lemma parse_subexpr_sp r N p t : rspec r N -> (len t <= N)%nat -> sp 1 (parse_subexpr r p) t.
  Proof. intros HR HN. unfold parse_subexpr. go. Qed.
  Hint Resolve parse_subexpr_sp : tm.
  Lemma parse_default_expr_sp r N t : rspec r N -> (len t <= N)%nat -> sp 1 (parse_default_expr r) t.
  Proof.
    intros HR HN. unfold parse_default_expr. go.
    inv HR (fun (_ : node) (d t1 : toks) => (1 <= len d)%nat /\ (len t1 <= N)%nat).
    intros acc d t1 [HI1 HI2]. go.
  Qed.
  Hint Resolve parse_default_expr_sp : tm.

  (** *** Queries *)
  Lemma parse_limit_sp t : sp 1 parse_limit t.
  Proof. unfold parse_limit. go. Qed.
  Hint Resolve parse_limit_sp : tm.
  Lemma parse_table_factor_sp r N t : rspec r N -> (len t <= N)%nat -> sp 1 (parse_table_factor r) t.
  Proof. intros HR HN. unfold parse_table_factor. go. Qed.
  Hint Resolve parse_table_factor_sp : tm.
  Lemma parse_join_type_sp t : sp 0 parse_join_type t.
  Proof. unfold parse_join_type. go. Qed.
  Hint Resolve parse_join_type_sp : tm.
  Lemma parse_join_spec_sp r N t : rspec r N -> (len t <= N)%nat -> sp 1 (parse_join_spec r) t.
  Proof. intros HR HN. unfold parse_join_spec. go. Qed.
  Hint Resolve parse_join_spec_sp : tm.
  Lemma parse_table_reference_right_sp r N t : rspec r N -> (len t <= N)%nat ->
    wpr (parse_table_reference_right r)
      (fun o d' _ => match o with Some _ => (1 <= len d')%nat | None => True end) [] t.
  Proof. intros HR HN. unfold parse_table_reference_right. go. Qed.
  Hint Resolve parse_table_reference_right_sp : tm.
  Lemma parse_table_reference_sp r N t : rspec r N -> (len t <= N)%nat -> sp 1 (parse_table_reference r) t.
  Proof.
    intros HR HN. unfold parse_table_reference. go.
    inv HR (fun (_ : tableref) (d t1 : toks) => (1 <= len d)%nat /\ (len t1 <= N)%nat).
    intros acc d t1 [HI1 HI2]. go.
  Qed.
  Hint Resolve parse_table_reference_sp : tm.
  Lemma parse_from_clause_sp r N t : rspec r N -> (len t < N)%nat -> sp 1 (parse_from_clause r) t.
  Proof.
    intros HR HN. unfold parse_from_clause. go.
    inv HR (fun (_ : list tableref) (d t1 : toks) => (1 <= len d)%nat /\ (len t1 <= N)%nat).
    intros acc d t1 [HI1 HI2]. go.
  Qed.
  Hint Resolve parse_from_clause_sp : tm.
  Lemma parse_select_list_sp r N t : rspec r N -> (len t < N)%nat -> sp 1 (parse_select_list r) t.
  Proof.
    intros HR HN. unfold parse_select_list, sp.
    inv HR (fun (_ : list selitem) (d t1 : toks) => (len t1 < N)%nat).
    intros acc d t1 HI. go.
  Qed.
  Hint Resolve parse_select_list_sp : tm.
  Lemma parse_select_sp r N p t : rspec r N -> (len t < N)%nat -> sp 1 (parse_select r p) t.
  Proof. intros HR HN. unfold parse_select. go. Qed.
  Hint Resolve parse_select_sp : tm.
  Lemma parse_set_operator_sp o t : (forall x, o = Some x -> tok_wf x) ->
    wpr (parse_set_operator o) (fun op d' _ => d' = []) [] t.
  Proof. intros H. destruct o as [x|]; [specialize (H x eq_refl)|]; unfold parse_set_operator; go; auto. Qed.
  Lemma body_loop_sp r N p e t : rspec r N -> (len t <= N)%nat -> sp 0 (body_loop r p e) t.
  Proof.
    intros HR HN. unfold body_loop, sp.
    inv HR (fun (_ : setexpr) (d t1 : toks) => (len t1 <= N)%nat).
    intros acc d t1 HI. apply wp_bind, wp_peek.
    - intros ->. cbn. apply Nat.le_0_l.
    - intros x t' -> Hx. apply wp_bind. eapply wp_call.
      + apply parse_set_operator_sp. intros y [= <-]. exact Hx.
      + cbn beta. intros op d1 t2 -> E. cbn in E. subst t2. go.
  Qed.
  Hint Resolve body_loop_sp : tm.
  Lemma parse_query_body_sp r N p t : rspec r N -> (len t <= N)%nat -> sp 1 (parse_query_body r p) t.
  Proof. intros HR HN. unfold parse_query_body. go. Qed.
  Hint Resolve parse_query_body_sp : tm.
  Lemma parse_cte_list_sp r N t : rspec r N -> (len t <= N)%nat -> sp 1 (parse_cte_list r) t.
  Proof.
    intros HR HN. unfold parse_cte_list, sp.
    inv HR (fun (_ : list cte) (d t1 : toks) => (len t1 <= N)%nat).
    intros acc d t1 HI. go.
  Qed.
  Hint Resolve parse_cte_list_sp : tm.
  Lemma parse_query_sp r N t : rspec r N -> (len t <= N)%nat -> sp 1 (parse_query r) t.
  Proof. intros HR HN. unfold parse_query. go. Qed.
  Hint Resolve parse_query_sp : tm.

  Lemma knot_rspec n : rspec (knot (S n)) n.
  Proof.
    induction n as [|n IH].
    - constructor; [cbn; lia| | | |]; intros; exfalso; eapply Nat.nlt_0_r; eassumption.
    - constructor; [cbn [knot r_fuel]; lia| | | |]; intros;
        cbn [knot r_fuel r_stmt r_query r_body r_subexpr r_tref];
        change (mkRec _ _ _ _ _ _) with (knot (S n)); eauto with tm.
  Qed.

  (** *** Statements without column definitions *)
  Lemma parse_delete_sp r N t : rspec r N -> (len t <= N)%nat -> sp 1 (parse_delete r) t.
  Proof. intros HR HN. unfold parse_delete. go. Qed.
  Hint Resolve parse_delete_sp : tm.
  Lemma parse_assignments_sp r N t : rspec r N -> (len t <= N)%nat -> sp 1 (parse_assignments r) t.
  Proof.
    intros HR HN. unfold parse_assignments, sp.
    inv HR (fun (_ : list assignment) (d t1 : toks) => (len t1 <= N)%nat).
    intros acc d t1 HI. go.
  Qed.
  Hint Resolve parse_assignments_sp : tm.
  Lemma parse_update_sp r N t : rspec r N -> (len t <= N)%nat -> sp 1 (parse_update r) t.
  Proof. intros HR HN. unfold parse_update. go. Qed.
  Hint Resolve parse_update_sp : tm.
  Lemma parse_rows_sp r N t : rspec r N -> (len t <= N)%nat -> sp 1 (parse_rows r) t.
  Proof.
    intros HR HN. unfold parse_rows, sp.
    inv HR (fun (_ : list rowvalue) (d t1 : toks) => (len t1 <= N)%nat).
    intros acc d t1 HI. go.
  Qed.
  Hint Resolve parse_rows_sp : tm.
  Lemma parse_insert_sp r N t : rspec r N -> (len t <= N)%nat -> sp 1 (parse_insert r) t.
  Proof. intros HR HN. unfold parse_insert. go. Qed.
  Hint Resolve parse_insert_sp : tm.
  Lemma parse_cascade_sp t : sp 0 parse_cascade t.
  Proof. unfold parse_cascade. go. Qed.
  Hint Resolve parse_cascade_sp : tm.
  Lemma parse_drop_sp r N t : rspec r N -> (len t <= N)%nat -> sp 1 (parse_drop r) t.
  Proof. intros HR HN. unfold parse_drop. go. Qed.
  Hint Resolve parse_drop_sp : tm.
  Lemma parse_create_view_sp r N c t : rspec r N -> (len t <= N)%nat -> sp 1 (parse_create_view r c) t.
  Proof. intros HR HN. unfold parse_create_view. go. Qed.
  Hint Resolve parse_create_view_sp : tm.
  Lemma parse_create_index_sp r N b t : rspec r N -> (len t <= N)%nat -> sp 1 (parse_create_index r b) t.
  Proof. intros HR HN. unfold parse_create_index. go. Qed.
  Hint Resolve parse_create_index_sp : tm.
  Lemma parse_option_value_sp t : sp 1 parse_option_value t.
  Proof. unfold parse_option_value. go. Qed.
  Hint Resolve parse_option_value_sp : tm.
  Lemma parse_table_option_sp t : sp 1 parse_table_option t.
  Proof. unfold parse_table_option. go. Qed.
  Hint Resolve parse_table_option_sp : tm.
  Lemma parse_table_options_sp r N t : rspec r N -> (len t <= N)%nat -> sp 0 (parse_table_options r) t.
  Proof.
    intros HR HN. unfold parse_table_options, sp.
    inv HR (fun (_ : list tableoption) (d t1 : toks) => True).
    intros acc d t1 HI. go.
  Qed.
  Hint Resolve parse_table_options_sp : tm.

  (** Statements other than CREATE, ALTER and EXPLAIN. *)
  Definition assert_free_head (t : toks) : Prop :=
    match t with
    | x :: _ => match tval x with
                | VWord w => kw w "CREATE" || kw w "ALTER" || kw w "EXPLAIN" = false
                | VStr _ => True
                end
    | [] => True
    end.
  Lemma parse_statement_plain_sp r N t : rspec r N -> (len t <= N)%nat ->
    assert_free_head t -> sp 1 (parse_statement r) t.
  Proof.
    intros HR HN HH. unfold parse_statement, assert_free_head in *. go.
    all: subst; repeat match goal with E : tval _ = _ |- _ => rewrite E in HH end;
      rewrite !orb_false_iff in HH; destruct HH as [[? ?] ?]; congruence.
  Qed.

  (** *** Column definitions: a failed assertion is possible *)
  Hypothesis paA : pa PAssert.
  Ltac side ::= first [assumption | right; assumption
                      | solve [kinds; first [assumption | left; assumption | congruence]] | lens; nlia].

  Lemma parse_table_constraints_sp r N t : rspec r N -> (len t <= N)%nat -> sp 1 (parse_table_constraints r) t.
  Proof. intros HR HN. unfold parse_table_constraints. go. Qed.
  Hint Resolve parse_table_constraints_sp : tm.
  Lemma parse_column_spec_sp r N x w t : rspec r N -> (len t <= N)%nat ->
    wpr (parse_column_spec r x w)
      (fun o d' _ => match o with
                     | Some _ => (1 <= len d')%nat
                     | None => kw w "NOT" || kw w "UNIQUE" || kw w "PRIMARY" || kw w "REFERENCES"
                               || kw w "CHECK" = false /\ d' = []
                     end) [] t.
  Proof.
    intros HR HN. unfold parse_column_spec. go.
  Qed.
  Hint Resolve parse_column_spec_sp : tm.

  Definition head_kw (l : list string) (t : toks) : Prop :=
    exists x t' w, t = x :: t' /\ tkind x = SQLKeyword /\ tval x = VWord w /\ existsb (kw w) l = true.

  Lemma parse_column_constraints_sp r N t : rspec r N -> (len t <= N)%nat ->
    wpr (parse_column_constraints r)
      (fun _ d' _ => head_kw ["CONSTRAINT"; "NOT"; "UNIQUE"; "PRIMARY"; "REFERENCES"; "CHECK"]%string t ->
                     (1 <= len d')%nat) [] t.
  Proof.
    intros HR HN. unfold parse_column_constraints.
    apply wp_loop with (Inv := fun (_ : list colconstraint) (d t1 : toks) =>
      (len t1 <= N)%nat /\ ((d = [] /\ t1 = t) \/ (1 <= len d)%nat)); [|auto|pose proof (rs_fuel _ _ HR); lia].
    intros acc d t1 [HI1 HI2]. go.
    all: try solve [lens; intros; destruct HI2 as [[-> ->]|HI2]; [|lia];
                    match goal with H : head_kw _ _ |- _ => destruct H as (? & ? & ? & ? & ?) end; congruence].
    - intros (y & t2 & w & E1 & E2 & E3 & E4). destruct HI2 as [[-> ->]|HI2]; [exfalso|exact HI2].
      assert (y = x0) by congruence. subst y. unfold is_kind in Heqb0. rewrite E2 in Heqb0. discriminate.
    - destruct a as [spec|].
      + lens. repeat split; [nlia|right; nlia|nlia].
      + match goal with H : _ /\ d1 = [] |- _ => destruct H as [H5 ->] end. intros (y & t2 & w' & E1 & E2 & E3 & E4).
        destruct HI2 as [[-> HI2]|HI2]; [exfalso|cbn; exact HI2].
        assert (y = x0) by congruence. subst y.
        rewrite H3 in E3. injection E3 as <-. rewrite H3 in Heqb. cbn in E4.
        rewrite Heqb in E4. rewrite !orb_assoc, orb_false_r in E4. cbn [orb] in E4. congruence.
  Qed.
  Hint Resolve parse_column_constraints_sp : tm.

  Lemma default_kw x w : tok_wf x -> tval x = VWord w -> kw w "DEFAULT" = true ->
    is_kw (gs "DEFAULT") x = true.
  Proof.
    unfold tok_wf, is_kw, kw. intros H1 H2 H3. rewrite H2 in *.
    assert (E : wkeyword w = upper (wvalue w)) by (destruct (tkind x); contradiction || exact H1).
    apply gs_eqb_eq in H3. rewrite E in H3. clear - H3.
    assert (G : forall a b, (forall c, In c b -> c <> 73 /\ c <> 83 /\ 65 <= c <= 90) ->
                upper a = b -> equal_fold a b = true).
    { induction a as [|c a IH]; intros [|c' b] HB E; try discriminate; [reflexivity|].
      cbn in E. injection E as E1 E2. cbn. rewrite IH; auto.
      2:{ intros; apply HB; right; assumption. }
      rewrite andb_true_r. apply Z.eqb_eq. destruct (HB c' (or_introl eq_refl)) as (N1 & N2 & N3).
      unfold to_upper, fold1 in *.
      destruct ((97 <=? c) && (c <=? 122)) eqn:B1.
      - replace ((97 <=? c') && (c' <=? 122)) with false by lia.
        replace (c' =? 383) with false by lia. replace (c' =? 8490) with false by lia. exact E1.
      - destruct (c =? 305) eqn:B2; [lia|]. destruct (c =? 383) eqn:B3; [lia|]. subst c'.
        replace (c =? 8490) with false by lia. rewrite B1, B3. reflexivity. }
    apply G; [|exact H3]. cbn. intros c Hc. lia.
  Qed.

  Lemma parse_column_definition_sp r N t : rspec r N -> (len t <= N)%nat -> sp 0 (parse_column_definition r) t.
  Proof.
    intros HR HN. unfold parse_column_definition, sp.
    apply wp_loop with (Inv := fun s (d t1 : toks) => (len t1 <= N)%nat); [|auto|pose proof (rs_fuel _ _ HR); lia].
    intros [[def specs] decs] d t1 HI. go.
    - subst. exfalso. cbn [kwno] in H3. rewrite (default_kw _ _ H0 H1 Heqb0) in H3. discriminate.
    - assert (Hh : head_kw ["CONSTRAINT"; "NOT"; "UNIQUE"; "PRIMARY"; "REFERENCES"; "CHECK"]%string (x :: t')).
      { exists x, t', w. repeat split; auto.
        - kinds. assumption.
        - cbn [existsb]. rewrite orb_false_r, !orb_assoc. assumption. }
      match goal with H : head_kw _ _ -> _ |- _ => specialize (H Hh) end. fin.
  Qed.
  Hint Resolve parse_column_definition_sp : tm.
  Lemma parse_column_def_sp r N t : rspec r N -> (len t <= N)%nat -> sp 1 (parse_column_def r) t.
  Proof. intros HR HN. unfold parse_column_def. go. Qed.
  Hint Resolve parse_column_def_sp : tm.
  Lemma parse_elements_sp r N t : rspec r N -> (len t <= N)%nat -> sp 0 (parse_elements r) t.
  Proof.
    intros HR HN. unfold parse_elements. go.
    inv HR (fun (_ : list tableelement) (d t1 : toks) => (len t1 <= N)%nat).
    intros acc d t1 HI. go.
  Qed.
  Hint Resolve parse_elements_sp : tm.
  Lemma parse_create_table_sp r N c t : rspec r N -> (len t <= N)%nat -> sp 1 (parse_create_table r c) t.
  Proof. intros HR HN. unfold parse_create_table. go. Qed.
  Hint Resolve parse_create_table_sp : tm.
  Lemma parse_create_sp r N t : rspec r N -> (len t <= N)%nat -> sp 1 (parse_create r) t.
  Proof. intros HR HN. unfold parse_create. go. Qed.
  Hint Resolve parse_create_sp : tm.
  Lemma parse_alter_column_sp r N a t : rspec r N -> (len t <= N)%nat -> sp 1 (parse_alter_column r a) t.
  Proof. intros HR HN. unfold parse_alter_column. go. Qed.
  Hint Resolve parse_alter_column_sp : tm.
  Lemma parse_alter_sp r N t : rspec r N -> (len t <= N)%nat -> sp 1 (parse_alter r) t.
  Proof. intros HR HN. unfold parse_alter. go. Qed.
  Hint Resolve parse_alter_sp : tm.

  Definition sspec (r : rec) (N : nat) : Prop := forall t, (len t < N)%nat -> sp 1 (r_stmt r) t.
  Lemma parse_statement_sp r N t : rspec r N -> sspec r N -> (len t <= N)%nat -> sp 1 (parse_statement r) t.
  Proof. intros HR HS HN. unfold parse_statement. unfold sspec in HS. go. Qed.
  Hint Resolve parse_statement_sp : tm.
  Lemma knot_sspec n : sspec (knot (S n)) n.
  Proof.
    induction n as [|n IH]; intros t Ht; [exfalso; eapply Nat.nlt_0_r; eassumption|].
    cbn [knot r_stmt]. change (mkRec _ _ _ _ _ _) with (knot (S n)).
    eapply parse_statement_sp; [apply knot_rspec|exact IH|lia].
  Qed.
  Lemma parse_sql_sp pc n t : (len t <= n)%nat -> sp 0 (parse_sql pc (knot (S n))) t.
  Proof.
    intros HN. pose proof (knot_rspec n) as HR. pose proof (knot_sspec n) as HS.
    remember (knot (S n)) as r. unfold parse_sql, sp.
    inv HR (fun (_ : list stmt * bool) (d t1 : toks) => (len t1 <= n)%nat).
    intros [acc ex] d t1 HI. go.
  Qed.
End Term.
