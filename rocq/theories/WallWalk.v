(** A semicolon is a wall: one walk over the parser.  No call reads on behind a
    semicolon: after reading one it puts it back or fails. *)
From Coq Require Import ZArith List Bool String.
From Verif Require Import Base Dialect Token Lexer AST Num Prog Parser ParseSpec Wp Term LexFacts.
Import ListNotations.
Open Scope Z_scope.

Section Wall.
  Variables (sv : gostring) (sf se : pos).
  Definition wtok : token := mkTok Semicolon (VStr sv) sf se.

  (** A run on [t], the semicolon, and tokens that must not be looked at;
      [b]: the semicolon has been read. *)
  Fixpoint wd {A} (p : prog A) (Q : A -> toks -> toks -> bool -> Prop) (d t : toks) (b : bool) : Prop :=
    match p with
    | Ret a => Q a d t b
    | Err | Panic _ | Fuel => True
    | Next k =>
        if b then False
        else match t with [] => wd (k (Some wtok)) Q d [] true | x :: t' => wd (k (Some x)) Q (x :: d) t' false end
    | Peek k =>
        if b then False
        else match t with [] => wd (k (Some wtok)) Q d [] false | x :: t' => wd (k (Some x)) Q d (x :: t') false end
    | Prev k =>
        if b then wd k Q d [] false else match d with [] => True | x :: d' => wd k Q d' (x :: t) false end
    | Kws ks k =>
        if b then False
        else match kws_match ks t with
             | Some l => wd (k (Some l)) Q (rev l ++ d) (skipn (List.length l) t) false
             | None => wd (k None) Q d t false
             end
    end.
  Notation post A := (A -> toks -> toks -> bool -> Prop).

  Lemma wd_conseq {A} (p : prog A) (Q Q' : post A) : forall d t b,
    wd p Q d t b -> (forall a d' t' b', Q a d' t' b' -> Q' a d' t' b') -> wd p Q' d t b.
  Proof.
    induction p as [a| |w| |k IH|k IH|k IH|ks k IH]; intros d t b H HQ; cbn [wd] in *; auto.
    - destruct b; [auto|]. destruct t; eapply IH; eauto.
    - destruct b; [auto|]. destruct t; eapply IH; eauto.
    - destruct b; [eapply IH; eauto|]. destruct d; [auto|]. eapply IH; eauto.
    - destruct b; [auto|]. destruct (kws_match ks t); eapply IH; eauto.
  Qed.
  Lemma wd_bind {A B} (p : prog A) (f : A -> prog B) Q : forall d t b,
    wd p (fun a d' t' b' => wd (f a) Q d' t' b') d t b -> wd (bind p f) Q d t b.
  Proof.
    induction p as [a| |w| |k IH|k IH|k IH|ks k IH]; intros d t b H; cbn [wd bind] in *; auto.
    - destruct b; [auto|]. destruct t; auto.
    - destruct b; [auto|]. destruct t; auto.
    - destruct b; [auto|]. destruct d; auto.
    - destruct b; [auto|]. destruct (kws_match ks t); auto.
  Qed.
  Definition wall {A} (p : prog A) : Prop := forall d t, wd p (fun _ _ _ b => b = false) d t false.
  Lemma wd_call {A} (p : prog A) (R : post A) d t :
    wall p -> (forall a d' t', R a d' t' false) -> wd p R d t false.
  Proof. intros H HR. eapply wd_conseq; [apply H|]. cbn. intros a d' t' b' ->. apply HR. Qed.
  Lemma wall_loop {S A} (body : S -> prog (S + A)) :
    (forall s, wall (body s)) -> forall n s, wall (loop n body s).
  Proof.
    intros Hb. induction n as [|n IH]; intros s d t; [exact I|]. cbn [loop]. apply wd_bind, wd_call; [apply Hb|].
    intros [s'|a] d' t'; [apply IH|reflexivity].
  Qed.

  Lemma wd_next {A} (k : option token -> prog A) (Q : post A) d t :
    (t = [] -> wd (k (Some wtok)) Q d [] true) ->
    (forall x t', t = x :: t' -> wd (k (Some x)) Q (x :: d) t' false) -> wd (Next k) Q d t false.
  Proof. intros H1 H2. destruct t; cbn [wd]; auto. Qed.
  Lemma wd_next_nn (Q : post token) d t :
    (t = [] -> Q wtok d [] true) -> (forall x t', t = x :: t' -> Q x (x :: d) t' false) -> wd next_nn Q d t false.
  Proof. intros H1 H2. destruct t; cbn; auto. Qed.
  Lemma wd_next_err (Q : post token) d t :
    (t = [] -> Q wtok d [] true) -> (forall x t', t = x :: t' -> Q x (x :: d) t' false) -> wd next_err Q d t false.
  Proof. intros H1 H2. destruct t; cbn; auto. Qed.
  Lemma wd_must_next (Q : post token) d t :
    (t = [] -> Q wtok d [] true) -> (forall x t', t = x :: t' -> Q x (x :: d) t' false) -> wd must_next Q d t false.
  Proof. intros H1 H2. destruct t; cbn; auto. Qed.
  Lemma wd_peek_nn (Q : post token) d t :
    (t = [] -> Q wtok d [] false) -> (forall x t', t = x :: t' -> Q x d (x :: t') false) -> wd peek_nn Q d t false.
  Proof. intros H1 H2. destruct t; cbn; auto. Qed.
  Lemma wd_peek (Q : post (option token)) d t :
    (t = [] -> Q (Some wtok) d [] false) -> (forall x t', t = x :: t' -> Q (Some x) d (x :: t') false) -> wd peek Q d t false.
  Proof. intros H1 H2. destruct t; cbn; auto. Qed.
  Lemma wd_prev (Q : post unit) d t : (forall x d', d = x :: d' -> Q tt d' (x :: t) false) -> wd prev Q d t false.
  Proof. intros H. destruct d; cbn; auto. Qed.
  Lemma wd_prev_past (Q : post unit) d : Q tt d [] false -> wd prev Q d [] true.
  Proof. intros H. exact H. Qed.
  Lemma wd_parse_keyword s (Q : post kwres) d t :
    (t = [] -> Q (KwNo wtok) d [] false) ->
    (forall x t', t = x :: t' -> Q (KwNo x) d (x :: t') false) ->
    (forall x t', t = x :: t' -> Q (KwYes x) (x :: d) t' false) -> wd (parse_keyword s) Q d t false.
  Proof. intros H1 H2 H3. destruct t as [|x t]; cbn; [auto|]. destruct (is_kw (gs s) x); cbn; auto. Qed.
  Lemma wd_kw_ok s (Q : post bool) d t :
    Q false d t false -> (forall x t', t = x :: t' -> Q true (x :: d) t' false) -> wd (kw_ok s) Q d t false.
  Proof. intros H2 H3. unfold kw_ok. apply wd_bind, wd_parse_keyword; intros; subst; cbn; auto. Qed.
  Lemma wd_kw_tok s (Q : post (option token)) d t :
    Q None d t false -> (forall x t', t = x :: t' -> Q (Some x) (x :: d) t' false) -> wd (kw_tok s) Q d t false.
  Proof. intros H2 H3. unfold kw_tok. apply wd_bind, wd_parse_keyword; intros; subst; cbn; auto. Qed.
  Lemma wd_expect_keyword s (Q : post token) d t :
    (forall x t', t = x :: t' -> Q x (x :: d) t' false) -> wd (expect_keyword s) Q d t false.
  Proof. intros H3. unfold expect_keyword. apply wd_bind, wd_parse_keyword; intros; subst; cbn; auto. Qed.
  Lemma wd_kws_ok l (Q : post bool) d t :
    Q false d t false -> (forall d' t', Q true d' t' false) -> wd (kws_ok l) Q d t false.
  Proof. intros H1 H2. unfold kws_ok. cbn [wd]. destruct (kws_match (map gs l) t); cbn; auto. Qed.
  Lemma wd_kws_toks l (Q : post (option toks)) d t :
    Q None d t false -> (forall l1 d' t', Q (Some l1) d' t' false) -> wd (kws_toks l) Q d t false.
  Proof. intros H1 H2. unfold kws_toks. cbn [wd]. destruct (kws_match (map gs l) t); cbn; auto. Qed.
  Lemma wd_consume k (Q : post bool) d t : kind_eqb Semicolon k = false ->
    Q false d t false -> (forall x t', t = x :: t' -> is_kind k x = true -> Q true (x :: d) t' false) -> wd (consume_token k) Q d t false.
  Proof.
    intros K H1 H2. assert (K' : is_kind k wtok = false) by exact K. unfold consume_token. destruct t as [|x t]; cbn [wd].
    - rewrite K'. exact H1.
    - destruct (is_kind k x) eqn:E; cbn [wd]; auto.
  Qed.
  Lemma wd_expect_token k (Q : post unit) d t : kind_eqb Semicolon k = false ->
    (forall x t', t = x :: t' -> is_kind k x = true -> Q tt (x :: d) t' false) -> wd (expect_token k) Q d t false.
  Proof. intros K H1. unfold expect_token. apply wd_bind, wd_consume; cbn; auto. Qed.
  Lemma wd_next_kind k (Q : post token) d t : kind_eqb Semicolon k = false ->
    (forall x t', t = x :: t' -> is_kind k x = true -> Q x (x :: d) t' false) -> wd (next_kind k) Q d t false.
  Proof.
    intros K H1. assert (K' : is_kind k wtok = false) by exact K. unfold next_kind. apply wd_bind, wd_next_nn.
    - intros ->. rewrite K'. exact I.
    - intros x t' ->. destruct (is_kind k x) eqn:E; cbn; auto.
  Qed.
  Lemma wd_word_of x (Q : post sqlword) d t b : (forall w, tval x = VWord w -> Q w d t b) -> wd (word_of x) Q d t b.
  Proof. unfold word_of. intros H3. destruct (tval x) as [w|s] eqn:E; cbn; auto. Qed.
  Lemma wd_str_of x (Q : post gostring) d t b : (forall w, tval x = VStr w -> Q w d t b) -> wd (str_of x) Q d t b.
  Proof. unfold str_of. intros H3. destruct (tval x) as [w|s] eqn:E; cbn; auto. Qed.
  Lemma wd_or_err {A} (o : option A) (Q : post A) d t b : (forall a, o = Some a -> Q a d t b) -> wd (or_err o) Q d t b.
  Proof. intros H. destruct o; cbn; auto. Qed.

  Record rw (r : rec) : Prop := {
    rc_query : wall (r_query r);
    rc_body : forall p, wall (r_body r p);
    rc_subexpr : forall p, wall (r_subexpr r p);
    rc_tref : wall (r_tref r) }.

  Create HintDb wa.
  Hint Resolve rc_query rc_body rc_subexpr rc_tref : wa.
  Ltac sub := repeat match goal with
    | H : ?t = _ :: _ |- _ => is_var t; subst t
    | H : ?t = [] |- _ => is_var t; subst t
    | H : _ :: _ = _ :: _ |- _ => injection H as ? ?; try subst
    | H : [] = _ :: _ |- _ => discriminate H
    | H : _ :: _ = [] |- _ => discriminate H
    | H : VWord _ = VWord _ |- _ => injection H as ?; try subst
    | H : tval wtok = VWord _ |- _ => discriminate H
    end.
  Ltac red_w := cbn [wtok is_kind is_kw tkind tval kind_eqb andb orb negb].
  Ltac sub_match :=
    match goal with
    | |- context [is_kind ?k wtok] =>
        let v := eval vm_compute in (kind_eqb Semicolon k) in change (is_kind k wtok) with v
    | |- context [is_kw ?k wtok] => change (is_kw k wtok) with false
    | |- context [tkind wtok] => change (tkind wtok) with Semicolon
    | |- context [tval wtok] => change (tval wtok) with (VStr sv)
    end.
  Ltac go1 :=
    sub; repeat sub_match;
    lazymatch goal with
    | |- wd (bind _ _) _ _ _ _ => apply wd_bind
    | |- wd (Ret _) _ _ _ _ => cbn [wd]
    | |- wd Err _ _ _ _ => exact I
    | |- wd (Panic _) _ _ _ _ => exact I
    | |- wd Fuel _ _ _ _ => exact I
    | |- wd prev _ _ _ true => apply wd_prev_past
    | |- wd (Prev _) _ _ _ true => cbn [wd]
    | |- wd next_nn _ _ _ _ => apply wd_next_nn; intros
    | |- wd next_err _ _ _ _ => apply wd_next_err; intros
    | |- wd must_next _ _ _ _ => apply wd_must_next; intros
    | |- wd peek_nn _ _ _ _ => apply wd_peek_nn; intros
    | |- wd peek _ _ _ _ => apply wd_peek; intros
    | |- wd prev _ _ _ _ => apply wd_prev; intros
    | |- wd (parse_keyword _) _ _ _ _ => apply wd_parse_keyword; intros
    | |- wd (kw_ok _) _ _ _ _ => apply wd_kw_ok; intros
    | |- wd (kw_tok _) _ _ _ _ => apply wd_kw_tok; intros
    | |- wd (expect_keyword _) _ _ _ _ => apply wd_expect_keyword; intros
    | |- wd (kws_ok _) _ _ _ _ => apply wd_kws_ok; intros
    | |- wd (kws_toks _) _ _ _ _ => apply wd_kws_toks; intros
    | |- wd (consume_token _) _ _ _ _ => apply wd_consume; [reflexivity|intros|intros]
    | |- wd (expect_token _) _ _ _ _ => apply wd_expect_token; [reflexivity|intros]
    | |- wd (next_kind _) _ _ _ _ => apply wd_next_kind; [reflexivity|intros]
    | |- wd (word_of _) _ _ _ _ => apply wd_word_of; intros
    | |- wd (str_of _) _ _ _ _ => apply wd_str_of; intros
    | |- wd (or_err _) _ _ _ _ => apply wd_or_err; intros
    | |- wd (let _ := _ in _) _ _ _ _ => cbv zeta
    | |- wd (if true then _ else _) _ _ _ _ => cbv iota
    | |- wd (if false then _ else _) _ _ _ _ => cbv iota
    | |- wd (match Semicolon with _ => _ end) _ _ _ _ => cbv iota
    | |- wd (match VStr _ with _ => _ end) _ _ _ _ => cbv iota beta
    | |- wd (match Some _ with _ => _ end) _ _ _ _ => cbv iota beta
    | |- wd (match ?x with _ => _ end) _ _ _ _ => first [progress red_w | destruct x eqn:?]
    | |- wd (Next Ret) _ _ _ _ => apply wd_next; cbn [wd]; intros
    | |- wd (Next _) _ _ _ _ => apply wd_next; intros
    | |- wd (Peek _) _ _ ?t _ => destruct t eqn:?; cbn [wd]
    | |- wd (loop _ _ _) _ _ _ _ => apply wd_call; [apply wall_loop; intros; intros ? ?|intros]
    | |- wd _ _ _ _ _ => apply wd_call; [solve [eauto with wa]|intros]
    end.
  Ltac go := unfold wall; intros; repeat (cbn beta; go1); sub; try reflexivity; try discriminate.

  Lemma parse_identifier_wall : wall parse_identifier.
  Proof. unfold parse_identifier. go. Qed.
  Hint Resolve parse_identifier_wall : wa.
  Lemma parse_list_of_ids_wall r k : kind_eqb Semicolon k = false -> wall (parse_list_of_ids r k).
  Proof.
    intros K. assert (K' : is_kind k wtok = false) by exact K. unfold parse_list_of_ids. apply wall_loop. intros [acc ex] d t.
    apply wd_next.
    - intros ->. rewrite K'. change (is_kind SQLKeyword wtok) with false. cbn [andb]. apply wd_bind, wd_prev_past. reflexivity.
    - intros. go.
  Qed.
  Definition list_comma r := parse_list_of_ids_wall r Comma eq_refl.
  Definition list_period r := parse_list_of_ids_wall r Period eq_refl.
  Hint Resolve list_comma list_period : wa.
  Lemma parse_column_names_wall r : wall (parse_column_names r).
  Proof. unfold parse_column_names. go. Qed.
  Hint Resolve parse_column_names_wall : wa.
  Lemma parse_object_name_wall r : wall (parse_object_name r).
  Proof. unfold parse_object_name. go. Qed.
  Hint Resolve parse_object_name_wall : wa.
  Lemma parse_literal_int_wall : wall parse_literal_int.
  Proof. unfold parse_literal_int. go. Qed.
  Hint Resolve parse_literal_int_wall : wa.
  Lemma parse_optional_precision_wall : wall parse_optional_precision.
  Proof. unfold parse_optional_precision. go. Qed.
  Hint Resolve parse_optional_precision_wall : wa.
  Lemma parse_optional_precision_scale_wall : wall parse_optional_precision_scale.
  Proof. unfold parse_optional_precision_scale. go. Qed.
  Hint Resolve parse_optional_precision_scale_wall : wa.
  Lemma parse_my_unsigned_wall : wall parse_my_unsigned.
  Proof. unfold parse_my_unsigned. go. Qed.
  Hint Resolve parse_my_unsigned_wall : wa.
  Lemma parse_time_zone_wall : wall parse_time_zone.
  Proof. unfold parse_time_zone. go. Qed.
  Hint Resolve parse_time_zone_wall : wa.
  Lemma parse_data_type_wall r : wall (parse_data_type r).
  Proof. unfold parse_data_type. go. Qed.
  Hint Resolve parse_data_type_wall : wa.
  Lemma parse_expr_wall r : rw r -> wall (parse_expr r).
  Proof. intros HR. unfold parse_expr. eauto with wa. Qed.
  Hint Resolve parse_expr_wall : wa.
  Lemma parse_optional_alias_wall l : wall (parse_optional_alias l).
  Proof. unfold parse_optional_alias. go. Qed.
  Hint Resolve parse_optional_alias_wall : wa.
  Lemma parse_expr_list_wall r : rw r -> wall (parse_expr_list r).
  Proof. intros HR. unfold parse_expr_list. go. Qed.
  Hint Resolve parse_expr_list_wall : wa.
  Lemma parse_optional_args_wall r : rw r -> wall (parse_optional_args r).
  Proof. intros HR. unfold parse_optional_args. go. Qed.
  Hint Resolve parse_optional_args_wall : wa.
  Lemma parse_order_by_list_wall r : rw r -> wall (parse_order_by_list r).
  Proof. intros HR. unfold parse_order_by_list. go. Qed.
  Hint Resolve parse_order_by_list_wall : wa.
  Lemma parse_window_frame_bound_wall : wall parse_window_frame_bound.
  Proof. unfold parse_window_frame_bound. go. Qed.
  Hint Resolve parse_window_frame_bound_wall : wa.
  Lemma parse_window_frame_wall : wall parse_window_frame.
  Proof. unfold parse_window_frame. go. Qed.
  Hint Resolve parse_window_frame_wall : wa.
  Lemma parse_function_wall r n : rw r -> wall (parse_function r n).
  Proof. intros HR. unfold parse_function. go. Qed.
  Hint Resolve parse_function_wall : wa.
  Lemma parse_value_wall : wall parse_value.
  Proof. unfold parse_value. go. Qed.
  Hint Resolve parse_value_wall : wa.
  Lemma parse_case_wall r : rw r -> wall (parse_case r).
  Proof. intros HR. unfold parse_case. go. Qed.
  Hint Resolve parse_case_wall : wa.
  Lemma parse_cast_wall r : rw r -> wall (parse_cast r).
  Proof. intros HR. unfold parse_cast. go. Qed.
  Hint Resolve parse_cast_wall : wa.
  Lemma parse_exists_wall r o : rw r -> wall (parse_exists r o).
  Proof. intros HR. unfold parse_exists. go. Qed.
  Hint Resolve parse_exists_wall : wa.
  Lemma get_precedence_wall x : wall (get_precedence x).
  Proof. unfold get_precedence. go. Qed.
  Hint Resolve get_precedence_wall : wa.
  Lemma get_next_precedence_wall : wall get_next_precedence.
  Proof. unfold get_next_precedence. go. Qed.
  Hint Resolve get_next_precedence_wall : wa.
  Lemma parse_in_wall r e b : rw r -> wall (parse_in r e b).
  Proof. intros HR. unfold parse_in. go. Qed.
  Hint Resolve parse_in_wall : wa.
  Lemma parse_dotted_wall r i : wall (parse_dotted r i).
  Proof. unfold parse_dotted. go. Qed.
  Hint Resolve parse_dotted_wall : wa.
  Lemma parse_prefix_wall r : rw r -> wall (parse_prefix r).
  Proof. intros HR. unfold parse_prefix. go. Qed.
  Hint Resolve parse_prefix_wall : wa.
  Lemma parse_between_wall r e b : rw r -> wall (parse_between r e b).
  Proof. intros HR. unfold parse_between. go. Qed.
  Hint Resolve parse_between_wall : wa.
  Lemma infix_operator_wall x : wall (infix_operator x).
  Proof. unfold infix_operator. go. Qed.
  Hint Resolve infix_operator_wall : wa.
  Lemma parse_infix_wall r e p : rw r -> wall (parse_infix r e p).
  Proof. intros HR. unfold parse_infix. go. Qed.
  Hint Resolve parse_infix_wall : wa.
  Lemma infix_loop_wall r e p : rw r -> wall (infix_loop r p e).
  Proof. intros HR. unfold infix_loop. go. Qed.
  Hint Resolve infix_loop_wall : wa.
  Lemma parse_subexpr_wall r p : rw r -> wall (parse_subexpr r p).
  Proof. intros HR. unfold parse_subexpr. go. Qed.
  Hint Resolve parse_subexpr_wall : wa.
  Lemma parse_default_expr_wall r : rw r -> wall (parse_default_expr r).
  Proof. intros HR. unfold parse_default_expr. go. Qed.
  Hint Resolve parse_default_expr_wall : wa.
  Lemma parse_limit_wall : wall parse_limit.
  Proof. unfold parse_limit. go. Qed.
  Hint Resolve parse_limit_wall : wa.
  Lemma parse_table_factor_wall r : rw r -> wall (parse_table_factor r).
  Proof. intros HR. unfold parse_table_factor. go. Qed.
  Hint Resolve parse_table_factor_wall : wa.
  Lemma parse_join_type_wall : wall parse_join_type.
  Proof. unfold parse_join_type. go. Qed.
  Hint Resolve parse_join_type_wall : wa.
  Lemma parse_join_spec_wall r : rw r -> wall (parse_join_spec r).
  Proof. intros HR. unfold parse_join_spec. go. Qed.
  Hint Resolve parse_join_spec_wall : wa.
  Lemma parse_table_reference_right_wall r : rw r -> wall (parse_table_reference_right r).
  Proof. intros HR. unfold parse_table_reference_right. go. Qed.
  Hint Resolve parse_table_reference_right_wall : wa.
  Lemma parse_table_reference_wall r : rw r -> wall (parse_table_reference r).
  Proof. intros HR. unfold parse_table_reference. go. Qed.
  Hint Resolve parse_table_reference_wall : wa.
  Lemma parse_from_clause_wall r : rw r -> wall (parse_from_clause r).
  Proof. intros HR. unfold parse_from_clause. go. Qed.
  Hint Resolve parse_from_clause_wall : wa.
  Lemma parse_select_list_wall r : rw r -> wall (parse_select_list r).
  Proof. intros HR. unfold parse_select_list. go. Qed.
  Hint Resolve parse_select_list_wall : wa.
  Lemma parse_select_wall r p : rw r -> wall (parse_select r p).
  Proof. intros HR. unfold parse_select. go. Qed.
  Hint Resolve parse_select_wall : wa.
  Lemma parse_set_operator_wall o : wall (parse_set_operator o).
  Proof. unfold parse_set_operator. go. Qed.
  Hint Resolve parse_set_operator_wall : wa.
  Lemma body_loop_wall r p e : rw r -> wall (body_loop r p e).
  Proof. intros HR. unfold body_loop, parse_set_operator. go. Qed.
  Hint Resolve body_loop_wall : wa.
  Lemma parse_query_body_wall r p : rw r -> wall (parse_query_body r p).
  Proof. intros HR. unfold parse_query_body. go. Qed.
  Hint Resolve parse_query_body_wall : wa.
  Lemma parse_cte_list_wall r : rw r -> wall (parse_cte_list r).
  Proof. intros HR. unfold parse_cte_list. go. Qed.
  Hint Resolve parse_cte_list_wall : wa.
  Lemma parse_query_wall r : rw r -> wall (parse_query r).
  Proof. intros HR. unfold parse_query. go. Qed.
  Hint Resolve parse_query_wall : wa.

  Lemma knot_rw n : rw (knot n).
  Proof.
    induction n as [|n IH].
    - constructor; intros; intros d t; exact I.
    - constructor; intros; cbn [knot r_fuel r_stmt r_query r_body r_subexpr r_tref]; auto with wa.
  Qed.

  Lemma parse_assignments_wall r : rw r -> wall (parse_assignments r).
  Proof. intros HR. unfold parse_assignments. go. Qed.
  Hint Resolve parse_assignments_wall : wa.
  Lemma parse_rows_wall r : rw r -> wall (parse_rows r).
  Proof. intros HR. unfold parse_rows. go. Qed.
  Hint Resolve parse_rows_wall : wa.
  Lemma parse_cascade_wall : wall parse_cascade.
  Proof. unfold parse_cascade. go. Qed.
  Hint Resolve parse_cascade_wall : wa.
  Lemma parse_option_value_wall : wall parse_option_value.
  Proof. unfold parse_option_value. go. Qed.
  Hint Resolve parse_option_value_wall : wa.
  Lemma parse_table_option_wall : wall parse_table_option.
  Proof. unfold parse_table_option. go. Qed.
  Hint Resolve parse_table_option_wall : wa.
  Lemma parse_table_options_wall r : wall (parse_table_options r).
  Proof. unfold parse_table_options. go. Qed.
  Hint Resolve parse_table_options_wall : wa.
  Lemma parse_table_constraints_wall r : rw r -> wall (parse_table_constraints r).
  Proof. intros HR. unfold parse_table_constraints. go. Qed.
  Hint Resolve parse_table_constraints_wall : wa.
  Lemma parse_column_constraints_wall r : rw r -> wall (parse_column_constraints r).
  Proof. intros HR. unfold parse_column_constraints, parse_column_spec. go. Qed.
  Hint Resolve parse_column_constraints_wall : wa.
  Lemma parse_column_definition_wall r : rw r -> wall (parse_column_definition r).
  Proof. intros HR. unfold parse_column_definition. go. Qed.
  Hint Resolve parse_column_definition_wall : wa.
  Lemma parse_column_def_wall r : rw r -> wall (parse_column_def r).
  Proof. intros HR. unfold parse_column_def. go. Qed.
  Hint Resolve parse_column_def_wall : wa.
  Lemma parse_elements_wall r : rw r -> wall (parse_elements r).
  Proof. intros HR. unfold parse_elements. go. Qed.
  Hint Resolve parse_elements_wall : wa.
  Lemma parse_alter_column_wall r a : rw r -> wall (parse_alter_column r a).
  Proof. intros HR. unfold parse_alter_column. go. Qed.
  Hint Resolve parse_alter_column_wall : wa.
  Lemma parse_delete_wall r : rw r -> wall (parse_delete r).
  Proof. intros HR. unfold parse_delete. go. Qed.
  Hint Resolve parse_delete_wall : wa.
  Lemma parse_update_wall r : rw r -> wall (parse_update r).
  Proof. intros HR. unfold parse_update. go. Qed.
  Hint Resolve parse_update_wall : wa.
  Lemma parse_insert_wall r : rw r -> wall (parse_insert r).
  Proof. intros HR. unfold parse_insert. go. Qed.
  Hint Resolve parse_insert_wall : wa.
  Lemma parse_drop_wall r : wall (parse_drop r).
  Proof. unfold parse_drop. go. Qed.
  Hint Resolve parse_drop_wall : wa.
  Lemma parse_create_view_wall r c : rw r -> wall (parse_create_view r c).
  Proof. intros HR. unfold parse_create_view. go. Qed.
  Hint Resolve parse_create_view_wall : wa.
  Lemma parse_create_index_wall r c : rw r -> wall (parse_create_index r c).
  Proof. intros HR. unfold parse_create_index. go. Qed.
  Hint Resolve parse_create_index_wall : wa.
  Lemma parse_create_table_wall r c : rw r -> wall (parse_create_table r c).
  Proof. intros HR. unfold parse_create_table. go. Qed.
  Hint Resolve parse_create_table_wall : wa.
  Lemma parse_alter_wall r : rw r -> wall (parse_alter r).
  Proof. intros HR. unfold parse_alter. go. Qed.
  Hint Resolve parse_alter_wall : wa.
  Lemma parse_create_wall r : rw r -> wall (parse_create r).
  Proof. intros HR. unfold parse_create. go. Qed.
  Hint Resolve parse_create_wall : wa.
  Lemma parse_statement_wall r : rw r -> wall (r_stmt r) -> wall (parse_statement r).
  Proof. intros HR HS. unfold parse_statement. go. Qed.
  Hint Resolve parse_statement_wall : wa.
  Lemma knot_stmt_wall n : wall (r_stmt (knot n)).
  Proof.
    induction n as [|n IH]; [intros d t; exact I|]. cbn [knot r_stmt]. auto using knot_rw, parse_statement_wall.
  Qed.
End Wall.
