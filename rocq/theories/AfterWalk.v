(** No call goes back behind where it started: one walk over the parser. *)
From Coq Require Import ZArith List Bool String.
From Verif Require Import Base Dialect Token Lexer AST Num Prog Parser ParseSpec Wp Term Sim LexFacts After.
Import ListNotations.
Open Scope list_scope.
Open Scope Z_scope.

(** A run that has read [d] since the start and has [t] left; [E] holds where it
    fails. *)
Fixpoint fd {A} (p : prog A) (Q : A -> toks -> toks -> Prop) (E : toks -> toks -> Prop) (d t : toks) : Prop :=
  match p with
  | Ret a => Q a d t
  | Err | Panic _ | Fuel => E d t
  | Next k => match t with [] => fd (k None) Q E d [] | x :: t' => fd (k (Some x)) Q E (x :: d) t' end
  | Peek k => match t with [] => fd (k None) Q E d [] | x :: t' => fd (k (Some x)) Q E d (x :: t') end
  | Prev k => match d with [] => False | x :: d' => fd k Q E d' (x :: t) end
  | Kws ks k =>
      match kws_match ks t with
      | Some l => fd (k (Some l)) Q E (rev l ++ d) (skipn (List.length l) t)
      | None => fd (k None) Q E d t
      end
  end.
Notation post A := (A -> toks -> toks -> Prop).

Lemma fd_conseq {A} (p : prog A) (Q Q' : post A) (E E' : toks -> toks -> Prop) : forall d t,
  fd p Q E d t -> (forall a d' t', Q a d' t' -> Q' a d' t') -> (forall d' t', E d' t' -> E' d' t') -> fd p Q' E' d t.
Proof.
  induction p as [a| |w| |k IH|k IH|k IH|ks k IH]; intros d t H HQ HE; cbn [fd] in *; auto.
  - destruct t; eapply IH; eauto.
  - destruct t; eapply IH; eauto.
  - destruct d; [auto|]. eapply IH; eauto.
  - destruct (kws_match ks t); eapply IH; eauto.
Qed.
Lemma fd_bind {A B} (p : prog A) (f : A -> prog B) Q E : forall d t,
  fd p (fun a d' t' => fd (f a) Q E d' t') E d t -> fd (bind p f) Q E d t.
Proof.
  induction p as [a| |w| |k IH|k IH|k IH|ks k IH]; intros d t H; cbn [fd bind] in *; auto.
  - destruct t; auto.
  - destruct t; auto.
  - destruct d; auto.
  - destruct (kws_match ks t); auto.
Qed.
Lemma fd_frame {A} (p : prog A) (Q : post A) (E : toks -> toks -> Prop) e : forall d t, fd p Q E d t ->
  fd p (fun a d' t' => exists d0, d' = d0 ++ e /\ Q a d0 t') (fun d' t' => exists d0, d' = d0 ++ e /\ E d0 t') (d ++ e) t.
Proof.
  induction p as [a| |w| |k IH|k IH|k IH|ks k IH]; intros d t H; cbn [fd] in *; eauto.
  - destruct t as [|x t]; [auto|]. apply (IH _ (x :: d)), H.
  - destruct t; auto.
  - destruct d as [|x d]; [contradiction|]. cbn [List.app]. auto.
  - destruct (kws_match ks t); [|auto]. rewrite app_assoc. auto.
Qed.
Definition floor {A} (p : prog A) : Prop := forall t, fd p (fun _ _ _ => True) (fun _ _ => True) [] t.
Lemma fd_call {A} (p : prog A) (R : post A) (E : toks -> toks -> Prop) d t :
  floor p -> (forall a d' t', R a (d' ++ d) t') -> (forall d' t', E (d' ++ d) t') -> fd p R E d t.
Proof.
  intros H HR HE. eapply fd_conseq; [apply (fd_frame p _ _ d [] t (H t))| |]; cbn beta.
  - intros a d' t' (d0 & -> & _). apply HR.
  - intros d' t' (d0 & -> & _). apply HE.
Qed.
Lemma floor_loop {S A} (body : S -> prog (S + A)) :
  (forall s, floor (body s)) -> forall n s, floor (loop n body s).
Proof.
  intros Hb. induction n as [|n IH]; intros s t; [exact I|]. cbn [loop]. apply fd_bind, fd_call; [apply Hb| |auto].
  intros [s'|a] d' t'; [|exact I]. apply fd_call; auto.
Qed.

Section Rules.
  Context (E : toks -> toks -> Prop).
  Lemma fd_next {A} (k : option token -> prog A) (Q : post A) d t :
    (t = [] -> fd (k None) Q E d []) ->
    (forall x t', t = x :: t' -> fd (k (Some x)) Q E (x :: d) t') -> fd (Next k) Q E d t.
  Proof. intros H1 H2. destruct t; cbn [fd]; auto. Qed.
  Lemma fd_next_nn (Q : post token) d t :
    E d [] -> (forall x t', t = x :: t' -> Q x (x :: d) t') -> fd next_nn Q E d t.
  Proof. intros H1 H2. destruct t; cbn; auto. Qed.
  Lemma fd_next_err (Q : post token) d t :
    E d [] -> (forall x t', t = x :: t' -> Q x (x :: d) t') -> fd next_err Q E d t.
  Proof. intros H1 H2. destruct t; cbn; auto. Qed.
  Lemma fd_must_next (Q : post token) d t :
    E d [] -> (forall x t', t = x :: t' -> Q x (x :: d) t') -> fd must_next Q E d t.
  Proof. intros H1 H2. destruct t; cbn; auto. Qed.
  Lemma fd_peek_nn (Q : post token) d t :
    E d [] -> (forall x t', t = x :: t' -> Q x d (x :: t')) -> fd peek_nn Q E d t.
  Proof. intros H1 H2. destruct t; cbn; auto. Qed.
  Lemma fd_peek (Q : post (option token)) d t :
    (t = [] -> Q None d []) -> (forall x t', t = x :: t' -> Q (Some x) d (x :: t')) -> fd peek Q E d t.
  Proof. intros H1 H2. destruct t; cbn; auto. Qed.
  Lemma fd_prev (Q : post unit) x d t : Q tt d (x :: t) -> fd prev Q E (x :: d) t.
  Proof. intros H. exact H. Qed.
  Lemma fd_parse_keyword s (Q : post kwres) d t :
    (t = [] -> Q KwEOF d []) ->
    (forall x t', t = x :: t' -> is_kw (gs s) x = false -> Q (KwNo x) d (x :: t')) ->
    (forall x t', t = x :: t' -> Q (KwYes x) (x :: d) t') -> fd (parse_keyword s) Q E d t.
  Proof. intros H1 H2 H3. destruct t as [|x t]; cbn; [auto|]. destruct (is_kw (gs s) x) eqn:K; cbn; auto. Qed.
  Definition no_kw (s : string) (t : toks) : Prop := match t with [] => True | x :: _ => is_kw (gs s) x = false end.
  Lemma fd_kw_ok s (Q : post bool) d t :
    (no_kw s t -> Q false d t) -> (forall x t', t = x :: t' -> Q true (x :: d) t') -> fd (kw_ok s) Q E d t.
  Proof. intros H2 H3. unfold kw_ok. apply fd_bind, fd_parse_keyword; intros; subst; cbn; auto. apply H2. exact I. Qed.
  Lemma fd_kw_tok s (Q : post (option token)) d t :
    (no_kw s t -> Q None d t) -> (forall x t', t = x :: t' -> Q (Some x) (x :: d) t') -> fd (kw_tok s) Q E d t.
  Proof. intros H2 H3. unfold kw_tok. apply fd_bind, fd_parse_keyword; intros; subst; cbn; auto. apply H2. exact I. Qed.
  Lemma fd_expect_keyword s (Q : post token) d t :
    E d t -> (forall x t', t = x :: t' -> Q x (x :: d) t') -> fd (expect_keyword s) Q E d t.
  Proof. intros H1 H3. unfold expect_keyword. apply fd_bind, fd_parse_keyword; intros; subst; cbn; auto. Qed.
  Lemma fd_kws_ok l (Q : post bool) d t :
    Q false d t -> (forall m t', List.length m = List.length l -> Q true (m ++ d) t') -> fd (kws_ok l) Q E d t.
  Proof.
    intros H1 H2. unfold kws_ok. cbn [fd]. destruct (kws_match (map gs l) t) eqn:K; cbn; auto.
    apply kws_match_spec in K as [_ K]. apply H2. rewrite rev_length, K, map_length. reflexivity.
  Qed.
  Lemma fd_kws_toks l (Q : post (option toks)) d t :
    Q None d t -> (forall l1 m t', List.length m = List.length l -> Q (Some l1) (m ++ d) t') -> fd (kws_toks l) Q E d t.
  Proof.
    intros H1 H2. unfold kws_toks. cbn [fd]. destruct (kws_match (map gs l) t) eqn:K; cbn; auto.
    apply kws_match_spec in K as [_ K]. apply H2. rewrite rev_length, K, map_length. reflexivity.
  Qed.
  Lemma fd_consume k (Q : post bool) d t :
    Q false d t -> (forall x t', t = x :: t' -> Q true (x :: d) t') -> fd (consume_token k) Q E d t.
  Proof.
    intros H1 H2. unfold consume_token. destruct t as [|x t]; cbn [fd]; [exact H1|].
    destruct (is_kind k x); cbn [fd]; auto.
  Qed.
  Lemma fd_expect_token k (Q : post unit) d t :
    E d t -> (forall x t', t = x :: t' -> Q tt (x :: d) t') -> fd (expect_token k) Q E d t.
  Proof. intros HE H1. unfold expect_token. apply fd_bind, fd_consume; cbn; auto. Qed.
  Lemma fd_next_kind k (Q : post token) d t :
    E d [] -> (forall x t', t = x :: t' -> E (x :: d) t') -> (forall x t', t = x :: t' -> Q x (x :: d) t') -> fd (next_kind k) Q E d t.
  Proof.
    intros HE HE2 H1. unfold next_kind. apply fd_bind, fd_next_nn; [exact HE|].
    intros x t' ->. destruct (is_kind k x) eqn:X; cbn; auto.
  Qed.
  Lemma fd_word_of x (Q : post sqlword) d t : E d t -> (forall w, tval x = VWord w -> Q w d t) -> fd (word_of x) Q E d t.
  Proof. unfold word_of. intros HE H3. destruct (tval x) as [w|s] eqn:X; cbn; auto. Qed.
  Lemma fd_str_of x (Q : post gostring) d t : E d t -> (forall w, tval x = VStr w -> Q w d t) -> fd (str_of x) Q E d t.
  Proof. unfold str_of. intros HE H3. destruct (tval x) as [w|s] eqn:X; cbn; auto. Qed.
  Lemma fd_or_err {A} (o : option A) (Q : post A) d t : E d t -> (forall a, o = Some a -> Q a d t) -> fd (or_err o) Q E d t.
  Proof. intros HE H. destruct o; cbn; auto. Qed.
End Rules.

Record rf (r : rec) : Prop := {
  rf_query : floor (r_query r);
  rf_body : forall p, floor (r_body r p);
  rf_subexpr : forall p, floor (r_subexpr r p);
  rf_tref : floor (r_tref r) }.

Create HintDb fl.
#[export] Hint Resolve rf_query rf_body rf_subexpr rf_tref : fl.
Ltac sub := repeat match goal with
  | H : ?t = _ :: _ |- _ => is_var t; subst t
  | H : ?t = [] |- _ => is_var t; subst t
  | H : _ :: _ = _ :: _ |- _ => injection H as ? ?; try subst
  | H : [] = _ :: _ |- _ => discriminate H
  | H : _ :: _ = [] |- _ => discriminate H
  end.
Ltac fail_here := cbn [fd List.app]; intros; first [exact I | discriminate | solve [auto with fl]].
Ltac go1 :=
  sub; cbn [List.app];
  lazymatch goal with
  | |- fd (bind _ _) _ _ _ _ => apply fd_bind
  | |- fd (Ret _) _ _ _ _ => cbn [fd]
  | |- fd Err _ _ _ _ => fail_here
  | |- fd (Panic _) _ _ _ _ => fail_here
  | |- fd Fuel _ _ _ _ => fail_here
  | |- fd next_nn _ _ _ _ => apply fd_next_nn; [fail_here|intros]
  | |- fd next_err _ _ _ _ => apply fd_next_err; [fail_here|intros]
  | |- fd must_next _ _ _ _ => apply fd_must_next; [fail_here|intros]
  | |- fd peek_nn _ _ _ _ => apply fd_peek_nn; [fail_here|intros]
  | |- fd peek _ _ _ _ => apply fd_peek; intros
  | |- fd prev _ _ (_ :: _) _ => apply fd_prev
  | |- fd prev _ _ (?a ++ _ :: _) _ => destruct a; cbn [List.app]; apply fd_prev
  | |- fd (Prev _) _ _ (_ :: _) _ => cbn [fd]
  | |- fd (parse_keyword _) _ _ _ _ => apply fd_parse_keyword; intros
  | |- fd (kw_ok _) _ _ _ _ => apply fd_kw_ok; intros
  | |- fd (kw_tok _) _ _ _ _ => apply fd_kw_tok; intros
  | |- fd (expect_keyword _) _ _ _ _ => apply fd_expect_keyword; [fail_here|intros]
  | |- fd (kws_ok _) _ _ _ _ => apply fd_kws_ok; [|intros [|? [|? [|? [|? ?]]]] ? ?]; try discriminate
  | |- fd (kws_toks _) _ _ _ _ => apply fd_kws_toks; [|intros ? [|? [|? [|? [|? ?]]]] ? ?]; try discriminate
  | |- fd (consume_token _) _ _ _ _ => apply fd_consume; [|intros]
  | |- fd (expect_token _) _ _ _ _ => apply fd_expect_token; [fail_here|intros]
  | |- fd (next_kind _) _ _ _ _ => apply fd_next_kind; [fail_here|fail_here|intros]
  | |- fd (word_of _) _ _ _ _ => apply fd_word_of; [fail_here|intros]
  | |- fd (str_of _) _ _ _ _ => apply fd_str_of; [fail_here|intros]
  | |- fd (or_err _) _ _ _ _ => apply fd_or_err; [fail_here|intros]
  | |- fd (let _ := _ in _) _ _ _ _ => cbv zeta
  | |- fd (if true then _ else _) _ _ _ _ => cbv iota
  | |- fd (if false then _ else _) _ _ _ _ => cbv iota
  | |- fd (match Some _ with _ => _ end) _ _ _ _ => cbv iota beta
  | |- fd (match None with _ => _ end) _ _ _ _ => cbv iota beta
  | |- fd (match ?x with _ => _ end) _ _ _ _ => destruct x eqn:?
  | |- fd (Next Ret) _ _ _ _ => apply fd_next; cbn [fd]; intros
  | |- fd (Next _) _ _ _ _ => apply fd_next; intros
  | |- fd (Peek _) _ _ _ ?t => destruct t eqn:?; cbn [fd]
  | |- fd (loop _ _ _) _ _ _ _ => apply fd_call; [apply floor_loop; intros; intros ?|intros|fail_here]
  | |- fd _ _ _ _ _ => apply fd_call; [solve [eauto with fl]|intros|fail_here]
  end.
Ltac go := unfold floor; intros; repeat (cbn beta; go1); sub; try exact I; try discriminate.

Lemma parse_identifier_floor : floor parse_identifier.
Proof. unfold parse_identifier. go. Qed.
#[export] Hint Resolve parse_identifier_floor : fl.
Lemma parse_list_of_ids_floor r k : floor (parse_list_of_ids r k).
Proof. unfold parse_list_of_ids. go. Qed.
#[export] Hint Resolve parse_list_of_ids_floor : fl.
Lemma parse_column_names_floor r : floor (parse_column_names r).
Proof. unfold parse_column_names. go. Qed.
#[export] Hint Resolve parse_column_names_floor : fl.
Lemma parse_object_name_floor r : floor (parse_object_name r).
Proof. unfold parse_object_name. go. Qed.
#[export] Hint Resolve parse_object_name_floor : fl.
Lemma parse_literal_int_floor : floor parse_literal_int.
Proof. unfold parse_literal_int. go. Qed.
#[export] Hint Resolve parse_literal_int_floor : fl.
Lemma parse_optional_precision_floor : floor parse_optional_precision.
Proof. unfold parse_optional_precision. go. Qed.
#[export] Hint Resolve parse_optional_precision_floor : fl.
Lemma parse_optional_precision_scale_floor : floor parse_optional_precision_scale.
Proof. unfold parse_optional_precision_scale. go. Qed.
#[export] Hint Resolve parse_optional_precision_scale_floor : fl.
Lemma parse_my_unsigned_floor : floor parse_my_unsigned.
Proof. unfold parse_my_unsigned. go. Qed.
#[export] Hint Resolve parse_my_unsigned_floor : fl.
Lemma parse_time_zone_floor : floor parse_time_zone.
Proof. unfold parse_time_zone. go. Qed.
#[export] Hint Resolve parse_time_zone_floor : fl.
Lemma parse_data_type_floor r : floor (parse_data_type r).
Proof. unfold parse_data_type. go. Qed.
#[export] Hint Resolve parse_data_type_floor : fl.
Lemma parse_expr_floor r : rf r -> floor (parse_expr r).
Proof. intros HR. unfold parse_expr. eauto with fl. Qed.
#[export] Hint Resolve parse_expr_floor : fl.
Lemma parse_optional_alias_floor l : floor (parse_optional_alias l).
Proof. unfold parse_optional_alias. go. Qed.
#[export] Hint Resolve parse_optional_alias_floor : fl.
Lemma parse_expr_list_floor r : rf r -> floor (parse_expr_list r).
Proof. intros HR. unfold parse_expr_list. go. Qed.
#[export] Hint Resolve parse_expr_list_floor : fl.
Lemma parse_optional_args_floor r : rf r -> floor (parse_optional_args r).
Proof. intros HR. unfold parse_optional_args. go. Qed.
#[export] Hint Resolve parse_optional_args_floor : fl.
Lemma parse_order_by_list_floor r : rf r -> floor (parse_order_by_list r).
Proof. intros HR. unfold parse_order_by_list. go. Qed.
#[export] Hint Resolve parse_order_by_list_floor : fl.
Lemma parse_window_frame_bound_floor : floor parse_window_frame_bound.
Proof. unfold parse_window_frame_bound. go. Qed.
#[export] Hint Resolve parse_window_frame_bound_floor : fl.
Lemma parse_window_frame_floor : floor parse_window_frame.
Proof. unfold parse_window_frame. go. Qed.
#[export] Hint Resolve parse_window_frame_floor : fl.
Lemma parse_function_floor r n : rf r -> floor (parse_function r n).
Proof. intros HR. unfold parse_function. go. Qed.
#[export] Hint Resolve parse_function_floor : fl.
Lemma parse_value_floor : floor parse_value.
Proof. unfold parse_value. go. Qed.
#[export] Hint Resolve parse_value_floor : fl.
Lemma parse_case_floor r : rf r -> floor (parse_case r).
Proof. intros HR. unfold parse_case. go. Qed.
#[export] Hint Resolve parse_case_floor : fl.
Lemma parse_cast_floor r : rf r -> floor (parse_cast r).
Proof. intros HR. unfold parse_cast. go. Qed.
#[export] Hint Resolve parse_cast_floor : fl.
Lemma parse_exists_floor r o : rf r -> floor (parse_exists r o).
Proof. intros HR. unfold parse_exists. go. Qed.
#[export] Hint Resolve parse_exists_floor : fl.
Lemma get_precedence_floor x : floor (get_precedence x).
Proof. unfold get_precedence. go. Qed.
#[export] Hint Resolve get_precedence_floor : fl.
Lemma get_next_precedence_floor : floor get_next_precedence.
Proof. unfold get_next_precedence. go. Qed.
#[export] Hint Resolve get_next_precedence_floor : fl.
Lemma parse_in_floor r e b : rf r -> floor (parse_in r e b).
Proof. intros HR. unfold parse_in. go. Qed.
#[export] Hint Resolve parse_in_floor : fl.
Lemma parse_dotted_floor r i : floor (parse_dotted r i).
Proof. unfold parse_dotted. go. Qed.
#[export] Hint Resolve parse_dotted_floor : fl.
Lemma parse_prefix_floor r : rf r -> floor (parse_prefix r).
Proof. intros HR. unfold parse_prefix. go. Qed.
#[export] Hint Resolve parse_prefix_floor : fl.
Lemma parse_between_floor r e b : rf r -> floor (parse_between r e b).
Proof. intros HR. unfold parse_between. go. Qed.
#[export] Hint Resolve parse_between_floor : fl.
Lemma infix_operator_floor x : floor (infix_operator x).
Proof. unfold infix_operator. go. Qed.
#[export] Hint Resolve infix_operator_floor : fl.
Lemma parse_infix_floor r e p : rf r -> floor (parse_infix r e p).
Proof. intros HR. unfold parse_infix. go. Qed.
#[export] Hint Resolve parse_infix_floor : fl.
Lemma infix_loop_floor r e p : rf r -> floor (infix_loop r p e).
Proof. intros HR. unfold infix_loop. go. Qed.
#[export] Hint Resolve infix_loop_floor : fl.
Lemma parse_subexpr_floor r p : rf r -> floor (parse_subexpr r p).
Proof. intros HR. unfold parse_subexpr. go. Qed.
#[export] Hint Resolve parse_subexpr_floor : fl.
Lemma parse_default_expr_floor r : rf r -> floor (parse_default_expr r).
Proof. intros HR. unfold parse_default_expr. go. Qed.
#[export] Hint Resolve parse_default_expr_floor : fl.
Lemma parse_limit_floor : floor parse_limit.
Proof. unfold parse_limit. go. Qed.
#[export] Hint Resolve parse_limit_floor : fl.
Lemma parse_table_factor_floor r : rf r -> floor (parse_table_factor r).
Proof. intros HR. unfold parse_table_factor. go. Qed.
#[export] Hint Resolve parse_table_factor_floor : fl.
Lemma parse_join_type_floor : floor parse_join_type.
Proof. unfold parse_join_type. go. Qed.
#[export] Hint Resolve parse_join_type_floor : fl.
Lemma parse_join_spec_floor r : rf r -> floor (parse_join_spec r).
Proof. intros HR. unfold parse_join_spec. go. Qed.
#[export] Hint Resolve parse_join_spec_floor : fl.
Lemma parse_table_reference_right_floor r : rf r -> floor (parse_table_reference_right r).
Proof. intros HR. unfold parse_table_reference_right. go. Qed.
#[export] Hint Resolve parse_table_reference_right_floor : fl.
Lemma parse_table_reference_floor r : rf r -> floor (parse_table_reference r).
Proof. intros HR. unfold parse_table_reference. go. Qed.
#[export] Hint Resolve parse_table_reference_floor : fl.
Lemma parse_from_clause_floor r : rf r -> floor (parse_from_clause r).
Proof. intros HR. unfold parse_from_clause. go. Qed.
#[export] Hint Resolve parse_from_clause_floor : fl.
Lemma parse_select_list_floor r : rf r -> floor (parse_select_list r).
Proof. intros HR. unfold parse_select_list. go. Qed.
#[export] Hint Resolve parse_select_list_floor : fl.
Lemma parse_select_floor r p : rf r -> floor (parse_select r p).
Proof. intros HR. unfold parse_select. go. Qed.
#[export] Hint Resolve parse_select_floor : fl.
Lemma parse_set_operator_floor o : floor (parse_set_operator o).
Proof. unfold parse_set_operator. go. Qed.
#[export] Hint Resolve parse_set_operator_floor : fl.
Lemma body_loop_floor r p e : rf r -> floor (body_loop r p e).
Proof. intros HR. unfold body_loop, parse_set_operator. go. Qed.
#[export] Hint Resolve body_loop_floor : fl.
Lemma parse_query_body_floor r p : rf r -> floor (parse_query_body r p).
Proof. intros HR. unfold parse_query_body. go. Qed.
#[export] Hint Resolve parse_query_body_floor : fl.
Lemma parse_cte_list_floor r : rf r -> floor (parse_cte_list r).
Proof. intros HR. unfold parse_cte_list. go. Qed.
#[export] Hint Resolve parse_cte_list_floor : fl.
Lemma parse_query_floor r : rf r -> floor (parse_query r).
Proof. intros HR. unfold parse_query. go. Qed.
#[export] Hint Resolve parse_query_floor : fl.

Lemma knot_rf n : rf (knot n).
Proof.
  induction n as [|n IH].
  - constructor; intros; intros t; exact I.
  - constructor; intros; cbn [knot r_fuel r_stmt r_query r_body r_subexpr r_tref]; auto with fl.
Qed.

Lemma parse_assignments_floor r : rf r -> floor (parse_assignments r).
Proof. intros HR. unfold parse_assignments. go. Qed.
#[export] Hint Resolve parse_assignments_floor : fl.
Lemma parse_rows_floor r : rf r -> floor (parse_rows r).
Proof. intros HR. unfold parse_rows. go. Qed.
#[export] Hint Resolve parse_rows_floor : fl.
Lemma parse_cascade_floor : floor parse_cascade.
Proof. unfold parse_cascade. go. Qed.
#[export] Hint Resolve parse_cascade_floor : fl.
Lemma parse_option_value_floor : floor parse_option_value.
Proof. unfold parse_option_value. go. Qed.
#[export] Hint Resolve parse_option_value_floor : fl.
Lemma parse_table_option_floor : floor parse_table_option.
Proof. unfold parse_table_option. go. Qed.
#[export] Hint Resolve parse_table_option_floor : fl.
Lemma parse_table_options_floor r : floor (parse_table_options r).
Proof. unfold parse_table_options. go. Qed.
#[export] Hint Resolve parse_table_options_floor : fl.
Lemma parse_table_constraints_floor r : rf r -> floor (parse_table_constraints r).
Proof. intros HR. unfold parse_table_constraints. go. Qed.
#[export] Hint Resolve parse_table_constraints_floor : fl.
Lemma parse_column_constraints_floor r : rf r -> floor (parse_column_constraints r).
Proof. intros HR. unfold parse_column_constraints, parse_column_spec. go. Qed.
#[export] Hint Resolve parse_column_constraints_floor : fl.
Lemma parse_column_definition_floor r : rf r -> floor (parse_column_definition r).
Proof. intros HR. unfold parse_column_definition. go. Qed.
#[export] Hint Resolve parse_column_definition_floor : fl.
Lemma parse_column_def_floor r : rf r -> floor (parse_column_def r).
Proof. intros HR. unfold parse_column_def. go. Qed.
#[export] Hint Resolve parse_column_def_floor : fl.
Lemma parse_elements_floor r : rf r -> floor (parse_elements r).
Proof. intros HR. unfold parse_elements. go. Qed.
#[export] Hint Resolve parse_elements_floor : fl.
Lemma parse_alter_column_floor r a : rf r -> floor (parse_alter_column r a).
Proof. intros HR. unfold parse_alter_column. go. Qed.
#[export] Hint Resolve parse_alter_column_floor : fl.
Lemma parse_delete_floor r : rf r -> floor (parse_delete r).
Proof. intros HR. unfold parse_delete. go. Qed.
#[export] Hint Resolve parse_delete_floor : fl.
Lemma parse_update_floor r : rf r -> floor (parse_update r).
Proof. intros HR. unfold parse_update. go. Qed.
#[export] Hint Resolve parse_update_floor : fl.
Lemma parse_insert_floor r : rf r -> floor (parse_insert r).
Proof. intros HR. unfold parse_insert. go. Qed.
#[export] Hint Resolve parse_insert_floor : fl.
Lemma parse_drop_floor r : floor (parse_drop r).
Proof. unfold parse_drop. go. Qed.
#[export] Hint Resolve parse_drop_floor : fl.
Lemma parse_create_view_floor r c : rf r -> floor (parse_create_view r c).
Proof. intros HR. unfold parse_create_view. go. Qed.
#[export] Hint Resolve parse_create_view_floor : fl.
Lemma parse_create_index_floor r c : rf r -> floor (parse_create_index r c).
Proof. intros HR. unfold parse_create_index. go. Qed.
#[export] Hint Resolve parse_create_index_floor : fl.
Lemma parse_create_table_floor r c : rf r -> floor (parse_create_table r c).
Proof. intros HR. unfold parse_create_table. go. Qed.
#[export] Hint Resolve parse_create_table_floor : fl.
Lemma parse_alter_floor r : rf r -> floor (parse_alter r).
Proof. intros HR. unfold parse_alter. go. Qed.
#[export] Hint Resolve parse_alter_floor : fl.
Lemma parse_create_floor r : rf r -> floor (parse_create r).
Proof. intros HR. unfold parse_create. go. Qed.
#[export] Hint Resolve parse_create_floor : fl.
Lemma parse_statement_floor r : rf r -> floor (r_stmt r) -> floor (parse_statement r).
Proof. intros HR HS. unfold parse_statement. go. Qed.
#[export] Hint Resolve parse_statement_floor : fl.
Lemma knot_stmt_floor n : floor (r_stmt (knot n)).
Proof.
  induction n as [|n IH]; [intros t; exact I|]. cbn [knot r_stmt]. auto using knot_rf, parse_statement_floor.
Qed.
