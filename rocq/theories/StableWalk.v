(** Every tree the parser returns on a tokenized text can be read back
    (Render.wf_...), if the printer can print its nodes (StableSpec.clean). *)
From Coq Require Import ZArith List Bool String Lia.
From Verif Require Import Base Dialect Token Lexer LexSpec AST Num Nodes Prog Parser ParseSpec Wp Wlp Sound
  ValueSpec NumThms FloatThms RtEq StableSpec Grammar Render.
From Verif Require LexThms.
Import ListNotations.
Open Scope string_scope.
Open Scope Z_scope.
Open Scope list_scope.

(* ------------------------------------------------------------------ *)
(** ** Numbers *)

Lemma atoi_wf s v : atoi s = AOk v -> wf_int v = true.
Proof.
  unfold atoi. destruct s as [|c s]; [discriminate|]. destruct (digits_val (c :: s)) as [n|] eqn:E; [|discriminate].
  apply digits_val_some in E as [E ->]. apply dec_val_nonneg in E. unfold wf_int.
  destruct (Z.leb_spec (dec_val (c :: s)) max_int); [|discriminate]. intros H1. injection H1 as <-. lia.
Qed.
Lemma long_wf s : wf_int (match atoi s with AOk v => v | ARange v => v | ASyntax => 0 end) = true.
Proof.
  destruct (atoi s) eqn:E; [apply (atoi_wf s); exact E| |reflexivity]. revert E. unfold atoi. destruct s as [|c s]; [discriminate|].
  destruct (digits_val (c :: s)); [|discriminate]. destruct (_ <=? _); [discriminate|]. intros H. injection H as <-. reflexivity.
Qed.
Lemma parse_float_canonical s f : parse_float s = Some f -> canonical f.
Proof.
  unfold parse_float. destruct (split_dot s) as [a b]. set (fr := match b with Some f => f | None => [] end).
  destruct (digits_val (a ++ fr)) as [n|] eqn:E; [|discriminate]. apply digits_val_some in E as [E ->].
  pose proof (dec_val_nonneg _ E) as N. destruct (a ++ fr) as [|c l]; [discriminate|]. intros H.
  pose proof (round_rat_nearest _ (Z.to_pos (10 ^ zlen fr)) N) as R. rewrite pow_pos in R by (unfold zlen; lia).
  rewrite H in R. apply R.
Qed.
Lemma double_wf f : canonical f -> existsb (fun c => c =? 46) (format_float f) = true ->
  match parse_float (format_float f) with Some g => (fm g =? fm f) && (fe g =? fe f) | None => false end
        && existsb (fun c => c =? 46) (format_float f)
        && forallb (fun c => is_digit c || (c =? 46)) (format_float f)
        && match format_float f with c :: _ => is_digit c | [] => false end = true.
Proof.
  intros C D. destruct (format_float_text f C) as [(n & j & _ & _ & T) E]. rewrite E, D, !Z.eqb_refl. cbn [andb].
  assert (X : forall a : list rune, forallb is_digit a = true -> forallb (fun c => is_digit c || (c =? 46)) a = true).
  { induction a as [|c a IH]; [reflexivity|]. cbn [forallb]. rewrite !andb_true_iff. intros [H1 H2]. rewrite H1. auto. }
  destruct T as [([H1 H2] & _)|(a & b & -> & [A1 A2] & [B1 B2] & _)].
  - rewrite (X _ H2). destruct (format_float f); [congruence|]. apply andb_true_iff in H2 as [H2 _]. exact H2.
  - rewrite forallb_app. cbn [forallb]. rewrite (X _ A2), (X _ B2). rewrite orb_true_r. destruct a; [congruence|].
    apply andb_true_iff in A2 as [A2 _]. exact A2.
Qed.

(* ------------------------------------------------------------------ *)
(** ** Keywords *)

(** Letters only, without K. *)
Definition up_kw (s : gostring) : bool := forallb (fun c => (65 <=? c) && (c <=? 90) && negb (c =? 75)) s.
Lemma kw_up s : up_kw s = true -> forall v, equal_fold v s = true -> upper v = s.
Proof.
  induction s as [|c s IH]; intros Hp [|x v] H; cbn in H, Hp; try congruence; try reflexivity.
  apply andb_prop in Hp as [Hc Hp]. apply andb_prop in H as [H1 H2]. unfold upper. cbn [map]. f_equal; [|apply IH; assumption].
  revert H1. unfold fold1, to_upper. rewrite Z.eqb_eq.
  repeat match goal with |- context [if ?b then _ else _] => destruct b eqn:? end; lia.
Qed.

(* ------------------------------------------------------------------ *)
(** ** Sub-nodes *)

Definition fine (z : any) : Prop :=
  forall y, within z y -> clean y = true /\ match y with AExpr e => well_bound e | ASet s => set_bound s | _ => True end.
Lemma fine_sub z y : fine z -> In y (subnodes z) -> fine y.
Proof. intros F I x W. apply F. eapply within_sub; eassumption. Qed.
Lemma fine_clean z : fine z -> clean z = true.
Proof. intros F. apply (F z (within_self z)). Qed.
Lemma fine_bound e : fine (AExpr e) -> well_bound e.
Proof. intros F. apply (F _ (within_self _)). Qed.
Lemma fine_set s : fine (ASet s) -> set_bound s.
Proof. intros F. apply (F _ (within_self _)). Qed.

Lemma lopen_ge e : open_left e <= lopen e.
Proof.
  assert (C : forall x, open_left x <= closed).
  { induction x; cbn [open_left]; unfold is_level, closed in *; try lia.
    match goal with |- (if ?b then _ else _) <= _ => destruct b end; lia. }
  induction e; cbn [open_left lopen]; try lia.
  match goal with |- (if ?b then _ else _) <= _ => destruct b end; [|lia].
  match goal with |- Z.min _ (open_left ?x) <= _ => specialize (C x); lia end.
Qed.
Lemma level_lt o : level o < closed.
Proof. destruct o; reflexivity. Qed.
Lemma no_not_atomic e : atomic e = true -> no_not e = true.
Proof.
  unfold atomic. pose proof level_lt as X. destruct e; cbn [lopen no_not]; try reflexivity; rewrite Z.eqb_eq.
  all: unfold is_level, in_level, closed in *; try (destruct negated); try lia.
  specialize (X (op_type op)). lia.
Qed.

(** The keywords asked for before an expression is read, if the first token of
    its text is one, are the first token of what was read. *)
Definition asked : list string := ["SELECT"; "WITH"; "EXISTS"; "WHEN"; "DISTINCT"].
Definition hr (u v : list token) : Prop := u <> [] /\ forall K, In K asked -> starts K u = true -> starts K v = true.
Lemma hr_app u w v : hr u v -> hr (u ++ w) v.
Proof. intros [H1 H2]. destruct u as [|h u]; [congruence|]. split; [discriminate|exact H2]. Qed.
Lemma hr_no u v K : hr u v -> In K asked -> starts K v = false -> starts K u = false.
Proof. intros [_ H] I E. destruct (starts K u) eqn:S1; [|reflexivity]. rewrite (H K I S1) in E. discriminate. Qed.
Lemma hr_other h u v : forallb (fun K => negb (starts K [h])) asked = true -> hr (h :: u) v.
Proof.
  intros H. split; [discriminate|]. intros K I S1. rewrite forallb_forall in H. specialize (H K I). 
  change (starts K (h :: u)) with (starts K [h]) in S1. rewrite S1 in H. discriminate.
Qed.
Lemma kwno_starts s t : kwno s t -> starts s t = false.
Proof. destruct t as [|x t]; [reflexivity|]. cbn [kwno starts]. unfold is_kw. destruct (tval x); auto. Qed.
Lemma starts_one K x t w : tval x = VWord w -> starts K (x :: t) = equal_fold (wvalue w) (gs K).
Proof. intros E. cbn [starts]. rewrite E. reflexivity. Qed.

(* ------------------------------------------------------------------ *)
(** ** Tokens *)

(** What is known of the tokens of a text. *)
Definition lexed (dl : dialect) (t : token) : Prop :=
  tok_wf t /\
  match tval t with
  | VWord w => wf_id dl (mkIdent (word_string w) pos0 pos0) = true /\ text_word (word_string w) = w
  | VStr _ => True
  end.

Lemma lexeme_lexed dl k v s rest p q : dialect_ok dl -> lexeme dl k v s rest -> lexed dl (mkTok k v p q).
Proof.
  intros (D1 & D2 & D3) H. destruct H; (split; [try exact I; try reflexivity|]); cbn [tval]; try exact I.
  - assert (Q : (f =? 34) || (f =? 96) = false).
    { destruct H as [H|H]; [|subst; reflexivity]. destruct (D1 f H) as [W _]. revert W. unfold word_char, is_letter, is_digit.
      destruct (Z.eqb_spec f 34); [subst; discriminate|]. destruct (Z.eqb_spec f 96); [subst; discriminate|]. reflexivity. }
    cbn [word_string wquote wvalue Z.eqb orb]. split.
    + unfold wf_id. cbn [id_value]. rewrite Q, H0, andb_true_r. destruct H as [-> | ->]; [reflexivity|]. apply orb_true_r.
    + cbn [text_word]. rewrite Q. reflexivity.
  - destruct (D3 q0 H) as [-> | ->]; cbn [word_string wquote wvalue Z.eqb orb matching_end_quote]; (split; [|]);
      unfold word_string, text_word; cbn [wquote wvalue Z.eqb orb Pos.eqb]; unfold wf_id; cbn [id_value Z.eqb orb Pos.eqb];
      unfold matching_end_quote; cbn [Z.eqb Pos.eqb orb]; rewrite removelast_last; try reflexivity.
    all: rewrite H, gs_eqb_refl; cbn [andb]; apply negb_true_iff.
    all: match goal with |- existsb ?f ?l = false => destruct (existsb f l) eqn:E; [|reflexivity] end.
    all: apply existsb_exists in E as (x & I & E); apply Z.eqb_eq in E; subst; contradiction.
  - cbn in H. repeat (destruct H as [H|H]; [injection H as <- <- <-; exact I|]). destruct H.
Qed.
Lemma tokens_lexed dl src toks : dialect_ok dl -> tokenize dl true src = TOk toks -> Forall (lexed dl) toks.
Proof.
  intros D T. destruct (LexThms.tokenize_reads dl src toks D T) as (l & R & ->).
  clear T. induction R as [|p q s text k v l rest X -> R IH]; [constructor|]. cbn [map fst]. constructor; [|exact IH].
  eapply lexeme_lexed; eassumption.
Qed.

Section Walk.
  Variable dl : dialect.
  Notation ok := (lexed dl).
  Notation wl := (wlp (fun x _ => ok x)).

  Lemma wl_next_nn (Q : token -> toks -> toks -> Prop) d t :
    (forall x t', t = x :: t' -> ok x -> Q x (x :: d) t') -> wl next_nn Q d t.
  Proof. intros H. destruct t; cbn; auto. Qed.
  Lemma wl_next_err (Q : token -> toks -> toks -> Prop) d t :
    (forall x t', t = x :: t' -> ok x -> Q x (x :: d) t') -> wl next_err Q d t.
  Proof. intros H. destruct t; cbn; auto. Qed.
  Lemma wl_must_next (Q : token -> toks -> toks -> Prop) d t :
    (forall x t', t = x :: t' -> ok x -> Q x (x :: d) t') -> wl must_next Q d t.
  Proof. intros H. destruct t; cbn; auto. Qed.
  Lemma wl_peek_nn (Q : token -> toks -> toks -> Prop) d t :
    (forall x t', t = x :: t' -> ok x -> Q x d (x :: t')) -> wl peek_nn Q d t.
  Proof. intros H. destruct t; cbn; auto. Qed.
  Lemma wl_peek (Q : option token -> toks -> toks -> Prop) d t :
    (t = [] -> Q None d []) ->
    (forall x t', t = x :: t' -> ok x -> Q (Some x) d (x :: t')) -> wl peek Q d t.
  Proof. intros H1 H2. destruct t; cbn; auto. Qed.
  Lemma wl_next_ret (Q : option token -> toks -> toks -> Prop) d t :
    (t = [] -> Q None d []) ->
    (forall x t', t = x :: t' -> ok x -> Q (Some x) (x :: d) t') -> wl (Next Ret) Q d t.
  Proof. intros H1 H2. destruct t; cbn; auto. Qed.
  Lemma wl_prev (Q : unit -> toks -> toks -> Prop) x d t :
    Q tt d (x :: t) -> wl prev Q (x :: d) t.
  Proof. intros H. exact H. Qed.
  Lemma wl_parse_keyword s (Q : kwres -> toks -> toks -> Prop) d t :
    (t = [] -> Q KwEOF d []) ->
    (forall x t', t = x :: t' -> ok x -> is_kw (gs s) x = false -> Q (KwNo x) d (x :: t')) ->
    (forall x t', t = x :: t' -> ok x -> is_kw (gs s) x = true -> Q (KwYes x) (x :: d) t') ->
    wl (parse_keyword s) Q d t.
  Proof.
    intros H1 H2 H3. destruct t as [|x t]; cbn; auto. intros Hx.
    destruct (is_kw (gs s) x) eqn:E; cbn; auto.
  Qed.
  Lemma wl_kw_ok s (Q : bool -> toks -> toks -> Prop) d t :
    (kwno s t -> Q false d t) ->
    (forall x t', t = x :: t' -> ok x -> is_kw (gs s) x = true -> Q true (x :: d) t') ->
    wl (kw_ok s) Q d t.
  Proof.
    intros H2 H3. unfold kw_ok. apply wlp_bind. apply wl_parse_keyword; intros; subst; cbn; auto.
    apply H2. exact I.
  Qed.
  Lemma wl_kw_tok s (Q : option token -> toks -> toks -> Prop) d t :
    (kwno s t -> Q None d t) ->
    (forall x t', t = x :: t' -> ok x -> is_kw (gs s) x = true -> Q (Some x) (x :: d) t') ->
    wl (kw_tok s) Q d t.
  Proof.
    intros H2 H3. unfold kw_tok. apply wlp_bind. apply wl_parse_keyword; intros; subst; cbn; auto.
    apply H2. exact I.
  Qed.
  Lemma wl_expect_keyword s (Q : token -> toks -> toks -> Prop) d t :
    (forall x t', t = x :: t' -> ok x -> is_kw (gs s) x = true -> Q x (x :: d) t') ->
    wl (expect_keyword s) Q d t.
  Proof.
    intros H3. unfold expect_keyword. apply wlp_bind. apply wl_parse_keyword; intros; subst; cbn; auto.
  Qed.
  Lemma wl_kws_ok l (Q : bool -> toks -> toks -> Prop) d t :
    Q false d t ->
    (forall l1 t', Forall2 (fun k x => is_kw (gs k) x = true) l l1 -> Forall ok l1 -> t = l1 ++ t' -> Q true (rev l1 ++ d) t') ->
    wl (kws_ok l) Q d t.
  Proof.
    intros H1 H2. unfold kws_ok. apply wlp_kws; [exact H1|]. intros l1 t' F Fo E. apply oks_forall in Fo. apply H2; auto.
    clear - F. revert l1 F. induction l as [|s l IH]; intros l1 F; inversion_clear F; constructor; auto.
  Qed.
  Lemma wl_kws_toks2 a b (Q : option toks -> toks -> toks -> Prop) d t :
    Q None d t ->
    (forall x y t', t = x :: y :: t' -> ok x -> ok y -> is_kw (gs a) x = true -> is_kw (gs b) y = true ->
       Q (Some [x; y]) (y :: x :: d) t') ->
    wl (kws_toks [a; b]) Q d t.
  Proof.
    intros H1 H2. unfold kws_toks. apply wlp_kws; [exact H1|]. intros l1 t' F Ho E.
    inversion F as [|? x ? l2 ? F2]; subst. inversion F2 as [|? y ? l3 ? F3]; subst. inversion F3; subst.
    destruct Ho as (Hx & Hy & _).
    cbn. apply H2; auto.
  Qed.
  Lemma wl_consume k (Q : bool -> toks -> toks -> Prop) d t :
    (match t with x :: _ => tkind x <> k | [] => True end -> Q false d t) ->
    (forall x t', t = x :: t' -> ok x -> tkind x = k -> Q true (x :: d) t') ->
    wl (consume_token k) Q d t.
  Proof.
    intros H1 H2. destruct t as [|x t]; cbn; auto. intros Hx. destruct (is_kind k x) eqn:E; cbn.
    - intros _. apply H2; auto. apply is_kind_tkind, E.
    - apply H1. unfold is_kind in E. intros <-. destruct (tkind x); discriminate.
  Qed.
  Lemma wl_expect_token k (Q : unit -> toks -> toks -> Prop) d t :
    (forall x t', t = x :: t' -> ok x -> tkind x = k -> Q tt (x :: d) t') ->
    wl (expect_token k) Q d t.
  Proof.
    intros H1. unfold expect_token. apply wlp_bind. apply wl_consume; cbn; auto.
  Qed.
  Lemma wl_next_kind k (Q : token -> toks -> toks -> Prop) d t :
    (forall x t', t = x :: t' -> ok x -> tkind x = k -> Q x (x :: d) t') ->
    wl (next_kind k) Q d t.
  Proof.
    intros H1. unfold next_kind. apply wlp_bind, wl_next_nn. intros x t' -> Hx.
    destruct (is_kind k x) eqn:E; cbn; auto. apply H1; auto. apply is_kind_tkind, E.
  Qed.
  Lemma wl_word_of x (Q : sqlword -> toks -> toks -> Prop) d t :
    (forall w, tval x = VWord w -> Q w d t) -> wl (word_of x) Q d t.
  Proof. unfold word_of. intros H3. destruct (tval x) as [w|s] eqn:E; cbn; auto. Qed.
  Lemma wl_str_of x (Q : gostring -> toks -> toks -> Prop) d t :
    (forall s, tval x = VStr s -> Q s d t) -> wl (str_of x) Q d t.
  Proof. unfold str_of. intros H3. destruct (tval x) as [w|s] eqn:E; cbn; auto. Qed.
  Lemma wl_or_err {A} (o : option A) (Q : A -> toks -> toks -> Prop) d t :
    (forall a, o = Some a -> Q a d t) -> wl (or_err o) Q d t.
  Proof. intros H. destruct o; cbn; auto. Qed.

  (* ---------------------------------------------------------------- *)
  (** ** Tactics *)

  Ltac tidy :=
    repeat match goal with
    | H : ?t = ?x :: ?t' |- _ => is_var t; subst t
    | H : ?t = rev ?d ++ ?t' |- _ => is_var t; subst t
    | H : ?t = ?d ++ ?t' |- _ => is_var t; subst t
    | H : ?x :: ?t = ?y :: ?t' |- _ => injection H as ? ?; try subst
    | H : _ /\ _ |- _ => destruct H
    | H : (_, _) = (_, _) |- _ => injection H as ? ?; try subst
    | H : Some _ = Some _ |- _ => injection H as ?; try subst
    | H : exists _, _ |- _ => destruct H
    | H : _ || _ = true |- _ => apply orb_prop in H; destruct H
    end.
  Ltac kinds :=
    repeat match goal with
    | H : is_kind _ _ = true |- _ => apply is_kind_tkind in H
    | H : _ && _ = true |- _ => apply andb_prop in H; destruct H
    | H : negb _ = false |- _ => apply negb_false_iff in H
    | H : negb _ = true |- _ => apply negb_true_iff in H
    end.
  Create HintDb stb.
  Ltac go1 :=
    lazymatch goal with
    | |- wlp _ (bind _ _) _ _ _ => apply wlp_bind
    | |- wlp _ (Ret _) _ _ _ => cbn [wlp]
    | |- wlp _ Err _ _ _ => exact I
    | |- wlp _ (Panic _) _ _ _ => exact I
    | |- wlp _ next_nn _ _ _ => apply wl_next_nn; intros
    | |- wlp _ next_err _ _ _ => apply wl_next_err; intros
    | |- wlp _ must_next _ _ _ => apply wl_must_next; intros
    | |- wlp _ peek_nn _ _ _ => apply wl_peek_nn; intros
    | |- wlp _ peek _ _ _ => apply wl_peek; intros
    | |- wlp _ (Next Ret) _ _ _ => apply wl_next_ret; intros
    | |- wlp _ prev _ (_ :: _) _ => apply wl_prev
    | |- wlp _ (parse_keyword _) _ _ _ => apply wl_parse_keyword; intros
    | |- wlp _ (kw_ok _) _ _ _ => apply wl_kw_ok; intros
    | |- wlp _ (kw_tok _) _ _ _ => apply wl_kw_tok; intros
    | |- wlp _ (expect_keyword _) _ _ _ => apply wl_expect_keyword; intros
    | |- wlp _ (kws_ok _) _ _ _ => apply wl_kws_ok; intros
    | |- wlp _ (kws_toks _) _ _ _ => apply wl_kws_toks2; intros
    | |- wlp _ (consume_token _) _ _ _ => apply wl_consume; intros
    | |- wlp _ (expect_token _) _ _ _ => apply wl_expect_token; intros
    | |- wlp _ (next_kind _) _ _ _ => apply wl_next_kind; intros
    | |- wlp _ (word_of _) _ _ _ => apply wl_word_of; intros
    | |- wlp _ (str_of _) _ _ _ => apply wl_str_of; intros
    | |- wlp _ (or_err _) _ _ _ => apply wl_or_err; intros
    | |- wlp _ (let _ := _ in _) _ _ _ => cbv zeta
    | |- wlp _ (match ?x with _ => _ end) _ _ _ => destruct x eqn:?
    | |- wlp _ (Next _) _ _ ?t => destruct t eqn:?; cbn [wlp]; [|intros ?]
    | |- wlp _ (Peek _) _ _ ?t => destruct t eqn:?; cbn [wlp]; [|intros ?]
    | |- wlp _ (loop _ _ _) _ _ _ => fail
    | |- wlp _ _ _ _ _ => eapply wlp_call; [solve [eauto with stb]|cbn beta; intros]
    end.
  Ltac go := repeat (cbn beta iota; go1; tidy).

  (** Membership among the sub-nodes of a known node. *)
  Ltac isin :=
    first [ left; reflexivity | apply in_map; assumption | apply in_map, in_map; assumption
          | apply in_or_app; left; isin | apply in_or_app; right; isin | right; isin ].
  Ltac sub F :=
    apply (fine_sub _ _ F); unfold subnodes; cbn [fields flat_map held snd f1 f01 fl option_map map app AIdent];
    solve [isin].
  Ltac subs := match goal with F : fine _ |- fine _ => sub F end.
  Ltac ands := repeat match goal with |- _ && _ = true => apply andb_true_intro; split end.

  Lemma fw_list {A} (inj : A -> any) (wf : A -> bool) l :
    Forall (fun a => fine (inj a) -> wf a = true) l -> (forall a, In a l -> fine (inj a)) -> forallb wf l = true.
  Proof. intros H1 H2. apply forallb_forall. intros a I. rewrite Forall_forall in H1. auto. Qed.

  (* ---------------------------------------------------------------- *)
  (** ** Identifiers and types *)

  Lemma ok_kind x w : ok x -> tval x = VWord w -> tkind x = SQLKeyword.
  Proof. intros [H _] E. unfold tok_wf in H. rewrite E in H. destruct (tkind x); tauto. Qed.
  Lemma ok_upper x w : ok x -> tval x = VWord w -> wkeyword w = upper (wvalue w).
  Proof. intros [H _] E. unfold tok_wf in H. rewrite E in H. destruct (tkind x); tauto. Qed.
  Lemma ok_id x w : ok x -> tval x = VWord w -> wf_id dl (ident_of x w) = true.
  Proof. intros [_ H] E. rewrite E in H. apply H. Qed.
  Lemma ok_idt x w : ok x -> tval x = VWord w -> tval (idt (ident_of x w)) = VWord w.
  Proof. intros [_ H] E. rewrite E in H. unfold idt. cbn [tval ident_of id_value]. f_equal. apply H. Qed.
  Lemma ok_starts K x w l t : ok x -> tval x = VWord w -> starts K (idt (ident_of x w) :: l) = starts K (x :: t).
  Proof. intros H E. rewrite (starts_one K _ _ w (ok_idt x w H E)), (starts_one K x _ w E). reflexivity. Qed.
  Lemma ok_in ws x w : ok x -> tval x = VWord w -> word_in ws (ident_of x w) = existsb (kw w) ws.
  Proof.
    intros H E. unfold word_in. pose proof (ok_idt x w H E) as HI. unfold idt in HI. cbn [tval] in HI. injection HI as HI.
    change (id_value (ident_of x w)) with (word_string w). rewrite HI, <- (ok_upper x w H E). unfold mem_gs, kw. induction ws as [|s ws IH]; [reflexivity|]. cbn [map existsb]. rewrite IH. reflexivity.
  Qed.
  Lemma hr_word x w u t : ok x -> tval x = VWord w -> hr (idt (ident_of x w) :: u) (x :: t).
  Proof. intros H E. split; [discriminate|]. intros K _ S1. rewrite <- (ok_starts K x w u t H E). exact S1. Qed.

  Definition idp (t : toks) (i : ident) : Prop :=
    exists x w t1, t = x :: t1 /\ ok x /\ tval x = VWord w /\ i = ident_of x w.
  Lemma idp_wf t i : idp t i -> wf_id dl i = true.
  Proof. intros (x & w & t1 & -> & H & E & ->). apply ok_id; assumption. Qed.
  Definition idsp (t : toks) (l : list ident) : Prop :=
    forallb (wf_id dl) l = true /\ exists x w t1 l', t = x :: t1 /\ ok x /\ tval x = VWord w /\ l = ident_of x w :: l'.
  Lemma idsp_wf t l : idsp t l -> wf_ids dl l = true.
  Proof. intros (H & x & w & t1 & l' & -> & _ & _ & E). unfold wf_ids. rewrite H. subst l. reflexivity. Qed.
  Lemma idsp_all t l : idsp t l -> forallb (wf_id dl) l = true.
  Proof. intros H. apply H. Qed.

  Lemma parse_identifier_w t : wl parse_identifier (fun i _ _ => idp t i) [] t.
  Proof. unfold parse_identifier. go. unfold idp. eauto 8. Qed.
  Hint Resolve parse_identifier_w : stb.

  Lemma forallb_rev {A} (f : A -> bool) l : forallb f (rev l) = forallb f l.
  Proof.
    induction l as [|a l IH]; [reflexivity|]. cbn [rev forallb]. rewrite forallb_app, IH. cbn [forallb]. rewrite andb_true_r. apply andb_comm.
  Qed.
  Lemma parse_list_of_ids_w r k t :
    wl (parse_list_of_ids r k) (fun o _ _ => match o with Some l => idsp t l | None => True end) [] t.
  Proof.
    unfold parse_list_of_ids.
    apply wlp_loop with (Inv := fun s d t' =>
      forallb (wf_id dl) (fst s) = true /\
      (fst s = [] /\ snd s = true /\ t' = t \/
       exists x w t1 l', t = x :: t1 /\ ok x /\ tval x = VWord w /\ rev (fst s) = ident_of x w :: l')).
    - intros [acc ex] d t1 [HI1 HI2]. cbn [fst snd] in *. go; destruct ex; try exact I; cbn [fst snd] in *; tidy; auto; kinds; try discriminate.
      + destruct HI2 as [(-> & E & <-)|HI2]; [discriminate|]. split; [rewrite forallb_rev; exact HI1|exact HI2].
      + split; [cbn [forallb]; rewrite HI1, andb_true_r; eapply ok_id; eassumption|]. right.
        destruct HI2 as [(-> & _ & <-)|(x & w0 & t2 & l' & E1 & E2 & E3 & E4)].
        * cbn [rev app]. eauto 9.
        * cbn [rev]. rewrite E4. cbn [app]. eauto 9.
      + split; [exact HI1|]. destruct HI2 as [(-> & E & <-)|HI2]; [discriminate|]. right. exact HI2.
      + destruct HI2 as [(-> & E & <-)|HI2]; [discriminate|]. split; [rewrite forallb_rev; exact HI1|exact HI2].
    - split; [reflexivity|]. left. auto.
  Qed.
  Hint Resolve parse_list_of_ids_w : stb.
  Lemma parse_column_names_w r t : wl (parse_column_names r) (fun l _ _ => idsp t l) [] t.
  Proof. unfold parse_column_names. go. subst. assumption. Qed.
  Hint Resolve parse_column_names_w : stb.
  Lemma parse_object_name_w r t : wl (parse_object_name r) (fun n _ _ => idsp t (on_idents n)) [] t.
  Proof. unfold parse_object_name. go. subst. assumption. Qed.
  Hint Resolve parse_object_name_w : stb.

  Lemma parse_literal_int_w t : wl parse_literal_int (fun p _ _ => wf_int (fst p) = true) [] t.
  Proof. unfold parse_literal_int. go. cbn [fst]. eapply atoi_wf. eassumption. Qed.
  Hint Resolve parse_literal_int_w : stb.
  Lemma parse_optional_precision_w t : wl parse_optional_precision (fun p _ _ => all_opt wf_int (fst p) = true) [] t.
  Proof. unfold parse_optional_precision. go; subst; cbn [fst all_opt] in *; auto. Qed.
  Hint Resolve parse_optional_precision_w : stb.
  Lemma parse_optional_precision_scale_w t :
    wl parse_optional_precision_scale
       (fun p d t' => all_opt wf_int (fst p) = true /\ all_opt wf_int (snd p) = true /\
                      match fst p with Some _ => exists x d0, d = x :: d0 /\ ok x | None => d = [] end) [] t.
  Proof. unfold parse_optional_precision_scale. go; subst; cbn [fst snd all_opt] in *; repeat split; eauto. Qed.
  Hint Resolve parse_optional_precision_scale_w : stb.
  Lemma parse_my_unsigned_w t : wl parse_my_unsigned (fun _ _ _ => True) [] t.
  Proof. unfold parse_my_unsigned. go; exact I. Qed.
  Hint Resolve parse_my_unsigned_w : stb.
  Lemma parse_time_zone_w t : wl parse_time_zone (fun _ _ _ => True) [] t.
  Proof. unfold parse_time_zone. go; exact I. Qed.
  Hint Resolve parse_time_zone_w : stb.
  Lemma parse_data_type_w r t : wl (parse_data_type r) (fun a _ _ => wf_type dl a = true) [] t.
  Proof.
    unfold parse_data_type. go; cbn [wf_type fst snd] in *; subst; auto.
    - destruct o; tidy; subst; cbn [app].
      + go. cbn [fst snd wf_type some andb] in *. ands; assumption.
      + apply wl_prev. go. exfalso. match goal with H : tval ?x = VWord _ |- _ => apply ok_kind in H; [congruence|assumption] end.
    - cbn [wf_type] in *. ands; [eapply idsp_wf; eassumption|].
      match goal with H : idsp _ _ |- _ => destruct H as (_ & y & w1 & t1 & l' & E1 & E2 & E3 & ->) end. tidy.
      cbn [first_in]. rewrite (ok_in type_words y w1) by assumption. apply negb_true_iff. rewrite E3 in *.
      repeat match goal with H : VWord _ = VWord _ |- _ => injection H as <- end.
      unfold type_words. cbn [existsb].
      repeat match goal with H : kw w1 _ = false |- _ => rewrite H; clear H | H : kw w1 _ || kw w1 _ = false |- _ => apply orb_false_iff in H as [? ?] end.
      reflexivity.
  Qed.
  Hint Resolve parse_data_type_w : stb.

  (* ---------------------------------------------------------------- *)
  (** ** What is known of the recursive calls *)

  Definition ep (t : toks) (e : node) : Prop := hr (t_node e) t /\ (fine (AExpr e) -> wf_node dl e = true).
  (** The next token is no alias. *)
  Definition noal (reserved : list gostring) (t : toks) : Prop :=
    match t with x :: _ => forall w, tval x = VWord w -> mem_gs (wkeyword w) reserved = true | [] => True end.
  Definition after (e : ending) (t : toks) : Prop :=
    match e with
    | EndBareItem => noal reserved_column_alias t
    | EndBareTable => noal reserved_table_alias t
    | _ => True
    end.
  Definition open_par (t : toks) : Prop := match t with x :: _ => tkind x = LParen | [] => False end.
  Definition bp (t : toks) (s : setexpr) (t' : toks) : Prop :=
    (fine (ASet s) -> wf_setexpr dl s = true) /\ after (set_end s) t' /\ (starts_select s = true \/ open_par t /\ kwno "SELECT" t) /\
    (forall x t1, t = x :: t1 -> kwno "WITH" t1 -> selects_with s = false).
  Definition qp (t : toks) (q : query) (t' : toks) : Prop :=
    (fine (AQuery q) -> wf_query dl q = true) /\ after (query_end q) t' /\ (top_query q = true \/ open_par t) /\
    (forall x t1, t = x :: t1 -> is_kw (gs "SELECT") x = true -> kwno "WITH" t1 -> sub_query q = true) /\
    (forall x t1, t = x :: t1 -> is_kw (gs "WITH") x = true -> sub_query q = true).
  Definition noright (t : toks) : Prop :=
    match t with
    | x :: _ => forall w, tval x = VWord w ->
        existsb (kw w) ["NATURAL"; "CROSS"; "INNER"; "LEFT"; "RIGHT"; "FULL"; "JOIN"] = false
    | [] => True
    end.
  Definition rp (t : tableref) (t' : toks) : Prop :=
    (fine (ARef t) -> wf_tableref dl t = true) /\ (bare_table t = true -> noal reserved_table_alias t') /\ noright t'.
  Record wspec (r : rec) : Prop := {
    ws_stmt : forall t, wl (r_stmt r) (fun s _ _ => fine (of_stmt s) -> wf_stmt dl s = true) [] t;
    ws_query : forall t, wl (r_query r) (fun q _ t' => qp t q t') [] t;
    ws_body : forall p t, wl (r_body r p) (fun s _ t' => bp t s t') [] t;
    ws_subexpr : forall p t, wl (r_subexpr r p) (fun e _ _ => ep t e) [] t;
    ws_tref : forall t, wl (r_tref r) (fun a _ t' => rp a t') [] t }.
  Hint Resolve ws_stmt ws_query ws_body ws_subexpr ws_tref : stb.

  (* ---------------------------------------------------------------- *)
  (** ** Expressions *)

  Lemma sepby_snoc s l x : l <> [] -> sepby s (l ++ [x]) = sepby s l ++ s :: x.
  Proof.
    induction l as [|a l IH]; intros H; [congruence|]. destruct l as [|b l]; [reflexivity|].
    change (sepby s ((a :: b :: l) ++ [x])) with (a ++ s :: sepby s ((b :: l) ++ [x])). rewrite IH by discriminate.
    change (sepby s (a :: b :: l)) with (a ++ s :: sepby s (b :: l)). rewrite <- app_assoc. reflexivity.
  Qed.
  Lemma commas_snoc {A} (f : A -> list token) l x : l <> [] -> commas f (l ++ [x]) = commas f l ++ comma :: f x.
  Proof. intros H. unfold commas. rewrite map_app. apply sepby_snoc. destruct l; [congruence|discriminate]. Qed.
  Lemma rev_nil {A} (l : list A) : rev l = [] -> l = [].
  Proof. intros H. rewrite <- (rev_involutive l), H. reflexivity. Qed.
  Definition hri {A} (f : A -> list token) (t : toks) (acc : list A) (t1 : toks) : Prop :=
    acc = [] /\ t1 = t \/ acc <> [] /\ hr (commas f (rev acc)) t.
  Lemma hri_step {A} (f : A -> list token) t acc x t1 : hri f t acc t1 -> hr (f x) t1 -> hr (commas f (rev (x :: acc))) t.
  Proof.
    intros [[-> ->]|[N H]] H2; [exact H2|]. cbn [rev]. rewrite commas_snoc; [apply hr_app; exact H|].
    intros E. apply rev_nil in E. contradiction.
  Qed.
  Lemma hri_cons {A} (f : A -> list token) t acc x t1 : hr (commas f (rev (x :: acc))) t -> hri f t (x :: acc) t1.
  Proof. intros H. right. split; [discriminate|exact H]. Qed.
  Lemma nonempty_rev {A} (x : A) l : nonempty (rev (x :: l)) = true.
  Proof. destruct (rev_cons_ex x l) as (? & ? & ->). reflexivity. Qed.

  Lemma parse_expr_w r t : wspec r -> wl (parse_expr r) (fun e _ _ => ep t e) [] t.
  Proof. intros HR. apply (ws_subexpr r HR). Qed.
  Hint Resolve parse_expr_w : stb.

  Definition elp (t : toks) (l : list node) : Prop :=
    hr (commas t_node l) t /\ Forall (fun e => fine (AExpr e) -> wf_node dl e = true) l /\ nonempty l = true.
  Lemma parse_expr_list_w r t : wspec r -> wl (parse_expr_list r) (fun l _ _ => elp t l) [] t.
  Proof.
    intros HR. unfold parse_expr_list, elp.
    apply wlp_loop with (Inv := fun acc d t1 => hri t_node t acc t1 /\ Forall (fun e => fine (AExpr e) -> wf_node dl e = true) acc).
    - intros acc d t1 [HI1 HI2]. go; match goal with H : ep _ _ |- _ => destruct H as [E1 E2] end;
        pose proof (hri_step _ _ _ _ _ HI1 E1) as HS; try (split; [apply hri_cons; exact HS|constructor; assumption]);
        (split; [exact HS|]; split; [apply Forall_rev; constructor; assumption|apply nonempty_rev]).
    - split; [left; auto|constructor].
  Qed.
  Hint Resolve parse_expr_list_w : stb.
  Lemma elp_all t l (F : forall a, In a l -> fine (AExpr a)) : elp t l -> forallb (wf_node dl) l = true.
  Proof. intros (_ & H & _). eapply (fw_list AExpr); eassumption. Qed.
  Lemma parse_optional_args_w r t : wspec r ->
    wl (parse_optional_args r) (fun l _ _ => Forall (fun e => fine (AExpr e) -> wf_node dl e = true) l) [] t.
  Proof. intros HR. unfold parse_optional_args. go; subst; auto. match goal with H : elp _ _ |- _ => apply H end. Qed.
  Hint Resolve parse_optional_args_w : stb.

  Lemma parse_order_by_list_w r t : wspec r ->
    wl (parse_order_by_list r)
       (fun l _ _ => Forall (fun o => fine (AOrder o) -> wf_orderby dl o = true) l /\ nonempty l = true) [] t.
  Proof.
    intros HR. unfold parse_order_by_list.
    apply wlp_loop with (Inv := fun acc d t1 => Forall (fun o => fine (AOrder o) -> wf_orderby dl o = true) acc); [|constructor].
    intros acc d t1 HI.
    assert (X : forall e p a t0, ep t0 e -> Forall (fun o => fine (AOrder o) -> wf_orderby dl o = true) (OrderBy e p a :: acc)).
    { intros e p a t0 [_ H]. constructor; [|exact HI]. intros F. rewrite wf_orderby_eq. apply H. subs. }
    go; try (eapply X; eassumption); (split; [apply Forall_rev; eapply X; eassumption|apply nonempty_rev]).
  Qed.
  Hint Resolve parse_order_by_list_w : stb.

  Lemma parse_window_frame_bound_w t : wl parse_window_frame_bound (fun b _ _ => wf_bound b = true) [] t.
  Proof. unfold parse_window_frame_bound. go; cbn [wf_bound fst] in *; auto. Qed.
  Hint Resolve parse_window_frame_bound_w : stb.
  Lemma parse_window_frame_w t : wl parse_window_frame (fun f _ _ => all_opt wf_wframe f = true) [] t.
  Proof. unfold parse_window_frame. go; cbn [all_opt]; unfold wf_wframe; cbn [wf_start wf_end all_opt]; ands; auto. Qed.
  Hint Resolve parse_window_frame_w : stb.

  Definition pp (t : toks) (e : node) : Prop := ep t e /\ atomic e = true.
  Lemma parse_function_w r n t0 t : wspec r -> wf_on dl n = true -> first_in expr_words (on_idents n) = false ->
    hr (t_name n) t0 -> wl (parse_function r n) (fun e _ _ => pp t0 e) [] t.
  Proof.
    intros HR H1 H2 H3. unfold parse_function. go; subst.
    all: split; [|reflexivity]; split; [rewrite t_node_eq; apply hr_app; exact H3|]; intros F; rewrite wf_node_eq; rewrite H1, H2;
      cbn [negb andb]; ands; try reflexivity; try (eapply (fw_list AExpr); [eassumption|]; intros; sub F).
    all: rewrite wf_winspec_eq; ands; try assumption; try reflexivity.
    all: match type of F with fine (AExpr (EFunction _ _ _ (Some ?w) _)) => assert (FW : fine (AWin w)) by (sub F) end.
    all: try (eapply (elp_all _ _); [intros; sub FW|eassumption]).
    all: eapply (fw_list AOrder); [eassumption|]; intros; sub FW.
  Qed.

  Lemma hr_kw s u v : forallb (fun K => negb (starts K [kwt s])) asked = true -> hr (kwt s :: u) v.
  Proof. apply hr_other. Qed.
  Lemma parse_value_w t : wl parse_value (fun e _ _ => pp t e) [] t.
  Proof.
    unfold parse_value. go; subst; (split; [|reflexivity]); (split; [rewrite t_node_eq; try (apply hr_other; reflexivity)|]);
      try (intros F; pose proof (fine_clean _ F) as HC; rewrite wf_node_eq; cbn [clean] in HC; try reflexivity; try exact HC).
    - apply double_wf; [eapply parse_float_canonical; eassumption|exact HC].
    - apply long_wf.
  Qed.
  Hint Resolve parse_value_w : stb.

  Lemma case_loop_w r t : wspec r ->
    wl (loop (r_fuel r)
        (fun acc =>
           c <- parse_expr r ;;
           expect_keyword "THEN" ;;;
           v <- parse_expr r ;;
           w <- kw_ok "WHEN" ;;
           Ret (if w : bool then inl ((c, v) :: acc) else inr (rev ((c, v) :: acc))))
        [])
      (fun l _ _ => nonempty l = true /\
         Forall (fun p => (fine (AExpr (fst p)) -> wf_node dl (fst p) = true) /\ (fine (AExpr (snd p)) -> wf_node dl (snd p) = true)) l) [] t.
  Proof.
    intros HR.
    apply wlp_loop with (Inv := fun acc _ _ =>
      Forall (fun p => (fine (AExpr (fst p)) -> wf_node dl (fst p) = true) /\ (fine (AExpr (snd p)) -> wf_node dl (snd p) = true)) acc); [|constructor].
    intros acc d t1 HI. go.
    all: repeat match goal with H : ep _ _ |- _ => destruct H as [_ ?] end.
    - split; [apply nonempty_rev|]. apply Forall_rev. constructor; [split; assumption|exact HI].
    - constructor; [split; assumption|exact HI].
  Qed.
  Lemma parse_case_w r t : wspec r -> wl (parse_case r) (fun e _ _ => pp t e) [] t.
  Proof.
    intros HR. unfold parse_case. go.
    all: eapply wlp_call; [apply case_loop_w; assumption|cbn beta; intros]; go; subst.
    all: split; [|reflexivity]; split; [rewrite t_node_eq; apply hr_kw; reflexivity|]; intros F; rewrite wf_node_eq.
    all: repeat match goal with H : ep _ _ |- _ => destruct H end.
    all: match type of F with fine (AExpr (ECase _ _ _ ?b _)) =>
           assert (FS : forall p, In p b -> fine (AExpr (fst p)) /\ fine (AExpr (snd p))) by (intros; split; sub F);
           assert (FB : forallb (fun p => match p with (c, r) => wf_node dl c && wf_node dl r end) b = true);
           [apply forallb_forall; intros [c v] I;
            match goal with H : Forall _ b |- _ => rewrite Forall_forall in H; destruct (H _ I) as [B1 B2]; cbn [fst snd] in B1, B2 end;
            rewrite B1, B2; [reflexivity|apply (FS _ I)|apply (FS _ I)]
           |rewrite FB] end.
    all: repeat match goal with H : nonempty _ = true |- _ => rewrite H; clear H end; cbn [andb]; rewrite ?andb_true_r; ands; try reflexivity.
    all: try (match goal with H : fine _ -> _ = true |- _ => apply H; sub F end).
    all: apply negb_true_iff; eapply hr_no; [eassumption|cbn; tauto|apply kwno_starts; assumption].
  Qed.
  Hint Resolve parse_case_w : stb.
  Lemma parse_cast_w r t : wspec r -> wl (parse_cast r) (fun e _ _ => pp t e) [] t.
  Proof.
    intros HR. unfold parse_cast. go. split; [|reflexivity]. split; [rewrite t_node_eq; apply hr_kw; reflexivity|].
    intros F. rewrite wf_node_eq. match goal with H : ep _ _ |- _ => destruct H as [_ H]; rewrite H by (sub F) end. assumption.
  Qed.
  Hint Resolve parse_cast_w : stb.
  Definition xp (o : option token) (t : toks) (e : node) : Prop :=
    atomic e = true /\ (fine (AExpr e) -> wf_node dl e = true) /\
    (o = None -> hr (t_node e) t) /\ (o <> None -> exists u, t_node e = kwt "NOT" :: u).
  Lemma parse_exists_w r o t : wspec r -> wl (parse_exists r o) (fun e _ _ => xp o t e) [] t.
  Proof.
    intros HR. unfold parse_exists, xp. go. match goal with H : qp _ _ _ |- _ => destruct H as (H & _) end. destruct o; rewrite t_node_eq; cbn [cond app].
    - split; [reflexivity|]. split; [|split; [discriminate|eauto]]. intros F. rewrite wf_node_eq. apply H. sub F.
    - split; [reflexivity|]. split; [|split; [intros _|congruence]].
      + intros F. rewrite wf_node_eq. apply H. sub F.
      + split; [discriminate|]. intros K I S1. cbn [asked In] in I. unfold is_kw in *.
        destruct (tval x) as [w|v] eqn:E; [|discriminate].
        rewrite (starts_one K x _ w E). repeat (destruct I as [<-|I]; [try assumption; discriminate|]). destruct I.
  Qed.

  Lemma parse_dotted_w r x w t : ok x -> tval x = VWord w ->
    wl (parse_dotted r (ident_of x w))
       (fun p d t' => forallb (wf_id dl) (fst p) = true /\ (exists l, fst p = ident_of x w :: l) /\
          (snd p = false -> d = [] /\ match t' with y :: _ => tkind y <> Period | [] => True end \/ (2 <= List.length (fst p))%nat)) [] t.
  Proof.
    intros Hx Hw. unfold parse_dotted.
    apply wlp_loop with (Inv := fun acc d _ =>
      forallb (wf_id dl) acc = true /\ (exists l, rev acc = ident_of x w :: l) /\ (d = [] \/ (2 <= List.length acc)%nat)).
    - intros acc d t1 (HI1 & (l & HI2) & HI3). go; cbn [fst snd] in *; rewrite ?forallb_rev, ?rev_length.
      + repeat split; eauto. destruct HI3; auto.
      + repeat split.
        * cbn [forallb]. rewrite HI1, andb_true_r. eapply ok_id; eassumption.
        * cbn [rev]. rewrite HI2. cbn [app]. eauto.
        * right. destruct acc; [discriminate|]. cbn. lia.
      + repeat split; eauto. discriminate.
    - repeat split; [|exists []; reflexivity|auto]. cbn [forallb]. rewrite andb_true_r. apply ok_id; assumption.
  Qed.
  Lemma t_dots_hr x w l t : ok x -> tval x = VWord w -> hr (t_dots (ident_of x w :: l)) (x :: t).
  Proof.
    intros Hx Hw. unfold t_dots. cbn [map]. destruct l; [apply hr_word; assumption|].
    match goal with |- hr (sepby _ (?a :: ?b)) _ => change (sepby dot (a :: b)) with (a ++ dot :: sepby dot b) end. apply hr_app, hr_word; assumption.
  Qed.
  Lemma sub_ok q t t' : qp t q t' -> (exists x t1, t = x :: t1 /\ (is_kw (gs "SELECT") x = true /\ kwno "WITH" t1 \/ is_kw (gs "WITH") x = true)) ->
    sub_query q = true.
  Proof. intros (_ & _ & _ & H1 & H2) (x & t1 & -> & [[E1 E2]|E1]); eauto. Qed.
  Lemma unary_lt p o e : fine (AExpr (EUnary p o e)) -> level (op_type o) < lopen e.
  Proof. intros F. pose proof (fine_bound _ F) as B. cbn [well_bound] in B. pose proof (lopen_ge e). lia. Qed.

  Lemma parse_prefix_w r t : wspec r -> wl (parse_prefix r) (fun e _ _ => pp t e) [] t.
  Proof.
    intros HR. unfold parse_prefix.
    apply wlp_bind, wl_next_err. intros x t' -> Hx.
    destruct (tkind x) eqn:Ek; try exact I.
    - (* words *)
      apply wlp_bind, wl_word_of. intros w Hw.
      destruct (kw w "TRUE" || kw w "FALSE" || kw w "NULL") eqn:E1; [go; assumption|].
      destruct (kw w "CASE") eqn:E2; [go; assumption|].
      destruct (kw w "CAST") eqn:E3; [go; assumption|].
      destruct (kw w "EXISTS") eqn:E4.
      { apply wlp_bind, wl_prev. eapply wlp_call; [apply parse_exists_w; assumption|].
        cbn beta. intros e d1 t1 (H1 & H2 & H3 & _) _. split; [split|]; auto. }
      destruct (kw w "NOT") eqn:E5.
      { apply wlp_bind, wl_kw_ok.
        - intros Hno. apply wlp_bind. eapply wlp_call; [apply (ws_subexpr r HR)|].
          intros e d1 t1 [H1 H2] _. cbn [wlp]. split; [|reflexivity]. split; [rewrite t_node_eq; apply hr_kw; reflexivity|].
          intros F. rewrite wf_node_eq. cbn [op_type]. rewrite H2 by (sub F). pose proof (unary_lt _ _ _ F) as B. cbn [op_type] in B. ands; [reflexivity|lia|].
          apply negb_true_iff. eapply hr_no; [eassumption|cbn; tauto|apply kwno_starts; assumption].
        - intros y t1 -> Hy Ky. apply wlp_bind, wl_prev. eapply wlp_call; [apply parse_exists_w; assumption|].
          cbn beta. intros e d1 t2 (H1 & H2 & _ & H3) _. split; [split|]; auto.
          destruct (H3 ltac:(discriminate)) as [u ->]. apply hr_kw; reflexivity. }
      assert (HN : forall l, first_in expr_words (ident_of x w :: l) = false).
      { intros l. cbn [first_in]. rewrite (ok_in expr_words x w) by assumption. unfold expr_words. cbn [existsb].
        apply orb_false_iff in E1 as [E1 E1c]. apply orb_false_iff in E1 as [E1a E1b].
        rewrite E1a, E1b, E1c, E2, E3, E4, E5. reflexivity. }
      assert (HP : pp (x :: t') (EIdent (ident_of x w))).
      { split; [|reflexivity]. split; [rewrite t_node_eq; apply hr_word; assumption|]. intros _. rewrite wf_node_eq.
        rewrite (ok_id x w Hx Hw). apply negb_true_iff. apply (HN []). }
      apply wlp_bind, wl_peek.
      + intros ->. exact HP.
      + intros y t1 -> Hy. destruct (negb (is_kind LParen y) && negb (is_kind Period y)) eqn:E6; [exact HP|].
        apply wlp_bind. eapply wlp_call; [apply parse_dotted_w; eassumption|]. cbn beta.
        intros [parts wild] d1 t2 (D1 & (l & D2) & D3) Et. cbn [fst snd] in *. subst parts.
        assert (W : wf_ids dl (ident_of x w :: l) = true) by (unfold wf_ids; rewrite D1; reflexivity).
        destruct wild.
        { cbn [wlp]. split; [|reflexivity]. split; [rewrite t_node_eq; apply hr_app, t_dots_hr; assumption|]. intros _. rewrite wf_node_eq, W, HN. reflexivity. }
        apply wlp_bind, wl_consume.
        * intros Hn. cbn [wlp]. split; [|reflexivity]. split; [rewrite t_node_eq; apply t_dots_hr; assumption|]. intros _. rewrite wf_node_eq, W, HN.
          cbn [negb andb]. apply Nat.ltb_lt. destruct (D3 eq_refl) as [[-> D4]|D4]; [|lia]. exfalso. cbn in Et. subst t2.
          unfold is_kind in E6. destruct (tkind y); cbn in E6; congruence.
        * intros z t3 -> Hz Kz. apply wlp_bind, wl_prev. eapply wlp_call; [apply (parse_function_w r (mkON (ident_of x w :: l)) (x :: y :: t1))|]; auto;
            [apply HN|unfold t_name; cbn [on_idents]; apply t_dots_hr; assumption].
    - go; assumption.
    - go; assumption.
    - go; assumption.
    - apply wlp_bind. eapply wlp_call; [apply (ws_subexpr r HR)|].
      intros e d1 t1 [H1 H2] _. cbn [wlp]. split; [|reflexivity]. split; [rewrite t_node_eq; apply hr_other; reflexivity|].
      intros F. rewrite wf_node_eq. cbn [op_type]. rewrite H2 by (sub F). pose proof (unary_lt _ _ _ F) as B. cbn [op_type] in B. ands; try reflexivity; lia.
    - apply wlp_bind. eapply wlp_call; [apply (ws_subexpr r HR)|].
      intros e d1 t1 [H1 H2] _. cbn [wlp]. split; [|reflexivity]. split; [rewrite t_node_eq; apply hr_other; reflexivity|].
      intros F. rewrite wf_node_eq. cbn [op_type]. rewrite H2 by (sub F). pose proof (unary_lt _ _ _ F) as B. cbn [op_type] in B. ands; try reflexivity; lia.
    - cbn [wlp]. split; [|reflexivity]. split; [rewrite t_node_eq; apply hr_other; reflexivity|]. reflexivity.
    - go; cbn [orb] in *; try discriminate; (split; [|reflexivity]); (split; [rewrite t_node_eq; apply hr_other; reflexivity|]); intros F; rewrite wf_node_eq.
      1: match goal with H : ep _ _ |- _ => destruct H as [E1 E2] end; rewrite E2 by (sub F);
        ands; [reflexivity| |]; apply negb_true_iff; eapply hr_no; try eassumption; try (cbn; tauto); apply kwno_starts; assumption.
      all: match goal with H : qp _ _ _ |- _ => rewrite (sub_ok _ _ _ H); [destruct H as [H _]; rewrite H by (sub F); reflexivity|eauto 8] end.
  Qed.
  Hint Resolve parse_prefix_w : stb.

  Definition fw (e : node) : Prop := fine (AExpr e) -> wf_node dl e = true.
  (** An infix form: it begins like its left operand. *)
  Definition ip (e : node) (neg : bool) (e' : node) : Prop :=
    fw e' /\ (forall t0, hr (t_node e) t0 -> hr (t_node e') t0) /\ (neg = false -> no_not e = true -> no_not e' = true).
  Lemma ip_conseq e n m e' : ip e n e' -> (m = false -> n = false) -> ip e m e'.
  Proof. intros (H1 & H2 & H3) H. split; [exact H1|]. split; auto. Qed.
  Lemma parse_in_w r e neg t : wspec r -> fw e -> wl (parse_in r e neg) (fun e' _ _ => ip e neg e') [] t.
  Proof.
    intros HR He. unfold parse_in. go; cbn [orb] in *; try discriminate.
    all: split; [intros F|split; [intros ? HH; rewrite t_node_eq; apply hr_app; exact HH|intros -> N; exact N]].
    all: rewrite wf_node_eq; rewrite (He ltac:(sub F)); pose proof (fine_bound _ F) as B; cbn [well_bound] in B.
    all: try (match goal with H : qp _ _ _ |- _ => rewrite (sub_ok _ _ _ H); [destruct H as [H _]; rewrite H by (sub F); ands; try reflexivity; lia|eauto 8] end).
    match goal with H : elp _ _ |- _ => pose proof H as [E1 [_ E2]] end. rewrite E2.
    ands; try (eapply elp_all; [intros; sub F|eassumption]); try reflexivity; try lia; apply negb_true_iff; eapply hr_no; try eassumption; try (cbn; tauto); apply kwno_starts; assumption.
  Qed.
  Hint Resolve parse_in_w : stb.
  Lemma parse_between_w r e neg t : wspec r -> fw e -> wl (parse_between r e neg) (fun e' _ _ => ip e neg e') [] t.
  Proof.
    intros HR He. unfold parse_between. go; cbn [orb] in *.
    repeat match goal with H : pp _ _ |- _ => destruct H as [[_ ?] ?] end.
    split; [intros F|split; [intros ? HH; rewrite t_node_eq; apply hr_app; exact HH|intros -> N; exact N]].
    rewrite wf_node_eq; rewrite (He ltac:(sub F)); pose proof (fine_bound _ F) as B; cbn [well_bound] in B.
    repeat match goal with H : fine _ -> _ |- _ => rewrite H by (sub F) end. ands; auto. lia.
  Qed.
  Hint Resolve parse_between_w : stb.

  Lemma infix_operator_w x t : ok x ->
    wl (infix_operator x)
       (fun o d _ => match o with
                      | Some op => match op with ONot | ONone => False | _ => True end /\
                                   (op = ONotLike -> exists w, tval x = VWord w /\ kw w "NOT" = true)
                      | None => d = []
                      end) [] t.
  Proof.
    intros Hx. unfold infix_operator. destruct (tkind x) eqn:Ek; try (cbn; auto; (split; [exact I|discriminate])).
    go; try reflexivity; (split; [exact I|]); intros; try discriminate; eauto.
  Qed.
  Lemma parse_infix_w r e p t : wspec r -> fw e ->
    wl (parse_infix r e p)
       (fun e' _ _ => ip e (match t with x :: _ => match tval x with VWord w => kw w "NOT" | VStr _ => false end | [] => false end) e') [] t.
  Proof.
    intros HR He. unfold parse_infix.
    apply wlp_bind, wl_next_err. intros x t' -> Hx.
    apply wlp_bind. eapply wlp_call; [apply infix_operator_w; exact Hx|]. cbn beta.
    intros [op|] d1 t1 HO Et.
    { destruct HO as [HO1 HO2]. apply wlp_bind. eapply wlp_call; [apply (ws_subexpr r HR)|].
      intros e' d2 t2 [H1 H2] _. cbn [wlp].
      split; [intros F|split; [intros ? HH; rewrite t_node_eq; apply hr_app; exact HH|]].
      - rewrite wf_node_eq. rewrite (He ltac:(sub F)), (H2 ltac:(sub F)). cbn [op_type].
        pose proof (fine_bound _ F) as B. cbn [well_bound op_type] in B. pose proof (lopen_ge e'). ands; try reflexivity; try lia.
        destruct op; try reflexivity; destruct HO1.
      - intros N1 N2. cbn [no_not op_type]. rewrite N2, andb_true_r. destruct op; try reflexivity.
        destruct (HO2 eq_refl) as (w & E1 & E2). rewrite E1 in N1. congruence. }
    subst d1. cbn [rev app] in Et. subst t1. destruct (tkind x) eqn:Ek; try exact I.
    - apply wlp_bind, wl_word_of. intros w Hw. rewrite Hw.
      destruct (kw w "IS") eqn:E1.
      { go; (split; [intros F|split; [intros ? HH; rewrite t_node_eq; apply hr_app; exact HH|intros _ N; exact N]]).
        all: rewrite wf_node_eq; rewrite (He ltac:(sub F)); pose proof (fine_bound _ F) as B; cbn [well_bound] in B; cbn [andb]; lia. }
      destruct (kw w "NOT" || kw w "IN" || kw w "BETWEEN") eqn:E2; [|exact I].
      cbn [app]. apply wlp_bind, wl_prev. apply wlp_bind.
      assert (HN : is_kw (gs "NOT") x = true -> kw w "NOT" = true).
      { unfold is_kw, kw. rewrite Hw, (ok_upper x w Hx Hw). intros H. apply kw_up in H; [|reflexivity]. rewrite H. apply gs_eqb_refl. }
      apply wl_kw_ok.
      + intros Hno. go.
        all: eapply ip_conseq; [eassumption|auto].
      + intros y t2 E Hy Ky. injection E as <- <-. rewrite (HN Ky). go.
        all: eapply ip_conseq; [eassumption|discriminate].
    - go. split; [intros F|split; [intros ? HH; rewrite t_node_eq; apply hr_kw; reflexivity|intros _ N; reflexivity]].
      rewrite wf_node_eq. rewrite (He ltac:(sub F)). assumption.
  Qed.
  Hint Resolve parse_infix_w : stb.
  Lemma get_next_precedence_w t : wl get_next_precedence (fun _ d t' => d = [] /\ t' = t) [] t.
  Proof. unfold get_next_precedence, get_precedence. go; auto. Qed.
  Lemma parse_subexpr_w r p t : wspec r -> wl (parse_subexpr r p) (fun e _ _ => ep t e) [] t.
  Proof.
    intros HR. unfold parse_subexpr. apply wlp_bind. eapply wlp_call; [apply parse_prefix_w; assumption|].
    intros e d1 t1 [H1 _] _. unfold infix_loop.
    apply wlp_loop with (Inv := fun e _ _ => ep t e); [|exact H1].
    clear e H1. intros e d t2 [H1 H2]. apply wlp_bind. eapply wlp_call; [apply get_next_precedence_w|].
    cbn beta. intros np d2 t3 [-> ->] _. destruct (np <=? p); [split; assumption|].
    apply wlp_bind. eapply wlp_call; [apply (parse_infix_w r e np t2 HR H2)|]. intros e' d3 t3 (J1 & J2 & J3) _.
    split; auto.
  Qed.
  Lemma parse_default_expr_w r t : wspec r -> wl (parse_default_expr r) (fun e _ _ => fw e /\ no_not e = true) [] t.
  Proof.
    intros HR. unfold parse_default_expr. apply wlp_bind. eapply wlp_call; [apply parse_prefix_w; assumption|].
    intros e d1 t1 [[_ H1] H2] _. apply no_not_atomic in H2.
    apply wlp_loop with (Inv := fun e _ _ => fw e /\ no_not e = true); [|split; assumption].
    clear - HR. intros e d t [H1 H2]. apply wlp_bind.
    assert (HQ : forall (s : bool),
      (s = false -> match t with x :: _ => match tval x with VWord w => kw w "NOT" | VStr _ => false end | [] => false end = false) ->
      wl
      (if s then Ret (inr e)
       else np <- get_next_precedence ;;
            if np <=? 0 then Ret (inr e)
            else e' <- parse_infix r e np ;; Ret (inl e'))
      (fun r0 _ _ => match r0 with inl s' => fw s' /\ no_not s' = true | inr a => fw a /\ no_not a = true end) d t).
    { intros [|] Hs; [split; assumption|]. apply wlp_bind. eapply wlp_call; [apply get_next_precedence_w|].
      cbn beta. intros np d2 t3 [-> ->] _. destruct (np <=? 0); [split; assumption|].
      apply wlp_bind. eapply wlp_call; [apply (parse_infix_w r e np t HR H1)|]. intros e' d3 t3 (J1 & J2 & J3) _.
      split; auto. }
    apply wl_peek.
    - intros ->. apply (HQ false). reflexivity.
    - intros x t' -> Hx. apply wlp_bind. destruct (is_kind SQLKeyword x) eqn:Ek.
      + apply wlp_bind, wl_word_of. intros w Hw. apply (HQ _). rewrite Hw. intros H. apply orb_false_iff in H. apply H.
      + apply (HQ false). intros _. destruct (tval x) as [w|v] eqn:E; [|reflexivity]. apply ok_kind in E; [|assumption].
        unfold is_kind in Ek. rewrite E in Ek. discriminate.
  Qed.
  Hint Resolve parse_default_expr_w : stb.

  (* ---------------------------------------------------------------- *)
  (** ** Queries *)

  Lemma parse_optional_alias_w l t :
    wl (parse_optional_alias l) (fun a _ t' => match a with Some i => wf_id dl i = true | None => noal l t' end) [] t.
  Proof.
    unfold parse_optional_alias. go; cbn [noal]; auto; try (eapply ok_id; eassumption).
    - intros w1 E. kinds. rewrite E in *.
      match goal with H : VWord _ = VWord _ |- _ => injection H as <- end.
      match goal with H : _ || _ = false |- _ => apply orb_false_iff in H as [_ H] end. kinds. assumption.
    - intros w1 E. exfalso. apply ok_kind in E; [|assumption]. unfold is_kind in *. rewrite E in *. discriminate.
  Qed.
  Hint Resolve parse_optional_alias_w : stb.
  Lemma parse_limit_w t : wl parse_limit (fun l _ _ => wf_limit l = true) [] t.
  Proof.
    unfold parse_limit. go; cbn [fst] in *; unfold wf_limit; cbn [lim_value AST.lim_offset lv_long all_opt some]; ands; auto.
  Qed.
  Hint Resolve parse_limit_w : stb.

  Definition ap (l : list gostring) (a : option ident) (t' : toks) : Prop :=
    match a with Some i => wf_id dl i = true | None => noal l t' end.
  Lemma ap_wf l a t' : ap l a t' -> all_opt (wf_id dl) a = true.
  Proof. destruct a; [exact (fun H => H)|reflexivity]. Qed.
  Lemma ap_no l a t' b : ap l a t' -> negb (some a) && b = true -> noal l t'.
  Proof. destruct a; [discriminate|]. exact (fun H _ => H). Qed.
  Lemma starts_app K u w : starts K u = true -> starts K (u ++ w) = true.
  Proof. destruct u; [discriminate|]. exact (fun H => H). Qed.
  Lemma starts_dots K t l : idsp t l -> starts K (t_dots l) = starts K t.
  Proof.
    intros (_ & x & w & t1 & l' & -> & Hx & Hw & ->). unfold t_dots. cbn [map]. destruct l'; [apply ok_starts; assumption|].
    match goal with |- starts _ (sepby _ (?a :: ?b)) = _ => change (sepby dot (a :: b)) with (a ++ dot :: sepby dot b) end. apply ok_starts; assumption.
  Qed.
  Definition fp (f : tableref) (t' : toks) : Prop :=
    (fine (ARef f) -> wf_tableref dl f = true) /\ factor f = true /\ (bare_table f = true -> noal reserved_table_alias t').
  Lemma parse_table_factor_w r t : wspec r -> wl (parse_table_factor r) (fun f _ t' => fp f t') [] t.
  Proof.
    intros HR. unfold parse_table_factor. go; try fold (ap reserved_table_alias a0 t'0) in *; unfold fp; (split; [|split; [reflexivity|]]).
    all: repeat match goal with H : match ?a with Some i => wf_id dl i = true | None => noal ?l ?t end |- _ => change (ap l a t) in H end.
    all: cbn [bare_table nonempty negb]; try (intros F; pose proof (fine_clean _ F) as HC; rewrite wf_tableref_eq; cbn [nonempty negb]; rewrite ?andb_true_r).
    all: try (match type of HC with clean (ARef (TRTable _ _ ?l _ _ _)) = true => is_var l; destruct l; [|discriminate] end).
    all: try (match goal with H : ap _ _ ?t |- negb (some _) && _ = true -> noal _ ?t => apply (ap_no _ _ _ _ H) end).
    all: try (match goal with H : ap _ _ ?t |- negb (some _) = true -> noal _ ?t => intros N; eapply (ap_no _ _ _ true H); rewrite N; reflexivity end).
    all: try (match goal with H : elp _ ?l |- negb (some _) && negb (nonempty ?l) = true -> _ => destruct H as (_ & _ & ->); rewrite andb_false_r; discriminate end).
    all: ands; try (eapply idsp_wf; eassumption); try (eapply ap_wf; eassumption); try reflexivity.
    all: try (eapply elp_all; [intros; sub F|eassumption]).
    all: try (match goal with H : qp _ _ _ |- _ => apply H; sub F end).
    all: apply negb_true_iff; unfold t_name; erewrite starts_dots by eassumption; apply kwno_starts; assumption.
  Qed.
  Hint Resolve parse_table_factor_w : stb.
  Lemma parse_join_type_w t : wl parse_join_type (fun _ _ _ => True) [] t.
  Proof. unfold parse_join_type. go; exact I. Qed.
  Hint Resolve parse_join_type_w : stb.
  Lemma parse_join_spec_w r t : wspec r -> wl (parse_join_spec r) (fun s _ _ => fine (ASpec s) -> wf_joinspec dl s = true) [] t.
  Proof.
    intros HR. unfold parse_join_spec. go; intros F; rewrite wf_joinspec_eq.
    - eapply idsp_wf; eassumption.
    - match goal with H : ep _ _ |- _ => apply H; sub F end.
  Qed.
  Hint Resolve parse_join_spec_w : stb.
  Definition rrp (t : toks) (o : option rightpart) (d t' : toks) : Prop :=
    match o with
    | None => d = [] /\ t' = t /\ noright t'
    | Some (RNatural ty x) => ~ noright t /\ rp x t'
    | Some (RCross f) => fp f t'
    | Some (RQualified ty x s) => ~ noright t /\ (fine (ARef x) -> wf_tableref dl x = true) /\ (fine (ASpec s) -> wf_joinspec dl s = true)
    end.
  Lemma parse_table_reference_right_w r t : wspec r -> wl (parse_table_reference_right r) (fun o d t' => rrp t o d t') [] t.
  Proof.
    intros HR. unfold parse_table_reference_right. go; cbn [rrp].
    all: try assumption.
    all: repeat match goal with
      | H : kw ?w ?s = true, E : tval ?x = VWord ?w |- ~ noright (?x :: _) /\ _ =>
          split; [intros N; specialize (N w E); cbn [existsb] in N; rewrite H, ?orb_true_r in N; cbn [orb] in N; discriminate|]
      | H : _ || _ = true |- _ => apply orb_prop in H as [H|H]
      end; auto.
    all: try (split; [match goal with H : rp _ _ |- _ => apply H end|assumption]).
    all: repeat split; auto.
    all: cbn [noright]; auto.
    all: intros w1 E1.
    all: try (exfalso; apply ok_kind in E1; [congruence|assumption]).
    all: try congruence.
    all: match goal with E : tval ?x = VWord ?w |- existsb (kw ?w1) _ = false => rewrite E1 in E; injection E as -> end.
    all: cbn [existsb].
    all: repeat match goal with H : _ || _ = false |- _ => apply orb_false_iff in H as [? ?] end.
    all: repeat match goal with H : kw _ _ = false |- _ => rewrite H; clear H end; reflexivity.
  Qed.
  Hint Resolve parse_table_reference_right_w : stb.
  Lemma parse_table_reference_w r t : wspec r -> wl (parse_table_reference r) (fun a _ t' => rp a t') [] t.
  Proof.
    intros HR. unfold parse_table_reference. apply wlp_bind. eapply wlp_call; [apply parse_table_factor_w; assumption|].
    intros left d1 t1 (H1 & H2 & H3) _.
    apply wlp_loop with (Inv := fun e _ t' => (fine (ARef e) -> wf_tableref dl e = true) /\ (bare_table e = true -> noal reserved_table_alias t') /\
      (natural e = true -> noright t')).
    2: { split; [|split]; auto. destruct left; discriminate. }
    intros e d t2 (I1 & I2 & I3). apply wlp_bind. eapply wlp_call; [apply parse_table_reference_right_w; assumption|].
    assert (SE : forall z, fine (AElement z) -> fine (ARef z)) by (intros z F; sub F).
    intros [[ty x|f|ty x s]|] d2 t3 HO Et; cbn [rrp wlp] in *.
    - destruct HO as [N (J1 & J2 & J3)]. split; [|split]; auto. intros F. rewrite wf_tableref_eq.
      rewrite I1, J1 by (apply SE; sub F). destruct (natural e); [destruct (N (I3 eq_refl))|reflexivity].
    - destruct HO as (J1 & J2 & J3). split; [|split; [exact J3|discriminate]]. intros F. rewrite wf_tableref_eq.
      rewrite H1, J1, H2, J2 by (sub F). reflexivity.
    - destruct HO as (N & J1 & J4). split; [|split]; try discriminate. intros F. rewrite wf_tableref_eq.
      rewrite I1, J1 by (apply SE; sub F). rewrite J4 by (sub F). destruct (natural e); [destruct (N (I3 eq_refl))|reflexivity].
    - destruct HO as (-> & -> & N). split; auto.
  Qed.
  Lemma last_rev {A} (x : A) l : last_opt (rev (x :: l)) = Some x.
  Proof. unfold last_opt. rewrite rev_involutive. reflexivity. Qed.
  Definition frp (l : list tableref) (t' : toks) : Prop :=
    Forall (fun a => fine (ARef a) -> wf_tableref dl a = true) l /\
    match last_opt l with Some z => bare_table z = true -> noal reserved_table_alias t' | None => False end.
  Lemma parse_from_clause_w r t : wspec r -> wl (parse_from_clause r) (fun l _ t' => frp l t') [] t.
  Proof.
    intros HR. unfold parse_from_clause, frp. apply wlp_bind. eapply wlp_call; [apply (ws_tref r HR)|].
    intros a d1 t1 (H1 & H2 & H3) _.
    apply wlp_loop with (Inv := fun acc _ t' => Forall (fun a => fine (ARef a) -> wf_tableref dl a = true) acc /\
      match acc with z :: _ => bare_table z = true -> noal reserved_table_alias t' | [] => False end).
    - intros acc d t2 [I1 I2]. go.
      + split; [apply Forall_rev; assumption|]. destruct acc; [contradiction|]. rewrite last_rev. assumption.
      + match goal with H : rp _ _ |- _ => destruct H as (J1 & J2 & J3) end. split; [constructor; assumption|assumption].
    - split; [constructor; auto|assumption].
  Qed.
  Hint Resolve parse_from_clause_w : stb.
  Definition fitem (a : selitem) : Prop := fine (AItem a) -> wf_selitem dl a = true.
  Definition unnamed (z : option selitem) (t' : toks) : Prop :=
    match z with Some (SIUnnamed _) => noal reserved_column_alias t' | _ => True end.
  Definition slp (t : toks) (l : list selitem) (t' : toks) : Prop :=
    hr (commas t_selitem l) t /\ Forall fitem l /\ nonempty l = true /\ unnamed (last_opt l) t'.
  Lemma fine_wildcard l : fine (AItem (SIQualWildcard (mkON l))) -> fine (AExpr (EQualWildcard l)).
  Proof.
    intros F y W. inversion W as [|? z ? I W']; subst; [split; reflexivity|].
    assert (FN : fine (AName (mkON l))) by (sub F). apply FN. eapply within_sub; [|exact W'].
    unfold subnodes in *. cbn [fields flat_map held snd fl on_idents app] in *. exact I.
  Qed.
  Lemma item_named e a t : ep t e -> wf_id dl a = true -> (match e with EQualWildcard _ => false | _ => true end = true) ->
    hr (t_selitem (SIAlias e a)) t /\ fitem (SIAlias e a).
  Proof.
    intros [H1 H2] H3 H4. split; [rewrite t_selitem_eq; apply hr_app; exact H1|]. intros F. rewrite wf_selitem_eq, H3, (H2 ltac:(sub F)).
    destruct e; try reflexivity. discriminate.
  Qed.
  Lemma item_unnamed e t : ep t e -> (match e with EQualWildcard _ => false | _ => true end = true) ->
    hr (t_selitem (SIUnnamed e)) t /\ fitem (SIUnnamed e).
  Proof.
    intros [H1 H2] H4. split; [rewrite t_selitem_eq; exact H1|]. intros F. rewrite wf_selitem_eq, (H2 ltac:(sub F)).
    destruct e; try reflexivity. discriminate.
  Qed.
  Lemma item_wildcard l t : ep t (EQualWildcard l) ->
    hr (t_selitem (SIQualWildcard (mkON l))) t /\ fitem (SIQualWildcard (mkON l)).
  Proof.
    intros [H1 H2]. split; [rewrite t_node_eq in H1; rewrite t_selitem_eq; exact H1|]. intros F. rewrite wf_selitem_eq.
    specialize (H2 (fine_wildcard l F)). rewrite wf_node_eq in H2. exact H2.
  Qed.
  Lemma parse_select_list_w r t : wspec r -> wl (parse_select_list r) (fun l _ t' => slp t l t') [] t.
  Proof.
    intros HR. unfold parse_select_list.
    apply wlp_loop with (Inv := fun acc d t1 => hri t_selitem t acc t1 /\ Forall fitem acc).
    2: { split; [left; auto|constructor]. }
    intros acc d t1 [HI1 HI2]. apply wlp_bind. eapply wlp_call; [apply parse_expr_w; assumption|]. intros e d1 t2 HE _.
    apply wlp_bind.
    apply wlp_conseq with (Q := fun item _ t' => hr (t_selitem item) t1 /\ fitem item /\ unnamed (Some item) t').
    - assert (HA : (match e with EQualWildcard _ => false | _ => true end = true) -> wl
        (a <- parse_optional_alias reserved_column_alias ;; Ret (match a with Some i => SIAlias e i | None => SIUnnamed e end))
        (fun item _ t' => hr (t_selitem item) t1 /\ fitem item /\ unnamed (Some item) t') (d1 ++ d) t2).
      { intros HW. apply wlp_bind. eapply wlp_call; [apply parse_optional_alias_w|]. cbn beta. intros [i|] d2 t3 Ha _; cbn [wlp unnamed].
        - destruct (item_named e i t1 HE Ha HW). auto.
        - destruct (item_unnamed e t1 HE HW). auto. }
      destruct e; try (apply HA; reflexivity). cbn [wlp]. destruct (item_wildcard _ _ HE). repeat split; auto; try (match goal with H : hr _ _ |- _ => apply H end).
    - cbn beta. intros item d' t' (J1 & J2 & J3). pose proof (hri_step _ _ _ _ _ HI1 J1) as HS. go.
      + split; [apply hri_cons; exact HS|constructor; assumption].
      + split; [exact HS|]. split; [apply Forall_rev; constructor; assumption|]. split; [apply nonempty_rev|]. rewrite last_rev. exact J3.
  Qed.
  Hint Resolve parse_select_list_w : stb.

  (** Words that are no reserved words stop no alias. *)
  Lemma noal_not R s x t : up_kw (gs s) = true -> mem_gs (gs s) R = false -> ok x -> is_kw (gs s) x = true -> ~ noal R (x :: t).
  Proof.
    intros U M Hx K N. unfold is_kw in K. destruct (tval x) as [w|v] eqn:E; [|discriminate]. specialize (N w E).
    rewrite (ok_upper x w Hx E), (kw_up _ U _ K) in N. congruence.
  Qed.
  Lemma after_not s e x t : up_kw (gs s) = true -> mem_gs (gs s) reserved_column_alias = false ->
    mem_gs (gs s) reserved_table_alias = false -> ok x -> is_kw (gs s) x = true -> after e (x :: t) -> bare e = false.
  Proof. intros U M1 M2 Hx K H. destruct e; try reflexivity; exfalso; cbn [after] in H; revert H.
    - apply (noal_not _ s); assumption.
    - apply (noal_not _ s); assumption.
  Qed.
  Definition sp (t : toks) (s : select) (t' : toks) : Prop :=
    (fine (ASet (SSelect s)) -> wf_select dl s = true) /\ after (select_end s) t' /\ (kwno "WITH" t -> selects_with (SSelect s) = false).
  Definition clp (proj : list selitem) (from : list tableref) (w : option node) (g : list node) (t' : toks) : Prop :=
    after (clauses_end proj from w g) t'.
  Lemma clp_items t proj t' : slp t proj t' -> clp proj [] None [] t'.
  Proof. intros (_ & _ & _ & H). unfold clp, clauses_end. cbn. destruct (last_opt proj) as [[]|]; exact H. Qed.
  Lemma clp_from proj l t' : frp l t' -> clp proj l None [] t'.
  Proof.
    intros (_ & H). unfold clp, clauses_end. cbn [some nonempty orb]. destruct (last_opt l); [|contradiction].
    destruct (bare_table t); [exact (H eq_refl)|exact I].
  Qed.
  Lemma clp_other proj l w g t' : some w || nonempty g = true -> clp proj l w g t'.
  Proof. intros H. unfold clp, clauses_end. rewrite H. exact I. Qed.
  Lemma sp_mk distinct proj from w g p t t1 t' :
    (distinct = false -> t1 = t /\ starts "DISTINCT" t = false) ->
    hr (commas t_selitem proj) t1 -> Forall fitem proj -> nonempty proj = true ->
    Forall (fun a => fine (ARef a) -> wf_tableref dl a = true) from -> (forall e, w = Some e -> fw e) -> Forall fw g ->
    clp proj from w g t' -> forall h t2, (h = None /\ t2 = t' \/ exists e x, h = Some e /\ fw e /\ ok x /\ is_kw (gs "HAVING") x = true /\ exists t3, t' = x :: t3) ->
    sp t (Select distinct proj from w g h p) t2.
  Proof.
    intros HD H1 H2 H3 H4 H5 H6 H7 h t2 HH. split; [|split].
    - intros F. rewrite wf_select_eq. rewrite H3. ands; try reflexivity.
      + eapply (fw_list AItem); [exact H2|]. intros; sub F.
      + destruct distinct; [reflexivity|]. destruct (HD eq_refl) as [-> E]. apply negb_true_iff. eapply hr_no; [exact H1|cbn; tauto|exact E].
      + eapply (fw_list ARef); [exact H4|]. intros; sub F.
      + destruct w; [|reflexivity]. apply H5; [reflexivity|]. sub F.
      + eapply (fw_list AExpr); [exact H6|]. intros; sub F.
      + destruct HH as [[-> _]|(e & x & -> & He & _)]; [reflexivity|]. apply He. sub F.
      + destruct HH as [[-> _]|(e & x & -> & He & Hx & Kx & t3 & ->)]; [reflexivity|].
        cbn [some negb orb]. apply negb_true_iff. exact (after_not "HAVING" _ x t3 eq_refl eq_refl eq_refl Hx Kx H7).
    - cbn [select_end]. destruct HH as [[-> ->]|(e & x & -> & _)]; [exact H7|exact I].
    - intros K. cbn [selects_with]. destruct distinct; [reflexivity|]. destruct (HD eq_refl) as [-> E]. cbn [negb andb].
      destruct proj as [|z l]; [reflexivity|]. destruct (starts "WITH" (t_selitem z)) eqn:E1; [|reflexivity].
      assert (E2 : starts "WITH" (commas t_selitem (z :: l)) = true).
      { unfold commas. cbn [map]. destruct l; [exact E1|]. cbn [map]. 
        match goal with |- starts _ (sepby _ (?a :: ?b)) = _ => change (sepby comma (a :: b)) with (a ++ comma :: sepby comma b) end. apply starts_app; exact E1. }
      rewrite (hr_no _ _ "WITH" H1) in E2; [discriminate|cbn; tauto|]. apply kwno_starts; assumption.
  Qed.
  Lemma parse_select_w r p t : wspec r -> wl (parse_select r p) (fun s _ t' => sp t s t') [] t.
  Proof.
    intros HR. unfold parse_select. 
    assert (HX : forall (distinct : bool) t1, (distinct = false -> t1 = t /\ starts "DISTINCT" t = false) -> wl
      (proj <- parse_select_list r ;;
      f <- kw_ok "FROM" ;;
      from <- (if f : bool then parse_from_clause r else Ret []) ;;
      w <- kw_ok "WHERE" ;;
      where_ <- (if w : bool then e <- parse_expr r ;; Ret (Some e) else Ret None) ;;
      g <- kws_ok ["GROUP"; "BY"]%string ;;
      gby <- (if g : bool then parse_expr_list r else Ret []) ;;
      h <- kw_ok "HAVING" ;;
      having <- (if h : bool then e <- parse_expr r ;; Ret (Some e) else Ret None) ;;
      Ret (Select distinct proj from where_ gby having p)) (fun s _ t' => sp t s t') [] t1).
    { intros distinct t1 HD. 
      apply wlp_bind. eapply wlp_call; [apply parse_select_list_w; assumption|]. cbn beta. intros proj d1 t2 (S1 & S2 & S3 & S4) Et.
      subst t1.
      assert (X : forall from w g t',
        Forall (fun a => fine (ARef a) -> wf_tableref dl a = true) from -> (forall e, w = Some e -> fw e) -> Forall fw g ->
        clp proj from w g t' -> forall h t2, (h = None /\ t2 = t' \/ exists e x, h = Some e /\ fw e /\ ok x /\ is_kw (gs "HAVING") x = true /\ exists t3, t' = x :: t3) ->
        sp t (Select distinct proj from w g h p) t2) by (intros; eapply sp_mk; eauto).
      assert (X1 : clp proj [] None [] t2) by (eapply clp_items; unfold slp; eauto).
      clear HD S1 S2 S3 S4.
      go; eapply X; clear X; try apply Forall_nil; try (intros; discriminate);
       repeat match goal with H : frp _ _ |- _ => pose proof (clp_from proj _ _ H); destruct H as [H _] end;
       try eassumption; try (left; split; reflexivity);
       try (match goal with H : elp _ _ |- _ => destruct H as (_ & ? & N); try eassumption; apply clp_other; rewrite N, ?orb_true_r; reflexivity end);
       try (apply clp_other; reflexivity);
       try (intros ? E; injection E as <-; match goal with H : ep _ _ |- _ => exact (proj2 H) end).
      all: right.
      all: match goal with H : ep _ ?e, K : is_kw (gs "HAVING") ?x = true |- exists _ _, Some ?e = _ /\ _ =>
             exists e, x; split; [reflexivity|]; split; [exact (proj2 H)|]; split; [assumption|]; split; [exact K|eauto] end.
    }
    apply wlp_bind, wl_parse_keyword.
    - intros ->. exact I.
    - intros x t1 -> Hx Kx. cbn beta iota. apply HX. intros _. split; [reflexivity|]. apply kwno_starts. exact Kx.
    - intros x t1 -> Hx Kx. cbn beta iota. eapply wlp_call; [apply (HX true t1); discriminate|]. auto.
    Unshelve. all: exact [].
  Qed.
  Hint Resolve parse_select_w : stb.

  Lemma parse_set_operator_w o t : wl (parse_set_operator o) (fun _ d t' => d = [] /\ t' = t) [] t.
  Proof. unfold parse_set_operator. go; auto. Qed.
  Lemma parse_query_body_w r p t : wspec r -> wl (parse_query_body r p) (fun s _ t' => bp t s t') [] t.
  Proof.
    intros HR. unfold parse_query_body.
    assert (HL : forall e d t1, bp t e t1 -> wl (body_loop r p e) (fun s _ t' => bp t s t') d t1).
    { intros e0 d0 t0 H0. unfold body_loop. apply wlp_loop with (Inv := fun e _ t' => bp t e t'); [|exact H0]. clear e0 d0 t0 H0.
      intros e d t1 HB. apply wlp_bind. 
      apply wlp_conseq with (Q := fun o d' t' => d' = d /\ t' = t1); [go; auto|]. intros o d' t' [-> ->].
      apply wlp_bind. eapply wlp_call; [apply parse_set_operator_w|]. cbn beta. intros op d2 t2 [-> ->] _. cbn [app].
      destruct op as [op|]; [|exact HB]. destruct (setop_prec op <=? p); [exact HB|]. destruct HB as (B1 & B2 & B3 & B4).
      go; match goal with H : bp _ _ _ |- _ => destruct H as (J1 & J2 & J3 & J4) end;
      (split; [|split; [exact J2|split; [exact B3|exact B4]]]);
      intros F; rewrite wf_setexpr_eq; rewrite B1, J1 by (sub F); pose proof (fine_set _ F) as B; cbn [set_bound] in B; ands; try reflexivity; lia. }
    go.
    - apply HL. split; [|split; [exact I|split; [right; split; assumption|reflexivity]]].
      intros F. rewrite wf_setexpr_eq. match goal with H : qp _ _ _ |- _ => apply H; sub F end.
    - apply HL. match goal with H : sp _ _ _ |- _ => destruct H as (J1 & J2 & J3) end.
      split; [|split; [exact J2|split; [left; reflexivity|]]].
      + intros F. rewrite wf_setexpr_eq. apply J1; assumption.
      + intros y t1 E. injection E as <- <-. exact J3.
  Qed.
  Hint Resolve parse_query_body_w : stb.
  Lemma parse_cte_list_w r t : wspec r ->
    wl (parse_cte_list r) (fun l _ _ => Forall (fun c => fine (ACte c) -> wf_cte dl c = true) l /\ nonempty l = true) [] t.
  Proof.
    intros HR. unfold parse_cte_list.
    apply wlp_loop with (Inv := fun acc _ _ => Forall (fun c => fine (ACte c) -> wf_cte dl c = true) acc); [|constructor].
    intros acc d t1 HI.
    assert (X : forall t2 t3 t4 a q, idp t2 a -> qp t3 q t4 -> Forall (fun c => fine (ACte c) -> wf_cte dl c = true) (CTE a q pos0 :: acc)).
    { intros t2 t3 t4 a q H1 [H2 _]. constructor; [|exact HI]. intros F. rewrite wf_cte_eq, (idp_wf _ _ H1). apply H2. sub F. }
    go; try (eapply X; eassumption); (split; [apply Forall_rev; eapply X; eassumption|apply nonempty_rev]).
  Qed.
  Hint Resolve parse_cte_list_w : stb.
  Lemma parse_query_w r t : wspec r -> wl (parse_query r) (fun q _ t' => qp t q t') [] t.
  Proof.
    intros HR. unfold parse_query.
    assert (HX : forall ctes t1, Forall (fun c => fine (ACte c) -> wf_cte dl c = true) ctes -> (nonempty ctes = true \/ t1 = t /\ kwno "WITH" t) -> wl
     (body <- parse_query_body r 0 ;;
      ob <- kws_ok ["ORDER"; "BY"]%string ;;
      oby <- (if ob : bool then parse_order_by_list r else Ret []) ;;
      l <- kw_ok "LIMIT" ;;
      lim <- (if l : bool then x <- parse_limit ;; Ret (Some x) else Ret None) ;;
      Ret (Query pos0 ctes body oby lim)) (fun q _ t' => qp t q t') [] t1).
    { intros ctes t1 HC HW. apply wlp_bind. eapply wlp_call; [apply parse_query_body_w; assumption|]. cbn beta. intros body d1 t2 (B1 & B2 & B3 & B4) Et.
      assert (Y : forall oby lim t', Forall (fun o => fine (AOrder o) -> wf_orderby dl o = true) oby -> all_opt wf_limit lim = true ->
        (nonempty oby || negb (some lim) || negb (bare (set_end body)) = true) -> after (query_end (Query pos0 ctes body oby lim)) t' ->
        qp t (Query pos0 ctes body oby lim) t').
      { intros oby lim t' H1 H2 H3 H4. split; [|split; [exact H4|split; [|split]]].
        - intros F. rewrite wf_query_eq. rewrite H2, H3, (B1 ltac:(sub F)). ands; try reflexivity.
          + eapply (fw_list ACte); [exact HC|]. intros; sub F.
          + eapply (fw_list AOrder); [exact H1|]. intros; sub F.
        - cbn [top_query]. destruct HW as [-> |[-> _]]; [left; reflexivity|]. destruct B3 as [-> |[B3 _]]; [left; apply orb_true_r|right; exact B3].
        - cbn [sub_query]. intros x t3 -> Kx Kw. destruct HW as [-> |[-> _]]; [reflexivity|]. apply orb_true_intro. right.
          destruct B3 as [-> |[_ B3]]; [|cbn [kwno] in B3; congruence]. rewrite (B4 _ _ eq_refl Kw). reflexivity.
        - cbn [sub_query]. intros x t3 -> Kx. destruct HW as [-> |[-> HW]]; [reflexivity|]. cbn [kwno] in HW. congruence. }
      go; apply Y; clear Y; try apply Forall_nil; try assumption; try reflexivity; try exact I;
        cbn [query_end]; repeat match goal with H : nonempty _ = true |- _ => rewrite H end; try reflexivity; try exact I; try exact B2.
      cbn [nonempty some orb negb]. apply negb_true_iff. match goal with K : is_kw (gs "LIMIT") ?x = true |- _ => exact (after_not "LIMIT" _ x _ eq_refl eq_refl eq_refl ltac:(assumption) K B2) end. }
    apply wlp_bind, wl_kw_ok.
    - intros Hn. cbn [wlp bind]. apply HX; [constructor|right; split; [reflexivity|exact Hn]].
    - intros x t1 -> Hx Kx. apply wlp_bind. eapply wlp_call; [apply parse_cte_list_w; assumption|]. cbn beta. intros l d1 t2 [H1 H2] _.
      eapply wlp_call; [apply (HX l t2); auto|]. auto.
  Qed.
  Hint Resolve parse_query_w : stb.

  (* ---------------------------------------------------------------- *)
  (** ** Statements *)

  Definition fcons (c : tableconstraint) : Prop := fine (AElem (TEConstraint c)) -> wf_tc dl c = true.
  Lemma parse_table_constraints_w r t : wspec r -> wl (parse_table_constraints r) (fun c _ _ => fcons c) [] t.
  Proof.
    intros HR. unfold parse_table_constraints. 
    apply wlp_bind, wl_peek; [intros ->; exact I|]. intros x t1 -> Hx.
    destruct (negb (is_kind SQLKeyword x)); [exact I|]. cbv zeta.
    apply wlp_bind.
    apply wlp_conseq with (Q := fun p _ _ => all_opt (wf_id dl) (fst p) = true).
    { go; cbn [fst all_opt]; try reflexivity. eapply idp_wf; eassumption. }
    intros [name cpos] d t2 HN. cbn [fst] in HN.
    apply wlp_bind, wl_peek_nn. intros y t3 -> Hy. apply wlp_bind, wl_word_of. intros w Hw.
    apply wlp_bind.
    apply wlp_conseq with (Q := fun s _ _ => fine (ATSpec s) -> wf_tcspec dl s = true).
    { go; intros F; cbn [wf_tcspec rk_table rk_columns]; ands; try (eapply idsp_wf; eassumption); try (eapply ok_id; eassumption).
      all: try (eapply idsp_all; eassumption); try reflexivity.
      all: try (match goal with H : ep _ _ |- _ => apply H; sub F end).
      destruct a0; [eapply idsp_all; eassumption|reflexivity]. }
    intros s d2 t4 HS. cbn [wlp]. intros F. unfold wf_tc. cbn [tc_name tc_spec]. rewrite HN. apply HS. sub F.
  Qed.
  Hint Resolve parse_table_constraints_w : stb.

  Lemma parse_column_spec_w r x w t : wspec r ->
    wl (parse_column_spec r x w) (fun o _ _ => forall s, o = Some s -> fine (ACSpec s) ->
       match s with
       | CCNotNull _ _ | CCUnique _ _ _ _ => true
       | CCReferences _ _ t cols => wf_on dl t && wf_ids dl cols
       | CCCheck e _ _ => wf_node dl e
       end = true) [] t.
  Proof.
    intros HR. unfold parse_column_spec. go; intros s E; try discriminate; injection E as <-; intros F; try reflexivity.
    all: try (ands; eapply idsp_wf; eassumption).
    all: match goal with H : ep _ _ |- _ => apply H; sub F end.
  Qed.
  Hint Resolve parse_column_spec_w : stb.
  Definition fcc (c : colconstraint) : Prop := fine (ACCons c) -> wf_cc dl c = true.
  Lemma parse_column_constraints_w r t : wspec r -> wl (parse_column_constraints r) (fun l _ _ => Forall fcc l) [] t.
  Proof.
    intros HR. unfold parse_column_constraints.
    apply wlp_loop with (Inv := fun acc _ _ => Forall fcc acc); [|constructor].
    intros acc d t1 HI. apply wlp_bind, wl_peek; [intros ->; apply Forall_rev; exact HI|]. intros x t2 -> Hx. cbv zeta.
    apply wlp_bind. 
    apply wlp_conseq with (Q := fun p _ _ => all_opt (wf_id dl) p = true).
    { go; cbn [all_opt]; try reflexivity. eapply idp_wf; eassumption. }
    intros name d2 t3 HN. apply wlp_bind, wl_peek_nn. intros y t4 -> Hy. 
    destruct (negb (is_kind SQLKeyword y)); [apply Forall_rev; exact HI|]. apply wlp_bind, wl_word_of. intros w Hw.
    apply wlp_bind. eapply wlp_call; [apply parse_column_spec_w; assumption|]. cbn beta. intros [s|] d3 t5 HS _; cbn [wlp].
    - constructor; [|exact HI]. intros F. unfold wf_cc. cbn [cc_name cc_spec]. rewrite HN. apply (HS s eq_refl). sub F.
    - apply Forall_rev; exact HI.
  Qed.
  Hint Resolve parse_column_constraints_w : stb.
  Lemma parse_column_definition_w r t : wspec r ->
    wl (parse_column_definition r)
       (fun p _ _ => match p with (def, specs, decs) => (forall e, def = Some e -> fw e /\ no_not e = true) /\ Forall fcc specs end) [] t.
  Proof.
    intros HR. unfold parse_column_definition.
    apply wlp_loop with (Inv := fun p _ _ =>
      match p with (def, specs, decs) => (forall e, def = Some e -> fw e /\ no_not e = true) /\ Forall fcc specs end).
    - intros [[def specs] decs] d t1 [H1 H2]. go; (split; [|assumption]); try exact H1. intros e E. injection E as <-. split; assumption.
    - split; [discriminate|constructor].
  Qed.
  Hint Resolve parse_column_definition_w : stb.
  Definition cdp (t : toks) (c : columndef) : Prop :=
    (fine (AElem (TEColumn c)) -> wf_coldef dl c = true) /\ idp t (cd_name c).
  Lemma first_not l : starts "NOT" (List.concat (map t_cc l)) = true -> exists p a b l', l = mkCC None p (CCNotNull a b) :: l'.
  Proof.
    destruct l as [|[n p s] l]; [discriminate|]. cbn [map List.concat]. unfold t_cc, t_cname. cbn [cc_name cc_spec].
    destruct n as [n|]; [discriminate|]. cbn [opt app]. destruct s as [| [|] | | ]; try discriminate. eauto.
  Qed.
  Lemma parse_column_def_w r t : wspec r -> wl (parse_column_def r) (fun c _ _ => cdp t c) [] t.
  Proof.
    intros HR. unfold parse_column_def. go.
    match goal with H1 : forall e, ?o = Some e -> _, H2 : Forall fcc ?l |- cdp _ (mkColDef _ _ _ ?ds _) => rename H1 into D1; rename H2 into D2; rename o into def; rename l into specs; rename ds into decs end.
    split; [|unfold idp; cbn [cd_name]; eauto 8].
    intros F. pose proof (fine_clean _ F) as HC. cbn [clean cd_default cd_decorations cd_constraints] in HC.
    unfold wf_coldef. cbn [cd_name cd_type cd_default cd_decorations cd_constraints]. ands; try assumption.
    - eapply ok_id; eassumption.
    - destruct def as [e|]; [|reflexivity]. cbn [all_opt]. destruct (D1 e eq_refl) as [E1 E2]. rewrite E2, (E1 ltac:(sub F)). cbn [andb].
      destruct (starts "NOT" (List.concat (map t_cc specs))) eqn:E; [|apply orb_true_r]. destruct (first_not _ E) as (? & ? & ? & ? & ->).
      destruct decs; [rewrite HC|rewrite orb_true_r]; reflexivity.
    - eapply (fw_list ACCons); [exact D2|]. intros; sub F.
  Qed.
  Hint Resolve parse_column_def_w : stb.
  Definition fel (e : tableelement) : Prop := fine (AElem e) -> wf_element dl e = true.
  Lemma parse_elements_w r t : wspec r -> wl (parse_elements r) (fun l _ _ => Forall fel l) [] t.
  Proof.
    intros HR. unfold parse_elements. apply wlp_bind, wl_consume; [intros; constructor|]. intros x t1 -> Hx Kx.
    apply wlp_loop with (Inv := fun acc _ _ => Forall fel acc); [|constructor].
    intros acc d t2 HI. apply wlp_bind, wl_next_ret; [intros ->; exact I|]. intros y t3 -> Hy.
    destruct (negb (is_kind SQLKeyword y)); [exact I|]. apply wlp_bind, wl_word_of. intros w Hw. apply wlp_bind, wl_prev.
    apply wlp_bind. 
    apply wlp_conseq with (Q := fun e _ _ => fel e).
    { destruct (kw w "CONSTRAINT" || _ || _ || _ || _) eqn:E; [go; intros F; cbn [wf_element]; auto|]. go.
      - match goal with H : cdp _ _ |- _ => destruct H as [J1 (z & w1 & t4 & E1 & Hz & Ez & Ei)] end. injection E1 as <- <-.
        rewrite Hw in Ez. injection Ez as <-.
        intros F. cbn [wf_element]. rewrite (J1 F), Ei, (ok_in element_words y w Hy Hw). apply negb_true_iff. unfold element_words. cbn [existsb].
        repeat match goal with H : _ || _ = false |- _ => apply orb_false_iff in H as [? ?] end.
        repeat match goal with H : kw w _ = false |- _ => rewrite H; clear H end. reflexivity. }
    intros e d2 t4 He. go; try (apply Forall_rev); constructor; assumption.
  Qed.
  Hint Resolve parse_elements_w : stb.
  Lemma parse_option_value_w t : wl parse_option_value (fun p _ _ => wf_id dl (snd p) = true) [] t.
  Proof. unfold parse_option_value. go; cbn [snd]; eapply idp_wf; eassumption. Qed.
  Hint Resolve parse_option_value_w : stb.
  Lemma parse_table_option_w t : wl parse_table_option (fun o _ _ => wf_option dl o = true) [] t.
  Proof. unfold parse_table_option. go; cbn [snd wf_option] in *; assumption. Qed.
  Hint Resolve parse_table_option_w : stb.
  Lemma parse_table_options_w r t : wl (parse_table_options r) (fun l _ _ => forallb (wf_option dl) l = true) [] t.
  Proof.
    unfold parse_table_options. apply wlp_loop with (Inv := fun l _ _ => forallb (wf_option dl) l = true); [|reflexivity].
    intros acc d t1 HI. go; rewrite ?forallb_rev; try assumption; cbn [forallb]; ands; assumption.
  Qed.
  Hint Resolve parse_table_options_w : stb.

  Definition stp (s : stmt) : Prop := fine (of_stmt s) -> wf_stmt dl s = true.
  Lemma parse_create_table_w r x t : wspec r -> wl (parse_create_table r x) (fun s _ _ => stp s) [] t.
  Proof.
    intros HR. unfold parse_create_table. go; intros F; cbn [of_stmt] in F; pose proof (fine_clean _ F) as HC; cbn [clean] in HC; cbn [wf_stmt].
    all: ands; try assumption; try (eapply idsp_wf; eassumption).
    all: try (eapply (fw_list AElem); [eassumption|]; intros; sub F).
    all: match goal with |- nonempty ?l = true => destruct l; [discriminate|reflexivity] | |- Nat.leb (List.length ?o) 1 = true =>
       destruct a0; [discriminate|]; destruct o as [|? [|? ?]]; try reflexivity; discriminate end.
  Qed.
  Hint Resolve parse_create_table_w : stb.
  Lemma parse_create_index_w r u t : wspec r -> wl (parse_create_index r u) (fun s _ _ => stp s) [] t.
  Proof.
    intros HR. unfold parse_create_index. go; intros F; cbn [of_stmt] in F; pose proof (fine_clean _ F) as HC; cbn [clean] in HC; try discriminate; cbn [wf_stmt all_opt wf_where].
    all: unfold wf_where; cbn [all_opt]; ands; try reflexivity; try (eapply idsp_wf; eassumption); try (eapply idp_wf; eassumption).
    all: try (match goal with H : ep _ _ |- _ => apply H; sub F end).
    all: match goal with H : idp _ ?i |- negb (starts "ON" [idt ?i]) = true => destruct H as (? & w & ? & E & ? & ? & ->) end.
    all: apply negb_true_iff; erewrite ok_starts by eassumption; apply kwno_starts; rewrite <- E; assumption.
  Qed.
  Hint Resolve parse_create_index_w : stb.
  Lemma parse_create_w r t : wspec r -> wl (parse_create r) (fun s _ _ => stp s) [] t.
  Proof.
    intros HR. unfold parse_create, parse_create_view. go; subst; try assumption; cbn [orb] in *; try discriminate.
    all: match goal with |- stp (StCreateView _ _ _ false) => idtac | _ =>
           exfalso; first [ match goal with H1 : is_kw (gs "VIEW") ?x = true, H2 : is_kw (gs "MATERIALIZED") ?x = true |- _ =>
                              pose proof (is_kw_clash _ _ _ H1 H2) as HK; discriminate HK end
                          | match goal with H1 : is_kw (gs "VIEW") ?x = true, H2 : kwno "VIEW" (?x :: _) |- _ => cbn [kwno] in H2; congruence end ] end.
    all: intros F; cbn [of_stmt] in F; cbn [wf_stmt]; ands; try (eapply idsp_wf; eassumption); try reflexivity.
    all: match goal with H : qp _ _ _ |- _ => apply H; sub F end.
  Qed.
  Hint Resolve parse_create_w : stb.
  Lemma parse_delete_w r t : wspec r -> wl (parse_delete r) (fun s _ _ => stp s) [] t.
  Proof.
    intros HR. unfold parse_delete. go; intros F; cbn [of_stmt] in F; cbn [wf_stmt]; unfold wf_where; cbn [all_opt]; ands;
      try (eapply idsp_wf; eassumption); try reflexivity.
    match goal with H : ep _ _ |- _ => apply H; sub F end.
  Qed.
  Hint Resolve parse_delete_w : stb.
  Definition fas (a : assignment) : Prop := fine (AAssign a) -> wf_assign dl a = true.
  Lemma parse_assignments_w r t : wspec r -> wl (parse_assignments r) (fun l _ _ => Forall fas l /\ nonempty l = true) [] t.
  Proof.
    intros HR. unfold parse_assignments. apply wlp_loop with (Inv := fun acc _ _ => Forall fas acc); [|constructor].
    intros acc d t1 HI.
    assert (X : forall x w t2 v, ok x -> tval x = VWord w -> ep t2 v -> Forall fas (mkAssign (ident_of x w) v :: acc)).
    { intros x w t2 v H1 H2 [_ H3]. constructor; [|exact HI]. intros F. unfold wf_assign. cbn [as_id as_value]. rewrite (ok_id _ _ H1 H2). apply H3. sub F. }
    go; try (eapply X; eassumption). split; [apply Forall_rev; eapply X; eassumption|apply nonempty_rev].
  Qed.
  Hint Resolve parse_assignments_w : stb.
  Lemma parse_update_w r t : wspec r -> wl (parse_update r) (fun s _ _ => stp s) [] t.
  Proof.
    intros HR. unfold parse_update. go; intros F; cbn [of_stmt] in F; cbn [wf_stmt]; unfold wf_where; cbn [all_opt]; ands;
      try (eapply idsp_wf; eassumption); try reflexivity; try assumption; try (eapply (fw_list AAssign); [eassumption|]; intros; sub F).
    match goal with H : ep _ _ |- _ => apply H; sub F end.
  Qed.
  Hint Resolve parse_update_w : stb.
  Definition frow (a : rowvalue) : Prop :=
    fine (ARow a) -> nonempty (row_values a) && forallb (wf_node dl) (row_values a) = true.
  Lemma parse_rows_w r t : wspec r -> wl (parse_rows r) (fun l _ _ => Forall frow l /\ nonempty l = true) [] t.
  Proof.
    intros HR. unfold parse_rows. apply wlp_loop with (Inv := fun acc _ _ => Forall frow acc); [|constructor].
    intros acc d t1 HI.
    assert (X : forall t2 v p q, elp t2 v -> Forall frow (mkRow v p q :: acc)).
    { intros t2 v p q HE. constructor; [|exact HI]. intros F. cbn [row_values]. pose proof HE as (_ & _ & N). rewrite N. eapply elp_all; [intros; sub F|eassumption]. }
    go; try (eapply X; eassumption). split; [apply Forall_rev; eapply X; eassumption|apply nonempty_rev].
  Qed.
  Hint Resolve parse_rows_w : stb.
  Lemma no_par t : match t with x :: _ => tkind x <> LParen | [] => True end -> open_par t -> False.
  Proof. destruct t; cbn; auto. Qed.
  Lemma idsp_ne t l : idsp t l -> nonempty l = true.
  Proof. intros (_ & x & w & t1 & l' & _ & _ & _ & ->). reflexivity. Qed.
  Lemma on_not e ks l t : Forall2 (fun k x => is_kw (gs k) x = true) ("ON" :: ks) l -> Forall ok l -> after e (l ++ t) ->
    match e with EndBareItem => false | _ => true end = true.
  Proof.
    intros F O A. inversion F as [|? x ? l1 K ? ]; subst. inversion_clear O as [|? ? Hx _]. cbn [app] in A.
    destruct e; try reflexivity. exfalso. revert A. cbn [after]. apply (noal_not _ "ON"); try assumption; reflexivity.
  Qed.
  Lemma parse_insert_w r t : wspec r -> wl (parse_insert r) (fun s _ _ => stp s) [] t.
  Proof.
    intros HR. unfold parse_insert. go; subst; intros F; cbn [of_stmt] in F; cbn [wf_stmt];
      match type of F with fine (AStmt (StInsert _ _ _ ?s _)) => assert (FS : fine (ASource s)) by (sub F) end; ands;
      try (eapply idsp_wf; eassumption); try (eapply idsp_all; eassumption); try reflexivity; try assumption; try (eapply (fw_list AAssign); [eassumption|]; intros; sub F).
    all: cbn [wf_source nonempty orb]; ands; try assumption; try (eapply (fw_list ARow); [eassumption|]; intros; sub FS).
    all: try (erewrite idsp_ne by eassumption; reflexivity).
    all: try (match goal with H : qp _ _ _ |- _ => apply H; sub FS end).
    all: match goal with
         | H : qp _ ?q _ |- top_query ?q = true => destruct H as (_ & _ & [H|H] & _); [exact H|exfalso; eapply no_par; eassumption]
         | H : qp _ ?q _ |- negb _ || match query_end ?q with _ => _ end = true =>
             destruct H as (_ & H & _); apply orb_true_intro; right; eapply on_not; eassumption
         end.
  Qed.
  Hint Resolve parse_insert_w : stb.
  Lemma parse_alter_column_w r x t : wspec r ->
    wl (parse_alter_column r x) (fun a _ _ => fine (AAction a) -> wf_altertable dl a = true) [] t.
  Proof.
    intros HR. unfold parse_alter_column. go; intros F; cbn [wf_altertable wf_altercol]; ands; try (eapply idp_wf; eassumption); try reflexivity; try assumption.
    match type of F with fine (AAction (ATAlterColumn _ _ ?s)) => assert (FS : fine (AColAction s)) by (sub F) end.
    match goal with H : fw _ |- _ => apply H; sub FS end.
  Qed.
  Hint Resolve parse_alter_column_w : stb.
  Lemma parse_cascade_w t : wl parse_cascade (fun _ _ _ => True) [] t.
  Proof. unfold parse_cascade. go; exact I. Qed.
  Hint Resolve parse_cascade_w : stb.
  Lemma parse_alter_w r t : wspec r -> wl (parse_alter r) (fun s _ _ => stp s) [] t.
  Proof.
    intros HR. unfold parse_alter. go; subst; intros F; cbn [of_stmt] in F; cbn [wf_stmt];
      match type of F with fine (AStmt (StAlterTable _ _ ?s)) => assert (FS : fine (AAction s)) by (sub F) end; ands;
      try (eapply idsp_wf; eassumption); auto; cbn [wf_altertable]; try (eapply idp_wf; eassumption).
    all: match goal with H : cdp _ _ |- _ => apply H; sub FS | H : fcons _ |- _ => apply H; sub FS end.
  Qed.
  Hint Resolve parse_alter_w : stb.
  Lemma parse_drop_w r t : wspec r -> wl (parse_drop r) (fun s _ _ => stp s) [] t.
  Proof. intros HR. unfold parse_drop. go; subst; intros F; cbn [wf_stmt]; eapply idsp_wf; eassumption. Qed.
  Hint Resolve parse_drop_w : stb.
  Lemma parse_statement_w r t : wspec r -> wl (parse_statement r) (fun s _ _ => stp s) [] t.
  Proof.
    intros HR. unfold parse_statement. go; try assumption.
    all: try (intros F; cbn [of_stmt] in F; cbn [wf_stmt]; match goal with H : fine _ -> wf_stmt dl _ = true |- _ => apply H; sub F end).
    all: intros F; cbn [of_stmt] in F; cbn [wf_stmt]; match goal with H : qp _ _ _ |- _ => destruct H as (Q1 & _ & Q2 & _) end; rewrite (Q1 F).
    all: destruct Q2 as [Q2|Q2]; [exact Q2|exfalso].
    all: match goal with H : tval ?x = VWord _ |- _ => apply ok_kind in H; [|assumption]; cbn [open_par] in Q2; congruence end.
  Qed.
  Lemma knot_w n : wspec (knot n).
  Proof.
    induction n as [|n IH]; [constructor; intros; exact I|].
    constructor; intros; cbn [knot r_stmt r_query r_body r_subexpr r_tref].
    - apply parse_statement_w; assumption.
    - apply parse_query_w; assumption.
    - apply parse_query_body_w; assumption.
    - apply parse_subexpr_w; assumption.
    - apply parse_table_reference_w; assumption.
  Qed.
  Lemma parse_sql_w pc r t : wspec r -> wl (parse_sql pc r) (fun l _ _ => Forall stp l) [] t.
  Proof.
    intros HR. unfold parse_sql.
    apply wlp_loop with (Inv := fun s _ _ => Forall stp (fst s)); [|constructor].
    intros [acc ex] d t1 HI. cbn [fst] in HI. apply wlp_bind.
    assert (HX : forall (b : bool) d t2, wl
       (if negb b && ex then Err
       else
         more <- (if pc
                  then Next (fun o => match o with None => Ret false | Some _ => prev ;;; Ret true end)
                  else Peek (fun o => Ret (match o with None => false | Some _ => true end))) ;;
         if more : bool then s <- parse_statement r ;; Ret (inl (s :: acc, true))
         else Ret (inr (rev acc))) 
       (fun r _ _ => match r with inl s => Forall stp (fst s) | inr l => Forall stp l end) d t2).
    { intros b d2 t2. destruct (negb b && ex); [exact I|]. apply wlp_bind.
      apply wlp_conseq with (Q := fun _ _ _ => True); [destruct pc; go; exact I|].
      intros [|] d3 t3 _; [|apply Forall_rev; exact HI]. apply wlp_bind. eapply wlp_call; [apply parse_statement_w; assumption|].
      intros s d4 t4 HS _. cbn [wlp fst]. constructor; assumption. }
    apply wl_consume; intros; apply HX.
  Qed.
End Walk.
