(** The characters of a printed text are those of SQL and those the tree holds. *)
From Coq Require Import ZArith String List Bool Lia.
From Verif Require Import RoundSpec Base Dialect Token Lexer LexSpec LexThms AST AstInd Num Nodes Prog Parser ParseSpec ParserThms SrcThms CostThms Grammar GrammarThms ExtentThms Printer RtEq WriteThms CharSpec.
Import ListNotations.
Open Scope list_scope.
Open Scope Z_scope.

Section Chars.
  Variable P : rune -> Prop.
  Hypothesis PA : forall c, sql_char c -> P c.

  Definition all (x : any) : Prop := forall z, within x z -> Forall P (holds z).
  Definition okw (w : wnode) : Prop := Forall P (text_of w).
  Definition oko (l : list wop) : Prop := Forall P (flat_map op_text l).

  Lemma all_own x : all x -> Forall P (holds x).
  Proof. intros A. apply A. constructor. Qed.
  Lemma all_subs x : all x -> Forall all (subnodes x).
  Proof. intros A. apply Forall_forall. intros y I z W. apply A. eapply within_sub; eauto. Qed.

  Lemma lit (s : gostring) : forallb (fun c => (32 <=? c) && (c <=? 126)) s = true -> Forall P s.
  Proof. intros H. apply Forall_forall. intros c I. apply PA. rewrite forallb_forall in H. specialize (H c I). unfold sql_char. lia. Qed.
  Lemma p_uint u : Forall P (uint_gs u).
  Proof. induction u; cbn [uint_gs]; [constructor|..]; (constructor; [apply PA; unfold sql_char; lia|assumption]). Qed.
  Lemma p_int z : Forall P (format_int z).
  Proof. unfold format_int. destruct (z <? 0); [constructor; [apply PA; unfold sql_char; lia|]|]; apply p_uint. Qed.
  Lemma p_firstn (s : gostring) n : Forall P s -> Forall P (firstn n s).
  Proof. intros H. rewrite <- (firstn_skipn n s) in H. apply Forall_app in H. apply H. Qed.
  Lemma p_skipn (s : gostring) n : Forall P s -> Forall P (skipn n s).
  Proof. intros H. rewrite <- (firstn_skipn n s) in H. apply Forall_app in H. apply H. Qed.
  Lemma p_dot n k : Forall P (put_dot n k).
  Proof.
    unfold put_dot. destruct (k =? 0); [apply p_int|].
    assert (H : Forall P (repeat 48 (Z.to_nat (k + 1 - zlen (format_int n))) ++ format_int n)).
    { apply Forall_app. split; [|apply p_int]. apply Forall_forall. intros c I. apply repeat_spec in I. subst c. apply PA. unfold sql_char; lia. }
    apply Forall_app. split; [now apply p_firstn|]. apply Forall_app. split; [apply lit; reflexivity|now apply p_skipn].
  Qed.
  Lemma p_candidate f k s : candidate f k = Some s -> Forall P s.
  Proof.
    unfold candidate. cbv zeta.
    assert (H : forall n, Forall P (if 0 <=? k then put_dot n k else format_int (n * 10 ^ (- k)))) by (intros; destruct (0 <=? k); [apply p_dot|apply p_int]).
    repeat match goal with |- context [if parses_to ?a ?b then _ else _] => destruct (parses_to a b) end; destruct (2 * _ <=? _); intros E; inversion E; subst; apply H.
  Qed.
  Lemma p_shortest f n : forall k s, shortest f k n = Some s -> Forall P s.
  Proof.
    induction n as [|n IH]; intros k s; cbn [shortest]; [discriminate|]. destruct (candidate f k) eqn:E; [|apply IH].
    intros H. injection H as <-. exact (p_candidate _ _ _ E).
  Qed.
  Lemma p_float f : Forall P (format_float f).
  Proof.
    unfold format_float. destruct (fm f =? 0); [apply lit; reflexivity|]. cbv zeta.
    destruct (shortest _ _ _) eqn:E; [exact (p_shortest _ _ _ _ E)|]. unfold exact_dec. destruct (0 <=? fe f); [apply p_int|apply p_dot].
  Qed.

  Lemma ok_nil : oko []. Proof. constructor. Qed.
  Lemma ok_app a b : oko a -> oko b -> oko (a ++ b).
  Proof. unfold oko. rewrite flat_map_app. intros. apply Forall_app. auto. Qed.
  Lemma ok_wb b l : Forall P b -> oko l -> oko (WB b :: l).
  Proof. intros. unfold oko. cbn [flat_map op_text]. apply Forall_app. auto. Qed.
  Lemma ok_wn x l : okw x -> oko l -> oko (WN x :: l).
  Proof. intros. unfold oko. cbn [flat_map op_text]. apply Forall_app. auto. Qed.
  Lemma ok_if c s : forallb (fun c => (32 <=? c) && (c <=? 126)) (gs s) = true -> oko (wif c s).
  Proof. intros H. destruct c; [apply ok_wb; [now apply lit|constructor]|constructor]. Qed.
  Lemma ok_sw l : oko l -> okw (WSw l). Proof. exact (fun H => H). Qed.
  Lemma ok_single s : Forall P s -> okw (WSingle s). Proof. exact (fun H => H). Qed.
  Lemma ok_join sep l : Forall P sep -> Forall okw l -> oko (wjoin sep l).
  Proof.
    intros Hs. induction 1 as [|x l Hx Hl IH]; cbn [wjoin]; [constructor|]. apply ok_wn; [exact Hx|].
    destruct l; [constructor|]. now apply ok_wb.
  Qed.
  Lemma ok_comma {A} (f : A -> wnode) l : Forall (fun x => okw (f x)) l -> oko (wcomma (map f l)).
  Proof. intros H. apply ok_join; [now apply lit|]. now apply Forall_map. Qed.

  Lemma p_ident i : all (AIdent i) -> okw (wt_ident i).
  Proof. intros A. exact (all_own _ A). Qed.
  Lemma p_idents s l : forallb (fun c => (32 <=? c) && (c <=? 126)) (gs s) = true -> Forall (fun i => all (AIdent i)) l -> oko (widents s l).
  Proof. intros H A. apply ok_join; [now apply lit|]. apply Forall_map. eapply Forall_impl; [|exact A]. exact p_ident. Qed.

  Lemma all_map {A} (f : A -> any) l : Forall all (map f l) -> Forall (fun x => all (f x)) l.
  Proof. apply Forall_map. Qed.
  Lemma all_cons x l : Forall all (x :: l) -> all x /\ Forall all l.
  Proof. inversion 1; auto. Qed.
  Lemma all_app a b : Forall all (a ++ b) -> Forall all a /\ Forall all b.
  Proof. apply Forall_app. Qed.
  Ltac subs A := apply all_subs in A; cbn [subnodes fields flat_map held snd f1 fl f01 option_map app AIdent ALong] in A; unfold f1, fl, f01 in A;
    cbn [flat_map held snd option_map app] in A.
  Ltac dec := repeat match goal with
    | H : Forall all (_ ++ _) |- _ => apply all_app in H; destruct H
    | H : Forall all (_ :: _) |- _ => apply all_cons in H; destruct H
    | H : Forall all (map _ _) |- _ => apply all_map in H
    | H : Forall all [] |- _ => clear H
    end.

  Lemma p_on o : all (AName o) -> okw (wt_objname o).
  Proof. intros A. subs A. dec. apply ok_sw, p_idents; [reflexivity|assumption]. Qed.

  Ltac leaf := match goal with
    | |- Forall P (gs _) => apply lit; reflexivity
    | |- Forall P (format_int _) => apply p_int
    | |- Forall P (format_float _) => apply p_float
    | |- okw (wt_ident _) => apply p_ident; assumption
    | |- okw (wt_objname _) => apply p_on; assumption
    end.
  Ltac go := repeat match goal with
    | |- okw (WSw _) => apply ok_sw
    | |- okw (WSingle _) => apply ok_single
    | |- oko (_ ++ _) => apply ok_app
    | |- oko [] => apply ok_nil
    | |- oko (wl _ :: _) => unfold wl at 1; apply ok_wb
    | |- oko (wint _ :: _) => unfold wint; apply ok_wb
    | |- oko (WB _ :: _) => apply ok_wb
    | |- oko (WN _ :: _) => apply ok_wn
    | |- oko (wif _ _) => apply ok_if; reflexivity
    | |- oko (widents _ _) => apply p_idents; [reflexivity|assumption]
    | |- oko (if ?b then _ else _) => destruct b
    | |- oko (match ?o with None => _ | Some _ => _ end) => destruct o
    | |- Forall P (if ?b then _ else _) => destruct b
    | |- Forall P (gs (if ?b then _ else _)) => destruct b
    | |- _ => leaf
    end.

  Lemma p_long v : okw (wt_long v). Proof. apply p_int. Qed.
  Lemma p_limit l : okw (wt_limit l).
  Proof. destruct l as [a p [v|] [o|]]; unfold wt_limit; cbn [lim_value lim_offset]; go; apply p_long. Qed.
  Lemma p_bound b : okw (wt_wbound b).
  Proof. destruct b; cbn [wt_wbound]; go. Qed.
  Lemma p_unit b : okw (wt_wframeunit b).
  Proof. unfold wt_wframeunit. destruct (wfu_type b); go. Qed.
  Lemma p_frame f : okw (wt_wframe f).
  Proof. unfold wt_wframe. destruct (wf_end f); go; auto using p_bound, p_unit. Qed.
  Lemma p_setop f : okw (wt_setop f).
  Proof. destruct f; cbn [wt_setop]; go. Qed.
  Lemma p_jt f : okw (wt_jointype f).
  Proof. unfold wt_jointype, jointype_string. destruct (jt_cond f); go. constructor. Qed.
  Lemma p_op f : okw (wt_operator f).
  Proof. unfold wt_operator. destruct (op_type f); go. constructor. Qed.
  Lemma p_dtype t : all (AType t) -> okw (wt_dtype t).
  Proof.
    induction t; intros A; subs A; dec; cbn [wt_dtype]; unfold type_with_len; go; auto.
  Qed.

  Lemma Forall_mp {A} (Q R : A -> Prop) l : Forall (fun x => Q x -> R x) l -> Forall Q l -> Forall R l.
  Proof. induction 1; intros H1; inversion H1; subst; constructor; auto. Qed.

  Lemma ok_quoted a s : forallb (fun c => (32 <=? c) && (c <=? 126)) (gs a) = true -> Forall P s -> okw (WSeq [gs a; s; gs "'"]).
  Proof.
    intros H O. unfold okw. cbn [text_of List.concat]. repeat (apply Forall_app; split); [now apply lit|exact O|now apply lit|constructor].
  Qed.
  Lemma p_branches (bs : list (node * node)) :
    Forall (fun b => (all (AExpr (fst b)) -> okw (wt_node (fst b))) /\ (all (AExpr (snd b)) -> okw (wt_node (snd b)))) bs ->
    Forall (fun x => all (AExpr x)) (map fst bs) -> Forall (fun x => all (AExpr x)) (map snd bs) ->
    oko (List.concat (map (fun p => match p with (c, r) => [wl " WHEN "; WN (wt_node c); wl " THEN "; WN (wt_node r)] end) bs)).
  Proof.
    induction 1 as [|[u v] bs [Hu Hv] Hb IH]; cbn [map fst snd List.concat] in *; intros B C; [apply ok_nil|].
    inversion B; inversion C; subst. go; auto.
  Qed.
  Lemma p_ast :
    (forall e, all (AExpr e) -> okw (wt_node e)) /\ (forall w, all (AWin w) -> okw (wt_winspec w)) /\
    (forall o, all (AOrder o) -> okw (wt_orderby o)) /\ (forall q, all (AQuery q) -> okw (wt_query q)) /\
    (forall c, all (ACte c) -> okw (wt_cte c)) /\ (forall b, all (ASet b) -> okw (wt_setexpr b)) /\
    (forall s, all (ASet (SSelect s)) -> okw (wt_select s)) /\ (forall i, all (AItem i) -> okw (wt_selitem i)) /\
    (forall t, all (ARef t) -> okw (wt_tableref t)) /\ (forall j, all (ASpec j) -> okw (wt_joinspec j)).
  Proof.
    Ltac lists := repeat match goal with
      | IH : Forall (fun x => all _ -> okw _) ?l, A : Forall _ ?l |- _ => apply (Forall_mp _ _ _ IH) in A; clear IH
      end.
    apply ast_ind; intros;
      repeat match goal with o : option _ |- _ => destruct o | H : opt_all _ _ |- _ => cbn [opt_all] in H end;
      match goal with A : all ?x |- _ => pose proof (all_own _ A) as O; cbn [holds] in O; pose proof A as Keep; subs A; dec end;
      first [rewrite wt_node_eq|rewrite wt_winspec_eq|rewrite wt_orderby_eq|rewrite wt_query_eq|rewrite wt_cte_eq|rewrite wt_setexpr_eq|rewrite wt_select_eq|rewrite wt_selitem_eq|rewrite wt_tableref_eq|rewrite wt_joinspec_eq];
      cbv beta iota; lists; go; try (apply ok_comma; assumption); auto using p_frame, p_limit, p_setop, p_jt, p_op, p_dtype, p_long.
    all: try (apply ok_quoted; [reflexivity|assumption]).
    all: try (match goal with A : all (AElement ?a), B : all (AElement ?b) |- _ => subs A; subs B; dec; auto end).
    all: apply p_branches; assumption.
  Qed.
  Lemma p_node e : all (AExpr e) -> okw (wt_node e). Proof. apply p_ast. Qed.
  Lemma p_query e : all (AQuery e) -> okw (wt_query e). Proof. apply p_ast. Qed.

  Lemma Forall_here {A} (Q R : A -> Prop) l : (forall x, Q x -> R x) -> Forall Q l -> Forall R l.
  Proof. intros H. now apply Forall_impl. Qed.
  Ltac comma L := apply ok_comma; eapply Forall_here; [apply L|]; assumption.
  Ltac opts := repeat match goal with |- context [match ?o with None => _ | Some _ => _ end] => destruct o eqn:? end.

  Lemma p_row r : all (ARow r) -> okw (wt_row r).
  Proof. intros A. subs A. dec. unfold wt_row. go. comma p_node. Qed.
  Lemma p_src r : all (ASource r) -> okw (wt_source r).
  Proof. destruct r; intros A; subs A; dec; cbn [wt_source]; [now apply p_query|]. go. comma p_row. Qed.
  Lemma p_assign r : all (AAssign r) -> okw (wt_assign r).
  Proof. intros A. subs A. dec. unfold wt_assign. go. now apply p_node. Qed.
  Lemma p_refkey k : all (ARefKey k) -> okw (wt_refkey k).
  Proof. intros A. subs A. dec. unfold wt_refkey. go. Qed.
  Lemma p_tcspec s : all (ATSpec s) -> okw (wt_tcspec s).
  Proof. destruct s; intros A; subs A; dec; cbn [wt_tcspec]; go; auto using p_refkey, p_node. Qed.
  Lemma p_tc c : all (AElem (TEConstraint c)) -> okw (wt_tableconstraint c).
  Proof. destruct c as [p [n|] s]; intros A; subs A; cbn [tc_name tc_spec option_map held app] in A; dec; unfold wt_tableconstraint; cbn [tc_name tc_spec]; go; auto using p_tcspec. Qed.
  Lemma p_ccspec s : all (ACSpec s) -> okw (wt_ccspec s).
  Proof. destruct s; intros A; subs A; dec; cbn [wt_ccspec]; go; auto using p_node. Qed.
  Lemma p_cc c : all (ACCons c) -> okw (wt_colconstraint c).
  Proof. destruct c as [[n|] p s]; intros A; subs A; cbn [cc_name cc_spec option_map held app] in A; dec; unfold wt_colconstraint; cbn [cc_name cc_spec]; go; auto using p_ccspec. Qed.
  Lemma p_decs l : oko (List.concat (map (fun d => [wl " "; WN (wt_decoration d)]) l)).
  Proof. induction l; cbn [map List.concat]; go; auto. unfold wt_decoration. go. Qed.
  Lemma p_ccs l : Forall (fun c => all (ACCons c)) l -> oko (map (fun k => WN (wt_colconstraint k)) l).
  Proof. induction 1; cbn [map]; go; auto. now apply p_cc. Qed.
  Lemma p_coldef c : all (AElem (TEColumn c)) -> okw (wt_columndef c).
  Proof.
    destruct c as [n t [e|] d k]; intros A; subs A; cbn [cd_name cd_type cd_default cd_decorations cd_constraints option_map held app] in A; dec;
      unfold wt_columndef; cbn [cd_name cd_type cd_default cd_decorations cd_constraints]; go; auto using p_node, p_dtype, p_decs, p_ccs.
  Qed.
  Lemma p_element e : all (AElem e) -> okw (wt_tableelement e).
  Proof. destruct e; [apply p_coldef|apply p_tc]. Qed.
  Lemma p_option e : all (AOption e) -> okw (wt_tableoption e).
  Proof. destruct e; intros A; subs A; dec; cbn [wt_tableoption]; go. Qed.
  Lemma p_altercol a : all (AColAction a) -> okw (wt_altercol a).
  Proof. destruct a; intros A; subs A; dec; cbn [wt_altercol]; go; auto using p_node, p_dtype. Qed.
  Lemma p_altertable a : all (AAction a) -> okw (wt_altertable a).
  Proof. destruct a; intros A; subs A; dec; cbn [wt_altertable]; go; auto using p_altercol, p_coldef, p_tc. Qed.
  Lemma p_stmt s : all (of_stmt s) -> okw (wt_stmt s).
  Proof.
    induction s; cbn [of_stmt]; intros A; [exact (p_query _ A)|..];
      repeat match goal with o : option _ |- _ => destruct o end; subs A; dec; cbn [wt_stmt]; go;
      auto using p_node, p_src, p_query, p_altertable; try comma p_assign; try comma p_element; try comma p_option; try comma p_on.
  Qed.
End Chars.

Lemma stmt_chars s c : In c (sql_stmt s) -> sql_char c \/ exists z, within (of_stmt s) z /\ In c (holds z).
Proof.
  intros I. pose proof (p_stmt (fun c => sql_char c \/ exists z, within (of_stmt s) z /\ In c (holds z)) (fun c H => or_introl H) s) as H.
  unfold sql_stmt in I. rewrite builder_string_text in I.
  refine (proj1 (Forall_forall _ _) (H _) c I). intros z W. apply Forall_forall. intros x J. right. exists z. auto.
Qed.
Lemma node_chars s c : In c (sql_node s) -> sql_char c \/ exists z, within (AExpr s) z /\ In c (holds z).
Proof.
  intros I. pose proof (p_node (fun c => sql_char c \/ exists z, within (AExpr s) z /\ In c (holds z)) (fun c H => or_introl H) s) as H.
  unfold sql_node in I. rewrite builder_string_text in I.
  refine (proj1 (Forall_forall _ _) (H _) c I). intros z W. apply Forall_forall. intros x J. right. exists z. auto.
Qed.

(** ** Parsed trees *)

Lemma escape_in s c : In c (escape s) <-> In c s.
Proof.
  unfold escape. induction s as [|x s IH]; cbn [flat_map]; [tauto|]. rewrite in_app_iff, IH.
  destruct (Z.eqb_spec x 39) as [->|]; cbn [In]; tauto.
Qed.
Lemma lexeme_says d k v s rest c : lexeme d k v s rest -> forall p q, In c (says (mkTok k v p q)) -> In c s.
Proof.
  intros H p q. destruct H; unfold says; cbn [tkind tval wvalue]; try (intros []; fail); auto.
  - intros I. right. apply in_or_app. now left.
  - intros I. right. apply in_or_app. left. now apply escape_in.
  - intros I. right. right. apply in_or_app. left. now apply escape_in.
  - assert (K : forall a b e, In (a, b, e) symbols -> match b with SQLKeyword | SingleQuotedString | NationalStringLiteral => False | _ => True end).
    { intros a b e I. cbn in I. repeat (destruct I as [I|I]; [injection I as _ <- _; exact Logic.I|]). destruct I. }
    specialize (K _ _ _ H). destruct k; try contradiction; intros [].
Qed.
Lemma says_source d src toks t c : dialect_ok d -> tokenize d true src = TOk toks -> In t toks -> In c (says t) -> In c src.
Proof.
  intros D E I J. destruct (tokenize_lossless d src toks D E) as (sl & L & C & _ & X).
  apply in_split in I as (a & b & ->).
  assert (exists sa s sb, sl = sa ++ s :: sb /\ List.length a = List.length sa) as (sa & s & sb & -> & La).
  { rewrite app_length in L. cbn [List.length] in L. exists (firstn (List.length a) sl).
    destruct (skipn (List.length a) sl) as [|s sb] eqn:K.
    - exfalso. pose proof (skipn_length (List.length a) sl) as M. rewrite K in M. cbn in M. lia.
    - exists s, sb. split; [rewrite <- K; symmetry; apply firstn_skipn|]. rewrite firstn_length. lia. }
  specialize (X a t b sa s sb eq_refl eq_refl La).
  assert (In c s). { destruct t as [k v p q]. exact (lexeme_says d _ _ _ _ c X p q J). }
  assert (K : In c (skip_bom src)). { rewrite C, concat_app. cbn [List.concat]. apply in_or_app. right. apply in_or_app. now left. }
  unfold skip_bom in K. destruct src as [|x r]; [exact K|]. destruct (x =? _); [now right|exact K].
Qed.

Lemma word_says w c : In c (word_string w) -> sql_char c \/ In c (wvalue w).
Proof.
  unfold word_string, sql_char. destruct (_ || _) eqn:Q; [|destruct (wquote w =? 0); cbn; tauto].
  apply orb_prop in Q as [Q|Q]; [apply orb_prop in Q as [Q|Q]|]; apply Z.eqb_eq in Q; rewrite Q; cbn [In];
    (intros [<-|I]; [left; lia|]); apply in_app_iff in I as [I|[<-|[]]]; auto; left; cbn; lia.
Qed.
Lemma holds_said z ts c : Grammar.reads anything z ts -> Forall tok_wf ts -> In c (holds z) -> sql_char c \/ exists t, In t ts /\ In c (says t).
Proof.
  intros R W I. destruct z as [| e | | | | | | | | | | | | | | | | | | | | | | | | | | | | | | | | |]; try destruct I. destruct e; try destruct I; cbn [holds] in I.
  - destruct R as [_ (t & -> & w & V & ->)]. cbn [id_value] in I. apply word_says in I as [I|I]; [now left|right].
    exists t. split; [now left|]. inversion W; subst. unfold tok_wf in H1. unfold says. rewrite V in *. destruct (tkind t); try contradiction. exact I.
  - destruct R as [_ (t & -> & K & V & _)]. right. exists t. split; [now left|]. unfold says. rewrite K, V. exact I.
  - destruct R as [_ (t & -> & K & V & _)]. right. exists t. split; [now left|]. unfold says. rewrite K, V. exact I.
Qed.

Lemma within_trans x y z : within x y -> within y z -> within x z.
Proof. induction 1; eauto using within_sub. Qed.
Lemma holds_text z : holds z <> [] -> in_text z.
Proof. destruct z; cbn; auto; congruence. Qed.

Lemma file_chars d src f toks : dialect_ok d -> parse_file d src = ROk f -> tokenize d true src = TOk toks ->
  forall s c, In s (f_stmts f) -> In c (sql_stmt s) -> sql_char c \/ exists t, In t toks /\ In c (says t).
Proof.
  intros D E T s c I J. destruct (file_spans d src f D E) as (toks' & T' & X). rewrite T in T'. injection T' as <-.
  destruct (stmt_chars s c J) as [H|(z & Wz & H)]; [now left|].
  assert (V : within (AFile f) z).
  { apply within_sub with (y := of_stmt s); [|exact Wz]. unfold subnodes. cbn [fields]. unfold fl. cbn [flat_map held snd].
    apply in_or_app. left. now apply in_map. }
  assert (N : in_text z). { apply holds_text. intros K. rewrite K in H. destruct H. }
  destruct (X z V N) as (a & ts & b & Es & R & _).
  assert (W : Forall tok_wf (sig toks)) by (apply fsig_wf; exact (tokenize_wf _ _ _ _ D T)).
  rewrite Es, !Forall_app in W.
  destruct (holds_said z ts c R (proj1 (proj2 W)) H) as [|(t & It & Ic)]; [now left|right].
  exists t. split; [|exact Ic]. assert (In t (sig toks)) by (rewrite Es; apply in_or_app; right; apply in_or_app; now left).
  apply filter_In in H0. apply H0.
Qed.

(** ** One statement, one line *)

Lemma lines_one s : ~ In 10 s -> lines s = [s].
Proof.
  induction s as [|c s IH]; intros N; cbn [lines]; [reflexivity|].
  destruct (Z.eqb_spec c 10) as [->|]; [destruct N; now left|]. rewrite IH; [reflexivity|]. intros I. apply N. now right.
Qed.
Lemma lines_app s r : ~ In 10 s -> lines (s ++ 10 :: r) = s :: lines r.
Proof.
  induction s as [|c s IH]; intros N; cbn [lines app]; [reflexivity|].
  destruct (Z.eqb_spec c 10) as [->|]; [destruct N; now left|]. rewrite IH; [reflexivity|]. intros I. apply N. now right.
Qed.
Lemma join_lines l : l <> [] -> Forall (fun w => ~ In 10 (text_of w)) l ->
  lines (flat_map op_text (wjoin [10] l)) = map text_of l.
Proof.
  induction l as [|x l IH]; [congruence|]. intros _ H. apply Forall_cons_iff in H as [Hx H].
  cbn [wjoin flat_map op_text map]. destruct l as [|y l].
  - cbn [flat_map map]. rewrite app_nil_r. now apply lines_one.
  - cbn [flat_map op_text]. change ([10] ++ ?r) with (10 :: r). rewrite lines_app by exact Hx. f_equal. apply IH; [discriminate|exact H].
Qed.
Lemma file_lines d src f toks : dialect_ok d -> parse_file d src = ROk f -> tokenize d true src = TOk toks ->
  (forall t, In t toks -> ~ In 10 (says t)) -> f_stmts f <> [] -> lines (sql_file f) = map sql_stmt (f_stmts f).
Proof.
  intros D E T H N. unfold sql_file. rewrite builder_string_text. unfold wt_file. cbn [text_of].
  change (flat_map _ ?l) with (flat_map op_text l). rewrite join_lines.
  - rewrite map_map. apply map_ext. intros s. unfold sql_stmt. now rewrite builder_string_text.
  - destruct (f_stmts f); [congruence|discriminate].
  - apply Forall_map, Forall_forall. intros s I J.
    assert (K : In 10 (sql_stmt s)) by (unfold sql_stmt; now rewrite builder_string_text).
    destruct (file_chars d src f toks D E T s 10 I K) as [C|(t & It & Ic)]; [unfold sql_char in C; lia|]. exact (H t It Ic).
Qed.
