(** The parser reads what it consumes: every tree it returns is a reading
    (Grammar.v) of exactly the tokens it took. *)
From Coq Require Import ZArith List Bool String Lia.
From Verif Require Import Base Dialect Token Lexer AST Num Nodes Prog Parser ParseSpec Wp Wlp Grammar.
Import ListNotations.
Open Scope list_scope.
Open Scope Z_scope.

(* ------------------------------------------------------------------ *)
(** ** Languages *)

Lemma cat_end (P : lang) ts : cat P eps (ts ++ []) -> P ts.
Proof. intros (u & v & E & H & ->). rewrite !app_nil_r in E. subst. exact H. Qed.
Lemma cat_app (P Q : lang) u v : P u -> Q v -> cat P Q (u ++ v).
Proof. intros. exists u, v. auto. Qed.
Lemma cat_tok (f : token -> Prop) (Q : lang) x v : f x -> Q v -> cat (tok f) Q (x :: v).
Proof. intros. exists [x], v. repeat split; auto. exists x. auto. Qed.
Lemma cat_one (P Q : lang) x v : P [x] -> Q v -> cat P Q (x :: v).
Proof. intros. exists [x], v. auto. Qed.
Lemma cat_eps (Q : lang) v : Q v -> cat eps Q v.
Proof. intros. exists [], v. repeat split; auto. Qed.
Lemma cat_cat (P Q R : lang) v : cat P (cat Q R) v -> cat (cat P Q) R v.
Proof.
  intros (a & b & -> & HP & c & d & -> & HQ & HR). exists (a ++ c), d.
  rewrite app_assoc. repeat split; auto. exists a, c. auto.
Qed.
Lemma cat_given (c : Prop) (P Q : lang) v : c -> cat P Q v -> cat (given c P) Q v.
Proof. intros Hc (a & b & -> & HP & HQ). exists a, b. repeat split; auto. Qed.
Lemma cat_altl (P P' Q : lang) v : cat P Q v -> cat (alt P P') Q v.
Proof. intros (a & b & -> & HP & HQ). exists a, b. repeat split; auto. left; auto. Qed.
Lemma cat_altr (P P' Q : lang) v : cat P' Q v -> cat (alt P P') Q v.
Proof. intros (a & b & -> & HP & HQ). exists a, b. repeat split; auto. right; auto. Qed.

Lemma cat_kwds_nil (Q : lang) v : Q v -> cat (kwds []) Q v.
Proof. apply cat_eps. Qed.
Lemma cat_kwds_cons s l (Q : lang) v : cat (kwd s) (cat (kwds l) Q) v -> cat (kwds (s :: l)) Q v.
Proof. intros H. apply (cat_cat (kwd s) (kwds l) Q), H. Qed.

(** Items each followed by a separator. *)
Definition trail (s : lang) (l : list lang) : lang := many (map (fun P => cat P s) l).

Lemma many_app l1 : forall l2 u v, many l1 u -> many l2 v -> many (l1 ++ l2) (u ++ v).
Proof.
  induction l1 as [|P l1 IH]; intros l2 u v H1 H2; cbn in *.
  - rewrite H1. exact H2.
  - destruct H1 as (a & b & -> & HP & H). rewrite <- app_assoc. apply cat_app; auto.
Qed.
Lemma many_one (P : lang) u : P u -> many [P] u.
Proof. intros H. cbn. rewrite <- (app_nil_r u). apply cat_app; [exact H|reflexivity]. Qed.
Lemma trail_snoc s l (P : lang) u v x : trail s l u -> P v -> s x -> trail s (l ++ [P]) (u ++ v ++ x).
Proof.
  intros H1 H2 H3. unfold trail. rewrite map_app. apply many_app; [exact H1|].
  apply many_one. apply cat_app; auto.
Qed.
Lemma trail_sep s l : forall (P : lang) u v, trail s l u -> P v -> sep_by s (l ++ [P]) (u ++ v).
Proof.
  induction l as [|R l IH]; intros P u v H1 H2.
  - cbn in *. rewrite H1. exact H2.
  - cbn [trail map many] in H1. destruct H1 as (a & b & -> & (c & e & -> & HR & Hs) & Hm).
    specialize (IH P b v Hm H2). cbn [sep_by app].
    destruct (l ++ [P]) eqn:E; [destruct l; discriminate|].
    rewrite <- !app_assoc. apply cat_app; [exact HR|]. apply cat_app; [exact Hs|exact IH].
Qed.
Lemma trail_app s l1 l2 u v : trail s l1 u -> trail s l2 v -> trail s (l1 ++ l2) (u ++ v).
Proof. intros H1 H2. unfold trail. rewrite map_app. apply many_app; auto. Qed.

(* ------------------------------------------------------------------ *)
(** ** Keywords *)

Lemma gs_eqb_eq a : forall b, gs_eqb a b = true -> a = b.
Proof.
  induction a as [|x a IH]; intros [|y b] H; cbn in H; try discriminate; auto.
  apply andb_prop in H. destruct H as [H1 H2]. apply Z.eqb_eq in H1. f_equal; auto.
Qed.
Lemma gs_eqb_refl a : gs_eqb a a = true.
Proof. induction a as [|x a IH]; cbn; [reflexivity|]. rewrite Z.eqb_refl. exact IH. Qed.
Lemma spells_kw s x w : tval x = VWord w -> kw w s = true -> spells s x.
Proof. intros E H. exists w. split; [exact E|]. left. apply gs_eqb_eq, H. Qed.
Lemma spells_is_kw s x : is_kw (gs s) x = true -> spells s x.
Proof.
  unfold is_kw. intros H. destruct (tval x) as [w|] eqn:E; [|discriminate]. exists w. auto.
Qed.
Lemma is_kind_tkind k x : is_kind k x = true -> tkind x = k.
Proof. unfold is_kind. destruct (tkind x), k; cbn; congruence. Qed.

Lemma equal_fold_map v : forall a, equal_fold v a = true -> map fold1 v = map fold1 a.
Proof.
  induction v as [|x v IH]; intros [|y a] H; cbn in *; try discriminate; auto.
  apply andb_prop in H. destruct H as [H1 H2]. apply Z.eqb_eq in H1. f_equal; auto.
Qed.
Lemma is_kw_clash a b x : is_kw a x = true -> is_kw b x = true -> map fold1 a = map fold1 b.
Proof.
  unfold is_kw. destruct (tval x); try discriminate. intros H1 H2.
  rewrite <- (equal_fold_map _ _ H1). apply equal_fold_map, H2.
Qed.

(** The two comparisons agree on keywords without I and K. *)
Definition plain_kw (s : gostring) : bool :=
  forallb (fun c => (65 <=? c) && (c <=? 95) && negb (c =? 73) && negb (c =? 75)) s.
Lemma kw_fold s : plain_kw s = true -> forall v, equal_fold v s = true <-> upper v = s.
Proof.
  induction s as [|c s IH]; intros Hp [|x v]; cbn in *; try (split; congruence).
  apply andb_prop in Hp. destruct Hp as [Hc Hp]. specialize (IH Hp v).
  assert (E : (fold1 x =? fold1 c) = true <-> to_upper x = c).
  { unfold fold1, to_upper. rewrite Z.eqb_eq.
    repeat match goal with |- context [if ?b then _ else _] => destruct b eqn:? end; lia. }
  rewrite andb_true_iff, E, IH. unfold upper. cbn [map]. split; [intros [-> ->]; reflexivity|].
  intros H. injection H. auto.
Qed.

(* ------------------------------------------------------------------ *)
(** ** What is needed of the tokens *)

Section Sound.
  Variable L : defect -> Prop.

  Definition tok_ok (t : token) (after : toks) : Prop :=
    tok_wf t /\ no_pos (tfrom t) = false /\ (forall d, trigger d t after -> L d).

  Notation wl := (wlp tok_ok).

  Lemma wl_next_nn (Q : token -> toks -> toks -> Prop) d t :
    (forall x t', t = x :: t' -> tok_ok x t' -> Q x (x :: d) t') -> wl next_nn Q d t.
  Proof. intros H. destruct t; cbn; auto. Qed.
  Lemma wl_next_err (Q : token -> toks -> toks -> Prop) d t :
    (forall x t', t = x :: t' -> tok_ok x t' -> Q x (x :: d) t') -> wl next_err Q d t.
  Proof. intros H. destruct t; cbn; auto. Qed.
  Lemma wl_must_next (Q : token -> toks -> toks -> Prop) d t :
    (forall x t', t = x :: t' -> tok_ok x t' -> Q x (x :: d) t') -> wl must_next Q d t.
  Proof. intros H. destruct t; cbn; auto. Qed.
  Lemma wl_peek_nn (Q : token -> toks -> toks -> Prop) d t :
    (forall x t', t = x :: t' -> tok_ok x t' -> Q x d (x :: t')) -> wl peek_nn Q d t.
  Proof. intros H. destruct t; cbn; auto. Qed.
  Lemma wl_peek (Q : option token -> toks -> toks -> Prop) d t :
    (t = [] -> Q None d []) ->
    (forall x t', t = x :: t' -> tok_ok x t' -> Q (Some x) d (x :: t')) -> wl peek Q d t.
  Proof. intros H1 H2. destruct t; cbn; auto. Qed.
  Lemma wl_next_ret (Q : option token -> toks -> toks -> Prop) d t :
    (t = [] -> Q None d []) ->
    (forall x t', t = x :: t' -> tok_ok x t' -> Q (Some x) (x :: d) t') -> wl (Next Ret) Q d t.
  Proof. intros H1 H2. destruct t; cbn; auto. Qed.
  Lemma wl_prev (Q : unit -> toks -> toks -> Prop) x d t :
    Q tt d (x :: t) -> wl prev Q (x :: d) t.
  Proof. intros H. exact H. Qed.
  Lemma wl_parse_keyword s (Q : kwres -> toks -> toks -> Prop) d t :
    (t = [] -> Q KwEOF d []) ->
    (forall x t', t = x :: t' -> tok_ok x t' -> is_kw (gs s) x = false -> Q (KwNo x) d (x :: t')) ->
    (forall x t', t = x :: t' -> tok_ok x t' -> is_kw (gs s) x = true -> Q (KwYes x) (x :: d) t') ->
    wl (parse_keyword s) Q d t.
  Proof.
    intros H1 H2 H3. destruct t as [|x t]; cbn; auto. intros Hx.
    destruct (is_kw (gs s) x) eqn:E; cbn; auto.
  Qed.
  Definition kwno (s : string) (t : toks) : Prop :=
    match t with [] => True | x :: _ => is_kw (gs s) x = false end.
  Lemma wl_kw_ok s (Q : bool -> toks -> toks -> Prop) d t :
    (kwno s t -> Q false d t) ->
    (forall x t', t = x :: t' -> tok_ok x t' -> is_kw (gs s) x = true -> Q true (x :: d) t') ->
    wl (kw_ok s) Q d t.
  Proof.
    intros H2 H3. unfold kw_ok. apply wlp_bind. apply wl_parse_keyword; intros; subst; cbn; auto.
    apply H2. exact I.
  Qed.
  Lemma wl_kw_tok s (Q : option token -> toks -> toks -> Prop) d t :
    (kwno s t -> Q None d t) ->
    (forall x t', t = x :: t' -> tok_ok x t' -> is_kw (gs s) x = true -> Q (Some x) (x :: d) t') ->
    wl (kw_tok s) Q d t.
  Proof.
    intros H2 H3. unfold kw_tok. apply wlp_bind. apply wl_parse_keyword; intros; subst; cbn; auto.
    apply H2. exact I.
  Qed.
  Lemma wl_expect_keyword s (Q : token -> toks -> toks -> Prop) d t :
    (forall x t', t = x :: t' -> tok_ok x t' -> is_kw (gs s) x = true -> Q x (x :: d) t') ->
    wl (expect_keyword s) Q d t.
  Proof.
    intros H3. unfold expect_keyword. apply wlp_bind. apply wl_parse_keyword; intros; subst; cbn; auto.
  Qed.
  Lemma wl_kws_ok l (Q : bool -> toks -> toks -> Prop) d t :
    Q false d t ->
    (forall l1 t', kwds l l1 -> oks tok_ok l1 t' -> t = l1 ++ t' -> Q true (rev l1 ++ d) t') ->
    wl (kws_ok l) Q d t.
  Proof.
    intros H1 H2. unfold kws_ok. apply wlp_kws; [exact H1|]. intros l1 t' F Fo E. apply H2; auto.
    clear - F. revert l1 F. unfold kwds. induction l as [|s l IH]; intros l1 F; inversion_clear F; cbn.
    - reflexivity.
    - apply cat_tok; [apply spells_is_kw; assumption|auto].
  Qed.
  Lemma wl_kws_toks2 a b (Q : option toks -> toks -> toks -> Prop) d t :
    Q None d t ->
    (forall x y t', t = x :: y :: t' -> tok_ok x (y :: t') -> tok_ok y t' -> is_kw (gs a) x = true -> is_kw (gs b) y = true ->
       Q (Some [x; y]) (y :: x :: d) t') ->
    wl (kws_toks [a; b]) Q d t.
  Proof.
    intros H1 H2. unfold kws_toks. apply wlp_kws; [exact H1|]. intros l1 t' F Ho E.
    inversion F as [|? x ? l2 ? F2]; subst. inversion F2 as [|? y ? l3 ? F3]; subst. inversion F3; subst.
    destruct Ho as (Hx & Hy & _).
    cbn. apply H2; auto.
  Qed.
  Lemma wl_consume k (Q : bool -> toks -> toks -> Prop) d t :
    (match t with x :: _ => tkind x <> k | [] => True end -> Q false d t) ->
    (forall x t', t = x :: t' -> tok_ok x t' -> tkind x = k -> Q true (x :: d) t') ->
    wl (consume_token k) Q d t.
  Proof.
    intros H1 H2. destruct t as [|x t]; cbn; auto. intros Hx. destruct (is_kind k x) eqn:E; cbn.
    - intros _. apply H2; auto. apply is_kind_tkind, E.
    - apply H1. unfold is_kind in E. intros <-. destruct (tkind x); discriminate.
  Qed.
  Lemma wl_expect_token k (Q : unit -> toks -> toks -> Prop) d t :
    (forall x t', t = x :: t' -> tok_ok x t' -> tkind x = k -> Q tt (x :: d) t') ->
    wl (expect_token k) Q d t.
  Proof.
    intros H1. unfold expect_token. apply wlp_bind. apply wl_consume; cbn; auto.
  Qed.
  Lemma wl_next_kind k (Q : token -> toks -> toks -> Prop) d t :
    (forall x t', t = x :: t' -> tok_ok x t' -> tkind x = k -> Q x (x :: d) t') ->
    wl (next_kind k) Q d t.
  Proof.
    intros H1. unfold next_kind. apply wlp_bind, wl_next_nn. intros x t' -> Hx.
    destruct (is_kind k x) eqn:E; cbn; auto. apply H1; auto. apply is_kind_tkind, E.
  Qed.
  Lemma wl_word_of x (Q : sqlword -> toks -> toks -> Prop) d t :
    (forall w, tval x = VWord w -> Q w d t) -> wl (word_of x) Q d t.
  Proof. unfold word_of. intros H3. destruct (tval x) as [w|s] eqn:E; cbn; auto. Qed.
  Lemma wl_str_of x (Q : gostring -> toks -> toks -> Prop) d t :
    (forall s, tval x = VStr s -> Q s d t) -> wl (str_of x) Q d t.
  Proof. unfold str_of. intros H3. destruct (tval x) as [w|s] eqn:E; cbn; auto. Qed.
  Lemma wl_or_err {A} (o : option A) (Q : A -> toks -> toks -> Prop) d t :
    (forall a, o = Some a -> Q a d t) -> wl (or_err o) Q d t.
  Proof. intros H. destruct o; cbn; auto. Qed.
  Notation reads_dtype := (Grammar.reads_dtype L).
  (** Unfolding equations of the readings. *)
  Notation reads_node := (Grammar.reads_node L).
  Notation reads_win := (Grammar.reads_win L).
  Notation reads_orderby := (Grammar.reads_orderby L).
  Notation reads_query := (Grammar.reads_query L).
  Notation reads_cte := (Grammar.reads_cte L).
  Notation reads_setexpr := (Grammar.reads_setexpr L).
  Notation reads_select := (Grammar.reads_select L).
  Notation reads_selitem := (Grammar.reads_selitem L).
  Notation reads_tableref := (Grammar.reads_tableref L).
  Notation reads_joinspec := (Grammar.reads_joinspec L).
  Notation lost := (Grammar.lost L).
  Notation table_alias := (Grammar.table_alias L).
  Lemma reads_node_eq (e : node) :
    reads_node e =
    (well_bound e ??
    match e with
    | EIdent i => word i
    | EWildcard p => sym_from Mult p
    | EQualWildcard l => dots l >> sym Period >> sym Mult
    | ECompound l => (2 <= List.length l)%nat ?? dots l
    | EIsNull x => reads_node x >> kwds ["IS"; "NULL"]%string
    | EIsNotNull x => reads_node x >> kwds ["IS"; "NOT"; "NULL"]%string
    | EInList x l n p =>
        reads_node x >> not_ n >> kwd "IN" >> parens_to (sep_by (sym Comma) (map reads_node l)) p
    | EInSubQuery x q n p =>
        reads_node x >> not_ n >> kwd "IN" >> parens_to (lost LostSelect (kwd "SELECT") >> reads_query q) p
    | EBetween x n lo hi =>
        reads_node x >> not_ n >> kwd "BETWEEN" >> reads_node lo >> kwd "AND" >> reads_node hi
    | EBinary l o r => reads_node l >> operator_tokens o >> reads_node r
    | ECast x t c p =>
        (kwd_from "CAST" c >> parens_to (reads_node x >> kwd "AS" >> reads_dtype t) p) <|>
        (c = pos0 /\ p = pos0 ?? reads_node x >> sym DoubleColon >> reads_dtype t)
    | ENested x p q => sym_from LParen p >> reads_node x >> sym_to RParen q
    | EUnary f o x => prefix_token f o >> reads_node x
    | EFunction n args p over q =>
        name n >>
        parens_to (match args with [] => eps | _ => sep_by (sym Comma) (map reads_node args) end) p >>
        (q = pos0 ?? match over with None => eps | Some w => kwd "OVER" >> parens (reads_win w) end)
    | ECase p q operand branches else_ =>
        kwd_from "CASE" p >>
        match operand with Some x => reads_node x | None => eps end >>
        (branches <> [] ??
         many (map (fun b => kwd "WHEN" >> reads_node (fst b) >> kwd "THEN" >> reads_node (snd b)) branches)) >>
        match else_ with Some x => kwd "ELSE" >> reads_node x | None => eps end >>
        kwd_to "END" q
    | EExists n q pn pe p =>
        (if n then kwd_from "NOT" pn else (pn = pos0 ?? eps)) >> kwd_from "EXISTS" pe >> parens_to (reads_query q) p
    | ESubQuery q p r =>
        sym_from LParen p >> lost LostSelect (kwd "SELECT") >> reads_query q >> sym_to RParen r
    | ELong v => long v
    | EDouble p q d =>
        tok (fun t => tkind t = Number /\ tfrom t = p /\ tto t = q /\
                      exists s, tval t = VStr s /\ has_dot s = true /\ parse_float s = Some d)
    | EString p q s => str SingleQuotedString p q s
    | ENString p q s => str NationalStringLiteral p q s
    | EBool p q b => kwd_at (if b then "TRUE" else "FALSE") p q
    | ENull p q => kwd_at "NULL" p q
    end).
  Proof. destruct e; reflexivity. Qed.
  Lemma reads_win_eq (w : winspec) :
    reads_win w =
    (match w with
    | WinSpec p o f pp po =>
        match p with
        | [] => pp = pos0 ?? eps
        | _ => kwd_from "PARTITION" pp >> kwd "BY" >> sep_by (sym Comma) (map reads_node p)
        end >>
        match o with
        | [] => po = pos0 ?? eps
        | _ => kwd_from "ORDER" po >> kwd "BY" >> sep_by (sym Comma) (map reads_orderby o)
        end >>
        may f reads_frame
    end).
  Proof. destruct w; reflexivity. Qed.
  Lemma reads_orderby_eq (o : orderby) :
    reads_orderby o =
    (match o with
    | OrderBy e p asc =>
        p = pos0 ?? reads_node e >>
        match asc with None => eps | Some true => kwd "ASC" | Some false => kwd "DESC" end
    end).
  Proof. destruct o; reflexivity. Qed.
  Lemma reads_query_eq (q : query) :
    reads_query q =
    (match q with
    | Query p ctes body oby lim =>
        p = pos0 ??
        clause ["WITH"]%string ctes (sep_by (sym Comma) (map reads_cte ctes)) >>
        reads_setexpr body >>
        clause ["ORDER"; "BY"]%string oby (sep_by (sym Comma) (map reads_orderby oby)) >>
        may lim (fun l => kwd "LIMIT" >> reads_limit l)
    end).
  Proof. destruct q; reflexivity. Qed.
  Lemma reads_cte_eq (c : cte) :
    reads_cte c =
    (match c with CTE a q p => p = pos0 ?? word a >> kwd "AS" >> parens (reads_query q) end).
  Proof. destruct c; reflexivity. Qed.
  Lemma reads_setexpr_eq (s : setexpr) :
    reads_setexpr s =
    (set_bound s ??
    match s with
    | SSelect x => reads_select x
    | SQuery p r q => p = pos0 /\ r = pos0 ?? parens (reads_query q)
    | SSetOp o all l r =>
        reads_setexpr l >> reads_setop o >> (if all then kwd "ALL" else eps) >> reads_setexpr r
    end).
  Proof. destruct s; reflexivity. Qed.
  Lemma reads_select_eq (s : select) :
    reads_select s =
    (match s with
    | Select distinct proj from where_ gby having p =>
        kwd_from "SELECT" p >> (if distinct then kwd "DISTINCT" else eps) >>
        sep_by (sym Comma) (map reads_selitem proj) >>
        clause ["FROM"]%string from (sep_by (sym Comma) (map reads_tableref from)) >>
        match where_ with Some e => kwd "WHERE" >> reads_node e | None => eps end >>
        clause ["GROUP"; "BY"]%string gby (sep_by (sym Comma) (map reads_node gby)) >>
        match having with Some e => kwd "HAVING" >> reads_node e | None => eps end
    end).
  Proof. destruct s; reflexivity. Qed.
  Lemma reads_selitem_eq (i : selitem) :
    reads_selitem i =
    (match i with
    | SIUnnamed e => reads_node e
    | SIAlias e a => reads_node e >> opt (kwd "AS") >> word a
    | SIQualWildcard n => name n >> sym Period >> sym Mult
    | SIWildcard p q => sym_at Mult p q
    end).
  Proof. destruct i; reflexivity. Qed.
  Lemma reads_tableref_eq (t : tableref) :
    reads_tableref t =
    (match t with
    | TRTable n alias args p hints q =>
        p = pos0 /\ q = pos0 ??
        name n >>
        ((args = [] ?? eps) <|>
         (L OpenArgs ?? sym LParen >>
            match args with [] => eps | _ => sep_by (sym Comma) (map reads_node args) end)) >>
        table_alias alias >>
        clause ["WITH"]%string hints (parens (sep_by (sym Comma) (map reads_node hints)))
    | TRDerived lat p1 p2 p3 q alias =>
        p1 = pos0 /\ p2 = pos0 /\ p3 = pos0 ??
        (if lat then kwd "LATERAL" else eps) >> parens (reads_query q) >> table_alias alias
    | TRCross l r =>
        reads_tableref l >> lost LostJoins any_tokens >> kwds ["CROSS"; "JOIN"]%string >> reads_tableref r
    | TRQualified l j r s =>
        reads_tableref l >> reads_jointype j >> kwd "JOIN" >> reads_tableref r >> reads_joinspec s
    | TRNatural l j r =>
        reads_tableref l >> kwd "NATURAL" >> reads_jointype j >> kwd "JOIN" >> reads_tableref r
    end).
  Proof. destruct t; reflexivity. Qed.
  Lemma reads_joinspec_eq (s : joinspec) :
    reads_joinspec s =
    (match s with
    | JUsing l p q => p = pos0 /\ q = pos0 ?? kwd "USING" >> parens (words l)
    | JOn e p => kwd_from "ON" p >> reads_node e
    end).
  Proof. destruct s; reflexivity. Qed.


  (* ---------------------------------------------------------------- *)
  (** ** Tactics *)

  Ltac tidy :=
    repeat match goal with
    | H : ?t = ?x :: ?t' |- _ => is_var t; subst t
    | H : ?t = rev ?d ++ ?t' |- _ => is_var t; subst t
    | H : ?t = ?d ++ ?t' |- _ => is_var t; subst t
    | H : ?x :: ?t = ?y :: ?t' |- _ => injection H as ? ?; try subst
    | H : _ /\ _ |- _ => destruct H
    | H : (_, _) = (_, _) |- _ => injection H as ? ?; try subst
    | H : Some _ = Some _ |- _ => injection H as ?; try subst
    | H : exists _, _ |- _ => destruct H
    | H : _ || _ = true |- _ => apply orb_prop in H; destruct H
    end.
  Ltac kinds :=
    repeat match goal with
    | H : is_kind _ _ = true |- _ => apply is_kind_tkind in H
    | H : _ && _ = true |- _ => apply andb_prop in H; destruct H
    | H : negb _ = false |- _ => apply negb_false_iff in H
    | H : negb _ = true |- _ => apply negb_true_iff in H
    end.

  Ltac go1 :=
    lazymatch goal with
    | |- wlp _ (bind _ _) _ _ _ => apply wlp_bind
    | |- wlp _ (Ret _) _ _ _ => cbn [wlp]
    | |- wlp _ Err _ _ _ => exact I
    | |- wlp _ (Panic _) _ _ _ => exact I
    | |- wlp _ next_nn _ _ _ => apply wl_next_nn; intros
    | |- wlp _ next_err _ _ _ => apply wl_next_err; intros
    | |- wlp _ must_next _ _ _ => apply wl_must_next; intros
    | |- wlp _ peek_nn _ _ _ => apply wl_peek_nn; intros
    | |- wlp _ peek _ _ _ => apply wl_peek; intros
    | |- wlp _ (Next Ret) _ _ _ => apply wl_next_ret; intros
    | |- wlp _ prev _ (_ :: _) _ => apply wl_prev
    | |- wlp _ (parse_keyword _) _ _ _ => apply wl_parse_keyword; intros
    | |- wlp _ (kw_ok _) _ _ _ => apply wl_kw_ok; intros
    | |- wlp _ (kw_tok _) _ _ _ => apply wl_kw_tok; intros
    | |- wlp _ (expect_keyword _) _ _ _ => apply wl_expect_keyword; intros
    | |- wlp _ (kws_ok _) _ _ _ => apply wl_kws_ok; intros
    | |- wlp _ (kws_toks _) _ _ _ => apply wl_kws_toks2; intros
    | |- wlp _ (consume_token _) _ _ _ => apply wl_consume; intros
    | |- wlp _ (expect_token _) _ _ _ => apply wl_expect_token; intros
    | |- wlp _ (next_kind _) _ _ _ => apply wl_next_kind; intros
    | |- wlp _ (word_of _) _ _ _ => apply wl_word_of; intros
    | |- wlp _ (str_of _) _ _ _ => apply wl_str_of; intros
    | |- wlp _ (or_err _) _ _ _ => apply wl_or_err; intros
    | |- wlp _ (let _ := _ in _) _ _ _ => cbv zeta
    | |- wlp _ (match ?x with _ => _ end) _ _ _ => destruct x eqn:?
    | |- wlp _ (Next _) _ _ ?t => destruct t eqn:?; cbn [wlp]; [|intros ?]
    | |- wlp _ (Peek _) _ _ ?t => destruct t eqn:?; cbn [wlp]; [|intros ?]
    | |- wlp _ (loop _ _ _) _ _ _ => fail
    | |- wlp _ _ _ _ _ => eapply wlp_call; [solve [eauto with snd]|cbn beta; intros]
    end.
  Ltac go := repeat (cbn beta iota; go1; tidy).
  Create HintDb snd.

  (** Normal form of what was read: [x :: rev d ++ y :: ... ]. *)
  Ltac nf := repeat (rewrite ?rev_app_distr, ?rev_involutive, <- ?app_assoc; cbn [rev app]).

  Ltac unf P :=
    lazymatch P with
    | kwd _ => unfold kwd at 1
    | kwd_from _ _ => unfold kwd_from at 1
    | kwd_to _ _ => unfold kwd_to at 1
    | kwd_at _ _ _ => unfold kwd_at at 1
    | sym _ => unfold sym at 1
    | sym_from _ _ => unfold sym_from at 1
    | sym_to _ _ => unfold sym_to at 1
    | sym_at _ _ _ => unfold sym_at at 1
    | word _ => unfold word at 1
    | int _ => unfold int at 1
    | long _ => unfold long at 1
    | long_int _ => unfold long_int at 1
    | str _ _ _ _ => unfold str at 1
    | parens _ => unfold parens at 1
    | parens_to _ _ => unfold parens_to at 1
    | Grammar.lost _ _ _ => unfold Grammar.lost at 1
    | opt _ => unfold opt at 1
    | may _ _ => cbn [may]
    | unsigned _ _ => unfold unsigned at 1
    | size_to _ _ => unfold size_to at 1
    | Grammar.table_alias _ _ => unfold Grammar.table_alias at 1
    | where_clause _ _ => unfold where_clause at 1
    | cascade _ _ => unfold cascade at 1
    | option_value _ _ => unfold option_value at 1
    | prefix_token _ _ => cbn [prefix_token op_type op_from op_to]
    | operator_tokens _ => cbn [operator_tokens op_type op_from op_to]
    | not_ _ => unfold not_ at 1
    | clause _ _ _ => unfold clause at 1
    | zone _ _ => unfold zone at 1
    | Grammar.reads_dtype _ _ => cbn [Grammar.reads_dtype]
    end.
  Ltac spell :=
    first [ eapply spells_kw; eassumption
          | apply spells_is_kw; assumption ].
  Ltac tk :=
    cbn beta;
    repeat match goal with
    | |- _ /\ _ => split
    | |- exists _, _ => eexists
    end;
    lazymatch goal with
    | |- (_ < _)%Z => cbn [op_type level in_level]; unfold is_level, cast_level, closed in *; lia
    | |- (_ <= _)%Z => cbn [op_type level in_level]; unfold is_level, cast_level, closed in *; lia
    | _ => idtac
    end;
    first [ reflexivity | eassumption | spell | congruence
          | match goal with H : tok_ok ?x _ |- L _ =>
              apply (proj2 (proj2 H)); cbn [trigger next_spells];
              first [ solve [spell] | assumption | solve [split; [spell|first [reflexivity|cbn [next_spells]; spell]]] | solve [right; split; [spell|cbn [next_spells]; spell]] | tauto ] end
          | idtac ].
  Ltac tks := solve [tk].
  Ltac same :=
    match goal with
    | H : ?T |- ?G => constr_eq T G; exact H
    end.
  Ltac rd1 :=
    lazymatch goal with
    | |- eps [] => reflexivity
    | |- cat ?P ?Q ?ts =>
        first
        [ lazymatch ts with _ ++ _ => apply cat_app; [same|rd1] | _ :: _ => apply cat_one; [same|rd1] end
        | let P' := eval cbv beta iota in P in
          lazymatch P' with
          | tok _ => apply cat_tok; [tks|rd1]
          | eps => apply cat_eps; rd1
          | kwds nil => apply cat_kwds_nil; rd1
          | kwds (cons _ _) => apply cat_kwds_cons; rd1
          | cat _ _ => apply cat_cat; rd1
          | given _ _ => apply cat_given; [tks|rd1]
          | alt _ _ => first [apply cat_altl; rd1 | apply cat_altr; rd1]
          | _ => progress (unf P'; cbv beta iota); rd1
          end ]
    end.
  Ltac rd := apply cat_end; nf; rd1.

  (* ---------------------------------------------------------------- *)
  (** ** Identifiers and types *)


  Lemma parse_identifier_s t : wl parse_identifier (fun i d _ => word i (rev d)) [] t.
  Proof. unfold parse_identifier. go. rd. Qed.
  Hint Resolve parse_identifier_s : snd.

  Lemma parse_list_of_ids_s r k t :
    wl (parse_list_of_ids r k)
       (fun o d t' => match o with
                      | Some l => sep_by (sym k) (map word l) (rev d)
                      | None => d = [] \/ exists x d', d = x :: d' /\ tkind x = k /\ tok_ok x t'
                      end) [] t.
  Proof.
    unfold parse_list_of_ids.
    apply wlp_loop with (Inv := fun s d t' =>
      if snd s : bool then trail (sym k) (map word (rev (fst s))) (rev d) /\
                           (d = [] \/ exists x d', d = x :: d' /\ tkind x = k /\ tok_ok x t')
      else sep_by (sym k) (map word (rev (fst s))) (rev d) /\
           forall x, sym k [x] -> trail (sym k) (map word (rev (fst s))) (rev d ++ [x])).
    - intros [acc ex] d t1 HI. cbn [fst snd] in HI. go; destruct ex; try exact I; cbn [fst snd] in *; tidy; auto;
        kinds; try discriminate.
      + cbn [rev]. rewrite map_app. cbn [map]. 
        assert (word (ident_of t0 w) [t0]) by (exists t0; split; [reflexivity|exists w; auto]).
        split; [apply trail_sep; auto|]. intros x Hx. rewrite <- app_assoc. apply trail_snoc; auto.
      + split; [apply H1; exists t0; auto|]. right. eauto 6.
    - cbn. split; [reflexivity|auto].
  Qed.
  Hint Resolve parse_list_of_ids_s : snd.
  Lemma parse_column_names_s r t : wl (parse_column_names r) (fun l d _ => words l (rev d)) [] t.
  Proof. unfold parse_column_names. go. subst. nf. assumption. Qed.
  Hint Resolve parse_column_names_s : snd.
  Lemma parse_object_name_s r t : wl (parse_object_name r) (fun n d _ => name n (rev d)) [] t.
  Proof. unfold parse_object_name. go. subst. nf. assumption. Qed.
  Hint Resolve parse_object_name_s : snd.

  Lemma parse_literal_int_s t :
    wl parse_literal_int (fun p d _ => exists s, d = [snd p] /\ (exists b, tok_ok (snd p) b) /\ tkind (snd p) = Number /\
                                        tval (snd p) = VStr s /\ atoi s = AOk (fst p)) [] t.
  Proof. unfold parse_literal_int. go. kinds. cbn [fst snd]. eauto 7. Qed.
  Hint Resolve parse_literal_int_s : snd.
  Lemma parse_optional_precision_s t :
    wl parse_optional_precision (fun p d _ => size_to (fst p) (snd p) (rev d)) [] t.
  Proof. unfold parse_optional_precision. go; subst; cbn [fst snd] in *; [rd|]. rd. Qed.
  Hint Resolve parse_optional_precision_s : snd.
  Lemma ok_word x w b : tval x = VWord w -> tok_ok x b -> tkind x = SQLKeyword.
  Proof. intros H [H1 _]. unfold tok_wf in H1. rewrite H in H1. destruct (tkind x); tauto. Qed.
  Lemma parse_optional_precision_scale_s t :
    wl parse_optional_precision_scale
       (fun p d _ => match fst p with
                     | Some z => exists x d0, d = x :: d0 /\ (exists b, tok_ok x b) /\
                         parens_to (int z >> may (snd p) (fun y => sym Comma >> int y)) (tto x) (rev d)
                     | None => d = []
                     end) [] t.
  Proof.
    unfold parse_optional_precision_scale. go; subst; cbn [fst snd] in *.
    - reflexivity.
    - do 2 eexists. split; [reflexivity|]. split; [eauto|]. rd.
    - do 2 eexists. split; [reflexivity|]. split; [eauto|]. rd.
  Qed.
  Hint Resolve parse_optional_precision_scale_s : snd.
  Lemma parse_my_unsigned_s t : wl parse_my_unsigned (fun p d _ => unsigned (fst p) (snd p) (rev d)) [] t.
  Proof. unfold parse_my_unsigned. go; cbn [fst snd]; rd. Qed.
  Hint Resolve parse_my_unsigned_s : snd.
  Lemma parse_time_zone_s t :
    wl parse_time_zone (fun b d _ => zone L b (rev d) /\ (b = true -> next_spells "WITH" (rev d))) [] t.
  Proof.
    unfold parse_time_zone. go; cbn [orb] in *; try discriminate; split; try discriminate;
      try (cbn [zone]; rd).
    all: try (intros _; nf; cbn [next_spells]; spell).
  Qed.
  Hint Resolve parse_time_zone_s : snd.
  Lemma parse_data_type_s r t : wl (parse_data_type r) (fun a d _ => reads_dtype a (rev d)) [] t.
  Proof.
    unfold parse_data_type. go; cbn [Grammar.reads_dtype fst snd] in *; subst; try solve [rd].
    - destruct a; [|rd]. assert (L LostTimeZone); [|rd].
      match goal with H : tok_ok x _ |- _ => apply (proj2 (proj2 H)) end. left. split; [spell|].
      match goal with H : true = true -> next_spells _ (rev ?d) |- _ => specialize (H eq_refl); destruct (rev d); [contradiction|exact H] end.
    - destruct o; tidy; subst; cbn [app].
      + go. cbn [Grammar.reads_dtype fst snd] in *.
        match goal with H : parens_to _ _ (rev (?a :: ?b)) |- _ =>
          change (a :: b ++ [x]) with ((a :: b) ++ [x]); remember (a :: b) as D end. rd.
      + apply wl_prev. go. kinds. exfalso.
        match goal with H : tval ?x = VWord _ |- _ => eapply ok_word in H; [congruence|eassumption] end.
  Qed.
  Hint Resolve parse_data_type_s : snd.
  (* ---------------------------------------------------------------- *)
  (** ** Expressions *)

  Lemma list_step {A} (R : A -> lang) (s : lang) acc e d d1 :
    trail s (map R (rev acc)) (rev d) -> R e (rev d1) ->
    sep_by s (map R (rev (e :: acc))) (rev (d1 ++ d)) /\
    forall x, s [x] -> trail s (map R (rev (e :: acc))) (rev (x :: d1 ++ d)).
  Proof.
    intros H1 H2. cbn [rev]. rewrite map_app, rev_app_distr. split; [apply trail_sep; auto|].
    intros x Hx. rewrite <- app_assoc. apply trail_snoc; auto.
  Qed.
  Lemma rev_cons_ex {A} (e : A) l : exists a l', rev (e :: l) = a :: l'.
  Proof. destruct (rev (e :: l)) as [|a l'] eqn:E; [|eauto]. cbn in E. destruct (rev l); discriminate. Qed.
  Lemma sym_tok k x : tkind x = k -> sym k [x].
  Proof. intros. exists x. auto. Qed.

  (** Precedence of the next token. *)
  Definition tprec (x : token) : Z :=
    match tkind x, tval x with
    | SQLKeyword, VWord w =>
        if kw w "OR" then 5 else if kw w "AND" then 10 else if kw w "NOT" then 15
        else if kw w "IS" then 17 else if kw w "IN" then 20 else if kw w "BETWEEN" then 20
        else if kw w "LIKE" then 20 else 0
    | (Eq | Lt | LtEq | Neq | Gt | GtEq), _ => 20
    | (Plus | Minus), _ => 30
    | (Mult | Div | Mod), _ => 40
    | DoubleColon, _ => 50
    | _, _ => 0
    end.
  Definition nprec (t : toks) : Z := match t with x :: _ => tprec x | [] => 0 end.
  Lemma tprec_le x : 0 <= tprec x <= 50.
  Proof.
    unfold tprec. destruct (tkind x); try lia. destruct (tval x); [|lia].
    repeat match goal with |- context [if ?b then _ else _] => destruct b end; lia.
  Qed.
  Lemma nprec_le t : 0 <= nprec t <= 50.
  Proof. destruct t; cbn; [lia|apply tprec_le]. Qed.

  Lemma wl_get_next_precedence (Q : Z -> toks -> toks -> Prop) d t :
    Q (nprec t) d t -> wl get_next_precedence Q d t.
  Proof.
    intros H. unfold get_next_precedence. apply wlp_bind, wl_peek.
    - intros ->. exact H.
    - intros x t' -> Hx. unfold get_precedence. cbn [nprec] in H. unfold tprec in H.
      destruct (tkind x) eqn:E; try exact H.
      apply wlp_bind, wl_word_of. intros w Ew. rewrite Ew in H. exact H.
  Qed.

  (** What is assumed of the recursive calls. *)
  Definition nset (t : toks) : Z :=
    match t with
    | x :: _ => match tkind x, tval x with
                | SQLKeyword, VWord w =>
                    if kw w "UNION" then 10 else if kw w "EXCEPT" then 10
                    else if kw w "INTERSECT" then 20 else 0
                | _, _ => 0
                end
    | [] => 0
    end.
  Definition subexpr_post (p : Z) (e : node) (d t' : toks) : Prop :=
    reads_node e (rev d) /\ p < open_left e /\ nprec t' <= p /\ nprec t' <= open_right e.
  Definition body_post (p : Z) (s : setexpr) (d t' : toks) : Prop :=
    reads_setexpr s (rev d) /\ p < set_top s /\ nset t' <= p.
  Record rspec (r : rec) : Prop := {
    rs_stmt : forall t, wl (r_stmt r) (fun a d _ => reads_stmt L a (rev d)) [] t;
    rs_query : forall t, wl (r_query r) (fun a d _ => reads_query a (rev d)) [] t;
    rs_body : forall p t, 0 <= p <= 50 -> wl (r_body r p) (body_post p) [] t;
    rs_subexpr : forall p t, 0 <= p <= 50 -> wl (r_subexpr r p) (subexpr_post p) [] t;
    rs_tref : forall t, wl (r_tref r) (fun a d _ => reads_tableref a (rev d)) [] t }.
  Hint Resolve rs_stmt rs_query rs_tref : snd.

  Lemma parse_expr_s r t : rspec r -> wl (parse_expr r) (fun e d _ => reads_node e (rev d)) [] t.
  Proof.
    intros HR. eapply wlp_conseq; [apply (rs_subexpr r HR); lia|]. intros ? ? ? H. apply H.
  Qed.
  Hint Resolve parse_expr_s : snd.

  Lemma parse_expr_list_s r t : rspec r ->
    wl (parse_expr_list r) (fun l d _ => sep_by (sym Comma) (map reads_node l) (rev d) /\ exists a l', l = a :: l') [] t.
  Proof.
    intros HR. unfold parse_expr_list.
    apply wlp_loop with (Inv := fun acc d _ => trail (sym Comma) (map reads_node (rev acc)) (rev d)); [|reflexivity].
    intros acc d t1 HI. go; kinds; destruct (list_step _ _ _ _ _ _ HI H) as [HA HB]; auto using rev_cons_ex.
    apply HB, sym_tok. assumption.
  Qed.
  Hint Resolve parse_expr_list_s : snd.
  Lemma parse_optional_args_s r t : rspec r ->
    wl (parse_optional_args r)
       (fun l d _ => match l with [] => eps | _ => sep_by (sym Comma) (map reads_node l) end (rev d)) [] t.
  Proof. intros HR. unfold parse_optional_args. go; subst; try reflexivity. nf. assumption. Qed.
  Hint Resolve parse_optional_args_s : snd.

  Lemma parse_order_by_list_s r t : rspec r ->
    wl (parse_order_by_list r)
       (fun l d _ => sep_by (sym Comma) (map (reads_orderby) l) (rev d) /\ exists a l', l = a :: l') [] t.
  Proof.
    intros HR. unfold parse_order_by_list.
    apply wlp_loop with (Inv := fun acc d _ => trail (sym Comma) (map (reads_orderby) (rev acc)) (rev d)); [|reflexivity].
    intros acc d t1 HI. go; kinds.
    all: match goal with
         | H : reads_node ?a (rev ?d1) |- context [OrderBy ?a pos0 ?o] =>
             match goal with
             | K : is_kw (gs "ASC") ?x = true |- _ =>
                 assert (HO : reads_orderby (OrderBy a pos0 o) (rev (x :: d1))) by (rewrite reads_orderby_eq; rd);
                 change (x :: d1 ++ d) with ((x :: d1) ++ d)
             | K : is_kw (gs "DESC") ?x = true |- _ =>
                 assert (HO : reads_orderby (OrderBy a pos0 o) (rev (x :: d1))) by (rewrite reads_orderby_eq; rd);
                 change (x :: d1 ++ d) with ((x :: d1) ++ d)
             | _ => assert (HO : reads_orderby (OrderBy a pos0 o) (rev d1)) by (rewrite reads_orderby_eq; rd)
             end
         end; destruct (list_step _ _ _ _ _ _ HI HO) as [HA HB]; auto using rev_cons_ex; apply HB, sym_tok; assumption.
  Qed.
  Hint Resolve parse_order_by_list_s : snd.
  Ltac rn := rewrite reads_node_eq; cbn [well_bound]; rd.

  Lemma parse_window_frame_bound_s t : wl parse_window_frame_bound (fun b d _ => reads_bound b (rev d)) [] t.
  Proof.
    unfold parse_window_frame_bound. go; cbn [reads_bound fst snd] in *; subst; try solve [rd].
  Qed.
  Hint Resolve parse_window_frame_bound_s : snd.

  Lemma unit_from_str_s x w u : tval x = VWord w -> unit_from_str w = Some u -> reads_unit (mkWFU pos0 pos0 u) [x].
  Proof.
    intros E H. unfold unit_from_str in H. split; [auto|]. exists x. split; [reflexivity|].
    repeat match type of H with (if kw w ?s then _ else _) = Some _ => destruct (kw w s) eqn:? end;
      try discriminate; injection H as <-; cbn [wfu_type]; spell.
  Qed.
  (** The frame is read with the parenthesis that closes the window. *)
  Lemma parse_window_frame_s t :
    wl parse_window_frame (fun f d _ => exists x d0, d = x :: d0 /\ tkind x = RParen /\ may f reads_frame (rev d0)) [] t.
  Proof.
    unfold parse_window_frame. go; (do 2 eexists; split; [reflexivity|]; split; [assumption|]);
      cbn [may reads_frame wf_end wf_units wf_start]; try solve [rd].
    all: match goal with H : unit_from_str _ = Some _ |- _ => eapply unit_from_str_s in H; [|eassumption] end; rd.
  Qed.
  Hint Resolve parse_window_frame_s : snd.

  Definition is_closed (e : node) : Prop := open_left e = closed /\ open_right e = closed.

  Lemma parse_function_s r n u t : rspec r -> name n u ->
    wl (parse_function r n) (fun a d _ => reads_node a (u ++ rev d) /\ is_closed a) [] t.
  Proof.
    intros HR Hn. unfold parse_function. go; subst; (split; [|split; reflexivity]); try solve [rn].
    all: rewrite reads_node_eq; cbn [well_bound]; rewrite reads_win_eq; try solve [rd].
  Qed.
  Hint Resolve parse_function_s : snd.

  Lemma parse_value_s t : wl parse_value (fun a d _ => reads_node a (rev d) /\ is_closed a) [] t.
  Proof. unfold parse_value. go; (split; [|split; reflexivity]); try solve [rn]. Qed.
  Hint Resolve parse_value_s : snd.

  Lemma sep_many {A} (R : A -> lang) (s : lang) l : forall v u, l <> [] -> s v ->
    sep_by s (map R l) u -> many (map (fun b => s >> R b) l) (v ++ u).
  Proof.
    induction l as [|b l IH]; intros v u Hl Hv H; [congruence|]. destruct l as [|c l].
    - cbn in *. apply cat_cat. apply cat_app; [exact Hv|]. rewrite <- (app_nil_r u). apply cat_app; [exact H|reflexivity].
    - change (sep_by s (map R (b :: c :: l))) with (R b >> s >> sep_by s (map R (c :: l))) in H.
      destruct H as (v1 & w & -> & H1 & y & z & -> & Hy & Hz).
      change (cat (s >> R b) (many (map (fun b => s >> R b) (c :: l))) (v ++ v1 ++ y ++ z)).
      apply cat_cat. apply cat_app; [exact Hv|]. apply cat_app; [exact H1|]. apply IH; auto. congruence.
  Qed.

  Definition reads_branch (b : node * node) : lang := reads_node (fst b) >> kwd "THEN" >> reads_node (snd b).
  Lemma case_loop_s r t : rspec r ->
    wl (loop (r_fuel r)
        (fun acc =>
           c <- parse_expr r ;;
           expect_keyword "THEN" ;;;
           v <- parse_expr r ;;
           w <- kw_ok "WHEN" ;;
           Ret (if w : bool then inl ((c, v) :: acc) else inr (rev ((c, v) :: acc))))
        [])
      (fun l d _ => l <> [] /\ forall x, kwd "WHEN" [x] ->
          many (map (fun b => kwd "WHEN" >> reads_node (fst b) >> kwd "THEN" >> reads_node (snd b)) l) (x :: rev d)) [] t.
  Proof.
    intros HR.
    apply wlp_loop with (Inv := fun acc d _ => trail (kwd "WHEN") (map reads_branch (rev acc)) (rev d)); [|reflexivity].
    intros acc d t1 HI. go.
    all: match goal with HI : trail _ _ (rev ?d), HA : reads_node ?a (rev ?d1), HB : reads_node ?b (rev ?d2) |- context [(?a, ?b)] =>
           lazymatch goal with |- context [d2 ++ ?x :: d1 ++ d] =>
           assert (HO : reads_branch (a, b) (rev (d2 ++ x :: d1))) by (unfold reads_branch; cbn [fst snd]; rd);
           replace (d2 ++ x :: d1 ++ d) with ((d2 ++ x :: d1) ++ d) by (rewrite <- app_assoc; reflexivity)
           end end; destruct (list_step _ _ _ _ _ _ HI HO) as [HA HB].
    - assert (rev ((a, a0) :: acc) <> []) by (destruct (rev_cons_ex (a, a0) acc) as (? & ? & ->); congruence).
      split; [assumption|]. intros y Hy. apply (sep_many reads_branch (kwd "WHEN") _ [y]); auto.
    - apply HB. exists x0. split; [reflexivity|]. spell.
  Qed.
  Lemma parse_case_s r t : rspec r -> wl (parse_case r) (fun a d _ => reads_node a (rev d) /\ is_closed a) [] t.
  Proof.
    intros HR. unfold parse_case. go.
    all: eapply wlp_call; [apply case_loop_s; assumption|cbn beta; intros]; go; (split; [|split; reflexivity]); rewrite reads_node_eq; cbn [well_bound].
    all: match goal with H : forall x, kwd "WHEN" [x] -> _, K : is_kw (gs "WHEN") ?y = true |- _ =>
           specialize (H y ltac:(exists y; split; [reflexivity|spell])) end.
    all: apply cat_end; nf.
    all: match goal with H : many ?P (?y :: ?u) |- context [?y :: ?u ++ ?v] => change (y :: u ++ v) with ((y :: u) ++ v) end.
    all: rd1.
  Qed.
  Hint Resolve parse_case_s : snd.
  Lemma parse_cast_s r t : rspec r -> wl (parse_cast r) (fun a d _ => reads_node a (rev d) /\ is_closed a) [] t.
  Proof.
    intros HR. unfold parse_cast. go. split.
    - rewrite reads_node_eq; cbn [well_bound]. apply cat_end. nf.
      assert (no_pos (tfrom x) = false) by apply H0. rd1.
    - split; [|reflexivity]. cbn [open_left]. assert (no_pos (tfrom x) = false) as -> by apply H0. reflexivity.
  Qed.
  Hint Resolve parse_cast_s : snd.
  Lemma parse_exists_s r t : rspec r -> wl (parse_exists r None) (fun a d _ => reads_node a (rev d) /\ is_closed a) [] t.
  Proof. intros HR. unfold parse_exists. go. split; [|split; reflexivity]. rn. Qed.
  Lemma parse_not_exists_s r n b t : rspec r -> tok_ok n b -> spells "NOT" n ->
    wl (parse_exists r (Some n)) (fun a d _ => reads_node a (n :: rev d) /\ is_closed a) [] t.
  Proof. intros HR Hn Hs. unfold parse_exists. go. split; [|split; reflexivity]. rn. Qed.
  Hint Resolve parse_exists_s parse_not_exists_s : snd.

  Lemma parse_in_s r e neg u t : rspec r -> reads_node e u -> in_level neg <= open_right e ->
    wl (parse_in r e neg)
       (fun a d _ => (forall v w, (not_ neg >> kwd "IN") v -> w = v ++ rev d -> reads_node a (u ++ w)) /\
                     open_left a = Z.min (in_level neg) (open_left e) /\ open_right a = closed) [] t.
  Proof.
    intros HR He Hp. unfold parse_in. go; cbn [orb] in *; try discriminate; subst.
    all: (split; [|split; reflexivity]); intros v w (v1 & v2 & -> & Hv1 & Hv2) ->.
    all: rewrite reads_node_eq; cbn [well_bound]; rd.
  Qed.

  Lemma cat_app3 (P Q : lang) (u v w : list token) : P (u ++ v) -> Q w -> (P >> Q) (u ++ v ++ w).
  Proof. intros. rewrite app_assoc. apply cat_app; auto. Qed.

  (** The rest of a dotted name, without and with a final star. *)
  Lemma parse_dotted_s r i u t : word i u ->
    wl (parse_dotted r i)
       (fun p d t' =>
          if snd p : bool then (dots (fst p) >> sym Period >> sym Mult) (u ++ rev d)
          else dots (fst p) (u ++ rev d) /\
               (d = [] /\ match t' with x :: _ => tkind x <> Period | [] => True end \/ (2 <= List.length (fst p))%nat)) [] t.
  Proof.
    intros Hi. unfold parse_dotted.
    apply wlp_loop with (Inv := fun acc d _ =>
      dots (rev acc) (u ++ rev d) /\ (d = [] \/ (2 <= List.length (rev acc))%nat) /\
      exists l P v x, map word (rev acc) = l ++ [P] /\ u ++ rev d = v ++ x /\ trail (sym Period) l v /\ (P : lang) x /\ (1 <= List.length acc)%nat).
    - intros acc d t1 (HI1 & HI2 & l & P & v & y & HI3 & HI4 & HI5 & HI6 & HI7). go; cbn [fst snd] in *.
      + split; [assumption|]. destruct HI2; auto.
      + kinds. cbn [rev]. rewrite map_app, HI3. cbn [map rev].
        assert (HW : word (ident_of x0 w) [x0]) by (exists x0; split; [reflexivity|exists w; auto]).
        assert (HT : trail (sym Period) (l ++ [P]) (v ++ y ++ [x])) by (apply trail_snoc; auto; apply sym_tok; assumption).
        assert (HE : u ++ (rev d ++ [x]) ++ [x0] = (v ++ y ++ [x]) ++ [x0])
          by (rewrite !app_assoc, HI4; reflexivity).
        split; [|split].
        * unfold dots. rewrite map_app, HI3. cbn [map]. rewrite HE. apply trail_sep; assumption.
        * right. rewrite app_length, rev_length. cbn. lia.
        * exists (l ++ [P]), (word (ident_of x0 w)), (v ++ y ++ [x]), [x0].
          repeat split; auto. cbn. lia.
      + kinds. cbn [rev]. rewrite !app_assoc. rewrite <- app_assoc. apply cat_app; [assumption|].
        cbn [app]. apply cat_one; apply sym_tok; assumption.
    - repeat split.
      + cbn. rewrite app_nil_r. assumption.
      + auto.
      + exists [], (word i), [], u. cbn. rewrite app_nil_r. repeat split; auto.
  Qed.

  Lemma closed_post e t : is_closed e -> open_left e = closed /\ nprec t <= open_right e.
  Proof. intros [H1 H2]. rewrite H1, H2. pose proof (nprec_le t). unfold closed. split; [reflexivity|lia]. Qed.
  Definition prefix_post (e : node) (d t' : toks) : Prop :=
    reads_node e (rev d) /\ open_left e = closed /\ nprec t' <= open_right e.

  Ltac cl := split; [|apply closed_post; first [assumption|split; reflexivity]].
  Lemma parse_prefix_s r t : rspec r -> wl (parse_prefix r) prefix_post [] t.
  Proof.
    intros HR. unfold parse_prefix, prefix_post.
    apply wlp_bind, wl_next_err. intros x t' -> Hx.
    destruct (tkind x) eqn:Ek; try exact I.
    - (* words *)
      apply wlp_bind, wl_word_of. intros w Hw.
      destruct (kw w "TRUE" || kw w "FALSE" || kw w "NULL") eqn:E1; [go; cl; nf; assumption|].
      destruct (kw w "CASE") eqn:E2; [go; cl; nf; assumption|].
      destruct (kw w "CAST") eqn:E3; [go; cl; nf; assumption|].
      destruct (kw w "EXISTS") eqn:E4; [go; cl; nf; assumption|].
      destruct (kw w "NOT") eqn:E5.
      { assert (spells "NOT" x) by spell. apply wlp_bind, wl_kw_ok.
        - intros _. apply wlp_bind. eapply wlp_call; [apply (rs_subexpr r HR); lia|].
          intros e d1 t1 (H1 & H2 & H3 & H4) _. cbn [wlp]. split; [rn|].
          split; [reflexivity|]. cbn [open_right op_type level]. lia.
        - intros y t1 -> Hy Ky. go. cl. nf. assumption. }
      assert (HW : word (ident_of x w) [x]) by (exists x; split; [reflexivity|exists w; auto]).
      apply wlp_bind, wl_peek.
      + intros ->. cbn [wlp]. cl. rn.
      + intros y t1 -> Hy. destruct (negb (is_kind LParen y) && negb (is_kind Period y)) eqn:E6.
        { cbn [wlp]. cl. rn. }
        apply wlp_bind. eapply wlp_call; [apply parse_dotted_s; exact HW|]. cbn beta.
        intros [parts wild] d1 t2 HD Et. cbn [fst snd] in HD. destruct wild.
        { cbn [wlp]. cl. rewrite reads_node_eq. split; [exact I|]. nf. exact HD. }
        destruct HD as [HD1 HD2]. go.
        * cl. rewrite reads_node_eq. split; [exact I|]. nf. split; [|exact HD1].
          destruct HD2 as [[-> HD2]|HD2]; [|exact HD2]. exfalso. cbn in Et. subst t2.
          unfold is_kind in E6. destruct (tkind y); cbn in E6; congruence.
        * cl. nf. match goal with H : reads_node _ _ |- _ => revert H end. nf. auto.
    - go. cl. nf. assumption.
    - go. cl. nf. assumption.
    - go. cl. nf. assumption.
    - apply wlp_bind. eapply wlp_call; [apply (rs_subexpr r HR); lia|].
      intros e d1 t1 (H1 & H2 & H3 & H4) _. cbn [wlp]. split; [rn|].
      split; [reflexivity|]. cbn [open_right op_type level]. lia.
    - apply wlp_bind. eapply wlp_call; [apply (rs_subexpr r HR); lia|].
      intros e d1 t1 (H1 & H2 & H3 & H4) _. cbn [wlp]. split; [rn|].
      split; [reflexivity|]. cbn [open_right op_type level]. lia.
    - go. cl. rn.
    - go; cbn [orb] in *; try discriminate; cl; rn.
  Qed.
  Hint Resolve parse_prefix_s : snd.
  Lemma parse_between_s r e neg u v t : rspec r -> reads_node e u -> (not_ neg >> kwd "BETWEEN") v -> in_level neg <= open_right e ->
    wl (parse_between r e neg)
       (fun a d t' => reads_node a (u ++ v ++ rev d) /\
                     open_left a = Z.min (in_level neg) (open_left e) /\ nprec t' <= open_right a) [] t.
  Proof.
    intros HR He (v1 & v2 & -> & Hv1 & Hv2) Hp. unfold parse_between. unfold prefix_post in *.
    apply wlp_bind. eapply wlp_call; [apply parse_prefix_s; assumption|]. intros lo d1 t1 (H1 & H2 & H3) _.
    apply wlp_bind, wl_expect_keyword. intros x t2 -> Hx Kx.
    apply wlp_bind. eapply wlp_call; [apply parse_prefix_s; assumption|]. intros hi d2 t3 (H4 & H5 & H6) _.
    cbn [wlp]. split; [rn|]. split; [reflexivity|assumption].
  Qed.

  (** NOT is NOT for both comparisons. *)
  Lemma kw_is_kw s x w b : plain_kw (gs s) = true -> tok_ok x b -> tval x = VWord w -> is_kw (gs s) x = kw w s.
  Proof.
    intros Hp Hx Hw. unfold is_kw, kw. rewrite Hw.
    assert (Hu : wkeyword w = upper (wvalue w)).
    { destruct Hx as [Hx _]. unfold tok_wf in Hx. rewrite Hw in Hx. destruct (tkind x); tauto. }
    pose proof (kw_fold (gs s) Hp (wvalue w)) as HF. rewrite Hu.
    assert (HG : gs_eqb (upper (wvalue w)) (gs s) = true <-> upper (wvalue w) = gs s).
    { split; [apply gs_eqb_eq|]. intros ->. apply gs_eqb_refl. }
    destruct (equal_fold (wvalue w) (gs s)), (gs_eqb (upper (wvalue w)) (gs s)); try reflexivity; exfalso; intuition congruence.
  Qed.

  Definition infix_post (e : node) (np : Z) (u : toks) (a : node) (d t' : toks) : Prop :=
    reads_node a (u ++ rev d) /\ open_left a = Z.min np (open_left e) /\ nprec t' <= open_right a.

  Lemma infix_operator_s x t b : tok_ok x b ->
    wl (infix_operator x)
       (fun o d t' => match o with
                      | Some op => operator_tokens (mkOp op (tfrom x) (tto x)) (x :: rev d) /\ level op = tprec x
                      | None => d = [] /\ t' = t
                      end) [] t.
  Proof.
    intros Hx. unfold infix_operator. destruct (tkind x) eqn:Ek; try (cbn; auto; fail).
    1: { go; try solve [auto].
         all: split; [rd|unfold tprec; rewrite Ek; repeat match goal with H : _ = VWord _ |- _ => rewrite H | H : kw _ _ = _ |- _ => rewrite H end].
         all: try reflexivity.
         all: match goal with H : kw _ _ = true |- _ => apply gs_eqb_eq in H; unfold kw; rewrite H; reflexivity end. }
    all: cbn; (split; [exists x; auto|unfold tprec; rewrite Ek; reflexivity]).
  Qed.
  Lemma parse_infix_s r e u t : rspec r -> reads_node e u -> nprec t <= open_right e ->
    wl (parse_infix r e (nprec t)) (infix_post e (nprec t) u) [] t.
  Proof.
    intros HR He Hp. unfold parse_infix, infix_post.
    apply wlp_bind, wl_next_err. intros x t' -> Hx. cbn [nprec] in *.
    apply wlp_bind. eapply wlp_call; [eapply infix_operator_s; exact Hx|]. cbn beta.
    intros [op|] d1 t1 HO Et.
    { destruct HO as [HO1 HO2]. apply wlp_bind.
      eapply wlp_call; [apply (rs_subexpr r HR); apply tprec_le|].
      intros e' d2 t2 (H1 & H2 & H3 & H4) _. cbn [wlp].
      split; [|split; [cbn [open_left op_type]; lia|cbn [open_right op_type]; lia]].
      rewrite reads_node_eq. cbn [well_bound op_type]. rewrite HO2. split; [lia|]. apply cat_end. nf.
      apply cat_cat. apply cat_app; [exact He|]. apply cat_cat. change (x :: rev d1 ++ rev d2 ++ []) with ((x :: rev d1) ++ rev d2 ++ []).
      apply cat_app; [exact HO1|]. rd1. }
    destruct HO as [-> ->]. destruct (tkind x) eqn:Ek; try exact I.
    - apply wlp_bind, wl_word_of. intros w Hw.
      destruct (kw w "IS") eqn:E1.
      { assert (tprec x = 17) as Hpx.
        { unfold tprec. rewrite Ek, Hw, E1.
          apply gs_eqb_eq in E1. unfold kw. rewrite E1. reflexivity. }
        rewrite Hpx in *.
        go; (split; [rewrite reads_node_eq; cbn [well_bound]; unfold is_level; split; [lia|]; first [rd|change (kwds ["IS"; "NOT"; "NULL"]%string) with (kwd "IS" >> kwds ["NOT"; "NULL"]%string); rd]|]); split; try reflexivity;
          cbn [open_right]; unfold closed; match goal with |- nprec ?t <= _ => pose proof (nprec_le t); lia end. }
      destruct (kw w "NOT" || kw w "IN" || kw w "BETWEEN") eqn:E2; [|exact I].
      cbn [app]. apply wlp_bind, wl_prev. apply wlp_bind.
      pose proof (kw_is_kw "NOT" x w _ eq_refl Hx Hw) as HN.
      assert (Hpx : tprec x = in_level (kw w "NOT")).
      { unfold tprec. rewrite Ek, Hw. apply orb_prop in E2. destruct E2 as [E2|E2]; [apply orb_prop in E2; destruct E2 as [E2|E2]|].
        all: pose proof E2 as E3; apply gs_eqb_eq in E2; unfold kw; rewrite E2; reflexivity. }
      apply wl_kw_ok.
      + intros Hno. cbn [kwno] in Hno. rewrite HN in Hno. rewrite Hno in *. cbn [orb] in E2.
        apply wlp_bind, wl_kw_ok.
        * intros _. apply wlp_bind, wl_kw_ok; [intros; exact I|]. intros y t2 E Hy Ky. injection E as <- <-.
          eapply wlp_call; [eapply (parse_between_s r e false u [x]); eauto|].
          -- apply cat_eps. exists x. split; [reflexivity|]. spell.
          -- rewrite <- Hpx. exact Hp.
          -- cbn beta. intros a d2 t2 (H1 & H2 & H3) _. nf. rewrite Hpx. auto.
        * intros y t2 E Hy Ky. injection E as <- <-.
          eapply wlp_call; [eapply (parse_in_s r e false u); eauto; rewrite <- Hpx; exact Hp|].
          cbn beta. intros a d2 t3 (H1 & H2 & H3) _. nf. rewrite Hpx. rewrite H3.
          pose proof (nprec_le t3). split; [|split; [assumption|unfold closed; lia]].
          apply (H1 [x]); [|reflexivity]. apply cat_eps. exists x. split; [reflexivity|]. spell.
      + intros y t2 E Hy Ky. injection E as <- <-. rewrite HN in Ky. rewrite Ky in *.
        apply wlp_bind, wl_kw_ok.
        * intros _. apply wlp_bind, wl_kw_ok; [intros; exact I|]. intros y t2 E2' Hy' Ky'. subst t'.
          eapply wlp_call; [eapply (parse_between_s r e true u [x; y]); eauto|].
          -- rd.
          -- rewrite <- Hpx. exact Hp.
          -- cbn beta. intros a d2 t3 (H1 & H2 & H3) _. nf. rewrite Hpx. auto.
        * intros y t3 -> Hy' Ky'.
          eapply wlp_call; [eapply (parse_in_s r e true u); eauto; rewrite <- Hpx; exact Hp|].
          cbn beta. intros a d2 t2 (H1 & H2 & H3) _. nf. rewrite Hpx. rewrite H3.
          pose proof (nprec_le t2). split; [|split; [assumption|unfold closed; lia]].
          apply (H1 [x; y]); [|reflexivity]. rd.
    - assert (Hpx : tprec x = 50) by (unfold tprec; rewrite Ek; reflexivity). rewrite Hpx in *.
      go. split; [rewrite reads_node_eq; cbn [well_bound]; split; [intros _; unfold cast_level; lia|rd]|]. split; [reflexivity|].
      cbn [open_right]. match goal with |- nprec ?t <= _ => pose proof (nprec_le t) end. unfold closed. lia.
  Qed.

  Lemma infix_loop_s r p e u t : rspec r -> 0 <= p <= 50 ->
    reads_node e u -> p < open_left e -> nprec t <= open_right e ->
    wl (infix_loop r p e)
       (fun a d t' => reads_node a (u ++ rev d) /\ p < open_left a /\ nprec t' <= p /\ nprec t' <= open_right a) [] t.
  Proof.
    intros HR Hp H1 H2 H3. unfold infix_loop.
    apply wlp_loop with (Inv := fun e d t => reads_node e (u ++ rev d) /\ p < open_left e /\ nprec t <= open_right e).
    - intros e1 d t1 (I1 & I2 & I3). apply wlp_bind, wl_get_next_precedence.
      destruct (nprec t1 <=? p) eqn:E; [cbn [wlp]; repeat split; auto; lia|].
      apply wlp_bind. eapply wlp_call; [eapply parse_infix_s; eauto|].
      intros a d1 t2 (J1 & J2 & J3) _. cbn [wlp]. nf. rewrite <- app_assoc in J1.
      repeat split; auto. lia.
    - cbn. rewrite app_nil_r. auto.
  Qed.
  Lemma parse_subexpr_s r p t : rspec r -> 0 <= p <= 50 -> wl (parse_subexpr r p) (subexpr_post p) [] t.
  Proof.
    intros HR Hp. unfold parse_subexpr, subexpr_post. apply wlp_bind.
    eapply wlp_call; [apply parse_prefix_s; assumption|]. intros e d1 t1 (H1 & H2 & H3) _.
    eapply wlp_call; [eapply infix_loop_s; eauto|].
    - rewrite H2. unfold closed. lia.
    - cbn beta. intros a d2 t2 (J1 & J2 & J3 & J4) _. nf. auto.
  Qed.
  Lemma parse_default_expr_s r t : rspec r -> wl (parse_default_expr r) (fun e d _ => reads_node e (rev d)) [] t.
  Proof.
    intros HR. unfold parse_default_expr. apply wlp_bind.
    eapply wlp_call; [apply parse_prefix_s; assumption|]. intros e d1 t1 (H1 & H2 & H3) _.
    apply wlp_loop with (Inv := fun e d t => reads_node e (rev d) /\ nprec t <= open_right e); [|nf; auto].
    clear - HR. intros e d t [I1 I2]. apply wlp_bind.
    assert (HQ : forall (s : bool), wl
      (if s then Ret (inr e)
       else np <- get_next_precedence ;;
            if np <=? 0 then Ret (inr e)
            else e' <- parse_infix r e np ;; Ret (inl e'))
      (fun r0 d' t' => match r0 with inl s' => reads_node s' (rev d') /\ nprec t' <= open_right s' | inr a => reads_node a (rev d') end) d t).
    { intros [|]; [exact I1|]. apply wlp_bind, wl_get_next_precedence. destruct (nprec t <=? 0); [exact I1|].
      apply wlp_bind. eapply wlp_call; [eapply parse_infix_s; eauto|].
      intros a d2 t2 (J1 & J2 & J3) _. cbn [wlp]. nf. auto. }
    apply wl_peek.
    - intros ->. exact (HQ false).
    - intros x t' -> Hx. apply wlp_bind. destruct (is_kind SQLKeyword x); [|exact (HQ false)].
      apply wlp_bind, wl_word_of. intros w Hw. exact (HQ _).
  Qed.
  Hint Resolve parse_default_expr_s : snd.
  (* ---------------------------------------------------------------- *)
  (** ** Queries *)

  Lemma parse_optional_alias_s l t :
    wl (parse_optional_alias l)
       (fun a d t' => table_alias a (rev d) /\ (a = None -> d = [] \/ t' = [])) [] t.
  Proof.
    unfold parse_optional_alias. go; (split; [unfold Grammar.table_alias; try rd|intros; try discriminate; auto]).
  Qed.
  Hint Resolve parse_optional_alias_s : snd.
  Lemma parse_limit_s t : wl parse_limit (fun l d _ => reads_limit l (rev d)) [] t.
  Proof. unfold parse_limit. go; unfold reads_limit; cbn [lim_allpos lim_pos lim_value lim_offset fst snd] in *; subst; rd. Qed.
  Hint Resolve parse_limit_s : snd.
  Lemma parse_table_factor_s r t : rspec r -> wl (parse_table_factor r) (fun a d _ => reads_tableref a (rev d)) [] t.
  Proof.
    intros HR. unfold parse_table_factor. go; rewrite reads_tableref_eq; subst; try solve [rd].
  Qed.
  Hint Resolve parse_table_factor_s : snd.
  Lemma parse_join_type_s t : wl parse_join_type (fun a d _ => reads_jointype a (rev d)) [] t.
  Proof. unfold parse_join_type. go; unfold reads_jointype; cbn [jt_from jt_to jt_cond]; rd. Qed.
  Hint Resolve parse_join_type_s : snd.
  Lemma parse_join_spec_s r t : rspec r -> wl (parse_join_spec r) (fun a d _ => reads_joinspec a (rev d)) [] t.
  Proof. intros HR. unfold parse_join_spec. go; rewrite reads_joinspec_eq; rd. Qed.
  Hint Resolve parse_join_spec_s : snd.

  Definition reads_right (o : rightpart) : lang :=
    match o with
    | RNatural j x => kwd "NATURAL" >> reads_jointype j >> kwd "JOIN" >> reads_tableref x
    | RCross x => kwds ["CROSS"; "JOIN"]%string >> reads_tableref x
    | RQualified j x s => reads_jointype j >> kwd "JOIN" >> reads_tableref x >> reads_joinspec s
    end.
  Lemma parse_table_reference_right_s r t : rspec r ->
    wl (parse_table_reference_right r)
       (fun o d t' => match o with
                      | None => d = []
                      | Some x => reads_right x (rev d) /\ (Exists (spells "CROSS") t' -> L LostJoins) /\
                                  (match x with RCross _ => Exists (spells "CROSS") t | _ => True end)
                      end) [] t.
  Proof.
    intros HR. unfold parse_table_reference_right. go; try reflexivity; (split; [|split; [|try exact I]]).
    all: unfold reads_right; try solve [rd].
    all: try (unfold reads_jointype; cbn [jt_from jt_to jt_cond]; solve [rd]).
    all: try (apply Exists_cons_hd; spell).
    all: intros HX;
      match goal with K : is_kw (gs "JOIN") ?y = true, H : tok_ok ?y _ |- _ => apply (proj2 (proj2 H)) end;
      (split; [spell|]); repeat (apply Exists_app; right); assumption.
  Qed.
  Hint Resolve parse_table_reference_right_s : snd.
  Lemma parse_table_reference_s r t : rspec r -> wl (parse_table_reference r) (fun a d _ => reads_tableref a (rev d)) [] t.
  Proof.
    intros HR. unfold parse_table_reference. apply wlp_bind.
    eapply wlp_call; [apply parse_table_factor_s; assumption|]. intros left d0 t0 H0 _.
    apply wlp_loop with (Inv := fun e d t' => reads_tableref e (rev d) /\
      exists v, d = v ++ d0 /\ (v = [] \/ (Exists (spells "CROSS") t' -> L LostJoins))).
    - intros e d t1 [I1 [v [-> IL]]]. apply wlp_bind.
      eapply wlp_call; [apply parse_table_reference_right_s; assumption|]. cbn beta.
      intros [[j x|x|j x s]|] d1 t2 HO _; cbn [wlp].
      + destruct HO as [(a & b & E1 & E2 & c & e' & -> & E3 & f & g & -> & E4 & E5) [HL _]].
        split; [|exists (d1 ++ v); split; [apply app_assoc|right; exact HL]]. remember (v ++ d0) as D.
        rewrite reads_tableref_eq. rewrite rev_app_distr, E1. rd.
      + destruct HO as [(a & b & E1 & E2 & E3) [HL HC]].
        split; [|exists (d1 ++ v); split; [apply app_assoc|right; exact HL]]. rewrite reads_tableref_eq. apply cat_end. nf.
        rewrite E1, <- app_assoc. apply cat_cat, cat_app; [exact H0|].
        apply cat_cat. unfold Grammar.lost. destruct IL as [-> |IL].
        * cbn [rev app]. unfold opt. apply cat_altl, cat_eps. rd1.
        * apply cat_altr. apply cat_given; [exact (IL HC)|].
          apply cat_app; [exact I|]. rd1.
      + destruct HO as [(a & b & E1 & E2 & c & e' & -> & E3 & f & g & -> & E4 & E5) [HL _]].
        split; [|exists (d1 ++ v); split; [apply app_assoc|right; exact HL]]. remember (v ++ d0) as D.
        rewrite reads_tableref_eq. rewrite rev_app_distr, E1. rd.
      + rewrite HO. exact I1.
    - nf. split; [assumption|]. exists []. rewrite app_nil_r. auto.
  Qed.
  Lemma parse_from_clause_s r t : rspec r ->
    wl (parse_from_clause r) (fun l d _ => sep_by (sym Comma) (map reads_tableref l) (rev d) /\ exists a l', l = a :: l') [] t.
  Proof.
    intros HR. unfold parse_from_clause. apply wlp_bind.
    eapply wlp_call; [apply (rs_tref r HR)|]. cbn beta. intros a0 d0 t0 H0 _.
    apply wlp_loop with (Inv := fun acc d _ => exists a l dl d', acc = a :: l /\ d = dl ++ d' /\
      reads_tableref a (rev dl) /\ trail (sym Comma) (map reads_tableref (rev l)) (rev d')).
    - intros acc d t1 (a & l & dl & d' & -> & -> & I1 & I2).
      destruct (list_step _ _ _ _ _ _ I2 I1) as [HA HB]. go; auto using rev_cons_ex.
      exists a1, (a :: l), d1, (x :: dl ++ d'). repeat split; auto. apply HB, sym_tok. assumption.
    - exists a0, [], d0, []. repeat split; auto.
  Qed.
  Hint Resolve parse_from_clause_s : snd.
  Lemma parse_select_list_s r t : rspec r ->
    wl (parse_select_list r) (fun l d _ => sep_by (sym Comma) (map reads_selitem l) (rev d)) [] t.
  Proof.
    intros HR. unfold parse_select_list.
    apply wlp_loop with (Inv := fun acc d _ => trail (sym Comma) (map reads_selitem (rev acc)) (rev d)); [|reflexivity].
    intros acc d t1 HI. apply wlp_bind. eapply wlp_call; [apply parse_expr_s; assumption|].
    cbn beta. intros e d1 t2 He _. apply wlp_bind.
    apply wlp_conseq with (Q := fun item d' t' =>
      exists d2, d' = d2 ++ d /\ (t' <> [] -> reads_selitem item (rev d2))).
    - assert (HG : wl (a <- parse_optional_alias reserved_column_alias ;;
                       Ret (match a with Some i => SIAlias e i | None => SIUnnamed e end))
        (fun item d' t' => exists d2, d' = d2 ++ d /\ (t' <> [] -> reads_selitem item (rev d2))) (d1 ++ d) t2).
      { apply wlp_bind. eapply wlp_call; [apply parse_optional_alias_s|]. cbn beta. intros a d0 t3 [H H1] _. cbn [wlp]. destruct a as [i|]; (exists (d0 ++ d1); split; [apply app_assoc|]; intros Ht); rewrite reads_selitem_eq.
        - unfold Grammar.table_alias in H. rewrite rev_app_distr. apply cat_app; assumption.
        - destruct (H1 eq_refl) as [-> | ->]; [rd|congruence]. }
      destruct e; try exact HG. cbn [wlp]. exists d1. split; [reflexivity|]. intros _. rewrite reads_selitem_eq.
      rewrite reads_node_eq in He. apply He.
    - cbn beta. intros item d' t' (d2 & -> & Hi). go; kinds; specialize (Hi ltac:(congruence));
        destruct (list_step _ _ _ _ _ _ HI Hi) as [HA HB]; auto.
      apply HB, sym_tok. assumption.
  Qed.
  Hint Resolve parse_select_list_s : snd.
  Lemma parse_select_s r x t : rspec r -> spells "SELECT" x ->
    wl (parse_select r (tfrom x)) (fun a d _ => reads_select a (x :: rev d)) [] t.
  Proof. intros HR Hs. unfold parse_select. go; rewrite reads_select_eq; rd. Qed.
  Hint Resolve parse_select_s spells_is_kw : snd.

  Lemma body_loop_s r p e u t : rspec r -> 0 <= p <= 50 ->
    reads_setexpr e u -> p < set_top e -> nset t <= set_top e ->
    wl (body_loop r p e) (fun a d t' => reads_setexpr a (u ++ rev d) /\ p < set_top a /\ nset t' <= p) [] t.
  Proof.
    intros HR Hp H1 H2 H3. unfold body_loop.
    apply wlp_loop with (Inv := fun e d t => reads_setexpr e (u ++ rev d) /\ p < set_top e /\ nset t <= set_top e).
    2: { cbn. rewrite app_nil_r. auto. }
    clear e t H1 H2 H3. intros e d t (I1 & I2 & I3). apply wlp_bind, wl_peek.
    { intros ->. cbn. repeat split; auto. lia. }
    intros x t' -> Hx. apply wlp_bind. unfold parse_set_operator.
    assert (HC : forall op : setop, reads_setop op [x] -> setop_prec op = set_level op -> set_level op = nset (x :: t') -> 0 < set_level op <= 50 ->
      wl (if setop_prec op <=? p then Ret (inr e)
           else must_next ;;; all <- kw_ok "ALL" ;; rhs <- r_body r (setop_prec op) ;; Ret (inl (SSetOp op all e rhs)))
         (fun r0 d' t'0 => match r0 with
                           | inl s' => reads_setexpr s' (u ++ rev d') /\ p < set_top s' /\ nset t'0 <= set_top s'
                           | inr a => reads_setexpr a (u ++ rev d') /\ p < set_top a /\ nset t'0 <= p
                           end) d (x :: t')).
    { intros op Ho1 Ho2 Ho3 Ho4. rewrite Ho2. destruct (set_level op <=? p) eqn:E.
      { cbn [wlp]. repeat split; auto. lia. }
      apply wlp_bind, wl_must_next. intros y t2 Ey _. injection Ey as <- <-.
      assert (HG : forall (all : bool) d2 t3, (if all then kwd "ALL" else eps) (rev d2) ->
        wl (rhs <- r_body r (set_level op) ;; Ret (inl (SSetOp op all e rhs)))
         (fun (r0 : setexpr + setexpr) d' t'0 => match r0 with
                           | inl s' => reads_setexpr s' (u ++ rev d') /\ p < set_top s' /\ nset t'0 <= set_top s'
                           | inr a => reads_setexpr a (u ++ rev d') /\ p < set_top a /\ nset t'0 <= p
                           end) (d2 ++ x :: d) t3).
      { intros all d2 t3 Hall. apply wlp_bind. eapply wlp_call; [apply (rs_body r HR); lia|].
        intros rhs d3 t4 (J1 & J2 & J3) _. cbn [wlp set_top]. split; [|lia].
        rewrite reads_setexpr_eq. cbn [set_bound]. split; [lia|]. apply cat_end. nf.
        rewrite app_assoc. apply cat_cat, cat_app; [assumption|]. rd1. }
      apply wlp_bind, wl_kw_ok.
      - intros _. apply (HG false []). reflexivity.
      - intros y t3 -> Hy Ky. apply (HG true [y]). exists y. split; [reflexivity|]. spell. }
    destruct (is_kind SQLKeyword x) eqn:Ek.
    - kinds. apply wlp_bind, wl_word_of. intros w Hw. cbn [wlp].
      cbn [nset] in HC, I3. rewrite Ek, Hw in HC, I3.
      destruct (kw w "UNION") eqn:K1; [|destruct (kw w "EXCEPT") eqn:K2; [|destruct (kw w "INTERSECT") eqn:K3]].
      1-3: apply HC; try reflexivity; try (cbn; lia); split; [auto|]; exists x; split; [reflexivity|]; spell.
      cbn [wlp nset]. rewrite Ek, Hw, K1, K2, K3. repeat split; auto. lia.
    - cbn [wlp nset]. repeat split; auto.
      assert (tkind x <> SQLKeyword) by (unfold is_kind in Ek; destruct (tkind x); discriminate).
      destruct (tkind x); try lia. congruence.
  Qed.
  Lemma nset_le t : nset t <= closed.
  Proof.
    destruct t as [|x t]; cbn; [unfold closed; lia|]. destruct (tkind x); try (unfold closed; lia). destruct (tval x); [|unfold closed; lia].
    repeat match goal with |- context [if ?b then _ else _] => destruct b end; unfold closed; lia.
  Qed.
  Lemma parse_query_body_s r p t : rspec r -> 0 <= p <= 50 -> wl (parse_query_body r p) (body_post p) [] t.
  Proof.
    intros HR Hp. unfold parse_query_body, body_post.
    assert (HC : forall e d t, reads_setexpr e (rev d) -> set_top e = closed ->
      wl (body_loop r p e) (fun s d t' => reads_setexpr s (rev d) /\ p < set_top s /\ nset t' <= p) d t).
    { intros e d t1 H1 H2. eapply wlp_call; [eapply body_loop_s; eauto|].
      - rewrite H2. unfold closed. lia.
      - rewrite H2. apply nset_le.
      - cbn beta. intros a d1 t2 (J1 & J2 & J3) _. nf. auto. }
    go; apply HC; try reflexivity; rewrite reads_setexpr_eq; (split; [exact I|]); nf; try assumption.
    rd.
  Qed.
  Lemma parse_query_body0_s r t : rspec r -> wl (parse_query_body r 0) (fun s d _ => reads_setexpr s (rev d)) [] t.
  Proof. intros HR. eapply wlp_conseq; [apply parse_query_body_s; [assumption|lia]|]. intros ? ? ? H. apply H. Qed.
  Hint Resolve parse_query_body0_s : snd.
  Lemma parse_cte_list_s r t : rspec r ->
    wl (parse_cte_list r) (fun l d _ => sep_by (sym Comma) (map reads_cte l) (rev d) /\ exists a l', l = a :: l') [] t.
  Proof.
    intros HR. unfold parse_cte_list.
    apply wlp_loop with (Inv := fun acc d _ => trail (sym Comma) (map reads_cte (rev acc)) (rev d)); [|reflexivity].
    intros acc d t1 HI. go.
    all: match goal with H : trail _ _ (rev ?d), H1 : word ?a (rev ?d1), H2 : reads_query ?q (rev ?d2) |- context [?z :: ?d2 ++ ?y :: ?x :: ?d1 ++ ?d] =>
      assert (HC : reads_cte (CTE a q pos0) (rev (z :: d2 ++ y :: x :: d1))) by (rewrite reads_cte_eq; rd);
      destruct (list_step _ _ _ _ _ _ H HC) as [HA HB]; rewrite <- !app_comm_cons, <- app_assoc, <- !app_comm_cons in HA, HB end.
    - auto using rev_cons_ex.
    - apply HB, sym_tok. assumption.
  Qed.
  Hint Resolve parse_cte_list_s : snd.
  Lemma parse_query_s r t : rspec r -> wl (parse_query r) (fun a d _ => reads_query a (rev d)) [] t.
  Proof. intros HR. unfold parse_query. go; rewrite reads_query_eq; rd. Qed.
  Hint Resolve parse_query_s : snd.
  (* ---------------------------------------------------------------- *)
  (** ** Statements *)

  Ltac clash :=
    exfalso; cbn [kwno] in *;
    solve [congruence
          | match goal with
            | H1 : is_kw ?a ?x = true, H2 : is_kw ?b ?x = true |- _ =>
                let E := fresh in pose proof (is_kw_clash a b x H1 H2) as E; vm_compute in E; discriminate E
            end].

  Lemma parse_table_constraints_s r t : rspec r -> wl (parse_table_constraints r) (fun a d _ => reads_tcons L a (rev d)) [] t.
  Proof.
    intros HR. unfold parse_table_constraints. go; try discriminate.
    all: repeat match goal with H : (match tval ?x with _ => _ end) = true |- _ => destruct (tval x) eqn:?; [|discriminate H] end.
    all: unfold reads_tcons; cbn [tc_name tc_constraint tc_spec]; unfold reads_tcspec, reads_refkey; cbn [rk_table rk_columns rk_rparen].
    all: try solve [rd].
    all: match goal with H : match ?a with Some _ => _ | None => _ end |- _ =>
           destruct a as [[|i l]|]; [cbn in H; contradiction|change (words (i :: l)) with (sep_by (sym Comma) (map word (i :: l)))|] end; try solve [rd].
    all: match goal with H : _ = [] \/ exists _, _ |- _ => destruct H as [->|(z & d' & -> & Kz & Hz)]; [cbn [app]; solve [rd]|] end.
    all: assert (L LostColumns) by (apply (proj2 (proj2 Hz)); split; assumption).
    all: assert (any_tokens (rev (z :: d'))) by exact I; remember (z :: d') as D; rd.
  Qed.
  Hint Resolve parse_table_constraints_s : snd.

  Lemma parse_column_spec_s r x w t : rspec r -> tok_ok x t -> tval x = VWord w ->
    wl (parse_column_spec r x w)
       (fun o d t' => match o with
                      | Some s => reads_ccspec L s (rev d)
                      | None => d = [] /\
                          kw w "NOT" = false /\ kw w "UNIQUE" = false /\ kw w "PRIMARY" = false /\
                          kw w "REFERENCES" = false /\ kw w "CHECK" = false
                      end) [] (x :: t).
  Proof. intros HR Hx Hw. unfold parse_column_spec. go; unfold reads_ccspec; try solve [rd]; auto 10. Qed.

  Definition starts_constraint (t : toks) : bool :=
    match t with
    | x :: _ => match tkind x, tval x with
                | SQLKeyword, VWord w => kw w "CONSTRAINT" || kw w "NOT" || kw w "UNIQUE" || kw w "PRIMARY"
                                         || kw w "REFERENCES" || kw w "CHECK"
                | _, _ => false
                end
    | [] => false
    end.
  Lemma not_word x t : is_kind SQLKeyword x = false -> starts_constraint (x :: t) = false.
  Proof. unfold is_kind, starts_constraint. destruct (tkind x); try reflexivity. discriminate. Qed.

  Lemma parse_column_constraints_s r t : rspec r -> starts_constraint t = true ->
    wl (parse_column_constraints r)
       (fun l d t' => reads_colpart L (CConstraints l) (rev d) /\ (L LostName /\ L LostConstraints \/ starts_constraint t' = false)) [] t.
  Proof.
    intros HR Hst. unfold parse_column_constraints.
    apply wlp_loop with (Inv := fun acc d t' => many (map (reads_ccons L) (rev acc)) (rev d) /\ (acc = [] -> starts_constraint t' = true));
      [|split; [reflexivity|auto]].
    assert (Hrev : forall (acc : list colconstraint), rev acc = [] -> acc = []).
    { intros acc E. apply (f_equal (@rev _)) in E. rewrite rev_involutive in E. exact E. }
    intros acc d t1 [HI HA]. apply wlp_bind, wl_peek.
    { intros ->. cbn [wlp reads_colpart]. split; [|right; reflexivity].
      split; [intros E; specialize (HA (Hrev _ E)); discriminate|]. rd. }
    intros x t' -> Hx. cbv zeta. set (named := match tval x with VWord w => kw w "CONSTRAINT" | VStr _ => false end).
    assert (HG : forall (name : option ident) d1 t2,
      (named = false -> d1 = [] /\ t2 = x :: t') ->
      may name (fun n => kwd "CONSTRAINT" >> word n) (rev d1) -> (named = true -> ~ next_constraint t2 -> L LostName /\ L LostConstraints) -> (name <> None -> named = true) ->
      wl (t <- peek_nn ;;
           if negb (is_kind SQLKeyword t) then Ret (inr (rev acc))
           else
             w <- word_of t ;;
             s <- parse_column_spec r t w ;;
             Ret (match s with
                  | None => inr (rev acc)
                  | Some spec => inl (mkCC name pos0 spec :: acc)
                  end))
        (fun r0 d' t'0 => match r0 with
                          | inl s' => many (map (reads_ccons L) (rev s')) (rev d') /\ (s' = [] -> starts_constraint t'0 = true)
                          | inr a => reads_colpart L (CConstraints a) (rev d') /\ (L LostName /\ L LostConstraints \/ starts_constraint t'0 = false)
                          end) (d1 ++ d) t2).
    { intros name d1 t2 HN Hm HL Hnm.
      assert (HE : forall a, ~ next_constraint t2 -> (a = [] -> L LostName) -> many (map (reads_ccons L) a) (rev d) ->
                             reads_colpart L (CConstraints a) (rev (d1 ++ d))).
      { intros a Hc Ha0 Ha. cbn [reads_colpart]. split; [exact Ha0|]. rewrite rev_app_distr. apply cat_app; [exact Ha|].
        destruct name as [n|].
        - destruct (HL ltac:(apply Hnm; congruence) Hc) as [HL1 _]. right. split; [exact HL1|].
          cbn [may] in Hm. destruct Hm as (u & v & -> & Hu & z & -> & w & Hw & _). apply cat_app; [exact Hu|].
          exists z. split; [reflexivity|]. eauto.
        - left. exact Hm. }
      apply wlp_bind, wl_peek_nn. intros y t3 -> Hy. destruct (negb (is_kind SQLKeyword y)) eqn:Ek.
      { cbn [wlp]. kinds.
        assert (Hc : ~ next_constraint (y :: t3)).
        { intros [Ky _]. unfold is_kind in Ek. rewrite Ky in Ek. discriminate. }
        split; [apply HE; [exact Hc| |exact HI]|right; apply not_word, Ek].
        intros E. destruct named eqn:En; [apply HL; auto|]. specialize (HA (Hrev _ E)).
        destruct (HN eq_refl) as [_ E2]. rewrite <- E2 in HA. rewrite not_word in HA by exact Ek. discriminate. }
      kinds. apply wlp_bind, wl_word_of. intros w Hw. apply wlp_bind.
      eapply wlp_call; [apply parse_column_spec_s; eassumption|]. cbn beta. intros [s|] d2 t4 HO Et; cbn [wlp].
      - split; [|discriminate]. cbn [rev]. rewrite map_app, !rev_app_distr, <- app_assoc. apply many_app; [exact HI|].
        apply many_one. unfold reads_ccons. cbn [cc_constraint cc_name cc_spec]. split; [reflexivity|].
        apply cat_app; assumption.
      - destruct HO as (-> & N1 & N2 & N3 & N4 & N5). cbn in Et. subst t4. cbn [app].
        assert (Hc : ~ next_constraint (y :: t3)).
        { intros (_ & w' & Hw' & Hi). rewrite Hw in Hw'. injection Hw' as <-. unfold kw in N1, N2, N3, N4, N5.
          cbn [In map constraint_words] in Hi.
          repeat destruct Hi as [Hi|Hi]; try contradiction; rewrite <- Hi, gs_eqb_refl in *; discriminate. }
        assert (Hs : named = false -> starts_constraint (y :: t3) = false).
        { intros En. destruct (HN En) as [-> E2].
          injection E2 as -> ->. cbn [starts_constraint]. rewrite Ek, Hw, N1, N2, N3, N4, N5.
          subst named. rewrite Hw in En. rewrite En. reflexivity. }
        split; [apply HE; [exact Hc| |exact HI]|].
        + intros E. destruct named eqn:En; [apply HL; auto|]. specialize (HA (Hrev _ E)).
          destruct (HN eq_refl) as [_ E2]. rewrite <- E2, (Hs eq_refl) in HA. discriminate.
        + destruct named eqn:En; [left; apply HL; [reflexivity|exact Hc]|]. right. auto. }
    apply wlp_bind. destruct named eqn:En.
    - subst named. destruct (tval x) as [w|] eqn:Hw; [|discriminate].
      assert (HS : spells "CONSTRAINT" x) by spell.
      apply wlp_bind, wl_must_next. intros y t2 E _. injection E as <- <-. apply wlp_bind.
      eapply wlp_call; [apply parse_identifier_s|]. cbn beta. intros i d1 t2 Hi Et. cbn [wlp].
      change (x :: d) with ([x] ++ d). rewrite app_assoc. apply HG; try discriminate; auto.
      + cbn [may]. rewrite rev_app_distr. apply cat_app; [|exact Hi]. exists x. auto.
      + intros _ Hc. assert (Ht : tl t' = t2).
        { destruct Hi as (z & Ez & _). rewrite Et, Ez. reflexivity. }
        rewrite <- Ht in Hc. split; apply (proj2 (proj2 Hx)); cbn [trigger]; auto.
    - cbn [wlp]. apply (HG None [] (x :: t')); try discriminate; auto.
      reflexivity.
  Qed.

  Lemma flat_map_snoc {A B} (f : A -> list B) l a : flat_map f (l ++ [a]) = flat_map f l ++ f a.
  Proof. rewrite flat_map_app. cbn. rewrite app_nil_r. reflexivity. Qed.
  Lemma kept_snoc {A} k (l : list A) o a : kept L k l o -> (l <> [] -> L k) -> kept L k (l ++ [a]) (Some a).
  Proof.
    intros [_ H2] H3. split; [rewrite rev_app_distr; reflexivity|]. destruct l; [cbn; lia|].
    intros _. apply H3. discriminate.
  Qed.

  Definition ends_group (l : list colpart) : Prop :=
    match rev l with CConstraints _ :: _ => True | _ => False end.
  Lemma touching_snoc l x : touching (l ++ [x]) -> touching l \/ (ends_group l /\ exists c, x = CConstraints c).
  Proof.
    induction l as [|a l IH]; [cbn; destruct x; tauto|]. destruct l as [|b l].
    - cbn. destruct a, x; cbn; try tauto. intros _. right. eauto.
    - intros H. assert (H' : touching ((b :: l) ++ [x]) \/ exists c e, a = CConstraints c /\ b = CConstraints e).
      { destruct a, b; eauto. }
      destruct H' as [H'|(c & e & -> & ->)]; [|left; exact I].
      destruct (IH H') as [K|[K1 K2]]; [left; destruct a, b; try exact K; exact I|right; split; [|exact K2]].
      unfold ends_group in *. cbn [rev] in *. destruct (rev l); exact K1.
  Qed.
  Lemma ends_snoc l x : ends_group (l ++ [x]) <-> exists c, x = CConstraints c.
  Proof.
    unfold ends_group. rewrite rev_app_distr. cbn [rev app]. destruct x; split; try tauto; eauto; intros [c E]; discriminate.
  Qed.

  Lemma parse_column_definition_s r t : rspec r ->
    wl (parse_column_definition r)
       (fun p d _ => exists parts, many (map (reads_colpart L) parts) (rev d) /\
          kept L LostDefault (defaults parts) (fst (fst p)) /\
          (exists g, kept L LostConstraints (groups parts) g /\
                     snd (fst p) = match g with Some l => l | None => [] end) /\
          decors parts = snd p /\ (touching parts -> L LostName)) [] t.
  Proof.
    intros HR. unfold parse_column_definition.
    apply wlp_loop with (Inv := fun s d t' => exists parts, many (map (reads_colpart L) parts) (rev d) /\
          kept L LostDefault (defaults parts) (fst (fst s)) /\
          (exists g, kept L LostConstraints (groups parts) g /\
                     snd (fst s) = match g with Some l => l | None => [] end) /\
          decors parts = rev (snd s) /\
          (groups parts = [] \/ L LostConstraints \/ starts_constraint t' = false) /\
          (defaults parts = [] \/ L LostDefault) /\
          (touching parts -> L LostName) /\
          (ends_group parts -> L LostName \/ starts_constraint t' = false)).
    2:{ exists []. cbn [fst snd]. repeat split; auto; try (cbn; lia); try (intros []).
        exists None. repeat split. cbn; lia. }
    intros [[def specs] decs] d t1 (parts & H1 & H2 & (g & H3 & H3') & H4 & H5 & H6 & H7 & H8). cbn [fst snd] in *.
    assert (HS : exists parts, many (map (reads_colpart L) parts) (rev d) /\
          kept L LostDefault (defaults parts) (fst (fst (def, specs, rev decs))) /\
          (exists g, kept L LostConstraints (groups parts) g /\
                     snd (fst (def, specs, rev decs)) = match g with Some l => l | None => [] end) /\
          decors parts = snd (def, specs, rev decs) /\ (touching parts -> L LostName)).
    { exists parts. cbn [fst snd]. eauto 10. }
    assert (HT : forall x, (forall c, x <> CConstraints c) -> forall t', (touching (parts ++ [x]) -> L LostName) /\
      (ends_group (parts ++ [x]) -> L LostName \/ starts_constraint t' = false)).
    { intros x Hx t'. split.
      - intros T. apply touching_snoc in T. destruct T as [T|[_ [c E]]]; [auto|]. destruct (Hx c E).
      - intros T. apply ends_snoc in T. destruct T as [c E]. destruct (Hx c E). }
    assert (HM : forall q ts, reads_colpart L q ts -> many (map (reads_colpart L) (parts ++ [q])) (rev d ++ ts)).
    { intros q ts Hq. rewrite map_app. apply many_app; [exact H1|]. apply many_one, Hq. }
    apply wlp_bind, wl_peek; [intros; exact HS|]. intros x t' -> Hx. cbv zeta.
    destruct (negb (is_kind SQLKeyword x)) eqn:Ek; [exact HS|]. kinds.
    apply wlp_bind, wl_word_of. intros w Hw. destruct (kw w "DEFAULT") eqn:K1.
    { apply wlp_bind, wl_kw_ok.
      - cbn [kwno wlp]. intros _. exists parts. cbn [fst snd]. eauto 10.
      - intros y t2 E Hy Ky. injection E as <- <-. apply wlp_bind. eapply wlp_call; [solve [eauto with snd]|].
        cbn beta. intros e d1 t2 He Et. cbn [wlp]. exists (parts ++ [CDefault e]). cbn [fst snd].
        assert (HL : forall k, k = LostConstraints \/ k = LostDefault -> L k).
        { intros k [-> | ->]; apply (proj2 (proj2 Hx)); cbn [trigger]; [left|]; spell. }
        unfold defaults, groups, decors in *. rewrite !flat_map_snoc, !app_nil_r.
        split.
        { rewrite rev_app_distr. cbn [rev]. rewrite <- app_assoc. apply HM. cbn [reads_colpart]. 
          apply cat_tok; [spell|]. apply He. }
        split; [eapply kept_snoc; eauto|]. split; [eauto|]. split; [exact H4|]. split; [right; left; auto|].
        split; [right; auto|]. apply HT. discriminate. }
    destruct (kw w "CONSTRAINT" || kw w "NOT" || kw w "UNIQUE" || kw w "PRIMARY" || kw w "REFERENCES" || kw w "CHECK") eqn:K2.
    { assert (H5' : groups parts = [] \/ L LostConstraints).
      { destruct H5 as [H5|[H5|H5]]; auto. cbn [starts_constraint] in H5. rewrite Ek, Hw, K2 in H5. discriminate. }
      apply wlp_bind. eapply wlp_call; [apply parse_column_constraints_s; [exact HR|cbn [starts_constraint]; rewrite Ek, Hw; exact K2]|]. cbn beta.
      intros s d1 t2 [Hs HN] Et. cbn [wlp]. exists (parts ++ [CConstraints s]). cbn [fst snd].
      unfold defaults, groups, decors in *. rewrite !flat_map_snoc, !app_nil_r.
      split; [rewrite rev_app_distr; apply HM, Hs|]. split; [exact H2|]. split.
      { exists (Some s). split; [|reflexivity]. eapply kept_snoc; [exact H3|]. intros N. destruct H5' as [E|?]; [contradiction|assumption]. }
      split; [exact H4|]. split; [right; destruct HN as [[_ HN]|HN]; auto|]. split; [exact H6|]. split.
      - intros T. apply touching_snoc in T. destruct T as [T|[T _]]; [auto|]. destruct (H8 T) as [K|K]; [exact K|].
        cbn [starts_constraint] in K. rewrite Ek, Hw, K2 in K. discriminate.
      - intros _. destruct HN as [[HN _]|HN]; auto. }
    destruct (kw w "AUTO_INCREMENT") eqn:K3; [|exact HS].
    apply wlp_bind, wl_must_next. intros y t2 E _. injection E as <- <-. cbn [wlp].
    exists (parts ++ [CDecor (mkAutoInc (tfrom x) (tto x))]). cbn [fst snd rev].
    unfold defaults, groups, decors in *. rewrite !flat_map_snoc, !app_nil_r.
    split; [apply HM; cbn [reads_colpart]; unfold reads_decor; cbn [ai_auto ai_increment]; rd|].
    assert (HL : L LostConstraints) by (apply (proj2 (proj2 Hx)); cbn [trigger]; right; left; spell).
    rewrite H4. split; [exact H2|]. split; [eauto|]. split; [reflexivity|]. split; [auto|]. split; [exact H6|].
    apply HT. discriminate.
  Qed.
  Hint Resolve parse_column_definition_s : snd.

  Lemma parse_column_def_s r t : rspec r -> wl (parse_column_def r) (fun a d _ => reads_columndef L a (rev d)) [] t.
  Proof.
    intros HR. unfold parse_column_def. go. unfold reads_columndef. cbn [cd_name cd_type cd_default cd_constraints cd_decorations].
    cbn [fst snd] in *. nf. apply cat_tok; [tks|]. apply cat_app; [assumption|].
    match goal with H : many (map (reads_colpart L) ?p) _ |- _ => exists p end. rewrite ?app_nil_r. eauto 10.
  Qed.
  Hint Resolve parse_column_def_s : snd.

  Lemma parse_elements_s r t : rspec r ->
    wl (parse_elements r)
       (fun l d _ => match l with [] => eps | _ => parens (commas (reads_element L) l) end (rev d)) [] t.
  Proof.
    intros HR. unfold parse_elements. apply wlp_bind, wl_consume; [intros _; reflexivity|].
    intros x t' -> Hx Kx. cbv iota. change [x] with ([] ++ [x]).
    apply wlp_loop with (Inv := fun acc d _ => exists d0, d = d0 ++ [x] /\ trail (sym Comma) (map (reads_element L) (rev acc)) (rev d0));
      [|exists []; split; [reflexivity|reflexivity]].
    intros acc d t1 (d0 & -> & HI). apply wlp_bind, wl_next_ret; [intros; exact I|]. intros y t2 -> Hy.
    destruct (negb (is_kind SQLKeyword y)) eqn:Ek; [exact I|]. kinds.
    apply wlp_bind, wl_word_of. intros w Hw. apply wlp_bind, wl_prev. apply wlp_bind.
    assert (HE : forall Q : tableelement -> toks -> toks -> Prop,
      (forall el d1 t3, reads_element L el (rev d1) -> Q el (d1 ++ d0 ++ [x]) t3) ->
      wl (if kw w "CONSTRAINT" || kw w "PRIMARY" || kw w "CHECK" || kw w "FOREIGN" || kw w "UNIQUE"
                      then c <- parse_table_constraints r ;; Ret (TEConstraint c)
                      else c <- parse_column_def r ;; Ret (TEColumn c)) Q (d0 ++ [x]) (y :: t2)).
    { intros Q HQ. destruct (kw w "CONSTRAINT" || kw w "PRIMARY" || kw w "CHECK" || kw w "FOREIGN" || kw w "UNIQUE");
        go; apply HQ; assumption. }
    apply HE. intros el d1 t3 Hel. destruct (list_step _ _ _ _ _ _ HI Hel) as [HA HB].
    apply wlp_bind, wl_next_ret; [intros; exact I|]. intros z t4 -> Hz.
    destruct (is_kind RParen z) eqn:Kz; kinds; cbn [wlp].
    - destruct (rev_cons_ex el acc) as (a & l' & E). rewrite E in *. rewrite app_assoc. cbn [rev].
      rewrite rev_app_distr. cbn [rev app]. unfold parens. apply cat_tok; [exact Kx|].
      apply cat_app; [exact HA|]. apply sym_tok, Kz.
    - destruct (is_kind Comma z) eqn:Kz'; kinds; cbn [wlp]; [|exact I].
      exists (z :: d1 ++ d0). cbn [app]. rewrite app_assoc. split; [reflexivity|]. apply HB, sym_tok, Kz'.
  Qed.
  Hint Resolve parse_elements_s : snd.

  Lemma parse_option_value_s t : wl parse_option_value (fun p d _ => option_value (fst p) (snd p) (rev d)) [] t.
  Proof. unfold parse_option_value. go; kinds; cbn [fst snd]; unfold option_value; rd. Qed.
  Hint Resolve parse_option_value_s : snd.
  Lemma parse_table_option_s t : wl parse_table_option (fun o d _ => reads_option o (rev d)) [] t.
  Proof. unfold parse_table_option. go; kinds; cbn [fst snd] in *; unfold reads_option; rd. Qed.
  Hint Resolve parse_table_option_s : snd.
  Lemma parse_table_options_s r t : wl (parse_table_options r)
       (fun l d _ => (many (map reads_option l) >> lost LostComma (sym Comma)) (rev d)) [] t.
  Proof.
    unfold parse_table_options.
    apply wlp_loop with (Inv := fun acc d _ => many (map reads_option (rev acc)) (rev d)); [|reflexivity].
    intros acc d t1 HI. go; kinds; try discriminate.
    - rd.
    - nf. apply cat_app; [assumption|]. right. split; [|apply sym_tok; assumption].
      match goal with H : tok_ok ?x _ |- _ => apply (proj2 (proj2 H)); assumption end.
    - congruence.
    - rd.
    - cbn [rev]. rewrite map_app, rev_app_distr. apply many_app; [exact HI|]. apply many_one. assumption.
  Qed.
  Hint Resolve parse_table_options_s : snd.

  (** A list that has been read is not empty. *)
  Ltac filled :=
    repeat match goal with
    | H : words ?a (rev _) |- context [match ?a with [] => _ | _ :: _ => _ end] =>
        destruct a; [cbn in H; contradiction|]
    end.

  Lemma parse_create_index_s r u t : rspec r ->
    wl (parse_create_index r u)
       (fun s d _ => exists tn idx meth cols sel, s = StCreateIndex pos0 tn u idx meth cols pos0 sel /\
          (may idx word >> kwd "ON" >> name tn >> may meth (fun m => kwd "USING" >> word m) >>
           match cols with [] => eps | _ => parens (words cols) end >> where_clause L sel) (rev d)) [] t.
  Proof.
    intros HR. unfold parse_create_index. go; do 5 eexists; (split; [reflexivity|]).
    all: filled; rd.
  Qed.

  Lemma parse_create_s r t : rspec r -> wl (parse_create r) (fun s d _ => reads_stmt L s (rev d)) [] t.
  Proof.
    intros HR. pose proof parse_create_index_s as HX. unfold parse_create, parse_create_table, parse_create_view. go; try discriminate.
    all: try clash.
    all: try (subst; cbn [reads_stmt]; solve [rd]).
    all: repeat match goal with H1 : kwds ["UNIQUE"; "INDEX"]%string ?l |- _ =>
           destruct H1 as (? & ? & -> & (y & -> & Hy) & ?) end.
    all: try match goal with H : tok_ok ?x (([?y] ++ _) ++ _), K : is_kw (gs "INDEX") ?x = true |- _ =>
           assert (L LostIndex) by (apply (proj2 (proj2 H)); split; [spell|exact Hy]) end.
    all: subst; cbn [reads_stmt].
    all: match goal with H : many (map kwd ["INDEX"]%string) ?l |- _ => change (kwds ["INDEX"]%string l) in H end.
    all: rd.
  Qed.
  Lemma parse_delete_s r t : rspec r -> wl (parse_delete r) (fun s d _ => reads_stmt L s (rev d)) [] t.
  Proof. intros HR. unfold parse_delete. go; cbn [reads_stmt]; rd. Qed.
  Lemma parse_assignments_s r t : rspec r ->
    wl (parse_assignments r) (fun l d _ => commas (reads_assign L) l (rev d) /\ exists a l', l = a :: l') [] t.
  Proof.
    intros HR. unfold parse_assignments.
    apply wlp_loop with (Inv := fun acc d _ => trail (sym Comma) (map (reads_assign L) (rev acc)) (rev d)); [|reflexivity].
    intros acc d t1 HI. go.
    all: match goal with H : trail _ _ (rev ?d), H2 : reads_node ?q (rev ?d2) |- context [mkAssign ?i ?q] =>
      match goal with |- context [d2 ++ ?y :: ?x :: d] =>
      assert (HC : reads_assign L (mkAssign i q) (rev (d2 ++ [y; x]))) by (unfold reads_assign; cbn [as_id as_value]; rd);
      destruct (list_step _ _ _ _ _ _ H HC) as [HA HB]; rewrite <- !app_assoc in HA, HB; cbn [app] in HA, HB end end.
    - auto using rev_cons_ex.
    - apply HB, sym_tok. assumption.
  Qed.
  Hint Resolve parse_assignments_s : snd.
  Lemma parse_update_s r t : rspec r -> wl (parse_update r) (fun s d _ => reads_stmt L s (rev d)) [] t.
  Proof. intros HR. unfold parse_update. go; cbn [reads_stmt]; rd. Qed.
  Lemma parse_rows_s r t : rspec r ->
    wl (parse_rows r) (fun l d _ => commas (reads_row L) l (rev d) /\ exists a l', l = a :: l') [] t.
  Proof.
    intros HR. unfold parse_rows.
    apply wlp_loop with (Inv := fun acc d _ => trail (sym Comma) (map (reads_row L) (rev acc)) (rev d)); [|reflexivity].
    intros acc d t1 HI. go.
    all: match goal with H : trail _ _ (rev ?d), H2 : sep_by _ (map _ ?q) (rev ?d2) |- context [mkRow ?v ?l ?p] =>
      match goal with |- context [?y :: d2 ++ ?x :: d] =>
      assert (HC : reads_row L (mkRow v l p) (rev (y :: d2 ++ [x]))) by (unfold reads_row; cbn [row_values row_lparen row_rparen]; unfold commas; rd);
      destruct (list_step _ _ _ _ _ _ H HC) as [HA HB]; rewrite <- !app_comm_cons, <- !app_assoc in HA, HB; cbn [app] in HA, HB end end.
    - auto using rev_cons_ex.
    - apply HB, sym_tok. assumption.
  Qed.
  Hint Resolve parse_rows_s : snd.
  Lemma parse_insert_s r t : rspec r -> wl (parse_insert r) (fun s d _ => reads_stmt L s (rev d)) [] t.
  Proof. intros HR. unfold parse_insert. go; cbn [reads_stmt]; unfold reads_source. all: filled. all: rd. Qed.

  Lemma parse_cascade_s t : wl parse_cascade (fun p d _ => cascade (fst p) (snd p) (rev d)) [] t.
  Proof. unfold parse_cascade. go; cbn [fst snd]; unfold cascade; rd. Qed.
  Hint Resolve parse_cascade_s : snd.
  Lemma parse_alter_column_s r x t : rspec r ->
    wl (parse_alter_column r x)
       (fun a d _ => exists n c, a = ATAlterColumn n (tfrom x) c /\ (word n >> reads_colaction L c) (rev d)) [] t.
  Proof.
    intros HR. unfold parse_alter_column. go; try discriminate; kinds.
    all: do 2 eexists; (split; [reflexivity|]); unfold reads_colaction; rd.
  Qed.
  Hint Resolve parse_alter_column_s : snd.
  Lemma parse_alter_s r t : rspec r -> wl (parse_alter r) (fun s d _ => reads_stmt L s (rev d)) [] t.
  Proof.
    intros HR. unfold parse_alter. go; try discriminate; cbn [reads_stmt]; subst; unfold reads_action; cbn [fst snd] in *.
    all: try solve [rd].
    all: repeat match goal with H : Some _ = Some _ |- _ => injection H; intros; clear H; subst | H : _ :: _ = _ :: _ |- _ => injection H; intros; clear H; subst end.
    all: rd.
  Qed.
  Lemma parse_drop_s r t : rspec r -> wl (parse_drop r) (fun s d _ => reads_stmt L s (rev d)) [] t.
  Proof.
    intros HR. unfold parse_drop. go; cbn [reads_stmt fst snd] in *.
    all: try match goal with |- context [commas name [?n]] => change (commas name [n]) with (name n) end; rd.
  Qed.
  Hint Resolve parse_create_s parse_delete_s parse_update_s parse_insert_s parse_alter_s parse_drop_s : snd.

  Lemma parse_statement_s r t : rspec r -> wl (parse_statement r) (fun s d _ => reads_stmt L s (rev d)) [] t.
  Proof.
    intros HR. unfold parse_statement. go; cbn [reads_stmt] in *; nf; rewrite ?app_nil_r; try assumption. rd.
  Qed.

  Lemma knot_s n : rspec (knot n).
  Proof.
    induction n as [|n IH]; [constructor; intros; exact I|].
    constructor; cbn [knot r_stmt r_query r_body r_subexpr r_tref]; intros.
    - apply parse_statement_s, IH.
    - apply parse_query_s, IH.
    - apply parse_query_body_s; assumption.
    - apply parse_subexpr_s; assumption.
    - apply parse_table_reference_s, IH.
  Qed.

  Lemma parse_sql_s pc r t : rspec r ->
    wl (parse_sql pc r) (fun l d t' => reads_file L l (rev d) /\ t' = []) [] t.
  Proof.
    intros HR. unfold parse_sql. set (P := fun s => reads_stmt L s >> sym Semicolon).
    apply wlp_loop with (Inv := fun s d _ =>
      if snd s : bool then exists u v a l, fst s = a :: l /\ rev d = u ++ v /\
                             (opt (sym Semicolon) >> many (map P (rev l))) u /\ reads_stmt L a v
      else fst s = [] /\ d = []).
    2:{ split; reflexivity. }
    intros [acc ex] d t1 HI. cbn [fst snd] in HI. apply wlp_bind.
    assert (HC : forall (ok : bool) d1 t2, negb ok && ex = false ->
      (opt (sym Semicolon) >> many (map P (rev acc))) (rev d1) ->
      wl (if negb ok && ex then Err
       else
         more <- (if pc
                  then Next (fun o => match o with None => Ret false | Some _ => prev ;;; Ret true end)
                  else Peek (fun o => Ret (match o with None => false | Some _ => true end))) ;;
         if more : bool then s <- parse_statement r ;; Ret (inl (s :: acc, true))
         else Ret (inr (rev acc)))
       (fun r0 d' t' => match r0 with
          | inl s => if snd s : bool then exists u v a l, fst s = a :: l /\ rev d' = u ++ v /\
                             (opt (sym Semicolon) >> many (map P (rev l))) u /\ reads_stmt L a v
                     else fst s = [] /\ d' = []
          | inr a => reads_file L a (rev d') /\ t' = []
          end) d1 t2).
    { intros ok d1 t2 E H. rewrite E. apply wlp_bind.
      assert (HS : wl (s <- parse_statement r ;; Ret (inl (s :: acc, true)))
       (fun r0 d' t' => match r0 with
          | inl s => if snd s : bool then exists u v a l, fst s = a :: l /\ rev d' = u ++ v /\
                             (opt (sym Semicolon) >> many (map P (rev l))) u /\ reads_stmt L a v
                     else fst s = [] /\ d' = []
          | inr a => reads_file L a (rev d') /\ t' = []
          end) d1 t2).
      { apply wlp_bind. eapply wlp_call; [apply parse_statement_s, HR|]. cbn beta. intros s d2 t3 Hs Et. cbn [wlp snd fst].
        exists (rev d1), (rev d2), s, acc. rewrite rev_app_distr. auto. }
      destruct pc; destruct t2 as [|x t2]; cbn [wlp bind prev]; auto. }
    apply wl_consume.
    - intros _. destruct ex; [exact I|]. destruct HI as [-> ->]. apply HC; [reflexivity|]. exists [], []. repeat split. left. reflexivity.
    - intros x t' -> Hx Kx. apply HC; [reflexivity|]. cbn [rev]. destruct ex.
      + destruct HI as (u & v & a & l & -> & -> & Hu & Hv). cbn [rev]. rewrite map_app.
        destruct Hu as (u1 & u2 & -> & H1 & H2). rewrite <- !app_assoc. apply cat_app; [exact H1|].
        apply many_app; [exact H2|]. apply many_one. apply cat_app; [exact Hv|]. apply sym_tok, Kx.
      + destruct HI as [-> ->]. exists [x], []. repeat split. right. apply sym_tok, Kx.
  Qed.
End Sound.
