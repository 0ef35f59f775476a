(** Positions of nodes of any kind (C44). *)
From Coq Require Import ZArith List Bool String Lia.
From Verif Require Import Base Dialect Token Lexer LexSpec LexFacts LexPos LexThms AST Num Nodes Prog Parser ParseSpec CommentSpec CommentThms
  ApiThms PosEnd CommentMap MapSpec MapThms Grammar Sound Slices GrammarThms SpanSpec SpanThms ExtentSpec.
Import ListNotations.
Open Scope list_scope.
Open Scope Z_scope.

(** Ends up to what is dropped. *)
Definition fin (P : lang) (p : option pos) : Prop :=
  forall ts, Forall star_width ts -> P ts ->
    exists ts' u, ts = ts' ++ u /\ left_over u /\ last_to ts' = p /\ p <> None.

Lemma left_nil : left_over [].
Proof. left. reflexivity. Qed.
Lemma n_f P p : finishes P p -> fin P p.
Proof. intros H ts _ R. destruct (H ts R) as [E N]. exists ts, []. rewrite app_nil_r. auto using left_nil. Qed.
Lemma n_cat (P Q : lang) p : fin Q p -> fin (P >> Q) p.
Proof.
  intros H ts W (u & v & -> & _ & Hv). rewrite Forall_app in W. destruct (H v ltac:(tauto) Hv) as (ts' & w & -> & Hw & E & N).
  exists (u ++ ts'), w. rewrite app_assoc. repeat (split; [solve [auto]|]). split; [|exact N]. destruct p; [|congruence]. apply last_app, E.
Qed.
Lemma n_given (c : Prop) (P : lang) p : (c -> fin P p) -> fin (c ?? P) p.
Proof. intros H ts W [Hc Ht]. apply H; auto. Qed.
Lemma n_alt (P Q : lang) p : fin P p -> fin Q p -> fin (P <|> Q) p.
Proof. intros H1 H2 ts W [H|H]; auto. Qed.
Lemma n_eps (P : lang) p : fin P p -> fin (P >> eps) p.
Proof. intros H ts W (u & v & -> & Hu & ->). rewrite app_nil_r in *. apply H; auto. Qed.
Lemma n_sep {A} (s : lang) (P : A -> lang) f l : (forall l' a, l = l' ++ [a] -> fin (P a) (f a)) -> fin (sep_by s (map P l)) (last_end f l).
Proof.
  induction l as [|a l IH]; intros H; [intros ts _ []|]. cbn [map sep_by last_end]. destruct l as [|b l].
  - apply (H [] a eq_refl).
  - apply n_cat, n_cat, IH. intros l' x E. apply (H (a :: l') x). rewrite E. reflexivity.
Qed.
Lemma ends_at_last {A} (P : A -> Prop) l : ends_with P l -> forall l' a, l = l' ++ [a] -> P a.
Proof. intros (l1 & a1 & -> & H) l' a E. apply app_inj_tail in E. destruct E as [_ <-]. exact H. Qed.
Lemma n_ends {A} (s : lang) (P : A -> lang) f (Q : A -> Prop) l : (forall a, Q a -> fin (P a) (f a)) -> ends_with Q l ->
  fin (sep_by s (map P l)) (last_end f l).
Proof. intros H E. apply n_sep. intros l' a El. apply H, (ends_at_last _ _ E l' a El). Qed.
Lemma many_app a b ts : many (a ++ b) ts -> (many a >> many b) ts.
Proof.
  revert ts. induction a as [|P a IH]; intros ts; cbn [app many].
  - intros H. exists [], ts. repeat split; auto.
  - intros (u & v & -> & Hu & Hv). destruct (IH _ Hv) as (v1 & v2 & -> & H1 & H2).
    exists (u ++ v1), v2. rewrite app_assoc. repeat split; auto. exists u, v1. auto.
Qed.
Lemma last_end_app {A} (f : A -> option pos) l a : last_end f (l ++ [a]) = f a.
Proof.
  induction l as [|x l IH]; [reflexivity|]. cbn [app last_end]. rewrite IH. destruct (l ++ [a]) eqn:E; [destruct l; discriminate|reflexivity].
Qed.

Section Extents.
  Variable L : defect -> Prop.

  Ltac bk := match goal with |- begins _ _ =>
    first [apply b_given; intros ?; bk | apply b_cat; bk | apply b_alt; bk | apply b_tok; cbv beta; intros ? ?; intuition congruence] end.
  Ltac fk := match goal with |- finishes _ _ =>
    first [apply f_given; intros ?; fk | apply f_alt; fk | apply f_cat; fk | apply f_tok; cbv beta; intros ? ?; intuition congruence] end.

  Lemma b_word i : begins (word i) (pos_ident i).
  Proof. apply b_tok. intros t (w & _ & ->). reflexivity. Qed.
  Lemma f_word i : finishes (word i) (end_ident i).
  Proof. apply f_tok. intros t (w & _ & ->). reflexivity. Qed.
  Lemma b_name n : begins (name n) (pos_name n). Proof. apply b_dots. Qed.
  Lemma f_name n : finishes (name n) (end_name n). Proof. apply f_dots. Qed.
  Lemma n_node e : knows_end e -> fin (reads_node L e) (end_node e).
  Proof. intros K ts W R. destruct (ends_at L e K ts W R) as [E N]. exists ts, []. rewrite app_nil_r. auto using left_nil. Qed.

  (* ---------------------------------------------------------------- *)
  (** ** Starts *)

  Lemma bs_type t : type_start t -> begins (reads_dtype L t) (pos_dtype t).
  Proof.
    destruct t; cbn [type_start reads_dtype pos_dtype]; intros K; try contradiction; try (intros ? []; fail); try solve [bk].
    - match goal with |- begins (match ?p with _ => _ end) _ => destruct p end; [bk|intros ? []].
    - apply b_name.
  Qed.
  Lemma bs_set s : set_start s -> begins (reads_setexpr L s) (pos_set s).
  Proof.
    induction s; intros K; rewrite reads_setexpr_eq; apply b_given; intros _; cbn [set_start pos_set] in *.
    - rewrite reads_select_eq. destruct s. cbn [pos_select]. bk.
    - contradiction.
    - apply b_cat; auto.
  Qed.
  Lemma bs_query q : query_start q -> begins (reads_query L q) (pos_query q).
  Proof.
    rewrite reads_query_eq. destruct q. intros [-> K]. cbn [pos_query]. apply b_given. intros _. unfold clause at 1. apply b_eps, b_cat, bs_set, K.
  Qed.
  Lemma bs_item i : item_start i -> begins (reads_selitem L i) (pos_item i).
  Proof.
    rewrite reads_selitem_eq. destruct i; cbn [item_start pos_item]; intros K.
    - apply starts_at, K.
    - apply b_cat, starts_at, K.
    - apply b_cat, b_name.
    - bk.
  Qed.
  Lemma bs_ref t : ref_start t -> begins (reads_tableref L t) (pos_ref t).
  Proof.
    induction t; intros K; rewrite reads_tableref_eq; cbn [ref_start pos_ref] in *; try solve [apply b_cat; auto].
    - apply b_given. intros _. apply b_cat, b_name.
    - contradiction.
  Qed.
  Lemma bs_win w : win_start w -> begins (reads_win L w) (pos_win w).
  Proof.
    rewrite reads_win_eq. destruct w as [p o f pp po]. cbn [win_start pos_win]. destruct p; [|intros _; apply b_cat; bk].
    destruct o; [intros [K|K]; contradiction|]. intros _. intros ts (u & v & -> & (_ & ->) & H). revert v H. apply b_cat. bk.
  Qed.

  (* ---------------------------------------------------------------- *)
  (** ** Ends *)

  Lemma ne_type t : type_end t -> finishes (reads_dtype L t) (end_dtype t).
  Proof.
    assert (U : forall (P : lang) u up q, finishes P (Some q) -> finishes (P >> Grammar.unsigned u up) (Some (if u then up else q))).
    { intros P u up q H. unfold Grammar.unsigned. destruct u; [fk|]. intros ts (a & b & -> & Ha & _ & ->). rewrite app_nil_r. apply H, Ha. }
    assert (Z : forall (P : lang) n p q, finishes P (Some q) -> finishes (P >> size_to n p) (Some match n with Some _ => p | None => q end)).
    { intros P n p q H. unfold size_to. destruct n; [unfold parens_to; fk|]. intros ts (a & b & -> & Ha & _ & ->). rewrite app_nil_r. apply H, Ha. }
    destruct t; cbn [type_end reads_dtype end_dtype]; intros K; try contradiction; try (intros ? []; fail); try solve [fk].
    - apply Z. fk.
    - intros ts [[-> R]|R].
      + destruct size.
        { assert (F : finishes (kwd_from "VARCHAR" character >> size_to (Some z) rparen) (Some rparen)) by (unfold size_to, parens_to; fk). exact (F ts R). }
        exfalso. destruct K as [K|K]; [congruence|discriminate].
      + destruct R as (u & v & -> & _ & R). destruct (Z (kwd_to "VARYING" varying) size rparen varying ltac:(unfold kwd_to; fk) v R) as [E N]. split; [|exact N]. apply last_app, E.
    - destruct precision; [|intros ? []]. intros ts (a & b & -> & Ha & Hb).
      destruct (U (parens_to (int z >> may scale (fun y => sym Comma >> int y)) rparen) _ _ rparen ltac:(unfold parens_to; fk) b Hb) as [E N]. split; [|exact N]. apply last_app, E.
    - intros ts (a & b & -> & Ha & (c & e & -> & Hc & He)).
      assert (H : ((kwd_at "FLOAT" from to >> size_to size rparen) >> Grammar.unsigned unsigned unsigned_pos) ((a ++ c) ++ e)).
      { exists (a ++ c), e. repeat split; auto. exists a, c. auto. }
      rewrite app_assoc. revert H. apply U, Z. fk.
    - apply U. fk.
    - apply U. fk.
    - destruct unsigned; [fk|]. apply f_eps. fk.
    - apply U. fk.
    - apply f_name.
  Qed.
  Lemma ne_order o : order_end o -> fin (reads_orderby L o) (end_order o).
  Proof.
    rewrite reads_orderby_eq. destruct o. intros [-> K]. cbn [end_order]. apply n_given. intros _. apply n_eps, n_node, K.
  Qed.
  Lemma ne_win w : win_end w -> fin (reads_win L w) (end_win w).
  Proof.
    rewrite reads_win_eq. destruct w as [p o f pp po]. intros [-> K]. cbn [end_win may]. destruct o as [|x o].
    - intros ts W (u & v & -> & Hu & (v1 & v2 & -> & (_ & ->) & ->)). cbn [app] in *. rewrite app_nil_r in *.
      destruct p as [|y p]; [destruct K as ([|? ?] & ? & E & _); discriminate|]. revert u W Hu.
      change (fin (kwd_from "PARTITION" pp >> kwd "BY" >> sep_by (sym Comma) (map (reads_node L) (y :: p))) (last_end end_node (y :: p))).
      apply n_cat, n_cat, (n_ends _ _ _ _ _ n_node K).
    - apply n_cat, n_eps, n_cat, n_cat, (n_ends _ _ _ _ _ ne_order K).
  Qed.
  Lemma ne_limit l : limit_end l -> fin (reads_limit l) (end_limit l).
  Proof.
    intros [K1 K2]. unfold reads_limit, end_limit. rewrite K2. destruct (lim_value l); [|congruence].
    apply n_given. intros _. apply n_eps, n_f. unfold long_int. fk.
  Qed.
  Lemma ne_item i : item_end i -> fin (reads_selitem L i) (end_item i).
  Proof.
    rewrite reads_selitem_eq. destruct i; cbn [item_end end_item]; intros K; try contradiction.
    - apply n_node, K.
    - apply n_cat, n_cat, n_f, f_word.
    - apply n_f. unfold sym_at. fk.
  Qed.
  Lemma ne_spec s : spec_end s -> fin (reads_joinspec L s) (end_spec s).
  Proof. rewrite reads_joinspec_eq. destruct s; intros K; [contradiction|]. cbn [end_spec]. apply n_cat, n_node, K. Qed.
  Lemma ne_ref t : ref_end t -> fin (reads_tableref L t) (end_ref t).
  Proof.
    induction t; intros K; rewrite reads_tableref_eq; cbn [ref_end end_ref] in *.
    - destruct K as [-> K]. apply n_given. intros _. destruct alias.
      + apply n_cat, n_cat, n_eps. unfold table_alias. apply n_cat, n_f, f_word.
      + destruct K as [K| ->]; [congruence|]. intros ts _ (u & v & -> & Hu & (v1 & v2 & -> & H1 & (v3 & v4 & -> & H2 & H3))).
        unfold clause, eps in H3. subst v4. rewrite app_nil_r. destruct (f_name _ u Hu) as [E N]. exists u, (v1 ++ v3). split; [reflexivity|]. split; [|auto].
        assert (A : v3 = [] \/ exists t, v3 = [t] /\ spells "AS" t). { destruct H2 as [->|(_ & t & -> & H)]; eauto. }
        assert (B : v1 = [] \/ exists t, v1 = [t] /\ tkind t = LParen).
        { destruct H1 as [(_ & ->)|(_ & a & b & -> & (t & -> & H) & ->)]; [auto|]. right. exists t. auto. }
        unfold left_over. destruct A as [->|(t & -> & A)], B as [->|(t' & -> & B)]; cbn [app]; eauto 10.
    - apply n_given. intros _. destruct alias; [|congruence]. apply n_cat, n_cat, n_cat, n_f, f_word.
    - apply n_cat, n_cat, n_cat; auto.
    - apply n_cat, n_cat, n_cat, n_cat, ne_spec, K.
    - apply n_cat, n_cat, n_cat, n_cat; auto.
  Qed.
  Lemma ne_select s : select_end s -> fin (reads_select L s) (end_select s).
  Proof.
    rewrite reads_select_eq. destruct s as [d p f w g h ?]. cbn [select_end end_select]. intros K. apply n_cat, n_cat.
    destruct h as [e|]. { do 5 apply n_cat. apply n_node, K. }
    destruct g as [|e g].
    2: { apply n_cat, n_cat, n_cat, n_eps. apply n_cat, (n_ends _ _ _ _ _ n_node K). }
    destruct w as [e|]. { apply n_cat, n_cat. intros ts W (u & v & -> & Hu & (v1 & v2 & -> & H1 & H2)).
      unfold clause, eps in H1, H2. subst v1 v2. rewrite app_nil_r in *. revert u W Hu. apply n_cat, n_node, K. }
    assert (E : forall P : lang, forall q, fin P q -> fin (P >> eps >> clause ["GROUP"; "BY"]%string (@nil node) (sep_by (sym Comma) (map (reads_node L) [])) >> eps) q).
    { intros P q H ts W (u & v & -> & Hu & (v1 & v2 & -> & H1 & (v3 & v4 & -> & H2 & H3))).
      unfold clause, eps in H1, H2, H3. subst v1 v3 v4. rewrite ?app_nil_r in *. auto. }
    destruct f as [|t f].
    - intros ts W (u & v & -> & Hu & (v1 & v2 & -> & H1 & H2)). unfold clause at 1 in H1. red in H1. subst v1. cbn [app] in *.
      apply (E _ _ (n_ends (sym Comma) _ _ _ _ ne_item K)); [exact W|]. exists u, v2. auto.
    - apply n_cat, E. unfold clause. apply n_cat, (n_ends _ _ _ _ _ ne_ref K).
  Qed.
  Lemma ne_set s : set_end s -> fin (reads_setexpr L s) (end_set s).
  Proof.
    induction s; intros K; rewrite reads_setexpr_eq; apply n_given; intros _; cbn [set_end end_set] in *.
    - apply ne_select, K.
    - contradiction.
    - apply n_cat, n_cat, n_cat; auto.
  Qed.
  Lemma ne_query q : query_end q -> fin (reads_query L q) (end_query q).
  Proof.
    rewrite reads_query_eq. destruct q as [p c b o l]. cbn [query_end end_query]. intros K. apply n_given. intros _. apply n_cat.
    destruct l as [l|]. { apply n_cat, n_cat. cbn [may]. apply n_cat, ne_limit, K. }
    destruct o as [|x o].
    - intros ts W (u & v & -> & Hu & (v1 & v2 & -> & H1 & H2)). unfold clause, may, eps in H1, H2. subst v1 v2. rewrite app_nil_r in *.
      apply ne_set; auto.
    - apply n_cat. cbn [may]. apply n_eps. unfold clause. apply n_cat, (n_ends _ _ _ _ _ ne_order K).
  Qed.

  (* ---------------------------------------------------------------- *)
  (** ** Statements *)

  Lemma b_row r : begins (reads_row L r) (pos_row r). Proof. unfold reads_row, pos_row. bk. Qed.
  Lemma f_row r : finishes (reads_row L r) (end_row r). Proof. unfold reads_row, end_row. fk. Qed.
  Lemma bs_source s : start_known (ASource s) -> begins (reads_source L s) (pos_source s).
  Proof. destruct s; intros K; [apply bs_query, K|contradiction]. Qed.
  Lemma ne_source s : source_end s -> fin (reads_source L s) (end_source s).
  Proof.
    destruct s; intros K; [apply ne_query, K|]. cbn [reads_source end_source]. apply n_given. intros _.
    apply n_cat. unfold commas. apply n_sep. intros. apply n_f, f_row.
  Qed.
  Lemma b_assign a : begins (reads_assign L a) (pos_assign a). Proof. apply b_cat, b_word. Qed.
  Lemma ne_assign a : assign_end a -> fin (reads_assign L a) (end_assign a).
  Proof. intros K. apply n_cat, n_cat, n_node, K. Qed.
  Lemma b_refkey k : begins (reads_refkey L k) (pos_refkey k). Proof. apply b_cat, b_word. Qed.
  Lemma f_refkey k : finishes (reads_refkey L k) (end_refkey k). Proof. unfold reads_refkey, parens_to, end_refkey. fk. Qed.
  Lemma b_tspec s : begins (reads_tcspec L s) (pos_tspec s).
  Proof. destruct s as [[]| |]; cbn [reads_tcspec pos_tspec]; bk. Qed.
  Lemma f_tspec s : finishes (reads_tcspec L s) (end_tspec s).
  Proof. destruct s as [[]| |]; cbn [reads_tcspec end_tspec]; unfold parens_to; try solve [fk]. Qed.
  Lemma b_tcons c : begins (reads_tcons L c) (pos_tcons c).
  Proof.
    unfold reads_tcons, pos_tcons. destruct (tc_name c); [bk|]. intros ts (u & v & -> & (_ & ->) & H). apply b_tspec, H.
  Qed.
  Lemma f_tcons c : finishes (reads_tcons L c) (end_tcons c). Proof. apply f_cat, f_tspec. Qed.
  Lemma b_cspec s : begins (reads_ccspec L s) (pos_cspec s).
  Proof. destruct s as [|[]| |]; cbn [reads_ccspec pos_cspec]; bk. Qed.
  Lemma ne_cspec s : cspec_end s -> finishes (reads_ccspec L s) (end_cspec s).
  Proof. destruct s as [|[]| |]; cbn [reads_ccspec end_cspec cspec_end]; intros K; try contradiction; unfold parens_to; fk. Qed.
  Lemma ne_ccons c : cspec_end (cc_spec c) -> finishes (reads_ccons L c) (end_ccons c).
  Proof. intros K. unfold reads_ccons. apply f_given. intros _. apply f_cat, ne_cspec, K. Qed.
  Lemma ne_col c : col_end c -> fin (reads_columndef L c) (end_col c).
  Proof.
    intros (Hd & Hr & Hc). apply n_cat, n_cat. intros ts W (parts & R & [Kd _] & (g & [Kg _] & Eg) & Dr & _).
    rewrite Hd in Kd. rewrite Hr in Dr. destruct Hc as (l & x & El & Kx).
    assert (A : forall p, In p parts -> exists c, p = CConstraints c).
    { intros [e|c'|d] I; [|eauto|].
      - exfalso. assert (J : In e (defaults parts)). { unfold defaults. apply in_flat_map. exists (CDefault e). split; [exact I|left; reflexivity]. }
        destruct (defaults parts) as [|y dl]; [exact J|]. cbn [rev] in Kd. destruct (rev dl); discriminate.
      - exfalso. assert (J : In d (decors parts)). { unfold decors. apply in_flat_map. exists (CDecor d). split; [exact I|left; reflexivity]. }
        rewrite Dr in J. exact J. }
    destruct (rev parts) as [|p r] eqn:Er.
    { apply (f_equal (@rev _)) in Er. rewrite rev_involutive in Er. subst parts. cbn in Kg. subst g. rewrite Eg in El. destruct l; discriminate. }
    apply (f_equal (@rev _)) in Er. rewrite rev_involutive in Er. cbn [rev] in Er.
    destruct (A p) as (cl & ->). { rewrite Er. apply in_or_app. right. left. reflexivity. }
    assert (Ecl : cl = l ++ [x]).
    { rewrite Er in Kg. unfold groups in Kg. rewrite flat_map_app, rev_app_distr in Kg. cbn in Kg. subst g. congruence. }
    subst cl. rewrite Er, map_app in R. destruct (many_app _ _ _ R) as (u & v & -> & _ & Hv). cbn [map many] in Hv.
    destruct Hv as (v1 & v2 & -> & Hv & E2). red in E2. subst v2. rewrite app_nil_r in *.
    destruct Hv as [_ (w1 & w2 & -> & H1 & H2)]. rewrite map_app in H1. destruct (many_app _ _ _ H1) as (y1 & y2 & -> & _ & H3).
    cbn [map many] in H3. destruct H3 as (y3 & y4 & -> & H3 & E4). red in E4. subst y4. rewrite app_nil_r in *.
    destruct (ne_ccons x Kx y3 H3) as [E N]. exists (u ++ y1 ++ y3), w2. rewrite !app_assoc. split; [reflexivity|]. split.
    - destruct H2 as [->|(_ & a & b & -> & (t & -> & Ha) & (t' & -> & _))]; [apply left_nil|]. right. right. exists t, t'. auto.
    - unfold end_col. rewrite El, last_end_app. split; [|exact N]. destruct (end_ccons x); [|congruence]. apply last_app, E.
  Qed.
  Lemma ne_colact a : colact_end a -> fin (reads_colaction L a) (end_colact a).
  Proof.
    destruct a; cbn [colact_end reads_colaction end_colact]; intros K; try solve [apply n_f; fk].
    - apply n_cat, n_cat, n_node, K.
    - apply n_cat, n_f, ne_type, K.
  Qed.
  Lemma b_colact a : begins (reads_colaction L a) (pos_colact a).
  Proof. destruct a; cbn [reads_colaction pos_colact]; bk. Qed.
  Lemma f_casc (P : lang) b q e : finishes P e -> finishes (P >> cascade b q) (if b then Some q else e).
  Proof.
    intros H. unfold cascade. destruct b; [fk|]. intros ts (u & v & -> & Hu & (_ & ->)). rewrite app_nil_r. apply H, Hu.
  Qed.
  Lemma n_casc (P : lang) b q e : fin P e -> fin (P >> cascade b q) (if b then Some q else e).
  Proof.
    intros H. unfold cascade. destruct b; [apply n_f; fk|]. intros ts W (u & v & -> & Hu & (_ & ->)). rewrite app_nil_r in *. apply H; auto.
  Qed.
  Lemma b_action a : begins (reads_action L a) (pos_action a).
  Proof. destruct a; cbn [reads_action pos_action]; bk. Qed.
  Lemma ne_action a : action_end a -> fin (reads_action L a) (end_action a).
  Proof.
    destruct a; cbn [action_end reads_action end_action]; intros K.
    - apply n_cat, n_cat, ne_col, K.
    - apply n_cat, n_cat, n_cat, ne_colact, K.
    - apply n_cat, n_cat, n_f, f_casc, f_word.
    - apply n_cat, n_f, f_tcons.
    - apply n_cat, n_cat, n_f, f_casc, f_word.
  Qed.
  Lemma b_option o : begins (reads_option o) (pos_option o).
  Proof.
    destruct o as [|[]]; cbn [reads_option pos_option]; try solve [bk]. intros ts (u & v & -> & (_ & ->) & H). revert v H.
    apply b_cat. bk.
  Qed.
  Lemma f_option o : finishes (reads_option o) (end_option o).
  Proof. destruct o; cbn [reads_option end_option]; unfold option_value; repeat apply f_cat; apply f_word. Qed.
  Lemma bs_stmt s : stmt_start s -> begins (reads_stmt L s) (pos_stmt s).
  Proof. destruct s; cbn [stmt_start reads_stmt pos_stmt]; intros K; try contradiction; try solve [bk]. apply bs_query, K. Qed.
  Lemma n_where e : knows_end e -> fin (where_clause L (Some e)) (end_node e).
  Proof. intros K. apply n_cat, n_node, K. Qed.
  Lemma ne_stmt s : stmt_end s -> fin (reads_stmt L s) (end_stmt s).
  Proof.
    induction s; cbn [stmt_end reads_stmt end_stmt]; intros K; try contradiction.
    - apply ne_query, K.
    - do 4 apply n_cat. destruct updates as [|a l].
      + unfold clause. apply n_eps, ne_source, K.
      + apply n_cat. unfold clause, commas. apply n_cat, (n_ends _ _ _ _ _ ne_assign K).
    - do 3 apply n_cat. destruct selection.
      + apply n_cat, n_where, K.
      + apply n_eps, (n_ends _ _ _ _ _ ne_assign K).
    - do 2 apply n_cat. destruct selection; [apply n_cat, n_where, K|apply n_eps, n_f, f_name].
    - do 5 apply n_cat. apply ne_query, K.
    - do 3 apply n_cat. apply ne_action, K.
    - do 3 apply n_cat. apply n_casc. unfold commas. apply n_sep. intros. apply n_f, f_name.
    - apply n_given. intros _. do 5 apply n_cat. destruct selection; [|contradiction]. do 2 apply n_cat. apply n_where, K.
    - do 2 apply n_cat. unfold words. apply n_sep. intros. apply n_f, f_word.
    - apply n_given. intros _. apply n_cat; auto.
  Qed.
End Extents.

(* ------------------------------------------------------------------ *)
(** ** Any node *)

Lemma node_spans L z ts : Forall star_width ts -> Grammar.reads L z ts -> spans z ts \/ offset_number z ts.
Proof.
  intros W R.
  assert (B : forall P p, begins P p -> P ts -> p = first_from ts /\ ts <> []).
  { intros P p H Hp. destruct (H ts Hp) as [E N]. split; [auto|]. intros ->. apply N. rewrite <- E. reflexivity. }
  assert (F : forall P p, fin P p -> P ts -> exists ts' u, ts = ts' ++ u /\ left_over u /\ p = last_to ts' /\ ts' <> []).
  { intros P p H Hp. destruct (H ts W Hp) as (ts' & u & -> & Hu & E & N). exists ts', u. repeat (split; [solve [auto]|]).
    intros ->. apply N. rewrite <- E. reflexivity. }
  destruct z.
  2: { destruct (extent_any L e ts W R) as [[H1 H2]|H]; [left|right; exists e; auto]. split; intros K; [auto|].
    destruct (H2 K) as [E N]. exists ts, []. rewrite app_nil_r. auto using left_nil. }
  all: try solve [left; split; intros []]. all: try (left; split; intros K; [eapply B; [|exact R]|eapply F; [|exact R]]; cbn [start_known end_known Pos End Grammar.reads] in *); try contradiction.
  - apply b_name.
  - apply n_f, f_name.
  - apply b_alt.
    + unfold operator_tokens. destruct (op_type o); try solve [intros ? []]; try (apply b_tok; intuition congruence). apply b_cat, b_tok. intuition.
    + intros ts' (p & H). unfold prefix_token in H. destruct (op_type o); try contradiction; try congruence; destruct H as [<- H];
        revert ts' H; apply b_tok; intuition.
  - destruct K as [K1 K2]. apply n_f, f_alt.
    + unfold operator_tokens. destruct (op_type o); try solve [intros ? []]; try congruence; apply f_tok; intuition congruence.
    + intros ts' (p & H). unfold prefix_token in H. destruct (op_type o); try contradiction; try congruence; destruct H as [_ H];
        revert ts' H; apply f_tok; intuition.
  - apply bs_win, K.
  - apply ne_win, K.
  - rewrite reads_orderby_eq. destruct o. cbn [pos_order]. apply b_given. intros _. apply b_cat, starts_at, K.
  - apply ne_order, K.
  - apply bs_query, K.
  - apply ne_query, K.
  - rewrite reads_cte_eq. destruct c. cbn [pos_cte]. apply b_given. intros _. apply b_cat, b_word.
  - apply bs_set, K.
  - apply ne_set, K.
  - apply bs_item, K.
  - apply ne_item, K.
  - apply bs_ref, K.
  - apply ne_ref, K.
  - apply bs_ref, K.
  - apply ne_ref, K.
  - unfold reads_jointype. assert (N : forall P, jt_from j = pos0 /\ jt_to j = pos0 -> begins P (Some (jt_from j))) by (intros P [E _]; rewrite E in K; discriminate).
    destruct (jt_cond j); try (apply b_given; intros E; apply N, E).
    + apply b_alt; [apply b_tok; intuition|apply b_given; intros E; apply N, E].
    + apply b_tok. intuition.
    + apply b_cat, b_tok. intuition.
  - destruct K as [K C]. unfold reads_jointype. apply n_f.
    assert (N : forall P, jt_from j = pos0 /\ jt_to j = pos0 -> finishes P (Some (jt_to j))) by (intros P [_ E]; rewrite E in K; discriminate).
    destruct (jt_cond j); try congruence; try (apply f_given; intros E; apply N, E).
    + apply f_alt; [apply f_tok; intuition|apply f_given; intros E; apply N, E].
    + apply f_tok. intuition.
  - rewrite reads_joinspec_eq. destruct s; [contradiction|]. cbn [pos_spec]. apply b_cat, b_tok. intuition.
  - apply ne_spec, K.
  - apply ne_limit, K.
  - apply bs_type, K.
  - apply n_f, ne_type, K.
  - apply bs_stmt, K.
  - apply ne_stmt, K.
  - apply bs_source, K.
  - apply ne_source, K.
  - apply b_row.
  - apply n_f, f_row.
  - apply b_assign.
  - apply ne_assign, K.
  - destruct e; cbn [reads_element pos_elem]; [apply b_cat, b_word|apply b_tcons].
  - destruct e; cbn [reads_element end_elem]; [apply ne_col, K|apply n_f, f_tcons].
  - apply b_tspec.
  - apply n_f, f_tspec.
  - apply b_refkey.
  - apply n_f, f_refkey.
  - apply n_f, ne_ccons, K.
  - apply b_cspec.
  - apply n_f, ne_cspec, K.
  - apply b_action.
  - apply ne_action, K.
  - apply b_colact.
  - apply ne_colact, K.
  - apply b_option.
  - apply n_f, f_option.
  - apply b_tok. intuition.
  - apply n_f, f_tok. intuition.
Qed.

(* ------------------------------------------------------------------ *)
(** ** Texts *)

Lemma allows_anything toks : allows anything toks.
Proof. intros a t b k _ _; exact Logic.I. Qed.

Lemma stmt_spans done todo s st : Forall tok_wf todo -> Forall placed todo -> Forall star_width todo ->
  call parse_statement done todo = Ok s st ->
  exists used, sig todo = used ++ sig (snd st) /\
    forall z, within (of_stmt s) z -> in_text z -> exists a ts b, used = a ++ ts ++ b /\ Grammar.reads anything z ts /\ (spans z ts \/ offset_number z ts).
Proof.
  intros W P S E. destruct (stmt_reads anything done todo s st (good_anything _ W P) E) as (used & E1 & R).
  assert (S' : Forall star_width used). { apply sig_star in S. rewrite E1, Forall_app in S. apply S. }
  exists used. split; [exact E1|].
  intros z I T. destruct (reads_within anything _ _ I T) as [_ H].
  destruct (H used (of_stmt_reads _ _ _ R)) as (a & ts & b & -> & R'). exists a, ts, b. split; [reflexivity|]. split; [exact R'|].
  rewrite !Forall_app in S'. eapply node_spans; [apply S'|exact R'].
Qed.

(** A node and a part of it. *)
Lemma file_spans d src f : dialect_ok d -> parse_file d src = ROk f ->
  exists toks, tokenize d true src = TOk toks /\
    forall x, within (AFile f) x -> in_text x ->
      exists a ts b, sig toks = a ++ ts ++ b /\ Grammar.reads anything x ts /\ (spans x ts \/ offset_number x ts) /\
        forall z, within x z -> in_text z ->
          exists a' ts' b', ts = a' ++ ts' ++ b' /\ Grammar.reads anything z ts' /\ (spans z ts' \/ offset_number z ts').
Proof.
  intros D E. destruct (file_reads anything d src f D E) as (toks & ET & R). exists toks. split; [exact ET|].
  intros x I T. destruct (reads_within anything _ _ I T) as [_ H].
  destruct (H _ (R (allows_anything _))) as (a & ts & b & Es & R'). exists a, ts, b. split; [exact Es|]. split; [exact R'|].
  pose proof (sig_star _ (star_widths d src toks D ET)) as S'. rewrite Es, !Forall_app in S'.
  split; [eapply node_spans; [apply S'|exact R']|].
  intros z I' T'. destruct (reads_within anything _ _ I' T') as [_ H'].
  destruct (H' _ R') as (a' & ts' & b' & -> & R''). exists a', ts', b'. split; [reflexivity|]. split; [exact R''|].
  rewrite !Forall_app in S'. eapply node_spans; [apply S'|exact R''].
Qed.

(** Tokens in reading order. *)
Definition ordered (l : list token) : Prop :=
  (forall t, In t l -> before (tfrom t) (tto t)) /\
  forall a t b u, l = a ++ t :: b -> In u b -> before (tfrom t) (tfrom u) /\ (tto t = tfrom u \/ before (tto t) (tfrom u)).

Lemma tile_order d p text l rest : LexSpec.reads d p text l rest -> forall u, In u (map fst l) -> p = tfrom u \/ before p (tfrom u).
Proof.
  intros R. induction R as [p text|p q s text k v l rest H1 H2 H3 IH]; intros u; cbn [map fst]; [intros []|].
  intros [<-|I]; [left; reflexivity|]. right. pose proof (token_end_before _ _ _ _ _ p H1) as B. rewrite <- H2 in B.
  destruct (IH u I) as [<-|B2]; [exact B|]. eapply before_trans; eauto.
Qed.
Lemma reads_ordered d p text l rest : LexSpec.reads d p text l rest -> ordered (map fst l).
Proof.
  intros R. split; [intros; eapply reads_before; eauto|].
  induction R as [p text|p q s text k v l rest H1 H2 H3 IH]; intros a t b u; cbn [map fst]; [destruct a; discriminate|].
  intros E I. destruct a as [|x a]; cbn [app] in E; [|injection E as _ E; eapply IH; eauto].
  injection E as <- <-. cbn [tfrom tto]. pose proof (token_end_before _ _ _ _ _ p H1) as B. rewrite <- H2 in B.
  pose proof (tile_order _ _ _ _ _ H3 u I) as C. split; [|exact C]. destruct C as [<-|C]; [exact B|]. eapply before_trans; eauto.
Qed.
Lemma filter_split {A} (f : A -> bool) l a t b : filter f l = a ++ t :: b ->
  exists a' b', l = a' ++ t :: b' /\ b = filter f b'.
Proof.
  revert a. induction l as [|x l IH]; intros a; cbn [filter]; [destruct a; discriminate|]. destruct (f x).
  - destruct a as [|y a]; cbn [app]; intros E; injection E as -> E.
    + exists [], l. auto.
    + destruct (IH a E) as (a' & b' & -> & H). exists (y :: a'), b'. auto.
  - intros E. destruct (IH a E) as (a' & b' & -> & H). exists (x :: a'), b'. auto.
Qed.
Lemma sig_ordered l : ordered l -> ordered (sig l).
Proof.
  intros [H1 H2]. rewrite sig_fsig. split.
  - intros t I. apply H1. apply filter_In in I. apply I.
  - intros a t b u E I. destruct (filter_split _ _ _ _ _ E) as (a' & b' & -> & ->). apply filter_In in I. eapply H2; [reflexivity|apply I].
Qed.
Lemma tokens_ordered d src toks : dialect_ok d -> tokenize d true src = TOk toks -> ordered (sig toks).
Proof. intros D E. apply sig_ordered. destruct (tokenize_reads d src toks D E) as (l & R & ->). eapply reads_ordered, R. Qed.

Lemma last_in ts p : last_to ts = Some p -> exists a t, ts = a ++ [t] /\ p = tto t.
Proof.
  induction ts as [|t ts IH]; [discriminate|]. cbn [last_to]. destruct ts as [|u ts].
  - intros E. injection E as <-. exists [], t. auto.
  - intros E. destruct (IH E) as (a & x & -> & ->). exists (t :: a), x. auto.
Qed.
Lemma ordered_first a ts' b p q : ordered (a ++ ts' ++ b) -> first_from (a ++ ts' ++ b) = Some p -> first_from ts' = Some q -> at_or_before p q.
Proof.
  intros [_ O] E1 E2. destruct ts' as [|t ts']; [discriminate|]. injection E2 as <-. destruct a as [|x a]; injection E1 as <-; [left; reflexivity|].
  right. destruct (O [] x (a ++ (t :: ts') ++ b) t eq_refl) as [H _]; [|exact H]. apply in_or_app. right. left. reflexivity.
Qed.
Lemma ordered_part a ts b : ordered (a ++ ts ++ b) -> ordered ts.
Proof.
  intros [O1 O2]. split; [intros; apply O1; auto with datatypes|]. intros a' t b' u -> I.
  apply (O2 (a ++ a') t (b' ++ b) u); [rewrite <- !app_assoc; reflexivity|]. auto with datatypes.
Qed.

(** A part does not start before the node. *)
Lemma nested_starts d src f : dialect_ok d -> parse_file d src = ROk f ->
  forall x z, within (AFile f) x -> within x z -> in_text z -> start_known x -> start_known z ->
    exists p q, Pos x = Some p /\ Pos z = Some q /\ at_or_before p q.
Proof.
  intros D E x z Wx Wz T Kx Kz. destruct (file_spans d src f D E) as (toks & ET & H).
  assert (Tx : in_text x) by exact (proj1 (reads_within anything _ _ Wz T)).
  destruct (H x Wx Tx) as (a & ts & b & Es & _ & Hx & Hz). destruct (Hz z Wz T) as (a' & ts' & b' & -> & _ & Hz').
  pose proof (tokens_ordered d src toks D ET) as O. rewrite Es in O. apply ordered_part in O.
  assert (F : forall y l, (spans y l \/ offset_number y l) -> start_known y -> Pos y = first_from l /\ l <> []).
  { intros y l [[S _]|(e & -> & v & t & n & -> & -> & _ & S & _)] K; [auto|]. split; [exact S|discriminate]. }
  destruct (F _ _ Hx Kx) as [Ex Nx], (F _ _ Hz' Kz) as [Ez Nz]. rewrite Ex, Ez.
  destruct (first_from (a' ++ ts' ++ b')) as [p|] eqn:Ep; [|destruct (a' ++ ts' ++ b'); [congruence|discriminate]].
  destruct (first_from ts') as [q|] eqn:Eq; [|destruct ts'; [congruence|discriminate]].
  exists p, q. repeat split; auto. eapply ordered_first; eauto.
Qed.

(** Statements follow one another. *)
Lemma many_nth {A} (P : A -> lang) l1 s1 l2 s2 l3 ts : many (map P (l1 ++ s1 :: l2 ++ s2 :: l3)) ts ->
  exists a t1 b t2 c, ts = a ++ t1 ++ b ++ t2 ++ c /\ P s1 t1 /\ P s2 t2.
Proof.
  intros H. rewrite map_app in H. destruct (many_app _ _ _ H) as (a & r & -> & _ & Hr). cbn [map many] in Hr.
  destruct Hr as (t1 & r1 & -> & H1 & Hr). rewrite map_app in Hr. destruct (many_app _ _ _ Hr) as (b & r2 & -> & _ & Hr2).
  cbn [map many] in Hr2. destruct Hr2 as (t2 & c & -> & H2 & _). exists a, t1, b, t2, c. auto.
Qed.
Lemma of_stmt_pos s : Pos (of_stmt s) = pos_stmt s. Proof. destruct s; reflexivity. Qed.
Lemma of_stmt_end s : End (of_stmt s) = end_stmt s. Proof. destruct s; reflexivity. Qed.
Lemma stmts_follow d src f : dialect_ok d -> parse_file d src = ROk f ->
  forall l1 s1 l2 s2 l3, f_stmts f = l1 ++ s1 :: l2 ++ s2 :: l3 -> end_known (AStmt s1) -> start_known (AStmt s2) ->
    exists p q, End (AStmt s1) = Some p /\ Pos (AStmt s2) = Some q /\ before p q.
Proof.
  intros D E l1 s1 l2 s2 l3 Ef K1 K2. destruct (file_reads anything d src f D E) as (toks & ET & R). specialize (R (allows_anything _)).
  cbn [Grammar.reads] in R. unfold reads_file in R. destruct R as (u & v & Es & _ & R). rewrite Ef in R.
  destruct (many_nth _ _ _ _ _ _ _ R) as (a & t1 & b & t2 & c & -> & (w1 & m & -> & R1 & (t & -> & _)) & (w2 & m2 & -> & R2 & _)).
  pose proof (tokens_ordered d src toks D ET) as O. rewrite Es in O.
  assert (W : Forall star_width w1). { pose proof (sig_star _ (star_widths d src toks D ET)) as S'. rewrite Es, !Forall_app in S'. tauto. }
  destruct (ne_stmt anything s1 K1 w1 W R1) as (ts' & lo & -> & _ & E1 & N1).
  destruct (bs_stmt anything s2 K2 w2 R2) as [E2 N2]. cbn [Pos End].
  destruct (end_stmt s1) as [p|]; [|congruence]. destruct (pos_stmt s2) as [q|]; [|congruence]. exists p, q. split; [reflexivity|]. split; [reflexivity|].
  destruct (last_in _ _ E1) as (a1 & x & -> & ->). destruct w2 as [|y w2]; [discriminate|]. injection E2 as <-.
  destruct O as [O1 O2].
  assert (B1 : at_or_before (tto x) (tfrom t)).
  { apply (O2 (u ++ a ++ a1) x (lo ++ [t] ++ b ++ ((y :: w2) ++ m2) ++ c) t); [cbn [app]; repeat (rewrite <- ?app_assoc; cbn [app]); reflexivity|].
    apply in_or_app. right. left. reflexivity. }
  assert (B2 : before (tfrom t) (tfrom y)).
  { apply (O2 (u ++ a ++ (a1 ++ [x]) ++ lo) t (b ++ ((y :: w2) ++ m2) ++ c) y); [repeat (rewrite <- ?app_assoc; cbn [app]); reflexivity|].
    apply in_or_app. right. left. reflexivity. }
  destruct B1 as [->|B1]; [exact B2|]. eapply before_trans; eauto.
Qed.

(** LIMIT with OFFSET. *)
Lemma limit_offset d src f toks : dialect_ok d -> parse_file d src = ROk f -> tokenize d true src = TOk toks ->
  forall l, within (AFile f) (ALimit l) -> lim_offset l <> None ->
  exists a n k m b, sig toks = a ++ [n; k; m] ++ b /\ tkind n = Number /\ spells "OFFSET" k /\ tkind m = Number /\
    End (ALimit l) = Some (tto k) /\ forall w c s o, End (AQuery (Query w c s o (Some l))) = Some (tto k).
Proof.
  intros D E ET l I N. destruct (file_spans d src f D E) as (toks' & ET' & H). rewrite ET in ET'. injection ET' as <-.
  destruct (H _ I Logic.I) as (a & ts & b & Es & R & _). cbn [Grammar.reads] in R. destruct R as [_ R].
  cbn [End end_query] in *. unfold end_limit. destruct (lim_offset l) as [o|] eqn:O; [|congruence].
  destruct (lim_value l) as [v|]; [|destruct R as [X _]; discriminate X].
  cbn [may] in R. destruct R as (u1 & u2 & -> & (n & -> & Hn) & k1 & m1 & -> & (k & -> & Hk) & m & -> & Hm).
  destruct Hn as [Hn _], Hk as (Hk & _ & Hk2), Hm as [Hm _].
  exists a, n, k, m, b. rewrite Hk2. split; [exact Es|]. repeat (split; [assumption||reflexivity|]). 
  intros w c s oo. destruct o. reflexivity.
Qed.
