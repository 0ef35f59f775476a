(** Positions of what was read. *)
From Coq Require Import ZArith List Bool String Lia.
From Verif Require Import Base Dialect Token Lexer LexSpec LexFacts LexPos LexThms AST Num Nodes Prog Parser ParseSpec CommentSpec CommentThms
  ApiThms PosEnd CommentMap MapSpec MapThms Grammar Sound Slices GrammarThms SpanSpec.
Import ListNotations.
Open Scope list_scope.
Open Scope Z_scope.

Lemma first_app a b p : first_from a = Some p -> first_from (a ++ b) = Some p.
Proof. destruct a; [discriminate|auto]. Qed.
Lemma last_app a b p : last_to b = Some p -> last_to (a ++ b) = Some p.
Proof.
  intros H. induction a as [|x a IH]; [exact H|]. cbn [app last_to]. rewrite IH.
  destruct (a ++ b) eqn:E; [|reflexivity]. destruct a; [cbn in E; subst; discriminate|discriminate].
Qed.

Definition begins (P : lang) (p : option pos) : Prop := forall ts, P ts -> first_from ts = p /\ p <> None.
Definition finishes (P : lang) (p : option pos) : Prop := forall ts, P ts -> last_to ts = p /\ p <> None.

Lemma b_cat (P Q : lang) p : begins P p -> begins (P >> Q) p.
Proof. intros H ts (u & v & -> & Hu & Hv). destruct (H _ Hu) as [H1 H2]. split; [|exact H2]. destruct p; [|congruence]. apply first_app, H1. Qed.
Lemma f_cat (P Q : lang) p : finishes Q p -> finishes (P >> Q) p.
Proof. intros H ts (u & v & -> & Hu & Hv). destruct (H _ Hv) as [H1 H2]. split; [|exact H2]. destruct p; [|congruence]. apply last_app, H1. Qed.
Lemma b_given (c : Prop) (P : lang) p : (c -> begins P p) -> begins (c ?? P) p.
Proof. intros H ts [Hc Ht]. apply H; auto. Qed.
Lemma f_given (c : Prop) (P : lang) p : (c -> finishes P p) -> finishes (c ?? P) p.
Proof. intros H ts [Hc Ht]. apply H; auto. Qed.
Lemma b_alt (P Q : lang) p : begins P p -> begins Q p -> begins (P <|> Q) p.
Proof. intros H1 H2 ts [H|H]; auto. Qed.
Lemma f_alt (P Q : lang) p : finishes P p -> finishes Q p -> finishes (P <|> Q) p.
Proof. intros H1 H2 ts [H|H]; auto. Qed.
Lemma b_eps (P : lang) p : begins P p -> begins (eps >> P) p.
Proof. intros H ts (u & v & -> & -> & Hv). apply H, Hv. Qed.
Lemma f_eps (P : lang) p : finishes P p -> finishes (P >> eps) p.
Proof. intros H ts (u & v & -> & Hu & ->). rewrite app_nil_r. apply H, Hu. Qed.
Lemma b_tok (f : token -> Prop) q : (forall t, f t -> tfrom t = q) -> begins (tok f) (Some q).
Proof. intros H ts (t & -> & Ht). cbn. rewrite (H t Ht). split; [reflexivity|discriminate]. Qed.
Lemma f_tok (f : token -> Prop) q : (forall t, f t -> tto t = q) -> finishes (tok f) (Some q).
Proof. intros H ts (t & -> & Ht). cbn. rewrite (H t Ht). split; [reflexivity|discriminate]. Qed.
Lemma b_sep s l p : match l with P :: _ => begins P p | [] => True end -> begins (sep_by s l) p.
Proof. intros H. destruct l as [|P [|Q l]]; cbn [sep_by]; [intros ts []|exact H|apply b_cat, H]. Qed.
Lemma b_dots l : begins (dots l) (first_pos pos_ident l).
Proof.
  destruct l as [|i l]; [intros ts []|]. apply b_sep. cbn [first_pos pos_ident map]. apply b_tok. intros t (w & _ & ->). reflexivity.
Qed.
Lemma f_dots l : finishes (dots l) (last_end end_ident l).
Proof.
  induction l as [|i l IH]; [intros ts []|]. unfold dots in *. cbn [map sep_by last_end].
  destruct l as [|j l]; cbn [map] in *.
  - apply f_tok. intros t (w & _ & ->). reflexivity.
  - apply f_cat, f_cat, IH.
Qed.

Section Spans.
  Variable L : defect -> Prop.

  Ltac bt := match goal with |- begins _ _ =>
    first [apply b_cat; bt | apply b_tok; cbv beta; intros ? ?; intuition congruence] end.

  Lemma starts_at e : knows_start e -> begins (reads_node L e) (pos_node e).
  Proof.
    induction e; intros K; rewrite reads_node_eq; apply b_given; intros _; cbn [knows_start pos_node] in *;
      try solve [apply b_cat; auto].
    - apply b_tok. intros t (w & _ & ->). reflexivity.
    - apply b_tok. intuition.
    - apply b_cat, b_dots.
    - apply b_given. intros _. apply b_dots.
    - apply b_alt.
      + apply b_cat, b_tok. intuition.
      + apply b_given. intros [-> _]. discriminate.
    - apply b_cat, b_tok. intuition.
    - apply b_cat. unfold prefix_token. destruct (op_type op); try solve [intros ts []]; apply b_given; intros _; apply b_tok; intuition.
    - apply b_cat, b_dots.
    - apply b_cat, b_tok. intuition.
    - destruct negated; [apply b_cat, b_tok; intuition|].
      intros ts (u & v & -> & (_ & ->) & Hv). revert v Hv. apply b_cat, b_tok. intuition.
    - contradiction.
    - apply b_tok. intuition.
    - apply b_tok. intuition.
    - apply b_tok. intuition.
    - apply b_tok. intuition.
    - apply b_tok. intuition.
    - apply b_tok. intuition.
  Qed.

  Lemma ends_at e : knows_end e -> forall ts, Forall star_width ts -> reads_node L e ts -> last_to ts = end_node e /\ end_node e <> None.
  Proof.
    induction e; intros K ts W; rewrite reads_node_eq; intros [_ R]; cbn [knows_end end_node] in *; revert R; try contradiction.
    - apply f_tok. intros t (w & _ & ->). reflexivity.
    - intros (t & -> & H1 & H2). inversion_clear W. cbn. rewrite H, H2 by assumption. split; [reflexivity|discriminate].
    - intros [_ R]. revert R. apply f_dots.
    - revert ts W. intros ts _. apply f_cat, f_cat, f_cat. unfold parens_to. apply f_cat, f_cat, f_tok. intuition.
    - apply f_cat, f_cat, f_cat. unfold parens_to. apply f_cat, f_cat, f_tok. intuition.
    - intros (u & v & -> & _ & u2 & v2 & -> & _ & u3 & v3 & -> & _ & u4 & v4 & -> & _ & u5 & v5 & -> & _ & H).
      rewrite !Forall_app in W. destruct (IHe3 K v5 ltac:(tauto) H) as [E N]. split; [|exact N].
      destruct (end_node e3); [|congruence]. rewrite !app_assoc. apply last_app, E.
    - intros (u & v & -> & _ & u2 & v2 & -> & _ & H).
      rewrite !Forall_app in W. destruct (IHe2 K v2 ltac:(tauto) H) as [E N]. split; [|exact N].
      destruct (end_node e2); [|congruence]. rewrite !app_assoc. apply last_app, E.
    - apply f_alt.
      + apply f_cat. unfold parens_to. apply f_cat, f_cat, f_tok. intuition.
      + apply f_given. intros [-> _]. discriminate.
    - apply f_cat, f_cat, f_tok. intuition.
    - intros (u & v & -> & _ & H). rewrite !Forall_app in W. destruct (IHe K v ltac:(tauto) H) as [E N]. split; [|exact N].
      destruct (end_node e); [|congruence]. apply last_app, E.
    - subst over. apply f_cat. intros ts' (u & v & -> & H & _ & ->). rewrite app_nil_r. revert u H.
      unfold parens_to. apply f_cat, f_cat, f_tok. intuition.
    - apply f_cat, f_cat, f_cat, f_cat, f_tok. intuition.
    - apply f_cat, f_cat. unfold parens_to. apply f_cat, f_cat, f_tok. intuition.
    - apply f_tok. intuition.
    - apply f_tok. intuition.
    - apply f_tok. intuition.
    - apply f_tok. intuition.
    - apply f_tok. intuition.
    - apply f_tok. intuition.
  Qed.

  (* ---------------------------------------------------------------- *)
  (** ** Parts *)

  Lemma sep_ne s l ts : sep_by s l ts -> l <> [].
  Proof. intros H ->. exact H. Qed.
  Lemma map_ne {A B} (f : A -> B) l : map f l <> [] -> l <> [].
  Proof. intros H ->. exact (H eq_refl). Qed.
  Lemma dots_ne l ts : dots l ts -> l <> [].
  Proof. intros H. apply sep_ne, map_ne in H. exact H. Qed.

  Lemma reads_parts z ts : Grammar.reads L z ts -> ~ lacks z -> has_parts z.
  Proof.
    intros R N. destruct z as [f|e|n|o|w|f|u|b|o|q|c|s|o|i|t|t|j|s|l|t|s|s|r|a|e|s|k|c|s|a|a|o|d|g|c]; try exact I; cbn [has_parts].
    - exact N.
    - destruct e; try exact I; cbn [Grammar.reads] in R; rewrite reads_node_eq in R; destruct R as [_ R].
      + destruct R as (u & v & _ & R & _). apply dots_ne in R. exact R.
      + destruct R as [_ R]. apply dots_ne in R. exact R.
    - apply dots_ne in R. exact R.
    - destruct w as [p o f ? ?]. cbn [lacks] in N. destruct p; [|left; discriminate]. destruct o; [|right; left; discriminate].
      destruct f; [right; right; discriminate|]. exfalso. auto.
    - destruct s as [[d p f w g h ?]| |]; try exact I. left. cbn [Grammar.reads] in R. rewrite reads_setexpr_eq in R. destruct R as [_ R].
      rewrite reads_select_eq in R. destruct R as (? & ? & _ & _ & ? & ? & _ & _ & ? & ? & _ & R & _).
      apply sep_ne, map_ne in R. exact R.
    - destruct s; try exact I; cbn [Grammar.reads reads_stmt lacks] in *.
      + left. destruct R as (? & ? & _ & _ & ? & ? & _ & _ & ? & ? & _ & _ & ? & ? & _ & R & _). apply sep_ne, map_ne in R. exact R.
      + exact N.
      + left. destruct R as (? & ? & _ & _ & ? & ? & _ & _ & ? & ? & _ & _ & ? & ? & _ & R & _). apply sep_ne, map_ne in R. exact R.
      + destruct R as (? & ? & _ & _ & ? & ? & _ & _ & R). apply sep_ne, map_ne in R. exact R.
    - destruct s; try exact I. cbn [Grammar.reads reads_source] in R. destruct R as (_ & ? & ? & _ & _ & R). apply sep_ne, map_ne in R. exact R.
    - destruct e; try exact I. exact N.
    - destruct R.
  Qed.
End Spans.


  Ltac subs H :=
    cbv beta iota delta [subnodes fields f1 f01 fl] in H; cbn [flat_map snd held option_map app] in H;
    repeat match type of H with
    | In _ (_ ++ _) => apply in_app_or in H; destruct H as [H|H]
    | In _ (_ :: _) => destruct H as [<-|H]
    | In _ [] => destruct H
    | In _ (map _ _) => let E := fresh in apply in_map_iff in H; destruct H as (? & E & H); try subst
    | In _ (held (FOne (option_map _ ?o))) => destruct o eqn:?; cbn [option_map held] in H
    | In _ (match option_map _ ?o with _ => _ end) => destruct o eqn:?; cbn [option_map] in H
    | In _ (match ?o with _ => _ end) => destruct o eqn:?
    end.

Lemma comment_in x z : In z (subnodes x) ->
  match z with AFile _ => False | AGroup g => exists f, x = AFile f /\ In g (f_comments f) | _ => True end.
Proof.
  intros H. destruct x; match type of H with In _ (subnodes (?C ?p)) => try (is_var p; destruct p) end; try (is_var s; destruct s); try (is_var q; destruct q); subs H; try exact Logic.I.
  all: repeat match goal with
    | H : In _ (match ?o with _ => _ end) |- _ => destruct o; subs H
    end; try exact Logic.I.
  all: try match goal with |- context [of_stmt ?s] => destruct s; exact Logic.I end.
  all: eauto.
Qed.
Lemma group_in x g : In (AGroup g) (subnodes x) -> exists f, x = AFile f /\ In g (f_comments f).
Proof. exact (comment_in x (AGroup g)). Qed.
Lemma within_group x g : within x (AGroup g) -> x = AGroup g \/ exists f, within x (AFile f) /\ In g (f_comments f).
Proof.
  intros W. remember (AGroup g) as z eqn:E. induction W as [x|x y z I W IH]; [auto|].
  right. destruct (IH E) as [->|(f & Hf & Hg)].
  - rewrite E in I. apply group_in in I. destruct I as (f & -> & Hg). exists f. split; [constructor|exact Hg].
  - exists f. split; [econstructor; eauto|exact Hg].
Qed.
Lemma file_in x f : In (AFile f) (subnodes x) -> False.
Proof. exact (comment_in x (AFile f)). Qed.
Lemma within_file x f : within x (AFile f) -> x = AFile f.
Proof.
  intros W. remember (AFile f) as z eqn:E. induction W as [x|x y z I W IH]; [auto|].
  rewrite (IH E), E in I. destruct (file_in _ _ I).
Qed.
(* END *)
(* ------------------------------------------------------------------ *)
(** ** Lines *)

Lemma advance_lines n : forall s p, (List.length s <= n)%nat -> pline (advance s p) <= pline p + zlen s.
Proof.
  unfold zlen. induction n as [|n IH]; intros s p Hl; (destruct s as [|c s]; [cbn; lia|]); cbn [List.length] in *; [lia|].
  cbn [advance]. destruct (c =? 10). { specialize (IH s (mkPos (pline p + 1) 1) ltac:(lia)). cbn [pline] in IH. lia. }
  destruct (c =? 13).
  - destruct s as [|m s]; [cbn; lia|]. cbn [List.length] in *. destruct (m =? 10).
    + specialize (IH s (mkPos (pline p + 1) 1) ltac:(lia)). cbn [pline] in IH. lia.
    + specialize (IH (m :: s) (mkPos (pline p + 1) 1) ltac:(cbn; lia)). cbn [pline List.length] in IH. lia.
  - specialize (IH s (mkPos (pline p) (pcol p + 1)) ltac:(lia)). cbn [pline] in IH. lia.
Qed.
Lemma token_end_lines k v s p : pline (token_end k v s p) <= pline p + zlen s.
Proof.
  pose proof (advance_lines _ s p (le_n _)) as A.
  assert (Hs : 0 <= zlen s) by (unfold zlen; lia).
  unfold token_end. repeat match goal with |- context [match ?x with _ => _ end] => destruct x; cbn [pline]; try lia end.
Qed.
Lemma reads_last_line d p text l rem : LexSpec.reads d p text l rem ->
  forall t, In t (map fst l) -> pline (tto t) <= pline p + zlen text.
Proof.
  intros R. induction R as [p text|p q s text k v l rest H1 H2 H3 IH]; intros t; cbn [map fst]; [intros []|].
  subst q. pose proof (token_end_lines k v s p) as T. pose proof (List.app_length s text) as Ha.
  intros [<-|I]; cbn [tto]; unfold zlen in *; [lia|]. specialize (IH _ I). lia.
Qed.

Lemma last_end_in {A} (f : A -> option pos) l p : last_end f l = Some p -> exists a, In a l /\ f a = Some p.
Proof.
  induction l as [|a l IH]; [discriminate|]. cbn [last_end]. destruct l as [|b l].
  - intros E. exists a. cbn; auto.
  - intros E. destruct (IH E) as (x & I & E'). exists x. cbn in *; auto.
Qed.

(** C30 for parsed files. *)
Lemma parsed_parts d src f : dialect_ok d -> parse_file d src = ROk f ->
  forall z, within (AFile f) z -> ~ lacks z -> has_parts z.
Proof.
  intros D E z W N. destruct (file_reads anything d src f D E) as (toks & ET & R).
  assert (A : allows anything (sig toks)) by (intros a t b k _ _; exact Logic.I). specialize (R A).
  assert (G : forall g, z = AGroup g -> g <> []).
  { intros g ->. destruct (within_group _ _ W) as [C|(f' & W' & I)]; [discriminate|].
    apply within_file in W'. injection W' as <-. destruct (file_comments d src toks f D ET E) as (_ & H & _). auto. }
  assert (T : in_text z -> has_parts z).
  { intros T. destruct (reads_within anything _ _ W T) as [_ H]. destruct (H _ R) as (a & b & c & _ & Hz).
    eapply reads_parts; eauto. }
  destruct z; try (apply T; exact Logic.I); cbn [has_parts]; auto.
Qed.
Lemma lacks_parts z : lacks z -> ~ has_parts z.
Proof.
  destruct z; cbn [lacks has_parts]; try tauto.
  - destruct w. intuition.
  - destruct s; tauto.
  - destruct e; tauto.
Qed.
Lemma parsed_positions d src f : dialect_ok d -> parse_file d src = ROk f ->
  ((forall z, within (AFile f) z -> Pos z <> None /\ End z <> None) <-> (forall z, within (AFile f) z -> ~ lacks z)).
Proof.
  intros D E. rewrite positions_iff. split; intros H z W.
  - intros K. exact (lacks_parts _ K (H z W)).
  - eapply parsed_parts; eauto.
Qed.
Lemma parsed_map d src f : dialect_ok d -> parse_file d src = ROk f ->
  (forall z, within (AFile f) z -> ~ lacks z) -> zlen src < 2 ^ 30 - 1 -> NewCommentMap f <> CMPanic.
Proof.
  intros D E N S. apply comment_map_parts.
  - intros z W. eapply parsed_parts; eauto.
  - intros g p I Eg. destruct (file_reads anything d src f D E) as (toks & ET & _).
    destruct (file_comments d src toks f D ET E) as (Hc & _ & _).
    destruct (last_end_in _ _ _ Eg) as (c & Ic & Ep). injection Ep as <-.
    assert (K : In c (comments toks)). { rewrite <- Hc. apply in_concat. eauto. }
    unfold comments in K. apply in_map_iff in K. destruct K as (t & <- & K). apply filter_In in K. destruct K as [K _].
    destruct (tokenize_reads d src toks D ET) as (l & R & ->).
    pose proof (reads_last_line _ _ _ _ _ R t K) as B. unfold start_pos in B. cbn [pline] in B.
    change (c_to (comment_of t)) with (tto t).
    assert (Hb : zlen (skip_bom src) <= zlen src).
    { unfold zlen. destruct src as [|r s]; [cbn; lia|]. cbn [skip_bom List.length]. destruct (r =? _); cbn [List.length]; lia. }
    lia.
Qed.

(* ------------------------------------------------------------------ *)
(** ** Extents *)

Lemma star_widths d src toks : dialect_ok d -> tokenize d true src = TOk toks -> Forall star_width toks.
Proof.
  intros D E. destruct (tokenize_reads d src toks D E) as (l & R & ->). apply Forall_forall. intros t I K.
  apply in_map_iff in I. destruct I as ([t' s] & <- & I). cbn [fst] in *. apply in_split in I. destruct I as (a & b & ->).
  destruct (reads_lexemes _ _ _ _ _ R a t' s b eq_refl) as [H ->]. rewrite K in H |- *.
  inversion H; subst; try discriminate.
  match goal with I : In _ symbols |- _ => cbn [In symbols] in I; repeat destruct I as [I|I]; try discriminate I; try contradiction; injection I as <- <- end.
  reflexivity.
Qed.
Lemma sig_star l : Forall star_width l -> Forall star_width (sig l).
Proof. intros H. rewrite sig_fsig. apply Forall_forall. intros t I. apply filter_In in I. rewrite Forall_forall in H. apply H, I. Qed.

(** What [ts] being the text of [e] means for its positions. *)
Lemma extent L e ts : Forall star_width ts -> reads_node L e ts -> extends_over e ts.
Proof.
  intros W R. split; intros K.
  - destruct (starts_at L e K ts R) as [H N]. cbn [Pos]. rewrite <- H in *. split; [reflexivity|]. intros ->. exact (N eq_refl).
  - destruct (ends_at L e K ts W R) as [H N]. cbn [End]. rewrite <- H in *. split; [reflexivity|]. intros ->. exact (N eq_refl).
Qed.

Lemma extent_any L e ts : Forall star_width ts -> Grammar.reads L (AExpr e) ts -> extends_over e ts \/ is_offset e ts.
Proof.
  intros W R. destruct e; try (left; exact (extent L _ ts W R)). destruct R as [R|[R|R]].
  - left. apply (extent L _ ts W). split; [exact Logic.I|exact R].
  - left. destruct R as (t & -> & K). split; intros _; (split; [cbn; f_equal; symmetry; tauto|discriminate]).
  - right. destruct R as (u & w & -> & (t & -> & K & F & T) & (n & -> & _)).
    exists v, t, n. cbn. rewrite F, T. auto 10.
Qed.

Lemma expr_extents done todo e st : Forall tok_wf todo -> Forall placed todo -> Forall star_width todo ->
  call parse_expr done todo = Ok e st ->
  exists used, sig todo = used ++ sig (snd st) /\ extends_over e used /\
    forall e', within (AExpr e) (AExpr e') -> exists a ts b, used = a ++ ts ++ b /\ (extends_over e' ts \/ is_offset e' ts).
Proof.
  intros W P S E. destruct (expr_reads anything done todo e st (good_anything _ W P) E) as (used & E1 & R & _).
  assert (S' : Forall star_width used). { apply sig_star in S. rewrite E1, Forall_app in S. apply S. }
  exists used. split; [exact E1|]. split; [eapply extent; eauto|].
  intros e' I. destruct (reads_within anything _ _ I Logic.I) as [_ H].
  destruct (H used (reads_expr _ _ _ R)) as (a & ts & b & -> & R'). exists a, ts, b. split; [reflexivity|].
  rewrite !Forall_app in S'. eapply extent_any; [apply S'|exact R'].
Qed.
Lemma file_extents d src f : dialect_ok d -> parse_file d src = ROk f ->
  exists toks, tokenize d true src = TOk toks /\
    forall e, within (AFile f) (AExpr e) -> exists a ts b, sig toks = a ++ ts ++ b /\ (extends_over e ts \/ is_offset e ts).
Proof.
  intros D E. destruct (file_reads anything d src f D E) as (toks & ET & R). exists toks. split; [exact ET|].
  intros e I. destruct (reads_within anything _ _ I Logic.I) as [_ H].
  destruct (H _ (R ltac:(intros a t b k _ _; exact Logic.I))) as (a & ts & b & Es & R'). exists a, ts, b. split; [exact Es|].
  pose proof (sig_star _ (star_widths d src toks D ET)) as S'. rewrite Es, !Forall_app in S'.
  eapply extent_any; [apply S'|exact R'].
Qed.
