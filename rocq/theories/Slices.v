(** The sub-nodes of a node read slices of what the node reads. *)
From Coq Require Import ZArith List Bool String Lia.
From Verif Require Import Base Dialect Token AST Num Nodes Grammar Sound.
Import ListNotations.
Open Scope list_scope.
Open Scope Z_scope.

(** Whatever [P] accepts has a slice that [Q] accepts. *)
Definition holds (P Q : lang) : Prop := forall ts, P ts -> exists a b c, ts = a ++ b ++ c /\ Q b.

Lemma holds_sub (P Q : lang) : (forall ts, P ts -> Q ts) -> holds P Q.
Proof. intros H ts HP. exists [], ts, []. rewrite app_nil_r. auto. Qed.
Lemma holds_refl (P : lang) : holds P P.
Proof. apply holds_sub. auto. Qed.
Lemma holds_catl (P P' Q : lang) : holds P Q -> holds (P >> P') Q.
Proof.
  intros H ts (u & v & -> & H1 & H2). destruct (H _ H1) as (a & b & c & -> & HQ).
  exists a, b, (c ++ v). rewrite !app_assoc. auto.
Qed.
Lemma holds_catr (P P' Q : lang) : holds P' Q -> holds (P >> P') Q.
Proof.
  intros H ts (u & v & -> & H1 & H2). destruct (H _ H2) as (a & b & c & -> & HQ).
  exists (u ++ a), b, c. rewrite !app_assoc. auto.
Qed.
Lemma holds_alt (P P' Q : lang) : holds P Q -> holds P' Q -> holds (P <|> P') Q.
Proof. intros H1 H2 ts [H|H]; auto. Qed.
Lemma holds_given (c : Prop) (P Q : lang) : (c -> holds P Q) -> holds (c ?? P) Q.
Proof. intros H ts [Hc HP]. apply H; auto. Qed.
Lemma holds_none (Q : lang) : holds none Q.
Proof. intros ts []. Qed.
Lemma holds_many (P Q : lang) l : In P l -> holds P Q -> holds (many l) Q.
Proof.
  intros I H. induction l as [|R l IH]; [destruct I|]. cbn [many]. destruct I as [->|I].
  - apply holds_catl, H.
  - apply holds_catr, IH, I.
Qed.
Lemma holds_sep (P Q s : lang) l : In P l -> holds P Q -> holds (sep_by s l) Q.
Proof.
  intros I H. induction l as [|R l IH]; [destruct I|]. cbn [sep_by].
  destruct l as [|R' l]; [destruct I as [->|[]]; exact H|]. destruct I as [->|I].
  - apply holds_catl, H.
  - apply holds_catr, holds_catr, IH, I.
Qed.
Lemma holds_sep_map {A} (f : A -> lang) (x : A) Q s l : In x l -> holds (f x) Q -> holds (sep_by s (map f l)) Q.
Proof. intros I. apply holds_sep, in_map, I. Qed.
Lemma holds_many_map {A} (f : A -> lang) (x : A) Q l : In x l -> holds (f x) Q -> holds (many (map f l)) Q.
Proof. intros I. apply holds_many, in_map, I. Qed.

Section Slices.
  Variable L : defect -> Prop.
  Notation reads := (Grammar.reads L).

  Lemma reads_expr e ts : reads_node L e ts -> reads (AExpr e) ts.
  Proof. destruct e; auto. intros [_ H]. left. exact H. Qed.
  Lemma h_expr e : holds (reads_node L e) (reads (AExpr e)).
  Proof. apply holds_sub, reads_expr. Qed.
  Lemma h_word i : holds (word i) (reads (AIdent i)).
  Proof. apply holds_sub. intros ts H. split; [exact I|exact H]. Qed.
  Lemma h_op o : holds (operator_tokens o) (reads (AOp o)).
  Proof. apply holds_sub. intros ts H. left. exact H. Qed.
  Lemma h_pop p o : holds (prefix_token p o) (reads (AOp o)).
  Proof. apply holds_sub. intros ts H. right. eauto. Qed.
  Lemma h_long v : holds (long_int v) (reads (ALong v)).
  Proof. apply holds_sub. intros ts H. right. left. exact H. Qed.
  Lemma h_offset v : holds (kwd_at "OFFSET" (lv_from v) (lv_to v) >> int (lv_long v)) (reads (ALong v)).
  Proof. apply holds_sub. intros ts H. right. right. exact H. Qed.
  Lemma h_stmt s : holds (reads_stmt L s) (reads (of_stmt s)).
  Proof. apply holds_sub. destruct s; auto. Qed.
  Lemma h_const (P : lang) z : reads z = P -> holds P (reads z).
  Proof. intros <-. apply holds_sub. auto. Qed.

  Ltac base :=
    first [apply holds_refl | apply h_expr | apply h_word | apply h_op | apply h_pop | apply h_long | apply h_offset | apply h_stmt
          | apply h_const; reflexivity].
  Ltac find :=
    first
    [ solve [base]
    | lazymatch goal with
      | |- holds (cat _ _) _ => first [solve [apply holds_catl; find] | apply holds_catr; find]
      | |- holds (alt _ _) _ => apply holds_alt; find
      | |- holds (given _ _) _ => apply holds_given; intros; try contradiction; find
      | |- holds none _ => apply holds_none
      | |- holds (opt _) _ => fail
      | |- holds (sep_by _ (map _ _)) _ => eapply holds_sep_map; [eassumption|cbv beta; find]
      | |- holds (many (map _ _)) _ => eapply holds_many_map; [eassumption|cbv beta; find]
      | |- holds (clause _ ?l _) _ => destruct l; [contradiction|unfold clause; cbv iota; find]
      | |- holds (commas _ _) _ => unfold commas; find
      | |- holds (words _) _ => unfold words; find
      | |- holds (dots _) _ => unfold dots; find
      | |- holds (name _) _ => unfold name; find
      | |- holds (parens _) _ => unfold parens; find
      | |- holds (parens_to _ _) _ => unfold parens_to; find
      | |- holds (may (Some _) _) _ => cbn [may]; find
      | |- holds (where_clause _ _) _ => unfold where_clause; find
      | |- holds (Grammar.table_alias _ _) _ => unfold Grammar.table_alias; find
      | |- holds (match ?l with nil => _ | cons _ _ => _ end) _ =>
          let H := fresh in destruct l eqn:H; [try contradiction|]; rewrite <- ?H in *; find
      | |- holds (match Some _ with _ => _ end) _ => cbv iota; find
      | |- holds (if ?b then _ else _) _ => destruct b; find
      | _ => progress cbv beta iota; find
      end ].

  Ltac subs H :=
    cbv beta iota delta [subnodes fields f1 f01 fl] in H; cbn [flat_map snd held option_map app] in H;
    repeat match type of H with
    | In _ (_ ++ _) => apply in_app_or in H; destruct H as [H|H]
    | In _ (_ :: _) => destruct H as [<-|H]
    | In _ [] => destruct H
    | In _ (map _ _) => let E := fresh in apply in_map_iff in H; destruct H as (? & E & H); try subst
    | In _ (held (FOne (option_map _ ?o))) => destruct o eqn:?; cbn [option_map held] in H
    | In _ (match option_map _ ?o with _ => _ end) => destruct o eqn:?; cbn [option_map] in H
    | In _ (match ?o with _ => _ end) => destruct o eqn:?
    end.

  Lemma In_hd_rev {A} (l : list A) a : Some a = hd_error (rev l) -> In a l.
  Proof.
    intros E. apply in_rev. destruct (rev l); [discriminate|]. injection E as ->. left. reflexivity.
  Qed.
  Lemma reads_sub_element e z : In z (subnodes (AElem e)) -> holds (reads_element L e) (reads z).
  Proof.
    intros H. destruct e as [[n ty def decs cons]|c].
    2:{ cbn [reads_element]. subs H; unfold reads_tcons; rewrite ?Heqo; find. }
    cbn [reads_element]. unfold reads_columndef. cbn [cd_name cd_type cd_default cd_decorations cd_constraints].
    subs H; cbn [cd_name cd_type cd_default cd_decorations cd_constraints] in *.
    - find.
    - apply holds_catr, holds_catl, holds_refl.
    - apply holds_catr, holds_catr. intros ts (parts & H1 & [H2 _] & _). rewrite Heqo in H2.
      apply In_hd_rev in H2. apply in_flat_map in H2. destruct H2 as (p & Hp & H2).
      destruct p; cbn in H2; try contradiction. destruct H2 as [->|[]].
      revert ts H1. eapply holds_many_map; [exact Hp|]. cbn [reads_colpart]. find.
    - apply holds_catr, holds_catr. intros ts (parts & H1 & _ & _ & H2 & _). rewrite <- H2 in H.
      apply in_flat_map in H. destruct H as (p & Hp & H).
      destruct p; cbn in H; try contradiction. destruct H as [->|[]].
      revert ts H1. eapply holds_many_map; [exact Hp|]. cbn [reads_colpart]. find.
    - apply holds_catr, holds_catr. intros ts (parts & H1 & _ & (g & [H2 _] & H3) & _). subst cons.
      destruct g as [l|]; [|destruct H].
      apply In_hd_rev in H2. apply in_flat_map in H2. destruct H2 as (p & Hp & H2).
      destruct p; cbn in H2; try contradiction. destruct H2 as [->|[]].
      revert ts H1. eapply holds_many_map; [exact Hp|]. cbn [reads_colpart]. find.
  Qed.


  Lemma reads_sub x z : in_text z ->
    In z (subnodes x) -> holds (reads x) (reads z).
  Proof.
    intros HZ H. destruct x as [f|e|n|o|w|f|u|b|o|q|c|s|o|i|t|t|j|s|l|t|s|s|r|a|e|s|k|c|s|a|a|o|d|g|c].
    2:{ destruct e; subs H; cbn [Grammar.reads]; rewrite reads_node_eq; apply holds_given; intros _; find. }
    all: cbn [Grammar.reads].
    - subs H; try contradiction. unfold reads_file. find.
    - subs H. find.
    - subs H.
    - destruct w. subs H; rewrite reads_win_eq; try solve [find].
    - subs H; unfold reads_frame; destruct (wf_end f); try discriminate; try (injection Heqo as ->); try solve [find].
    - subs H.
    - subs H.
    - destruct o. subs H; rewrite reads_orderby_eq; find.
    - destruct q. subs H; rewrite reads_query_eq; try solve [find].
    - destruct c. subs H; rewrite reads_cte_eq; find.
    - destruct s as [[]| |]; subs H; rewrite reads_setexpr_eq; rewrite ?reads_select_eq; find.
    - subs H.
    - destruct i; subs H; rewrite reads_selitem_eq; find.
    - destruct t; subs H; rewrite reads_tableref_eq; try solve [find].
      apply holds_given; intros _. apply holds_catr, holds_catl, holds_alt; apply holds_given.
      + intros ->. destruct H.
      + intros _. find.
    - subs H. find.
    - subs H.
    - destruct s; subs H; rewrite reads_joinspec_eq; find.
    - subs H; unfold reads_limit; rewrite ?Heqo; try solve [find]. destruct (lim_value l); [find|].
      apply holds_given; intros _; apply holds_given; discriminate.
    - destruct t; subs H; cbn [reads_dtype]; try solve [find].
      destruct t; try apply holds_none. apply holds_given. intros (? & ? & ?). apply holds_catl, holds_sub. cbn. split; auto.
    - destruct s; try destruct q; subs H; cbn [reads_stmt]; rewrite ?reads_query_eq; try solve [find].
    - destruct s; subs H; unfold reads_source; find.
    - subs H; unfold reads_row; find.
    - subs H; unfold reads_assign; find.
    - apply reads_sub_element; assumption.
    - destruct s; subs H; unfold reads_tcspec; try solve [find].
    - subs H; unfold reads_refkey; try solve [find].
    - subs H; unfold reads_ccons; rewrite ?Heqo; try solve [find].
    - destruct s; subs H; unfold reads_ccspec; try solve [find]. 
    - destruct a; subs H; unfold reads_action; try solve [find].
    - destruct a; subs H; unfold reads_colaction; try solve [find].
    - destruct o; subs H; unfold reads_option, option_value; try solve [find].
    - subs H.
    - subs H; contradiction.
    - subs H.
  Qed.

  Lemma text_sub x z : in_text z -> In z (subnodes x) -> in_text x.
  Proof. intros HZ H. destruct x; try exact I; subs H; destruct HZ. Qed.

  Lemma reads_within x z : within x z -> in_text z -> in_text x /\ holds (reads x) (reads z).
  Proof.
    induction 1 as [x|x y z H1 H2 IH]; intros HZ; [split; [exact HZ|apply holds_refl]|].
    destruct (IH HZ) as [HY HH]. split; [eapply text_sub; eauto|].
    intros ts Hx. destruct (reads_sub _ _ HY H1 _ Hx) as (a & b & c & -> & Hy).
    destruct (HH _ Hy) as (a' & b' & c' & -> & Hz). exists (a ++ a'), b', (c' ++ c).
    rewrite !app_assoc. auto.
  Qed.

  (** Binding at all depths. *)
  Lemma reads_bound_expr x ts : reads x ts -> forall e, within x (AExpr e) -> well_bound e.
  Proof.
    intros H e W. destruct (reads_within _ _ W I) as [_ HH]. destruct (HH _ H) as (a & b & c & _ & R).
    destruct e; try exact I; cbn [Grammar.reads] in R; rewrite reads_node_eq in R; apply R.
  Qed.
  Lemma reads_bound_set x ts : reads x ts -> forall s, within x (ASet s) -> set_bound s.
  Proof.
    intros H s W. destruct (reads_within _ _ W I) as [_ HH]. destruct (HH _ H) as (a & b & c & _ & R).
    cbn [Grammar.reads] in R. rewrite reads_setexpr_eq in R. apply R.
  Qed.
End Slices.
