(** What is printed does not depend on positions. *)
From Coq Require Import ZArith String List Bool.
From Verif Require Import Base Token AST AstInd Erase ErId Printer RtEq.
Import ListNotations.
Open Scope string_scope.
Open Scope list_scope.

Lemma is_nil_map {A B} (f : A -> B) l : is_nil (map f l) = is_nil l.
Proof. destruct l; reflexivity. Qed.
Lemma map_map_ext {A B} (f : A -> B) (e : A -> A) l : (forall x, f (e x) = f x) -> map f (map e l) = map f l.
Proof. intros H. rewrite map_map. apply map_ext. exact H. Qed.
Lemma map_map_all {A B} (f : A -> B) (e : A -> A) l : Forall (fun x => f (e x) = f x) l -> map f (map e l) = map f l.
Proof. intros H. rewrite map_map. apply map_ext_Forall. exact H. Qed.

Section Pos.
  Variable fp : pos -> pos.
  Notation G := same_rune.

  Lemma p_ident i : wt_ident (er_ident fp G i) = wt_ident i.
  Proof. unfold wt_ident. cbn. now rewrite map_id_ext. Qed.
  Lemma p_idents s l : widents s (map (er_ident fp G) l) = widents s l.
  Proof. unfold widents. now rewrite (map_map_ext wt_ident _ _ p_ident). Qed.
  Lemma p_on o : wt_objname (er_on fp G o) = wt_objname o.
  Proof. unfold wt_objname. cbn [on_idents er_on]. now rewrite p_idents. Qed.
  Lemma p_bound b : wt_wbound (er_bound fp b) = wt_wbound b.
  Proof. destruct b; reflexivity. Qed.
  Lemma p_frame f : wt_wframe (er_wframe fp f) = wt_wframe f.
  Proof. unfold wt_wframe. destruct f as [u s [e|]]; cbn; now rewrite ?p_bound. Qed.
  Lemma p_setop o : wt_setop (er_setop fp o) = wt_setop o.
  Proof. destruct o; reflexivity. Qed.
  Lemma p_limit l : wt_limit (er_limit fp l) = wt_limit l.
  Proof. destruct l as [a p [v|] [o|]]; reflexivity. Qed.
  Lemma p_dtype t : wt_dtype (er_dtype fp G t) = wt_dtype t.
  Proof. induction t; cbn [wt_dtype er_dtype]; rewrite ?IHt, ?p_on; reflexivity. Qed.

  Ltac s :=
    repeat match goal with
      | H : Forall _ _ |- _ => apply map_map_all in H
      | H : opt_all _ ?o |- _ => destruct o; cbn [opt_all option_map] in *
      | |- context [option_map _ ?o] => destruct o; cbn [option_map]
      end;
    rewrite ?is_nil_map, ?p_ident, ?p_idents, ?p_on, ?p_dtype, ?p_setop, ?p_limit, ?p_frame;
    repeat match goal with H : _ = _ |- _ => rewrite H; clear H end; try reflexivity.

  Ltac u L := etransitivity; [apply L|]; symmetry; etransitivity; [apply L|]; symmetry; cbv beta iota.

  Lemma p_ast :
    (forall e, wt_node (er_node fp G e) = wt_node e) /\ (forall w, wt_winspec (er_winspec fp G w) = wt_winspec w) /\
    (forall o, wt_orderby (er_orderby fp G o) = wt_orderby o) /\ (forall q, wt_query (er_query fp G q) = wt_query q) /\
    (forall c, wt_cte (er_cte fp G c) = wt_cte c) /\ (forall b, wt_setexpr (er_setexpr fp G b) = wt_setexpr b) /\
    (forall s, wt_select (er_select fp G s) = wt_select s) /\ (forall i, wt_selitem (er_selitem fp G i) = wt_selitem i) /\
    (forall t, wt_tableref (er_tableref fp G t) = wt_tableref t) /\ (forall j, wt_joinspec (er_joinspec fp G j) = wt_joinspec j).
  Proof.
    apply ast_ind; intros;
      cbn [er_node er_winspec er_orderby er_query er_cte er_setexpr er_select er_selitem er_tableref er_joinspec];
      fold (er_node fp G); fold (er_winspec fp G); fold (er_orderby fp G); fold (er_query fp G); fold (er_cte fp G);
      fold (er_setexpr fp G); fold (er_select fp G); fold (er_selitem fp G); fold (er_tableref fp G); fold (er_joinspec fp G);
      first [match goal with H : _ = _ |- _ => exact H end|u wt_node_eq|u wt_winspec_eq|u wt_orderby_eq|u wt_query_eq|u wt_cte_eq|u wt_setexpr_eq|u wt_select_eq|u wt_selitem_eq|u wt_tableref_eq|u wt_joinspec_eq].
    all: try (s; fail).
    all: try (s; cbn; rewrite ?map_id_ext by reflexivity; reflexivity).
    match goal with |- context [map ?f (map ?h bs)] => assert (B : map f (map h bs) = map f bs) end.
    { rewrite map_map. apply map_ext_Forall. eapply Forall_impl; [|exact H0]. intros [x y] [E1 E2]; cbn [fst snd] in *. now rewrite E1, E2. }
    rewrite B. clear H0 B. s.
  Qed.
  Lemma p_node e : wt_node (er_node fp G e) = wt_node e. Proof. apply p_ast. Qed.
  Lemma p_query e : wt_query (er_query fp G e) = wt_query e. Proof. apply p_ast. Qed.
  Lemma p_row r : wt_row (er_row fp G r) = wt_row r.
  Proof. unfold wt_row. cbn [er_row row_values]. now rewrite (map_map_ext wt_node _ _ p_node). Qed.
  Lemma p_src r : wt_source (er_src fp G r) = wt_source r.
  Proof. destruct r; cbn [er_src wt_source]; [apply p_query|]. now rewrite (map_map_ext wt_row _ _ p_row). Qed.
  Lemma p_assign r : wt_assign (er_assign fp G r) = wt_assign r.
  Proof. unfold wt_assign. cbn [er_assign as_id as_value]. now rewrite p_ident, p_node. Qed.
  Lemma p_tc c : wt_tableconstraint (er_tc fp G c) = wt_tableconstraint c.
  Proof.
    destruct c as [p n s]. unfold wt_tableconstraint. cbn [er_tc tc_name tc_spec].
    destruct n; cbn [option_map]; rewrite ?p_ident; (destruct s; cbn [er_tcspec wt_tcspec]; unfold wt_refkey; cbn [er_refkey rk_table rk_columns]; rewrite ?p_idents, ?p_node, ?p_ident; reflexivity).
  Qed.
  Lemma p_cc c : wt_colconstraint (er_cc fp G c) = wt_colconstraint c.
  Proof.
    destruct c as [n p s]. unfold wt_colconstraint. cbn [er_cc cc_name cc_spec].
    destruct n; cbn [option_map]; rewrite ?p_ident; (destruct s; cbn [er_ccspec wt_ccspec]; rewrite ?p_idents, ?p_node, ?p_on; reflexivity).
  Qed.
  Lemma p_coldef c : wt_columndef (er_coldef fp G c) = wt_columndef c.
  Proof.
    destruct c as [n t e d k]. unfold wt_columndef. cbn [er_coldef cd_name cd_type cd_default cd_decorations cd_constraints].
    rewrite p_ident, p_dtype, !map_map. rewrite (map_ext (fun x => WN (wt_colconstraint (er_cc fp G x))) (fun x => WN (wt_colconstraint x)))
      by (intros; now rewrite p_cc). destruct e; cbn [option_map]; rewrite ?p_node; reflexivity.
  Qed.
  Lemma p_element e : wt_tableelement (er_element fp G e) = wt_tableelement e.
  Proof. destruct e; cbn [er_element wt_tableelement]; rewrite ?p_coldef, ?p_tc; reflexivity. Qed.
  Lemma p_option e : wt_tableoption (er_option fp G e) = wt_tableoption e.
  Proof. destruct e; cbn [er_option wt_tableoption]; rewrite ?p_ident; reflexivity. Qed.
  Lemma p_altertable a : wt_altertable (er_ataction fp G a) = wt_altertable a.
  Proof.
    destruct a; cbn [er_ataction wt_altertable]; rewrite ?p_coldef, ?p_tc, ?p_ident; try reflexivity.
    match goal with |- context [er_acaction _ _ ?x] => destruct x end; cbn [er_acaction wt_altercol]; rewrite ?p_node, ?p_dtype; reflexivity.
  Qed.
  Lemma p_stmt s : wt_stmt (er_stmt fp G s) = wt_stmt s.
  Proof.
    induction s; cbn [er_stmt wt_stmt];
      rewrite ?is_nil_map, ?p_query, ?p_on, ?p_idents, ?p_src, ?p_altertable, ?(map_map_ext wt_assign _ _ p_assign),
        ?(map_map_ext wt_tableelement _ _ p_element), ?(map_map_ext wt_tableoption _ _ p_option), ?(map_map_ext wt_objname _ _ p_on), ?IHs;
      try reflexivity; s; try reflexivity; rewrite ?p_node; reflexivity.
  Qed.
End Pos.
