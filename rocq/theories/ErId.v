(** Renaming with identities changes nothing, and renamings compose. *)
From Coq Require Import ZArith List Bool.
From Verif Require Import Base Token AST AstInd Erase.
Import ListNotations.

Lemma map_id_ext {A} (f : A -> A) l : (forall x, f x = x) -> map f l = l.
Proof. intros H. induction l; cbn; congruence. Qed.
Lemma map_id_Forall {A} (f : A -> A) l : Forall (fun x => f x = x) l -> map f l = l.
Proof. induction 1; cbn; congruence. Qed.
Lemma omap_id_ext {A} (f : A -> A) o : (forall x, f x = x) -> option_map f o = o.
Proof. intros H. destruct o; cbn; congruence. Qed.
Lemma omap_id_all {A} (f : A -> A) o : opt_all (fun x => f x = x) o -> option_map f o = o.
Proof. destruct o; cbn; congruence. Qed.

Section Id.
  Variable fp : pos -> pos.
  Variable g : rune -> rune.
  Hypothesis Hfp : forall p, fp p = p.
  Hypothesis Hg : forall r, g r = r.

  Lemma er_word_id w : er_word g w = w.
  Proof. destruct w. unfold er_word. cbn. now rewrite map_id_ext. Qed.
  Lemma er_tok_id t : er_tok fp g t = t.
  Proof.
    destruct t as [k v a b]. unfold er_tok. cbn. rewrite !Hfp.
    destruct v; cbn; [now rewrite er_word_id|reflexivity].
  Qed.
  Lemma er_ident_id i : er_ident fp g i = i.
  Proof. destruct i. unfold er_ident. cbn. now rewrite map_id_ext, !Hfp. Qed.
  Lemma er_on_id o : er_on fp g o = o.
  Proof. destruct o. unfold er_on. cbn. now rewrite (map_id_ext _ _ er_ident_id). Qed.
  Lemma er_op_id o : er_op fp o = o.
  Proof. destruct o. unfold er_op. cbn. now rewrite !Hfp. Qed.
  Lemma er_long_id o : er_long fp o = o.
  Proof. destruct o. unfold er_long. cbn. now rewrite !Hfp. Qed.
  Lemma er_jt_id o : er_jt fp o = o.
  Proof. destruct o. unfold er_jt. cbn. now rewrite !Hfp. Qed.
  Lemma er_limit_id o : er_limit fp o = o.
  Proof.
    destruct o. unfold er_limit. cbn. now rewrite !Hfp, !(omap_id_ext _ _ er_long_id).
  Qed.
  Lemma er_bound_id o : er_bound fp o = o.
  Proof. destruct o; cbn; now rewrite !Hfp. Qed.
  Lemma er_wframe_id o : er_wframe fp o = o.
  Proof.
    destruct o as [[a b c] s e]. unfold er_wframe. cbn.
    now rewrite !Hfp, er_bound_id, (omap_id_ext _ _ er_bound_id).
  Qed.
  Lemma er_setop_id o : er_setop fp o = o.
  Proof. destruct o; cbn; now rewrite !Hfp. Qed.
  Lemma er_dtype_id t : er_dtype fp g t = t.
  Proof. induction t; cbn; rewrite ?Hfp, ?er_on_id; congruence. Qed.

  Ltac s :=
    repeat match goal with
      | H : Forall _ _ |- _ => apply map_id_Forall in H
      | H : opt_all _ _ |- _ => apply omap_id_all in H
      end;
    rewrite ?Hfp, ?er_ident_id, ?er_on_id, ?er_op_id, ?er_long_id, ?er_jt_id, ?er_dtype_id, ?er_setop_id,
      ?(map_id_ext _ _ er_ident_id), ?(omap_id_ext _ _ er_ident_id), ?(omap_id_ext _ _ er_limit_id),
      ?(omap_id_ext _ _ er_wframe_id);
    congruence.

  Lemma er_ast_id :
    (forall e, er_node fp g e = e) /\ (forall w, er_winspec fp g w = w) /\
    (forall o, er_orderby fp g o = o) /\ (forall q, er_query fp g q = q) /\
    (forall c, er_cte fp g c = c) /\ (forall b, er_setexpr fp g b = b) /\
    (forall s, er_select fp g s = s) /\ (forall i, er_selitem fp g i = i) /\
    (forall t, er_tableref fp g t = t) /\ (forall j, er_joinspec fp g j = j).
  Proof.
    apply ast_ind; intros;
      cbn [er_node er_winspec er_orderby er_query er_cte er_setexpr er_select er_selitem er_tableref er_joinspec];
      fold (er_node fp g);
      fold (er_winspec fp g);
      fold (er_orderby fp g);
      fold (er_query fp g);
      fold (er_cte fp g);
      fold (er_setexpr fp g);
      fold (er_select fp g);
      fold (er_selitem fp g);
      fold (er_tableref fp g);
      fold (er_joinspec fp g);
      try s.
    assert (B : map (fun b => (er_node fp g (fst b), er_node fp g (snd b))) bs = bs).
    { apply map_id_Forall. eapply Forall_impl; [|exact H0]. intros [x y] [E1 E2]; cbn in *. congruence. }
    clear H0. s.
  Qed.

  Lemma er_node_id e : er_node fp g e = e. Proof. apply er_ast_id. Qed.
  Lemma er_query_id e : er_query fp g e = e. Proof. apply er_ast_id. Qed.
  Lemma er_row_id r : er_row fp g r = r.
  Proof. destruct r. unfold er_row; cbn. now rewrite !Hfp, (map_id_ext _ _ er_node_id). Qed.
  Lemma er_src_id r : er_src fp g r = r.
  Proof. destruct r; cbn; [now rewrite er_query_id|now rewrite Hfp, (map_id_ext _ _ er_row_id)]. Qed.
  Lemma er_assign_id r : er_assign fp g r = r.
  Proof. destruct r. unfold er_assign; cbn. now rewrite er_ident_id, er_node_id. Qed.
  Lemma er_refkey_id r : er_refkey fp g r = r.
  Proof. destruct r. unfold er_refkey; cbn. now rewrite er_ident_id, (map_id_ext _ _ er_ident_id), Hfp. Qed.
  Lemma er_tc_id r : er_tc fp g r = r.
  Proof.
    destruct r as [p n s]. unfold er_tc; cbn. rewrite Hfp, (omap_id_ext _ _ er_ident_id).
    destruct s; cbn; now rewrite ?Hfp, ?(map_id_ext _ _ er_ident_id), ?er_refkey_id, ?er_node_id.
  Qed.
  Lemma er_cc_id r : er_cc fp g r = r.
  Proof.
    destruct r as [n p s]. unfold er_cc; cbn. rewrite Hfp, (omap_id_ext _ _ er_ident_id).
    destruct s; cbn; now rewrite ?Hfp, ?(map_id_ext _ _ er_ident_id), ?er_on_id, ?er_node_id.
  Qed.
  Lemma er_deco_id r : er_deco fp r = r.
  Proof. destruct r. unfold er_deco; cbn. now rewrite !Hfp. Qed.
  Lemma er_coldef_id r : er_coldef fp g r = r.
  Proof.
    destruct r. unfold er_coldef; cbn.
    now rewrite er_ident_id, er_dtype_id, (omap_id_ext _ _ er_node_id), (map_id_ext _ _ er_deco_id),
      (map_id_ext _ _ er_cc_id).
  Qed.
  Lemma er_element_id r : er_element fp g r = r.
  Proof. destruct r; cbn; now rewrite ?er_coldef_id, ?er_tc_id. Qed.
  Lemma er_option_id r : er_option fp g r = r.
  Proof. destruct r; cbn; now rewrite ?Hfp, ?er_ident_id. Qed.
  Lemma er_acaction_id r : er_acaction fp g r = r.
  Proof. destruct r; cbn; now rewrite ?Hfp, ?er_node_id, ?er_dtype_id. Qed.
  Lemma er_ataction_id r : er_ataction fp g r = r.
  Proof. destruct r; cbn; now rewrite ?Hfp, ?er_ident_id, ?er_coldef_id, ?er_tc_id, ?er_acaction_id. Qed.
  Lemma er_stmt_id s : er_stmt fp g s = s.
  Proof.
    induction s; cbn;
      rewrite ?Hfp, ?er_query_id, ?er_on_id, ?er_src_id, ?er_ataction_id, ?(map_id_ext _ _ er_ident_id),
        ?(omap_id_ext _ _ er_ident_id), ?(omap_id_ext _ _ er_node_id), ?(map_id_ext _ _ er_assign_id),
        ?(map_id_ext _ _ er_element_id), ?(map_id_ext _ _ er_option_id), ?(map_id_ext _ _ er_on_id);
      congruence.
  Qed.
End Id.
