(** Renamings compose. *)
From Coq Require Import ZArith List Bool.
From Verif Require Import Base Token AST AstInd Erase.
Import ListNotations.

Lemma map_comp_ext {A} (f h k : A -> A) l : (forall x, f (h x) = k x) -> map f (map h l) = map k l.
Proof. intros H. rewrite map_map. apply map_ext. exact H. Qed.
Lemma map_comp_all {A} (f h k : A -> A) l : Forall (fun x => f (h x) = k x) l -> map f (map h l) = map k l.
Proof. intros H. rewrite map_map. apply map_ext_Forall. exact H. Qed.
Lemma omap_comp_ext {A} (f h k : A -> A) o : (forall x, f (h x) = k x) -> option_map f (option_map h o) = option_map k o.
Proof. intros H. destruct o; cbn; congruence. Qed.
Lemma omap_comp_all {A} (f h k : A -> A) o : opt_all (fun x => f (h x) = k x) o -> option_map f (option_map h o) = option_map k o.
Proof. destruct o; cbn; congruence. Qed.

Section Comp.
  Variables (fp fq fr : pos -> pos) (g h k : rune -> rune).
  Hypothesis Hp : forall p, fp (fq p) = fr p.
  Hypothesis Hr : forall r, g (h r) = k r.

  Lemma er_ident_comp i : er_ident fp g (er_ident fq h i) = er_ident fr k i.
  Proof. destruct i. unfold er_ident. cbn. now rewrite (map_comp_ext g h k _ Hr), !Hp. Qed.
  Notation li := (map_comp_ext _ _ _ _ er_ident_comp).
  Notation oi := (omap_comp_ext _ _ _ _ er_ident_comp).
  Lemma er_on_comp o : er_on fp g (er_on fq h o) = er_on fr k o.
  Proof. destruct o. unfold er_on. cbn. now rewrite li. Qed.
  Lemma er_op_comp o : er_op fp (er_op fq o) = er_op fr o.
  Proof. destruct o. unfold er_op. cbn. now rewrite !Hp. Qed.
  Lemma er_long_comp o : er_long fp (er_long fq o) = er_long fr o.
  Proof. destruct o. unfold er_long. cbn. now rewrite !Hp. Qed.
  Lemma er_jt_comp o : er_jt fp (er_jt fq o) = er_jt fr o.
  Proof. destruct o. unfold er_jt. cbn. now rewrite !Hp. Qed.
  Lemma er_limit_comp o : er_limit fp (er_limit fq o) = er_limit fr o.
  Proof. destruct o. unfold er_limit. cbn. now rewrite !Hp, !(omap_comp_ext _ _ _ _ er_long_comp). Qed.
  Lemma er_bound_comp o : er_bound fp (er_bound fq o) = er_bound fr o.
  Proof. destruct o; cbn; now rewrite !Hp. Qed.
  Lemma er_wframe_comp o : er_wframe fp (er_wframe fq o) = er_wframe fr o.
  Proof.
    destruct o as [[a b c] s e]. unfold er_wframe. cbn. now rewrite !Hp, er_bound_comp, (omap_comp_ext _ _ _ _ er_bound_comp).
  Qed.
  Lemma er_setop_comp o : er_setop fp (er_setop fq o) = er_setop fr o.
  Proof. destruct o; cbn; now rewrite !Hp. Qed.
  Lemma er_dtype_comp t : er_dtype fp g (er_dtype fq h t) = er_dtype fr k t.
  Proof. induction t; cbn; rewrite ?Hp, ?er_on_comp; congruence. Qed.

  Ltac s :=
    repeat match goal with
      | H : Forall _ _ |- _ => apply map_comp_all in H
      | H : opt_all _ _ |- _ => apply omap_comp_all in H
      end;
    rewrite ?Hp, ?er_ident_comp, ?er_on_comp, ?er_op_comp, ?er_long_comp, ?er_jt_comp, ?er_dtype_comp, ?er_setop_comp,
      ?li, ?oi, ?(omap_comp_ext _ _ _ _ er_limit_comp), ?(omap_comp_ext _ _ _ _ er_wframe_comp);
    congruence.

  Lemma er_ast_comp :
    (forall e, er_node fp g (er_node fq h e) = er_node fr k e) /\ (forall w, er_winspec fp g (er_winspec fq h w) = er_winspec fr k w) /\
    (forall o, er_orderby fp g (er_orderby fq h o) = er_orderby fr k o) /\ (forall q, er_query fp g (er_query fq h q) = er_query fr k q) /\
    (forall c, er_cte fp g (er_cte fq h c) = er_cte fr k c) /\ (forall b, er_setexpr fp g (er_setexpr fq h b) = er_setexpr fr k b) /\
    (forall s, er_select fp g (er_select fq h s) = er_select fr k s) /\ (forall i, er_selitem fp g (er_selitem fq h i) = er_selitem fr k i) /\
    (forall t, er_tableref fp g (er_tableref fq h t) = er_tableref fr k t) /\ (forall j, er_joinspec fp g (er_joinspec fq h j) = er_joinspec fr k j).
  Proof.
    apply ast_ind; intros;
      cbn [er_node er_winspec er_orderby er_query er_cte er_setexpr er_select er_selitem er_tableref er_joinspec];
      repeat match goal with f : (pos -> pos), i : (rune -> rune) |- _ =>
        progress (fold (er_node f i); fold (er_winspec f i); fold (er_orderby f i); fold (er_query f i); fold (er_cte f i);
          fold (er_setexpr f i); fold (er_select f i); fold (er_selitem f i); fold (er_tableref f i); fold (er_joinspec f i)) end;
      try s.
    match goal with H0 : Forall (fun b : node * node => _ /\ _) bs |- _ =>
      assert (B : map (fun b => (er_node fp g (fst b), er_node fp g (snd b))) (map (fun b => (er_node fq h (fst b), er_node fq h (snd b))) bs)
                  = map (fun b => (er_node fr k (fst b), er_node fr k (snd b))) bs)
        by (apply map_comp_all; eapply Forall_impl; [|exact H0]; intros [x y] [E1 E2]; cbn in *; congruence); clear H0 end.
    s.
  Qed.

  Lemma er_node_comp e : er_node fp g (er_node fq h e) = er_node fr k e. Proof. apply er_ast_comp. Qed.
  Lemma er_query_comp e : er_query fp g (er_query fq h e) = er_query fr k e. Proof. apply er_ast_comp. Qed.
  Notation ln := (map_comp_ext _ _ _ _ er_node_comp).
  Notation onn := (omap_comp_ext _ _ _ _ er_node_comp).
  Lemma er_row_comp r : er_row fp g (er_row fq h r) = er_row fr k r.
  Proof. destruct r. unfold er_row; cbn. now rewrite !Hp, ln. Qed.
  Lemma er_src_comp r : er_src fp g (er_src fq h r) = er_src fr k r.
  Proof. destruct r; cbn; [now rewrite er_query_comp|now rewrite Hp, (map_comp_ext _ _ _ _ er_row_comp)]. Qed.
  Lemma er_assign_comp r : er_assign fp g (er_assign fq h r) = er_assign fr k r.
  Proof. destruct r. unfold er_assign; cbn. now rewrite er_ident_comp, er_node_comp. Qed.
  Lemma er_refkey_comp r : er_refkey fp g (er_refkey fq h r) = er_refkey fr k r.
  Proof. destruct r. unfold er_refkey; cbn. now rewrite er_ident_comp, li, Hp. Qed.
  Lemma er_tc_comp r : er_tc fp g (er_tc fq h r) = er_tc fr k r.
  Proof. destruct r as [p n s]. unfold er_tc; cbn. rewrite Hp, oi. destruct s; cbn; now rewrite ?Hp, ?li, ?er_refkey_comp, ?er_node_comp. Qed.
  Lemma er_cc_comp r : er_cc fp g (er_cc fq h r) = er_cc fr k r.
  Proof. destruct r as [n p s]. unfold er_cc; cbn. rewrite Hp, oi. destruct s; cbn; now rewrite ?Hp, ?li, ?er_on_comp, ?er_node_comp. Qed.
  Lemma er_deco_comp r : er_deco fp (er_deco fq r) = er_deco fr r.
  Proof. destruct r. unfold er_deco; cbn. now rewrite !Hp. Qed.
  Lemma er_coldef_comp r : er_coldef fp g (er_coldef fq h r) = er_coldef fr k r.
  Proof.
    destruct r. unfold er_coldef; cbn.
    now rewrite er_ident_comp, er_dtype_comp, onn, (map_comp_ext _ _ _ _ er_deco_comp), (map_comp_ext _ _ _ _ er_cc_comp).
  Qed.
  Lemma er_element_comp r : er_element fp g (er_element fq h r) = er_element fr k r.
  Proof. destruct r; cbn; now rewrite ?er_coldef_comp, ?er_tc_comp. Qed.
  Lemma er_option_comp r : er_option fp g (er_option fq h r) = er_option fr k r.
  Proof. destruct r; cbn; now rewrite ?Hp, ?er_ident_comp. Qed.
  Lemma er_acaction_comp r : er_acaction fp g (er_acaction fq h r) = er_acaction fr k r.
  Proof. destruct r; cbn; now rewrite ?Hp, ?er_node_comp, ?er_dtype_comp. Qed.
  Lemma er_ataction_comp r : er_ataction fp g (er_ataction fq h r) = er_ataction fr k r.
  Proof. destruct r; cbn; now rewrite ?Hp, ?er_ident_comp, ?er_coldef_comp, ?er_tc_comp, ?er_acaction_comp. Qed.
  Lemma er_stmt_comp s : er_stmt fp g (er_stmt fq h s) = er_stmt fr k s.
  Proof.
    induction s; cbn;
      rewrite ?Hp, ?er_query_comp, ?er_on_comp, ?er_src_comp, ?er_ataction_comp, ?li, ?oi, ?onn, ?(map_comp_ext _ _ _ _ er_assign_comp),
        ?(map_comp_ext _ _ _ _ er_element_comp), ?(map_comp_ext _ _ _ _ er_option_comp), ?(map_comp_ext _ _ _ _ er_on_comp);
      congruence.
  Qed.
End Comp.
