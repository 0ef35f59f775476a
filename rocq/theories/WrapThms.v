(** Parentheses make a tree writable (C56). *)
From Coq Require Import ZArith List Bool String Lia.
From Verif Require Import Base Dialect Token LexFacts AST AstInd Num Grammar Render RtPrim WrapSpec.
Import ListNotations.
Open Scope list_scope.
Open Scope Z_scope.

(** * Parentheses do not change the tree *)
Lemma map_same {A B} (f g : A -> B) l : Forall (fun x => f x = g x) l -> map f l = map g l.
Proof. induction 1; cbn; congruence. Qed.
Lemma opt_same {A B} (f g : A -> B) o : opt_all (fun x => f x = g x) o -> option_map f o = option_map g o.
Proof. destruct o; cbn; congruence. Qed.
Lemma strip_guard e : strip (guard e) = strip e.
Proof. destruct e; reflexivity. Qed.
Lemma strip_wrap_all :
  (forall e, strip (wrap e) = strip e) /\ (forall w, strip_winspec (wrap_winspec w) = strip_winspec w) /\
  (forall o, strip_orderby (wrap_orderby o) = strip_orderby o) /\ (query -> True) /\ (cte -> True) /\ (setexpr -> True) /\
  (select -> True) /\ (selitem -> True) /\ (tableref -> True) /\ (joinspec -> True).
Proof.
  apply (ast_ind (fun e => strip (wrap e) = strip e) (fun w => strip_winspec (wrap_winspec w) = strip_winspec w)
    (fun o => strip_orderby (wrap_orderby o) = strip_orderby o) (fun _ => True) (fun _ => True) (fun _ => True) (fun _ => True)
    (fun _ => True) (fun _ => True) (fun _ => True)); intros; try exact I; try reflexivity;
    cbn [wrap wrap_winspec wrap_orderby strip strip_winspec strip_orderby]; rewrite ?strip_guard, ?map_map;
    try assumption; try solve [f_equal; first [assumption | apply map_same; assumption | match goal with o : option _ |- _ => destruct o; cbn in *; congruence end]].
  - f_equal; try solve [match goal with |- option_map _ (option_map _ ?o) = _ => destruct o; cbn in *; congruence end].
    apply map_same. eapply Forall_impl; [|eassumption]. intros b [E1 E2]. cbn. congruence.
Qed.
Lemma strip_wrap e : strip (wrap e) = strip e.
Proof. apply strip_wrap_all. Qed.

(** * The first word *)
Lemma fold_upper s : forallb (fun c => (65 <=? c) && (c <=? 95) && negb (c =? 75)) s = true -> forall v, equal_fold v s = true -> upper v = s.
Proof.
  induction s as [|c s IH]; intros Hp [|x v] E; try reflexivity; cbn in *; try congruence.
  apply andb_prop in Hp. destruct Hp as [Hc Hp]. apply andb_prop in E as [E E2]. change (to_upper x :: upper v = c :: s). rewrite (IH Hp v E2). f_equal.
  revert E. unfold fold1, to_upper. rewrite Z.eqb_eq.
  repeat match goal with |- context [if ?b then _ else _] => destruct b eqn:? end; lia.
Qed.

Definition front_words : list string := expr_words ++ ["SELECT"; "WITH"; "WHEN"]%string.
Definition quiet (l : list token) : Prop := starts "SELECT" l = false /\ starts "WITH" l = false /\ starts "WHEN" l = false.

Lemma word_starts i l s : word_in front_words i = false -> In s ["SELECT"; "WITH"; "WHEN"; "EXISTS"]%string -> starts s (idt i :: l) = false.
Proof.
  intros W I. cbn [starts idt tval]. destruct (equal_fold (wvalue (text_word (id_value i))) (gs s)) eqn:E; [|reflexivity].
  exfalso. apply fold_upper in E; [|destruct I as [<-|[<-|[<-|[<-|[]]]]]; reflexivity].
  unfold word_in in W. rewrite E in W. destruct I as [<-|[<-|[<-|[<-|[]]]]]; vm_compute in W; discriminate W.
Qed.
Lemma dots_first l : l <> [] -> exists i l' u, l = i :: l' /\ t_dots l = idt i :: u.
Proof. destruct l as [|i [|j l]]; [congruence| |]; intros _; do 3 eexists; split; reflexivity. Qed.

Section Able.
  Variable dl : dialect.
  Notation wf_node := (wf_node dl).
  Notation wf_winspec := (wf_winspec dl).
  Notation wf_orderby := (wf_orderby dl).
  Notation able := (able dl).

  Lemma name_starts l u s : name_ok dl l = true -> In s ["SELECT"; "WITH"; "WHEN"; "EXISTS"]%string -> starts s (t_dots l ++ u) = false.
  Proof.
    intros N I. unfold name_ok in N. apply andb_prop in N as [N1 N2]. apply negb_true_iff in N2.
    assert (X : l <> []) by (intros ->; discriminate N1). destruct (dots_first l X) as (i & l' & v & -> & ->).
    cbn [app]. apply word_starts; [exact N2|exact I].
  Qed.
  Lemma name_wf l : name_ok dl l = true -> wf_ids dl l = true /\ first_in expr_words l = false.
  Proof.
    intros N. unfold name_ok in N. apply andb_prop in N as [N1 N2]. split; [exact N1|]. apply negb_true_iff in N2.
    destruct l as [|i l]; [reflexivity|]. cbn [first_in] in *. unfold word_in in *.
    destruct (mem_gs (upper (wvalue (text_word (id_value i)))) (map gs expr_words)) eqn:M; [|reflexivity].
    rewrite <- N2. rewrite map_app. unfold mem_gs in *. rewrite existsb_app. rewrite M. reflexivity.
  Qed.

  Definition good (e : node) : Prop := able e = true ->
    wf_node (wrap e) = true /\ t_node (wrap e) <> [] /\ quiet (t_node (wrap e)) /\ starts "EXISTS" (t_node (guard (wrap e))) = false.
  Definition goodo (o : orderby) : Prop := able_orderby dl o = true -> wf_orderby (wrap_orderby o) = true.
  Definition goodw (w : winspec) : Prop := able_winspec dl w = true -> wf_winspec (wrap_winspec w) = true.

  Lemma wf_insub e q n r : wf_node (EInSubQuery e q n r) = wf_node e && (in_level n <=? open_right e) && wf_query dl q && sub_query q.
  Proof. reflexivity. Qed.
  Lemma wf_sub q l r : wf_node (ESubQuery q l r) = wf_query dl q && sub_query q. Proof. reflexivity. Qed.
  Lemma wf_exists n q a b c : wf_node (EExists n q a b c) = wf_query dl q. Proof. reflexivity. Qed.
  Lemma wf_fun n args r ov orp : wf_node (EFunction n args r ov orp) =
    wf_on dl n && negb (first_in expr_words (on_idents n)) && forallb wf_node args && match ov with Some o => wf_winspec o | None => true end.
  Proof. reflexivity. Qed.
  Lemma wf_case c ce o bs el : wf_node (ECase c ce o bs el) =
    match o with Some o => wf_node o && negb (starts "WHEN" (t_node o)) | None => true end
    && nonempty bs && forallb (fun p => match p with (c, r) => wf_node c && wf_node r end) bs
    && match el with Some e => wf_node e | None => true end.
  Proof. reflexivity. Qed.

  Lemma guard_lopen e : lopen (guard e) = closed. Proof. destruct e; reflexivity. Qed.
  Lemma guard_open e : open_right (guard e) = closed. Proof. destruct e; reflexivity. Qed.
  Lemma guard_first e : t_node e <> [] -> quiet (t_node e) -> quiet (t_node (guard e)) /\ t_node (guard e) <> [].
  Proof. intros N H. destruct e; try (split; [exact H|exact N]); (split; [split; [|split]; reflexivity|discriminate]). Qed.
  Lemma guard_wf e : wf_node e = true -> quiet (t_node e) -> wf_node (guard e) = true.
  Proof.
    intros W (Q1 & Q2 & _).
    assert (X : wf_node (ENested e pos0 pos0) = true) by (cbn [Render.wf_node]; rewrite W, Q1, Q2; reflexivity).
    destruct e; try exact W; exact X.
  Qed.
  Lemma use e : good e -> able e = true ->
    wf_node (guard (wrap e)) = true /\ t_node (guard (wrap e)) <> [] /\ quiet (t_node (guard (wrap e))) /\ starts "EXISTS" (t_node (guard (wrap e))) = false.
  Proof.
    intros G A. destruct (G A) as (W & N & Q & E). destruct (guard_first _ N Q) as [Q' N']. split; [apply guard_wf; assumption|]. auto.
  Qed.
  Lemma quiet_app a b : a <> [] -> quiet a -> quiet (a ++ b).
  Proof. intros N (Q1 & Q2 & Q3). unfold quiet. rewrite !starts_app by exact N. auto. Qed.
  Lemma app_first {A} (a b : list A) : a <> [] -> a ++ b <> []. Proof. destruct a; [congruence|discriminate]. Qed.
  Lemma good_list l : Forall good l -> forallb able l = true -> forallb wf_node (map wrap l) = true.
  Proof.
    induction 1 as [|x l H _ IH]; cbn [forallb map]; [auto|]. intros A. apply andb_prop in A as [A1 A2]. destruct (H A1) as [-> _]. cbn. auto.
  Qed.
  Lemma good_pairs l : Forall (fun b : node * node => good (fst b) /\ good (snd b)) l -> forallb (fun p : node * node => able (fst p) && able (snd p)) l = true ->
    forallb (fun p : node * node => let (c, r) := p in wf_node c && wf_node r) (map (fun b : node * node => (wrap (fst b), wrap (snd b))) l) = true.
  Proof.
    induction 1 as [|x l [H1 H2] _ IH]; cbn [forallb map]; [auto|]. intros A. apply andb_prop in A as [A1 A2]. apply andb_prop in A1 as [A1 A3].
    destruct (H1 A1) as [-> _]. destruct (H2 A3) as [-> _]. cbn. auto.
  Qed.
  Lemma good_opt o : opt_all good o -> match o with Some e => able e | None => true end = true ->
    match option_map wrap o with Some e => wf_node e | None => true end = true.
  Proof. destruct o as [x|]; [|auto]. cbn. intros H A. apply (H A). Qed.
  Lemma good_orders l : Forall goodo l -> forallb (able_orderby dl) l = true -> forallb wf_orderby (map wrap_orderby l) = true.
  Proof.
    induction 1 as [|x l H _ IH]; cbn [forallb map]; [auto|]. intros A. apply andb_prop in A as [A1 A2]. rewrite (H A1). cbn. auto.
  Qed.
  Lemma commas_first l : nonempty l = true -> Forall good l -> forallb able l = true ->
    quiet (commas t_node (map wrap l)).
  Proof.
    intros N H A. destruct l as [|x l]; [discriminate N|]. inversion H as [|? ? G _]; subst. cbn [forallb] in A. apply andb_prop in A as [A1 A2].
    destruct (G A1) as (_ & X & Q & _). unfold commas. destruct l as [|y l]; cbn [map sepby]; [exact Q|]. apply quiet_app; assumption.
  Qed.
  Lemma nonempty_map {A B} (f : A -> B) l : nonempty (map f l) = nonempty l. Proof. destruct l; reflexivity. Qed.

  Ltac ands := repeat match goal with H : _ && _ = true |- _ => apply andb_prop in H as [? ?] end.
  Ltac ih := repeat match goal with
    | G : good ?e, A : able ?e = true |- _ => destruct (use e G A) as (? & ? & ? & ?); destruct (G A) as (? & ? & ? & _); clear G A
    end.

  Ltac red_wf := first [rewrite wf_insub | rewrite wf_sub | rewrite wf_exists | rewrite wf_fun | rewrite wf_case | cbn [Render.wf_node]].
  Ltac ok := repeat match goal with
    | H : ?b = true |- context [?b] => rewrite H
    | H : quiet _ |- _ => destruct H as (? & ? & ?)
    | H : ?b = false |- context [?b] => rewrite H
    end; repeat split; auto; try discriminate; try (apply app_first; assumption); try (rewrite starts_app by assumption; assumption).

  Lemma able_good :
    (forall e, good e) /\ (forall w, goodw w) /\ (forall o, goodo o) /\ (query -> True) /\ (cte -> True) /\ (setexpr -> True) /\
    (select -> True) /\ (selitem -> True) /\ (tableref -> True) /\ (joinspec -> True).
  Proof.
    apply (ast_ind good goodw goodo (fun _ => True) (fun _ => True) (fun _ => True) (fun _ => True) (fun _ => True) (fun _ => True) (fun _ => True));
      intros; try exact I; unfold good, goodw, goodo; cbn [WrapSpec.able able_winspec able_orderby]; intros AB; ands; ih.
    - destruct (name_wf _ AB) as [W F]. cbn [wrap Render.wf_node t_node]. cbn [wf_ids nonempty forallb andb first_in] in W, F. unfold wf_ids in W. cbn [nonempty forallb andb] in W. rewrite andb_true_r in W. rewrite W, F.
      split; [reflexivity|]. split; [discriminate|]. split; [|apply (name_starts [i] [] _ AB); cbn; auto].
      split; [|split]; apply (name_starts [i] [] _ AB); cbn; auto.
    - split; [reflexivity|]. split; [discriminate|]. split; [split; [|split]|]; reflexivity.
    - destruct (name_wf _ AB) as [W F]. cbn [wrap]. red_wf. cbn [t_node guard]. rewrite W, F. split; [reflexivity|].
      split; [destruct (t_dots l); discriminate|]. split; [split; [|split]|]; apply name_starts; cbn; auto.
    - destruct (name_wf _ H) as [W F]. cbn [wrap]. red_wf. cbn [t_node guard]. rewrite W, F, H0. split; [reflexivity|].
      assert (E : t_dots l = t_dots l ++ []) by (symmetry; apply app_nil_r).
      split; [|rewrite E; split; [split; [|split]|]; apply name_starts; cbn; auto].
      destruct l as [|? [|? ?]]; [discriminate W|discriminate|discriminate].
    - cbn [wrap]. red_wf. cbn [t_node guard]. rewrite guard_open. ok.
    - cbn [wrap]. red_wf. cbn [t_node guard]. rewrite guard_open. ok.
    - cbn [wrap]. red_wf. cbn [t_node guard]. rewrite guard_open, nonempty_map.
      destruct (commas_first l) as (Q1 & Q2 & _); auto. rewrite Q1, Q2, (good_list l) by auto. destruct n; ok.
    - cbn [wrap]. red_wf. cbn [t_node guard]. rewrite guard_open. destruct n; ok.
    - cbn [wrap]. red_wf. cbn [t_node guard]. unfold atomic. rewrite guard_open, !guard_lopen. destruct n; ok.
    - cbn [wrap]. red_wf. cbn [t_node guard]. rewrite guard_open, guard_lopen. destruct (op_type op); ok.
    - cbn [wrap]. red_wf. cbn [t_node guard]. ok.
    - cbn [wrap]. red_wf. cbn [t_node guard]. ok.
    - cbn [wrap]. red_wf. cbn [t_node guard]. rewrite guard_lopen. destruct (op_type op); ok.
    - destruct (name_wf _ H1) as [W F]. cbn [wrap]. red_wf. cbn [t_node guard]. unfold wf_on. rewrite W, F, (good_list args) by auto.
      assert (X : t_dots (on_idents n) <> []) by (destruct (on_idents n) as [|? [|? ?]]; [discriminate W|discriminate|discriminate]).
      split; [|split; [apply app_first; exact X|split; [split; [|split]|]; apply name_starts; cbn; auto]].
      destruct ov as [w|]; [|reflexivity]. cbn [option_map opt_all negb andb] in *. auto.
    - cbn [wrap]. red_wf. cbn [t_node guard]. split; [|split; [discriminate|split; [split; [|split]|]; reflexivity]].
      rewrite nonempty_map, (good_pairs bs) by auto. rewrite (good_opt el) by auto.
      replace (match option_map wrap o with Some o0 => wf_node o0 && negb (starts "WHEN" (t_node o0)) | None => true end) with true; [ok|].
      destruct o as [x|]; [|reflexivity]. cbn [option_map opt_all] in *. destruct (H H2) as (-> & _ & (_ & _ & ->) & _). reflexivity.
    - cbn [wrap]. red_wf. cbn [t_node guard]. split; [exact AB|]. destruct n; (split; [discriminate|split; [split; [|split]|]; reflexivity]).
    - cbn [wrap]. red_wf. cbn [t_node guard]. ok.
    - split; [exact AB|]. split; [discriminate|split; [split; [|split]|]; reflexivity].
    - split; [exact AB|]. split; [discriminate|split; [split; [|split]|]; reflexivity].
    - split; [exact AB|]. split; [discriminate|split; [split; [|split]|]; reflexivity].
    - split; [exact AB|]. split; [discriminate|split; [split; [|split]|]; reflexivity].
    - split; [exact AB|]. destruct b; (split; [discriminate|split; [split; [|split]|]; reflexivity]).
    - split; [exact AB|]. split; [discriminate|split; [split; [|split]|]; reflexivity].
    - change (forallb wf_node (map wrap pb) && forallb wf_orderby (map wrap_orderby ob) && all_opt wf_wframe fr = true).
      rewrite (good_list pb), (good_orders ob) by auto. assumption.
    - cbn [wrap_orderby]. change (wf_node (wrap e) = true). apply H. exact AB.
  Qed.

  Lemma able_wf e : able e = true -> wf_node (wrap e) = true.
  Proof. intros A. apply (proj1 able_good e A). Qed.
End Able.
