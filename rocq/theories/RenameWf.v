(** Readable trees stay readable when their identifiers are renamed. *)
From Coq Require Import ZArith List Bool String Lia.
From Verif Require Import Base Dialect Token LexFacts AST AstInd Num Prog Parser ParseSpec Grammar Render RenameSpec RenameNat RenameThms.
Import ListNotations.
Open Scope string_scope.
Open Scope list_scope.
Open Scope Z_scope.

(** Nothing the text begins with becomes a word of the vocabulary, or stops
    being one. *)
Definition SE (l l' : list token) : Prop :=
  nonempty l = nonempty l' /\ forall s, voc s = true -> starts s l = starts s l'.

Lemma SE_refl l : SE l l. Proof. split; reflexivity. Qed.
Lemma SE_cons t l l' : SE (t :: l) (t :: l'). Proof. split; reflexivity. Qed.
Lemma SE_app a a' b b' : SE a a' -> SE b b' -> SE (a ++ b) (a' ++ b').
Proof.
  intros [A1 A2] [B1 B2]. destruct a as [|x a], a' as [|x' a']; try discriminate A1; cbn [app]; [split; auto|].
  split; [reflexivity|]. exact A2.
Qed.
Lemma SE_cond b l : SE (cond b l) (cond b l). Proof. apply SE_refl. Qed.
Lemma SE_parens a a' : SE (parens a) (parens a'). Proof. apply SE_cons. Qed.
Lemma SE_list_of {A B} (l : list A) (g : A -> B) t l1 l2 : SE (list_of l (t :: l1)) (list_of (map g l) (t :: l2)).
Proof. destruct l; [apply SE_refl|apply SE_cons]. Qed.
Lemma SE_sepby s (l l' : list (list token)) : Forall2 SE l l' -> SE (sepby s l) (sepby s l').
Proof.
  intros H. destruct H as [|x y l l' X R]; [apply SE_refl|].
  destruct R as [|x2 y2 l l' X2 R]; cbn [sepby]; [exact X|].
  apply SE_app; [exact X|apply SE_cons].
Qed.
Lemma SE_commas {A} (t : A -> list token) g l : Forall (fun x => SE (t x) (t (g x))) l -> SE (commas t l) (commas t (map g l)).
Proof. intros H. unfold commas. apply SE_sepby. induction H; cbn [map]; constructor; auto. Qed.

Lemma starts_SE s l l' : SE l l' -> voc s = true -> starts s l' = starts s l.
Proof. intros [_ H] V. symmetry. apply H. exact V. Qed.

Section Wf.
  Variable d : dialect.
  Variable f : gostring -> gostring.
  Hypothesis RF : renaming f.
  Hypothesis WF : forall i, wf_id d i = true -> wf_id d (rn_ident f i) = true.

  (** A readable spelling is the spelling of its word. *)
  Lemma text_plain i : wf_id d i = true -> special (id_value i) = false -> special_word (wvalue (text_word (id_value i))) = false.
  Proof.
    unfold wf_id, text_word. destruct (id_value i) as [|q s]; [discriminate|]. intros W N.
    unfold special in N. apply orb_false_iff in N as [N N3]. apply orb_false_iff in N as [_ N2].
    destruct ((q =? 34) || (q =? 96)) eqn:Q; [|exact N2].
    apply andb_prop in W as [W _]. apply andb_prop in W as [_ W].
    assert (C : closing q = Some q).
    { apply orb_true_iff in Q as [Q|Q]; apply Z.eqb_eq in Q; subst; reflexivity. }
    unfold respell in N3. rewrite C, W in N3. exact N3.
  Qed.

  Lemma id_words i k : wf_id d i = true -> voc k = true ->
    gs_eqb (upper (wvalue (text_word (id_value (rn_ident f i))))) (gs k) = gs_eqb (upper (wvalue (text_word (id_value i)))) (gs k) /\
    equal_fold (wvalue (text_word (id_value (rn_ident f i)))) (gs k) = equal_fold (wvalue (text_word (id_value i))) (gs k).
  Proof.
    intros W V. pose proof (WF _ W) as W'. pose proof (RF (id_value i)) as R. cbn [rn_ident id_value] in *.
    destruct (special (id_value i)) eqn:E; [rewrite R; auto|].
    pose proof (special_word_none _ k (text_plain _ W E) V) as [A1 A2].
    pose proof (special_word_none _ k (text_plain _ W' R) V) as [B1 B2]. cbn [rn_ident id_value] in B1, B2.
    rewrite A1, A2, B1, B2. auto.
  Qed.

  Lemma SE_idt i l l' : wf_id d i = true -> SE (idt i :: l) (idt (rn_ident f i) :: l').
  Proof. intros W. split; [reflexivity|]. intros s V. cbn [starts idt tval]. symmetry. apply (id_words i s W V). Qed.

  Lemma word_in_rn ws i : wf_id d i = true -> forallb voc ws = true -> word_in ws (rn_ident f i) = word_in ws i.
  Proof.
    intros W. unfold word_in, mem_gs. induction ws as [|k ws IH]; [reflexivity|]. intros V. cbn [forallb] in V.
    apply andb_prop in V as [V1 V2]. cbn [map existsb]. rewrite (IH V2). f_equal. apply (id_words i k W V1).
  Qed.

  Lemma wf_ids_rn l : forallb (wf_id d) l = true -> forallb (wf_id d) (map (rn_ident f) l) = true.
  Proof.
    induction l as [|i l IH]; [reflexivity|]. cbn [forallb map]. intros W. apply andb_prop in W as [W1 W2].
    rewrite (WF _ W1), (IH W2). reflexivity.
  Qed.
  Lemma wf_names_rn l : wf_ids d l = true -> wf_ids d (map (rn_ident f) l) = true.
  Proof.
    unfold wf_ids. intros W. apply andb_prop in W as [W1 W2]. rewrite (wf_ids_rn _ W2). destruct l; [discriminate|reflexivity].
  Qed.
  Lemma wf_on_rn o : wf_on d o = true -> wf_on d (rn_on f o) = true.
  Proof. apply wf_names_rn. Qed.
  Lemma wf_opt_rn o : all_opt (wf_id d) o = true -> all_opt (wf_id d) (option_map (rn_ident f) o) = true.
  Proof. destruct o; cbn; [apply WF|reflexivity]. Qed.
  Lemma first_in_rn ws l : wf_ids d l = true -> forallb voc ws = true -> first_in ws (map (rn_ident f) l) = first_in ws l.
  Proof.
    destruct l as [|i l]; [reflexivity|]. unfold wf_ids. cbn [nonempty forallb map first_in andb]. intros W V.
    apply andb_prop in W as [W _]. apply word_in_rn; assumption.
  Qed.
  Lemma SE_dots s l : wf_ids d l = true ->
    SE (sepby s (map (fun i => [idt i]) l)) (sepby s (map (fun i => [idt i]) (map (rn_ident f) l))).
  Proof.
    unfold wf_ids. intros W. apply andb_prop in W as [_ W]. apply SE_sepby. rewrite forallb_forall in W.
    rewrite map_map. induction l as [|i l IH]; cbn [map]; constructor.
    - apply SE_idt. apply W. left. reflexivity.
    - apply IH. intros x I. apply W. right. exact I.
  Qed.
  Lemma SE_name o : wf_on d o = true -> SE (t_name o) (t_name (rn_on f o)).
  Proof. apply SE_dots. Qed.

  Lemma wf_type_rn t : wf_type d t = true -> wf_type d (rn_dtype f t) = true.
  Proof.
    destruct t; cbn [wf_type rn_dtype]; auto.
    - destruct t; auto.
    - intros W. apply andb_prop in W as [W1 W2]. rewrite (wf_on_rn _ W1). cbn [rn_on on_idents].
      rewrite first_in_rn; [exact W2|exact W1|reflexivity].
  Qed.

  (** The shape of a tree. *)
  Lemma open_right_rn e : open_right (rn_node f e) = open_right e.
  Proof. induction e; cbn [open_right rn_node]; congruence. Qed.
  Lemma lopen_rn e : lopen (rn_node f e) = lopen e.
  Proof. induction e; cbn [lopen rn_node]; congruence. Qed.
  Lemma no_not_rn e : no_not (rn_node f e) = no_not e.
  Proof. induction e; cbn [no_not rn_node]; congruence. Qed.
  Lemma atomic_rn e : atomic (rn_node f e) = atomic e.
  Proof. unfold atomic. now rewrite lopen_rn. Qed.
  Lemma some_rn {A B} (g : A -> B) o : some (option_map g o) = some o. Proof. destruct o; reflexivity. Qed.
  Lemma nonempty_rn {A B} (g : A -> B) l : nonempty (map g l) = nonempty l. Proof. destruct l; reflexivity. Qed.
  Lemma bare_table_rn t : bare_table (rn_tableref f t) = bare_table t.
  Proof. induction t; cbn [bare_table rn_tableref]; rewrite ?some_rn, ?nonempty_rn; congruence. Qed.
  Lemma last_opt_rn {A B} (g : A -> B) l : last_opt (map g l) = option_map g (last_opt l).
  Proof. unfold last_opt. rewrite <- map_rev. destruct (rev l); reflexivity. Qed.
  Lemma clauses_end_rn p fr w g :
    clauses_end (map (rn_selitem f) p) (map (rn_tableref f) fr) (option_map (rn_node f) w) (map (rn_node f) g) = clauses_end p fr w g.
  Proof.
    unfold clauses_end. rewrite some_rn, nonempty_rn, !last_opt_rn. destruct (some w || nonempty g); [reflexivity|].
    destruct (last_opt fr); cbn [option_map]; [now rewrite bare_table_rn|]. destruct (last_opt p) as [[]|]; reflexivity.
  Qed.
  Lemma set_end_rn s : set_end (rn_setexpr f s) = set_end s.
  Proof.
    induction s as [s|l r q|o a l IHl r IHr]; cbn [set_end rn_setexpr]; auto. destruct s as [di p fr w g h po].
    cbn [select_end rn_select]. rewrite some_rn, clauses_end_rn. reflexivity.
  Qed.
  Lemma query_end_rn q : query_end (rn_query f q) = query_end q.
  Proof. destruct q. cbn [query_end rn_query]. rewrite nonempty_rn, set_end_rn. reflexivity. Qed.
  Lemma starts_select_rn s : starts_select (rn_setexpr f s) = starts_select s.
  Proof. induction s; cbn [starts_select rn_setexpr]; auto. Qed.
  Lemma set_top_rn s : set_top (rn_setexpr f s) = set_top s.
  Proof. destruct s; reflexivity. Qed.
  Lemma factor_rn t : factor (rn_tableref f t) = factor t. Proof. destruct t; reflexivity. Qed.
  Lemma natural_rn t : natural (rn_tableref f t) = natural t. Proof. destruct t; reflexivity. Qed.
  Lemma top_query_rn q : top_query (rn_query f q) = top_query q.
  Proof. destruct q. cbn [top_query rn_query]. now rewrite nonempty_rn, starts_select_rn. Qed.
  Lemma qualified_rn e :
    match rn_node f e with EQualWildcard _ => true | _ => false end = match e with EQualWildcard _ => true | _ => false end.
  Proof. destruct e; reflexivity. Qed.

  Definition Good {A} (wf : A -> bool) (t : A -> list token) (rn : A -> A) (x : A) : Prop :=
    wf x = true -> wf (rn x) = true /\ SE (t x) (t (rn x)).

  Lemma good_list {A} (wf : A -> bool) t rn l : Forall (Good wf t rn) l -> forallb wf l = true ->
    forallb wf (map rn l) = true /\ Forall (fun x => SE (t x) (t (rn x))) l.
  Proof.
    induction 1 as [|x l X R IH]; intros W; cbn [forallb map] in *; [auto|]. apply andb_prop in W as [W1 W2].
    destruct (X W1) as [X1 X2]. destruct (IH W2) as [I1 I2]. rewrite X1, I1. auto.
  Qed.
  Lemma good_opt {A} (wf : A -> bool) t rn o : opt_all (Good wf t rn) o ->
    match o with Some x => wf x | None => true end = true ->
    match option_map rn o with Some x => wf x | None => true end = true.
  Proof. destruct o; cbn; [|auto]. intros G W. apply G. exact W. Qed.

  Lemma good_branches bs : Forall (fun b => Good (wf_node d) t_node (rn_node f) (fst b) /\ Good (wf_node d) t_node (rn_node f) (snd b)) bs ->
    forallb (fun p : node * node => let (c, r) := p in wf_node d c && wf_node d r) bs = true ->
    forallb (fun p : node * node => let (c, r) := p in wf_node d c && wf_node d r)
      (map (fun b => (rn_node f (fst b), rn_node f (snd b))) bs) = true.
  Proof.
    induction 1 as [|[c r] l [X1 X2] R IH]; intros W; cbn [forallb map fst snd] in *; [reflexivity|].
    apply andb_prop in W as [W1 W2]; apply andb_prop in W1 as [W0 W1]; destruct (X1 W0) as [Y1 _]; destruct (X2 W1) as [Y2 _].
    rewrite Y1, Y2; exact (IH W2).
  Qed.

  Ltac conj H := repeat match type of H with (_ && _) = true => let H1 := fresh H in apply andb_prop in H as [H H1] end.
  Ltac conjs := repeat match goal with H : (_ && _) = true |- _ => conj H end.
  Ltac goods :=
    repeat match goal with
    | G : Good ?wf ?t ?rn ?x, W : ?wf ?x = true |- _ => destruct (G W) as [? ?]; clear G
    | G : Forall (Good ?wf ?t ?rn) ?l, W : forallb ?wf ?l = true |- _ => destruct (good_list _ _ _ _ G W) as [? ?]; clear G
    end.
  Ltac se := first
    [ assumption | apply SE_refl | apply SE_idt; assumption | apply SE_name; assumption | apply SE_dots; assumption
    | apply SE_cons | apply SE_parens | apply SE_list_of | apply SE_commas; assumption
    | apply SE_app; [se|se] ].
  Ltac side := first [ assumption | reflexivity
    | apply WF; assumption | apply wf_on_rn; assumption | apply wf_names_rn; assumption | apply wf_ids_rn; assumption
    | apply wf_opt_rn; assumption | apply wf_type_rn; assumption
    | rewrite ?open_right_rn, ?lopen_rn, ?atomic_rn, ?set_top_rn, ?factor_rn, ?natural_rn, ?top_query_rn, ?nonempty_rn, ?some_rn,
        ?clauses_end_rn, ?set_end_rn, ?qualified_rn; assumption
    | match goal with
      | H : negb (starts ?s ?l) = true |- negb (starts ?s ?l') = true => rewrite (starts_SE s l l'); [exact H|se|reflexivity]
      | H : (?b || negb (starts ?s ?l)) = true |- (?b || negb (starts ?s ?l')) = true => rewrite (starts_SE s l l'); [exact H|se|reflexivity]
      | H : wf_query d ?q = true, K : wf_query d ?q = true -> sub_query _ = _ |- sub_query _ = true => rewrite (K H); assumption
      end
    | rewrite map_length; assumption
    | rewrite word_in_rn by (first [assumption|reflexivity]); assumption
    | cbn [rn_on on_idents]; rewrite first_in_rn by (first [assumption|reflexivity]); assumption ].
  Ltac wfs := repeat match goal with |- (_ && _) = true => apply andb_true_intro; split end; side.

  (** [selects_with] of a query is kept. *)
  Definition KQ (q : query) : Prop := Good (wf_query d) t_query (rn_query f) q /\ (wf_query d q = true -> sub_query (rn_query f q) = sub_query q).
  Definition KB (s : setexpr) : Prop :=
    Good (wf_setexpr d) t_setexpr (rn_setexpr f) s /\ (wf_setexpr d s = true -> selects_with (rn_setexpr f s) = selects_with s).
  Definition KS (s : select) : Prop :=
    Good (wf_select d) t_select (rn_select f) s /\ (wf_select d s = true -> selects_with (SSelect (rn_select f s)) = selects_with (SSelect s)).

  Ltac opts := repeat match goal with
    | H : opt_all _ ?o |- _ => is_var o; destruct o; cbn [opt_all option_map some all_opt] in *
    | o : option ident |- _ => destruct o; cbn [option_map some all_opt] in *
    end.
  Ltac unfold_all := cbn [wf_node wf_winspec wf_orderby wf_query wf_cte wf_setexpr wf_select wf_selitem wf_tableref wf_joinspec
    rn_node rn_winspec rn_orderby rn_query rn_cte rn_setexpr rn_select rn_selitem rn_tableref rn_joinspec
    t_node t_winspec t_orderby t_query t_cte t_setexpr t_select t_selitem t_tableref t_joinspec] in *;
    fold (rn_node f) (rn_winspec f) (rn_orderby f) (rn_query f) (rn_cte f) (rn_setexpr f) (rn_select f) (rn_selitem f)
      (rn_tableref f) (rn_joinspec f) in *;
    fold (wf_node d) (wf_winspec d) (wf_orderby d) (wf_query d) (wf_cte d) (wf_setexpr d) (wf_select d) (wf_selitem d)
      (wf_tableref d) (wf_joinspec d) in *.

  Lemma good_ast :
    (forall e, Good (wf_node d) t_node (rn_node f) e) /\ (forall w, Good (wf_winspec d) t_winspec (rn_winspec f) w) /\
    (forall o, Good (wf_orderby d) t_orderby (rn_orderby f) o) /\ (forall q, KQ q) /\
    (forall c, Good (wf_cte d) t_cte (rn_cte f) c) /\ (forall b, KB b) /\ (forall s, KS s) /\
    (forall i, Good (wf_selitem d) t_selitem (rn_selitem f) i) /\ (forall t, Good (wf_tableref d) t_tableref (rn_tableref f) t) /\
    (forall j, Good (wf_joinspec d) t_joinspec (rn_joinspec f) j).
  Proof.
    apply ast_ind; intros; opts; unfold KQ, KB, KS in *;
      repeat match goal with H : _ /\ _ |- _ => destruct H end;
      try (intros W; unfold_all; conjs; goods; split; [wfs|se]).



    { intros W. unfold_all. conjs; goods; split; [|se]. destruct (op_type op) eqn:O; try discriminate; rewrite ?O; wfs. }
    1-4: match goal with H : Forall _ ?bs |- Good _ _ _ (ECase _ _ _ ?bs _) => rename H into BS; rename bs into br end;
      intros W; unfold_all; conjs.
    1-4: assert (B : forallb (fun p : node * node => let (c, r) := p in wf_node d c && wf_node d r)
                (map (fun b => (rn_node f (fst b), rn_node f (snd b))) br) = true)
       by (eapply good_branches; eassumption).
    1-4: goods; split; [repeat match goal with |- (_ && _) = true => apply andb_true_intro; split end; try side|se].
    1-2: cbn [option_map]; wfs.
    { split.
      - intros W; unfold_all; conjs; goods; split; [wfs|se].
      - intros W; unfold_all; conjs. cbn [sub_query]. rewrite nonempty_rn, starts_select_rn.
        match goal with H : _ -> selects_with _ = _ |- _ => rewrite H by assumption end. reflexivity. }
    { split; [intros W; unfold_all; conjs; goods; split; [wfs|se]|]. assumption. }
    { split; [intros W; unfold_all; conjs; goods; split; [wfs|se]|]. reflexivity. }
    { split; [intros W; unfold_all; conjs; goods; split; [wfs|se]|].
      intros W; unfold_all; conjs. cbn [selects_with]. match goal with H : wf_setexpr d l = true -> selects_with _ = _ |- _ => rewrite H by assumption end. reflexivity. }
    all: split; [intros W; unfold_all; conjs; goods; split; [wfs|se]|].
    all: intros W; unfold_all; conjs; cbn [selects_with]; destruct pr as [|i pr]; [discriminate|]; cbn [map forallb] in *; conjs;
      match goal with H : Forall _ (i :: pr) |- _ => inversion H; subst end; goods; rewrite (starts_SE "WITH" (t_selitem i)); auto.
  Qed.

  Definition good_node := proj1 good_ast.
  Definition good_query := proj1 (proj2 (proj2 (proj2 good_ast))).
  Lemma wf_node_rn e : wf_node d e = true -> wf_node d (rn_node f e) = true.
  Proof. intros W. apply (good_node e W). Qed.
  Lemma wf_query_rn q : wf_query d q = true -> wf_query d (rn_query f q) = true.
  Proof. intros W. apply (proj1 (good_query q) W). Qed.
  Lemma wf_nodes_rn l : forallb (wf_node d) l = true -> forallb (wf_node d) (map (rn_node f) l) = true.
  Proof. rewrite !forallb_forall. intros H x I. apply in_map_iff in I as [y [<- I]]. apply wf_node_rn, H, I. Qed.
  Lemma all_rn {A B} (w : A -> bool) (w' : B -> bool) g l : (forall x, w x = true -> w' (g x) = true) -> forallb w l = true -> forallb w' (map g l) = true.
  Proof. intros G. rewrite !forallb_forall. intros H x I. apply in_map_iff in I as [y [<- I]]. apply G, H, I. Qed.
  Lemma opt_rn {A B} (w : A -> bool) (w' : B -> bool) g o : (forall x, w x = true -> w' (g x) = true) -> all_opt w o = true -> all_opt w' (option_map g o) = true.
  Proof. intros G. destruct o; cbn; auto. Qed.

  Ltac sides := first [ apply wf_node_rn; assumption | apply wf_query_rn; assumption | apply wf_nodes_rn; assumption | rewrite no_not_rn; assumption | side ].
  Ltac wfss := repeat match goal with |- (_ && _) = true => apply andb_true_intro; split end; sides.

  Lemma wf_source_rn s : wf_source d s = true -> wf_source d (rn_src f s) = true.
  Proof.
    destruct s; cbn [wf_source rn_src]; intros W; conjs; wfss || (apply andb_true_intro; split; [sides|]).
    eapply all_rn; [|eassumption]. intros x X. cbn [rn_row row_values] in *. conjs. wfss.
  Qed.
  Lemma wf_assign_rn a : wf_assign d a = true -> wf_assign d (rn_assign f a) = true.
  Proof. unfold wf_assign. intros W; cbn [rn_assign as_id as_value]. conjs. wfss. Qed.
  Lemma wf_tc_rn t : wf_tc d t = true -> wf_tc d (rn_tc f t) = true.
  Proof.
    unfold wf_tc. intros W; cbn [rn_tc tc_name tc_spec]. conjs. wfss || (apply andb_true_intro; split; [sides|]).
    destruct (tc_spec t); cbn [wf_tcspec rn_tcspec rn_refkey rk_table rk_columns] in *; conjs; wfss.
  Qed.
  Lemma wf_cc_rn c : wf_cc d c = true -> wf_cc d (rn_cc f c) = true.
  Proof.
    unfold wf_cc. intros W; cbn [rn_cc cc_name cc_spec]. conjs. apply andb_true_intro; split; [sides|].
    destruct (cc_spec c); cbn [rn_ccspec] in *; conjs; wfss.
  Qed.
  Lemma SE_cc c : wf_cc d c = true -> SE (t_cc c) (t_cc (rn_cc f c)).
  Proof.
    unfold wf_cc. intros W. conjs. unfold t_cc, t_cname. cbn [rn_cc cc_name cc_spec].
    destruct (cc_name c); cbn [opt option_map app]; [apply SE_cons|].
    destruct (cc_spec c); cbn [rn_ccspec t_ccspec] in *; first [apply SE_refl|apply SE_cons].
  Qed.
  Lemma SE_ccs l : forallb (wf_cc d) l = true -> SE (List.concat (map t_cc l)) (List.concat (map t_cc (map (rn_cc f) l))).
  Proof.
    induction l as [|c l IH]; cbn [map List.concat forallb]; [intros; apply SE_refl|]. intros W; conjs.
    apply SE_app; [apply SE_cc; assumption|auto].
  Qed.
  Lemma wf_coldef_rn c : wf_coldef d c = true -> wf_coldef d (rn_coldef f c) = true.
  Proof.
    unfold wf_coldef. intros W; cbn [rn_coldef cd_name cd_type cd_default cd_decorations cd_constraints]. conjs.
    repeat (apply andb_true_intro; split); try sides.
    - destruct (cd_default c) as [e|]; [|reflexivity]. cbn [all_opt option_map] in *. conjs.
      rewrite (starts_SE "NOT" _ _ (SE_ccs _ W0)) by reflexivity. rewrite open_right_rn. wfss.
    - eapply all_rn; [apply wf_cc_rn|assumption].
  Qed.
  Lemma wf_element_rn e : wf_element d e = true -> wf_element d (rn_element f e) = true.
  Proof.
    destruct e; cbn [wf_element rn_element]; [|apply wf_tc_rn]. intros W; conjs.
    rewrite (wf_coldef_rn _ W). cbn [andb rn_coldef cd_name].
    unfold wf_coldef in W. conjs. rewrite word_in_rn by (first [assumption|reflexivity]). assumption.
  Qed.
  Lemma wf_option_rn o : wf_option d o = true -> wf_option d (rn_option f o) = true.
  Proof. destruct o; cbn [wf_option rn_option]; apply WF. Qed.
  Lemma wf_at_rn a : wf_altertable d a = true -> wf_altertable d (rn_ataction f a) = true.
  Proof.
    destruct a as [?|? ? c| | |]; cbn [wf_altertable rn_ataction]; try apply wf_coldef_rn; try apply wf_tc_rn; try apply WF.
    intros W; conjs. apply andb_true_intro; split; [sides|]. destruct c; cbn [wf_altercol rn_acaction] in *; conjs; wfss.
  Qed.
  Lemma wf_where_rn o : wf_where d o = true -> wf_where d (option_map (rn_node f) o) = true.
  Proof. apply opt_rn, wf_node_rn. Qed.
  Lemma wf_stmt_rn s : wf_stmt d s = true -> wf_stmt d (rn_stmt f s) = true.
  Proof.
    induction s; cbn [wf_stmt rn_stmt]; intros W; conjs;
      repeat match goal with |- (_ && _) = true => apply andb_true_intro; split end; try sides; auto using wf_where_rn, wf_at_rn, wf_source_rn;
      try (eapply all_rn; [first [apply wf_assign_rn|apply wf_element_rn|apply wf_option_rn]|assumption]).
    - destruct src; [|reflexivity]. cbn [rn_src] in *. rewrite !nonempty_rn, top_query_rn, query_end_rn. conjs. wfss.
    - destruct tables as [|t [|? ?]]; try discriminate. cbn [map]. sides.
    - eapply opt_rn; [|eassumption]. intros x X; cbv beta in *. conjs. wfss.
  Qed.

  Lemma ends_type_rn t : ends_type (rn_dtype f t) = ends_type t.
  Proof. destruct t; reflexivity. Qed.
  Lemma ends_query_rn q : ends_query (rn_query f q) = ends_query q.
  Proof. unfold ends_query. now rewrite query_end_rn. Qed.
  Lemma ends_coldef_rn c : ends_coldef (rn_coldef f c) = ends_coldef c.
  Proof.
    unfold ends_coldef. cbn [rn_coldef cd_name cd_type cd_default cd_decorations cd_constraints].
    rewrite some_rn, nonempty_rn, ends_type_rn. reflexivity.
  Qed.
  Lemma ends_stmt_rn s : ends_stmt (rn_stmt f s) = ends_stmt s.
  Proof.
    induction s; cbn [ends_stmt rn_stmt]; auto using ends_query_rn.
    - destruct src; cbn [rn_src]; [|reflexivity]. rewrite nonempty_rn, ends_query_rn. reflexivity.
    - destruct action as [?|? ? c| | |]; cbn [rn_ataction]; auto using ends_coldef_rn. destruct c; cbn [rn_acaction]; auto using ends_type_rn.
  Qed.
End Wf.
