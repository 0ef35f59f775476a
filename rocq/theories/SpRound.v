(** Every spelling of a script is read. *)
From Coq Require Import ZArith List Bool String Lia.
From Verif Require Import Base Dialect Token Lexer LexSpec AST Num Prog Parser Sim Erase Natural ParserThms ParseSpec LexFacts LexThms
  ApiThms Grammar NumThms Render Spell SpPrim SpEq SpExpr SpQuery SpStmt SpTop RoundSpec SrcThms ErComp LayoutSpec.
Import ListNotations.
Open Scope string_scope.
Open Scope Z_scope.
Open Scope list_scope.

(** *** Statement lists *)

Section Style.
Context {sty : style}.
Definition s_closed (s : stmt) : list token := s_stmt s ++ [semi].
Definition s_list (ss : list stmt) : list token := List.concat (map s_closed ss).

Lemma stmt_head dl s : ok_stmt dl s = true -> exists t l, s_stmt s = t :: l /\ isk Semicolon [t] = false.
Proof.
  destruct s; cbn [ok_stmt s_stmt]; intros W; try (eexists _, _; split; reflexivity).
  apply andb_true_iff in W as [W _]. destruct (query_head dl _ W) as (h & x & E & H & _). exists h, x. split; [exact E|].
  destruct H as [-> |[-> | ->]]; reflexivity.
Qed.

Lemma sql_loop dl (pc : bool) m : forall ss n acc (b : bool) d,
  forallb (ok_stmt dl) ss = true -> (len (s_list ss) <= m)%nat -> (List.length ss < n)%nat ->
  exists d', R (loop n (fun '((acc, expecting) : list stmt * bool) =>
       ok <- consume_token Semicolon ;;
       if negb ok && expecting then Err
       else
         more <- (if pc
                  then Next (fun o => match o with None => Ret false | Some _ => prev ;;; Ret true end)
                  else Peek (fun o => Ret (match o with None => false | Some _ => true end))) ;;
         if more : bool then s <- parse_statement (knot m) ;; Ret (inl (s :: acc, true))
         else Ret (inr (rev acc))) (acc, b)) (d, (if b then [semi] else []) ++ s_list ss)
    = Ok (rev acc ++ map estmt ss) (d', []).
Proof.
  induction ss as [|s ss IH]; intros n acc b d W L F; (destruct n as [|n]; [cbn [List.length] in F; lia|]).
  - cbn [s_list map List.concat]. rewrite app_nil_r. destruct b, pc; cbn; rewrite ?app_nil_r; eauto.
  - cbn [forallb] in W. apply andb_true_iff in W as [W1 W2].
    destruct (stmt_head dl s W1) as (h & l & EH & HK).
    unfold s_list in *. cbn [map List.concat] in *. fold (s_list ss) in *. unfold s_closed in L; unfold s_closed at 1.
    rewrite !app_length in L. cbn [List.length] in L, F.
    pose proof (fun d => R_stmt dl (knot m) m (knot_good dl m) s d (semi :: s_list ss) W1 ltac:(lia) ltac:(reflexivity)) as X.
    destruct (IH n (estmt s :: acc) true (rev (s_stmt s) ++ (if b then semi :: d else d)) W2 ltac:(lia) ltac:(lia)) as (d' & IH').
    exists d'. rewrite <- app_assoc. cbn [app]. cbn [rev] in IH'. rewrite <- app_assoc in IH'. cbn [app] in IH'.
    cbn [loop]. rewrite run_bind.
    assert (E : R (ok <- consume_token Semicolon ;;
       if negb ok && b then Err
       else
         more <- (if pc
                  then Next (fun o => match o with None => Ret false | Some _ => prev ;;; Ret true end)
                  else Peek (fun o => Ret (match o with None => false | Some _ => true end))) ;;
         if more : bool then s <- parse_statement (knot m) ;; Ret (inl (s :: acc, true))
         else Ret (inr (rev acc))) (d, (if b then [semi] else []) ++ s_stmt s ++ semi :: s_list ss)
       = Ok (inl (estmt s :: acc, true)) (rev (s_stmt s) ++ (if b then semi :: d else d), semi :: s_list ss)).
    { rewrite EH in X |- *. cbn [app]. destruct b.
      - eapply R_step; [reflexivity|]. cbv beta iota. cbn [negb andb].
        eapply R_step; [destruct pc; reflexivity|]. cbv beta iota. eapply R_step; [apply X|]. reflexivity.
      - eapply R_step; [apply R_cons_no; exact HK|]. cbv beta iota. cbn [negb andb].
        eapply R_step; [destruct pc; reflexivity|]. cbv beta iota. eapply R_step; [apply X|]. reflexivity. }
    rewrite E. cbv beta iota. exact IH'.
Qed.

(** *** The tokens of a tree *)

Definition ordinary (t : token) : bool :=
  match tval t with
  | VWord w => is_kind SQLKeyword t && gs_eqb (wkeyword w) (upper (wvalue w))
  | VStr _ => negb (is_kind SQLKeyword t)
  end.
End Style.
Notation ord l := (forallb ordinary l = true).
Section Style.
Context {sty : style}.

Lemma ord_idt i : ordinary (idt i) = true.
Proof.
  unfold ordinary, idt, text_word. cbn [tval tkind is_kind kind_eqb andb]. destruct (id_value i) as [|q v]; [reflexivity|].
  destruct ((q =? 34) || (q =? 96)); cbn [wkeyword wvalue]; apply gs_eqb_refl.
Qed.
Lemma ord_kwt s : ordinary (kwt s) = true.
Proof. unfold ordinary, kwt. cbn [tval tkind is_kind kind_eqb andb wkeyword wvalue]. apply gs_eqb_refl. Qed.
Lemma ord_kws l : ord (kws l).
Proof. induction l as [|x l IH]; [reflexivity|]. cbn [kws map forallb]. rewrite ord_kwt. exact IH. Qed.

Lemma ord_app a b : ord a -> ord b -> ord (a ++ b).
Proof. intros H1 H2. rewrite forallb_app, H1. exact H2. Qed.
Lemma ord_cons t l : ordinary t = true -> ord l -> ord (t :: l).
Proof. intros H1 H2. cbn [forallb]. rewrite H1. exact H2. Qed.
Lemma ord_parens l : ord l -> ord (parens l).
Proof. intros H. unfold parens. apply ord_cons; [reflexivity|]. apply ord_app; [exact H|reflexivity]. Qed.
Lemma ord_sepby s l : ordinary s = true -> Forall (fun x => ord x) l -> ord (sepby s l).
Proof.
  intros H. induction 1 as [|x l Hx _ IH]; [reflexivity|]. cbn [sepby]. destruct l; [exact Hx|]. apply ord_app; [exact Hx|].
  apply ord_cons; assumption.
Qed.
Lemma ord_commas {A} (f : A -> list token) l : Forall (fun a => ord (f a)) l -> ord (commas f l).
Proof. intros H. apply ord_sepby; [reflexivity|]. apply Forall_map. exact H. Qed.
Lemma ord_concat {A} (f : A -> list token) l : Forall (fun a => ord (f a)) l -> ord (List.concat (map f l)).
Proof. induction 1; [reflexivity|]. cbn [map List.concat]. apply ord_app; assumption. Qed.
Lemma ord_dots l : ord (t_dots l).
Proof. apply ord_sepby; [reflexivity|]. apply Forall_map, Forall_forall. intros i _. cbn [forallb]. rewrite ord_idt. reflexivity. Qed.
Lemma ord_ids l : ord (t_ids l).
Proof. apply ord_sepby; [reflexivity|]. apply Forall_map, Forall_forall. intros i _. cbn [forallb]. rewrite ord_idt. reflexivity. Qed.
Lemma ord_name o : ord (t_name o).
Proof. apply ord_dots. Qed.
Lemma ord_op o : ord (t_op o).
Proof. destruct o; reflexivity. Qed.
Lemma ord_join o : ord (t_join o).
Proof. destruct o; reflexivity. Qed.
Lemma ord_type t : ord (t_type t).
Proof.
  induction t; cbn [t_type]; unfold t_size, t_unsigned, opt, cond;
    repeat match goal with |- context [match ?o with Some _ => _ | None => _ end] => destruct o | |- context [if ?b then _ else _] => destruct b end;
    try reflexivity.
  - apply ord_app; [assumption|reflexivity].
  - apply ord_name.
Qed.
Lemma ord_stype t : ord (s_type t).
Proof.
  destruct t as [size f0 t0 r0|size f0 t0 r0|f0 t0|n f0 t0|n f0 t0|n f0 t0|n f0 t0|p s n0 r0 u u0|size f0 t0 r0 u u0
    |f0 t0 u u0|f0 t0 u u0|f0 t0 u u0|f0 t0 u u0|f0 t0|f0 t0|f0 t0|f0 t0|[] f0 t0|f0 t0|f0 t0|f0 t0|t r0|o];
    try apply ord_type; cbn [s_type]; unfold t_size, t_unsigned, opt, cond, pick.
  - apply ord_cons; [apply ord_kwt|]. destruct size; reflexivity.
  - apply ord_app; [|destruct size; reflexivity]. destruct (w_type _ _) as [|[|[|?]]]; reflexivity.
  - apply ord_cons; [apply ord_kwt|]. match goal with |- context [if ?b then _ else _] => destruct b end; reflexivity.
  - destruct (w_type _ _) as [|[|[|?]]]; reflexivity.
  - destruct (w_type _ _) as [|[|[|?]]]; reflexivity.
Qed.
Lemma ord_sop o : ord (s_op o).
Proof. unfold s_op. destruct (op_type o); try reflexivity. destruct (w_neq sty o); reflexivity. Qed.
Lemma ord_alias a : ord (s_alias a).
Proof. unfold s_alias. destruct (w_as sty a); cbn [cond app forallb]; rewrite ?ord_idt; reflexivity. Qed.
Lemma ord_frame f : ord (t_frame f).
Proof.
  destruct f as [u st e]. unfold t_frame. cbn [wf_units wf_start wf_end]. destruct (wfu_type u), st, e as [[]|]; reflexivity.
Qed.
Lemma ord_limit l : ord (t_limit l).
Proof. destruct l as [p1 p2 v o]. unfold t_limit. cbn [AST.lim_value AST.lim_offset]. destruct v, o; reflexivity. Qed.
Lemma ord_setop o : ordinary (t_setop o) = true.
Proof. destruct o; reflexivity. Qed.

End Style.
Ltac ordt := repeat (first [assumption | lazymatch goal with
  | |- forallb ordinary (_ ++ _) = true => apply ord_app
  | |- forallb ordinary (_ :: _) = true => apply ord_cons
  | |- forallb ordinary [] = true => reflexivity
  | |- forallb ordinary (parens _) = true => apply ord_parens
  | |- forallb ordinary (t_dots _) = true => apply ord_dots
  | |- forallb ordinary (t_ids _) = true => apply ord_ids
  | |- forallb ordinary (t_name _) = true => apply ord_name
  | |- forallb ordinary (t_type _) = true => apply ord_type
  | |- forallb ordinary (s_type _) = true => apply ord_stype
  | |- forallb ordinary (s_op _) = true => apply ord_sop
  | |- forallb ordinary (s_alias _) = true => apply ord_alias
  | |- forallb ordinary (kws _) = true => apply ord_kws
  | |- forallb ordinary (t_join _) = true => apply ord_join
  | |- forallb ordinary (t_frame _) = true => apply ord_frame
  | |- forallb ordinary (t_limit _) = true => apply ord_limit
  | |- ordinary (idt _) = true => apply ord_idt
  | |- ordinary (kwt _) = true => apply ord_kwt
  | |- ordinary (t_setop _) = true => apply ord_setop
  | |- ordinary _ = true => reflexivity
  | |- forallb ordinary (commas _ _) = true => apply ord_commas; assumption
  | |- forallb ordinary (List.concat _) = true => apply ord_concat
  end]).
Section Style.
Context {sty : style}.

Lemma ast_ord :
  (forall e, ord (s_node e)) /\ (forall w, ord (s_winspec w)) /\ (forall o, ord (s_orderby o)) /\ (forall q, ord (s_query q)) /\
  (forall c, ord (s_cte c)) /\ (forall b, ord (s_setexpr b)) /\ (forall s, ord (s_select s)) /\ (forall i, ord (s_selitem i)) /\
  (forall t, ord (s_tableref t)) /\ (forall j, ord (s_joinspec j)).
Proof.
  apply AstInd.ast_ind; intros;
    first [rewrite t_node_eq|rewrite t_winspec_eq|rewrite t_orderby_eq|rewrite t_query_eq|rewrite t_cte_eq|rewrite t_setexpr_eq
          |rewrite t_select_eq|rewrite t_selitem_eq|rewrite t_tableref_eq|rewrite t_joinspec_eq]; cbv beta iota; unfold cond;
    repeat match goal with
      | H : AstInd.opt_all _ ?o |- _ => destruct o; cbn [AstInd.opt_all] in H
      | |- context [match ?o with Some _ => _ | None => _ end] => destruct o
      | |- context [list_of ?l _] => is_var l; destruct l; cbn [list_of]
      | |- context [if ?b then _ else _] => destruct b
      end; ordt.
  all: (rewrite Forall_forall in * |- *; intros p I;
    match goal with H : forall x, In x _ -> _ |- _ => destruct (H _ I) end; destruct p; cbn [fst snd] in *; ordt).
Qed.
Lemma ord_node e : ord (s_node e). Proof. apply ast_ord. Qed.
Lemma ord_query e : ord (s_query e). Proof. apply ast_ord. Qed.

End Style.
Ltac ord1 := first [assumption | lazymatch goal with
  | |- forallb ordinary (_ ++ _) = true => apply ord_app
  | |- forallb ordinary (_ :: _) = true => apply ord_cons
  | |- forallb ordinary [] = true => reflexivity
  | |- forallb ordinary (parens _) = true => apply ord_parens
  | |- forallb ordinary (t_dots _) = true => apply ord_dots
  | |- forallb ordinary (t_ids _) = true => apply ord_ids
  | |- forallb ordinary (t_name _) = true => apply ord_name
  | |- forallb ordinary (t_type _) = true => apply ord_type
  | |- forallb ordinary (s_type _) = true => apply ord_stype
  | |- forallb ordinary (s_op _) = true => apply ord_sop
  | |- forallb ordinary (s_alias _) = true => apply ord_alias
  | |- forallb ordinary (kws _) = true => apply ord_kws
  | |- forallb ordinary (t_join _) = true => apply ord_join
  | |- forallb ordinary (t_frame _) = true => apply ord_frame
  | |- forallb ordinary (t_limit _) = true => apply ord_limit
  | |- ordinary (idt _) = true => apply ord_idt
  | |- ordinary (kwt _) = true => apply ord_kwt
  | |- ordinary (t_setop _) = true => apply ord_setop
  | |- ordinary _ = true => reflexivity
  | |- forallb ordinary (s_node _) = true => apply ord_node
  | |- forallb ordinary (s_query _) = true => apply ord_query
  | |- forallb ordinary (commas _ _) = true => apply ord_commas; apply Forall_forall; intros ? _
  | |- forallb ordinary (List.concat _) = true => apply ord_concat; apply Forall_forall; intros ? _
  end].
Section Style.
Context {sty : style}.
End Style.
Ltac ords := repeat ord1.
Section Style.
Context {sty : style}.
End Style.
Ltac dopt := unfold t_cname, opt, cond; repeat match goal with
      | |- context [match ?o with Some _ => _ | None => _ end] => destruct o
      | |- context [list_of ?l _] => is_var l; destruct l; cbn [list_of]
      | |- context [if ?b then _ else _] => destruct b end.
Section Style.
Context {sty : style}.
Lemma ord_tc t : ord (s_tc t).
Proof. destruct t as [p n s]. unfold s_tc. cbn [tc_name tc_spec]. destruct s; cbn [s_tcspec]; unfold t_refkey; dopt; ords. Qed.
Lemma ord_cc t : ord (s_cc t).
Proof. destruct t as [n p s]. unfold s_cc. cbn [cc_name cc_spec]. destruct s; cbn [s_ccspec]; dopt; ords. Qed.
Lemma ord_coldef c : ord (s_coldef c).
Proof.
  assert (H1 : ord (s_increment c)) by (unfold s_increment; induction (cd_decorations c); [reflexivity|assumption]).
  assert (H2 : ord (s_default c)) by (unfold s_default; dopt; ords).
  assert (H3 : ord (s_ccs c)) by (unfold s_ccs; apply ord_concat, Forall_forall; intros x _; apply ord_cc).
  unfold s_coldef, s_parts. destruct (w_order sty c); ords.
Qed.
Lemma ord_source s : ord (s_source s).
Proof. destruct s; cbn [s_source]; unfold s_row; ords. Qed.
Lemma ord_assign a : ord (s_assign a).
Proof. unfold s_assign. ords. Qed.
Lemma ord_element e : ord (s_element e).
Proof. destruct e; [apply ord_coldef|apply ord_tc]. Qed.
Lemma ord_option e : ord (t_option e).
Proof. destruct e; cbn [t_option]; dopt; ords. Qed.
Lemma ord_altertable e : ord (s_altertable e).
Proof.
  destruct e; cbn [s_altertable]; dopt; try match goal with a : altercolaction |- _ => destruct a; cbn [s_altercol] end;
    repeat first [ord1|apply ord_coldef|apply ord_tc].
Qed.
Lemma ord_stmt s : ord (s_stmt s).
Proof.
  induction s; cbn [s_stmt]; unfold s_where; dopt;
    repeat first [ord1|apply ord_source|apply ord_assign|apply ord_element|apply ord_option|apply ord_altertable].
Qed.


Lemma ord_wf l : ord l -> Forall tok_wf l.
Proof.
  intros H. apply Forall_forall. intros t I. rewrite forallb_forall in H. specialize (H t I). unfold ordinary in H. unfold tok_wf.
  unfold is_kind in H. destruct (tval t) as [w|v].
  - apply andb_true_iff in H as [H1 H2]. apply LexFacts.gs_eqb_eq in H2. destruct (tkind t); try discriminate H1. exact H2.
  - destruct (tkind t); try exact Logic.I. discriminate H.
Qed.
Lemma s_list_ord ss : ord (s_list ss).
Proof. unfold s_list, s_closed. apply ord_concat, Forall_forall. intros s _. apply ord_app; [apply ord_stmt|reflexivity]. Qed.

(** *** From tokens to text *)

Section Layout.
  Context {A : Type} (P : rec -> prog A) (erA : (pos -> pos) -> (rune -> rune) -> A -> A) (k : nat).
  Hypothesis HP : public P erA k.
  Hypothesis HC : forall x, erA Erase.no_pos asc_up (erA Erase.no_pos same_rune x) = erA Erase.no_pos asc_up x.

  Lemma spelled_text d src l x d' : dialect_words d -> Forall tok_wf l ->
    R (P (knot (S (S (len l))))) ([], l) = Ok (erA Erase.no_pos same_rune x) (d', []) ->
    spells d src l -> read_back P (erA Erase.no_pos asc_up) d src x.
  Proof.
    intros D W2 H (toks & T & E). pose proof (public_entry _ _ _ HP) as EP.
    pose proof (SrcThms.tokenize_wf _ _ _ _ (proj1 D) T) as W. change (sig toks) with (fsig toks) in E. pose proof (fsig_wf _ W) as W1.
    pose proof (call_agrees P erA k EP [] toks W) as A1. unfold agrees in A1.
    pose proof (base_er P erA k EP Erase.no_pos asc_up Erase.no_pos asc_up (fsig toks) l eq_refl gok_asc eq_refl gok_asc W1 W2 E) as B.
    change (base P l = Ok (erA Erase.no_pos same_rune x) (d', [])) in H. rewrite H in B.
    destruct (base P (fsig toks)) as [b s'| | |]; try contradiction.
    destruct (call P [] toks) as [y st| | |] eqn:C; try contradiction. destruct A1 as (-> & _ & A2). destruct B as [B1 B2].
    rewrite HC in B1. exists toks, b, st. split; [exact T|]. split; [exact C|]. split; [exact B1|].
    change (fsig (snd st) = []). rewrite A2. unfold er_st in B2. cbn [fst snd map] in B2. injection B2 as _ B2. destruct (snd s'); [reflexivity|discriminate B2].
  Qed.
End Layout.

Lemma script_spelling d src ss pc : dialect_words d -> forallb (ok_stmt d) ss = true -> spells d src (s_script ss) ->
  read_back (parse_sql pc) (map caseless_stmt) d src ss.
Proof.
  intros D W2.
  assert (LL : (List.length ss <= len (s_list ss))%nat).
  { clear. unfold s_list, s_closed. induction ss as [|s ss IH]; cbn [map List.concat List.length]; [lia|].
    rewrite !app_length. cbn [List.length]. lia. }
  set (m := S (S (len (s_list ss)))).
  pose proof (g_fuel _ _ _ (knot_good d m)) as F.
  destruct (sql_loop d pc m ss (r_fuel (knot m)) [] false [] W2 ltac:(lia) ltac:(lia)) as (d' & X).
  eapply (spelled_text (parse_sql pc) (fun fp g => map (er_stmt fp g)) 0 (pub_sql pc)) with (l := s_list ss);
    [|exact D|apply ord_wf, s_list_ord|].
  - intros x. apply map_comp_ext. apply er_stmt_comp; reflexivity.
  - fold m. exact X.
Qed.

Lemma node_spelling d src e : dialect_words d -> ok_node d e = true -> spells d src (s_node e ++ [semi]) ->
  exists toks y st, tokenize d true src = TOk toks /\ call parse_expr [] toks = Ok y st /\
    caseless_node y = caseless_node e /\ map (er_tok Erase.no_pos asc_up) (sig (snd st)) = [semi].
Proof.
  intros D W (toks & T & E). destruct (wf_strength d e W) as (S1 & S2 & S3).
  set (l := s_node e ++ [semi]) in *.
  pose proof (g_expr _ _ _ (knot_good d (S (S (len l)))) e 0 [] [semi]) as X.
  assert (W2 : Forall tok_wf l) by (apply ord_wf, ord_app; [apply ord_node|reflexivity]).
  pose proof (public_entry _ _ _ pub_expr) as EP.
  pose proof (SrcThms.tokenize_wf _ _ _ _ (proj1 D) T) as W1'. change (sig toks) with (fsig toks) in E. pose proof (fsig_wf _ W1') as W1.
  pose proof (call_agrees parse_expr er_node _ EP [] toks W1') as A1. unfold agrees in A1.
  pose proof (base_er parse_expr er_node _ EP Erase.no_pos asc_up Erase.no_pos asc_up (fsig toks) l eq_refl gok_asc eq_refl gok_asc W1 W2 E) as B.
  assert (H : base parse_expr l = Ok (enode e) (rev (s_node e) ++ [], [semi])).
  { change (R (parse_expr (knot (S (S (len l))))) ([], s_node e ++ [semi]) = Ok (enode e) (rev (s_node e) ++ [], [semi])).
    apply X; auto; try (unfold l; rewrite app_length; cbn [List.length]; lia); change (nprec [semi]) with 0; lia. }
  rewrite H in B. destruct (base parse_expr (fsig toks)) as [b s'| | |]; try contradiction.
  destruct (call parse_expr [] toks) as [y st| | |] eqn:C; try contradiction. destruct A1 as (-> & _ & A2). destruct B as [B1 B2].
  rewrite (er_node_comp Erase.no_pos Erase.no_pos Erase.no_pos asc_up same_rune asc_up (fun _ => eq_refl) (fun _ => eq_refl)) in B1. exists toks, b, st.
  split; [exact T|]. split; [exact C|]. split; [exact B1|]. change (map (er_tok Erase.no_pos asc_up) (fsig (snd st)) = [semi]). rewrite A2.
  unfold er_st in B2. cbn [fst snd] in B2. injection B2 as _ B2. rewrite B2. reflexivity.
Qed.
End Style.
