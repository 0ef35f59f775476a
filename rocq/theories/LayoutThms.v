(** Any layout of the written form is read; printing is injective (C41, C42). *)
From Coq Require Import ZArith String List Bool Lia.
From Verif Require Import Base Dialect Token Lexer LexSpec AST Num Prog Parser Sim Erase Natural ParserThms ParseSpec LexFacts LexThms
  ApiThms Printer WriteThms Grammar NumThms Render RtPrim RtEq RtExpr RtQuery RtStmt RtTop RtLex RoundSpec SrcThms RtRound ErComp LayoutSpec.
Import ListNotations.
Open Scope list_scope.
Open Scope Z_scope.

Section Layout.
  Context {A : Type} (P : rec -> prog A) (erA : (pos -> pos) -> (rune -> rune) -> A -> A) (k : nat).
  Hypothesis HP : public P erA k.
  Hypothesis HC : forall x, erA Erase.no_pos asc_up (erA Erase.no_pos same_rune x) = erA Erase.no_pos asc_up x.

  Lemma layout_text d src0 src l x d' : dialect_words d -> lexes d src0 (map kv l) [] -> Forall (fun x => fst x <> Char) (map kv l) ->
    R (P (knot (S (S (len l))))) ([], l) = Ok (erA Erase.no_pos same_rune x) (d', []) ->
    spells d src l -> read_back P (erA Erase.no_pos asc_up) d src x.
  Proof.
    intros D L F H (toks & T & E). destruct (tokens_of_text d src0 l D L F) as (toks0 & T0 & E0).
    pose proof (public_entry _ _ _ HP) as EP.
    assert (W2 : Forall tok_wf l).
    { rewrite sig_fsig in E0. eapply wf_kv; [exact E0|]. apply fsig_wf. exact (SrcThms.tokenize_wf _ _ _ _ (proj1 D) T0). }
    pose proof (SrcThms.tokenize_wf _ _ _ _ (proj1 D) T) as W. rewrite sig_fsig in E. pose proof (fsig_wf _ W) as W1.
    pose proof (call_agrees P erA k EP [] toks W) as A1. unfold agrees in A1.
    pose proof (base_er P erA k EP Erase.no_pos asc_up Erase.no_pos asc_up (fsig toks) l eq_refl gok_asc eq_refl gok_asc W1 W2 E) as B.
    change (base P l = Ok (erA Erase.no_pos same_rune x) (d', [])) in H. rewrite H in B.
    destruct (base P (fsig toks)) as [b s'| | |]; try contradiction.
    destruct (call P [] toks) as [y st| | |] eqn:C; try contradiction. destruct A1 as (-> & _ & A2). destruct B as [B1 B2].
    rewrite HC in B1. exists toks, b, st. split; [exact T|]. split; [exact C|]. split; [exact B1|].
    rewrite sig_fsig, A2. unfold er_st in B2. cbn [fst snd map] in B2. injection B2 as _ B2. destruct (snd s'); [reflexivity|discriminate B2].
  Qed.
End Layout.

Lemma pp : forall p, Erase.no_pos (Erase.no_pos p) = Erase.no_pos p. Proof. reflexivity. Qed.
Lemma rr : forall r, asc_up (same_rune r) = asc_up r. Proof. reflexivity. Qed.

Lemma node_layout d src e : dialect_words d -> wf_node d e = true -> spells d src (t_node e) -> read_back parse_expr caseless_node d src e.
Proof.
  intros D W. pose proof (ord_node e) as O. destruct (wf_strength d e W) as (S1 & S2 & S3).
  eapply (layout_text parse_expr er_node 1 pub_expr (er_node_comp _ _ _ _ _ _ pp rr)); [exact D| |apply ord_char; exact O|].
  - apply node_lex; auto. 
  - pose proof (g_expr _ _ _ (knot_good d (S (S (len (t_node e))))) e 0 [] []) as X. rewrite app_nil_r in X.
    apply X; auto; cbn [nprec]; lia.
Qed.
Lemma dtype_layout d src t : dialect_words d -> wf_type d t = true -> ends_type t = true ->
  spells d src (t_type t) -> read_back parse_data_type caseless_dtype d src t.
Proof.
  intros D W E. pose proof (ord_type t) as O.
  eapply (layout_text parse_data_type er_dtype 1 pub_dtype (er_dtype_comp _ _ _ _ _ _ pp rr)); [exact D| |apply ord_char; exact O|].
  - apply nlx_type; auto.
  - pose proof (R_type (knot (S (S (len (t_type t))))) d t [] []) as X. rewrite app_nil_r in X.
    apply X; auto. pose proof (g_fuel _ _ _ (knot_good d (S (S (len (t_type t)))))). lia.
Qed.
Lemma stmt_layout d src s : dialect_words d -> wf_stmt d s = true -> ends_stmt s = true ->
  spells d src (t_stmt s) -> read_back parse_statement caseless_stmt d src s.
Proof.
  intros D W E. pose proof (ord_stmt s) as O.
  eapply (layout_text parse_statement er_stmt 1 pub_stmt (er_stmt_comp _ _ _ _ _ _ pp rr)); [exact D| |apply ord_char; exact O|].
  - apply stmt_lex; auto.
  - pose proof (R_stmt d (knot (S (S (len (t_stmt s))))) (S (S (len (t_stmt s)))) (knot_good d _) s [] []) as X. rewrite app_nil_r in X.
    apply X; auto.
Qed.
Lemma script_layout d src ss pc : dialect_words d -> forallb (wf_stmt d) ss = true -> spells d src (t_list ss) ->
  read_back (parse_sql pc) (map caseless_stmt) d src ss.
Proof.
  intros D W2.
  assert (LL : (List.length ss <= len (t_list ss))%nat).
  { clear. unfold t_list, t_closed. induction ss as [|s ss IH]; cbn [map List.concat List.length]; [lia|].
    rewrite !app_length. cbn [List.length]. lia. }
  set (m := S (S (len (t_list ss)))).
  pose proof (g_fuel _ _ _ (knot_good d m)) as F.
  destruct (sql_loop d pc m ss (r_fuel (knot m)) [] false [] W2 ltac:(lia) ltac:(lia)) as (d' & X).
  assert (W : forallb (fun p : stmt * gostring => wf_stmt d (fst p) && blanks (snd p)) (map (fun s => (s, [])) ss) = true).
  { clear -W2. induction ss as [|s ss IH]; [reflexivity|]. cbn [map forallb fst snd] in *. apply andb_true_iff in W2 as [W3 W4].
    rewrite W3. apply IH. exact W4. }
  pose proof (script_lex d _ D W) as L. rewrite map_map in L. cbn [fst] in L. rewrite map_id in L.
  eapply (layout_text (parse_sql pc) (fun fp g => map (er_stmt fp g)) 0 (pub_sql pc)) with (l := t_list ss);
    [|exact D|exact L|apply t_list_char|].
  - intros x. apply map_comp_ext. apply er_stmt_comp; reflexivity.
  - fold m. exact X.
Qed.

(** *** Printing is injective *)

Lemma node_inj d a b : dialect_words d -> wf_node d a = true -> wf_node d b = true -> sql_node a = sql_node b -> bare_node a = bare_node b.
Proof.
  intros D Wa Wb E. destruct (node_back d a D Wa) as (t1 & y1 & s1 & T1 & C1 & E1 & _).
  destruct (node_back d b D Wb) as (t2 & y2 & s2 & T2 & C2 & E2 & _). rewrite E, T2 in T1. injection T1 as <-.
  rewrite C2 in C1. injection C1 as <- _. congruence.
Qed.
Lemma dtype_inj d a b : dialect_words d -> wf_type d a = true -> ends_type a = true -> wf_type d b = true -> ends_type b = true ->
  sql_dtype a = sql_dtype b -> bare_dtype a = bare_dtype b.
Proof.
  intros D Wa Ea Wb Eb E. destruct (dtype_back d a D Wa Ea) as (t1 & y1 & s1 & T1 & C1 & E1 & _).
  destruct (dtype_back d b D Wb Eb) as (t2 & y2 & s2 & T2 & C2 & E2 & _). rewrite E, T2 in T1. injection T1 as <-.
  rewrite C2 in C1. injection C1 as <- _. congruence.
Qed.
Lemma stmt_inj d a b : dialect_words d -> wf_stmt d a = true -> wf_stmt d b = true -> sql_stmt a = sql_stmt b -> bare_stmt a = bare_stmt b.
Proof.
  intros D Wa Wb E.
  assert (X : forall s, wf_stmt d s = true -> forallb (fun p : stmt * gostring => wf_stmt d (fst p) && blanks (snd p)) [(s, [])] = true)
    by (intros s W; cbn; rewrite W; reflexivity).
  destruct (script_back d [(a, [])] false D (X a Wa)) as (t1 & y1 & s1 & T1 & C1 & E1 & _).
  destruct (script_back d [(b, [])] false D (X b Wb)) as (t2 & y2 & s2 & T2 & C2 & E2 & _).
  assert (S : script [(a, [])] = script [(b, [])]) by (unfold script; cbn [map fst snd]; rewrite E; reflexivity).
  rewrite S, T2 in T1. injection T1 as <-. rewrite C2 in C1. injection C1 as <- _. cbn [map fst] in *. congruence.
Qed.
