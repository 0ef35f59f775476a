(** Trees read from a text are read again from their own text (C18). *)
From Coq Require Import ZArith String List Bool Lia.
From Verif Require Import Base Dialect Token Lexer LexSpec LexFacts AST Num Nodes Erase ErId Prog Parser ParseSpec Sim ParserThms SrcThms
  Wlp Grammar Sound Slices GrammarThms Printer PrintPos RoundSpec RtRound StableSpec StableWalk Render.
Import ListNotations.
Open Scope list_scope.
Open Scope Z_scope.

Lemma call_walk {A} dl (P : rec -> prog A) (Q : A -> Prop) :
  (forall r t, wspec dl r -> wlp (fun x _ => lexed dl x) (P r) (fun a _ _ => Q a) [] t) ->
  forall done todo a st, Forall (lexed dl) todo -> call P done todo = Ok a st -> Q a.
Proof.
  intros HP done todo a st G E. unfold call in E.
  pose proof (sim_raw (P (knot (fuel_for todo))) done todo) as S. rewrite E in S.
  destruct (run fm_machine (P (knot (fuel_for todo))) (fsig done, fsig todo)) as [b s'| | |] eqn:R; try contradiction.
  cbn [outrel] in S. destruct S as [<- S].
  assert (F : Forall (lexed dl) (fsig todo)).
  { rewrite Forall_forall in *. intros t I. apply G. apply filter_In in I. apply I. }
  destruct (wlp_run (fun x _ => lexed dl x) _ _ (fsig done) [] (fsig todo) (proj2 (oks_forall _ _ _) F) (HP _ _ (knot_w dl _)) _ _ R) as (d1 & t' & _ & HQ & _).
  exact HQ.
Qed.

(** The tokens left in a parser over a text. *)
Lemma todo_good dl src done todo : dialect_ok dl -> tokenize dl true src = TOk (rev done ++ todo) ->
  Forall (lexed dl) todo /\ good anything todo.
Proof.
  intros D T. split.
  - pose proof (tokens_lexed dl src _ D T) as F. apply Forall_app in F. apply F.
  - apply good_anything.
    + pose proof (tokenize_wf dl true src _ D T) as F. apply Forall_app in F. apply F.
    + pose proof (tokenize_placed dl src _ D T) as F. apply Forall_app in F. apply F.
Qed.

Lemma printable_fine x ts : reads anything x ts -> printable x -> fine x.
Proof.
  intros R P y W. split; [apply P, W|]. destruct y; try exact I.
  - eapply reads_bound_expr; eassumption.
  - eapply reads_bound_set; eassumption.
Qed.

Section Stable.
  Variables (d : dialect) (D : dialect_words d).

  Lemma expr_wf src done todo e st : tokenize d true src = TOk (rev done ++ todo) -> call parse_expr done todo = Ok e st ->
    printable (AExpr e) -> wf_node d e = true.
  Proof.
    intros T C P. destruct (todo_good d src done todo (proj1 D) T) as [L G].
    destruct (expr_reads anything done todo e st G C) as (used & _ & R & _).
    apply (call_walk d parse_expr (fun e => fine (AExpr e) -> wf_node d e = true)) with (2 := L) (3 := C).
    - intros r t H. unfold parse_expr. eapply wlp_conseq; [apply (ws_subexpr d r H)|]. intros a ? ? [_ F]. exact F.
    - eapply printable_fine; [|exact P]. eapply reads_expr; exact R.
  Qed.
  Lemma dtype_wf src done todo e st : tokenize d true src = TOk (rev done ++ todo) -> call parse_data_type done todo = Ok e st ->
    wf_type d e = true.
  Proof.
    intros T C. destruct (todo_good d src done todo (proj1 D) T) as [L G].
    apply (call_walk d parse_data_type (fun e => wf_type d e = true)) with (2 := L) (3 := C). intros r t H. apply parse_data_type_w.
  Qed.
  Lemma stmt_wf src done todo s st : tokenize d true src = TOk (rev done ++ todo) -> call parse_statement done todo = Ok s st ->
    printable (of_stmt s) -> wf_stmt d s = true.
  Proof.
    intros T C P. destruct (todo_good d src done todo (proj1 D) T) as [L G].
    destruct (stmt_reads anything done todo s st G C) as (used & _ & R).
    apply (call_walk d parse_statement (stp d)) with (2 := L) (3 := C).
    - intros r t H. apply parse_statement_w, H.
    - eapply printable_fine; [|exact P]. apply of_stmt_reads. exact R.
  Qed.
  Lemma sql_wf pc src done todo l st : tokenize d true src = TOk (rev done ++ todo) -> call (parse_sql pc) done todo = Ok l st ->
    Forall (fun s => printable (of_stmt s)) l -> forallb (wf_stmt d) l = true.
  Proof.
    intros T C P. destruct (todo_good d src done todo (proj1 D) T) as [L G].
    destruct (sql_reads anything pc done todo l st G C) as (_ & R).
    assert (F : Forall (stp d) l) by (apply (call_walk d (parse_sql pc) (Forall (stp d))) with (2 := L) (3 := C); intros r t H; apply parse_sql_w, H).
    assert (X : Forall (fun s => fine (of_stmt s)) l).
    { rewrite Forall_forall in *. intros s I y W. split; [apply (P s I), W|].
      assert (W' : within (AFile (mkFile l [])) y).
      { eapply within_sub; [|exact W]. cbn. rewrite app_nil_r. apply in_map. exact I. }
      destruct y; try exact Logic.I.
      - eapply reads_bound_expr; [|exact W']. exact R.
      - eapply reads_bound_set; [|exact W']. exact R. }
    clear - F X. induction X as [|s l H X IH]; [reflexivity|]. inversion_clear F as [|? ? F1 F2].
    cbn [forallb]. rewrite (IH F2), andb_true_r. exact (F1 H).
  Qed.

  Lemma expr_stable src done todo e st : tokenize d true src = TOk (rev done ++ todo) -> call parse_expr done todo = Ok e st ->
    printable (AExpr e) -> read_back parse_expr bare_node d (sql_node e) e.
  Proof. intros T C P. apply node_back; [exact D|]. eapply expr_wf; eassumption. Qed.
  Lemma dtype_stable src done todo e st : tokenize d true src = TOk (rev done ++ todo) -> call parse_data_type done todo = Ok e st ->
    ends_type e = true -> read_back parse_data_type bare_dtype d (sql_dtype e) e.
  Proof. intros T C P. apply dtype_back; [exact D| |exact P]. eapply dtype_wf; eassumption. Qed.
  Lemma stmt_stable src done todo s st : tokenize d true src = TOk (rev done ++ todo) -> call parse_statement done todo = Ok s st ->
    printable (of_stmt s) -> ends_stmt s = true -> read_back parse_statement bare_stmt d (sql_stmt s) s.
  Proof. intros T C P E. apply stmt_back; [exact D| |exact E]. eapply stmt_wf; eassumption. Qed.
  Lemma script_stable pc src done todo l st ws : tokenize d true src = TOk (rev done ++ todo) -> call (parse_sql pc) done todo = Ok l st ->
    Forall (fun s => printable (of_stmt s)) l -> List.length ws = List.length l -> forallb blanks ws = true ->
    read_back (parse_sql pc) (map bare_stmt) d (script (combine l ws)) l.
  Proof.
    intros T C P N B.
    assert (M : map fst (combine l ws) = l).
    { clear - N. revert ws N. induction l as [|s l IH]; intros [|w ws] N; cbn in *; try discriminate; [reflexivity|]. now rewrite IH by lia. }
    rewrite <- M at 2. apply script_back; [exact D|].
    pose proof (sql_wf pc src done todo l st T C P) as W. clear - W B N. revert ws B N.
    induction l as [|s l IH]; intros [|w ws] B N; cbn in *; try discriminate; [reflexivity|].
    apply andb_true_iff in W as [W1 W]. apply andb_true_iff in B as [B1 B]. unfold blanks in B1. rewrite W1, B1. cbn [andb]. apply IH; auto.
  Qed.
End Stable.

(** Trees that differ in positions only have the same text. *)
Lemma same_text_node a b : bare_node a = bare_node b -> sql_node a = sql_node b.
Proof. intros E. unfold bare_node in E. unfold sql_node. now rewrite <- (p_node Erase.no_pos a), <- (p_node Erase.no_pos b), E. Qed.
Lemma same_text_dtype a b : bare_dtype a = bare_dtype b -> sql_dtype a = sql_dtype b.
Proof. intros E. unfold bare_dtype in E. unfold sql_dtype. now rewrite <- (p_dtype Erase.no_pos a), <- (p_dtype Erase.no_pos b), E. Qed.
Lemma same_text_stmt a b : bare_stmt a = bare_stmt b -> sql_stmt a = sql_stmt b.
Proof. intros E. unfold bare_stmt in E. unfold sql_stmt. now rewrite <- (p_stmt Erase.no_pos a), <- (p_stmt Erase.no_pos b), E. Qed.
Lemma same_text_script a b ws : map bare_stmt a = map bare_stmt b -> script (combine a ws) = script (combine b ws).
Proof.
  revert b ws. induction a as [|x a IH]; intros [|y b] ws E; try discriminate; [reflexivity|].
  injection E as E1 E2. destruct ws as [|w ws]; [reflexivity|]. cbn [combine]. unfold script in *. cbn [map List.concat fst snd].
  now rewrite (same_text_stmt x y E1), (IH b ws E2).
Qed.

(** Looking at every node, to a depth [n]. *)
Fixpoint all_clean (n : nat) (x : any) : bool :=
  match n with O => false | S n => clean x && forallb (all_clean n) (subnodes x) end.
Lemma all_clean_printable n : forall x, all_clean n x = true -> printable x.
Proof.
  induction n as [|n IH]; intros x H; [discriminate|]. cbn [all_clean] in H. apply andb_true_iff in H as [H1 H2].
  intros z W. inversion W as [|? y ? I W']; subst; [exact H1|].
  rewrite forallb_forall in H2. exact (IH y (H2 y I) z W').
Qed.
