(** Proofs for C79. *)
From Coq Require Import ZArith List Bool String Lia.
From Verif Require Import Base Dialect Token Lexer LexSpec AST Num Prog Parser ParseSpec LookSpec Wp Term Sim Sound After AfterWalk AfterThms SrcThms Grammar GrammarThms KindSpec KindThms CondSpec.
Import ListNotations.
Open Scope list_scope.
Open Scope Z_scope.

Definition CQ : post stmt := fun s d t => conditioned s (rev d) t.
Definition T2 : toks -> toks -> Prop := fun _ _ => True.

Lemma where_kw x : is_kw (gs "WHERE") x = true <-> where_tok x.
Proof.
  unfold is_kw, where_tok. destruct (tval x) as [w|s].
  - split; [intros H; exists w; auto|intros (w' & E & H); injection E as ->; exact H].
  - split; [discriminate|]. intros (w' & E & _). discriminate E.
Qed.

Lemma fd_kw_ok3 s (Q : post bool) (E : toks -> toks -> Prop) d t :
  (match t with [] => True | x :: _ => is_kw (gs s) x = false end -> Q false d t) ->
  (forall x t', t = x :: t' -> is_kw (gs s) x = true -> Q true (x :: d) t') -> fd (kw_ok s) Q E d t.
Proof. intros H2 H3. unfold kw_ok, parse_keyword. destruct t as [|x t]; cbn; [auto|]. destruct (is_kw (gs s) x) eqn:K; cbn; auto. Qed.

(** The optional WHERE at the end. *)
Lemma where_end r (f : option node -> stmt) d t : rf r -> (forall sel, condition (f sel) = Some sel) ->
  fd (w <- kw_ok "WHERE" ;; sel <- (if w then e <- parse_expr r ;; Ret (Some e) else Ret None) ;; Ret (f sel)) CQ T2 d t.
Proof.
  intros HR C. apply fd_bind, fd_kw_ok3.
  - intros H. cbn [fd bind]. unfold CQ, conditioned. rewrite C. destruct t as [|x t]; [exact I|]. rewrite <- where_kw, H. discriminate.
  - intros x t' -> K. apply fd_bind, fd_bind, fd_call; [apply parse_expr_floor, HR| |exact (fun _ _ => I)].
    intros e d' t. cbn [fd]. unfold CQ, conditioned. rewrite C. apply Exists_exists. exists x. split; [|apply where_kw, K].
    rewrite <- in_rev. apply in_or_app. right. left. reflexivity.
Qed.

Ltac pass := apply fd_bind, fd_call; [auto with fl|intros|exact (fun _ _ => I)].
Lemma kw_floor k : floor (kw_tok k). Proof. go. Qed.
Lemma ek_floor k : floor (expect_keyword k). Proof. go. Qed.
#[local] Hint Resolve kw_floor ek_floor : fl.

Lemma delete_cond r d t : rf r -> fd (parse_delete r) CQ T2 d t.
Proof.
  intros HR. unfold parse_delete. pass. destruct a as [x|]; [|exact I]. pass. pass. apply where_end; auto.
Qed.
Lemma update_cond r d t : rf r -> fd (parse_update r) CQ T2 d t.
Proof.
  intros HR. unfold parse_update. pass. destruct a as [x|]; [|exact I]. pass. pass. pass. apply where_end; auto.
Qed.

(** The others have no condition. *)
Definition nocond (s : stmt) : Prop := condition s = None.
Lemma nocond_fd (p : prog stmt) d t : floor p -> rets p nocond -> fd p CQ T2 d t.
Proof.
  intros F R. refine (fd_conseq _ _ _ _ _ _ _ (fd_frame _ _ _ d [] t (fd_rets _ _ _ _ _ _ (F t) R)) _ _); [|exact (fun _ _ _ => I)].
  cbn beta. intros s d' t' (d0 & _ & _ & N). unfold CQ, conditioned. rewrite N. exact I.
Qed.
Ltac noc := ret; reflexivity.

Lemma statement_cond r t : rf r -> floor (r_stmt r) ->
  (forall t', fd (r_stmt r) CQ T2 [] t') -> fd (parse_statement r) CQ T2 [] t.
Proof.
  intros HR HS HO. unfold parse_statement. apply fd_bind. destruct t as [|x t]; [exact I|]. cbn [fd next_err].
  destruct (tval x) as [w|s] eqn:V; [|exact I].
  destruct (kw w "SELECT" || kw w "WITH").
  { apply fd_bind, fd_prev, nocond_fd; [floor_go|noc]. }
  destruct (kw w "CREATE"); [apply fd_bind, fd_prev, nocond_fd; [auto with fl|unfold parse_create, parse_create_table, parse_create_view, parse_create_index; noc]|].
  destruct (kw w "DELETE"); [apply fd_bind, fd_prev, delete_cond, HR|].
  destruct (kw w "INSERT"); [apply fd_bind, fd_prev, nocond_fd; [auto with fl|unfold parse_insert; noc]|].
  destruct (kw w "ALTER"); [apply fd_bind, fd_prev, nocond_fd; [auto with fl|unfold parse_alter; noc]|].
  destruct (kw w "UPDATE"); [apply fd_bind, fd_prev, update_cond, HR|].
  destruct (kw w "DROP"); [apply fd_bind, fd_prev, nocond_fd; [auto with fl|unfold parse_drop; noc]|].
  destruct (kw w "EXPLAIN"); [|exact I].
  apply fd_bind. refine (fd_conseq _ _ _ _ _ _ _ (fd_frame _ _ _ [x] [] t (HO t)) _ _); [|exact (fun _ _ _ => I)].
  cbn beta. intros a d' t' (d0 & -> & H). cbn [fd]. unfold CQ, conditioned in *. change (condition (StExplain a pos0)) with (condition a).
  destruct (condition a) as [[e|]|]; [|exact H|exact I]. rewrite rev_app_distr. apply Exists_app. right. exact H.
Qed.
Lemma knot_cond n : forall t, fd (r_stmt (knot n)) CQ T2 [] t.
Proof. induction n as [|n IH]; intros t; [exact I|]. cbn [knot r_stmt]. apply statement_cond; auto using knot_rf, knot_stmt_floor. Qed.
Lemma stmt_cond n t : fd (parse_statement (knot n)) CQ T2 [] t.
Proof. apply statement_cond; auto using knot_rf, knot_stmt_floor, knot_cond. Qed.

Lemma statement_condition done todo s st : call parse_statement done todo = Ok s st ->
  exists read, sig todo = read ++ sig (snd st) /\ conditioned s read (sig (snd st)).
Proof.
  intros C. apply call_fm in C. pose proof (fd_keep _ _ _ _ _ (stmt_cond (fuel_for todo) (sig todo))) as F.
  destruct (fd_run _ _ _ _ _ F (sig done) _ _ _ C) as (d0 & _ & H & E). exists (rev d0). split; [symmetry; exact E|exact H].
Qed.

Definition CK (s : stmt) (b : toks) : Prop := opens s b /\ exists read rest, b = read ++ rest /\ conditioned s read rest.
Lemma stmt_CK n t : Forall tok_wf t -> fd (parse_statement (knot n)) (fun s _ _ => CK s t) (fun _ _ => True) [] t.
Proof.
  intros W. refine (fd_conseq _ _ _ _ _ _ _ (fd_both _ _ _ _ _ (stmt_opens n t W) (fd_keep _ _ _ _ _ (stmt_cond n t))) _ _); [|auto].
  cbn beta. intros s d' t' (O & H & E). split; [exact O|]. exists (rev d'), t'. split; [symmetry; exact E|exact H].
Qed.

Lemma sql_condition pc done todo l st : Forall tok_wf todo -> call (parse_sql pc) done todo = Ok l st ->
  Forall (fun s => exists a read rest, sig todo = a ++ read ++ rest /\ opens s (read ++ rest) /\ conditioned s read rest) l.
Proof.
  intros W C. apply call_fm in C. set (n := fuel_for todo) in *.
  pose proof (sql_good CK stmt_CK (sig todo) (sig_wf _ W) pc n (r_fuel (knot n)) [] false [] (sig todo) eq_refl ltac:(constructor)) as F.
  destruct (fd_run (parse_sql pc (knot n)) _ _ _ _ F (sig done) _ _ _ C) as (d0 & _ & H).
  refine (Forall_impl _ _ H). unfold good. intros s (a & b & E & O & read & rest & -> & K). exists a, read, rest. auto.
Qed.

Lemma no_where d src ts l : dialect_ok d -> tokenize d true src = TOk ts -> Forall (fun t => ~ where_tok t) ts ->
  parse_source d src = ROk l -> Forall (fun s => forall e, condition s <> Some (Some e)) l.
Proof.
  intros D T F P. unfold parse_source, parse_with in P. rewrite T in P. pose proof (tokenize_wf d true src ts D T) as W.
  change (run_raw (parse_sql false) ts) with (call (parse_sql false) [] ts) in P.
  destruct (call (parse_sql false) [] ts) as [l' st| | |] eqn:C; try discriminate P. injection P as ->.
  refine (Forall_impl _ _ (sql_condition _ _ _ _ _ W C)). cbn beta. intros s (a & b & c & E & _ & K) e Q.
  unfold conditioned in K. rewrite Q in K. apply Exists_exists in K as (t & I & H). rewrite Forall_forall in F. apply (F t); [|exact H].
  assert (I' : In t (sig ts)) by (rewrite E; apply in_or_app; right; apply in_or_app; left; exact I). unfold sig in I'. apply filter_In in I'. apply I'.
Qed.

Lemma ends_where sel c : where_clause anything sel c -> ends_in sel c.
Proof.
  destruct sel as [e|]; [|exact (fun H => H)]. intros (u & v & -> & (w & -> & S) & R). exists w, v. auto.
Qed.
Lemma reads_accounts : forall s ts, reads_stmt anything s ts -> accounts s ts.
Proof.
  fix IH 1. intros s ts R. destruct s; try exact I; cbn [reads_stmt] in R; cbn [accounts].
  - destruct R as (u1 & v1 & -> & (x & -> & _) & nm & v2 & -> & N & u3 & v3 & -> & (y & -> & _) & l & c & -> & A & W).
    exists x, nm, y, l, c. repeat split; auto using ends_where.
  - destruct R as (u1 & v1 & -> & (x & -> & _) & u2 & v2 & -> & (y & -> & _) & nm & c & -> & N & W).
    exists x, y, nm, c. repeat split; auto using ends_where.
  - destruct R as (_ & u1 & v1 & -> & (x & -> & _) & R). exists x, v1. split; [reflexivity|]. apply IH, R.
Qed.
Lemma statement_accounts done todo s st : Forall tok_wf todo -> Forall placed todo -> call parse_statement done todo = Ok s st ->
  exists used, sig todo = used ++ sig (snd st) /\ accounts s used.
Proof.
  intros W P C. destruct (stmt_reads anything _ _ _ _ (good_anything _ W P) C) as (used & E & R). exists used. split; [exact E|apply reads_accounts, R].
Qed.
