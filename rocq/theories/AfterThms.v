(** Proofs for C76. *)
From Coq Require Import ZArith List Bool String Lia.
From Verif Require Import Base Dialect Token Lexer LexSpec AST Num Prog Parser ParseSpec LookSpec Wp Term Sim LexFacts Sound WallWalk WallThms After AfterWalk.
Import ListNotations.
Open Scope list_scope.
Open Scope Z_scope.

(** A call that succeeds. *)
Lemma after_ok {S A} (m : machine S) (p : prog A) : forall s a s', run m p s = Ok a s' -> after m p s = s'.
Proof.
  induction p as [a0| |w| |k IH|k IH|k IH|ks k IH]; intros s a s' H; cbn [run after] in *; try discriminate H.
  - injection H as _ H. exact H.
  - destruct (m_next m s). eauto.
  - eauto.
  - destruct (m_prev m s); [eauto|discriminate H].
  - destruct (run_kws m s ks [] s). eauto.
Qed.

(** On the tokens that are not blank. *)
Lemma after_raw {A} (p : prog A) : forall s s', Rraw s s' -> Rraw (after raw_machine p s) (after fm_machine p s').
Proof.
  assert (N : forall s s', Rraw s s' -> fst (m_next raw_machine s) = fst (m_next fm_machine s') /\ Rraw (snd (m_next raw_machine s)) (snd (m_next fm_machine s')))
    by (intros [d t] s' ->; apply raw_next_fsig).
  assert (P : forall s s', Rraw s s' -> m_peek raw_machine s = m_peek fm_machine s') by (intros [d t] s' ->; apply raw_peek_fsig).
  assert (V : forall s s', Rraw s s' -> match m_prev raw_machine s, m_prev fm_machine s' with Some a, Some b => Rraw a b | None, None => True | _, _ => False end)
    by (intros [d t] s' ->; apply raw_prev_fsig).
  induction p as [a0| |w| |k IH|k IH|k IH|ks k IH]; intros s s' H; cbn [after]; auto.
  - destruct (N s s' H) as [E1 E2]. destruct (m_next raw_machine s), (m_next fm_machine s'). cbn [fst snd] in *. subst. auto.
  - rewrite (P s s' H). auto.
  - pose proof (V s s' H) as X. destruct (m_prev raw_machine s), (m_prev fm_machine s'); try contradiction; auto.
  - destruct (sim_kws raw_machine fm_machine Rraw N P ltac:(auto) ks s s' [] s s' H H) as [E1 E2].
    destruct (run_kws raw_machine s ks [] s), (run_kws fm_machine s' ks [] s'). cbn [fst snd] in *. subst. auto.
Qed.

(** What the walk says about the parser afterwards. *)
Lemma fd_after {A} (p : prog A) (P : toks -> toks -> Prop) : forall d t, fd p (fun _ => P) P d t ->
  exists d' t', P d' t' /\ rev d' ++ t' = rev d ++ t /\ forall base, after fm_machine p (d ++ base, t) = (d' ++ base, t').
Proof.
  induction p as [a0| |w| |k IH|k IH|k IH|ks k IH]; intros d t H; cbn [fd after] in *; try (exists d, t; auto; fail).
  - destruct t as [|x t].
    + destruct (IH None d [] H) as (d' & t' & H1 & H2 & H3). exists d', t'. auto.
    + destruct (IH (Some x) (x :: d) t H) as (d' & t' & H1 & H2 & H3). exists d', t'. split; [exact H1|]. split; [|exact H3].
      rewrite H2. cbn [rev]. rewrite <- app_assoc. reflexivity.
  - destruct t as [|x t].
    + destruct (IH None d [] H) as (d' & t' & H1 & H2 & H3). exists d', t'. auto.
    + destruct (IH (Some x) d (x :: t) H) as (d' & t' & H1 & H2 & H3). exists d', t'. auto.
  - destruct d as [|x d]; [contradiction|]. destruct (IH d (x :: t) H) as (d' & t' & H1 & H2 & H3). exists d', t'. split; [exact H1|]. split; [|exact H3].
    rewrite H2. cbn [rev]. rewrite <- app_assoc. reflexivity.
  - destruct (kws_match ks t) as [l|] eqn:K.
    + destruct (IH (Some l) _ _ H) as (d' & t' & H1 & H2 & H3). exists d', t'. split; [exact H1|]. split.
      * rewrite H2, rev_app_distr, rev_involutive, <- app_assoc. f_equal. destruct (kws_match_spec _ _ _ K) as [K1 _]. symmetry. exact K1.
      * intros base. rewrite run_kws_fm, K. cbn [rev List.app]. rewrite app_assoc. apply H3.
    + destruct (IH None _ _ H) as (d' & t' & H1 & H2 & H3). exists d', t'. split; [exact H1|]. split; [exact H2|].
      intros base. rewrite run_kws_fm, K. apply H3.
Qed.

(** The wall. *)
Lemma wd_after sv sf se {A} (p : prog A) Q : forall d t b y, (b = true -> t = []) -> wd sv sf se p Q d t b ->
  exists d' t' b', after fm_machine p (at_wall sv sf se d t b y) = at_wall sv sf se d' t' b' y.
Proof.
  assert (KW : forall k, is_kw k (wtok sv sf se) = false) by reflexivity.
  induction p as [a0| |x0| |k IH|k IH|k IH|ks k IH]; intros d t b y B W; cbn [after wd] in *; try (exists d, t, b; reflexivity).
  - destruct b; [contradiction|]. destruct t as [|x t].
    + exact (IH (Some (wtok sv sf se)) d [] true y ltac:(auto) W).
    + exact (IH (Some x) (x :: d) t false y ltac:(discriminate) W).
  - destruct b; [contradiction|]. destruct t as [|x t].
    + exact (IH (Some (wtok sv sf se)) d [] false y ltac:(discriminate) W).
    + exact (IH (Some x) d (x :: t) false y ltac:(discriminate) W).
  - destruct b.
    + rewrite (B eq_refl) in *. exact (IH d [] false y ltac:(discriminate) W).
    + destruct d as [|x d]; [exists [], t, false; reflexivity|]. exact (IH d (x :: t) false y ltac:(discriminate) W).
  - destruct b; [contradiction|]. unfold at_wall. rewrite run_kws_fm, kws_match_wall by exact KW.
    destruct (kws_match ks t) as [l|] eqn:E.
    + destruct (kws_match_spec _ _ _ E) as [E1 E2]. cbn [rev List.app].
      replace (skipn (List.length l) (t ++ wtok sv sf se :: y)) with (skipn (List.length l) t ++ wtok sv sf se :: y)
        by (rewrite E1 at 2; rewrite <- app_assoc, skipn_app, skipn_all, Nat.sub_diag; reflexivity).
      exact (IH (Some l) (rev l ++ d) (skipn (List.length l) t) false y ltac:(discriminate) W).
    + exact (IH None d t false y ltac:(discriminate) W).
Qed.

(** ParseStatement reads something. *)
Lemma upper_fold s : forallb (fun c => (65 <=? c) && (c <=? 95)) s = true -> forall v, ~ In 305 v -> upper v = s -> equal_fold v s = true.
Proof.
  induction s as [|c s IH]; intros Hp [|x v] N E; try reflexivity; try discriminate E.
  cbn [forallb] in Hp. apply andb_prop in Hp. destruct Hp as [Hc Hp]. unfold upper in E. cbn [map] in E. injection E as E1 E2.
  cbn [equal_fold]. apply andb_true_intro. split.
  - assert (x <> 305) by (intros ->; apply N; left; reflexivity). clear N IH. revert E1. unfold fold1, to_upper. rewrite Z.eqb_eq.
    repeat match goal with |- context [if ?b then _ else _] => destruct b eqn:? end; lia.
  - apply IH; [exact Hp| |exact E2]. intros X. apply N. right. exact X.
Qed.
Lemma kw_is s x w : forallb (fun c => (65 <=? c) && (c <=? 95)) (gs s) = true -> tok_wf x -> plain_word x -> tval x = VWord w -> kw w s = true -> is_kw (gs s) x = true.
Proof.
  intros P W N V K. unfold is_kw. rewrite V. unfold tok_wf in W. unfold plain_word in N. rewrite V in W, N.
  apply upper_fold; [exact P|exact N|].
  unfold kw in K. apply Sound.gs_eqb_eq in K. destruct (tkind x); try contradiction. congruence.
Qed.

Definition moved (d t : toks) : Prop := d <> [].
Lemma moved_cons x d t : moved (x :: d) t.
Proof. discriminate. Qed.
Lemma moved_app l d t : moved d t -> moved (l ++ d) t.
Proof. unfold moved. intros H. destruct l; [exact H|discriminate]. Qed.
#[local] Hint Resolve moved_cons moved_app : fl.
Ltac gom := repeat (cbn beta; go1); sub; cbn [List.app]; try exact I; try discriminate; auto with fl.

Section Hits.
  Context (E : toks -> toks -> Prop) (s : string) (x : token) (d t : toks) (K : is_kw (gs s) x = true).
  Lemma hit_kw_tok (Q : post (option token)) : Q (Some x) (x :: d) t -> fd (kw_tok s) Q E d (x :: t).
  Proof. intros H. unfold kw_tok, parse_keyword. cbn. rewrite K. cbn. exact H. Qed.
  Lemma hit_kw_ok (Q : post bool) : Q true (x :: d) t -> fd (kw_ok s) Q E d (x :: t).
  Proof. intros H. unfold kw_ok, parse_keyword. cbn. rewrite K. cbn. exact H. Qed.
  Lemma hit_expect (Q : post token) : Q x (x :: d) t -> fd (expect_keyword s) Q E d (x :: t).
  Proof. intros H. unfold expect_keyword, parse_keyword. cbn. rewrite K. cbn. exact H. Qed.
End Hits.

Lemma query_moves r x t : rf r -> is_kw (gs "SELECT") x = true \/ is_kw (gs "WITH") x = true -> fd (parse_query r) (fun _ => moved) moved [] (x :: t).
Proof.
  intros HR K. unfold parse_query. apply fd_bind. destruct (is_kw (gs "WITH") x) eqn:W.
  - apply hit_kw_ok; [exact W|]. gom.
  - destruct K as [K|K]; [|discriminate K]. apply fd_kw_ok; [|intros x0 t' E; injection E as <- <-; gom].
    intros _. apply fd_bind. cbn [fd]. apply fd_bind. unfold parse_query_body. apply fd_bind, hit_kw_tok; [exact K|]. gom.
Qed.

Ltac hit f K := unfold f; apply fd_bind; first [apply hit_kw_tok|apply hit_kw_ok|apply hit_expect]; [exact K|]; cbv iota beta; gom.

Lemma statement_moves r x t : rf r -> floor (r_stmt r) -> tok_wf x -> plain_word x -> fd (parse_statement r) (fun _ => moved) moved [] (x :: t).
Proof.
  intros HR HS W N. unfold parse_statement. apply fd_bind. cbn [fd next_err].
  destruct (tval x) as [w|s] eqn:V; [|cbn [fd]; apply moved_cons].
  pose proof (fun s H => kw_is s x w H W N V) as KW.
  destruct (kw w "SELECT" || kw w "WITH") eqn:K1.
  { apply fd_bind, fd_prev, fd_bind.
    assert (K : is_kw (gs "SELECT") x = true \/ is_kw (gs "WITH") x = true)
      by (apply orb_true_iff in K1 as [K|K]; [left|right]; apply KW; (reflexivity || exact K)).
    refine (fd_conseq _ _ _ _ _ _ _ (query_moves r x t HR K) _ _); auto. }
  destruct (kw w "CREATE") eqn:K2; [apply KW in K2; [|reflexivity]; apply fd_bind, fd_prev; hit parse_create K2|].
  destruct (kw w "DELETE") eqn:K3; [apply KW in K3; [|reflexivity]; apply fd_bind, fd_prev; hit parse_delete K3|].
  destruct (kw w "INSERT") eqn:K4; [apply KW in K4; [|reflexivity]; apply fd_bind, fd_prev; hit parse_insert K4|].
  destruct (kw w "ALTER") eqn:K5; [apply KW in K5; [|reflexivity]; apply fd_bind, fd_prev; hit parse_alter K5|].
  destruct (kw w "UPDATE") eqn:K6; [apply KW in K6; [|reflexivity]; apply fd_bind, fd_prev; hit parse_update K6|].
  destruct (kw w "DROP") eqn:K7; [apply KW in K7; [|reflexivity]; apply fd_bind, fd_prev; hit parse_drop K7|].
  destruct (kw w "EXPLAIN") eqn:K8; [gom|cbn [fd]; apply moved_cons].
Qed.

Lemma value_moves x t : fd parse_value (fun _ => moved) moved [] (x :: t).
Proof. unfold parse_value. apply fd_bind. cbn [fd next_err]. gom. Qed.

Lemma prefix_moves r x t : rf r -> tok_wf x -> plain_word x -> fd (parse_prefix r) (fun _ => moved) moved [] (x :: t).
Proof.
  intros HR W N. unfold parse_prefix. apply fd_bind. cbn [fd next_err].
  destruct (tkind x) eqn:TK; try solve [gom]; try solve [apply fd_bind, fd_prev, value_moves].
  apply fd_bind. unfold word_of. destruct (tval x) as [w|s] eqn:V; [cbn [fd]|cbn [fd]; apply moved_cons].
  pose proof (fun s H => kw_is s x w H W N V) as KW.
  destruct (kw w "TRUE" || kw w "FALSE" || kw w "NULL"); [apply fd_bind, fd_prev, value_moves|].
  destruct (kw w "CASE") eqn:K1; [apply KW in K1; [|reflexivity]; apply fd_bind, fd_prev; hit parse_case K1|].
  destruct (kw w "CAST") eqn:K2; [apply KW in K2; [|reflexivity]; apply fd_bind, fd_prev; hit parse_cast K2|].
  destruct (kw w "EXISTS") eqn:K3; [apply KW in K3; [|reflexivity]; apply fd_bind, fd_prev; hit parse_exists K3|].
  gom.
Qed.

Lemma name_moves r n x t w : r_fuel r = S n -> tok_wf x -> tval x = VWord w ->
  fd (parse_object_name r) (fun a d' t' => fd (Ret (TCustom a)) (fun _ => moved) moved d' t') moved [] (x :: t).
Proof.
  intros F W V. unfold parse_object_name. apply fd_bind. unfold parse_list_of_ids. rewrite F. cbn [loop].
  assert (TK : tkind x = SQLKeyword) by (unfold tok_wf in W; rewrite V in W; destruct (tkind x); try contradiction; reflexivity).
  apply fd_bind. cbn [fd]. unfold is_kind at 1, word_of at 1. rewrite TK, V. cbn [kind_eqb andb]. cbn [fd bind].
  gom.
Qed.

Lemma call_moves {A} (P : rec -> prog A) erA K : looks P erA K -> forall todo x t, tok_wf x -> plain_word x ->
  fd (P (knot (fuel_for todo))) (fun _ => moved) moved [] (x :: t).
Proof.
  intros L todo x t W N. destruct L.
  - unfold parse_expr, fuel_for. cbn [knot r_subexpr]. unfold parse_subexpr. apply fd_bind.
    refine (fd_conseq _ _ _ _ _ _ _ (prefix_moves _ x t (knot_rf (S (List.length todo))) W N) _ _); [|auto].
    intros a d' t' M. apply fd_call.
    + apply infix_loop_floor, (knot_rf (S (List.length todo))).
    + intros. apply moved_app. exact M. 
    + intros. apply moved_app. exact M. 
  - unfold parse_data_type. apply fd_bind. cbn [fd next_err]. gom.
    + unfold next_kind. apply fd_bind. cbn [fd next_nn]. gom.
    + eapply name_moves; [reflexivity|exact W|eassumption].
  - apply statement_moves; [apply knot_rf|apply knot_stmt_floor|exact W|exact N].
Qed.

(** * Calls *)
Lemma after_state {A} (P : rec -> prog A) done todo : let st := call_after P done todo in
  (sig (fst st), sig (snd st)) = after fm_machine (P (knot (fuel_for todo))) (sig done, sig todo).
Proof. cbn zeta. symmetry. exact (after_raw (P (knot (fuel_for todo))) (done, todo) (sig done, sig todo) eq_refl). Qed.

Lemma forward_calls {A} (P : rec -> prog A) erA K : looks P erA K -> forall done todo,
  exists used, sig todo = used ++ sig (snd (call_after P done todo)) /\ sig (fst (call_after P done todo)) = rev used ++ sig done.
Proof.
  intros L done todo.
  assert (F : floor (P (knot (fuel_for todo)))).
  { destruct L; [apply parse_expr_floor, knot_rf|apply parse_data_type_floor|apply parse_statement_floor; [apply knot_rf|apply knot_stmt_floor]]. }
  destruct (fd_after _ (fun _ _ => True) [] (sig todo) (F (sig todo))) as (d & t & _ & H & R).
  pose proof (after_state P done todo) as S. cbn zeta in S. specialize (R (sig done)). cbn [List.app] in R. rewrite R in S. injection S as -> ->.
  exists (rev d). rewrite rev_involutive. split; [symmetry; exact H|reflexivity].
Qed.

Lemma wall_after {A} (P : rec -> prog A) erA K : looks P erA K -> forall done todo a s b, Forall tok_wf todo ->
  sig todo = (a ++ s :: b) ++ sig (snd (call_after P done todo)) -> tkind s = Semicolon -> b = [].
Proof.
  intros L done todo a s b W E TS.
  assert (WS : tok_wf s).
  { assert (I : In s (sig todo)) by (rewrite E, <- app_assoc; apply in_or_app; right; left; reflexivity).
    apply filter_In in I as [I _]. rewrite Forall_forall in W. auto. }
  destruct (semi_tok s WS TS) as (sv & sf & se & ->).
  assert (F : wall sv sf se (P (knot (fuel_for todo)))).
  { destruct L; [apply parse_expr_wall, knot_rw|apply parse_data_type_wall|apply parse_statement_wall; [apply knot_rw|apply knot_stmt_wall]]. }
  pose proof (after_state P done todo) as S. cbn zeta in S. set (st := call_after P done todo) in *. clearbody st.
  rewrite E, <- app_assoc in S. cbn [List.app] in S.
  destruct (wd_after sv sf se _ _ (sig done) a false (b ++ sig (snd st)) ltac:(discriminate) (F (sig done) a)) as (d' & t' & b' & R).
  unfold at_wall in R at 1. rewrite R in S. unfold at_wall in S. destruct b'.
  - injection S as _ S. apply (f_equal (@List.length token)) in S. rewrite app_length in S. destruct b; [reflexivity|cbn [List.length] in S; lia].
  - injection S as _ S. apply (f_equal (@List.length token)) in S. rewrite !app_length in S. cbn [List.length] in S. rewrite app_length in S. lia.
Qed.

Lemma progress_sig {A} (P : rec -> prog A) erA K : looks P erA K -> forall done todo x t, sig todo = x :: t -> tok_wf x -> plain_word x ->
  exists u, sig todo = x :: u ++ sig (snd (call_after P done todo)).
Proof.
  intros L done todo x t E W N.
  pose proof (call_moves P erA K L todo x t W N) as F.
  destruct (fd_after _ moved [] (x :: t) F) as (d & t' & M & H & R).
  pose proof (after_state P done todo) as S. cbn zeta in S. specialize (R (sig done)). cbn [List.app] in R. rewrite E, R in S. injection S as _ ->.
  rewrite E. cbn [rev List.app] in H. destruct (rev d) as [|y u] eqn:D.
  - apply (f_equal (@rev token)) in D. rewrite rev_involutive in D. destruct (M D).
  - cbn [List.app] in H. injection H as -> H. exists u. rewrite H. reflexivity.
Qed.

Lemma progress {A} (P : rec -> prog A) erA K : looks P erA K -> forall done todo, Forall tok_wf todo -> Forall plain_word todo -> sig todo <> [] ->
  (List.length (sig (snd (call_after P done todo))) < List.length (sig todo))%nat.
Proof.
  intros L done todo W N E. destruct (sig todo) as [|x t] eqn:S; [destruct (E eq_refl)|].
  assert (I : In x todo) by (apply (filter_In (fun t => negb (blank t))); unfold sig in S; rewrite S; left; reflexivity).
  rewrite Forall_forall in W, N. destruct (progress_sig P erA K L done todo x t S (W x I) (N x I)) as [u H].
  rewrite S in H. injection H as H. rewrite H. cbn [List.length]. rewrite app_length. lia.
Qed.

Lemma retry_ends : forall n done todo, Forall tok_wf (sig todo) -> Forall plain_word (sig todo) ->
  (List.length (sig todo) <= n)%nat -> sig (retry n done todo) = [].
Proof.
  induction n as [|n IH]; intros done todo W N L; cbn [retry].
  - destruct (sig todo); [reflexivity|cbn [List.length] in L; lia].
  - destruct (forward_calls parse_statement _ _ looks_stmt done todo) as (used & E & _).
    destruct (sig todo) as [|x t] eqn:S.
    + destruct (call_after parse_statement done todo) as [d' t'] eqn:C. cbn [snd] in E.
      destruct used; [|discriminate E]. cbn [List.app] in E. apply IH; rewrite <- E; auto. cbn [List.length]. lia.
    + destruct (progress_sig parse_statement _ _ looks_stmt done todo x t S (Forall_inv W) (Forall_inv N)) as [u H]. rewrite S in H.
      destruct (call_after parse_statement done todo) as [d' t'] eqn:C. cbn [snd] in *.
      injection H as H. rewrite H in *. cbn [List.length] in L. rewrite app_length in L.
      apply Forall_inv_tail, Forall_app in W as [_ W]. apply Forall_inv_tail, Forall_app in N as [_ N].
      apply IH; auto. lia.
Qed.
Lemma retries done todo n : Forall tok_wf todo -> Forall plain_word todo -> (List.length (sig todo) <= n)%nat -> sig (retry n done todo) = [].
Proof. intros W N. apply retry_ends; unfold sig; apply Forall_forall; intros x I; apply filter_In in I as [I _]; rewrite Forall_forall in W, N; auto. Qed.

Lemma ok_calls {A} (P : rec -> prog A) done todo a st : call P done todo = Ok a st -> call_after P done todo = st.
Proof. apply after_ok. Qed.

(** * ParseSQL *)
Lemma sql_floor pc n : floor (parse_sql pc (knot n)).
Proof.
  unfold parse_sql. apply floor_loop. intros [acc e].
  pose proof (parse_statement_floor (knot n) (knot_rf n) (knot_stmt_floor n)) as F. go.
Qed.

Lemma sql_forward pc done todo : exists used, sig todo = used ++ sig (snd (call_after (parse_sql pc) done todo)) /\
  sig (fst (call_after (parse_sql pc) done todo)) = rev used ++ sig done.
Proof.
  destruct (fd_after _ (fun _ _ => True) [] (sig todo) (sql_floor pc (fuel_for todo) (sig todo))) as (d & t & _ & H & R).
  pose proof (after_state (parse_sql pc) done todo) as S. cbn zeta in S. specialize (R (sig done)). cbn [List.app] in R. rewrite R in S. injection S as -> ->.
  exists (rev d). rewrite rev_involutive. split; [symmetry; exact H|reflexivity].
Qed.

Lemma sql_moves pc m x t : tok_wf x -> plain_word x -> fd (parse_sql pc (knot (S m))) (fun _ => moved) moved [] (x :: t).
Proof.
  intros W N. assert (E : exists f, r_fuel (knot (S m)) = S f) by (eexists; reflexivity). destruct E as [f E].
  generalize dependent (S m). intros n E. unfold parse_sql. rewrite E. cbn [loop].
  pose proof (parse_statement_floor (knot n) (knot_rf n) (knot_stmt_floor n)) as F.
  pose proof (statement_moves (knot n) x t (knot_rf n) (knot_stmt_floor n) W N) as M.
  set (body := fun '(acc, expecting) => ok <- consume_token Semicolon ;; _) in |- *.
  assert (FL : forall s, floor (loop f body s)).
  { apply floor_loop. intros [acc e]. subst body. cbv beta iota. go. }
  apply fd_bind. unfold body at 1. apply fd_bind, fd_consume.
  - cbn [negb andb]. apply fd_bind.
    assert (G : fd (s <- parse_statement (knot n);; Ret (inl ([s], true)))
      (fun (r : list stmt * bool + list stmt) d' t' => fd match r with inl s => loop f body s | inr a => Ret a end (fun _ => moved) moved d' t') moved [] (x :: t)).
    { apply fd_bind. refine (fd_conseq _ _ _ _ _ _ _ M _ _); [|auto]. intros a d' t' Z. cbn [fd]. apply fd_call.
      - apply FL.
      - intros. apply moved_app. exact Z.
      - intros. apply moved_app. exact Z. }
    destruct pc; cbn [fd bind prev]; exact G.
  - intros y t' _. clear M. gom.
Qed.

Lemma sql_progress pc done todo : Forall tok_wf todo -> Forall plain_word todo -> sig todo <> [] ->
  (List.length (sig (snd (call_after (parse_sql pc) done todo))) < List.length (sig todo))%nat.
Proof.
  intros W N E. destruct (sig todo) as [|x t] eqn:X; [destruct (E eq_refl)|].
  assert (I : In x todo) by (apply (filter_In (fun t => negb (blank t))); unfold sig in X; rewrite X; left; reflexivity).
  rewrite Forall_forall in W, N.
  destruct (fd_after _ moved [] (x :: t) (sql_moves pc (S (List.length todo)) x t (W x I) (N x I))) as (d & t' & M & H & R).
  pose proof (after_state (parse_sql pc) done todo) as S. cbn zeta in S. specialize (R (sig done)). cbn [List.app] in R.
  rewrite X in S. change (fuel_for todo) with (Datatypes.S (Datatypes.S (List.length todo))) in S. rewrite R in S. injection S as _ ->.
  cbn [rev List.app] in H. apply (f_equal (@List.length token)) in H. rewrite app_length, rev_length in H.
  destruct d as [|y d]; [destruct (M eq_refl)|]. cbn [List.length] in *. lia.
Qed.
