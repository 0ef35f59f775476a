(** Proofs for C78. *)
From Coq Require Import ZArith List Bool String Lia.
From Verif Require Import Base Dialect Token Lexer LexSpec AST Num Prog Parser ParseSpec LookSpec Wp Term Sim Sound After AfterWalk AfterThms SrcThms KindSpec.
Import ListNotations.
Open Scope list_scope.
Open Scope Z_scope.

(** What a program can return. *)
Fixpoint rets {A} (p : prog A) (R : A -> Prop) : Prop :=
  match p with
  | Ret a => R a
  | Err | Panic _ | Fuel => True
  | Next k | Peek k => forall o, rets (k o) R
  | Prev k => rets k R
  | Kws _ k => forall o, rets (k o) R
  end.
Lemma rets_bind {A B} (p : prog A) (f : A -> prog B) R : (forall a, rets (f a) R) -> rets (bind p f) R.
Proof. intros H. induction p; cbn [bind rets]; auto. Qed.
Ltac ret := repeat match goal with
  | |- rets (bind _ _) _ => apply rets_bind; intros
  | |- rets (Ret _) _ => cbn [rets]
  | |- rets (Err) _ => exact I
  | |- rets (Panic _) _ => exact I
  | |- rets (let _ := _ in _) _ => cbv zeta
  | |- rets (match ?x with _ => _ end) _ => destruct x
  end.

Lemma fd_rets {A} (p : prog A) (Q : post A) E R : forall d t, fd p Q E d t -> rets p R -> fd p (fun a d' t' => Q a d' t' /\ R a) E d t.
Proof.
  induction p as [a| |w| |k IH|k IH|k IH|ks k IH]; intros d t H HR; cbn [fd rets] in *; auto.
  - destruct t; apply IH; auto.
  - destruct t; apply IH; auto.
  - destruct d; [contradiction|]. apply IH; auto.
  - destruct (kws_match ks t); apply IH; auto.
Qed.
Lemma fd_keep {A} (p : prog A) (Q : post A) E : forall d t, fd p Q E d t -> fd p (fun a d' t' => Q a d' t' /\ rev d' ++ t' = rev d ++ t) E d t.
Proof.
  induction p as [a| |w| |k IH|k IH|k IH|ks k IH]; intros d t H; cbn [fd] in *; auto.
  - destruct t as [|x t]; [apply IH; auto|]. refine (fd_conseq _ _ _ _ _ _ _ (IH _ _ _ H) _ _); [|auto].
    cbn beta. intros a d' t' [H1 H2]. split; [exact H1|]. rewrite H2. cbn [rev]. rewrite <- app_assoc. reflexivity.
  - destruct t; apply IH; auto.
  - destruct d as [|x d]; [contradiction|]. refine (fd_conseq _ _ _ _ _ _ _ (IH _ _ H) _ _); [|auto].
    cbn beta. intros a d' t' [H1 H2]. split; [exact H1|]. rewrite H2. cbn [rev]. rewrite <- app_assoc. reflexivity.
  - destruct (kws_match ks t) as [l|] eqn:K; [|apply IH; auto]. refine (fd_conseq _ _ _ _ _ _ _ (IH _ _ _ H) _ _); [|auto].
    cbn beta. intros a d' t' [H1 H2]. split; [exact H1|]. destruct (kws_match_spec _ _ _ K) as [K1 _].
    rewrite H2, rev_app_distr, rev_involutive, <- app_assoc. f_equal. symmetry. exact K1.
Qed.

Definition is (w : string) (s : stmt) : Prop := first_words s = [w].
Lemma create_rets r : rets (parse_create r) (is "CREATE").
Proof. unfold parse_create, parse_create_table, parse_create_view, parse_create_index. ret; reflexivity. Qed.
Lemma delete_rets r : rets (parse_delete r) (is "DELETE").
Proof. unfold parse_delete. ret; reflexivity. Qed.
Lemma insert_rets r : rets (parse_insert r) (is "INSERT").
Proof. unfold parse_insert. ret; reflexivity. Qed.
Lemma alter_rets r : rets (parse_alter r) (is "ALTER").
Proof. unfold parse_alter. ret; reflexivity. Qed.
Lemma update_rets r : rets (parse_update r) (is "UPDATE").
Proof. unfold parse_update. ret; reflexivity. Qed.
Lemma drop_rets r : rets (parse_drop r) (is "DROP").
Proof. unfold parse_drop. ret; reflexivity. Qed.

Lemma word_one words x w : tok_wf x -> tval x = VWord w -> (exists s, In s words /\ kw w s = true) -> one_of words x.
Proof.
  intros W V (s & I & K). exists w. split; [exact V|]. unfold tok_wf in W. rewrite V in W.
  unfold kw in K. apply Sound.gs_eqb_eq in K. replace (upper (wvalue w)) with (gs s) by (destruct (tkind x); try contradiction; congruence).
  apply in_map, I.
Qed.

Lemma opens_is w s x t : is w s -> one_of [w] x -> w <> "EXPLAIN"%string -> opens s (x :: t).
Proof. unfold is. intros E H N. cbn [opens]. rewrite E. split; [exact H|]. destruct s; try exact I. cbn in E. congruence. Qed.

Lemma statement_opens r t : rf r -> floor (r_stmt r) -> Forall tok_wf t ->
  (forall t', Forall tok_wf t' -> fd (r_stmt r) (fun s _ _ => opens s t') (fun _ _ => True) [] t') ->
  fd (parse_statement r) (fun s _ _ => opens s t) (fun _ _ => True) [] t.
Proof.
  intros HR HS W HO. unfold parse_statement. apply fd_bind. destruct t as [|x t]; [exact I|]. cbn [fd next_err].
  destruct (tval x) as [w|s] eqn:V; [|exact I].
  pose proof (fun ws => word_one ws x w (Forall_inv W) V) as ONE.
  assert (CASE : forall k (p : prog stmt), kw w k = true -> k <> "EXPLAIN"%string -> floor p -> rets p (is k) ->
    fd (prev ;;; p) (fun s _ _ => opens s (x :: t)) (fun _ _ => True) [x] t).
  { intros k p K N F R. apply fd_bind, fd_prev. refine (fd_conseq _ _ _ _ _ _ _ (fd_rets _ _ _ _ _ _ (F (x :: t)) R) _ _); [|auto].
    cbn beta. intros a _ _ [_ H]. apply (opens_is k); [exact H| |exact N]. apply ONE. exists k. split; [left; reflexivity|exact K]. }
  destruct (kw w "SELECT" || kw w "WITH") eqn:K1.
  { apply fd_bind, fd_prev, fd_bind. refine (fd_conseq _ _ _ _ _ _ _ (parse_query_floor r HR (x :: t)) _ _); [|auto].
    intros q d' t' _. cbn [fd opens first_words]. split; [|exact I]. apply ONE. apply orb_true_iff in K1 as [K|K]; [exists "SELECT"%string|exists "WITH"%string]; (split; [cbn; auto|exact K]). }
  destruct (kw w "CREATE") eqn:K2; [apply (CASE "CREATE"%string); [exact K2|discriminate|apply parse_create_floor, HR|apply create_rets]|].
  destruct (kw w "DELETE") eqn:K3; [apply (CASE "DELETE"%string); [exact K3|discriminate|apply parse_delete_floor, HR|apply delete_rets]|].
  destruct (kw w "INSERT") eqn:K4; [apply (CASE "INSERT"%string); [exact K4|discriminate|apply parse_insert_floor, HR|apply insert_rets]|].
  destruct (kw w "ALTER") eqn:K5; [apply (CASE "ALTER"%string); [exact K5|discriminate|apply parse_alter_floor, HR|apply alter_rets]|].
  destruct (kw w "UPDATE") eqn:K6; [apply (CASE "UPDATE"%string); [exact K6|discriminate|apply parse_update_floor, HR|apply update_rets]|].
  destruct (kw w "DROP") eqn:K7; [apply (CASE "DROP"%string); [exact K7|discriminate|apply parse_drop_floor|apply drop_rets]|].
  destruct (kw w "EXPLAIN") eqn:K8; [|exact I].
  apply fd_bind.
  refine (fd_conseq _ _ _ _ _ _ _ (fd_frame _ _ _ [x] [] t (HO t (Forall_inv_tail W))) _ _); [|auto].
  cbn beta. intros a d' t' (d0 & _ & H). cbn [fd opens first_words]. split; [|exact H].
  apply ONE. exists "EXPLAIN"%string. split; [left; reflexivity|exact K8].
Qed.

Lemma knot_opens n : forall t, Forall tok_wf t -> fd (r_stmt (knot n)) (fun s _ _ => opens s t) (fun _ _ => True) [] t.
Proof.
  induction n as [|n IH]; intros t W; [exact I|]. cbn [knot r_stmt]. apply statement_opens; auto using knot_rf, knot_stmt_floor.
Qed.
Lemma stmt_opens n t : Forall tok_wf t -> fd (parse_statement (knot n)) (fun s _ _ => opens s t) (fun _ _ => True) [] t.
Proof. intros W. apply statement_opens; auto using knot_rf, knot_stmt_floor, knot_opens. Qed.

(** From the walk to calls. *)
Lemma fd_run {A} (p : prog A) (Q : post A) E : forall d t, fd p Q E d t -> forall base a d' t',
  run fm_machine p (d ++ base, t) = Ok a (d', t') -> exists d0, d' = d0 ++ base /\ Q a d0 t'.
Proof.
  induction p as [a0| |w| |k IH|k IH|k IH|ks k IH]; intros d t H base a d' t' R; cbn [fd run] in *; try discriminate R.
  - injection R as <- <- <-. eauto.
  - destruct t as [|x t]; [exact (IH _ _ _ H base _ _ _ R)|exact (IH _ (x :: d) _ H base _ _ _ R)].
  - destruct t as [|x t]; exact (IH _ _ _ H base _ _ _ R).
  - destruct d as [|x d]; [contradiction|]. exact (IH _ _ H base _ _ _ R).
  - rewrite run_kws_fm in R. destruct (kws_match ks t) as [l|] eqn:K.
    + cbn [rev List.app] in R. rewrite app_assoc in R. exact (IH _ _ _ H base _ _ _ R).
    + exact (IH _ _ _ H base _ _ _ R).
Qed.

Lemma call_fm {A} (P : rec -> prog A) done todo a st : call P done todo = Ok a st ->
  run fm_machine (P (knot (fuel_for todo))) (sig done, sig todo) = Ok a (sig (fst st), sig (snd st)).
Proof.
  unfold call. intros C. pose proof (sim_raw (P (knot (fuel_for todo))) done todo) as H. rewrite C in H. unfold outrel in H.
  change (fsig done) with (sig done) in H. change (fsig todo) with (sig todo) in H.
  destruct (run fm_machine (P (knot (fuel_for todo))) (sig done, sig todo)) as [a' s'| | |]; try contradiction.
  destruct H as [<- H]. unfold Rraw in H. rewrite H. reflexivity.
Qed.

Lemma sig_wf ts : Forall tok_wf ts -> Forall tok_wf (sig ts).
Proof. intros W. apply Forall_forall. intros x I. apply filter_In in I as [I _]. rewrite Forall_forall in W. auto. Qed.

Lemma statement_kind done todo s st : Forall tok_wf todo -> call parse_statement done todo = Ok s st -> opens s (sig todo).
Proof.
  intros W C. apply call_fm in C. destruct (fd_run _ _ _ _ _ (stmt_opens (fuel_for todo) (sig todo) (sig_wf _ W)) (sig done) _ _ _ C) as (d0 & _ & H).
  exact H.
Qed.

(** A script. *)
Section Script.
  Variable K : stmt -> toks -> Prop.
  Hypothesis HK : forall n t, Forall tok_wf t -> fd (parse_statement (knot n)) (fun s _ _ => K s t) (fun _ _ => True) [] t.
  Variable whole : toks.
  Hypothesis W : Forall tok_wf whole.
  Definition good (s : stmt) : Prop := exists a b, whole = a ++ b /\ K s b.
  Definition all_good : post (list stmt) := fun l _ _ => Forall good l.

  Lemma stmt_good n d t : rev d ++ t = whole -> fd (parse_statement (knot n)) (fun s d' t' => good s /\ rev d' ++ t' = whole) (fun _ _ => True) d t.
  Proof.
    intros E. assert (Wt : Forall tok_wf t) by (rewrite <- E in W; apply Forall_app in W as [_ X]; exact X).
    refine (fd_conseq _ _ _ _ _ _ _ (fd_frame _ _ _ d [] t (fd_keep _ _ _ _ _ (HK n t Wt))) _ _); [|auto].
    cbn beta. intros s d' t' (d0 & -> & O & Z). split; [exists (rev d), t; auto|]. rewrite rev_app_distr, <- app_assoc, Z. exact E.
  Qed.

  Lemma sql_good (pc : bool) (n : nat) : forall m acc e d t, rev d ++ t = whole -> Forall good acc ->
    fd (@loop (list stmt * bool) (list stmt) m (fun '(acc, expecting) =>
       ok <- consume_token Semicolon ;;
       if negb ok && expecting then Err
       else
         more <- (if pc
                  then Next (fun o => match o with None => Ret false | Some _ => prev ;;; Ret true end)
                  else Peek (fun o => Ret (match o with None => false | Some _ => true end))) ;;
         if more : bool then s <- parse_statement (knot n) ;; Ret (inl (s :: acc, true))
         else Ret (inr (rev acc))) (acc, e)) all_good (fun _ _ => True) d t.
  Proof.
    induction m as [|m IH]; intros acc e d t E G; [exact I|]. cbn [loop]. apply fd_bind.
    assert (REST : forall ok d t, rev d ++ t = whole -> fd (if negb ok && e then Err
       else
         more <- (if pc
                  then Next (fun o => match o with None => Ret false | Some _ => prev ;;; Ret true end)
                  else Peek (fun o => Ret (match o with None => false | Some _ => true end))) ;;
         if more : bool then s <- parse_statement (knot n) ;; Ret (inl (s :: acc, true))
         else Ret (inr (rev acc)))
      (fun r d' t' => rev d' ++ t' = whole /\ match r with inl (acc', _) => Forall good acc' | inr l => Forall good l end) (fun _ _ => True) d t).
    { clear d t E. intros ok d t E. destruct (negb ok && e); [exact I|].
      assert (STOP : fd (Ret (inr (rev acc))) (fun (r : list stmt * bool + list stmt) d' t' => rev d' ++ t' = whole /\ match r with inl (acc', _) => Forall good acc' | inr l => Forall good l end) (fun _ _ => True) d t)
        by (split; [exact E|apply Forall_rev, G]).
      assert (MORE : fd (s <- parse_statement (knot n) ;; Ret (inl (s :: acc, true))) (fun (r : list stmt * bool + list stmt) d' t' => rev d' ++ t' = whole /\ match r with inl (acc', _) => Forall good acc' | inr l => Forall good l end) (fun _ _ => True) d t).
      { apply fd_bind. refine (fd_conseq _ _ _ _ _ _ _ (stmt_good n d t E) _ _); [|auto]. cbn beta. intros s d' t' [H1 H2]. cbn [fd]. split; [exact H2|constructor; assumption]. }
      apply fd_bind. destruct pc, t as [|x t]; cbn [fd bind prev]; assumption. }
    apply fd_bind, fd_consume.
    - refine (fd_conseq _ _ _ _ _ _ _ (REST false d t E) _ _); [|auto]. cbn beta. intros [[acc' e']|l] d' t' [H1 H2]; [apply IH; assumption|exact H2].
    - intros x t' ->. assert (E' : rev (x :: d) ++ t' = whole) by (cbn [rev]; rewrite <- app_assoc; exact E).
      refine (fd_conseq _ _ _ _ _ _ _ (REST true (x :: d) t' E') _ _); [|auto].
      cbn beta. intros [[acc' e']|l] d' t'' [H1 H2]; [apply IH; assumption|exact H2].
  Qed.
End Script.

Lemma sql_kind pc done todo l st : Forall tok_wf todo -> call (parse_sql pc) done todo = Ok l st ->
  Forall (fun s => exists a b, sig todo = a ++ b /\ opens s b) l.
Proof.
  intros W C. apply call_fm in C. set (n := fuel_for todo) in *.
  pose proof (sql_good opens stmt_opens (sig todo) (sig_wf _ W) pc n (r_fuel (knot n)) [] false [] (sig todo) eq_refl ltac:(constructor)) as F.
  destruct (fd_run (parse_sql pc (knot n)) _ _ _ _ F (sig done) _ _ _ C) as (d0 & _ & H). exact H.
Qed.

Lemma opens_query b : forall s, opens s b -> Forall (fun t => ~ one_of other_words t) b -> only_query s = true.
Proof.
  induction b as [|x b IH]; intros s O F; [contradiction O|]. cbn [opens] in O. destruct O as [O1 O2]. pose proof (Forall_inv F) as N.
  assert (SUB : forall w, In w other_words -> first_words s = [w] -> False).
  { intros w I E. apply N. rewrite E in O1. destruct O1 as (v & V & [U|[]]). exists v. split; [exact V|]. rewrite <- U. apply in_map, I. }
  destruct s; cbn [only_query]; try reflexivity; try (exfalso; eapply SUB; [|reflexivity]; cbn; tauto).
  exact (IH _ O2 (Forall_inv_tail F)).
Qed.

Lemma guard d src ts l : dialect_ok d -> tokenize d true src = TOk ts -> Forall (fun t => ~ one_of other_words t) ts ->
  parse_source d src = ROk l -> Forall (fun s => only_query s = true) l.
Proof.
  intros D T F P. unfold parse_source, parse_with in P. rewrite T in P.
  destruct (run_raw (parse_sql false) ts) as [l' st| | |] eqn:R; cbn [res_of] in P; try discriminate P. injection P as ->.
  pose proof (sql_kind false [] ts l st (SrcThms.tokenize_wf d true src ts D T) R) as G.
  refine (Forall_impl _ _ G). cbn beta. intros s (a & b & E & O). apply (opens_query b); [exact O|].
  assert (X : Forall (fun t => ~ one_of other_words t) (sig ts)).
  { apply Forall_forall. intros x I. apply filter_In in I as [I _]. rewrite Forall_forall in F. auto. }
  rewrite E in X. apply Forall_app in X as [_ X]. exact X.
Qed.

(** * The second word *)
Definition sec (ws : list string) (s : stmt) : Prop := second_words s = ws /\ first_words s <> ["EXPLAIN"%string].
Lemma goes_is ws s x y t : sec ws s -> one_of_fold ws y -> goes_on s (x :: y :: t).
Proof.
  intros [E N] H. cbn [goes_on]. destruct s; cbn [second_words] in *; subst ws; try (right; exact H).
  exfalso. apply N. reflexivity.
Qed.
Lemma goes_none s x t : sec [] s -> goes_on s (x :: t).
Proof. intros [E N]. cbn [goes_on]. destruct s; try (left; exact E). exfalso. apply N. reflexivity. Qed.

Lemma is_fold k ws y : In k ws -> is_kw (gs k) y = true -> one_of_fold ws y.
Proof. intros I K. unfold is_kw in K. destruct (tval y) as [w|] eqn:V; [|discriminate K]. exists w, k. auto. Qed.

Section Rules2.
  Context (E : toks -> toks -> Prop).
  Lemma fd_kw_ok2 s (Q : post bool) d t :
    Q false d t -> (forall x t', t = x :: t' -> is_kw (gs s) x = true -> Q true (x :: d) t') -> fd (kw_ok s) Q E d t.
  Proof. intros H2 H3. unfold kw_ok, parse_keyword. destruct t as [|x t]; cbn; [exact H2|]. destruct (is_kw (gs s) x) eqn:K; cbn; auto. Qed.
  Lemma fd_expect2 s (Q : post token) d t :
    E d t -> (forall x t', t = x :: t' -> is_kw (gs s) x = true -> Q x (x :: d) t') -> fd (expect_keyword s) Q E d t.
  Proof. intros H2 H3. unfold expect_keyword, parse_keyword. destruct t as [|x t]; cbn; [exact H2|]. destruct (is_kw (gs s) x) eqn:K; cbn; auto. Qed.
End Rules2.

(** The first word is read, then the rest. *)
Lemma after_first s (f : option token -> prog stmt) Q x t : fd (f None) Q (fun _ _ => True) [] (x :: t) ->
  fd (f (Some x)) Q (fun _ _ => True) [x] t -> fd (c <- kw_tok s ;; f c) Q (fun _ _ => True) [] (x :: t).
Proof. intros H1 H2. apply fd_bind. unfold kw_tok, parse_keyword. cbn. destruct (is_kw (gs s) x); cbn; auto. Qed.

(** A rest with a known kind. *)
Lemma rest_goes (p : prog stmt) ws x y t d t' : floor p -> rets p (sec ws) -> one_of_fold ws y ->
  fd p (fun s _ _ => goes_on s (x :: y :: t)) (fun _ _ => True) d t'.
Proof.
  intros F R H. refine (fd_conseq _ _ _ _ _ _ _ (fd_frame _ _ _ d [] t' (fd_rets _ _ _ _ _ _ (F t') R)) _ _); [|auto].
  cbn beta. intros s d' t'' (d0 & _ & _ & S). apply (goes_is ws); assumption.
Qed.

Ltac sec_ret := ret; (split; [reflexivity|discriminate]).
Ltac floor_go := unfold floor; intros; go.

Lemma view_rets r x : rets (parse_create_view r x) (sec ["MATERIALIZED"; "VIEW"]%string).
Proof. unfold parse_create_view. sec_ret. Qed.
Lemma index_rets r u : rets (parse_create_index r u) (sec ["INDEX"; "UNIQUE"]%string).
Proof. unfold parse_create_index. sec_ret. Qed.

Lemma create_goes r x t : rf r -> fd (parse_create r) (fun s _ _ => goes_on s (x :: t)) (fun _ _ => True) [] (x :: t).
Proof.
  intros HR. unfold parse_create. apply after_first; [exact I|]. cbn beta iota. apply fd_bind, fd_kw_ok2.
  2:{ intros y t' -> K. apply (rest_goes _ ["TABLE"%string]); [apply parse_create_table_floor, HR|unfold parse_create_table; sec_ret|]. eapply is_fold; [|exact K]. left. reflexivity. }
  apply fd_bind, fd_kw_ok2.
  2:{ intros y t' -> K. assert (O : one_of_fold ["MATERIALIZED"; "VIEW"]%string y) by (eapply is_fold; [|exact K]; cbn; auto).
      apply fd_bind, fd_kw_ok2.
      - cbn [orb]. apply fd_bind, fd_prev. apply (rest_goes _ ["MATERIALIZED"; "VIEW"]%string); [apply parse_create_view_floor, HR|apply view_rets|exact O].
      - intros z t'' -> K2. cbn [orb]. apply fd_bind, fd_prev. apply (rest_goes _ ["MATERIALIZED"; "VIEW"]%string); [apply parse_create_view_floor, HR|apply view_rets|exact O]. }
  apply fd_bind, fd_kw_ok2.
  2:{ intros y t' -> K. cbn [orb]. apply fd_bind, fd_prev. apply (rest_goes _ ["MATERIALIZED"; "VIEW"]%string); [apply parse_create_view_floor, HR|apply view_rets|].
      eapply is_fold; [|exact K]. cbn. auto. }
  cbn [orb]. apply fd_bind, fd_kw_ok2.
  2:{ intros y t' -> K. assert (O : one_of_fold ["INDEX"; "UNIQUE"]%string y) by (eapply is_fold; [|exact K]; cbn; auto).
      apply fd_bind, fd_kws_ok; intros; cbn [orb]; (apply (rest_goes _ ["INDEX"; "UNIQUE"]%string); [apply parse_create_index_floor, HR|apply index_rets|exact O]). }
  apply fd_bind. unfold kws_ok. cbn [fd map]. destruct t as [|y t]; [exact I|]. cbn [kws_match].
  destruct (is_kw (gs "UNIQUE") y) eqn:K; [|exact I].
  assert (O : one_of_fold ["INDEX"; "UNIQUE"]%string y) by (eapply is_fold; [|exact K]; cbn; auto).
  match goal with |- context [match ?m with Some _ => _ | None => _ end] => destruct m end; cbn [fd orb]; [|exact I].
  apply (rest_goes _ ["INDEX"; "UNIQUE"]%string); [apply parse_create_index_floor, HR|apply index_rets|exact O].
Qed.

(** A function that reads its word and expects the next. *)
Lemma expect_goes k0 k (f : token -> token -> prog stmt) x t : (forall a b, rets (f a b) (sec [k])) -> (forall a b, floor (f a b)) ->
  fd (c <- kw_tok k0 ;; match c with None => Err | Some a => b <- expect_keyword k ;; f a b end)
     (fun s _ _ => goes_on s (x :: t)) (fun _ _ => True) [] (x :: t).
Proof.
  intros R F. apply (after_first k0 (fun c => match c with None => Err | Some a => b <- expect_keyword k ;; f a b end)); [exact I|]. cbn beta iota.
  apply fd_bind, fd_expect2; [exact I|]. intros y t' -> K. apply (rest_goes _ [k]); [apply F|apply R|]. eapply is_fold; [|exact K]. left. reflexivity.
Qed.

Lemma delete_goes r x t : rf r -> fd (parse_delete r) (fun s _ _ => goes_on s (x :: t)) (fun _ _ => True) [] (x :: t).
Proof. intros HR. refine (expect_goes "DELETE" "FROM" _ x t _ _); intros a b; [sec_ret|floor_go]. Qed.
Lemma insert_goes r x t : rf r -> fd (parse_insert r) (fun s _ _ => goes_on s (x :: t)) (fun _ _ => True) [] (x :: t).
Proof. intros HR. refine (expect_goes "INSERT" "INTO" _ x t _ _); intros a b; [sec_ret|floor_go]. Qed.
Lemma alter_goes r x t : rf r -> fd (parse_alter r) (fun s _ _ => goes_on s (x :: t)) (fun _ _ => True) [] (x :: t).
Proof. intros HR. refine (expect_goes "ALTER" "TABLE" _ x t _ _); intros a b; [sec_ret|floor_go]. Qed.

Lemma drop_goes r x t : fd (parse_drop r) (fun s _ _ => goes_on s (x :: t)) (fun _ _ => True) [] (x :: t).
Proof.
  unfold parse_drop. apply after_first; [exact I|]. cbn beta iota. apply fd_bind, fd_kw_ok2.
  - apply fd_bind, fd_expect2; [exact I|]. intros y t' -> K. apply (rest_goes _ ["INDEX"%string]); [floor_go|sec_ret|]. eapply is_fold; [|exact K]. left. reflexivity.
  - intros y t' -> K. apply (rest_goes _ ["TABLE"%string]); [floor_go|sec_ret|]. eapply is_fold; [|exact K]. left. reflexivity.
Qed.

Lemma update_goes r x t : rf r -> fd (parse_update r) (fun s _ _ => goes_on s (x :: t)) (fun _ _ => True) [] (x :: t).
Proof.
  intros HR. refine (fd_conseq _ _ _ _ _ _ _ (fd_rets _ _ _ (sec []) _ _ (parse_update_floor r HR (x :: t)) _) _ _); [unfold parse_update; sec_ret| |auto].
  cbn beta. intros s d' t' [_ H]. apply goes_none, H.
Qed.

Lemma statement_goes r t : rf r -> floor (r_stmt r) ->
  (forall t', fd (r_stmt r) (fun s _ _ => goes_on s t') (fun _ _ => True) [] t') ->
  fd (parse_statement r) (fun s _ _ => goes_on s t) (fun _ _ => True) [] t.
Proof.
  intros HR HS HO. unfold parse_statement. apply fd_bind. destruct t as [|x t]; [exact I|]. cbn [fd next_err].
  destruct (tval x) as [w|s] eqn:V; [|exact I].
  destruct (kw w "SELECT" || kw w "WITH").
  { apply fd_bind, fd_prev, fd_bind. refine (fd_conseq _ _ _ _ _ _ _ (parse_query_floor r HR (x :: t)) _ _); [|auto].
    intros q d' t' _. cbn [fd goes_on]. left. reflexivity. }
  destruct (kw w "CREATE"); [apply fd_bind, fd_prev, create_goes, HR|].
  destruct (kw w "DELETE"); [apply fd_bind, fd_prev, delete_goes, HR|].
  destruct (kw w "INSERT"); [apply fd_bind, fd_prev, insert_goes, HR|].
  destruct (kw w "ALTER"); [apply fd_bind, fd_prev, alter_goes, HR|].
  destruct (kw w "UPDATE"); [apply fd_bind, fd_prev, update_goes, HR|].
  destruct (kw w "DROP"); [apply fd_bind, fd_prev, drop_goes|].
  destruct (kw w "EXPLAIN"); [|exact I].
  apply fd_bind. refine (fd_conseq _ _ _ _ _ _ _ (fd_frame _ _ _ [x] [] t (HO t)) _ _); [|auto].
  cbn beta. intros a d' t' (d0 & _ & H). exact H.
Qed.
Lemma knot_goes n : forall t, fd (r_stmt (knot n)) (fun s _ _ => goes_on s t) (fun _ _ => True) [] t.
Proof. induction n as [|n IH]; intros t; [exact I|]. cbn [knot r_stmt]. apply statement_goes; auto using knot_rf, knot_stmt_floor. Qed.

Lemma statement_second done todo s st : call parse_statement done todo = Ok s st -> goes_on s (sig todo).
Proof.
  intros C. apply call_fm in C.
  assert (F : fd (parse_statement (knot (fuel_for todo))) (fun s _ _ => goes_on s (sig todo)) (fun _ _ => True) [] (sig todo))
    by (apply statement_goes; auto using knot_rf, knot_stmt_floor, knot_goes).
  destruct (fd_run _ _ _ _ _ F (sig done) _ _ _ C) as (d0 & _ & H). exact H.
Qed.

Lemma fd_both {A} (p : prog A) (Q Q' : post A) : forall d t, fd p Q (fun _ _ => True) d t -> fd p Q' (fun _ _ => True) d t ->
  fd p (fun a d' t' => Q a d' t' /\ Q' a d' t') (fun _ _ => True) d t.
Proof.
  induction p; intros d t H1 H2; cbn [fd] in *; auto; try (split; assumption);
    repeat match goal with
    | |- context [match ?x with _ => _ end] => destruct x eqn:?; cbn [fd] in *; auto
    end.
Qed.

Lemma stmt_both n t : Forall tok_wf t -> fd (parse_statement (knot n)) (fun s _ _ => opens s t /\ goes_on s t) (fun _ _ => True) [] t.
Proof. intros W. apply (fd_both _ (fun s _ _ => opens s t) (fun s _ _ => goes_on s t)); [apply stmt_opens, W|]. apply statement_goes; auto using knot_rf, knot_stmt_floor, knot_goes. Qed.

Lemma sql_both pc done todo l st : Forall tok_wf todo -> call (parse_sql pc) done todo = Ok l st ->
  Forall (fun s => exists a b, sig todo = a ++ b /\ opens s b /\ goes_on s b) l.
Proof.
  intros W C. apply call_fm in C. set (n := fuel_for todo) in *.
  pose proof (sql_good (fun s b => opens s b /\ goes_on s b) stmt_both (sig todo) (sig_wf _ W) pc n (r_fuel (knot n)) [] false [] (sig todo) eq_refl ltac:(constructor)) as F.
  destruct (fd_run (parse_sql pc (knot n)) _ _ _ _ F (sig done) _ _ _ C) as (d0 & _ & H). exact H.
Qed.

Lemma opens_inner b : forall s, opens s b -> exists t, In t b /\ one_of (first_words (explained s)) t.
Proof.
  induction b as [|x b IH]; intros s O; [contradiction O|]. cbn [opens] in O. destruct O as [O1 O2].
  destruct s; try (exists x; split; [left; reflexivity|exact O1]).
  destruct (IH _ O2) as (t & I & H). exists t. split; [right; exact I|exact H].
Qed.

Lemma guard_file d src ts f : dialect_ok d -> tokenize d true src = TOk ts -> Forall (fun t => ~ one_of other_words t) ts ->
  parse_file d src = ROk f -> Forall (fun s => only_query s = true) (f_stmts f).
Proof.
  intros D T F P. apply (guard d src ts); auto. rewrite <- (parse_file_source d src D), P. reflexivity.
Qed.

Lemma guard_word k d src ts l : dialect_ok d -> tokenize d true src = TOk ts -> Forall (fun t => ~ one_of [k] t) ts ->
  parse_source d src = ROk l -> Forall (fun s => first_words (explained s) <> [k]) l.
Proof.
  intros D T F P. unfold parse_source, parse_with in P. rewrite T in P. pose proof (tokenize_wf d true src ts D T) as W.
  change (run_raw (parse_sql false) ts) with (call (parse_sql false) [] ts) in P.
  destruct (call (parse_sql false) [] ts) as [l' st| | |] eqn:C; try discriminate P. injection P as ->.
  refine (Forall_impl _ _ (sql_kind _ _ _ _ _ W C)). cbn beta. intros s (a & b & E & O) K.
  destruct (opens_inner _ _ O) as (t & I & H). rewrite K in H. rewrite Forall_forall in F. apply (F t); [|exact H].
  assert (I' : In t (sig ts)) by (rewrite E; apply in_or_app; right; exact I). unfold sig in I'. apply filter_In in I'. apply I'.
Qed.
