(** C45: the work of parsing, on the readers the library has. *)
From Coq Require Import ZArith List Bool String Lia.
From Verif Require Import Base Dialect Token Lexer AST Num Prog Parser ParseSpec Wp Term LexSpec LexFacts Sim ApiThms SrcThms CostSpec Cost.
Import ListNotations.
Open Scope nat_scope.

(** Readers that agree are asked equally often. *)
Section Same.
  Context {S S' : Type} (m : machine S) (m' : machine S') (R : S -> S' -> Prop).
  Hypothesis Hnext : forall s s', R s s' ->
    fst (m_next m s) = fst (m_next m' s') /\ R (snd (m_next m s)) (snd (m_next m' s')).
  Hypothesis Hpeek : forall s s', R s s' -> m_peek m s = m_peek m' s'.
  Hypothesis Hprev : forall s s', R s s' ->
    match m_prev m s, m_prev m' s' with
    | Some a, Some b => R a b
    | None, None => True
    | _, _ => False
    end.
  Hypothesis Hrestore : forall a a' s s', R a a' -> R s s' -> R (m_restore m a s) (m_restore m' a' s').

  Lemma same_kws ks : forall s s', R s s' ->
    cost_kws (fun _ => 1) m ks s = cost_kws (fun _ => 1) m' ks s'.
  Proof.
    induction ks as [|k ks IH]; intros s s' Hs; cbn [cost_kws]; [reflexivity|].
    rewrite (Hpeek s s' Hs). destruct (m_peek m' s') as [t|]; [|reflexivity].
    destruct (is_kw k t); [|reflexivity]. rewrite (IH _ _ (proj2 (Hnext s s' Hs))). reflexivity.
  Qed.
  Lemma same_ops {A} (p : prog A) : forall s s', R s s' -> operations m p s = operations m' p s'.
  Proof.
    unfold operations.
    induction p as [a| |w| |k IH|k IH|k IH|ks k IH]; intros s s' Hs; cbn [cost]; auto.
    - destruct (Hnext s s' Hs) as [E1 E2].
      destruct (m_next m s), (m_next m' s'); cbn in *. subst. f_equal. apply IH; auto.
    - rewrite (Hpeek s s' Hs). f_equal. apply IH; auto.
    - pose proof (Hprev s s' Hs). destruct (m_prev m s), (m_prev m' s'); try contradiction; cbn; auto.
    - rewrite (same_kws ks s s' Hs). destruct (sim_kws m m' R Hnext Hpeek Hrestore ks s s' [] s s' Hs Hs) as [E1 E2].
      destruct (run_kws m s ks [] s), (run_kws m' s' ks [] s'); cbn in *. subst. f_equal. apply IH; auto.
  Qed.
End Same.

Lemma ops_raw {A} (p : prog A) done todo :
  operations raw_machine p (done, todo) = operations fm_machine p (fsig done, fsig todo).
Proof.
  apply same_ops with (R := Rraw); unfold Rraw; auto.
  - intros [d t] s' ->. apply raw_next_fsig.
  - intros [d t] s' ->. apply raw_peek_fsig.
  - intros [d t] s' ->. apply raw_prev_fsig.
Qed.
Lemma ops_cm {A} (p : prog A) done todo cm :
  operations cm_machine p (mkCS done todo cm) = operations fm_machine p (fsig done, fsig todo).
Proof.
  apply same_ops with (R := Rcm); unfold Rcm; auto.
  - intros [d t c] s' ->. apply cm_loop_fsig.
  - intros [d t c] s' ->. apply raw_peek_fsig.
  - intros [d t c] s' ->. cbn [m_prev cm_machine cs_done cs_todo cs_map].
    pose proof (raw_prev_fsig d t) as H.
    destruct (raw_prev d t) as [[d' t']|]; destruct (m_prev fm_machine _); try contradiction; auto.
Qed.

(** The public methods. *)
Lemma public_sc {A} (P : rec -> prog A) erA k n : public P erA k -> sc 60 60 0 (P (knot n)).
Proof.
  assert (W : forall B P0 B0 k0 (q : prog B), sc P0 B0 k0 q -> (P0 <= 60)%Z -> (B0 <= 60)%Z -> sc 60 60 0 q).
  { intros B P0 B0 k0 q H H1 H2 t b Hb. eapply wc_conseq; [apply H; lia|]. cbn beta. intros. lia. }
  intros [pc| | |].
  - apply parse_sql_sc.
  - eapply W; [apply parse_statement_sc; [apply knot_rsc|apply knot_stmt_sc]|lia|lia].
  - eapply W; [apply parse_expr_sc, knot_rsc|lia|lia].
  - eapply W; [apply parse_data_type_sc|lia|lia].
Qed.
Lemma fsig_wf l : Forall tok_wf l -> Forall tok_wf (fsig l).
Proof. intros H. rewrite Forall_forall in *. intros x Hx. apply filter_In in Hx. apply H, Hx. Qed.

Lemma public_ops {A} (P : rec -> prog A) erA k n done todo : public P erA k -> Forall tok_wf todo ->
  operations fm_machine (P (knot n)) (done, fsig todo) <= 100 * List.length (sig todo) + 60.
Proof.
  intros HP W. change (sig todo) with (fsig todo). pose proof (public_sc P erA k n HP (fsig todo) (100 * Z.of_nat (len (fsig todo)) + 60)%Z ltac:(lia)) as H.
  pose proof (wc_run tok_wf _ _ done [] (fsig todo) (100 * Z.of_nat (len (fsig todo)) + 60)%Z (Forall_nil _) (fsig_wf _ W) ltac:(lia) H) as G. cbn [app] in G. lia.
Qed.
Theorem calls_anywhere {A} (P : rec -> prog A) erA k n done todo cm :
  public P erA k -> Forall tok_wf todo ->
  operations raw_machine (P (knot n)) (done, todo) <= 100 * List.length (sig todo) + 60 /\
  operations cm_machine (P (knot n)) (mkCS done todo cm) <= 100 * List.length (sig todo) + 60.
Proof. intros HP W. rewrite ops_raw, ops_cm. split; eapply public_ops; eauto. Qed.

Lemma reads_count d p text l rest : reads d p text l rest -> List.length l <= List.length text.
Proof.
  induction 1 as [|p q s text k v l rest H E R IH]; cbn; [lia|].
  apply lexeme_nonempty in H. rewrite app_length. destruct s; [congruence|]. cbn. lia.
Qed.
Lemma tokens_count d pc src toks : dialect_ok d -> tokenize d pc src = TOk toks -> List.length toks <= List.length src.
Proof.
  intros D E. apply tokenize_ok_iff in E as (l & R & ->); auto. apply reads_count in R.
  assert (F : forall l1 : list token, List.length (filter (keep pc) l1) <= List.length l1).
  { induction l1 as [|x l1 IH]; cbn; [lia|]. destruct (keep pc x); cbn; lia. }
  specialize (F (map fst l)). rewrite map_length in F.
  assert (G : List.length (skip_bom src) <= List.length src).
  { unfold skip_bom. destruct src as [|c src]; cbn; [lia|]. destruct (c =? 65279)%Z; cbn; lia. }
  lia.
Qed.
Lemma sig_count l : List.length (sig l) <= List.length l.
Proof. rewrite sig_fsig. unfold fsig. induction l as [|x l IH]; cbn; [lia|]. destruct (signif x); cbn; lia. Qed.

Theorem calls_source {A} (P : rec -> prog A) erA k n d src toks :
  public P erA k -> dialect_ok d -> tokenize d true src = TOk toks ->
  operations raw_machine (P (knot n)) ([], toks) <= 100 * List.length src + 60 /\
  operations cm_machine (P (knot n)) (mkCS [] toks []) <= 100 * List.length src + 60.
Proof.
  intros HP D E. destruct (calls_anywhere P erA k n [] toks [] HP (tokenize_wf _ _ _ _ D E)).
  pose proof (tokens_count _ _ _ _ D E). pose proof (sig_count toks). lia.
Qed.

(** Each call passes over one run of blanks. *)
Section Weight.
  Context {S : Type} (m : machine S) (Inv : S -> Prop) (wa wb : S -> nat) (W : nat).
  Hypothesis Hw : forall s, Inv s -> wa s <= W /\ wb s <= W.
  Hypothesis Hnext : forall s, Inv s -> Inv (snd (m_next m s)).
  Hypothesis Hprev : forall s s', Inv s -> m_prev m s = Some s' -> Inv s'.
  Hypothesis Hrestore : forall a s, Inv a -> Inv s -> Inv (m_restore m a s).

  Lemma weight_kws ks : forall s, Inv s -> cost_kws wa m ks s <= W * cost_kws (fun _ => 1) m ks s.
  Proof.
    induction ks as [|k ks IH]; intros s Hs; cbn [cost_kws]; [lia|].
    pose proof (Hw s Hs). destruct (m_peek m s) as [t|]; [|lia]. destruct (is_kw k t); [|lia].
    pose proof (IH _ (Hnext s Hs)). nia.
  Qed.
  Lemma inv_kws ks : forall a acc s, Inv a -> Inv s -> Inv (snd (run_kws m a ks acc s)).
  Proof.
    induction ks as [|k ks IH]; intros a acc s Ha Hs; cbn [run_kws]; [auto|].
    destruct (m_peek m s) as [t|]; [|cbn; auto]. destruct (is_kw k t); [|cbn; auto]. apply IH; auto.
  Qed.
  Lemma weight {A} (p : prog A) : forall s, Inv s -> cost wa wb m p s <= W * operations m p s.
  Proof.
    unfold operations.
    induction p as [a| |w| |k IH|k IH|k IH|ks k IH]; intros s Hs; cbn [cost]; try lia; pose proof (Hw s Hs) as [W1 W2].
    - pose proof (Hnext s Hs) as Hn. destruct (m_next m s) as [o s']. specialize (IH o s' Hn). nia.
    - specialize (IH (m_peek m s) s Hs). nia.
    - pose proof (Hprev s) as Hp. destruct (m_prev m s) as [s'|]; [|nia]. specialize (IH s' (Hp s' Hs eq_refl)). nia.
    - pose proof (weight_kws ks s Hs). pose proof (inv_kws ks s [] s Hs Hs) as Hn.
      destruct (run_kws m s ks [] s) as [o s']. specialize (IH o s' Hn). nia.
  Qed.
End Weight.

Lemma rounds_run l : exists b c, l = b ++ c /\ forallb skipped b = true /\ rounds l = 1 + List.length b.
Proof.
  induction l as [|t l (b & c & -> & H & E)]; [exists [], []; auto|].
  cbn [rounds]. destruct (skipped t) eqn:K.
  - exists (t :: b), c. cbn. rewrite K, H. repeat split; lia.
  - exists [], (t :: b ++ c). auto.
Qed.
Lemma forallb_rev {X} (f : X -> bool) l : forallb f (rev l) = forallb f l.
Proof. induction l as [|x l IH]; cbn; [reflexivity|]. rewrite forallb_app, IH. cbn. rewrite andb_true_r. apply andb_comm. Qed.
Lemma raw_next_zip todo : forall done, let s := snd (raw_next done todo) in rev (fst s) ++ snd s = rev done ++ todo.
Proof.
  induction todo as [|t todo IH]; intros done; cbn [raw_next]; [reflexivity|].
  destruct (skipped t); cbn; [|rewrite <- app_assoc; reflexivity].
  specialize (IH (t :: done)). cbn in IH. rewrite IH, <- app_assoc. reflexivity.
Qed.
Lemma raw_prev_zip done : forall todo s, raw_prev done todo = Some s -> rev (fst s) ++ snd s = rev done ++ todo.
Proof.
  induction done as [|t done IH]; intros todo s; cbn [raw_prev]; [discriminate|].
  destruct (skipped t).
  - intros E. rewrite (IH _ _ E). cbn. rewrite <- app_assoc. reflexivity.
  - intros [= <-]. cbn. rewrite <- app_assoc. reflexivity.
Qed.
Theorem visits_ops {A} (p : prog A) done todo b : blanks_at_most b (rev done ++ todo) ->
  visits p done todo <= (b + 1) * operations raw_machine p (done, todo).
Proof.
  intros HB. unfold visits. apply weight with (Inv := fun s => rev (fst s) ++ snd s = rev done ++ todo).
  - intros [d t] H. cbn [fst snd] in *. rewrite <- H in HB. split.
    + destruct (rounds_run t) as (x & y & E & K & ->). specialize (HB (rev d) x y). rewrite E in HB. specialize (HB eq_refl K). lia.
    + destruct (rounds_run d) as (x & y & E & K & ->). specialize (HB (rev y) (rev x) t). rewrite rev_length, forallb_rev in HB.
      rewrite E, rev_app_distr, <- app_assoc in HB. specialize (HB eq_refl K). lia.
  - intros [d t] H. cbn [m_next raw_machine fst snd] in *. rewrite raw_next_zip. exact H.
  - intros [d t] s' H E. cbn [m_prev raw_machine fst snd] in *. rewrite (raw_prev_zip _ _ _ E). exact H.
  - intros. cbn. assumption.
  - reflexivity.
Qed.
Lemma blanks_length l : blanks_at_most (List.length l) l.
Proof. intros a b c -> _. rewrite !app_length. lia. Qed.

Theorem visits_source {A} (P : rec -> prog A) erA k n d src toks b :
  public P erA k -> dialect_ok d -> tokenize d true src = TOk toks -> blanks_at_most b toks ->
  visits (P (knot n)) [] toks <= (b + 1) * (100 * List.length (sig toks) + 60).
Proof.
  intros HP D E HB. destruct (calls_anywhere P erA k n [] toks [] HP (tokenize_wf _ _ _ _ D E)) as [H _].
  pose proof (visits_ops (P (knot n)) [] toks b HB). nia.
Qed.
