(** Which panics can happen, and progress of the public calls. *)
From Coq Require Import ZArith List Bool String Lia.
From Verif Require Import Base Dialect Token Lexer LexSpec LexFacts LexThms AST Num Prog Parser ParseSpec Erase Wp Term
  Natural Sim ErId ParserThms Local SqlThms SrcThms.
Import ListNotations.
Open Scope Z_scope.

Definition not_assert (w : panick) : Prop := w <> PAssert.

(** The first significant token of a list. *)
Definition first_sig (t : toks) : option token := hd_error (fsig t).

Lemma base_panic {A} (P : rec -> prog A) erA k (HP : entry P erA k) done todo w : Forall tok_wf todo ->
  call P done todo = OPanic w -> base P (fsig todo) = OPanic w.
Proof.
  intros W E. pose proof (call_agrees _ _ _ HP done todo W) as A1. unfold agrees in A1. rewrite E in A1.
  destruct (base P (fsig todo)); try contradiction. congruence.
Qed.

Lemma base_pa {A} (P : rec -> prog A) pa k t w : Forall tok_wf t ->
  sp pa k (P (knot (S (S (len t))))) t -> base P t = OPanic w -> pa w.
Proof.
  intros W H E. unfold sp in H. pose proof (wp_run _ _ _ _ [] [] t ltac:(constructor) W H) as R.
  cbn [app] in R. unfold base in E. rewrite E in R. exact R.
Qed.

Lemma expr_no_assert done todo w : Forall tok_wf todo -> call parse_expr done todo = OPanic w -> w <> PAssert.
Proof.
  intros W E. apply (base_panic _ _ _ entry_expr _ _ _ W) in E.
  apply (base_pa parse_expr not_assert 1 _ _ (fsig_wf _ W)) in E; [exact E|].
  eapply parse_expr_sp; [apply knot_rspec; discriminate|lia].
Qed.

Lemma dtype_no_assert done todo w : Forall tok_wf todo -> call parse_data_type done todo = OPanic w -> w <> PAssert.
Proof.
  intros W E. apply (base_panic _ _ _ entry_dtype _ _ _ W) in E.
  apply (base_pa parse_data_type not_assert 1 _ _ (fsig_wf _ W)) in E; [exact E|].
  eapply parse_data_type_sp; [discriminate|discriminate|apply knot_rspec; discriminate|lia].
Qed.

Lemma stmt_assert done todo : Forall tok_wf todo -> call parse_statement done todo = OPanic PAssert ->
  exists x w, first_sig todo = Some x /\ tval x = VWord w /\
    In (wkeyword w) (map gs ["CREATE"; "ALTER"; "EXPLAIN"]%string).
Proof.
  intros W E. apply (base_panic _ _ _ entry_stmt _ _ _ W) in E.
  destruct (fsig todo) as [|x t] eqn:F.
  - discriminate E.
  - destruct (tval x) as [w|s] eqn:V.
    + exists x, w. unfold first_sig. rewrite F. repeat split; auto.
      destruct (kw w "CREATE" || kw w "ALTER" || kw w "EXPLAIN") eqn:K.
      * apply orb_true_iff in K. rewrite orb_true_iff in K. unfold kw in K.
        destruct K as [[K|K]|K]; apply gs_eqb_eq in K; rewrite K; cbn [map In]; auto.
      * exfalso. assert (Wx : Forall tok_wf (x :: t)) by (rewrite <- F; apply fsig_wf; auto).
        apply (base_pa parse_statement not_assert 1 _ _ Wx) in E; [apply E; reflexivity|].
        eapply parse_statement_plain_sp; [discriminate..|apply knot_rspec; discriminate|apply Nat.le_succ_diag_r|].
        unfold assert_free_head. rewrite V. exact K.
    + exfalso. assert (Wx : Forall tok_wf (x :: t)) by (rewrite <- F; apply fsig_wf; auto).
      apply (base_pa parse_statement not_assert 1 _ _ Wx) in E; [apply E; reflexivity|].
      eapply parse_statement_plain_sp; [discriminate..|apply knot_rspec; discriminate|apply Nat.le_succ_diag_r|].
      unfold assert_free_head. rewrite V. exact I.
Qed.

Lemma st_base_nil t : Forall tok_wf t -> st_base t = OPanic PNil -> Forall ns t.
Proof.
  intros W E. destruct (knot_rl (S (S (len t)))) as [R1 R2].
  pose proof (wl_panic _ _ [] PNil [] t ltac:(constructor) W (parse_statement_lp _ t R1 R2) E)
    as (d1 & t' & [N ->] & E2).
  rewrite app_nil_r in E2. cbn [rev app] in E2. rewrite <- E2. apply Forall_rev. exact N.
Qed.

Lemma fsig_ns todo : Forall ns (fsig todo) -> Forall ns todo.
Proof.
  intros H. rewrite Forall_forall in *. intros x Hx. destruct (signif x) eqn:E.
  - apply H. apply filter_In. auto.
  - unfold signif, skipped in E. unfold ns. intros X. rewrite X in E. discriminate.
Qed.

Lemma stmt_nil done todo : Forall tok_wf todo -> call parse_statement done todo = OPanic PNil ->
  Forall (fun x => tkind x <> Semicolon) todo.
Proof.
  intros W E. apply (base_panic _ _ _ entry_stmt _ _ _ W) in E.
  apply fsig_ns. apply st_base_nil; [apply fsig_wf; auto|exact E].
Qed.

Lemma ends_semi_rest t d u : ends_semi t -> t = d ++ u -> u <> [] -> ends_semi u.
Proof.
  intros (t' & s & E & K) E2 N. destruct (exists_last N) as (u' & z & ->).
  rewrite E2, app_assoc in E. apply app_inj_tail in E as [_ ->]. exists u', s. auto.
Qed.

Lemma sql_list_nil n : forall ex t, Forall tok_wf t -> (t = [] \/ ends_semi t) -> sql_list n ex t <> RPanic PNil.
Proof.
  induction n as [|n IH]; intros ex t W H; [discriminate|]. cbn [sql_list].
  destruct (negb (starts_semi t) && ex); [discriminate|].
  pose proof (starts_semi_tl t W) as W'.
  assert (H' : forall y u, (if starts_semi t then tl t else t) = y :: u -> ends_semi (y :: u)).
  { intros y u E. destruct H as [->|H]; [discriminate|].
    destruct t as [|x t]; [discriminate|]. destruct (starts_semi (x :: t)); cbn [tl] in E.
    - eapply ends_semi_rest with (d := [x]); eauto; [cbn; congruence|discriminate].
    - now rewrite <- E. }
  destruct (if starts_semi t then tl t else t) as [|y u]; [discriminate|].
  specialize (H' y u eq_refl).
  destruct (st_base (y :: u)) as [a st| |w|] eqn:B; try discriminate.
  - destruct (st_len _ _ _ W' B) as [_ W2]. pose proof (st_spec _ W') as SP. rewrite B in SP. destruct SP as [SP _].
    assert (X : snd st = [] \/ ends_semi (snd st)).
    { destruct (snd st) as [|z r]; [left; reflexivity|right].
      eapply ends_semi_rest; [exact H'|exact SP|discriminate]. }
    specialize (IH true (snd st) W2 X). destruct (sql_list n true (snd st)); cbn; congruence.
  - intros X. injection X as ->. apply st_base_nil in B; auto. destruct H' as (t' & s & E & K).
    rewrite E in B. apply Forall_app in B. destruct B as [_ B]. inversion B. contradiction.
Qed.

Lemma sql_no_nil ts : Forall tok_wf ts -> ends_semi (fsig ts) -> sql_of ts <> RPanic PNil.
Proof.
  intros W H. rewrite sql_of_list by assumption. apply sql_list_nil; [apply fsig_wf; auto|auto].
Qed.

(** Progress. *)
Lemma call_progress {A} (P : rec -> prog A) erA k (HP : entry P erA k) done todo a st :
  Forall tok_wf todo -> call P done todo = Ok a st ->
  exists used, fsig (fst st) = rev used ++ fsig done /\ fsig todo = used ++ fsig (snd st) /\
               (k <= List.length used)%nat.
Proof.
  intros W E. pose proof (call_agrees _ _ _ HP done todo W) as A1. unfold agrees in A1. rewrite E in A1.
  pose proof (base_spec _ _ _ HP _ (fsig_wf _ W)) as B.
  destruct (base P (fsig todo)) as [b s'| | |]; try contradiction.
  destruct A1 as (_ & A2 & A3). destruct B as [B1 B2].
  exists (rev (fst s')). rewrite rev_involutive, A3, rev_length. auto.
Qed.
