(** The three token readers agree: with and without ParseComment the parser
    sees the tokens that are not blank. *)
From Coq Require Import ZArith List Bool String Lia.
From Verif Require Import Base Dialect Token Lexer AST Num Prog Parser.
Import ListNotations.
Open Scope Z_scope.

Definition signif (t : token) : bool := negb (skipped t).
Definition fsig (l : list token) : list token := filter signif l.

Section Sim.
  Context {S S' : Type} (m : machine S) (m' : machine S') (R : S -> S' -> Prop).
  Hypothesis Hnext : forall s s', R s s' ->
    fst (m_next m s) = fst (m_next m' s') /\ R (snd (m_next m s)) (snd (m_next m' s')).
  Hypothesis Hpeek : forall s s', R s s' -> m_peek m s = m_peek m' s'.
  Hypothesis Hprev : forall s s', R s s' ->
    match m_prev m s, m_prev m' s' with
    | Some a, Some b => R a b
    | None, None => True
    | _, _ => False
    end.
  Hypothesis Hrestore : forall a a' s s', R a a' -> R s s' -> R (m_restore m a s) (m_restore m' a' s').

  Definition outrel {A} (o : outcome S A) (o' : outcome S' A) : Prop :=
    match o, o' with
    | Ok a s, Ok a' s' => a = a' /\ R s s'
    | OErr, OErr => True
    | OPanic w, OPanic w' => w = w'
    | OFuel, OFuel => True
    | _, _ => False
    end.

  Lemma sim_kws ks : forall a a' acc s s', R a a' -> R s s' ->
    fst (run_kws m a ks acc s) = fst (run_kws m' a' ks acc s') /\
    R (snd (run_kws m a ks acc s)) (snd (run_kws m' a' ks acc s')).
  Proof.
    induction ks as [|k ks IH]; intros a a' acc s s' Ha Hs; cbn [run_kws]; [auto|].
    rewrite <- (Hpeek s s' Hs). destruct (m_peek m s) as [t|]; [|cbn; auto].
    destruct (is_kw k t); [|cbn; auto]. apply IH; [auto|apply Hnext; auto].
  Qed.

  Lemma sim_run {A} (p : prog A) : forall s s', R s s' -> outrel (run m p s) (run m' p s').
  Proof.
    induction p as [a| |w| |k IH|k IH|k IH|ks k IH]; intros s s' Hs; cbn [run]; cbn; auto.
    - destruct (Hnext s s' Hs) as [E1 E2].
      destruct (m_next m s), (m_next m' s'); cbn in *. subst. apply IH; auto.
    - rewrite (Hpeek s s' Hs). apply IH; auto.
    - pose proof (Hprev s s' Hs). destruct (m_prev m s), (m_prev m' s'); try contradiction; cbn; auto.
    - destruct (sim_kws ks s s' [] s s' Hs Hs) as [E1 E2].
      destruct (run_kws m s ks [] s), (run_kws m' s' ks [] s'); cbn in *. subst. apply IH; auto.
  Qed.
End Sim.

Definition Rraw (s s' : rstate) : Prop := s' = (fsig (fst s), fsig (snd s)).
Definition Rcm (s : cstate) (s' : rstate) : Prop := s' = (fsig (cs_done s), fsig (cs_todo s)).

Lemma fsig_cons t l : fsig (t :: l) = if skipped t then fsig l else t :: fsig l.
Proof. unfold fsig, signif. cbn. destruct (skipped t); reflexivity. Qed.

Lemma raw_next_fsig todo : forall done,
  let s' := (fsig done, fsig todo) in
  fst (raw_next done todo) = fst (m_next fm_machine s') /\
  Rraw (snd (raw_next done todo)) (snd (m_next fm_machine s')).
Proof.
  induction todo as [|t todo IH]; intros done; cbn [raw_next].
  - cbn. unfold Rraw. auto.
  - rewrite fsig_cons. destruct (skipped t) eqn:E.
    + specialize (IH (t :: done)). rewrite fsig_cons, E in IH. exact IH.
    + cbn. unfold Rraw. cbn [fst snd]. rewrite fsig_cons, E. auto.
Qed.

Lemma raw_peek_fsig todo : raw_peek todo = match fsig todo with [] => None | t :: _ => Some t end.
Proof.
  induction todo as [|t todo IH]; [reflexivity|]. rewrite fsig_cons. cbn.
  destruct (skipped t); cbn; auto.
Qed.

Lemma raw_prev_fsig done : forall todo,
  match raw_prev done todo, m_prev fm_machine (fsig done, fsig todo) with
  | Some a, Some b => Rraw a b
  | None, None => True
  | _, _ => False
  end.
Proof.
  induction done as [|t done IH]; intros todo; cbn [raw_prev].
  - cbn. auto.
  - rewrite fsig_cons. destruct (skipped t) eqn:E.
    + specialize (IH (t :: todo)). rewrite fsig_cons, E in IH. exact IH.
    + cbn. unfold Rraw. cbn [fst snd]. rewrite fsig_cons, E. auto.
Qed.

Lemma sim_raw {A} (p : prog A) done todo :
  outrel Rraw (run raw_machine p (done, todo)) (run fm_machine p (fsig done, fsig todo)).
Proof.
  apply sim_run; unfold Rraw; auto.
  - intros [d t] s' ->. apply raw_next_fsig.
  - intros [d t] s' ->. apply raw_peek_fsig.
  - intros [d t] s' ->. apply raw_prev_fsig.
Qed.

Lemma cm_loop_fsig todo : forall done cm skip groups m,
  let s' := (fsig done, fsig todo) in
  fst (cm_loop done todo cm skip groups m) = fst (m_next fm_machine s') /\
  Rcm (snd (cm_loop done todo cm skip groups m)) (snd (m_next fm_machine s')).
Proof.
  induction todo as [|t todo IH]; intros done cm skip groups m; cbn [cm_loop].
  - cbn. unfold Rcm. auto.
  - rewrite fsig_cons. destruct (skipped t) eqn:E.
    + assert (K : forall cm skip groups m,
        fst (cm_loop (t :: done) todo cm skip groups m) = fst (m_next fm_machine (fsig done, fsig todo)) /\
        Rcm (snd (cm_loop (t :: done) todo cm skip groups m)) (snd (m_next fm_machine (fsig done, fsig todo)))).
      { intros. specialize (IH (t :: done) cm0 skip0 groups0 m0). rewrite fsig_cons, E in IH. exact IH. }
      unfold skipped in E. destruct (tkind t); try discriminate E.
      * repeat (match goal with |- context[if ?b then _ else _] => destruct b end); apply K.
      * repeat (match goal with |- context[if ?b then _ else _] => destruct b end); apply K.
    + unfold skipped in E. destruct (tkind t) eqn:K; try discriminate E;
        cbn; unfold Rcm; cbn [cs_done cs_todo]; rewrite fsig_cons; unfold skipped; rewrite K; auto.
Qed.

Lemma sim_cm {A} (p : prog A) done todo cm :
  outrel Rcm (run cm_machine p (mkCS done todo cm)) (run fm_machine p (fsig done, fsig todo)).
Proof.
  apply sim_run; unfold Rcm; auto.
  - intros [d t c] s' ->. apply cm_loop_fsig.
  - intros [d t c] s' ->. apply raw_peek_fsig.
  - intros [d t c] s' ->. cbn [m_prev cm_machine cs_done cs_todo cs_map].
    pose proof (raw_prev_fsig d t) as H.
    destruct (raw_prev d t) as [[d' t']|]; destruct (m_prev fm_machine _); try contradiction; auto.
Qed.

(** Sequencing. *)
Definition obind {S A B} (o : outcome S A) (f : A -> S -> outcome S B) : outcome S B :=
  match o with Ok a s => f a s | OErr => OErr | OPanic w => OPanic w | OFuel => OFuel end.

Lemma run_bind {S A B} (m : machine S) (p : prog A) (f : A -> prog B) : forall s,
  run m (bind p f) s = obind (run m p s) (fun a s' => run m (f a) s').
Proof.
  induction p as [a| |w| |k IH|k IH|k IH|ks k IH]; intros s; cbn [bind run]; cbn; auto.
  - destruct (m_next m s). apply IH.
  - destruct (m_prev m s); [apply IH|reflexivity].
  - destruct (run_kws m s ks [] s). apply IH.
Qed.

Lemma run_loop_ext {S St A} (m : machine S) (b b' : St -> prog (St + A)) :
  (forall x s, run m (b x) s = run m (b' x) s) ->
  forall n x s, run m (loop n b x) s = run m (loop n b' x) s.
Proof.
  intros H. induction n as [|n IH]; intros x s; [reflexivity|]. cbn [loop].
  rewrite !run_bind, H. destruct (run m (b' x) s) as [[x'|a] s'| | |]; cbn; auto.
Qed.

(** ParseSQL with and without ParseComment does the same on the abstract
    reader. *)
Lemma parse_sql_pc r s : run fm_machine (parse_sql true r) s = run fm_machine (parse_sql false r) s.
Proof.
  unfold parse_sql. apply run_loop_ext. intros [acc ex] s1.
  rewrite !run_bind. destruct (run fm_machine (consume_token Semicolon) s1) as [ok s2| | |]; cbn [obind]; auto.
  destruct (negb ok && ex); [reflexivity|]. rewrite !run_bind. f_equal.
  destruct s2 as [d [|t0 t]]; reflexivity.
Qed.
