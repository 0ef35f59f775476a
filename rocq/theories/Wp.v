(** A weakest-precondition calculus for parser programs on the abstract reader.
    States are relative: [d] holds the tokens read since the start of the call
    (last first), [t] the tokens that remain. *)
From Coq Require Import ZArith List Bool String Lia.
From Verif Require Import Base Dialect Token Lexer AST Num Prog Parser.
Import ListNotations.
Open Scope Z_scope.

Notation toks := (list token).

Section Wp.
  (** Panics that are allowed to happen. *)
  Variable pa : panick -> Prop.
  (** What is known of every token of the input. *)
  Variable ok : token -> Prop.

  Fixpoint wp {A} (p : prog A) (Q : A -> toks -> toks -> Prop) (d t : toks) : Prop :=
    match p with
    | Ret a => Q a d t
    | Err => True
    | Panic w => pa w
    | Fuel => False
    | Next k => match t with [] => wp (k None) Q d [] | x :: t' => ok x -> wp (k (Some x)) Q (x :: d) t' end
    | Peek k => match t with [] => wp (k None) Q d [] | x :: t' => ok x -> wp (k (Some x)) Q d (x :: t') end
    | Prev k => match d with [] => False | x :: d' => wp k Q d' (x :: t) end
    | Kws ks k =>
        let o := run_kws fm_machine (d, t) ks [] (d, t) in
        wp (k (fst o)) Q (fst (snd o)) (snd (snd o))
    end.

  Lemma wp_conseq {A} (p : prog A) (Q Q' : A -> toks -> toks -> Prop) : forall d t,
    wp p Q d t -> (forall a d' t', Q a d' t' -> Q' a d' t') -> wp p Q' d t.
  Proof.
    induction p as [a| |w| |k IH|k IH|k IH|ks k IH]; intros d t H HQ; cbn in *; auto.
    - destruct t; intros; eapply IH; eauto.
    - destruct t; intros; eapply IH; eauto.
    - destruct d; [auto|]. eapply IH; eauto.
  Qed.

  Lemma wp_bind {A B} (p : prog A) (f : A -> prog B) Q : forall d t,
    wp p (fun a d' t' => wp (f a) Q d' t') d t -> wp (bind p f) Q d t.
  Proof.
    induction p as [a| |w| |k IH|k IH|k IH|ks k IH]; intros d t H; cbn in *; auto.
    - destruct t; auto.
    - destruct t; auto.
    - destruct d; auto.
  Qed.

  (** parseKeywords on the abstract reader. *)
  Fixpoint kws_match (ks : list gostring) (t : toks) : option toks :=
    match ks, t with
    | [], _ => Some []
    | k :: ks', x :: t' =>
        if is_kw k x then match kws_match ks' t' with Some l => Some (x :: l) | None => None end
        else None
    | _, [] => None
    end.

  Lemma run_kws_fm ks : forall saved acc d t,
    run_kws fm_machine saved ks acc (d, t)
    = match kws_match ks t with
      | Some l => (Some (rev acc ++ l), (rev l ++ d, skipn (List.length l) t))
      | None => (None, saved)
      end.
  Proof.
    induction ks as [|k ks IH]; intros saved acc d t; cbn [run_kws kws_match].
    - cbn. rewrite app_nil_r. reflexivity.
    - destruct t as [|x t]; [reflexivity|].
      cbn [m_peek m_next fm_machine snd fst m_restore].
      destruct (is_kw k x); [|reflexivity]. rewrite IH.
      destruct (kws_match ks t) as [l|]; [|reflexivity].
      cbn [rev List.length skipn]. rewrite <- !app_assoc. reflexivity.
  Qed.

  Lemma kws_match_spec ks : forall t l, kws_match ks t = Some l ->
    t = l ++ skipn (List.length l) t /\ List.length l = List.length ks.
  Proof.
    induction ks as [|k ks IH]; intros t l H.
    - cbn in H. destruct t; injection H as <-; auto.
    - destruct t as [|x t]; [discriminate|]. cbn in H.
      destruct (is_kw k x); [|discriminate].
      destruct (kws_match ks t) as [l'|] eqn:E; [|discriminate]. injection H as <-.
      destruct (IH _ _ E) as [H1 H2]. cbn. rewrite H2. split; [|reflexivity].
      rewrite H2 in H1. f_equal. exact H1.
  Qed.

  Lemma wp_kws {A} ks (k : option toks -> prog A) Q d t :
    wp (k None) Q d t ->
    (forall l t', kws_match ks t = Some l -> List.length l = List.length ks -> t = l ++ t' ->
       wp (k (Some l)) Q (rev l ++ d) t') ->
    wp (Kws ks k) Q d t.
  Proof.
    intros H1 H2. cbn. rewrite run_kws_fm.
    destruct (kws_match ks t) as [l|] eqn:E; cbn; [|exact H1].
    destruct (kws_match_spec _ _ _ E) as [E1 E2]. apply H2; auto.
  Qed.

  (** Frame: a run that never steps back before its start does the same in any
      context, and what it leaves is a suffix of what it was given. *)
  Lemma wp_frame {A} (p : prog A) Q D : forall d t,
    wp p Q d t ->
    wp p (fun a d' t' => exists d1, d' = d1 ++ D /\ Q a d1 t' /\ rev d1 ++ t' = rev d ++ t) (d ++ D) t.
  Proof.
    induction p as [a| |w| |k IH|k IH|k IH|ks k IH]; intros d t H; cbn in *; auto.
    - exists d. auto.
    - destruct t as [|x t]; [auto|]. intros Hx. specialize (H Hx).
      change (x :: d ++ D) with ((x :: d) ++ D).
      eapply wp_conseq; [apply IH, H|]. cbn. intros a d' t' (d1 & E1 & E2 & E3).
      exists d1. repeat split; auto. rewrite E3. rewrite <- app_assoc. reflexivity.
    - destruct t as [|x t]; auto.
    - destruct d as [|x d]; [contradiction|]. cbn.
      eapply wp_conseq; [apply IH, H|]. cbn. intros a d' t' (d1 & E1 & E2 & E3).
      exists d1. repeat split; auto. rewrite E3. rewrite <- app_assoc. reflexivity.
    - rewrite run_kws_fm in *. destruct (kws_match ks t) as [l|] eqn:E; cbn in *.
      + rewrite app_assoc. eapply wp_conseq; [apply IH, H|]. cbn.
        intros a d' t' (d1 & E1 & E2 & E3). exists d1. repeat split; auto. rewrite E3.
        destruct (kws_match_spec _ _ _ E) as [E4 _].
        rewrite rev_app_distr, rev_involutive, <- app_assoc. f_equal. symmetry; exact E4.
      + apply IH, H.
  Qed.

  Lemma wp_call {A} (p : prog A) Q (R : A -> toks -> toks -> Prop) d t :
    wp p Q [] t ->
    (forall a d1 t', Q a d1 t' -> t = rev d1 ++ t' -> R a (d1 ++ d) t') ->
    wp p R d t.
  Proof.
    intros H HR. apply (wp_frame p Q d [] t) in H. cbn in H.
    eapply wp_conseq; [exact H|]. cbn. intros a d' t' (d1 & -> & HQ & E). auto.
  Qed.

  Lemma wp_loop {S A} (Inv : S -> toks -> toks -> Prop) (body : S -> prog (S + A)) Q :
    (forall s d t, Inv s d t ->
       wp (body s) (fun r d' t' => match r with
                                   | inl s' => Inv s' d' t' /\ (List.length t' < List.length t)%nat
                                   | inr a => Q a d' t'
                                   end) d t) ->
    forall n s d t, Inv s d t -> (List.length t < n)%nat -> wp (loop n body s) Q d t.
  Proof.
    intros Hb. induction n as [|n IH]; intros s d t HI Hn; [lia|].
    cbn [loop]. apply wp_bind. eapply wp_conseq; [apply Hb, HI|].
    cbn. intros [s'|a] d' t' H; [|exact H]. destruct H. apply IH; [assumption|lia].
  Qed.

  (** Adequacy. *)
  Lemma wp_run {A} (p : prog A) Q D : forall d t,
    Forall ok d -> Forall ok t -> wp p Q d t ->
    match run fm_machine p (d ++ D, t) with
    | Ok a s => exists d1 t', s = (d1 ++ D, t') /\ Q a d1 t' /\ rev d1 ++ t' = rev d ++ t
    | OErr => True
    | OPanic w => pa w
    | OFuel => False
    end.
  Proof.
    induction p as [a| |w| |k IH|k IH|k IH|ks k IH]; intros d t Hd Ht H; cbn [run wp] in *; auto.
    - exists d, t. auto.
    - destruct t as [|x t]; cbn [m_next fm_machine fst snd].
      + apply (IH None d []); auto.
      + inversion_clear Ht. specialize (IH (Some x) (x :: d) t ltac:(auto) ltac:(auto) (H ltac:(auto))). cbn [app] in IH. destruct (run _ _ _); auto.
        destruct IH as (d1 & t' & -> & HQ & E). exists d1, t'. repeat split; auto.
        rewrite E. cbn. rewrite <- app_assoc. reflexivity.
    - destruct t as [|x t]; cbn [m_peek fm_machine fst snd]; [apply IH; auto|].
      apply IH; auto. apply H. inversion_clear Ht; auto.
    - destruct d as [|x d]; [contradiction|]. cbn [m_prev fm_machine fst snd app].
      inversion_clear Hd. specialize (IH d (x :: t) ltac:(auto) ltac:(auto) H). destruct (run _ _ _); auto.
      destruct IH as (d1 & t' & -> & HQ & E). exists d1, t'. repeat split; auto.
      rewrite E. cbn. rewrite <- app_assoc. reflexivity.
    - rewrite run_kws_fm in *. destruct (kws_match ks t) as [l|] eqn:E; cbn [fst snd rev app] in *.
      + destruct (kws_match_spec _ _ _ E) as [E4 _]. rewrite E4 in Ht. apply Forall_app in Ht.
        destruct Ht as [Hl Ht].
        assert (Hd' : Forall ok (rev l ++ d)) by (apply Forall_app; split; [apply Forall_rev|]; auto).
        specialize (IH (Some l) _ _ Hd' Ht H). rewrite app_assoc. destruct (run _ _ _); auto.
        destruct IH as (d1 & t' & -> & HQ & E'). exists d1, t'. repeat split; auto.
        rewrite E', rev_app_distr, rev_involutive, <- app_assoc. f_equal.
        symmetry; exact E4.
      + apply (IH None d t Hd Ht H).
  Qed.
End Wp.
