(** The calculus of Wp.v for partial correctness: nothing is claimed of runs
    that fail, panic or run out of fuel (those are the subject of Term.v). *)
From Coq Require Import ZArith List Bool String Lia.
From Verif Require Import Base Dialect Token Lexer AST Num Prog Parser Wp.
Import ListNotations.
Open Scope Z_scope.

Section Wlp.
  (** What is known of every token of the input and what follows it. *)
  Variable ok : token -> toks -> Prop.
  (** The tokens [l], followed by [r]. *)
  Fixpoint oks (l r : toks) : Prop := match l with [] => True | x :: l' => ok x (l' ++ r) /\ oks l' r end.
  Lemma oks_app l1 l2 r : oks (l1 ++ l2) r <-> oks l1 (l2 ++ r) /\ oks l2 r.
  Proof. induction l1 as [|x l1 IH]; cbn [oks app]; [tauto|]. rewrite IH, app_assoc. tauto. Qed.

  Fixpoint wlp {A} (p : prog A) (Q : A -> toks -> toks -> Prop) (d t : toks) : Prop :=
    match p with
    | Ret a => Q a d t
    | Err | Panic _ | Fuel => True
    | Next k => match t with [] => wlp (k None) Q d [] | x :: t' => ok x t' -> wlp (k (Some x)) Q (x :: d) t' end
    | Peek k => match t with [] => wlp (k None) Q d [] | x :: t' => ok x t' -> wlp (k (Some x)) Q d (x :: t') end
    | Prev k => match d with [] => False | x :: d' => wlp k Q d' (x :: t) end
    | Kws ks k =>
        match kws_match ks t with
        | Some l => oks l (skipn (List.length l) t) -> wlp (k (Some l)) Q (rev l ++ d) (skipn (List.length l) t)
        | None => wlp (k None) Q d t
        end
    end.

  Lemma wlp_conseq {A} (p : prog A) (Q Q' : A -> toks -> toks -> Prop) : forall d t,
    wlp p Q d t -> (forall a d' t', Q a d' t' -> Q' a d' t') -> wlp p Q' d t.
  Proof.
    induction p as [a| |w| |k IH|k IH|k IH|ks k IH]; intros d t H HQ; cbn in *; auto.
    - destruct t; intros; eapply IH; eauto.
    - destruct t; intros; eapply IH; eauto.
    - destruct d; [auto|]. eapply IH; eauto.
    - destruct (kws_match ks t); intros; eapply IH; eauto.
  Qed.

  Lemma wlp_bind {A B} (p : prog A) (f : A -> prog B) Q : forall d t,
    wlp p (fun a d' t' => wlp (f a) Q d' t') d t -> wlp (bind p f) Q d t.
  Proof.
    induction p as [a| |w| |k IH|k IH|k IH|ks k IH]; intros d t H; cbn in *; auto.
    - destruct t; auto.
    - destruct t; auto.
    - destruct d; auto.
    - destruct (kws_match ks t); auto.
  Qed.

  Lemma wlp_frame {A} (p : prog A) Q D : forall d t,
    wlp p Q d t ->
    wlp p (fun a d' t' => exists d1, d' = d1 ++ D /\ Q a d1 t' /\ rev d1 ++ t' = rev d ++ t) (d ++ D) t.
  Proof.
    induction p as [a| |w| |k IH|k IH|k IH|ks k IH]; intros d t H; cbn in *; auto.
    - exists d. auto.
    - destruct t as [|x t]; [auto|]. intros Hx. specialize (H Hx).
      change (x :: d ++ D) with ((x :: d) ++ D).
      eapply wlp_conseq; [apply IH, H|]. cbn. intros a d' t' (d1 & E1 & E2 & E3).
      exists d1. repeat split; auto. rewrite E3. rewrite <- app_assoc. reflexivity.
    - destruct t as [|x t]; auto.
    - destruct d as [|x d]; [contradiction|]. cbn.
      eapply wlp_conseq; [apply IH, H|]. cbn. intros a d' t' (d1 & E1 & E2 & E3).
      exists d1. repeat split; auto. rewrite E3. rewrite <- app_assoc. reflexivity.
    - destruct (kws_match ks t) as [l|] eqn:E; cbn in *; [|auto].
      intros Hl. rewrite app_assoc. eapply wlp_conseq; [apply IH, H, Hl|]. cbn.
      intros a d' t' (d1 & E1 & E2 & E3). exists d1. repeat split; auto. rewrite E3.
      destruct (kws_match_spec _ _ _ E) as [E4 _].
      rewrite rev_app_distr, rev_involutive, <- app_assoc. f_equal. symmetry; exact E4.
  Qed.

  Lemma wlp_call {A} (p : prog A) Q (R : A -> toks -> toks -> Prop) d t :
    wlp p Q [] t ->
    (forall a d1 t', Q a d1 t' -> t = rev d1 ++ t' -> R a (d1 ++ d) t') ->
    wlp p R d t.
  Proof.
    intros H HR. apply (wlp_frame p Q d [] t) in H. cbn in H.
    eapply wlp_conseq; [exact H|]. cbn. intros a d' t' (d1 & -> & HQ & E). auto.
  Qed.

  Lemma wlp_loop {S A} (Inv : S -> toks -> toks -> Prop) (body : S -> prog (S + A)) Q :
    (forall s d t, Inv s d t ->
       wlp (body s) (fun r d' t' => match r with
                                    | inl s' => Inv s' d' t'
                                    | inr a => Q a d' t'
                                    end) d t) ->
    forall n s d t, Inv s d t -> wlp (loop n body s) Q d t.
  Proof.
    intros Hb. induction n as [|n IH]; intros s d t HI; [exact I|].
    cbn [loop]. apply wlp_bind. eapply wlp_conseq; [apply Hb, HI|].
    cbn. intros [s'|a] d' t' H; [|exact H]. apply IH, H.
  Qed.

  (** Adequacy. *)
  Lemma wlp_run {A} (p : prog A) Q D : forall d t,
    oks (rev d ++ t) [] -> wlp p Q d t ->
    forall a s, run fm_machine p (d ++ D, t) = Ok a s ->
    exists d1 t', s = (d1 ++ D, t') /\ Q a d1 t' /\ rev d1 ++ t' = rev d ++ t.
  Proof.
    induction p as [a| |w| |k IH|k IH|k IH|ks k IH]; intros d t Ht H a1 s1 R; cbn [run wlp] in *; try discriminate R.
    - injection R as <- <-. exists d, t. auto.
    - destruct t as [|x t]; cbn [m_next fm_machine fst snd] in R.
      + eapply IH; eauto.
      + assert (Hx : ok x t).
        { apply oks_app in Ht. destruct Ht as [_ [Hx _]]. rewrite app_nil_r in Hx. exact Hx. }
        assert (Ht' : oks (rev (x :: d) ++ t) []) by (cbn [rev]; rewrite <- app_assoc; exact Ht).
        change (x :: d ++ D) with ((x :: d) ++ D) in R.
        destruct (IH (Some x) (x :: d) t Ht' (H Hx) _ _ R) as (d1 & t' & -> & HQ & E).
        exists d1, t'. repeat split; auto. rewrite E. cbn. rewrite <- app_assoc. reflexivity.
    - destruct t as [|x t]; cbn [m_peek fm_machine fst snd] in R; [eapply IH; eauto|].
      eapply IH; eauto. apply H. apply oks_app in Ht. destruct Ht as [_ [Hx _]]. rewrite app_nil_r in Hx. exact Hx.
    - destruct d as [|x d]; [contradiction|]. cbn [m_prev fm_machine fst snd app] in R.
      cbn [rev] in Ht. rewrite <- app_assoc in Ht.
      destruct (IH d (x :: t) Ht H _ _ R) as (d1 & t' & -> & HQ & E).
      exists d1, t'. repeat split; auto. rewrite E. cbn. rewrite <- app_assoc. reflexivity.
    - rewrite run_kws_fm in R. destruct (kws_match ks t) as [l|] eqn:E; cbn [fst snd] in *.
      + destruct (kws_match_spec _ _ _ E) as [E4 _].
        set (t2 := skipn (List.length l) t) in *.
        assert (Hl : oks l t2).
        { rewrite E4 in Ht. apply oks_app in Ht. destruct Ht as [_ Ht]. apply oks_app in Ht. rewrite app_nil_r in Ht. apply Ht. }
        assert (Hd' : oks (rev (rev l ++ d) ++ t2) []).
        { rewrite rev_app_distr, rev_involutive, <- app_assoc, <- E4. exact Ht. }
        rewrite app_assoc in R.
        destruct (IH (Some l) _ _ Hd' (H Hl) _ _ R) as (d1 & t' & -> & HQ & E').
        exists d1, t'. repeat split; auto.
        rewrite E', rev_app_distr, rev_involutive, <- app_assoc. f_equal. symmetry; exact E4.
      + eapply IH; eauto.
  Qed.

  Lemma wlp_kws {A} ks (k : option toks -> prog A) Q d t :
    wlp (k None) Q d t ->
    (forall l t', Forall2 (fun k x => is_kw k x = true) ks l -> oks l t' -> t = l ++ t' ->
       wlp (k (Some l)) Q (rev l ++ d) t') ->
    wlp (Kws ks k) Q d t.
  Proof.
    intros H1 H2. cbn. destruct (kws_match ks t) as [l|] eqn:E; [|exact H1].
    destruct (kws_match_spec _ _ _ E) as [E1 E2]. intros Hl. apply H2; auto.
    clear - E. revert t l E. induction ks as [|k ks IH]; intros t l E.
    - cbn in E. destruct t; injection E as <-; constructor.
    - destruct t as [|x t]; [discriminate|]. cbn in E. destruct (is_kw k x) eqn:Ek; [|discriminate].
      destruct (kws_match ks t) as [l'|] eqn:E'; [|discriminate]. injection E as <-.
      constructor; eauto.
  Qed.
End Wlp.

(** Conditions on the tokens alone. *)
Lemma oks_forall (P : token -> Prop) l : forall r, oks (fun x _ => P x) l r <-> Forall P l.
Proof.
  induction l as [|x l IH]; intros r; cbn [oks]; [split; auto|]. rewrite (IH r). split; [intros []; constructor; auto|].
  intros H. inversion_clear H. auto.
Qed.
