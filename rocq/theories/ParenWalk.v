(** Two runs of the parser on lists with a common start: one goes on with a
    semicolon or ends, the other goes on with a closing parenthesis. *)
From Coq Require Import ZArith List Bool String Lia.
From Verif Require Import Base Dialect Token Lexer AST Num Prog Parser Wp Sim.
Import ListNotations.
Open Scope Z_scope.

(** The run of [p] at the end of the input, if it never steps back: it stays
    there and [Q] holds of the result. *)
Fixpoint wx {A} (p : prog A) (Q : A -> Prop) : Prop :=
  match p with
  | Ret a => Q a
  | Err | Panic _ | Fuel => True
  | Next k | Peek k => wx (k None) Q
  | Prev _ => False
  | Kws ks k => ks <> [] /\ wx (k None) Q
  end.

Lemma wx_conseq {A} (p : prog A) (Q Q' : A -> Prop) : wx p Q -> (forall a, Q a -> Q' a) -> wx p Q'.
Proof.
  intros H HQ. induction p as [a| |w| |k IH|k IH|k IH|ks k IH]; cbn [wx] in *; auto.
  destruct H; split; auto.
Qed.
Lemma wx_bind {A B} (p : prog A) (f : A -> prog B) Q : wx p (fun a => wx (f a) Q) -> wx (bind p f) Q.
Proof.
  intros H. induction p as [a| |w| |k IH|k IH|k IH|ks k IH]; cbn [wx bind] in *; auto.
  destruct H; split; auto.
Qed.
Lemma wx_loop {S A} (body : S -> prog (S + A)) (Q : A -> Prop) :
  (forall s, wx (body s) (fun r => match r with inl _ => True | inr a => Q a end)) ->
  forall n s, wx (loop n body s) Q.
Proof.
  intros Hb. induction n as [|n IH]; intros s; [exact I|]. cbn [loop]. apply wx_bind.
  eapply wx_conseq; [apply Hb|]. intros [s'|a] H; [apply IH|exact H].
Qed.
Lemma wx_run {A} (p : prog A) Q : wx p Q -> forall d a s, run fm_machine p (d, []) = Ok a s -> s = (d, []) /\ Q a.
Proof.
  induction p as [a0| |w| |k IH|k IH|k IH|ks k IH]; intros W d a s R; cbn [run wx] in *; try discriminate.
  - injection R as <- <-. auto.
  - cbn [m_next fm_machine fst snd] in R. eauto.
  - cbn [m_peek fm_machine fst snd] in R. eauto.
  - contradiction.
  - destruct W as [W1 W]. rewrite run_kws_fm in R. destruct ks as [|x ks]; [congruence|]. cbn [kws_match] in R. eauto.
Qed.

Section Rel.
  (** The two continuations.  The tokens at their heads have the same place, since a
      type BIGINT remembers it. *)
  Variables (p1 p2 : pos) (s1 s2 : gostring).
  Definition e1 : token := mkTok Semicolon (VStr s1) p1 p2.
  Definition e2 : token := mkTok RParen (VStr s2) p1 p2.
  Variables (r1 r2 : list token) (fin : bool).
  Definition E1 : list token := if fin then [] else e1 :: r1.
  Definition E2 : list token := e2 :: r2.

  (** Where the two runs are: before the end of the common part, with the tokens
      [d] read and [u] left; behind the semicolon and the parenthesis; the first at
      its end and the second behind the parenthesis. *)
  Inductive place := SB (d u : list token) | SP (d : list token) | SE (d : list token).
  Definition at_place (st : place) (a b : rstate) : Prop :=
    match st with
    | SB d u => a = (d, u ++ E1) /\ b = (d, u ++ E2)
    | SP d => fin = false /\ a = (e1 :: d, r1) /\ b = (e2 :: d, r2)
    | SE d => fin = true /\ a = (d, []) /\ b = (e2 :: d, r2)
    end.

  (** If [p] succeeds in the first run, then [q] does in the second; or the first is
      at its end. *)
  Definition rel {A B} (p : prog A) (q : prog B) (Q : A -> B -> place -> Prop) (QX : A -> Prop) (st : place) : Prop :=
    forall a b, at_place st a b -> forall v a', run fm_machine p a = Ok v a' ->
      (fin = true /\ snd a' = [] /\ QX v) \/
      exists w b' st', run fm_machine q b = Ok w b' /\ at_place st' a' b' /\ Q v w st'.

  Lemma rel_bind {A A' B B'} (p : prog A) (q : prog A') (f : A -> prog B) (g : A' -> prog B') Q QX st :
    rel p q (fun v w st' => rel (f v) (g w) Q QX st') (fun v => wx (f v) QX) st ->
    rel (bind p f) (bind q g) Q QX st.
  Proof.
    intros H a b HS v a' R. rewrite run_bind in R. destruct (run fm_machine p a) as [x a1| | |] eqn:R1; try discriminate.
    cbn [obind] in R. destruct (H a b HS _ _ R1) as [(F & X & W)|(w & b' & st' & R2 & HS' & K)].
    - left. destruct a1 as [da ta]. cbn [snd] in X. subst ta. destruct (wx_run _ _ W _ _ _ R) as [-> HQ]. auto.
    - rewrite run_bind, R2. cbn [obind]. apply (K _ _ HS' _ _ R).
  Qed.
  Lemma rel_conseq {A B} (p : prog A) (q : prog B) (Q Q' : A -> B -> place -> Prop) (QX QX' : A -> Prop) st :
    rel p q Q QX st -> (forall v w st', Q v w st' -> Q' v w st') -> (forall v, QX v -> QX' v) -> rel p q Q' QX' st.
  Proof.
    intros H HQ HX a b HS v a' R. destruct (H a b HS v a' R) as [(F & X & W)|(w & b' & st' & R2 & HS' & K)]; [left|right]; auto.
    exists w, b', st'. auto.
  Qed.
  Lemma rel_ret {A B} (v : A) (w : B) (Q : A -> B -> place -> Prop) QX st : Q v w st -> rel (Ret v) (Ret w) Q QX st.
  Proof. intros H a b HS v' a' R. injection R as <- <-. right. exists w, b, st. auto. Qed.
  Lemma rel_err {A B} (q : prog B) (Q : A -> B -> place -> Prop) QX st : rel Err q Q QX st.
  Proof. intros a b HS v a' R. discriminate. Qed.
  Lemma rel_panic {A B} w (q : prog B) (Q : A -> B -> place -> Prop) QX st : rel (Panic w) q Q QX st.
  Proof. intros a b HS v a' R. discriminate. Qed.
  Lemma rel_fuel {A B} (q : prog B) (Q : A -> B -> place -> Prop) QX st : rel Fuel q Q QX st.
  Proof. intros a b HS v a' R. discriminate. Qed.

  Notation post A := (A -> A -> place -> Prop).

  Lemma E1_cases : (fin = true /\ E1 = []) \/ (fin = false /\ E1 = e1 :: r1).
  Proof. unfold E1. destruct fin; auto. Qed.

  Lemma rel_next {A} (k k' : option token -> prog A) (Q : post A) QX d u :
    (forall x u', u = x :: u' -> rel (k (Some x)) (k' (Some x)) Q QX (SB (x :: d) u')) ->
    (u = [] -> rel (k (Some e1)) (k' (Some e2)) Q QX (SP d)) ->
    (u = [] -> rel (k None) (k' (Some e2)) Q QX (SE d)) ->
    rel (Next k) (Next k') Q QX (SB d u).
  Proof.
    intros H1 H2 H3 a b [-> ->] v a' R. cbn [run m_next fm_machine fst snd] in *. destruct u as [|x u]; cbn [app] in *.
    - destruct E1_cases as [[F E]|[F E]]; rewrite E in R.
      + apply (H3 eq_refl (d, []) (e2 :: d, r2)); cbn; auto.
      + apply (H2 eq_refl (e1 :: d, r1) (e2 :: d, r2)); cbn; auto.
    - apply (H1 x u eq_refl (x :: d, u ++ E1) (x :: d, u ++ E2)); cbn; auto.
  Qed.
  Lemma rel_peek_raw {A} (k k' : option token -> prog A) (Q : post A) QX d u :
    (forall x u', u = x :: u' -> rel (k (Some x)) (k' (Some x)) Q QX (SB d u)) ->
    (u = [] -> rel (k (Some e1)) (k' (Some e2)) Q QX (SB d u)) ->
    (u = [] -> rel (k None) (k' (Some e2)) Q QX (SB d u)) ->
    rel (Peek k) (Peek k') Q QX (SB d u).
  Proof.
    intros H1 H2 H3 a b HS v a' R. pose proof HS as [-> ->]. cbn [run m_peek fm_machine fst snd] in *. destruct u as [|x u]; cbn [app] in *.
    - destruct E1_cases as [[F E]|[F E]]; rewrite E in R.
      + eapply H3; eauto. rewrite <- E in R. exact R.
      + eapply H2; eauto. rewrite <- E in R. exact R.
    - eapply (H1 x u eq_refl); eauto.
  Qed.
  Lemma rel_next_nn (Q : post token) QX d u :
    (forall x u', u = x :: u' -> Q x x (SB (x :: d) u')) -> (u = [] -> Q e1 e2 (SP d)) ->
    rel next_nn next_nn Q QX (SB d u).
  Proof. intros H1 H2. apply rel_next; intros; [apply rel_ret; auto|apply rel_ret; auto|apply rel_panic]. Qed.
  Lemma rel_next_err (Q : post token) QX d u :
    (forall x u', u = x :: u' -> Q x x (SB (x :: d) u')) -> (u = [] -> Q e1 e2 (SP d)) ->
    rel next_err next_err Q QX (SB d u).
  Proof. intros H1 H2. apply rel_next; intros; [apply rel_ret; auto|apply rel_ret; auto|apply rel_err]. Qed.
  Lemma rel_must_next (Q : post token) QX d u :
    (forall x u', u = x :: u' -> Q x x (SB (x :: d) u')) -> (u = [] -> Q e1 e2 (SP d)) ->
    rel must_next must_next Q QX (SB d u).
  Proof. intros H1 H2. apply rel_next; intros; [apply rel_ret; auto|apply rel_ret; auto|apply rel_panic]. Qed.
  Lemma rel_peek_nn (Q : post token) QX d u :
    (forall x u', u = x :: u' -> Q x x (SB d u)) -> (u = [] -> Q e1 e2 (SB d u)) ->
    rel peek_nn peek_nn Q QX (SB d u).
  Proof. intros H1 H2. apply rel_peek_raw; intros; [apply rel_ret; eauto|apply rel_ret; auto|apply rel_panic]. Qed.
  Lemma rel_peek (Q : post (option token)) QX d u :
    (forall x u', u = x :: u' -> Q (Some x) (Some x) (SB d u)) -> (u = [] -> Q (Some e1) (Some e2) (SB d u)) ->
    (u = [] -> Q None (Some e2) (SB d u)) ->
    rel peek peek Q QX (SB d u).
  Proof. intros H1 H2 H3. apply rel_peek_raw; intros; apply rel_ret; eauto. Qed.
  Lemma rel_prev (Q : post unit) QX d u :
    (forall x d', d = x :: d' -> Q tt tt (SB d' (x :: u))) -> rel prev prev Q QX (SB d u).
  Proof.
    intros H a b [-> ->] v a' R. cbn [run prev m_prev fm_machine fst snd] in *. destruct d as [|x d]; [discriminate|].
    injection R as <- <-. right. exists tt, (d, x :: u ++ E2), (SB d (x :: u)). repeat split; auto.
  Qed.
  Lemma rel_prev_p (Q : post unit) QX d : Q tt tt (SB d []) -> rel prev prev Q QX (SP d).
  Proof.
    intros H a b (F & -> & ->) v a' R. cbn [run prev m_prev fm_machine fst snd] in *.
    injection R as <- <-. right. exists tt, (d, e2 :: r2), (SB d []). unfold at_place, E1. rewrite F. auto.
  Qed.
  (** Only the second run has to step back. *)
  Lemma rel_prev_e {A} (p q : prog A) (Q : post A) QX d : rel p q Q QX (SB d []) -> rel p (prev ;;; q) Q QX (SE d).
  Proof.
    intros H a b (F & -> & ->) v a' R. rewrite run_bind. cbn [run prev m_prev fm_machine fst snd obind].
    apply (H (d, []) (d, e2 :: r2)); auto. unfold at_place, E1. rewrite F. auto.
  Qed.
  (** The first run is at its end, whatever the second does. *)
  Lemma rel_x {A B} (v : A) (q : prog B) (Q : A -> B -> place -> Prop) (QX : A -> Prop) d : QX v -> rel (Ret v) q Q QX (SE d).
  Proof. intros H a b (F & -> & ->) w a' R. injection R as <- <-. left. auto. Qed.

  Lemma rel_parse_keyword s (Q : post kwres) QX d u :
    (forall x u', u = x :: u' -> is_kw (gs s) x = true -> Q (KwYes x) (KwYes x) (SB (x :: d) u')) ->
    (forall x u', u = x :: u' -> is_kw (gs s) x = false -> Q (KwNo x) (KwNo x) (SB d u)) ->
    (u = [] -> Q (KwNo e1) (KwNo e2) (SB d u)) -> (u = [] -> Q KwEOF (KwNo e2) (SB d u)) ->
    rel (parse_keyword s) (parse_keyword s) Q QX (SB d u).
  Proof.
    intros H1 H2 H3 H4. apply rel_peek_raw.
    - intros x u' E. destruct (is_kw (gs s) x) eqn:K; [|apply rel_ret; eauto]. apply rel_bind, rel_must_next; intros; subst; [|discriminate].
      injection H as <- <-. apply rel_ret; eauto.
    - intros E. cbn. apply rel_ret; auto.
    - intros E. cbn. apply rel_ret; auto.
  Qed.
  Lemma rel_kw_ok s (Q : post bool) QX d u :
    (forall x u', u = x :: u' -> is_kw (gs s) x = true -> Q true true (SB (x :: d) u')) ->
    Q false false (SB d u) ->
    rel (kw_ok s) (kw_ok s) Q QX (SB d u).
  Proof. intros H1 H2. apply rel_bind, rel_parse_keyword; intros; apply rel_ret; eauto. Qed.
  Lemma rel_kw_tok s (Q : post (option token)) QX d u :
    (forall x u', u = x :: u' -> is_kw (gs s) x = true -> Q (Some x) (Some x) (SB (x :: d) u')) ->
    Q None None (SB d u) ->
    rel (kw_tok s) (kw_tok s) Q QX (SB d u).
  Proof. intros H1 H2. apply rel_bind, rel_parse_keyword; intros; apply rel_ret; eauto. Qed.
  Lemma rel_expect_keyword s (Q : post token) QX d u :
    (forall x u', u = x :: u' -> is_kw (gs s) x = true -> Q x x (SB (x :: d) u')) ->
    rel (expect_keyword s) (expect_keyword s) Q QX (SB d u).
  Proof. intros H1. apply rel_bind, rel_parse_keyword; intros; [apply rel_ret; eauto|apply rel_panic..]. Qed.

  Lemma kws_match_e ks e E : (forall k, is_kw k e = false) -> forall u,
    match kws_match ks u with
    | Some l => kws_match ks (u ++ e :: E) = Some l /\ kws_match ks (u ++ []) = Some l
    | None => kws_match ks (u ++ e :: E) = None /\ kws_match ks (u ++ []) = None
    end.
  Proof.
    intros He. induction ks as [|k ks IH]; intros u; cbn [kws_match]; [auto|]. destruct u as [|x u]; cbn [app].
    - rewrite He. auto.
    - destruct (is_kw k x); [|auto]. specialize (IH u). destruct (kws_match ks u); destruct IH as [-> ->]; auto.
  Qed.
  Lemma rel_kws {A} l (k : option toks -> prog A) (Q : post A) QX d u :
    (forall l1 u', u = l1 ++ u' -> rel (k (Some l1)) (k (Some l1)) Q QX (SB (rev l1 ++ d) u')) ->
    rel (k None) (k None) Q QX (SB d u) ->
    rel (Kws l k) (Kws l k) Q QX (SB d u).
  Proof.
    intros H1 H2 a b [-> ->] v a' R. cbn [run] in *. rewrite run_kws_fm in *.
    pose proof (kws_match_e l e1 r1 (fun _ => eq_refl) u) as M1. pose proof (kws_match_e l e2 r2 (fun _ => eq_refl) u) as M2.
    assert (X : kws_match l (u ++ E1) = kws_match l u /\ kws_match l (u ++ E2) = kws_match l u).
    { unfold E1, E2. destruct (kws_match l u); destruct M1, M2, fin; auto. }
    destruct X as [X1 X2]. rewrite X1 in R. rewrite X2. destruct (kws_match l u) as [l1|] eqn:K; cbn [rev app] in *.
    - destruct (kws_match_spec _ _ _ K) as [K1 K2].
      assert (L : forall E, skipn (List.length l1) (u ++ E) = skipn (List.length l1) u ++ E).
      { intros E. rewrite skipn_app. apply (f_equal (@List.length _)) in K1. rewrite app_length in K1.
        replace (List.length l1 - List.length u)%nat with 0%nat by lia. reflexivity. }
      rewrite L in *. apply (H1 l1 (skipn (List.length l1) u) K1 (rev l1 ++ d, skipn (List.length l1) u ++ E1) (rev l1 ++ d, skipn (List.length l1) u ++ E2)); [|exact R].
      split; reflexivity.
    - apply (H2 (d, u ++ E1) (d, u ++ E2)); cbn; auto.
  Qed.
  Lemma rel_kws_ok l (Q : post bool) QX d u :
    (forall l1 u', u = l1 ++ u' -> Q true true (SB (rev l1 ++ d) u')) -> Q false false (SB d u) ->
    rel (kws_ok l) (kws_ok l) Q QX (SB d u).
  Proof. intros H1 H2. apply rel_kws; intros; apply rel_ret; auto. Qed.
  Lemma rel_kws_toks l (Q : post (option toks)) QX d u :
    (forall l1 u', u = l1 ++ u' -> Q (Some l1) (Some l1) (SB (rev l1 ++ d) u')) -> Q None None (SB d u) ->
    rel (kws_toks l) (kws_toks l) Q QX (SB d u).
  Proof. intros H1 H2. apply rel_kws; intros; apply rel_ret; auto. Qed.
  (** A test for a kind of token other than the two. *)
  Definition other (k : kind) : bool := negb (kind_eqb Semicolon k) && negb (kind_eqb RParen k).
  Lemma rel_consume k (Q : post bool) QX d u : other k = true ->
    (forall x u', u = x :: u' -> is_kind k x = true -> Q true true (SB (x :: d) u')) -> Q false false (SB d u) ->
    rel (consume_token k) (consume_token k) Q QX (SB d u).
  Proof.
    intros Hk H1 H2. unfold other in Hk. apply andb_prop in Hk as [K1 K2]. apply negb_true_iff in K1, K2. apply rel_peek_raw.
    - intros x u' E. destruct (is_kind k x) eqn:K; [|apply rel_ret; auto]. subst u.
      apply rel_next; intros; try discriminate. injection H as <- <-. apply rel_ret; eauto.
    - intros E. unfold is_kind, e1, e2. cbn [tkind]. rewrite K1, K2. apply rel_ret. auto.
    - intros E. unfold is_kind, e2. cbn [tkind]. rewrite K2. apply rel_ret. auto.
  Qed.
  Lemma rel_expect_token k (Q : post unit) QX d u : kind_eqb Semicolon k = false ->
    (forall x u', u = x :: u' -> is_kind k x = true -> Q tt tt (SB (x :: d) u')) ->
    rel (expect_token k) (expect_token k) Q QX (SB d u).
  Proof.
    intros K1 H1 a b [-> ->] v a' R. unfold expect_token, consume_token in *. cbn [bind run m_peek fm_machine snd fst] in *.
    destruct u as [|x u]; cbn [app] in *.
    - destruct E1_cases as [[F E]|[F E]]; rewrite E in R; [discriminate|]. unfold is_kind, e1 in R. cbn [tkind] in R.
      rewrite K1 in R. discriminate.
    - destruct (is_kind k x) eqn:K; [|discriminate]. cbn [bind run m_next fm_machine snd fst] in *. injection R as <- <-.
      right. exists tt, (x :: d, u ++ E2), (SB (x :: d) u). repeat split; eauto.
  Qed.
  Lemma rel_next_kind k (Q : post token) QX d u : kind_eqb Semicolon k = false ->
    (forall x u', u = x :: u' -> is_kind k x = true -> Q x x (SB (x :: d) u')) ->
    rel (next_kind k) (next_kind k) Q QX (SB d u).
  Proof.
    intros K1 H1. apply rel_bind, rel_next_nn.
    - intros x u' E. destruct (is_kind k x) eqn:K; [apply rel_ret; eauto|apply rel_err].
    - intros E. unfold is_kind, e1. cbn [tkind]. rewrite K1. apply rel_err.
  Qed.
  Lemma rel_word_of x (Q : post sqlword) QX st : (forall w, tval x = VWord w -> Q w w st) -> rel (word_of x) (word_of x) Q QX st.
  Proof. intros H. unfold word_of. destruct (tval x) as [w|s]; [apply rel_ret; auto|apply rel_panic]. Qed.
  Lemma rel_str_of x (Q : post gostring) QX st : (forall w, tval x = VStr w -> Q w w st) -> rel (str_of x) (str_of x) Q QX st.
  Proof. intros H. unfold str_of. destruct (tval x) as [w|s]; [apply rel_panic|apply rel_ret; auto]. Qed.
  Lemma rel_word_end (q : prog sqlword) (Q : post sqlword) QX st : rel (word_of e1) q Q QX st.
  Proof. apply rel_panic. Qed.
  Lemma rel_or_err {A} (o : option A) (Q : post A) QX st : (forall a, o = Some a -> Q a a st) -> rel (or_err o) (or_err o) Q QX st.
  Proof. intros H. destruct o; [apply rel_ret; auto|apply rel_err]. Qed.
  Lemma rel_loop {S A} (body : S -> prog (S + A)) (Q : post A) QX :
    (forall s d u, rel (body s) (body s)
       (fun r r' st => r = r' /\ match r with inl _ => exists d' u', st = SB d' u' | inr a => Q a a st end)
       (fun r => match r with inl s => forall n, wx (loop n body s) QX | inr a => QX a end) (SB d u)) ->
    forall n s d u, rel (loop n body s) (loop n body s) Q QX (SB d u).
  Proof.
    intros Hb. induction n as [|n IH]; intros s d u; [apply rel_fuel|]. cbn [loop]. apply rel_bind.
    eapply rel_conseq; [apply Hb| |].
    - intros [s'|a] r' st' [<- H]; [destruct H as (d' & u' & ->); apply IH|apply rel_ret, H].
    - intros [s'|a] H; [apply H|exact H].
  Qed.

  Definition same {A} : post A := fun a b st => a = b /\ exists d' u', st = SB d' u'.
  (** Expressions: the runs agree.  Queries: or the first is at its end. *)
  Definition cl {A} (p : prog A) : Prop := forall d u, rel p p same (fun _ => False) (SB d u).
  Definition clx {A} (p : prog A) : Prop := forall d u, rel p p same (fun _ => True) (SB d u).
  Lemma rel_call {A} (p : prog A) (Q : post A) QX d u : cl p -> (forall a d' u', Q a a (SB d' u')) -> rel p p Q QX (SB d u).
  Proof.
    intros H HQ. eapply rel_conseq; [apply H| |contradiction]. intros v w st' [<- (d' & u' & ->)]. apply HQ.
  Qed.
  Lemma rel_callx {A} (p : prog A) (Q : post A) (QX : A -> Prop) d u : clx p -> (forall a d' u', Q a a (SB d' u')) -> (forall a, QX a) -> rel p p Q QX (SB d u).
  Proof.
    intros H HQ HX. eapply rel_conseq; [apply H| |auto]. intros v w st' [<- (d' & u' & ->)]. apply HQ.
  Qed.
  (** Nothing starts with a semicolon or at the end. *)
  Definition starts {A} (p : prog A) : Prop := forall q Q QX d, rel p (q : prog A) Q QX (SB d []).

  Record rcl (r : rec) : Prop := {
    rc_query : clx (r_query r);
    rc_body : forall p, clx (r_body r p);
    rc_subexpr : forall p, cl (r_subexpr r p);
    rc_starts : forall p, starts (r_subexpr r p);
    rc_tref : clx (r_tref r) }.

  Create HintDb cs.
  Hint Resolve rc_query rc_body rc_subexpr rc_tref : cs.
  Ltac inv := repeat match goal with
    | H : _ :: _ = _ :: _ |- _ => injection H as ? ?; try subst
    | H : [] = _ :: _ |- _ => discriminate H
    | H : _ :: _ = [] |- _ => discriminate H
    | H : ?u = _ :: _ |- _ => is_var u; subst u
    | H : ?u = [] |- _ => is_var u; subst u
    end.
  Ltac fin1 := first [ solve [unfold same; split; [reflexivity|first [eauto|split; eauto]]] | exact I | solve [eauto] ].
  Ltac ends := cbn [is_kind kind_eqb tkind tval e1 e2 negb andb orb bind get_precedence infix_operator infix_symbol parse_set_operator tfrom tto].
  Ltac go1 :=
    lazymatch goal with
    | |- _ /\ rel _ _ _ _ _ => split; [reflexivity|]
    | |- rel (bind _ _) (bind _ _) _ _ _ => apply rel_bind
    | |- rel (Ret _) (Ret _) _ _ _ => apply rel_ret
    | |- rel Err _ _ _ _ => apply rel_err
    | |- rel (Panic _) _ _ _ _ => apply rel_panic
    | |- rel Fuel _ _ _ _ => apply rel_fuel
    | |- rel next_nn next_nn _ _ _ => apply rel_next_nn; intros; inv
    | |- rel next_err next_err _ _ _ => apply rel_next_err; intros; inv
    | |- rel must_next must_next _ _ _ => apply rel_must_next; intros; inv
    | |- rel peek_nn peek_nn _ _ _ => apply rel_peek_nn; intros; inv
    | |- rel peek peek _ _ _ => apply rel_peek; intros; inv
    | |- rel prev prev _ _ (SB _ _) => apply rel_prev; intros; inv
    | |- rel prev prev _ _ (SP _) => apply rel_prev_p; intros; inv
    | |- rel _ (bind prev _) _ _ (SE _) => apply rel_prev_e; intros; inv
    | |- rel (parse_keyword _) (parse_keyword _) _ _ _ => apply rel_parse_keyword; intros; inv
    | |- rel (kw_ok _) (kw_ok _) _ _ _ => apply rel_kw_ok; intros; inv
    | |- rel (kw_tok _) (kw_tok _) _ _ _ => apply rel_kw_tok; intros; inv
    | |- rel (expect_keyword _) (expect_keyword _) _ _ _ => apply rel_expect_keyword; intros; inv
    | |- rel (kws_ok _) (kws_ok _) _ _ _ => apply rel_kws_ok; intros
    | |- rel (kws_toks _) (kws_toks _) _ _ _ => apply rel_kws_toks; intros
    | |- rel (consume_token _) (consume_token _) _ _ _ => apply rel_consume; [reflexivity|intros; inv|inv]
    | |- rel (expect_token _) (expect_token _) _ _ _ => apply rel_expect_token; [reflexivity|intros; inv]
    | |- rel (next_kind _) (next_kind _) _ _ _ => apply rel_next_kind; [reflexivity|intros; inv]
    | |- rel (Ret _) (Panic _) _ _ (SE _) => apply rel_x
    | |- rel (word_of e1) _ _ _ _ => apply rel_word_end
    | |- rel (word_of _) (word_of _) _ _ _ => apply rel_word_of; intros
    | |- rel (str_of _) (str_of _) _ _ _ => apply rel_str_of; intros
    | |- rel (or_err _) (or_err _) _ _ _ => apply rel_or_err; intros
    | |- rel (let _ := _ in _) _ _ _ _ => cbv zeta
    | |- rel (match ?x with _ => _ end) (match ?x with _ => _ end) _ _ _ => destruct x eqn:?
    | |- rel (match _ with _ => _ end) _ _ _ _ => progress ends
    | |- rel (Ret _) (match _ with _ => _ end) _ _ _ => progress ends
    | |- rel (word_of (mkTok _ _ _ _)) _ _ _ _ => apply rel_word_end
    | |- rel (get_precedence e1) _ _ _ _ => progress ends
    | |- rel (infix_operator e1) _ _ _ _ => progress ends
    | |- rel (parse_set_operator _) (parse_set_operator (Some e2)) _ _ _ => progress ends
    | |- rel (Next _) (Next _) _ _ _ => apply rel_next; intros; inv
    | |- rel (Peek _) (Peek _) _ _ _ => apply rel_peek_raw; intros; inv
    | |- rel (loop _ _ _) (loop _ _ _) _ _ _ => apply rel_loop; intros
    | |- rel _ _ _ _ _ => first [apply rel_call; [solve [eauto with cs]|intros] | apply rel_callx; [solve [eauto with cs]|intros|intros]]
    end.
  Ltac go := repeat (cbn beta; go1); try fin1.

  Lemma parse_identifier_cl : cl parse_identifier.
  Proof. intros d u. unfold parse_identifier. go. Qed.
  Hint Resolve parse_identifier_cl : cs.
  Lemma parse_list_of_ids_cl r k : k = Comma \/ k = Period -> cl (parse_list_of_ids r k).
  Proof. intros [-> | ->] d u; unfold parse_list_of_ids; go. Qed.
  Hint Extern 1 (cl (parse_list_of_ids _ _)) => apply parse_list_of_ids_cl; auto : cs.
  Lemma parse_column_names_cl r : cl (parse_column_names r).
  Proof. intros d u. unfold parse_column_names. go. Qed.
  Hint Resolve parse_column_names_cl : cs.
  Lemma parse_object_name_cl r : cl (parse_object_name r).
  Proof. intros d u. unfold parse_object_name. go. Qed.
  Hint Resolve parse_object_name_cl : cs.
  Lemma parse_literal_int_cl : cl (parse_literal_int).
  Proof. intros d u. unfold parse_literal_int. go. Qed.
  Hint Resolve parse_literal_int_cl : cs.
  Lemma parse_optional_precision_cl : cl (parse_optional_precision).
  Proof. intros d u. unfold parse_optional_precision. go. Qed.
  Hint Resolve parse_optional_precision_cl : cs.
  Lemma parse_optional_precision_scale_cl : cl (parse_optional_precision_scale).
  Proof. intros d u. unfold parse_optional_precision_scale. go. Qed.
  Hint Resolve parse_optional_precision_scale_cl : cs.
  Lemma parse_my_unsigned_cl : cl (parse_my_unsigned).
  Proof. intros d u. unfold parse_my_unsigned. go. Qed.
  Hint Resolve parse_my_unsigned_cl : cs.
  Lemma parse_time_zone_cl : cl (parse_time_zone).
  Proof. intros d u. unfold parse_time_zone. go. Qed.
  Hint Resolve parse_time_zone_cl : cs.
  Lemma parse_data_type_cl r : cl (parse_data_type r).
  Proof. intros d u. unfold parse_data_type. go. Qed.
  Hint Resolve parse_data_type_cl : cs.
  Lemma parse_expr_cl r : rcl r -> cl (parse_expr r).
  Proof. intros HR. unfold parse_expr. eauto with cs. Qed.
  Hint Resolve parse_expr_cl : cs.
  Lemma parse_expr_list_cl r : rcl r -> cl (parse_expr_list r).
  Proof. intros HR. intros d u. unfold parse_expr_list. go. Qed.
  Hint Resolve parse_expr_list_cl : cs.
  Lemma parse_optional_args_cl r : rcl r -> cl (parse_optional_args r).
  Proof.
    intros HR d u. unfold parse_optional_args. destruct u as [|x u].
    - intros a b [-> ->] v a' R. rewrite run_bind in R.
      assert (R1 : run fm_machine (consume_token RParen) (d, [] ++ E1) = Ok false (d, [] ++ E1)).
      { destruct E1_cases as [[F E]|[F E]]; rewrite E; reflexivity. }
      rewrite R1 in R. cbn [obind] in R. exfalso.
      unfold parse_expr_list in R. destruct (r_fuel r) as [|n]; [discriminate|]. cbn [loop] in R.
      rewrite run_bind in R. unfold parse_expr in R. rewrite run_bind in R.
      destruct (run fm_machine (r_subexpr r 0) (d, [] ++ E1)) as [e a1| | |] eqn:R2; try discriminate.
      destruct (rc_starts r HR 0 Err (fun _ _ _ => False) (fun _ => False) d (d, [] ++ E1) (d, [] ++ E2) (conj eq_refl eq_refl) _ _ R2)
        as [(_ & _ & [])|(w & b' & st' & _ & _ & [])].
    - apply rel_bind. apply rel_peek_raw; intros; inv. destruct (is_kind RParen x0) eqn:K; go.
  Qed.
  Hint Resolve parse_optional_args_cl : cs.
  Lemma parse_order_by_list_cl r : rcl r -> cl (parse_order_by_list r).
  Proof. intros HR. intros d u. unfold parse_order_by_list. go. Qed.
  Hint Resolve parse_order_by_list_cl : cs.
  Lemma parse_window_frame_bound_cl : cl (parse_window_frame_bound).
  Proof. intros d u. unfold parse_window_frame_bound. go. Qed.
  Hint Resolve parse_window_frame_bound_cl : cs.
  Lemma parse_window_frame_cl : cl (parse_window_frame).
  Proof. intros d u. unfold parse_window_frame. go. Qed.
  Hint Resolve parse_window_frame_cl : cs.
  Lemma parse_function_cl r n : rcl r -> cl (parse_function r n).
  Proof. intros HR. intros d u. unfold parse_function. go. Qed.
  Hint Resolve parse_function_cl : cs.
  Lemma parse_value_cl : cl (parse_value).
  Proof. intros d u. unfold parse_value. go. Qed.
  Hint Resolve parse_value_cl : cs.
  Lemma parse_case_cl r : rcl r -> cl (parse_case r).
  Proof. intros HR. intros d u. unfold parse_case. go. Qed.
  Hint Resolve parse_case_cl : cs.
  Lemma parse_cast_cl r : rcl r -> cl (parse_cast r).
  Proof. intros HR. intros d u. unfold parse_cast. go. Qed.
  Hint Resolve parse_cast_cl : cs.
  Lemma parse_exists_cl r o : rcl r -> cl (parse_exists r o).
  Proof. intros HR. intros d u. unfold parse_exists. go. Qed.
  Hint Resolve parse_exists_cl : cs.
  Lemma rel_get_next_precedence (Q : post Z) QX d u : (forall p, Q p p (SB d u)) -> rel get_next_precedence get_next_precedence Q QX (SB d u).
  Proof.
    intros HQ. unfold get_next_precedence. apply rel_bind, rel_peek; intros; cbn; try apply rel_ret, HQ.
    unfold get_precedence. go; apply HQ.
  Qed.
  Ltac go1 ::=
    lazymatch goal with
    | |- _ /\ rel _ _ _ _ _ => split; [reflexivity|]
    | |- rel (bind _ _) (bind _ _) _ _ _ => apply rel_bind
    | |- rel (Ret _) (Ret _) _ _ _ => apply rel_ret
    | |- rel Err _ _ _ _ => apply rel_err
    | |- rel (Panic _) _ _ _ _ => apply rel_panic
    | |- rel Fuel _ _ _ _ => apply rel_fuel
    | |- rel next_nn next_nn _ _ _ => apply rel_next_nn; intros; inv
    | |- rel next_err next_err _ _ _ => apply rel_next_err; intros; inv
    | |- rel must_next must_next _ _ _ => apply rel_must_next; intros; inv
    | |- rel peek_nn peek_nn _ _ _ => apply rel_peek_nn; intros; inv
    | |- rel peek peek _ _ _ => apply rel_peek; intros; inv
    | |- rel prev prev _ _ (SB _ _) => apply rel_prev; intros; inv
    | |- rel prev prev _ _ (SP _) => apply rel_prev_p; intros; inv
    | |- rel _ (bind prev _) _ _ (SE _) => apply rel_prev_e; intros; inv
    | |- rel (parse_keyword _) (parse_keyword _) _ _ _ => apply rel_parse_keyword; intros; inv
    | |- rel (kw_ok _) (kw_ok _) _ _ _ => apply rel_kw_ok; intros; inv
    | |- rel (kw_tok _) (kw_tok _) _ _ _ => apply rel_kw_tok; intros; inv
    | |- rel (expect_keyword _) (expect_keyword _) _ _ _ => apply rel_expect_keyword; intros; inv
    | |- rel (kws_ok _) (kws_ok _) _ _ _ => apply rel_kws_ok; intros
    | |- rel (kws_toks _) (kws_toks _) _ _ _ => apply rel_kws_toks; intros
    | |- rel (consume_token _) (consume_token _) _ _ _ => apply rel_consume; [reflexivity|intros; inv|inv]
    | |- rel (expect_token _) (expect_token _) _ _ _ => apply rel_expect_token; [reflexivity|intros; inv]
    | |- rel (next_kind _) (next_kind _) _ _ _ => apply rel_next_kind; [reflexivity|intros; inv]
    | |- rel (Ret _) (Panic _) _ _ (SE _) => apply rel_x
    | |- rel (word_of e1) _ _ _ _ => apply rel_word_end
    | |- rel (word_of _) (word_of _) _ _ _ => apply rel_word_of; intros
    | |- rel (str_of _) (str_of _) _ _ _ => apply rel_str_of; intros
    | |- rel (or_err _) (or_err _) _ _ _ => apply rel_or_err; intros
    | |- rel (let _ := _ in _) _ _ _ _ => cbv zeta
    | |- rel (match ?x with _ => _ end) (match ?x with _ => _ end) _ _ _ => destruct x eqn:?
    | |- rel (match _ with _ => _ end) _ _ _ _ => progress ends
    | |- rel (Ret _) (match _ with _ => _ end) _ _ _ => progress ends
    | |- rel (word_of (mkTok _ _ _ _)) _ _ _ _ => apply rel_word_end
    | |- rel get_next_precedence get_next_precedence _ _ _ => apply rel_get_next_precedence; intros
    | |- rel (get_precedence e1) _ _ _ _ => progress ends
    | |- rel (infix_operator e1) _ _ _ _ => progress ends
    | |- rel (parse_set_operator _) (parse_set_operator (Some e2)) _ _ _ => progress ends
    | |- rel (Next _) (Next _) _ _ _ => apply rel_next; intros; inv
    | |- rel (Peek _) (Peek _) _ _ _ => apply rel_peek_raw; intros; inv
    | |- rel (loop _ _ _) (loop _ _ _) _ _ _ => apply rel_loop; intros
    | |- rel _ _ _ _ _ => first [apply rel_call; [solve [eauto with cs]|intros] | apply rel_callx; [solve [eauto with cs]|intros|intros]]
    end.
  Lemma parse_in_cl r e b : rcl r -> cl (parse_in r e b).
  Proof. intros HR. intros d u. unfold parse_in. go. Qed.
  Hint Resolve parse_in_cl : cs.
  Lemma parse_dotted_cl r i : cl (parse_dotted r i).
  Proof. intros d u. unfold parse_dotted. go. Qed.
  Hint Resolve parse_dotted_cl : cs.
  Lemma parse_prefix_cl r : rcl r -> cl (parse_prefix r).
  Proof. intros HR. intros d u. unfold parse_prefix. go. Qed.
  Hint Resolve parse_prefix_cl : cs.
  Lemma parse_between_cl r e b : rcl r -> cl (parse_between r e b).
  Proof. intros HR. intros d u. unfold parse_between. go. Qed.
  Hint Resolve parse_between_cl : cs.
  Lemma infix_operator_cl x : cl (infix_operator x).
  Proof. intros d u. unfold infix_operator. go. Qed.
  Hint Resolve infix_operator_cl : cs.
  Lemma parse_infix_cl r e p : rcl r -> cl (parse_infix r e p).
  Proof. intros HR. intros d u. unfold parse_infix. go. Qed.
  Hint Resolve parse_infix_cl : cs.
  Lemma infix_loop_cl r p e : rcl r -> cl (infix_loop r p e).
  Proof. intros HR. intros d u. unfold infix_loop. go. Qed.
  Hint Resolve infix_loop_cl : cs.
  Lemma parse_subexpr_cl r p : rcl r -> cl (parse_subexpr r p).
  Proof. intros HR. intros d u. unfold parse_subexpr. go. Qed.
  Hint Resolve parse_subexpr_cl : cs.
  Lemma parse_default_expr_cl r : rcl r -> cl (parse_default_expr r).
  Proof. intros HR. intros d u. unfold parse_default_expr. go. Qed.
  Hint Resolve parse_default_expr_cl : cs.
  Lemma parse_limit_cl : cl (parse_limit).
  Proof. intros d u. unfold parse_limit. go. Qed.
  Hint Resolve parse_limit_cl : cs.
  Lemma parse_optional_alias_cl l : clx (parse_optional_alias l).
  Proof. intros d u. unfold parse_optional_alias. go. Qed.
  Hint Resolve parse_optional_alias_cl : cs.
  Lemma parse_table_factor_cl r : rcl r -> clx (parse_table_factor r).
  Proof. intros HR. intros d u. unfold parse_table_factor. go. Qed.
  Hint Resolve parse_table_factor_cl : cs.
  Lemma parse_join_type_cl : cl (parse_join_type).
  Proof. intros d u. unfold parse_join_type. go. Qed.
  Hint Resolve parse_join_type_cl : cs.
  Lemma parse_join_spec_cl r : rcl r -> cl (parse_join_spec r).
  Proof. intros HR. intros d u. unfold parse_join_spec. go. Qed.
  Hint Resolve parse_join_spec_cl : cs.
  Lemma parse_table_reference_right_cl r : rcl r -> clx (parse_table_reference_right r).
  Proof. intros HR. intros d u. unfold parse_table_reference_right. go. Qed.
  Hint Resolve parse_table_reference_right_cl : cs.
  Create HintDb wxs.
  Ltac wxg := repeat (intros; cbn [wx bind kw_ok kw_tok parse_keyword kws_ok kws_toks consume_token expect_token next_kind next_nn next_err
      must_next peek peek_nn expect_keyword get_next_precedence map parse_set_operator]; intros;
    first [ exact I | apply wx_bind | apply wx_loop | split; [discriminate|]
          | match goal with |- wx (match ?x with _ => _ end) _ => destruct x | |- match ?x with _ => _ end => destruct x end
          | eapply wx_conseq; [solve [eauto with wxs]|] ]).
  Lemma parse_table_reference_right_wx r : wx (parse_table_reference_right r) (fun _ => True).
  Proof. unfold parse_table_reference_right. wxg. Qed.
  Hint Resolve parse_table_reference_right_wx : wxs.
  Ltac go ::= repeat (cbn beta; go1); try fin1; try (split; [reflexivity|];
    repeat match goal with |- match match ?x with _ => _ end with _ => _ end => destruct x end; unfold same; eauto); try solve [wxg].
  Lemma parse_table_reference_cl r : rcl r -> clx (parse_table_reference r).
  Proof. intros HR. intros d u. unfold parse_table_reference. go. Qed.
  Hint Resolve parse_table_reference_cl : cs.
  Lemma parse_from_clause_cl r : rcl r -> clx (parse_from_clause r).
  Proof. intros HR. intros d u. unfold parse_from_clause. go. Qed.
  Hint Resolve parse_from_clause_cl : cs.
  Lemma parse_select_list_cl r : rcl r -> clx (parse_select_list r).
  Proof. intros HR. intros d u. unfold parse_select_list. go. Qed.
  Hint Resolve parse_select_list_cl : cs.
  Lemma parse_select_cl r p : rcl r -> clx (parse_select r p).
  Proof. intros HR. intros d u. unfold parse_select. go. Qed.
  Hint Resolve parse_select_cl : cs.
  Lemma rel_set_operator o (Q : post (option setop)) QX st : (forall a, Q a a st) -> rel (parse_set_operator o) (parse_set_operator o) Q QX st.
  Proof. intros HQ. unfold parse_set_operator. go; apply HQ. Qed.
  Lemma body_loop_cl r p e : rcl r -> clx (body_loop r p e).
  Proof.
    intros HR d u. unfold body_loop. go. apply rel_set_operator; intros. go.
  Qed.
  Hint Resolve body_loop_cl : cs.
  Lemma parse_query_body_cl r p : rcl r -> clx (parse_query_body r p).
  Proof. intros HR. intros d u. unfold parse_query_body. go. Qed.
  Hint Resolve parse_query_body_cl : cs.
  Lemma parse_cte_list_cl r : rcl r -> cl (parse_cte_list r).
  Proof. intros HR. intros d u. unfold parse_cte_list. go. Qed.
  Hint Resolve parse_cte_list_cl : cs.
  Lemma parse_query_cl r : rcl r -> clx (parse_query r).
  Proof. intros HR. intros d u. unfold parse_query. go. Qed.
  Hint Resolve parse_query_cl : cs.
  Lemma parse_subexpr_starts r p : starts (parse_subexpr r p).
  Proof.
    intros q Q QX d a b [-> ->] v a' R. unfold parse_subexpr, parse_prefix in R. rewrite !run_bind in R.
    cbn [run next_err m_next fm_machine fst snd app] in R.
    destruct E1_cases as [[F E]|[F E]]; rewrite E in R; discriminate R.
  Qed.
  Lemma knot_rcl n : rcl (knot n).
  Proof.
    induction n as [|n IH].
    - constructor; intros; intros ?; intros; apply rel_fuel.
    - constructor; intros; cbn [knot r_fuel r_stmt r_query r_body r_subexpr r_tref]; auto using parse_subexpr_starts with cs.
  Qed.
End Rel.
