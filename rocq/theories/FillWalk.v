(** Two runs of the parser: on a template with a string literal in parentheses, and
    on the same tokens with an expression in the place of the literal. *)
From Coq Require Import ZArith List Bool String Lia.
From Verif Require Import Base Dialect Token Lexer AST Num Prog Parser Wp Sim LexFacts FillSpec.
Import ListNotations.
Open Scope Z_scope.

Section Rel.
  (** The template: [pre0], an opening parenthesis, the literal, a closing
      parenthesis, [post]; the expression has the tokens [x0 :: ee]. *)
  Variables (pl1 pl2 pv1 pv2 pr1 pr2 : pos) (sl vs sr : gostring).
  Definition lpt : token := mkTok LParen (VStr sl) pl1 pl2.
  Definition vt : token := mkTok SingleQuotedString (VStr vs) pv1 pv2.
  Definition rpt : token := mkTok RParen (VStr sr) pr1 pr2.
  Variables (pre0 post : list token) (x0 : token) (ee : list token) (aa : node).
  Definition pre : list token := pre0 ++ [lpt].

  (** The literal occurs nowhere else. *)
  Definition good (t : token) : Prop := tkind t = SingleQuotedString -> tval t <> VStr vs.
  Hypothesis Hpre : Forall good pre0.
  Hypothesis Hpost : Forall good post.
  Hypothesis Hx1 : is_kw (gs "SELECT") x0 = false.
  Hypothesis Hx2 : is_kw (gs "WITH") x0 = false.
  Hypothesis Hx3 : is_kind RParen x0 = false.

  (** Where the two runs are: before the literal, with [d] read and [u] left before
      it; behind it, with [c] read since and [t] left. *)
  Inductive place := SB (d u : list token) | SA (c t : list token).
  Definition at_place (st : place) (a b : rstate) : Prop :=
    match st with
    | SB d u => a = (d, u ++ vt :: rpt :: post) /\ b = (d, u ++ (x0 :: ee) ++ rpt :: post)
    | SA c t => a = (c ++ vt :: rev pre, t) /\ b = (c ++ rev (x0 :: ee) ++ rev pre, t)
    end.
  (** Not directly before the literal. *)
  Definition fine (st : place) : Prop :=
    match st with
    | SB d u => rev d ++ u = pre /\ u <> []
    | SA c t => Forall good t
    end.
  Definition win (st : place) : Prop := exists d, st = SB d [] /\ rev d = pre.
  Definition hd (st : place) : option token :=
    match st with SB _ (x :: _) | SA _ (x :: _) => Some x | _ => None end.
  Definition step (st : place) (x : token) (st' : place) : Prop :=
    match st, st' with
    | SB d u, SB d' u' => u = x :: u' /\ d' = x :: d
    | SA c t, SA c' t' => t = x :: t' /\ c' = x :: c
    | _, _ => False
    end.
  Definition after : place := SA [] (rpt :: post).
  Lemma after_fine : fine after.
  Proof. unfold after, fine. constructor; [|exact Hpost]. intros E. discriminate E. Qed.

  Lemma fine_cases st : fine st ->
    (exists d u0, st = SB d (u0 ++ [lpt]) /\ rev d ++ u0 = pre0) \/ (exists c t, st = SA c t /\ Forall good t).
  Proof.
    destruct st as [d u|c t]; cbn [fine]; [|eauto]. intros [E N]. left.
    destruct (exists_last N) as (u0 & y & ->). unfold pre in E. rewrite app_assoc in E.
    apply app_inj_tail in E as [E ->]. eauto.
  Qed.
  Lemma fine_next st : fine st ->
    (exists x st', step st x st' /\ hd st = Some x /\ fine st' /\ good x) \/
    (exists st', step st lpt st' /\ hd st = Some lpt /\ win st') \/
    (exists c, st = SA c []).
  Proof.
    intros F. destruct (fine_cases st F) as [(d & u0 & -> & E)|(c & t & -> & G)].
    - destruct u0 as [|x u0]; cbn [app].
      + right; left. exists (SB (lpt :: d) []). cbn. repeat split. exists (lpt :: d). split; [reflexivity|].
        cbn [rev]. rewrite app_nil_r in E. rewrite E. reflexivity.
      + left. exists x, (SB (x :: d) (u0 ++ [lpt])). cbn [step hd]. repeat split.
        * cbn [rev fine]. rewrite <- app_assoc. cbn [app]. unfold pre. rewrite <- E, <- app_assoc. reflexivity.
        * destruct u0; discriminate.
        * rewrite <- E in Hpre. apply Forall_app in Hpre as [_ P]. inversion P; assumption.
    - destruct t as [|x t]; [right; right; eauto|]. left. exists x, (SA (x :: c) t). inversion G. cbn. auto.
  Qed.

  (** If [p] succeeds in the first run, then [q] does in the second. *)
  Definition rel {A B} (p : prog A) (q : prog B) (Q : A -> B -> place -> Prop) (st : place) : Prop :=
    forall a b, at_place st a b -> forall v a', run fm_machine p a = Ok v a' ->
      exists w b' st', run fm_machine q b = Ok w b' /\ at_place st' a' b' /\ Q v w st'.

  Lemma rel_bind {A A' B B'} (p : prog A) (q : prog A') (f : A -> prog B) (g : A' -> prog B') Q st :
    rel p q (fun v w st' => rel (f v) (g w) Q st') st -> rel (bind p f) (bind q g) Q st.
  Proof.
    intros H a b HS v a' R. rewrite run_bind in R. destruct (run fm_machine p a) as [x a1| | |] eqn:R1; try discriminate.
    cbn [obind] in R. destruct (H a b HS _ _ R1) as (w & b' & st' & R2 & HS' & K).
    rewrite run_bind, R2. cbn [obind]. apply (K _ _ HS' _ _ R).
  Qed.
  Lemma rel_conseq {A B} (p : prog A) (q : prog B) (Q Q' : A -> B -> place -> Prop) st :
    rel p q Q st -> (forall v w st', Q v w st' -> Q' v w st') -> rel p q Q' st.
  Proof.
    intros H HQ a b HS v a' R. destruct (H a b HS v a' R) as (w & b' & st' & R2 & HS' & K).
    exists w, b', st'. auto.
  Qed.
  Lemma rel_ret {A B} (v : A) (w : B) (Q : A -> B -> place -> Prop) st : Q v w st -> rel (Ret v) (Ret w) Q st.
  Proof. intros H a b HS v' a' R. injection R as <- <-. exists w, b, st. auto. Qed.
  Lemma rel_err {A B} (q : prog B) (Q : A -> B -> place -> Prop) st : rel Err q Q st.
  Proof. intros a b HS v a' R. discriminate. Qed.
  Lemma rel_panic {A B} w (q : prog B) (Q : A -> B -> place -> Prop) st : rel (Panic w) q Q st.
  Proof. intros a b HS v a' R. discriminate. Qed.
  Lemma rel_fuel {A B} (q : prog B) (Q : A -> B -> place -> Prop) st : rel Fuel q Q st.
  Proof. intros a b HS v a' R. discriminate. Qed.

  Lemma step_next st x st' a b : step st x st' -> at_place st a b ->
    exists a' b', m_next fm_machine a = (Some x, a') /\ m_next fm_machine b = (Some x, b') /\ at_place st' a' b'.
  Proof.
    destruct st as [d u|c t], st' as [d' u'|c' t']; cbn [step]; try contradiction; intros [-> ->] [-> ->]; cbn [m_next fm_machine fst snd app];
      do 2 eexists; repeat split.
  Qed.
  Lemma step_prev st x st' a b : step st x st' -> at_place st' a b ->
    exists a' b', m_prev fm_machine a = Some a' /\ m_prev fm_machine b = Some b' /\ at_place st a' b'.
  Proof.
    destruct st as [d u|c t], st' as [d' u'|c' t']; cbn [step]; try contradiction; intros [-> ->] [-> ->]; cbn [m_prev fm_machine fst snd app];
      do 2 eexists; repeat split.
  Qed.
  Lemma step_peek st x st' a b : step st x st' -> at_place st a b ->
    m_peek fm_machine a = Some x /\ m_peek fm_machine b = Some x.
  Proof.
    destruct st as [d u|c t], st' as [d' u'|c' t']; cbn [step]; try contradiction; intros [-> ->] [-> ->]; cbn; auto.
  Qed.

  Lemma rel_next {A B} (k : option token -> prog A) (k' : option token -> prog B) Q st : fine st ->
    (forall x st', step st x st' -> hd st = Some x -> fine st' -> good x -> rel (k (Some x)) (k' (Some x)) Q st') ->
    (forall st', step st lpt st' -> hd st = Some lpt -> win st' -> rel (k (Some lpt)) (k' (Some lpt)) Q st') ->
    (hd st = None -> rel (k None) (k' None) Q st) ->
    rel (Next k) (Next k') Q st.
  Proof.
    intros F H1 H2 H3 a b HS v a' R. cbn [run] in *.
    destruct (fine_next st F) as [(x & st' & T & E & F' & G)|[(st' & T & E & W)|(c & ->)]].
    - destruct (step_next _ _ _ _ _ T HS) as (a1 & b1 & N1 & N2 & HS'). rewrite N1 in R. rewrite N2. eapply H1; eauto.
    - destruct (step_next _ _ _ _ _ T HS) as (a1 & b1 & N1 & N2 & HS'). rewrite N1 in R. rewrite N2. eapply H2; eauto.
    - pose proof HS as [-> ->]. cbn [m_next fm_machine fst snd] in *. eapply H3; eauto.
  Qed.
  Lemma rel_peek_raw {A B} (k : option token -> prog A) (k' : option token -> prog B) Q st : fine st ->
    (forall x st', step st x st' -> hd st = Some x -> good x -> rel (k (Some x)) (k' (Some x)) Q st) ->
    (hd st = None -> rel (k None) (k' None) Q st) ->
    rel (Peek k) (Peek k') Q st.
  Proof.
    intros F H1 H3 a b HS v a' R. cbn [run] in *.
    destruct (fine_next st F) as [(x & st' & T & E & F' & G)|[(st' & T & E & W)|(c & ->)]].
    - destruct (step_peek _ _ _ _ _ T HS) as [P1 P2]. rewrite P1 in R. rewrite P2. eapply H1; eauto.
    - destruct (step_peek _ _ _ _ _ T HS) as [P1 P2]. rewrite P1 in R. rewrite P2. eapply H1; eauto. intros X; discriminate X.
    - pose proof HS as [-> ->]. cbn [m_peek fm_machine fst snd] in *. apply (H3 eq_refl _ _ HS _ _ R).
  Qed.
  Lemma rel_prev (Q : unit -> unit -> place -> Prop) st x st' : step st x st' -> Q tt tt st -> rel prev prev Q st'.
  Proof.
    intros T H a b HS v a' R. cbn [run prev] in *. destruct (step_prev _ _ _ _ _ T HS) as (a1 & b1 & P1 & P2 & HS').
    rewrite P1 in R. rewrite P2. injection R as <- <-. exists tt, b1, st. auto.
  Qed.

  Notation nx Q st := (forall x st', step st x st' -> hd st = Some x -> fine st' -> good x -> Q x x st').
  Notation nw Q st := (forall st', step st lpt st' -> hd st = Some lpt -> win st' -> Q lpt lpt st').
  Lemma rel_next_nn (Q : token -> token -> place -> Prop) st : fine st -> nx Q st -> nw Q st -> rel next_nn next_nn Q st.
  Proof. intros F H1 H2. apply rel_next; intros; [auto|apply rel_ret; eauto..|apply rel_panic]. Qed.
  Lemma rel_next_err (Q : token -> token -> place -> Prop) st : fine st -> nx Q st -> nw Q st -> rel next_err next_err Q st.
  Proof. intros F H1 H2. apply rel_next; intros; [auto|apply rel_ret; eauto..|apply rel_err]. Qed.
  Lemma rel_must_next (Q : token -> token -> place -> Prop) st : fine st -> nx Q st -> nw Q st -> rel must_next must_next Q st.
  Proof. intros F H1 H2. apply rel_next; intros; [auto|apply rel_ret; eauto..|apply rel_panic]. Qed.
  Lemma rel_peek_nn (Q : token -> token -> place -> Prop) st : fine st ->
    (forall x st', step st x st' -> hd st = Some x -> good x -> Q x x st) -> rel peek_nn peek_nn Q st.
  Proof. intros F H1. apply rel_peek_raw; intros; [auto|apply rel_ret; eauto|apply rel_panic]. Qed.
  Lemma rel_peek (Q : option token -> option token -> place -> Prop) st : fine st ->
    (forall x st', step st x st' -> hd st = Some x -> good x -> Q (Some x) (Some x) st) -> (hd st = None -> Q None None st) ->
    rel peek peek Q st.
  Proof. intros F H1 H2. apply rel_peek_raw; intros; [auto|apply rel_ret; eauto..]. Qed.

  Lemma rel_parse_keyword s (Q : kwres -> kwres -> place -> Prop) st : fine st ->
    (forall x st', step st x st' -> hd st = Some x -> fine st' -> is_kw (gs s) x = true -> Q (KwYes x) (KwYes x) st') ->
    (forall x, hd st = Some x -> is_kw (gs s) x = false -> Q (KwNo x) (KwNo x) st) ->
    (hd st = None -> Q KwEOF KwEOF st) ->
    rel (parse_keyword s) (parse_keyword s) Q st.
  Proof.
    intros F H1 H2 H3. apply rel_peek_raw; auto.
    - intros x st' T E G. destruct (is_kw (gs s) x) eqn:K; [|apply rel_ret; eauto]. apply rel_bind, rel_must_next; auto; intros.
      + apply rel_ret. rewrite H0 in E. injection E as ->. eauto.
      + rewrite H0 in E. injection E as <-. discriminate K.
    - intros E. apply rel_ret; auto.
  Qed.
  Lemma rel_kw_ok s (Q : bool -> bool -> place -> Prop) st : fine st ->
    (forall x st', step st x st' -> hd st = Some x -> fine st' -> is_kw (gs s) x = true -> Q true true st') -> Q false false st ->
    rel (kw_ok s) (kw_ok s) Q st.
  Proof. intros F H1 H2. apply rel_bind, rel_parse_keyword; intros; [auto|apply rel_ret; eauto..]. Qed.
  Lemma rel_kw_tok s (Q : option token -> option token -> place -> Prop) st : fine st ->
    (forall x st', step st x st' -> hd st = Some x -> fine st' -> is_kw (gs s) x = true -> Q (Some x) (Some x) st') -> Q None None st ->
    rel (kw_tok s) (kw_tok s) Q st.
  Proof. intros F H1 H2. apply rel_bind, rel_parse_keyword; intros; [auto|apply rel_ret; eauto..]. Qed.
  Lemma rel_expect_keyword s (Q : token -> token -> place -> Prop) st : fine st ->
    (forall x st', step st x st' -> hd st = Some x -> fine st' -> is_kw (gs s) x = true -> Q x x st') ->
    rel (expect_keyword s) (expect_keyword s) Q st.
  Proof. intros F H1. apply rel_bind, rel_parse_keyword; intros; [auto|apply rel_ret; eauto|apply rel_panic..]. Qed.

  Lemma kws_match_lp ks X Y : forall u,
    kws_match ks (u ++ lpt :: X) = kws_match ks (u ++ lpt :: Y) /\
    match kws_match ks (u ++ lpt :: X) with
    | Some l => (List.length l <= List.length u)%nat
    | None => True
    end.
  Proof.
    induction ks as [|k ks IH]; intros u; cbn [kws_match]; [cbn; split; [reflexivity|lia]|]. destruct u as [|x u]; cbn [app].
    - cbn. auto.
    - destruct (is_kw k x); [|auto]. destruct (IH u) as [E L]. rewrite <- E. split; [reflexivity|].
      destruct (kws_match ks (u ++ lpt :: X)); [cbn; lia|exact I].
  Qed.
  Lemma kws_match_len ks : forall u l, kws_match ks u = Some l -> List.length l = List.length ks.
  Proof.
    induction ks as [|k ks IH]; intros u l E; cbn [kws_match] in E; [injection E as <-; reflexivity|].
    destruct u as [|x u]; [discriminate|]. destruct (is_kw k x); [|discriminate].
    destruct (kws_match ks u) eqn:K; [|discriminate]. injection E as <-. cbn. f_equal. eauto.
  Qed.
  Lemma rel_kws {A B} l (k : option toks -> prog A) (k' : option toks -> prog B) Q st : fine st ->
    (forall l1 st', fine st' -> List.length l1 = List.length l -> rel (k (Some l1)) (k' (Some l1)) Q st') ->
    rel (k None) (k' None) Q st ->
    rel (Kws l k) (Kws l k') Q st.
  Proof.
    intros F H1 H2 a b HS v a' R. cbn [run] in *.
    destruct (fine_cases st F) as [(d & u0 & -> & E)|(c & t & -> & G)]; pose proof HS as [-> ->]; rewrite run_kws_fm in *.
    - rewrite <- !app_assoc in *. cbn [app] in *.
      destruct (kws_match_lp l (vt :: rpt :: post) (x0 :: ee ++ rpt :: post) u0) as [X L]. rewrite <- X.
      destruct (kws_match l (u0 ++ lpt :: vt :: rpt :: post)) as [l1|] eqn:K; cbn [rev app] in *.
      + destruct (kws_match_spec _ _ _ K) as [K1 K2].
        assert (U : u0 = l1 ++ skipn (List.length l1) u0).
        { assert (Z : firstn (List.length l1) (u0 ++ lpt :: vt :: rpt :: post) = l1) by (rewrite K1 at 1; rewrite firstn_app, Nat.sub_diag; cbn; rewrite firstn_all; apply app_nil_r).
          rewrite firstn_app in Z. replace (List.length l1 - List.length u0)%nat with 0%nat in Z by lia. cbn [firstn] in Z. rewrite app_nil_r in Z.
          rewrite <- Z at 1. symmetry. apply firstn_skipn. }
        set (u1 := skipn (List.length l1) u0) in *.
        assert (S1 : forall Z, skipn (List.length l1) (u0 ++ Z) = u1 ++ Z).
        { intros Z. rewrite skipn_app. replace (List.length l1 - List.length u0)%nat with 0%nat by lia. reflexivity. }
        rewrite S1 in *. eapply (H1 l1 (SB (rev l1 ++ d) (u1 ++ [lpt]))); [|eapply kws_match_len; eauto| |exact R].
        * cbn [fine]. split; [|destruct u1; discriminate]. rewrite rev_app_distr, rev_involutive. unfold pre. rewrite <- E, U.
          rewrite <- !app_assoc. reflexivity.
        * cbn [at_place]. rewrite <- !app_assoc. cbn [app]. auto.
      + eapply H2; [exact HS|]. exact R.
    - destruct (kws_match l t) as [l1|] eqn:K; cbn [rev app] in *.
      + eapply (H1 l1 (SA (rev l1 ++ c) (skipn (List.length l1) t))); [|eapply kws_match_len; eauto| |exact R].
        * cbn [fine]. apply Forall_forall. intros y Hy. rewrite Forall_forall in G. apply G.
          rewrite <- (firstn_skipn (List.length l1) t). apply in_or_app. auto.
        * cbn [at_place]. cbn [rev]. rewrite <- !app_assoc. auto.
      + eapply H2; [exact HS|exact R].
  Qed.
  Lemma rel_kws_ok l (Q : bool -> bool -> place -> Prop) st : fine st ->
    (forall st', fine st' -> Q true true st') -> Q false false st -> rel (kws_ok l) (kws_ok l) Q st.
  Proof. intros F H1 H2. apply rel_kws; intros; [auto|apply rel_ret; auto..]. Qed.
  Lemma rel_kws_toks l (Q : option toks -> option toks -> place -> Prop) st : fine st ->
    (forall l1 st', fine st' -> List.length l1 = List.length (map gs l) -> Q (Some l1) (Some l1) st') -> Q None None st -> rel (kws_toks l) (kws_toks l) Q st.
  Proof. intros F H1 H2. apply rel_kws; intros; [auto|apply rel_ret; auto..]. Qed.

  Lemma rel_consume k (Q : bool -> bool -> place -> Prop) st : fine st -> kind_eqb LParen k = false ->
    (forall x st', step st x st' -> hd st = Some x -> fine st' -> is_kind k x = true -> Q true true st') -> Q false false st ->
    rel (consume_token k) (consume_token k) Q st.
  Proof.
    intros F Hk H1 H2. apply rel_peek_raw; auto; [|intros; apply rel_ret; auto].
    intros x st' T E G. destruct (is_kind k x) eqn:K; [|apply rel_ret; auto]. apply rel_next; auto; intros.
    - rewrite E in H0. injection H0 as <-. apply rel_ret; eauto.
    - rewrite E in H0. injection H0 as ->. unfold is_kind in K. cbn [tkind lpt] in K. congruence.
    - congruence.
  Qed.
  Lemma rel_consume_lp (Q : bool -> bool -> place -> Prop) st : fine st ->
    (forall x st', step st x st' -> hd st = Some x -> fine st' -> is_kind LParen x = true -> Q true true st') ->
    (forall st', step st lpt st' -> hd st = Some lpt -> win st' -> Q true true st') ->
    Q false false st ->
    rel (consume_token LParen) (consume_token LParen) Q st.
  Proof.
    intros F H1 H1' H2. apply rel_peek_raw; auto; [|intros; apply rel_ret; auto].
    intros x st' T E G. destruct (is_kind LParen x) eqn:K; [|apply rel_ret; auto]. apply rel_next; auto; intros.
    - rewrite E in H0. injection H0 as <-. apply rel_ret; eauto.
    - apply rel_ret; eauto.
    - congruence.
  Qed.
  Lemma rel_expect_token k (Q : unit -> unit -> place -> Prop) st : fine st -> kind_eqb LParen k = false ->
    (forall x st', step st x st' -> hd st = Some x -> fine st' -> is_kind k x = true -> Q tt tt st') ->
    rel (expect_token k) (expect_token k) Q st.
  Proof. intros F Hk H1. apply rel_bind, rel_consume; auto; intros; [apply rel_ret; eauto|apply rel_panic]. Qed.
  Lemma rel_expect_lp (Q : unit -> unit -> place -> Prop) st : fine st ->
    (forall x st', step st x st' -> hd st = Some x -> fine st' -> is_kind LParen x = true -> Q tt tt st') ->
    (forall st', step st lpt st' -> hd st = Some lpt -> win st' -> Q tt tt st') ->
    rel (expect_token LParen) (expect_token LParen) Q st.
  Proof. intros F H1 H2. apply rel_bind, rel_consume_lp; auto; intros; [apply rel_ret; eauto..|apply rel_panic]. Qed.
  Lemma rel_next_kind k (Q : token -> token -> place -> Prop) st : fine st -> kind_eqb LParen k = false ->
    (forall x st', step st x st' -> hd st = Some x -> fine st' -> is_kind k x = true -> Q x x st') ->
    rel (next_kind k) (next_kind k) Q st.
  Proof.
    intros F Hk H1. apply rel_bind, rel_next_nn; auto; intros.
    - destruct (is_kind k x) eqn:K; [apply rel_ret; eauto|apply rel_err].
    - unfold is_kind. cbn [tkind lpt]. rewrite Hk. apply rel_err.
  Qed.
  Lemma rel_next_lp (Q : token -> token -> place -> Prop) st : fine st ->
    (forall x st', step st x st' -> hd st = Some x -> fine st' -> is_kind LParen x = true -> Q x x st') ->
    (forall st', step st lpt st' -> hd st = Some lpt -> win st' -> Q lpt lpt st') ->
    rel (next_kind LParen) (next_kind LParen) Q st.
  Proof.
    intros F H1 H2. apply rel_bind, rel_next_nn; auto; intros.
    - destruct (is_kind LParen x) eqn:K; [apply rel_ret; eauto|apply rel_err].
    - apply rel_ret; auto.
  Qed.
  Lemma rel_word_of x (Q : sqlword -> sqlword -> place -> Prop) st : (forall w, tval x = VWord w -> Q w w st) -> rel (word_of x) (word_of x) Q st.
  Proof. intros H. unfold word_of. destruct (tval x) as [w|s]; [apply rel_ret; auto|apply rel_panic]. Qed.
  Lemma rel_str_of x (Q : gostring -> gostring -> place -> Prop) st : (forall w, tval x = VStr w -> Q w w st) -> rel (str_of x) (str_of x) Q st.
  Proof. intros H. unfold str_of. destruct (tval x) as [w|s]; [apply rel_panic|apply rel_ret; auto]. Qed.
  Lemma rel_or_err {A} (o : option A) (Q : A -> A -> place -> Prop) st : (forall a, o = Some a -> Q a a st) -> rel (or_err o) (or_err o) Q st.
  Proof. intros H. destruct o; [apply rel_ret; auto|apply rel_err]. Qed.

  (** Loops, with related states. *)
  Definition lpost {S S' A B} (R : S -> S' -> Prop) (Q : A -> B -> place -> Prop) (r : S + A) (r' : S' + B) (st : place) : Prop :=
    match r, r' with
    | inl s, inl s' => R s s' /\ fine st
    | inr a, inr b => Q a b st
    | _, _ => False
    end.
  Lemma rel_loop {S S' A B} (R : S -> S' -> Prop) (body : S -> prog (S + A)) (body' : S' -> prog (S' + B)) (Q : A -> B -> place -> Prop) :
    (forall s s' st, R s s' -> fine st -> rel (body s) (body' s') (lpost R Q) st) ->
    forall n n' s s' st, (n <= n')%nat -> R s s' -> fine st -> rel (loop n body s) (loop n' body' s') Q st.
  Proof.
    intros Hb. induction n as [|n IH]; intros n' s s' st L HR F; [apply rel_fuel|]. destruct n' as [|n']; [lia|].
    cbn [loop]. apply rel_bind. eapply rel_conseq; [apply Hb; eauto|].
    intros [s1|a] [s1'|b] st'; cbn [lpost]; try contradiction; [intros [R1 F1]; apply IH; auto; lia|apply rel_ret].
  Qed.

  (** Directly before the literal. *)
  Definition dd {A} (p : prog A) : Prop := forall d a s, run fm_machine p (d, vt :: rpt :: post) <> Ok a s.
  Lemma dd_bind {A B} (p : prog A) (f : A -> prog B) : dd p -> dd (bind p f).
  Proof.
    intros H d a s R. rewrite run_bind in R. destruct (run fm_machine p (d, vt :: rpt :: post)) as [x a1| | |] eqn:R1; try discriminate.
    exact (H _ _ _ R1).
  Qed.
  Lemma rel_dead {A B} (p : prog A) (q : prog B) Q st : win st -> dd p -> rel p q Q st.
  Proof. intros (d & -> & _) H a b [-> _] v a' R. destruct (H _ _ _ R). Qed.
  Lemma rel_win_kw_ok s (Q : bool -> bool -> place -> Prop) st : win st -> is_kw (gs s) x0 = false -> Q false false st ->
    rel (kw_ok s) (kw_ok s) Q st.
  Proof.
    intros (d & -> & _) K H a b HS v a' R. pose proof HS as [-> ->]. cbn [run kw_ok parse_keyword bind m_peek fm_machine snd app] in *.
    rewrite K. cbn [bind run] in *. cbn in R. injection R as <- <-. do 3 eexists. split; [reflexivity|]. split; [|exact H]. cbn. auto.
  Qed.
  Lemma rel_win_consume k (Q : bool -> bool -> place -> Prop) st : win st -> kind_eqb SingleQuotedString k = false -> is_kind k x0 = false -> Q false false st ->
    rel (consume_token k) (consume_token k) Q st.
  Proof.
    intros (d & -> & _) K0 K H a b HS v a' R. pose proof HS as [-> ->]. cbn [run consume_token bind m_peek fm_machine snd app] in *.
    rewrite K. unfold is_kind in R. cbn [tkind vt] in R. rewrite K0 in R. cbn [run] in *. injection R as <- <-. do 3 eexists. split; [reflexivity|]. split; [|exact H]. cbn. auto.
  Qed.

  (** The specification of the functions: related values. *)
  Definition sbf {A B} (f : A -> B) (p : prog A) (p' : prog B) : Prop :=
    forall st, fine st -> rel p p' (fun a b st' => b = f a /\ fine st') st.
  Definition nv (e : node) : Prop := forall f t, e <> EString f t vs.
  Notation fil := (fill_node vs aa).
  Definition sbe (p p' : prog node) : Prop :=
    forall st, fine st -> rel p p' (fun a b st' => b = fil a /\ fine st' /\ nv a) st.
  Lemma sbe_sbf p p' : sbe p p' -> sbf fil p p'.
  Proof. intros H st F. eapply rel_conseq; [apply H, F|]. cbn. tauto. Qed.
  Definition swin (p p' : prog node) : Prop :=
    forall st, win st -> rel p p' (fun a b st' => b = fil a /\ st' = after) st.
  Lemma rel_call {A B} (f : A -> B) (p : prog A) (p' : prog B) (Q : A -> B -> place -> Prop) st : sbf f p p' -> fine st ->
    (forall a st', fine st' -> Q a (f a) st') -> rel p p' Q st.
  Proof. intros H F HQ. eapply rel_conseq; [apply H, F|]. intros a b st' [-> F']. apply HQ, F'. Qed.
  Lemma rel_calle p p' (Q : node -> node -> place -> Prop) st : sbe p p' -> fine st ->
    (forall a st', fine st' -> nv a -> Q a (fil a) st') -> rel p p' Q st.
  Proof. intros H F HQ. eapply rel_conseq; [apply H, F|]. intros a b st' (-> & F' & N). apply HQ; auto. Qed.
  Lemma rel_callw p p' (Q : node -> node -> place -> Prop) st : swin p p' -> win st ->
    (forall a, Q a (fil a) after) -> rel p p' Q st.
  Proof. intros H F HQ. eapply rel_conseq; [apply H, F|]. intros a b st' (-> & ->). apply HQ; auto. Qed.

  Record rsb (r r' : rec) : Prop := {
    rs_fuel : (r_fuel r <= r_fuel r')%nat;
    rs_stmt : sbf (fill_stmt vs aa) (r_stmt r) (r_stmt r');
    rs_query : sbf (fill_query vs aa) (r_query r) (r_query r');
    rs_body : forall p, sbf (fill_setexpr vs aa) (r_body r p) (r_body r' p);
    rs_subexpr : forall p, sbe (r_subexpr r p) (r_subexpr r' p);
    rs_tref : sbf (fill_tableref vs aa) (r_tref r) (r_tref r');
    rs_win : swin (r_subexpr r 0) (r_subexpr r' 0);
    rs_dead : dd (r_query r) }.

  Create HintDb sbs.
  Create HintDb dds.
  Hint Resolve rs_stmt rs_query rs_body rs_tref : sbs.
  Hint Resolve rs_subexpr : sbs.
  Hint Resolve rs_dead dd_bind : dds.
  Lemma dd_loop {S A} (body : S -> prog (S + A)) n s : dd (body s) -> dd (loop n body s).
  Proof. intros H. destruct n; [intros d a s' R; discriminate R|]. cbn [loop]. apply dd_bind, H. Qed.
  Ltac ddc := intros ? ? ? ?; discriminate.

  Ltac fn := first [assumption | apply after_fine].
  Ltac contra := exfalso;
    repeat match goal with
      | H1 : hd ?s = Some ?x, H2 : hd ?s = Some ?y |- _ => rewrite H1 in H2; injection H2 as H2; try subst
      | H1 : hd after = Some ?x |- _ => cbn [hd after] in H1; injection H1 as H1; try subst
      end; unfold is_kind, lpt, rpt, after in *; cbn in *; first [discriminate | congruence].
  Ltac dead := apply rel_dead; [assumption|]; solve [eauto 3 with dds | ddc].
  Ltac lps := cbn [is_kind kind_eqb tkind tval lpt negb andb orb bind get_precedence infix_operator infix_symbol parse_set_operator tfrom tto word_of].
  Ltac hole := idtac.
  Ltac winx := try solve [contra]; try dead.
  Ltac fin1 := first [ solve [split; [reflexivity|fn]] | exact I | solve [eauto] ].
  Ltac go1 :=
    lazymatch goal with
    | |- rel (bind _ _) (bind _ _) _ _ => apply rel_bind
    | |- rel (Ret _) (Ret _) _ _ => apply rel_ret
    | |- rel Err _ _ _ => apply rel_err
    | |- rel (Panic _) _ _ _ => apply rel_panic
    | |- rel Fuel _ _ _ => apply rel_fuel
    | |- rel next_nn next_nn _ _ => apply rel_next_nn; [fn|intros|intros; winx]
    | |- rel next_err next_err _ _ => apply rel_next_err; [fn|intros|intros; winx]
    | |- rel must_next must_next _ _ => apply rel_must_next; [fn|intros|intros; winx]
    | |- rel peek_nn peek_nn _ _ => apply rel_peek_nn; [fn|intros]
    | |- rel peek peek _ _ => apply rel_peek; [fn|intros|intros]
    | |- rel prev prev _ _ => eapply rel_prev; [eassumption|]
    | |- rel (parse_keyword _) (parse_keyword _) _ _ => apply rel_parse_keyword; [fn|intros; try solve [contra]|intros|intros]
    | W : win ?st |- rel (kw_ok _) (kw_ok _) _ ?st => apply rel_win_kw_ok; [assumption|assumption|]
    | |- rel (kw_ok _) (kw_ok _) _ _ => apply rel_kw_ok; [fn|intros; try solve [contra]|]
    | |- rel (kw_tok _) (kw_tok _) _ _ => apply rel_kw_tok; [fn|intros; try solve [contra]|]
    | |- rel (expect_keyword _) (expect_keyword _) _ _ => apply rel_expect_keyword; [fn|intros; try solve [contra]]
    | |- rel (kws_ok _) (kws_ok _) _ _ => apply rel_kws_ok; [fn|intros|]
    | |- rel (kws_toks _) (kws_toks _) _ _ => apply rel_kws_toks; [fn|intros|]
    | W : win ?st |- rel (consume_token _) (consume_token _) _ ?st => apply rel_win_consume; [assumption|reflexivity|assumption|]
    | |- rel (consume_token LParen) (consume_token LParen) _ _ => apply rel_consume_lp; [fn|intros|intros; winx|]
    | |- rel (consume_token _) (consume_token _) _ _ => apply rel_consume; [fn|reflexivity|intros; try solve [contra]|]
    | |- rel (expect_token LParen) (expect_token LParen) _ _ => apply rel_expect_lp; [fn|intros|intros; winx]
    | |- rel (expect_token _) (expect_token _) _ _ => apply rel_expect_token; [fn|reflexivity|intros; try solve [contra]]
    | |- rel (next_kind LParen) (next_kind LParen) _ _ => apply rel_next_lp; [fn|intros|intros; winx]
    | |- rel (next_kind _) (next_kind _) _ _ => apply rel_next_kind; [fn|reflexivity|intros; try solve [contra]]
    | |- rel (match _ with _ => _ end) _ _ _ => first [progress lps | match goal with |- rel (match ?x with _ => _ end) (match ?x with _ => _ end) _ _ => destruct x eqn:? end]
    | |- rel (word_of lpt) _ _ _ => apply rel_panic
    | |- rel (word_of _) (word_of _) _ _ => apply rel_word_of; intros
    | |- rel (str_of _) (str_of _) _ _ => apply rel_str_of; intros
    | |- rel (or_err _) (or_err _) _ _ => apply rel_or_err; intros
    | |- rel (let _ := _ in _) _ _ _ => cbv zeta
    | |- rel (Next _) (Next _) _ _ => apply rel_next; [fn|intros|intros; winx|intros]
    | |- rel (Peek _) (Peek _) _ _ => apply rel_peek_raw; [fn|intros|intros]
    | |- rel (loop _ _ _) (loop _ _ _) _ _ => fail
    | |- rel _ _ _ _ => first [ eapply rel_calle; [solve [eauto with sbs]|fn|intros]
                              | eapply rel_call; [solve [eauto with sbs]|fn|intros]
                              | eapply rel_callw; [solve [eauto with sbs]|assumption|intros] ]
    end.
  Ltac go := repeat (cbn beta; go1); try fin1.
  Ltac lp R := apply (rel_loop R); [intros ? ? ? ? ?|solve [auto using rs_fuel]| |fn].

  Lemma parse_identifier_sb : sbf (fun x => x) parse_identifier parse_identifier.
  Proof. intros st F. unfold parse_identifier. go. Qed.
  Hint Resolve parse_identifier_sb : sbs.
  Lemma parse_list_of_ids_sb r r' k : (r_fuel r <= r_fuel r')%nat -> k = Comma \/ k = Period -> sbf (fun x => x) (parse_list_of_ids r k) (parse_list_of_ids r' k).
  Proof.
    intros HR HK st F. unfold parse_list_of_ids. apply (rel_loop eq); auto. intros [acc ex] s' st1 <- F1. destruct HK as [-> | ->]; go.
  Qed.
  Hint Extern 1 (sbf _ (parse_list_of_ids _ _) _) => apply parse_list_of_ids_sb; [auto using rs_fuel|auto] : sbs.
  Lemma list_of_ids_dd {B} r (g : option (list ident) -> token -> prog B) : dd (rc <- parse_list_of_ids r Comma ;; rp <- next_kind RParen ;; g rc rp).
  Proof. unfold parse_list_of_ids. destruct (r_fuel r); ddc. Qed.
  Hint Resolve list_of_ids_dd : dds.
  Lemma parse_column_names_dd r : dd (parse_column_names r).
  Proof. unfold parse_column_names, parse_list_of_ids. destruct (r_fuel r); ddc. Qed.
  Lemma parse_literal_int_dd : dd parse_literal_int.
  Proof. ddc. Qed.
  Hint Resolve parse_column_names_dd parse_literal_int_dd : dds.
  Lemma parse_column_names_sb r r' : rsb r r' -> sbf (fun x => x) (parse_column_names r) (parse_column_names r').
  Proof. intros HR. intros st F. unfold parse_column_names. go. Qed.
  Hint Resolve parse_column_names_sb : sbs.
  Lemma parse_object_name_sb r r' : rsb r r' -> sbf (fun x => x) (parse_object_name r) (parse_object_name r').
  Proof. intros HR. intros st F. unfold parse_object_name. go. Qed.
  Hint Resolve parse_object_name_sb : sbs.
  Lemma parse_literal_int_sb : sbf (fun x => x) (parse_literal_int) (parse_literal_int).
  Proof. intros st F. unfold parse_literal_int. go. Qed.
  Hint Resolve parse_literal_int_sb : sbs.
  Lemma parse_optional_precision_sb : sbf (fun x => x) (parse_optional_precision) (parse_optional_precision).
  Proof. intros st F. unfold parse_optional_precision. go. Qed.
  Hint Resolve parse_optional_precision_sb : sbs.
  Lemma parse_my_unsigned_sb : sbf (fun x => x) (parse_my_unsigned) (parse_my_unsigned).
  Proof. intros st F. unfold parse_my_unsigned. go. Qed.
  Hint Resolve parse_my_unsigned_sb : sbs.
  Lemma parse_time_zone_sb : sbf (fun x => x) (parse_time_zone) (parse_time_zone).
  Proof. intros st F. unfold parse_time_zone. go. Qed.
  Hint Resolve parse_time_zone_sb : sbs.
  Lemma parse_data_type_sb r r' : rsb r r' -> sbf (fun x => x) (parse_data_type r) (parse_data_type r').
  Proof. intros HR. intros st F. unfold parse_data_type. unfold parse_optional_precision_scale. go. Qed.
  Hint Resolve parse_data_type_sb : sbs.
  Lemma parse_optional_alias_sb l : sbf (fun x => x) (parse_optional_alias l) (parse_optional_alias l).
  Proof. intros st F. unfold parse_optional_alias. go. Qed.
  Hint Resolve parse_optional_alias_sb : sbs.
  Lemma parse_expr_sb r r' : rsb r r' -> sbe (parse_expr r) (parse_expr r').
  Proof. intros HR. apply (rs_subexpr _ _ HR). Qed.
  Lemma parse_expr_win r r' : rsb r r' -> swin (parse_expr r) (parse_expr r').
  Proof. intros HR. apply (rs_win _ _ HR). Qed.
  Hint Resolve parse_expr_sb parse_expr_win : sbs.
  Definition lrel {A} (f : A -> A) (l l' : list A) : Prop := l' = map f l.
  Ltac lfin := repeat match goal with H : lrel _ _ _ |- _ => unfold lrel in H; subst end; unfold lpost, lrel; cbn beta iota;
    repeat match goal with |- context [match ?x with _ => _ end] => destruct x end;
    (split; [try reflexivity; rewrite ?map_rev; cbn [map rev]; rewrite ?map_rev, ?map_app; reflexivity|fn]).
  Lemma parse_expr_list_sb r r' : rsb r r' -> sbf (map fil) (parse_expr_list r) (parse_expr_list r').
  Proof. intros HR. intros st F. unfold parse_expr_list. lp (lrel fil); [|reflexivity]. go; lfin. Qed.
  Hint Resolve parse_expr_list_sb : sbs.
  Lemma parse_expr_list_win r r' st : rsb r r' -> win st ->
    rel (parse_expr_list r) (parse_expr_list r') (fun a b st' => b = map fil a /\ fine st') st.
  Proof.
    intros HR W. pose proof (rs_fuel _ _ HR) as L. unfold parse_expr_list. destruct (r_fuel r) as [|n]; [apply rel_fuel|].
    destruct (r_fuel r') as [|n']; [lia|]. cbn [loop]. apply rel_bind, rel_bind. eapply rel_callw; [eauto with sbs|exact W|]. intros e.
    assert (X : forall acc acc' st', lrel fil acc acc' -> fine st' -> rel
      (loop n (fun acc => e <- parse_expr r ;; o <- peek ;;
        match o with Some t => if is_kind Comma t then must_next ;;; Ret (inl (e :: acc)) else Ret (inr (rev (e :: acc))) | None => Ret (inr (rev (e :: acc))) end) acc)
      (loop n' (fun acc => e <- parse_expr r' ;; o <- peek ;;
        match o with Some t => if is_kind Comma t then must_next ;;; Ret (inl (e :: acc)) else Ret (inr (rev (e :: acc))) | None => Ret (inr (rev (e :: acc))) end) acc')
      (fun a b st' => b = map fil a /\ fine st') st').
    { intros acc acc' st' Ha F. apply (rel_loop (lrel fil)); [intros ? ? ? ? ?|lia|exact Ha|exact F]. go; lfin. }
    go; try (apply X); go; try lfin; reflexivity.
  Qed.
  Definition swl {A B} (f : A -> B) (p : prog A) (p' : prog B) : Prop :=
    forall st, win st -> rel p p' (fun a b st' => b = f a /\ fine st') st.
  Lemma rel_calll {A B} (f : A -> B) p p' (Q : A -> B -> place -> Prop) st : swl f p p' -> win st ->
    (forall a st', fine st' -> Q a (f a) st') -> rel p p' Q st.
  Proof. intros H F HQ. eapply rel_conseq; [apply H, F|]. intros a b st' (-> & F'). apply HQ; auto. Qed.
  Lemma parse_expr_list_wl r r' : rsb r r' -> swl (map fil) (parse_expr_list r) (parse_expr_list r').
  Proof. intros HR st W. apply parse_expr_list_win; auto. Qed.
  Hint Resolve parse_expr_list_wl : sbs.
  Ltac gow := repeat (cbn beta; first [go1 | eapply rel_calll; [solve [eauto with sbs]|assumption|intros]]).
  Ltac goo := gow; try fin1.
  Lemma parse_optional_args_sb r r' : rsb r r' -> sbf (map fil) (parse_optional_args r) (parse_optional_args r').
  Proof. intros HR. intros st F. unfold parse_optional_args. goo. Qed.
  Hint Resolve parse_optional_args_sb : sbs.
  Lemma parse_optional_args_wl r r' : rsb r r' -> swl (map fil) (parse_optional_args r) (parse_optional_args r').
  Proof. intros HR st W. unfold parse_optional_args. goo. Qed.
  Hint Resolve parse_optional_args_wl : sbs.
  Lemma parse_order_by_list_sb r r' : rsb r r' -> sbf (map (fill_orderby vs aa)) (parse_order_by_list r) (parse_order_by_list r').
  Proof. intros HR. intros st F. unfold parse_order_by_list. lp (lrel (fill_orderby vs aa)); [|reflexivity]. goo; lfin. Qed.
  Hint Resolve parse_order_by_list_sb : sbs.
  Lemma parse_window_frame_bound_sb : sbf (fun x => x) (parse_window_frame_bound) (parse_window_frame_bound).
  Proof. intros st F. unfold parse_window_frame_bound. goo. Qed.
  Hint Resolve parse_window_frame_bound_sb : sbs.
  Lemma parse_window_frame_sb : sbf (fun x => x) (parse_window_frame) (parse_window_frame).
  Proof. intros st F. unfold parse_window_frame. goo. Qed.
  Hint Resolve parse_window_frame_sb : sbs.
  Ltac nvf := intros ? ?; discriminate.
  Ltac goe := goo; try solve [split; [reflexivity|split; [fn|nvf]]].
  Lemma parse_function_sb r r' n : rsb r r' -> sbe (parse_function r n) (parse_function r' n).
  Proof. intros HR. intros st F. unfold parse_function. goe. Qed.
  Hint Resolve parse_function_sb : sbs.
  Lemma fil_string f t s : s <> vs -> fil (EString f t s) = EString f t s.
  Proof. intros N. cbn [fill_node]. destruct (gs_eqb s vs) eqn:G; [apply gs_eqb_eq in G; contradiction|reflexivity]. Qed.
  Lemma parse_value_sb : sbe (parse_value) (parse_value).
  Proof. intros st F. unfold parse_value. goe. all: match goal with G : good ?x, K : tkind ?x = SingleQuotedString, V : tval ?x = VStr ?w |- _ => assert (w <> vs) by (intros ->; exact (G K V)); split; [symmetry; apply fil_string; assumption|split; [fn|intros ? ? EE; congruence]] end. Qed.
  Hint Resolve parse_value_sb : sbs.
  Ltac lpc f := eapply (rel_conseq _ _ (fun a b st' => b = map f a /\ fine st')); [lp (lrel f); [|reflexivity]; goo; lfin|intros ? ? ? [-> ?]].
  Definition filb (b : node * node) : node * node := (fil (fst b), fil (snd b)).
  Lemma parse_case_sb r r' : rsb r r' -> sbe (parse_case r) (parse_case r').
  Proof. intros HR. intros st F. unfold parse_case. goe; lpc filb; goe. Qed.
  Hint Resolve parse_case_sb : sbs.
  Lemma parse_cast_sb r r' : rsb r r' -> sbe (parse_cast r) (parse_cast r').
  Proof. intros HR. intros st F. unfold parse_cast. goe. Qed.
  Hint Resolve parse_cast_sb : sbs.
  Lemma parse_exists_sb r r' o : rsb r r' -> sbe (parse_exists r o) (parse_exists r' o).
  Proof. intros HR. intros st F. unfold parse_exists. destruct o; goe. Qed.
  Hint Resolve parse_exists_sb : sbs.
  Lemma rel_get_precedence x (Q : Z -> Z -> place -> Prop) st : (forall p, Q p p st) -> rel (get_precedence x) (get_precedence x) Q st.
  Proof. intros HQ. unfold get_precedence. goo; apply HQ. Qed.
  Lemma rel_get_next_precedence (Q : Z -> Z -> place -> Prop) st : fine st -> (forall p, Q p p st) -> rel get_next_precedence get_next_precedence Q st.
  Proof. intros F HQ. unfold get_next_precedence. apply rel_bind, rel_peek; intros; [fn|apply rel_get_precedence, HQ|apply rel_ret, HQ]. Qed.
  Lemma parse_in_sb r r' e b : rsb r r' -> sbe (parse_in r e b) (parse_in r' (fil e) b).
  Proof. intros HR. intros st F. unfold parse_in. goe. Qed.
  Hint Resolve parse_in_sb : sbs.
  Lemma parse_dotted_sb r r' i : rsb r r' -> sbf (fun x => x) (parse_dotted r i) (parse_dotted r' i).
  Proof. intros HR. intros st F. unfold parse_dotted. apply (rel_loop eq); [intros ? ? ? <- ?|auto using rs_fuel|reflexivity|fn]. goo. Qed.
  Hint Resolve parse_dotted_sb : sbs.
  Lemma parse_prefix_sb r r' : rsb r r' -> sbe (parse_prefix r) (parse_prefix r').
  Proof. intros HR. intros st F. unfold parse_prefix. goe. Qed.
  Hint Resolve parse_prefix_sb : sbs.
  Lemma parse_between_sb r r' e b : rsb r r' -> sbe (parse_between r e b) (parse_between r' (fil e) b).
  Proof. intros HR. intros st F. unfold parse_between. goe. Qed.
  Hint Resolve parse_between_sb : sbs.
  Lemma infix_operator_sb x : sbf (fun x => x) (infix_operator x) (infix_operator x).
  Proof. intros st F. unfold infix_operator. go. Qed.
  Hint Resolve infix_operator_sb : sbs.
  Lemma parse_infix_sb r r' e p : rsb r r' -> sbe (parse_infix r e p) (parse_infix r' (fil e) p).
  Proof. intros HR. intros st F. unfold parse_infix, infix_operator. goe. Qed.
  Hint Resolve parse_infix_sb : sbs.
  Definition erel (e e' : node) : Prop := e' = fil e /\ nv e.
  Lemma infix_loop_sb r r' p e : rsb r r' -> nv e -> sbe (infix_loop r p e) (infix_loop r' p (fil e)).
  Proof.
    intros HR N st F. unfold infix_loop. apply (rel_loop erel); [intros s s' st1 [-> N1] F1|auto using rs_fuel|split; auto|fn].
    apply rel_bind, rel_get_next_precedence; [fn|]. intros q. goe; cbn; unfold erel; auto.
  Qed.
  Hint Resolve infix_loop_sb : sbs.
  Lemma parse_subexpr_sb r r' p : rsb r r' -> sbe (parse_subexpr r p) (parse_subexpr r' p).
  Proof. intros HR. intros st F. unfold parse_subexpr. goe. Qed.
  Hint Resolve parse_subexpr_sb : sbs.
  Lemma parse_default_expr_sb r r' : rsb r r' -> sbe (parse_default_expr r) (parse_default_expr r').
  Proof. intros HR. intros st F. unfold parse_default_expr. goe. apply (rel_loop erel); [intros s s' st1 [-> N1] F1|auto using rs_fuel|split; auto|fn].
    goe; try (apply rel_get_next_precedence; [fn|]; intros q; goe); cbn; unfold erel; auto. Qed.
  Hint Resolve parse_default_expr_sb : sbs.
  Lemma parse_limit_sb : sbf (fun x => x) (parse_limit) (parse_limit).
  Proof. intros st F. unfold parse_limit. go. Qed.
  Hint Resolve parse_limit_sb : sbs.
  Lemma parse_table_factor_sb r r' : rsb r r' -> sbf (fill_tableref vs aa) (parse_table_factor r) (parse_table_factor r').
  Proof. intros HR. intros st F. unfold parse_table_factor. goo. Qed.
  Hint Resolve parse_table_factor_sb : sbs.
  Lemma parse_join_type_sb : sbf (fun x => x) (parse_join_type) (parse_join_type).
  Proof. intros st F. unfold parse_join_type. go. Qed.
  Hint Resolve parse_join_type_sb : sbs.
  Lemma parse_join_spec_sb r r' : rsb r r' -> sbf (fill_joinspec vs aa) (parse_join_spec r) (parse_join_spec r').
  Proof. intros HR. intros st F. unfold parse_join_spec. goo. Qed.
  Hint Resolve parse_join_spec_sb : sbs.
  Definition fill_right (x : rightpart) : rightpart :=
    match x with
    | RNatural ty t => RNatural ty (fill_tableref vs aa t)
    | RCross t => RCross (fill_tableref vs aa t)
    | RQualified ty t s => RQualified ty (fill_tableref vs aa t) (fill_joinspec vs aa s)
    end.
  Lemma parse_table_reference_right_sb r r' : rsb r r' -> sbf (option_map fill_right) (parse_table_reference_right r) (parse_table_reference_right r').
  Proof. intros HR. intros st F. unfold parse_table_reference_right. goo. Qed.
  Hint Resolve parse_table_reference_right_sb : sbs.
  Lemma parse_table_reference_sb r r' : rsb r r' -> sbf (fill_tableref vs aa) (parse_table_reference r) (parse_table_reference r').
  Proof. intros HR. intros st F. unfold parse_table_reference. goo. apply (rel_loop (fun e e' => e' = fill_tableref vs aa e)); [intros e e' st1 -> F1|auto using rs_fuel|reflexivity|fn].
    goo. match goal with |- lpost _ _ (match ?x with _ => _ end) _ _ => destruct x as [[]|] end; cbn; auto. Qed.
  Hint Resolve parse_table_reference_sb : sbs.
  Lemma parse_from_clause_sb r r' : rsb r r' -> sbf (map (fill_tableref vs aa)) (parse_from_clause r) (parse_from_clause r').
  Proof. intros HR. intros st F. unfold parse_from_clause. goo. lp (lrel (fill_tableref vs aa)); [|reflexivity]. goo; lfin. Qed.
  Hint Resolve parse_from_clause_sb : sbs.
  Lemma parse_select_list_sb r r' : rsb r r' -> sbf (map (fill_selitem vs aa)) (parse_select_list r) (parse_select_list r').
  Proof. intros HR. intros st F. unfold parse_select_list. lp (lrel (fill_selitem vs aa)); [|reflexivity].
    apply rel_bind. eapply rel_calle; [eauto with sbs|fn|]. intros e st1 F1 N.
    assert (X : (exists l, e = EQualWildcard l) \/ ((forall l, e <> EQualWildcard l) /\ forall l, fil e <> EQualWildcard l)).
    { destruct e; try (right; split; intros; discriminate); [left; eauto|right; split; intros; [discriminate|]].
      rewrite fil_string; [discriminate|]. intros ->. eapply N; reflexivity. }
    destruct X as [(l & ->)|[X1 X2]]; [cbn [fill_node]; goo; lfin|].
    assert (Y : forall B (P : list ident -> B) x z, (forall l, z <> EQualWildcard l) -> match z with EQualWildcard l => P l | _ => x end = x).
    { intros B P x z Hz. destruct z; try reflexivity. edestruct Hz; reflexivity. }
    rewrite (Y _ _ _ _ X1), (Y _ _ _ _ X2). goo; lfin. Qed.
  Hint Resolve parse_select_list_sb : sbs.
  Lemma parse_select_sb r r' p : rsb r r' -> sbf (fill_select vs aa) (parse_select r p) (parse_select r' p).
  Proof. intros HR. intros st F. unfold parse_select. goo. Qed.
  Hint Resolve parse_select_sb : sbs.
  Lemma body_loop_sb r r' p e : rsb r r' -> sbf (fill_setexpr vs aa) (body_loop r p e) (body_loop r' p (fill_setexpr vs aa e)).
  Proof.
    intros HR st F. unfold body_loop. apply (rel_loop (fun e e' => e' = fill_setexpr vs aa e)); [intros s s' st1 -> F1|auto using rs_fuel|reflexivity|fn].
    apply rel_bind, rel_peek; [fn|intros x st' T E G|intros E]; unfold parse_set_operator; goo.
  Qed.
  Lemma body_loop_sb2 r r' p e e' : rsb r r' -> e' = fill_setexpr vs aa e -> sbf (fill_setexpr vs aa) (body_loop r p e) (body_loop r' p e').
  Proof. intros HR ->. apply body_loop_sb, HR. Qed.
  Hint Extern 1 (sbf _ (body_loop _ _ _) _) => eapply body_loop_sb2; [eassumption|reflexivity] : sbs.
  Lemma parse_query_body_sb r r' p : rsb r r' -> sbf (fill_setexpr vs aa) (parse_query_body r p) (parse_query_body r' p).
  Proof. intros HR. intros st F. unfold parse_query_body. goo. Qed.
  Hint Resolve parse_query_body_sb : sbs.
  Lemma parse_cte_list_sb r r' : rsb r r' -> sbf (map (fill_cte vs aa)) (parse_cte_list r) (parse_cte_list r').
  Proof. intros HR. intros st F. unfold parse_cte_list. lp (lrel (fill_cte vs aa)); [|reflexivity]. goo; lfin. Qed.
  Hint Resolve parse_cte_list_sb : sbs.
  Lemma parse_query_sb r r' : rsb r r' -> sbf (fill_query vs aa) (parse_query r) (parse_query r').
  Proof. intros HR. intros st F. unfold parse_query. goo. Qed.
  Hint Resolve parse_query_sb : sbs.
  Lemma parse_table_constraints_sb r r' : rsb r r' -> sbf (fill_tc vs aa) (parse_table_constraints r) (parse_table_constraints r').
  Proof. intros HR. intros st F. unfold parse_table_constraints. goo. Qed.
  Hint Resolve parse_table_constraints_sb : sbs.
  Lemma parse_column_constraints_sb r r' : rsb r r' -> sbf (map (fill_cc vs aa)) (parse_column_constraints r) (parse_column_constraints r').
  Proof. intros HR. intros st F. unfold parse_column_constraints, parse_column_spec. lp (lrel (fill_cc vs aa)); [|reflexivity]. goo; lfin. Qed.
  Hint Resolve parse_column_constraints_sb : sbs.
  Definition fill_def (x : option node * list colconstraint * list decoration) : option node * list colconstraint * list decoration :=
    match x with (d, c, l) => (option_map fil d, map (fill_cc vs aa) c, l) end.
  Lemma parse_column_definition_sb r r' : rsb r r' -> sbf fill_def (parse_column_definition r) (parse_column_definition r').
  Proof. intros HR. intros st F. unfold parse_column_definition. apply (rel_loop (fun e e' => e' = fill_def e)); [intros [[def specs] decs] s' st1 -> F1|auto using rs_fuel|reflexivity|fn].
    cbn [fill_def]. goo. Qed.
  Hint Resolve parse_column_definition_sb : sbs.
  Lemma parse_column_def_sb r r' : rsb r r' -> sbf (fill_coldef vs aa) (parse_column_def r) (parse_column_def r').
  Proof. intros HR. intros st F. unfold parse_column_def. goo.
    match goal with |- context [fill_def ?x] => destruct x as [[def specs] decs] end. cbn [fill_def]. goo. Qed.
  Hint Resolve parse_column_def_sb : sbs.
  Lemma parse_elements_sb r r' : rsb r r' -> sbf (map (fill_element vs aa)) (parse_elements r) (parse_elements r').
  Proof. intros HR. intros st F. unfold parse_elements. goo; try (apply rel_dead; [assumption|apply dd_loop; ddc]); try (lp (lrel (fill_element vs aa)); [|reflexivity]; goo; lfin). Qed.
  Hint Resolve parse_elements_sb : sbs.
  Lemma parse_option_value_sb : sbf (fun x => x) (parse_option_value) (parse_option_value).
  Proof. intros st F. unfold parse_option_value. go. Qed.
  Hint Resolve parse_option_value_sb : sbs.
  Lemma parse_table_option_sb : sbf (fun x => x) (parse_table_option) (parse_table_option).
  Proof. intros st F. unfold parse_table_option. go. Qed.
  Hint Resolve parse_table_option_sb : sbs.
  Lemma parse_table_options_sb r r' : rsb r r' -> sbf (fun x => x) (parse_table_options r) (parse_table_options r').
  Proof.
    intros HR st F. unfold parse_table_options. apply (rel_loop eq); [intros s s' st1 <- F1|auto using rs_fuel|reflexivity|fn]. goo.
  Qed.
  Hint Resolve parse_table_options_sb : sbs.
  Lemma parse_create_table_sb r r' c : rsb r r' -> sbf (fill_stmt vs aa) (parse_create_table r c) (parse_create_table r' c).
  Proof. intros HR. intros st F. unfold parse_create_table. goo. Qed.
  Hint Resolve parse_create_table_sb : sbs.
  Lemma parse_create_view_sb r r' c : rsb r r' -> sbf (fill_stmt vs aa) (parse_create_view r c) (parse_create_view r' c).
  Proof. intros HR. intros st F. unfold parse_create_view. goo. Qed.
  Hint Resolve parse_create_view_sb : sbs.
  Lemma parse_create_index_sb r r' b : rsb r r' -> sbf (fill_stmt vs aa) (parse_create_index r b) (parse_create_index r' b).
  Proof. intros HR. intros st F. unfold parse_create_index. goo. Qed.
  Hint Resolve parse_create_index_sb : sbs.
  Lemma parse_create_sb r r' : rsb r r' -> sbf (fill_stmt vs aa) (parse_create r) (parse_create r').
  Proof. intros HR. intros st F. unfold parse_create. goo. Qed.
  Hint Resolve parse_create_sb : sbs.
  Lemma parse_delete_sb r r' : rsb r r' -> sbf (fill_stmt vs aa) (parse_delete r) (parse_delete r').
  Proof. intros HR. intros st F. unfold parse_delete. goo. Qed.
  Hint Resolve parse_delete_sb : sbs.
  Lemma parse_assignments_sb r r' : rsb r r' -> sbf (map (fill_assign vs aa)) (parse_assignments r) (parse_assignments r').
  Proof. intros HR. intros st F. unfold parse_assignments. lp (lrel (fill_assign vs aa)); [|reflexivity]. goo; lfin. Qed.
  Hint Resolve parse_assignments_sb : sbs.
  Lemma parse_update_sb r r' : rsb r r' -> sbf (fill_stmt vs aa) (parse_update r) (parse_update r').
  Proof. intros HR. intros st F. unfold parse_update. goo. Qed.
  Hint Resolve parse_update_sb : sbs.
  Lemma parse_rows_sb r r' : rsb r r' -> sbf (map (fill_row vs aa)) (parse_rows r) (parse_rows r').
  Proof. intros HR. intros st F. unfold parse_rows. lp (lrel (fill_row vs aa)); [|reflexivity]. goo; lfin. Qed.
  Hint Resolve parse_rows_sb : sbs.
  Lemma parse_insert_sb r r' : rsb r r' -> sbf (fill_stmt vs aa) (parse_insert r) (parse_insert r').
  Proof. intros HR. intros st F. unfold parse_insert. goo. Qed.
  Hint Resolve parse_insert_sb : sbs.
  Lemma parse_alter_column_sb r r' t : rsb r r' -> sbf (fill_ataction vs aa) (parse_alter_column r t) (parse_alter_column r' t).
  Proof. intros HR. intros st F. unfold parse_alter_column. goo. Qed.
  Hint Resolve parse_alter_column_sb : sbs.
  Lemma parse_cascade_sb : sbf (fun x => x) (parse_cascade) (parse_cascade).
  Proof. intros st F. unfold parse_cascade. go. Qed.
  Hint Resolve parse_cascade_sb : sbs.
  Lemma parse_alter_sb r r' : rsb r r' -> sbf (fill_stmt vs aa) (parse_alter r) (parse_alter r').
  Proof. intros HR. intros st F. unfold parse_alter. goo. Qed.
  Hint Resolve parse_alter_sb : sbs.
  Lemma parse_drop_sb r r' : rsb r r' -> sbf (fill_stmt vs aa) (parse_drop r) (parse_drop r').
  Proof. intros HR. intros st F. unfold parse_drop. goo. Qed.
  Hint Resolve parse_drop_sb : sbs.
  Lemma parse_statement_sb r r' : rsb r r' -> sbf (fill_stmt vs aa) (parse_statement r) (parse_statement r').
  Proof. intros HR. intros st F. unfold parse_statement. goo. Qed.
  Hint Resolve parse_statement_sb : sbs.
  Lemma parse_sql_sb r r' : rsb r r' -> sbf (map (fill_stmt vs aa)) (parse_sql false r) (parse_sql false r').
  Proof.
    intros HR st F. unfold parse_sql.
    apply (rel_loop (fun e e' => e' = (map (fill_stmt vs aa) (fst e), snd e))); [intros [acc ex] s' st1 -> F1|auto using rs_fuel|reflexivity|fn].
    cbn [fst snd]. goo; lfin.
  Qed.

  (** Enough fuel for the expression. *)
  Variable K : nat.
  Hypothesis He : forall m D R, (K <= m)%nat ->
    run fm_machine (r_subexpr (knot m) 0) (D, (x0 :: ee) ++ rpt :: R) = Ok aa (rev (x0 :: ee) ++ D, rpt :: R).
  Lemma knot_win m : swin (r_subexpr (knot m) 0) (r_subexpr (knot (m + K)) 0).
  Proof.
    intros st (d & -> & Hd) a b [-> ->] v a' R. cbn [app] in R.
    change ([] ++ (x0 :: ee) ++ rpt :: post) with ((x0 :: ee) ++ rpt :: post). rewrite He by lia.
    assert (L : v = EString pv1 pv2 vs /\ a' = (vt :: d, rpt :: post)).
    { destruct m as [|[|m]]; [discriminate R..|]. cbn [knot r_subexpr] in R. change (Ok (EString pv1 pv2 vs) (vt :: d, rpt :: post) = Ok v a') in R.
      injection R as <- <-. auto. }
    destruct L as [-> ->]. exists aa, (rev (x0 :: ee) ++ d, rpt :: post), after. split; [reflexivity|]. split.
    - unfold after. cbn [at_place app]. rewrite <- Hd, rev_involutive. auto.
    - split; [|reflexivity]. cbn [fill_node]. replace (gs_eqb vs vs) with true by (symmetry; apply gs_eqb_eq; reflexivity). reflexivity.
  Qed.
  Lemma knot_dead m : dd (r_query (knot m)).
  Proof. destruct m; [ddc|]. cbn [knot r_query]. unfold parse_query, parse_query_body. ddc. Qed.
  Lemma knot_rsb m : rsb (knot m) (knot (m + K)).
  Proof.
    induction m as [|m IH].
    - constructor; try (intros; intros ? ?; apply rel_fuel); [cbn; lia|apply (knot_dead 0)].
    - constructor; [cbn; lia|..|apply (knot_win (S m))|apply (knot_dead (S m))]; cbn [Nat.add knot r_fuel r_stmt r_query r_body r_subexpr r_tref]; auto with sbs.
  Qed.
  Theorem fill_run {A} (P : rec -> prog A) (f : A -> A) : (forall r r', rsb r r' -> sbf f (P r) (P r')) ->
    forall n a s, run fm_machine (P (knot n)) ([], pre0 ++ lpt :: vt :: rpt :: post) = Ok a s ->
    exists s' st, run fm_machine (P (knot (n + K))) ([], pre0 ++ lpt :: (x0 :: ee) ++ rpt :: post) = Ok (f a) s' /\ at_place st s s' /\ fine st.
  Proof.
    intros HP n a s R.
    assert (F : fine (SB [] pre)) by (split; [reflexivity|]; unfold pre; destruct pre0; discriminate).
    destruct (HP _ _ (knot_rsb n) _ F ([], pre0 ++ lpt :: vt :: rpt :: post) ([], pre0 ++ lpt :: (x0 :: ee) ++ rpt :: post)) with (v := a) (a' := s)
      as (b & s' & st & R2 & HS & -> & F'); [|exact R|eauto].
    cbn [at_place]. unfold pre. rewrite <- !app_assoc. auto.
  Qed.
End Rel.
