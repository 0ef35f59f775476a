(** Proofs for C66. *)
From Coq Require Import ZArith List Bool String Lia.
From Verif Require Import Base Dialect Token Lexer LexSpec AST Num Prog Parser Erase ParseSpec RoundSpec Wp Term Natural Sim ErId ParserThms SqlThms SrcThms ApiThms
  LexThms CutSpec CutThms LookSpec LookThms WallSpec WallWalk.
Import ListNotations.
Open Scope Z_scope.

Lemma kws_match_wall w ks : forall t y, (forall k, is_kw k w = false) ->
  kws_match ks (t ++ w :: y) = match kws_match ks t with Some l => Some l | None => None end.
Proof.
  induction ks as [|k ks IH]; intros t y H; [reflexivity|]. destruct t as [|x t]; cbn [app kws_match].
  - rewrite H. reflexivity.
  - rewrite IH by exact H. destruct (is_kw k x); [|reflexivity]. destruct (kws_match ks t); reflexivity.
Qed.

Section Run.
  Variables (sv : gostring) (sf se : pos).
  Notation w := (wtok sv sf se).
  Definition at_wall (d t : toks) (b : bool) (y : toks) : rstate := if b then (w :: d, y) else (d, t ++ w :: y).

  (** What is behind the semicolon makes no difference. *)
  Lemma wd_run {A} (p : prog A) (Q : A -> toks -> toks -> bool -> Prop) : forall d t b, (b = true -> t = []) -> wd sv sf se p Q d t b ->
    (exists a d' t' b', Q a d' t' b' /\ forall y, run fm_machine p (at_wall d t b y) = Ok a (at_wall d' t' b' y)) \/
    (exists o, match o with Ok _ _ => False | _ => True end /\ forall y, run fm_machine p (at_wall d t b y) = o).
  Proof.
    assert (KW : forall k, is_kw k w = false) by reflexivity.
    induction p as [a0| |x0| |k IH|k IH|k IH|ks k IH]; intros d t b B W; cbn [run wd] in *.
    - left. exists a0, d, t, b. auto.
    - right. exists OErr. auto.
    - right. exists (OPanic x0). auto.
    - right. exists OFuel. auto.
    - destruct b; [contradiction|]. destruct t as [|x t].
      + destruct (IH (Some w) d [] true ltac:(auto) W) as [H|H]; [left|right]; exact H.
      + destruct (IH (Some x) (x :: d) t false ltac:(discriminate) W) as [H|H]; [left|right]; exact H.
    - destruct b; [contradiction|]. destruct t as [|x t].
      + destruct (IH (Some w) d [] false ltac:(discriminate) W) as [H|H]; [left|right]; exact H.
      + destruct (IH (Some x) d (x :: t) false ltac:(discriminate) W) as [H|H]; [left|right]; exact H.
    - destruct b.
      + rewrite (B eq_refl) in *. destruct (IH d [] false ltac:(discriminate) W) as [H|H]; [left|right]; exact H.
      + destruct d as [|x d].
        * right. exists (OPanic PNil). auto.
        * destruct (IH d (x :: t) false ltac:(discriminate) W) as [H|H]; [left|right]; exact H.
    - destruct b; [contradiction|]. unfold at_wall in *.
      destruct (kws_match ks t) as [l|] eqn:E.
      + destruct (kws_match_spec _ _ _ E) as [E1 E2].
        assert (R : forall y, run fm_machine (Kws ks k) (d, t ++ w :: y) = run fm_machine (k (Some l)) (rev l ++ d, skipn (List.length l) t ++ w :: y)).
        { intros y. cbn [run]. rewrite run_kws_fm. cbn [fst snd]. rewrite kws_match_wall, E by exact KW. cbn [rev app].
          f_equal. f_equal. rewrite E1 at 1. rewrite <- app_assoc, skipn_app, skipn_all, Nat.sub_diag. reflexivity. }
        destruct (IH (Some l) (rev l ++ d) (skipn (List.length l) t) false ltac:(discriminate) W) as [(a & d' & t' & b' & HQ & H)|(o & Ho & H)].
        * left. exists a, d', t', b'. split; [exact HQ|]. intros y. exact (eq_trans (R y) (H y)).
        * right. exists o. split; [exact Ho|]. intros y. exact (eq_trans (R y) (H y)).
      + assert (R : forall y, run fm_machine (Kws ks k) (d, t ++ w :: y) = run fm_machine (k None) (d, t ++ w :: y)).
        { intros y. cbn [run]. rewrite run_kws_fm. cbn [fst snd]. rewrite kws_match_wall, E by exact KW. reflexivity. }
        destruct (IH None d t false ltac:(discriminate) W) as [(a & d' & t' & b' & HQ & H)|(o & Ho & H)].
        * left. exists a, d', t', b'. split; [exact HQ|]. intros y. exact (eq_trans (R y) (H y)).
        * right. exists o. split; [exact Ho|]. intros y. exact (eq_trans (R y) (H y)).
  Qed.
End Run.

Lemma semi_tok x : tok_wf x -> tkind x = Semicolon -> exists sv sf se, x = wtok sv sf se.
Proof.
  intros W K. destruct x as [k v f e]. cbn in K. subst k. unfold tok_wf in W. cbn in W. destruct v as [v|v]; [contradiction|].
  exists v, f, e. reflexivity.
Qed.

Lemma to_semi_split (ts : toks) u : to_semi (map kv ts) = Some u ->
  exists u0 x y, ts = u0 ++ x :: y /\ tkind x = Semicolon /\ u = map kv (u0 ++ [x]).
Proof.
  revert u. induction ts as [|x ts IH]; intros u E; [discriminate|]. cbn [map to_semi] in E. change (kv x) with (tkind x, tval x) in E. cbv iota beta in E.
  destruct (kind_eqb (tkind x) Semicolon) eqn:K.
  - injection E as <-. exists [], x, ts. repeat split. destruct (tkind x); try discriminate. reflexivity.
  - destruct (to_semi (map kv ts)) as [u'|] eqn:E'; cbn [option_map] in E; [|discriminate E]. injection E as <-.
    destruct (IH u' eq_refl) as (u0 & z & y & -> & Kz & ->). exists (x :: u0), z, y. repeat split. exact Kz.
Qed.

Section Method.
  Context {A : Type} (P : rec -> prog A) (erA : (pos -> pos) -> (rune -> rune) -> A -> A) (k : nat).
  Hypothesis HP : entry P erA k.
  Hypothesis HW : forall sv sf se n, wall sv sf se (P (knot n)).

  Lemma base_wall u0 x y y' : Forall tok_wf (u0 ++ x :: y) -> Forall tok_wf (u0 ++ x :: y') -> tkind x = Semicolon ->
    match base P (u0 ++ x :: y), base P (u0 ++ x :: y') with
    | Ok a st, Ok b st' => a = b /\ exists t', snd st = t' ++ x :: y /\ snd st' = t' ++ x :: y' /\ fst st = fst st'
    | OErr, OErr => True
    | OPanic p, OPanic p' => p = p'
    | _, _ => False
    end.
  Proof.
    intros W W' K. assert (Wx : tok_wf x) by (apply Forall_app in W; destruct W as [_ W]; inversion W; auto).
    destruct (semi_tok x Wx K) as (sv & sf & se & ->).
    set (n := Nat.max (S (S (len (u0 ++ wtok sv sf se :: y)))) (S (S (len (u0 ++ wtok sv sf se :: y'))))).
    pose proof (base_fuel P erA k HP _ n [] W ltac:(lia)) as R. pose proof (base_fuel P erA k HP _ n [] W' ltac:(lia)) as R'.
    pose proof (base_spec P erA k HP _ W) as B. pose proof (base_spec P erA k HP _ W') as B'.
    destruct (wd_run sv sf se (P (knot n)) _ [] u0 false ltac:(discriminate) (HW sv sf se n [] u0)) as [(a & d' & t' & b' & -> & H)|(o & Ho & H)];
      pose proof (H y) as H1; pose proof (H y') as H2; unfold at_wall in H1, H2; rewrite H1 in R; rewrite H2 in R'.
    - destruct (base P (u0 ++ wtok sv sf se :: y)) as [a1 [s1 s2]| | |]; try discriminate R.
      destruct (base P (u0 ++ wtok sv sf se :: y')) as [a2 [s3 s4]| | |]; try discriminate R'.
      cbn [frame fst snd] in *. rewrite app_nil_r in *. injection R as <- <- <-. injection R' as <- <- <-.
      split; [reflexivity|]. exists t'. auto.
    - destruct (base P (u0 ++ wtok sv sf se :: y)) as [a1 [s1 s2]| | |]; cbn [frame] in R; subst o; try contradiction;
        destruct (base P (u0 ++ wtok sv sf se :: y')) as [a2 [s3 s4]| | |]; cbn [frame] in R'; try discriminate R'; try contradiction; auto.
      congruence.
  Qed.

  Lemma call_wall done todo done' todo' u : Forall tok_wf todo -> Forall tok_wf todo' ->
    to_semi (map kv (fsig todo)) = Some u -> to_semi (map kv (fsig todo')) = Some u ->
    same_call (erA no_pos same_rune) (List.length u) todo todo' (call P done todo) (call P done' todo').
  Proof.
    intros W W' E E'. destruct (to_semi_split _ _ E) as (u0 & x & y & F & K & ->).
    destruct (to_semi_split _ _ E') as (u1 & x1 & y' & F' & K' & Eu).
    pose proof (fsig_wf _ W) as V. pose proof (fsig_wf _ W') as V'.
    assert (L0 : len u0 = len u1).
    { apply (f_equal (@List.length _)) in Eu. rewrite !map_length, !app_length in Eu. cbn in Eu. lia. }
    assert (V2 : Forall tok_wf (u0 ++ x :: y')).
    { rewrite F in V. rewrite F' in V'. apply Forall_app in V as [V1 V]. apply Forall_app in V' as [_ V']. apply Forall_app. split; [exact V1|].
      inversion V; subst. inversion V'; subst. constructor; auto. }
    assert (E2 : map kv (u0 ++ x :: y') = map kv (fsig todo')).
    { rewrite F'. change (u0 ++ x :: y') with (u0 ++ [x] ++ y'). change (u1 ++ x1 :: y') with (u1 ++ [x1] ++ y').
      rewrite !app_assoc, !(map_app _ _ y'), Eu. reflexivity. }
    pose proof (base_wall u0 x y y' ltac:(rewrite <- F; exact V) V2 K) as B. rewrite <- F in B.
    pose proof (base_er P erA k HP no_pos same_rune no_pos same_rune _ (fsig todo') eq_refl gok_same eq_refl gok_same V2 V' (kv_er _ _ E2)) as B3.
    pose proof (call_agrees P erA k HP done todo W) as A1. pose proof (call_agrees P erA k HP done' todo' W') as A2.
    pose proof (base_spec P erA k HP _ V) as S1. pose proof (base_spec P erA k HP _ V') as S2.
    unfold agrees in A1, A2. unfold same_call. rewrite !sig_fsig.
    destruct (base P (fsig todo)) as [a1 [p1 r1]| | |], (base P (u0 ++ x :: y')) as [a2 [p2 r2]| | |]; try contradiction;
      destruct (base P (fsig todo')) as [a3 [p3 r3]| | |]; try contradiction;
      destruct (call P done todo) as [a [q1 q2]| | |]; try contradiction;
      destruct (call P done' todo') as [b [q3 q4]| | |]; try contradiction; auto; try congruence.
    cbn [fst snd] in *. destruct B as (-> & t' & -> & -> & ->). destruct A1 as (-> & _ & G1). destruct A2 as (-> & _ & G2).
    destruct B3 as [B3 B4]. split; [exact B3|]. destruct S1 as [S1 _]. destruct S2 as [S2 _].
    exists (len p2). change (sig q2) with (fsig q2). change (sig q4) with (fsig q4). change (sig todo) with (fsig todo). change (sig todo') with (fsig todo'). rewrite G1, G2, map_length.
    assert (L : len p3 = len p2).
    { unfold er_st in B4. cbn [fst snd] in B4. injection B4 as B4 _.
      rewrite <- (map_length (er_tok no_pos same_rune) p3), <- B4, map_length. reflexivity. }
    pose proof (f_equal (@List.length _) S1) as L1. pose proof (f_equal (@List.length _) S2) as L2. rewrite F in L1.
    rewrite !app_length, !rev_length in *. cbn [List.length] in *. rewrite F. rewrite !app_length in *. cbn [List.length] in *. lia.
  Qed.
End Method.

Lemma wall_calls {A} (P : rec -> prog A) erA K : looks P erA K ->
  forall done todo done' todo' u, Forall tok_wf todo -> Forall tok_wf todo' ->
  to_semi (left_over todo) = Some u -> to_semi (left_over todo') = Some u ->
  same_call (erA no_pos same_rune) (List.length u) todo todo' (call P done todo) (call P done' todo').
Proof.
  intros L done todo done' todo' u W W' E E'. unfold left_over in *. rewrite !sig_fsig in E, E'. destruct L.
  - apply (call_wall parse_expr er_node 1 entry_expr); auto. intros. apply parse_expr_wall, knot_rw.
  - apply (call_wall parse_data_type er_dtype 1 entry_dtype); auto. intros. apply parse_data_type_wall.
  - apply (call_wall parse_statement er_stmt 1 entry_stmt); auto. intros. apply parse_statement_wall; [apply knot_rw|apply knot_stmt_wall].
Qed.

(** * Scripts *)
Lemma lex_join d a b ta tb : dialect_ok d -> tokenize d true a = TOk ta -> tokenize d true b = TOk tb -> skip_bom b = b ->
  exists tx m, tokenize d true (a ++ 10 :: b) = TOk (tx ++ m) /\ map kv (sig tx) = map kv (sig ta) /\ map kv m = map kv tb.
Proof.
  intros D Ta Tb Eb. destruct (tokenize_reads d a ta D Ta) as (l & R & ->).
  destruct (join_lex d a l b D R) as (lx & Rx & Ex).
  assert (R0 : LexSpec.reads d start_pos (skip_bom b) [] b) by (rewrite Eb; constructor).
  pose proof (tokenize_tail d _ _ lx [] b D Rx R0) as T. rewrite Tb in T.
  destruct (tokenize d true (a ++ 10 :: b)) as [ts| | |] eqn:T1; try contradiction.
  destruct T as (m & m' & -> & E2 & E3 & _). cbn in E2. subst tb. exists (map fst lx), m. auto.
Qed.

Lemma sig_last (ts : toks) l s : sig ts = l ++ [s] -> exists t1 t2, ts = t1 ++ s :: t2 /\ sig t1 = l /\ sig t2 = [].
Proof.
  revert l. induction ts as [|x ts IH]; intros l E; [destruct l; discriminate|].
  change (x :: ts) with ([x] ++ ts) in E. rewrite sig_app in E. destruct (sig_one x) as [S1|S1]; rewrite S1 in E; cbn [app] in E.
  - destruct l as [|y l].
    + injection E as -> E. exists [], ts. auto.
    + injection E as -> E. destruct (IH _ E) as (t1 & t2 & -> & H1 & H2). exists (y :: t1), t2.
      split; [reflexivity|]. split; [|exact H2]. change (y :: t1) with ([y] ++ t1). rewrite sig_app, S1, H1. reflexivity.
  - destruct (IH _ E) as (t1 & t2 & -> & H1 & H2). exists (x :: t1), t2. split; [reflexivity|]. split; [|exact H2].
    change (x :: t1) with ([x] ++ t1). rewrite sig_app, S1, H1. reflexivity.
Qed.

Lemma script_join d a b tb : dialect_ok d -> ends_with_semi d a -> tokenize d true b = TOk tb -> skip_bom b = b ->
  (forall t r, sig tb = t :: r -> tkind t <> Semicolon) ->
  res_map (map bare_stmt) (parse_source d (a ++ 10 :: b)) = res_map (map bare_stmt) (and_then (parse_source d a) (parse_source d b)).
Proof.
  intros D (ta & l & s & Ta & El & Ks) Tb Eb N. destruct (lex_join d a b ta tb D Ta Tb Eb) as (tx & m & Tx & Ex & Em).
  unfold parse_source, parse_with. rewrite Tx, Ta, Tb.
  pose proof (SrcThms.tokenize_wf _ _ _ _ D Ta) as Wa. pose proof (SrcThms.tokenize_wf _ _ _ _ D Tb) as Wb.
  pose proof (SrcThms.tokenize_wf _ _ _ _ D Tx) as Wx. pose proof Wx as Wx'. apply Forall_app in Wx' as [W1 W2].
  change (res_map (map bare_stmt) (sql_of (tx ++ m)) = res_map (map bare_stmt) (and_then (sql_of ta) (sql_of tb))).
  rewrite El, map_app in Ex. apply map_eq_app in Ex as (l1 & l2 & E1 & E2 & E3). destruct l2 as [|s1 [|]]; try discriminate E3.
  destruct (sig_last tx l1 s1 E1) as (t1 & t2 & -> & F1 & F2).
  assert (K1 : tkind s1 = Semicolon) by (cbn in E3; injection E3 as E3 _; rewrite E3; exact Ks).
  assert (F0 : sig (t2 ++ m) = sig m) by (rewrite sig_app, F2; reflexivity).
  rewrite <- app_assoc in *. cbn [app] in *.
  rewrite (sql_split t1 s1 (t2 ++ m) Wx K1).
  2:{ change fsig with sig. rewrite F0. eapply bare_semi; [apply sig_kv, Em|exact N]. }
  assert (Wt : Forall tok_wf (t1 ++ [s1])).
  { apply Forall_app in W1 as [W1 W3]. inversion_clear W3. apply Forall_app. split; [exact W1|]. constructor; [assumption|constructor]. }
  assert (Wm : Forall tok_wf (t2 ++ m)).
  { apply Forall_app in W1 as [_ W3]. inversion_clear W3. apply Forall_app. auto. }
  assert (S1 : res_map (map bare_stmt) (sql_of (t1 ++ [s1])) = res_map (map bare_stmt) (sql_of ta)).
  { apply sql_kv; [exact Wt|exact Wa|]. rewrite El, sig_app, F1, !map_app, E2. f_equal.
    assert (X : sig [s1] = [s1]) by (unfold sig, blank; cbn; rewrite K1; reflexivity). rewrite X. exact E3. }
  assert (S2 : res_map (map bare_stmt) (sql_of (t2 ++ m)) = res_map (map bare_stmt) (sql_of tb)).
  { apply sql_kv; [exact Wm|exact Wb|]. rewrite F0. apply sig_kv, Em. }
  unfold and_then. destruct (sql_of (t1 ++ [s1])) as [x1| | |], (sql_of ta) as [x2| | |]; cbn [res_map] in *; try discriminate; auto.
  injection S1 as S1. destruct (sql_of (t2 ++ m)) as [y1| | |], (sql_of tb) as [y2| | |]; cbn [res_map] in *; try discriminate; auto.
  injection S2 as S2. rewrite !map_app, S1, S2. reflexivity.
Qed.

Lemma and_then_bare r1 r2 r1' r2' : res_map (map bare_stmt) r1 = res_map (map bare_stmt) r1' -> res_map (map bare_stmt) r2 = res_map (map bare_stmt) r2' ->
  res_map (map bare_stmt) (and_then r1 r2) = res_map (map bare_stmt) (and_then r1' r2').
Proof.
  intros H1 H2. destruct r1 as [x1| | |], r1' as [x2| | |]; cbn [res_map and_then] in *; try discriminate; auto.
  injection H1 as H1. destruct r2 as [y1| | |], r2' as [y2| | |]; cbn [res_map] in *; try discriminate; auto.
  injection H2 as H2. rewrite !map_app, H1, H2. reflexivity.
Qed.

Lemma script d bs : dialect_ok d -> Forall (whole_text d) bs ->
  res_map (map bare_stmt) (parse_source d (lines bs)) = res_map (map bare_stmt) (fold_right and_then (ROk []) (map (parse_source d) bs)).
Proof.
  intros D H.
  assert (G : skip_bom (lines bs) = lines bs /\
    (exists ts, tokenize d true (lines bs) = TOk ts /\ forall t r, sig ts = t :: r -> tkind t <> Semicolon) /\
    res_map (map bare_stmt) (parse_source d (lines bs)) = res_map (map bare_stmt) (fold_right and_then (ROk []) (map (parse_source d) bs))).
  { induction H as [|b bs (E & B & N) H (IB & (ts & IT & IN) & IE)].
    - destruct (source_toks d [] [] D (Rd_nil _ _ _)) as (T0 & P0 & _). split; [reflexivity|]. split.
      + exists []. split; [exact T0|discriminate].
      + change (lines []) with (@nil rune). rewrite P0. reflexivity.
    - change (lines (b :: bs)) with ((b ++ [10]) ++ lines bs). rewrite <- app_assoc. cbn [app]. split.
      { destruct b as [|c b]; [reflexivity|]. cbn in B |- *. destruct (c =? 65279); [|reflexivity]. apply (f_equal (@List.length rune)) in B. cbn in B. lia. }
      pose proof E as (tb & l & s & Tb & El & Ks).
      destruct (lex_join d b (lines bs) tb ts D Tb IT IB) as (tx & m & Tx & Ex & Em). split.
      + exists (tx ++ m). split; [exact Tx|]. intros t r Es. rewrite sig_app in Es. destruct (sig tx) as [|x u] eqn:Eq.
        * rewrite El, map_app in Ex. destruct l; discriminate Ex.
        * cbn [app] in Es. injection Es as -> Es. eapply bare_semi; [exact Ex| |reflexivity]. intros t' r' Et. eapply N; eauto.
      + etransitivity; [exact (script_join d b (lines bs) ts D E IT IB IN)|]. cbn [map fold_right]. apply and_then_bare; [reflexivity|exact IE]. }
  apply G.
Qed.
