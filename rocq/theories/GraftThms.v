(** Filling in queries (C57). *)
From Coq Require Import ZArith List Bool String Lia.
From Verif Require Import AstInd Base Dialect Token Lexer LexSpec LexFacts LexThms AST Num Prog Parser Wp Sim Erase ParseSpec
  ParserThms SrcThms ApiThms LookSpec CutSpec CutThms ParenWalk FillSpec FillThms WrapThms GraftSpec GraftWalk.
Import ListNotations.
Open Scope Z_scope.

Notation len := (@List.length _).

(** A query that ends before a semicolon is read before a closing parenthesis too. *)
Lemma opens_kw x0 ee : tok_wf x0 -> opens_query (x0 :: ee) = true -> exists w, tval x0 = VWord w /\ kw w "SELECT" || kw w "WITH" = true.
Proof.
  intros W O. cbn [opens_query] in O. unfold tok_wf in W. destruct x0 as [k v p q]. cbn [tkind tval] in *. destruct v as [w|s]; [|discriminate O].
  destruct k; try contradiction. exists w. split; [reflexivity|]. unfold kw. rewrite W. apply orb_true_iff in O. apply orb_true_iff.
  destruct O as [O|O]; [left|right]; apply gs_eqb_eq; (eapply fold_upper; [reflexivity|exact O]).
Qed.
Lemma query_before_paren x0 ee q d pr1 pr2 s1 sr : Forall tok_wf ((x0 :: ee) ++ [e1 pr1 pr2 s1]) -> opens_query (x0 :: ee) = true ->
  base parse_statement ((x0 :: ee) ++ [e1 pr1 pr2 s1]) = Ok (StQuery q) (d, [e1 pr1 pr2 s1]) ->
  forall m D R, (4 + len (x0 :: ee) <= m)%nat ->
  run fm_machine (r_query (knot m)) (D, (x0 :: ee) ++ e2 pr1 pr2 sr :: R) = Ok q (rev (x0 :: ee) ++ D, e2 pr1 pr2 sr :: R).
Proof.
  intros W O B m D R L. destruct m as [|m]; [lia|].
  pose proof (base_fuel parse_statement er_stmt 1 entry_stmt _ m D W ltac:(rewrite app_length; cbn [List.length] in *; lia)) as E. rewrite B in E. cbn [frame fst snd] in E.
  pose proof (base_spec parse_statement er_stmt 1 entry_stmt _ W) as S1. rewrite B in S1. cbn [fst snd] in S1. destruct S1 as [S1 _].
  apply app_inj_tail in S1 as [S1 _].
  destruct (opens_kw x0 ee) as (w & Tv & Kw); [inversion W; assumption|exact O|].
  unfold parse_statement in E. rewrite run_bind in E. cbn [run next_err m_next fm_machine fst snd obind app bind] in E. rewrite Tv, Kw in E.
  rewrite run_bind in E. cbn [run prev m_prev fm_machine fst snd obind] in E. rewrite run_bind in E.
  destruct (run fm_machine (parse_query (knot m)) (D, x0 :: ee ++ [e1 pr1 pr2 s1])) as [q0 st0| | |] eqn:E0; try discriminate E. cbn [obind run] in E. injection E as -> ->.
  destruct (rc_query _ _ _ _ _ _ _ _ (knot_rcl pr1 pr2 s1 sr [] R false (S m)) D (x0 :: ee) (D, (x0 :: ee) ++ E1 pr1 pr2 s1 [] false) (D, (x0 :: ee) ++ E2 pr1 pr2 sr R) (conj eq_refl eq_refl)
    q (d ++ D, [e1 pr1 pr2 s1])) as [(X & _)|(w' & b' & st' & R2 & HS & <- & d' & u' & ->)]; [exact E0|discriminate X|].
  cbn [ParenWalk.at_place] in HS. destruct HS as [H1 ->]. unfold E1 in H1. assert (H2 : [e1 pr1 pr2 s1] = u' ++ [e1 pr1 pr2 s1]) by (injection H1; auto).
  assert (H3 : d ++ D = d') by (injection H1; auto). destruct u' as [|y u']; [|apply (f_equal (@List.length _)) in H2; rewrite app_length in H2; cbn in H2; lia].
  subst d'. replace (rev (x0 :: ee)) with d by (rewrite S1; symmetry; apply rev_involutive). exact R2.
Qed.

Lemma fold_len : forall a b, equal_fold a b = true -> len a = len b.
Proof. induction a as [|x a IH]; intros [|y b] E; try discriminate; [reflexivity|]. cbn in *. apply andb_prop in E as [_ E]. f_equal. auto. Qed.
Lemma query_starts x0 ee : opens_query (x0 :: ee) = true -> select_with (x0 :: ee) = false ->
  is_kw (gs "SELECT") x0 = true /\ match ee with y :: _ => is_kw (gs "WITH") y = false | [] => True end \/
  is_kw (gs "SELECT") x0 = false /\ is_kw (gs "WITH") x0 = true.
Proof.
  cbn [opens_query select_with]. unfold is_kw. destruct (tval x0) as [w|s]; [|discriminate]. intros O N.
  destruct (equal_fold (wvalue w) (gs "SELECT")) eqn:E; [left|right; auto]. split; [reflexivity|]. destruct ee as [|y ee]; [exact I|].
  destruct (tval y); [exact N|reflexivity].
Qed.

Lemma graft_good v ts : fresh v ts <-> Forall (good v) ts.
Proof. apply fresh_good. Qed.

Section Method.
  Context {A : Type} (P : rec -> prog A) (erA : (pos -> pos) -> (rune -> rune) -> A -> A) (k : nat) (HP : entry P erA k).
  Variable F : gostring -> query -> A -> A.
  Hypothesis HF : forall vs aa pl1 pl2 ps1 ps2 pv1 pv2 pr1 pr2 sl sr pre0 post x0 ee, Forall (good vs) pre0 -> Forall (good vs) post ->
    (is_kw (gs "SELECT") x0 = true /\ match ee with y :: _ => is_kw (gs "WITH") y = false | [] => True end \/
     is_kw (gs "SELECT") x0 = false /\ is_kw (gs "WITH") x0 = true) ->
    forall r r', rsb pl1 pl2 ps1 ps2 pv1 pv2 pr1 pr2 sl vs sr pre0 post x0 ee aa r r' ->
    sbx pl1 pl2 ps1 ps2 pv1 pv2 pr1 pr2 sl vs sr pre0 post x0 ee (F vs aa) (P r) (P r').
  Hypothesis HE : forall v a a' T, er_query no_pos same_rune a = er_query no_pos same_rune a' ->
    erA no_pos same_rune (F v a T) = erA no_pos same_rune (F v a' T).

  Lemma base_graft pre lp sel lit rp post v te semi a d T s :
    Forall tok_wf (pre ++ lp :: sel :: lit :: rp :: post) -> Forall tok_wf te -> tok_wf semi -> tkind semi = Semicolon ->
    tkind lp = LParen -> kv sel = select_word -> kv lit = (SingleQuotedString, VStr v) -> tkind rp = RParen -> fresh v (pre ++ post) ->
    base parse_statement (te ++ [semi]) = Ok (StQuery a) (d, [semi]) -> opens_query te = true -> select_with te = false ->
    base P (pre ++ lp :: sel :: lit :: rp :: post) = Ok T s -> (len (snd s) <= len post)%nat ->
    exists a' s', er_query no_pos same_rune a' = er_query no_pos same_rune a /\
      base P (pre ++ lp :: te ++ rp :: post) = Ok (F v a' T) s' /\ snd s' = snd s.
  Proof.
    intros W We Ws Ks Klp Ksel Klit Krp Fr Be Oq Sw B Ln.
    destruct te as [|x0 ee]; [discriminate Oq|].
    assert (Hlp : exists sl, lp = lpt (tfrom lp) (tto lp) sl).
    { apply Forall_app in W as [_ W]. inversion W as [|? ? W1 _]; subst. apply plain_tok; [assumption|assumption|discriminate]. }
    assert (Hrp : exists sr, rp = rpt (tfrom rp) (tto rp) sr).
    { apply Forall_app in W as [_ W]. apply plain_tok; [|assumption|discriminate]. rewrite Forall_forall in W. apply W. cbn. auto. }
    destruct Hlp as [sl Hlp], Hrp as [sr Hrp]. apply kv_tok in Klit. apply kv_tok in Ksel. change (sel = selt (tfrom sel) (tto sel)) in Ksel.
    remember (tfrom lp) as pl1. remember (tto lp) as pl2. remember (tfrom rp) as pr1. remember (tto rp) as pr2. remember (tfrom sel) as ps1. remember (tto sel) as ps2.
    remember (tfrom lit) as pv1. remember (tto lit) as pv2. fold (vt pv1 pv2 v) in Klit. clear Heqpl1 Heqpl2 Heqpr1 Heqpr2 Heqpv1 Heqpv2 Heqps1 Heqps2 Klp Krp. subst lp rp lit sel.
    apply graft_good in Fr. apply Forall_app in Fr as [F1 F2].
    pose proof (query_starts x0 ee Oq Sw) as Hx1.
    (* the semicolon in the place of the parenthesis *)
    destruct (plain_tok semi Semicolon Ws Ks ltac:(discriminate)) as [s1 Hs].
    set (semi' := e1 pr1 pr2 s1).
    assert (We1 : Forall tok_wf ((x0 :: ee) ++ [semi])) by (apply Forall_app; auto).
    assert (We2 : Forall tok_wf ((x0 :: ee) ++ [semi'])) by (apply Forall_app; split; [exact We|constructor; [exact I|constructor]]).
    assert (Ekv : map kv ((x0 :: ee) ++ [semi]) = map kv ((x0 :: ee) ++ [semi'])) by (rewrite !map_app; f_equal; rewrite Hs; reflexivity).
    pose proof (base_er parse_statement er_stmt 1 entry_stmt no_pos same_rune no_pos same_rune _ _ eq_refl gok_same eq_refl gok_same We1 We2 (kv_er _ _ Ekv)) as B0.
    rewrite Be in B0.
    pose proof (base_spec parse_statement er_stmt 1 entry_stmt _ We1) as S1. rewrite Be in S1. cbn [fst snd] in S1. destruct S1 as [S1 _].
    pose proof (base_spec parse_statement er_stmt 1 entry_stmt _ We2) as S2.
    destruct (base parse_statement ((x0 :: ee) ++ [semi'])) as [b0 [d0 t0]| | |] eqn:Be'; try contradiction. destruct B0 as [B0 B1]. destruct S2 as [S2 _]. cbn [fst snd] in *.
    destruct b0 as [a'| | | | | | | | | |]; try discriminate B0. cbn [er_stmt] in B0. assert (Ea : er_query no_pos same_rune a' = er_query no_pos same_rune a) by (injection B0; auto).
    assert (Ht0 : t0 = [semi']).
    { unfold Natural.er_st in B1. cbn [fst snd map] in B1. assert (L1 : len t0 = 1%nat) by (rewrite <- (map_length (Erase.er_tok no_pos same_rune)); injection B1; intros <- _; reflexivity).
      destruct t0 as [|y [|]]; try discriminate L1. apply app_inj_tail in S2 as [_ <-]. reflexivity. }
    subst t0.
    set (K := (4 + len (x0 :: ee))%nat) in *.
    assert (He : forall m D R, (K <= m)%nat -> run fm_machine (r_query (knot m)) (D, (x0 :: ee) ++ rpt pr1 pr2 sr :: R) = Ok a' (rev (x0 :: ee) ++ D, rpt pr1 pr2 sr :: R)).
    { intros m D R L. exact (query_before_paren x0 ee a' d0 pr1 pr2 s1 sr We2 Oq Be' m D R L). }
    set (t1 := pre ++ lpt pl1 pl2 sl :: selt ps1 ps2 :: vt pv1 pv2 v :: rpt pr1 pr2 sr :: post) in *.
    set (t2 := pre ++ lpt pl1 pl2 sl :: (x0 :: ee) ++ rpt pr1 pr2 sr :: post).
    assert (W2 : Forall tok_wf t2).
    { unfold t1, t2 in *. apply Forall_app in W as [Wa Wb]. apply Forall_app. split; [exact Wa|]. inversion Wb as [|? ? Wl Wc]; subst.
      constructor; [assumption|]. apply Forall_app. split; [exact We|]. rewrite Forall_forall in *. intros z Hz. apply Wc. right; right; exact Hz. }
    set (n := (S (S (len t1)) + len t2)%nat).
    pose proof (base_fuel P erA k HP t1 n [] W ltac:(unfold n; lia)) as R1. rewrite B in R1. cbn [frame] in R1. rewrite app_nil_r in R1.
    destruct (graft_run pl1 pl2 ps1 ps2 pv1 pv2 pr1 pr2 sl v sr pre post x0 ee a' F1 F2 Hx1 K He P (F v a')
      ltac:(intros r r' HR; eapply HF; eauto) n T _ R1) as [X|(s' & st & R2 & HS & HF')].
    { cbn [snd] in X. rewrite X in Ln. cbn in Ln. lia. }
    pose proof (base_fuel P erA k HP t2 (n + K) [] W2 ltac:(unfold n; lia)) as R3. unfold t2 in R3 at 1. rewrite R2 in R3.
    fold t2. destruct (base P t2) as [b [sb1 sb2]| | |] eqn:B2; try discriminate R3. cbn [frame fst snd] in R3. rewrite app_nil_r in R3.
    injection R3 as <- ->. exists a', (sb1, sb2). split; [exact Ea|]. split; [reflexivity|]. cbn [snd] in *.
    destruct st as [d1 u1|c1 u1]; cbn [at_place] in HS; destruct HS as [H1 H2].
    - injection H1 as H1 H3. rewrite H3, app_length in Ln. cbn in Ln. lia.
    - injection H1 as H1 H3. injection H2 as H2 H4. congruence.
  Qed.

  Lemma call_graft done todo pre lp sel lit rp post v done' te a T st todo' :
    Forall tok_wf todo -> Forall tok_wf te -> Forall tok_wf todo' ->
    sig todo = pre ++ lp :: sel :: lit :: rp :: post ->
    tkind lp = LParen -> kv sel = select_word -> kv lit = (SingleQuotedString, VStr v) -> tkind rp = RParen -> fresh v (pre ++ post) ->
    whole_query te a -> opens_query (sig te) = true -> select_with (sig te) = false ->
    call P done todo = Ok T st -> (len (sig (snd st)) <= len post)%nat ->
    map kv (sig todo') = map kv (pre ++ [lp]) ++ map kv (sig te) ++ map kv (rp :: post) ->
    exists b st', call P done' todo' = Ok b st' /\ erA no_pos same_rune b = erA no_pos same_rune (F v a T) /\
      left_over (snd st') = left_over (snd st).
  Proof.
    intros W We W' E Klp Ksel Klit Krp Fr (semi & ste & Ks & Ws & Ce & Se) Oq Sw C Ln E'. unfold left_over in *. rewrite !sig_fsig in *.
    assert (We1 : Forall tok_wf (te ++ [semi])) by (apply Forall_app; auto).
    pose proof (call_agrees parse_statement er_stmt 1 entry_stmt [] _ We1) as A0. unfold agrees in A0. rewrite Ce in A0.
    assert (Fs : fsig (te ++ [semi]) = fsig te ++ [semi]).
    { change (sig (te ++ [semi]) = sig te ++ [semi]). rewrite sig_app. f_equal. unfold sig, blank. cbn [filter]. rewrite Ks. reflexivity. }
    rewrite Fs in A0.
    destruct (base parse_statement (fsig te ++ [semi])) as [a0 [d0 t0]| | |] eqn:B0; try contradiction. destruct A0 as (<- & _ & A0). cbn [snd] in A0. rewrite Se in A0. subst t0.
    pose proof (call_agrees P erA k HP done todo W) as A1. unfold agrees in A1. rewrite C in A1.
    destruct (base P (fsig todo)) as [a1 s1| | |] eqn:B; try contradiction. destruct A1 as (<- & _ & A1).
    pose proof (fsig_wf _ W) as V. pose proof (fsig_wf _ We) as Ve. pose proof (fsig_wf _ W') as V'.
    rewrite E in V, B. rewrite A1 in Ln.
    destruct (base_graft pre lp sel lit rp post v (fsig te) semi a d0 T s1 V Ve Ws Ks Klp Ksel Klit Krp Fr B0 Oq Sw B Ln) as (a' & s2 & Ea & B2 & L2).
    set (t2 := pre ++ lp :: fsig te ++ rp :: post) in *.
    assert (V2 : Forall tok_wf t2).
    { unfold t2. apply Forall_app in V as [Wa Wb]. apply Forall_app. split; [exact Wa|]. inversion Wb as [|? ? Wl Wc]; subst.
      constructor; [assumption|]. apply Forall_app. split; [exact Ve|]. rewrite Forall_forall in *. intros z Hz. apply Wc. right; right; exact Hz. }
    assert (E2 : map kv t2 = map kv (fsig todo')).
    { rewrite E'. unfold t2. rewrite !map_app. cbn [map app]. rewrite <- app_assoc, map_app. reflexivity. }
    pose proof (base_er P erA k HP no_pos same_rune no_pos same_rune t2 (fsig todo') eq_refl gok_same eq_refl gok_same V2 V' (kv_er _ _ E2)) as B3.
    rewrite B2 in B3.
    pose proof (call_agrees P erA k HP done' todo' W') as A2. unfold agrees in A2.
    pose proof (base_spec P erA k HP _ V') as S2. pose proof (base_spec P erA k HP _ V2) as S3. rewrite B2 in S3.
    destruct (base P (fsig todo')) as [b [z1 z2]| | |]; try contradiction.
    destruct (call P done' todo') as [b' st'| | |]; try contradiction.
    destruct A2 as (-> & _ & E5). destruct B3 as [B3 B4]. cbn [fst snd] in *.
    exists b, st'. split; [reflexivity|]. split; [rewrite <- B3; apply HE; exact Ea|]. change (sig (snd st')) with (fsig (snd st')). change (sig (snd st)) with (fsig (snd st)). rewrite E5, A1.
    rewrite <- L2.
    unfold Natural.er_st in B4. cbn [fst snd] in B4. injection B4 as B4 B5.
    destruct S2 as [S2 _], S3 as [S3 _]. rewrite S2, S3 in E2.
    assert (LL : len (rev (fst s2)) = len (rev z1)) by (rewrite !rev_length, <- (map_length (Erase.er_tok no_pos same_rune)), B4, map_length; reflexivity).
    rewrite !map_app in E2. apply (f_equal (skipn (len (rev z1)))) in E2.
    rewrite skipn_app, skipn_all2 in E2 by (rewrite map_length; lia). rewrite skipn_app, (skipn_all2 (map kv (rev z1))) in E2 by (rewrite map_length; lia).
    rewrite !map_length, LL, Nat.sub_diag in E2. cbn [skipn app] in E2. symmetry. exact E2.
  Qed.
End Method.

Section Same.
  Variables (fp : pos -> pos) (g : rune -> rune) (v : gostring) (a a' : query).
  Hypothesis Ea : er_query fp g a = er_query fp g a'.
  Notation "'same' h F" := (fun x => h fp g (F v a x) = h fp g (F v a' x)) (at level 10, h at level 9, F at level 9).

  Lemma graft_same :
    (forall e, same er_node graft_node e) /\ (forall w, same er_winspec graft_winspec w) /\ (forall o, same er_orderby graft_orderby o) /\
    (forall q, same er_query graft_query q) /\ (forall c, same er_cte graft_cte c) /\ (forall b, same er_setexpr graft_setexpr b) /\
    (forall s, same er_select graft_select s) /\ (forall i, same er_selitem graft_selitem i) /\ (forall t, same er_tableref graft_tableref t) /\
    (forall j, same er_joinspec graft_joinspec j).
  Proof.
    apply ast_ind; intros;
      try solve [reflexivity | cbn [graft_node graft_winspec graft_orderby graft_query graft_cte graft_setexpr graft_select graft_selitem graft_tableref graft_joinspec
        er_node er_winspec er_orderby er_query er_cte er_setexpr er_select er_selitem er_tableref er_joinspec];
        f_equal; first [assumption | apply maps_eq; assumption | apply opts_eq; assumption]].
    - cbn. f_equal; try (apply opts_eq; assumption). rewrite !map_map. apply map_ext_Forall. cbn.
      eapply Forall_impl; [|eassumption]. intros b [X1 X2]. cbn. congruence.
    - cbn [graft_query]. destruct (stands v _); [exact Ea|]. cbn [er_query]. f_equal; first [assumption | apply maps_eq; assumption | apply opts_eq; assumption].
  Qed.

  Lemma same_n : forall e, same er_node graft_node e. Proof. apply graft_same. Qed.
  Lemma same_q : forall q, same er_query graft_query q. Proof. apply graft_same. Qed.
  Lemma same_row : forall r, same er_row graft_row r.
  Proof. intros r. unfold er_row, graft_row. cbn. f_equal. apply all_maps, same_n. Qed.
  Lemma same_assign : forall x, same er_assign graft_assign x.
  Proof. intros r. unfold er_assign, graft_assign. cbn. f_equal. apply same_n. Qed.
  Lemma same_src : forall s, same er_src graft_src s.
  Proof. intros [q|p rows]; cbn; f_equal; [apply same_q|apply all_maps, same_row]. Qed.
  Lemma same_tc : forall c, same er_tc graft_tc c.
  Proof. intros c. unfold er_tc, graft_tc. cbn. f_equal. destruct (tc_spec c); cbn; f_equal. apply same_n. Qed.
  Lemma same_cc : forall c, same er_cc graft_cc c.
  Proof. intros c. unfold er_cc, graft_cc. cbn. f_equal. destruct (cc_spec c); cbn; f_equal. apply same_n. Qed.
  Lemma same_coldef : forall c, same er_coldef graft_coldef c.
  Proof. intros c. unfold er_coldef, graft_coldef. cbn. f_equal; [apply all_opts, same_n|apply all_maps, same_cc]. Qed.
  Lemma same_element : forall e, same er_element graft_element e.
  Proof. intros [c|c]; cbn; f_equal; [apply same_coldef|apply same_tc]. Qed.
  Lemma same_ataction : forall x, same er_ataction graft_ataction x.
  Proof. intros []; cbn; f_equal; try apply same_coldef; try apply same_tc. match goal with |- context [graft_acaction _ _ ?z] => destruct z end; cbn; f_equal. apply same_n. Qed.
  Lemma same_stmt : forall s, same er_stmt graft_stmt s.
  Proof.
    induction s; cbn; f_equal; auto using same_q, same_src, same_ataction, same_n;
      first [apply all_maps; auto using same_assign, same_element | apply all_opts, same_n].
  Qed.
End Same.

Lemma query_template_same {A} (P : rec -> prog A) erA F : query_template P erA F ->
  forall v a a' T, er_query no_pos same_rune a = er_query no_pos same_rune a' -> erA no_pos same_rune (F v a T) = erA no_pos same_rune (F v a' T).
Proof. intros H v a a' T E. destruct H; [apply same_n|apply same_stmt|apply all_maps; intros; apply same_stmt]; exact E. Qed.



Lemma graft_calls {A} (P : rec -> prog A) erA F : query_template P erA F ->
  forall done todo pre lp sel lit rp post v done' te a T st todo',
    Forall tok_wf todo -> Forall tok_wf te -> Forall tok_wf todo' ->
    sig todo = pre ++ lp :: sel :: lit :: rp :: post ->
    tkind lp = LParen -> kv sel = select_word -> kv lit = (SingleQuotedString, VStr v) -> tkind rp = RParen -> fresh v (pre ++ post) ->
    whole_query te a -> opens_query (sig te) = true -> select_with (sig te) = false ->
    call P done todo = Ok T st -> (List.length (sig (snd st)) <= List.length post)%nat ->
    map kv (sig todo') = map kv (pre ++ [lp]) ++ map kv (sig te) ++ map kv (rp :: post) ->
    exists b st', call P done' todo' = Ok b st' /\ erA no_pos same_rune b = erA no_pos same_rune (F v a T) /\
      left_over (snd st') = left_over (snd st).
Proof.
  intros H. pose proof (query_template_same P erA F H) as HE. destruct H.
  - apply (call_graft parse_expr er_node 1 entry_expr graft_node); [|exact HE]. intros. eapply sbf_sbx; eauto. eapply sbe_sbf; eauto. eapply parse_expr_sb; eauto.
  - apply (call_graft parse_statement er_stmt 1 entry_stmt graft_stmt); [|exact HE]. intros. eapply parse_statement_sb; eauto.
  - apply (call_graft (parse_sql false) (fun fp g => map (er_stmt fp g)) 0 (entry_sql false) (fun v a => map (graft_stmt v a))); [|exact HE]. intros. eapply parse_sql_sb; eauto.
Qed.

(** * Texts *)
Lemma sig_incl l : incl (map kv (sig l)) (map kv l).
Proof. intros z Hz. apply in_map_iff in Hz as (z' & <- & Hz). apply in_map. unfold sig in Hz. apply filter_In in Hz. tauto. Qed.
Lemma graft_texts {A} (P : rec -> prog A) erA F : query_template P erA F ->
  forall d x y m tx ty tm t v e te a T st, dialect_ok d ->
    tokenize d true x = TOk tx -> tokenize d true y = TOk ty -> skip_bom y = y -> fresh v (tx ++ ty) ->
    tokenize d true m = TOk tm -> skip_bom m = m -> map kv (sig tm) = [select_word; (SingleQuotedString, VStr v)] ->
    tokenize d true e = TOk te -> skip_bom e = e -> whole_query te a -> opens_query (sig te) = true -> select_with (sig te) = false ->
    tokenize d true (filled x m y) = TOk t -> call P [] t = Ok T st -> (List.length (sig (snd st)) <= List.length (sig ty))%nat ->
    exists b, parse_with P d (filled x e y) = ROk b /\ erA no_pos same_rune b = erA no_pos same_rune (F v a T).
Proof.
  intros HT d x y m tx ty tm t v e te a T st D Tx Ty By Fr Tm Bm Em Te Be We Oq Sw T1 C Ln.
  destruct (filled_toks d x m y _ _ _ D Tx Tm Ty Bm By) as (t0 & T0 & E1). rewrite T1 in T0. injection T0 as <-.
  destruct (filled_toks d x e y _ _ _ D Tx Te Ty Be By) as (t' & T2 & E2).
  unfold parse_with. rewrite T2.
  pose proof (SrcThms.tokenize_wf _ _ _ _ D T1) as W1. pose proof (SrcThms.tokenize_wf _ _ _ _ D T2) as W2. pose proof (SrcThms.tokenize_wf _ _ _ _ D Te) as W3.
  rewrite Em in E1. cbn [app] in E1.
  destruct (map_cut _ _ _ _ E1) as (pre & l1 & E3 & E4 & E5).
  destruct l1 as [|lp [|sl [|lv [|rp post]]]]; try discriminate E5. cbn [map] in E5.
  apply cons_inj in E5 as [Q1 E5]. apply cons_inj in E5 as [Q2 E5]. apply cons_inj in E5 as [Q3 E5]. apply cons_inj in E5 as [Q4 E5].
  pose proof (f_equal fst Q1) as K1. pose proof (f_equal fst Q4) as K3. cbn [kv fst] in K1, K3.
  unfold run_raw. change (exists b, res_of (call P [] t') = ROk b /\ erA no_pos same_rune b = erA no_pos same_rune (F v a T)).
  destruct (graft_calls P erA F HT [] t pre lp sl lv rp post v [] te a T st t' W1 W3 W2 E3 K1 Q2 Q3 K3) as (b & st' & C' & E' & _); auto.
  - intros I. apply Fr. rewrite map_app, E4, E5 in I. rewrite map_app. apply in_app_or in I. apply in_or_app.
    destruct I as [I|I]; apply sig_incl in I; auto.
  - rewrite <- (map_length kv post), E5, map_length. exact Ln.
  - rewrite E2, map_app, <- E4, <- E5. cbn [map app]. rewrite <- app_assoc. cbn [app]. rewrite Q1, Q4. reflexivity.
  - exists b. rewrite C'. auto.
Qed.
Lemma graft_files d x y m tx ty tm v e te a T : dialect_ok d ->
    tokenize d true x = TOk tx -> tokenize d true y = TOk ty -> skip_bom y = y -> fresh v (tx ++ ty) ->
    tokenize d true m = TOk tm -> skip_bom m = m -> map kv (sig tm) = [select_word; (SingleQuotedString, VStr v)] ->
    tokenize d true e = TOk te -> skip_bom e = e -> whole_query te a -> opens_query (sig te) = true -> select_with (sig te) = false ->
    parse_with (parse_sql false) d (filled x m y) = ROk T ->
    exists b, parse_with (parse_sql false) d (filled x e y) = ROk b /\
      map (er_stmt no_pos same_rune) b = map (er_stmt no_pos same_rune) (map (graft_stmt v a) T).
Proof.
  intros D Tx Ty By Fr Tm Bm Em Te Be We Oq Sw R.
  destruct (filled_toks d x m y _ _ _ D Tx Tm Ty Bm By) as (t & T1 & E1).
  unfold parse_with in R. rewrite T1 in R. unfold run_raw in R. change (res_of (call (parse_sql false) [] t) = ROk T) in R.
  destruct (call (parse_sql false) [] t) as [T0 st| | |] eqn:C; try discriminate R. cbn [res_of] in R. injection R as ->.
  apply (graft_texts _ _ _ query_template_sql d x y m tx ty tm t v e te a T st); auto.
  rewrite (sql_consumes [] t T st (SrcThms.tokenize_wf _ _ _ _ D T1) C). cbn. lia.
Qed.
