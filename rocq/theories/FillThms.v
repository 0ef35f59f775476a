(** Filling in templates (C55). *)
From Coq Require Import ZArith List Bool String Lia.
From Verif Require Import AstInd Base Dialect Token Lexer LexSpec LexFacts LexThms AST Num Prog Parser Wp Sim Erase ParseSpec
  ParserThms SrcThms ApiThms LookSpec CutSpec CutThms ParenWalk FillSpec FillWalk.
Import ListNotations.
Open Scope Z_scope.

Notation len := (@List.length _).

(** An expression that ends where the tokens end is read before a closing
    parenthesis too. *)
Lemma expr_before_paren t a d pr1 pr2 sr : Forall tok_wf t -> base parse_expr t = Ok a (d, []) ->
  forall m D R, (S (S (List.length t)) <= m)%nat ->
  run fm_machine (r_subexpr (knot m) 0) (D, t ++ e2 pr1 pr2 sr :: R) = Ok a (rev t ++ D, e2 pr1 pr2 sr :: R).
Proof.
  intros W B m D R L. pose proof (base_fuel parse_expr er_node 1 entry_expr t m D W L) as E. rewrite B in E. cbn [frame fst snd] in E.
  pose proof (base_spec parse_expr er_node 1 entry_expr t W) as S1. rewrite B in S1. cbn [fst snd] in S1. destruct S1 as [S1 _].
  rewrite app_nil_r in S1.
  destruct (rc_subexpr _ _ _ _ _ _ _ _ (knot_rcl pr1 pr2 [] sr [] R true m) 0 D t (D, t ++ E1 pr1 pr2 [] [] true) (D, t ++ E2 pr1 pr2 sr R) (conj eq_refl eq_refl)
    a (d ++ D, [])) as [(_ & _ & [])|(w & b' & st' & R2 & HS & <- & d' & u' & ->)].
  - unfold E1. rewrite app_nil_r. exact E.
  - cbn [at_place] in HS. destruct HS as [H1 ->]. injection H1 as <- H1. unfold E1 in H1. rewrite app_nil_r in H1. subst u'.
    unfold E2 in R2. cbn [app] in R2. rewrite R2, S1, rev_involutive. reflexivity.
Qed.

Lemma expr_starts t a d : base parse_expr t = Ok a d -> exists x u, t = x :: u /\ is_kind RParen x = false.
Proof.
  intros B. destruct t as [|x u]; [discriminate B|]. exists x, u. split; [reflexivity|].
  destruct (is_kind RParen x) eqn:K; [|reflexivity]. exfalso. unfold is_kind in K.
  unfold base in B. cbn [List.length knot parse_expr r_subexpr] in B. unfold parse_subexpr, parse_prefix in B.
  rewrite !run_bind in B. cbn [run next_err m_next fm_machine fst snd obind] in B.
  destruct x as [k v p q]. cbn [tkind] in *. destruct k; try discriminate K. cbn in B. discriminate B.
Qed.

Lemma kv_tok t k v : kv t = (k, v) -> t = mkTok k v (tfrom t) (tto t).
Proof. destruct t. cbn. intros E. injection E as -> ->. reflexivity. Qed.

Lemma plain_tok t k : tok_wf t -> tkind t = k -> k <> SQLKeyword -> exists s, t = mkTok k (VStr s) (tfrom t) (tto t).
Proof.
  destruct t as [kd [w|s] p q]; cbn; intros W -> N; [|eauto]. unfold tok_wf in W. cbn in W. destruct k; solve [contradiction | congruence].
Qed.

Lemma fresh_good v ts : fresh v ts <-> Forall (good v) ts.
Proof.
  unfold fresh, good. rewrite Forall_forall. split.
  - intros H t I K V. apply H. apply in_map_iff. exists t. split; [|exact I]. unfold kv. congruence.
  - intros H I. apply in_map_iff in I as (t & E & I). injection E as K V. exact (H t I K V).
Qed.

Section Method.
  Context {A : Type} (P : rec -> prog A) (erA : (pos -> pos) -> (rune -> rune) -> A -> A) (k : nat) (HP : entry P erA k).
  Variable F : gostring -> node -> A -> A.
  Hypothesis HF : forall vs aa pl1 pl2 pv1 pv2 pr1 pr2 sl sr pre0 post x0 ee, Forall (good vs) pre0 -> Forall (good vs) post ->
    is_kw (gs "SELECT") x0 = false -> is_kw (gs "WITH") x0 = false -> is_kind RParen x0 = false ->
    forall r r', rsb pl1 pl2 pv1 pv2 pr1 pr2 sl vs sr pre0 post x0 ee aa r r' ->
    sbf pl1 pl2 pv1 pv2 pr1 pr2 sl vs sr pre0 post x0 ee (F vs aa) (P r) (P r').

  Lemma base_fill pre lp lit rp post v te a d T s : 
    Forall tok_wf (pre ++ lp :: lit :: rp :: post) -> Forall tok_wf te ->
    tkind lp = LParen -> kv lit = (SingleQuotedString, VStr v) -> tkind rp = RParen -> fresh v (pre ++ post) ->
    base parse_expr te = Ok a (d, []) -> opens_query te = false ->
    base P (pre ++ lp :: lit :: rp :: post) = Ok T s ->
    exists s', base P (pre ++ lp :: te ++ rp :: post) = Ok (F v a T) s' /\
      ((List.length (snd s) <= List.length post)%nat -> snd s' = snd s).
  Proof.
    intros W We Klp Klit Krp Fr Be Oq B.
    destruct (expr_starts _ _ _ Be) as (x0 & ee & -> & Hx3).
    assert (Hlp : exists sl, lp = lpt (tfrom lp) (tto lp) sl).
    { apply Forall_app in W as [_ W]. inversion W as [|? ? W1 _]; subst. apply plain_tok; [assumption|assumption|discriminate]. }
    assert (Hrp : exists sr, rp = rpt (tfrom rp) (tto rp) sr).
    { apply Forall_app in W as [_ W]. inversion W as [|? ? _ W1]; subst. inversion W1 as [|? ? _ W2]; subst. inversion W2 as [|? ? W3 _]; subst.
      apply plain_tok; [assumption|assumption|discriminate]. }
    destruct Hlp as [sl Hlp], Hrp as [sr Hrp]. apply kv_tok in Klit.
    remember (tfrom lp) as pl1. remember (tto lp) as pl2. remember (tfrom rp) as pr1. remember (tto rp) as pr2.
    remember (tfrom lit) as pv1. remember (tto lit) as pv2. fold (vt pv1 pv2 v) in Klit. clear Heqpl1 Heqpl2 Heqpr1 Heqpr2 Heqpv1 Heqpv2 Klp Krp. subst lp rp lit.
    apply fresh_good in Fr. apply Forall_app in Fr as [F1 F2].
    assert (Hx : is_kw (gs "SELECT") x0 = false /\ is_kw (gs "WITH") x0 = false).
    { cbn [opens_query] in Oq. unfold is_kw. destruct (tval x0); [|auto]. apply orb_false_iff in Oq. exact Oq. }
    destruct Hx as [Hx1 Hx2].
    set (K := S (S (len (x0 :: ee)))) in *.
    assert (He : forall m D R, (K <= m)%nat -> run fm_machine (r_subexpr (knot m) 0) (D, (x0 :: ee) ++ rpt pr1 pr2 sr :: R) = Ok a (rev (x0 :: ee) ++ D, rpt pr1 pr2 sr :: R)).
    { intros m D R L. exact (expr_before_paren _ _ _ pr1 pr2 sr We Be m D R L). }
    set (t1 := pre ++ lpt pl1 pl2 sl :: vt pv1 pv2 v :: rpt pr1 pr2 sr :: post) in *.
    set (t2 := pre ++ lpt pl1 pl2 sl :: (x0 :: ee) ++ rpt pr1 pr2 sr :: post).
    assert (W2 : Forall tok_wf t2).
    { unfold t1, t2 in *. apply Forall_app in W as [Wa Wb]. apply Forall_app. split; [exact Wa|]. inversion Wb as [|? ? Wl Wc]; subst.
      inversion Wc; subst. constructor; [assumption|]. apply Forall_app. auto. }
    set (n := (S (S (len t1)) + len t2)%nat).
    pose proof (base_fuel P erA k HP t1 n [] W ltac:(unfold n; lia)) as R1. rewrite B in R1. cbn [frame] in R1. rewrite app_nil_r in R1.
    destruct (fill_run pl1 pl2 pv1 pv2 pr1 pr2 sl v sr pre post x0 ee a F1 F2 Hx1 Hx2 Hx3 K He P (F v a)
      ltac:(intros r r' HR; eapply HF; eauto) n T _ R1) as (s' & st & R2 & HS & HF').
    pose proof (base_fuel P erA k HP t2 (n + K) [] W2 ltac:(unfold n; lia)) as R3. unfold t2 in R3 at 1. rewrite R2 in R3.
    fold t2. destruct (base P t2) as [b [sb1 sb2]| | |] eqn:B2; try discriminate R3. cbn [frame fst snd] in R3. rewrite app_nil_r in R3.
    injection R3 as <- ->. exists (sb1, sb2). split; [reflexivity|]. intros L. cbn [snd] in *.
    destruct st as [d1 u1|c1 u1]; cbn [at_place] in HS; destruct HS as [H1 H2].
    - injection H1 as H1 H3. rewrite H3, app_length in L. cbn in L. lia.
    - injection H1 as H1 H3. injection H2 as H2 H4. congruence.
  Qed.

  Lemma call_fill done todo pre lp lit rp post v done' te a T st todo' :
    Forall tok_wf todo -> Forall tok_wf te -> Forall tok_wf todo' ->
    sig todo = pre ++ lp :: lit :: rp :: post ->
    tkind lp = LParen -> kv lit = (SingleQuotedString, VStr v) -> tkind rp = RParen -> fresh v (pre ++ post) ->
    whole_expr te a -> opens_query (sig te) = false ->
    call P done todo = Ok T st ->
    map kv (sig todo') = map kv (pre ++ [lp]) ++ map kv (sig te) ++ map kv (rp :: post) ->
    exists b st', call P done' todo' = Ok b st' /\ erA no_pos same_rune b = erA no_pos same_rune (F v a T) /\
      ((List.length (sig (snd st)) <= List.length post)%nat -> left_over (snd st') = left_over (snd st)).
  Proof.
    intros W We W' E Klp Klit Krp Fr (ste & Ce & Se) Oq C E'. unfold left_over in *. rewrite !sig_fsig in *.
    pose proof (call_agrees parse_expr er_node 1 entry_expr [] te We) as A0. unfold agrees in A0. rewrite Ce in A0.
    destruct (base parse_expr (fsig te)) as [a0 [d0 t0]| | |] eqn:B0; try contradiction. destruct A0 as (<- & _ & A0). cbn [snd] in A0. rewrite Se in A0. subst t0.
    pose proof (call_agrees P erA k HP done todo W) as A1. unfold agrees in A1. rewrite C in A1.
    destruct (base P (fsig todo)) as [a1 s1| | |] eqn:B; try contradiction. destruct A1 as (<- & _ & A1).
    pose proof (fsig_wf _ W) as V. pose proof (fsig_wf _ We) as Ve. pose proof (fsig_wf _ W') as V'.
    rewrite E in V, B.
    destruct (base_fill pre lp lit rp post v (fsig te) a d0 T s1 V Ve Klp Klit Krp Fr B0 Oq B) as (s2 & B2 & L2).
    set (t2 := pre ++ lp :: fsig te ++ rp :: post) in *.
    assert (V2 : Forall tok_wf t2).
    { unfold t2. apply Forall_app in V as [Wa Wb]. apply Forall_app. split; [exact Wa|]. inversion Wb as [|? ? Wl Wc]; subst.
      inversion Wc; subst. constructor; [assumption|]. apply Forall_app. auto. }
    assert (E2 : map kv t2 = map kv (fsig todo')).
    { rewrite E'. unfold t2. rewrite !map_app. cbn [map app]. rewrite <- app_assoc, map_app. reflexivity. }
    pose proof (base_er P erA k HP no_pos same_rune no_pos same_rune t2 (fsig todo') eq_refl gok_same eq_refl gok_same V2 V' (kv_er _ _ E2)) as B3.
    rewrite B2 in B3.
    pose proof (call_agrees P erA k HP done' todo' W') as A2. unfold agrees in A2.
    pose proof (base_spec P erA k HP _ V') as S2. pose proof (base_spec P erA k HP _ V2) as S3. rewrite B2 in S3.
    destruct (base P (fsig todo')) as [b [z1 z2]| | |]; try contradiction.
    destruct (call P done' todo') as [b' st'| | |]; try contradiction.
    destruct A2 as (-> & _ & E5). destruct B3 as [B3 B4]. cbn [fst snd] in *.
    exists b, st'. split; [reflexivity|]. split; [symmetry; exact B3|]. intros L. change (sig (snd st')) with (fsig (snd st')). rewrite E5, A1. rewrite A1 in L.
    rewrite <- (L2 L).
    unfold Natural.er_st in B4. cbn [fst snd] in B4. injection B4 as B4 B5.
    destruct S2 as [S2 _], S3 as [S3 _]. rewrite S2, S3 in E2.
    assert (LL : len (rev (fst s2)) = len (rev z1)) by (rewrite !rev_length, <- (map_length (Erase.er_tok no_pos same_rune)), B4, map_length; reflexivity).
    rewrite !map_app in E2. apply (f_equal (skipn (len (rev z1)))) in E2.
    rewrite skipn_app, skipn_all2 in E2 by (rewrite map_length; lia). rewrite skipn_app, (skipn_all2 (map kv (rev z1))) in E2 by (rewrite map_length; lia).
    rewrite !map_length, LL, Nat.sub_diag in E2. cbn [skipn app] in E2. symmetry. exact E2.
  Qed.
End Method.

Lemma fill_calls {A} (P : rec -> prog A) erA F : template P erA F ->
  forall done todo pre lp lit rp post v done' te a T st todo',
    Forall tok_wf todo -> Forall tok_wf te -> Forall tok_wf todo' ->
    sig todo = pre ++ lp :: lit :: rp :: post ->
    tkind lp = LParen -> kv lit = (SingleQuotedString, VStr v) -> tkind rp = RParen -> fresh v (pre ++ post) ->
    whole_expr te a -> opens_query (sig te) = false ->
    call P done todo = Ok T st ->
    map kv (sig todo') = map kv (pre ++ [lp]) ++ map kv (sig te) ++ map kv (rp :: post) ->
    exists b st', call P done' todo' = Ok b st' /\ erA no_pos same_rune b = erA no_pos same_rune (F v a T) /\
      ((List.length (sig (snd st)) <= List.length post)%nat -> left_over (snd st') = left_over (snd st)).
Proof.
  intros H. destruct H.
  - apply (call_fill parse_expr er_node 1 entry_expr fill_node). intros. apply sbe_sbf. eapply parse_expr_sb; eauto.
  - apply (call_fill parse_statement er_stmt 1 entry_stmt fill_stmt). intros. eapply parse_statement_sb; eauto.
  - apply (call_fill (parse_sql false) (fun fp g => map (er_stmt fp g)) 0 (entry_sql false) (fun v a => map (fill_stmt v a))). intros. eapply parse_sql_sb; eauto.
Qed.

(** * Texts *)
Lemma tok_join d a b ta tb : dialect_ok d -> tokenize d true a = TOk ta -> tokenize d true b = TOk tb -> skip_bom b = b ->
  exists t, tokenize d true (a ++ 10 :: b) = TOk t /\ map kv (sig t) = map kv (sig ta) ++ map kv (sig tb).
Proof.
  intros D Ta Tb Eb. destruct (tokenize_reads d a ta D Ta) as (l & R & ->).
  destruct (join_lex d a l b D R) as (lx & Rx & Ex).
  assert (R0 : LexSpec.reads d start_pos (skip_bom b) [] b) by (rewrite Eb; constructor).
  pose proof (tokenize_tail d _ _ lx [] b D Rx R0) as T. rewrite Tb in T.
  destruct (tokenize d true (a ++ 10 :: b)) as [ts| | |]; try contradiction.
  destruct T as (m & m' & -> & E2 & E3 & _). cbn in E2. subst tb. exists (map fst lx ++ m). split; [reflexivity|].
  rewrite sig_app, map_app, Ex, (sig_kv _ _ E3). reflexivity.
Qed.

Lemma tok_one d s k v : dialect_ok d -> skip_bom s = s -> lexeme d k v s [] -> is_ws_kind k = false ->
  exists t, tokenize d true s = TOk [t] /\ kv t = (k, v) /\ sig [t] = [t].
Proof.
  intros D B L N. eexists. split; [apply (tokenize_complete d s [(mkTok k v start_pos (token_end k v s start_pos), s)] D)|].
  - rewrite B. pose proof (reads_one d start_pos k v s [] L) as R. rewrite app_nil_r in R. exact R.
  - split; [reflexivity|]. unfold sig, blank. cbn [filter tkind]. destruct k; try discriminate N; reflexivity.
Qed.

Lemma skip_app_nl b c : skip_bom b = b -> skip_bom (b ++ 10 :: c) = b ++ 10 :: c.
Proof. destruct b as [|x b]; [reflexivity|]. cbn. destruct (x =? 65279); [|reflexivity]. intros E. exfalso. apply (f_equal (@List.length _)) in E. cbn in E. lia. Qed.

Lemma filled_toks d x m y tx tm ty : dialect_ok d -> tokenize d true x = TOk tx -> tokenize d true m = TOk tm -> tokenize d true y = TOk ty ->
  skip_bom m = m -> skip_bom y = y ->
  exists t, tokenize d true (filled x m y) = TOk t /\
    map kv (sig t) = map kv (sig tx) ++ (LParen, VStr (gs "(")) :: map kv (sig tm) ++ (RParen, VStr (gs ")")) :: map kv (sig ty).
Proof.
  intros D Tx Tm Ty Bm By.
  destruct (tok_one d [40] LParen (VStr (gs "(")) D eq_refl) as (l & Tl & Kl & Sl);
    [apply (Lx_symbol d "(" LParen ""); [cbn; tauto|exact I]|reflexivity|].
  destruct (tok_one d [41] RParen (VStr (gs ")")) D eq_refl) as (r & Tr & Kr & Sr);
    [apply (Lx_symbol d ")" RParen ""); [cbn; tauto|exact I]|reflexivity|].
  destruct (tok_join d [41] y _ _ D Tr Ty By) as (t1 & T1 & E1).
  destruct (tok_join d m ([41] ++ 10 :: y) _ _ D Tm T1 eq_refl) as (t2 & T2 & E2).
  destruct (tok_join d [40] (m ++ 10 :: [41] ++ 10 :: y) _ _ D Tl T2 (skip_app_nl _ _ Bm)) as (t3 & T3 & E3).
  destruct (tok_join d x ([40] ++ 10 :: m ++ 10 :: [41] ++ 10 :: y) _ _ D Tx T3 eq_refl) as (t4 & T4 & E4).
  exists t4. split; [exact T4|]. rewrite E4, E3, E2, E1, Sl, Sr. cbn [map app]. rewrite Kl, Kr. reflexivity.
Qed.

Lemma map_cut {A B} (f : A -> B) : forall l a b, map f l = a ++ b -> exists l1 l2, l = l1 ++ l2 /\ map f l1 = a /\ map f l2 = b.
Proof.
  intros l a b E. exists (firstn (List.length a) l), (skipn (List.length a) l). split; [symmetry; apply firstn_skipn|].
  rewrite <- firstn_map, <- skipn_map, E. split.
  - rewrite firstn_app, Nat.sub_diag, firstn_all. cbn. apply app_nil_r.
  - rewrite skipn_app, Nat.sub_diag, skipn_all. reflexivity.
Qed.

Lemma cons_inj {A} (x y : A) l m : x :: l = y :: m -> x = y /\ l = m.
Proof. intros E. injection E as -> ->. auto. Qed.

Lemma fill_texts {A} (P : rec -> prog A) erA F : template P erA F ->
  forall d x y tx ty v e te a T, dialect_ok d ->
    tokenize d true x = TOk tx -> tokenize d true y = TOk ty -> skip_bom y = y -> fresh v (tx ++ ty) ->
    tokenize d true e = TOk te -> skip_bom e = e -> whole_expr te a -> opens_query (sig te) = false ->
    parse_with P d (filled x (literal v) y) = ROk T ->
    exists b, parse_with P d (filled x e y) = ROk b /\ erA no_pos same_rune b = erA no_pos same_rune (F v a T).
Proof.
  intros HT d x y tx ty v e te a T D Tx Ty By Fr Te Be We Oq R.
  destruct (tok_one d (literal v) SingleQuotedString (VStr v) D eq_refl) as (lit & Tv & Kv & Sv);
    [apply (Lx_string d v []); exact I|reflexivity|].
  destruct (filled_toks d x (literal v) y _ _ _ D Tx Tv Ty eq_refl By) as (t & T1 & E1).
  destruct (filled_toks d x e y _ _ _ D Tx Te Ty Be By) as (t' & T2 & E2).
  unfold parse_with in *. rewrite T1 in R. rewrite T2.
  pose proof (SrcThms.tokenize_wf _ _ _ _ D T1) as W1. pose proof (SrcThms.tokenize_wf _ _ _ _ D T2) as W2. pose proof (SrcThms.tokenize_wf _ _ _ _ D Te) as W3.
  rewrite Sv in E1. cbn [map app] in E1. rewrite Kv in E1.
  destruct (map_cut _ _ _ _ E1) as (pre & l1 & E3 & E4 & E5).
  destruct l1 as [|lp [|lv [|rp post]]]; try discriminate E5. cbn [map] in E5.
  apply cons_inj in E5 as [Q1 E5]. apply cons_inj in E5 as [Q2 E5]. apply cons_inj in E5 as [Q3 E5].
  pose proof (f_equal fst Q1) as K1. pose proof (f_equal fst Q3) as K3. cbn [kv fst] in K1, K3.
  unfold run_raw in *. change (res_of (call P [] t) = ROk T) in R. change (exists b, res_of (call P [] t') = ROk b /\ erA no_pos same_rune b = erA no_pos same_rune (F v a T)).
  destruct (call P [] t) as [T0 st| | |] eqn:C; try discriminate R. cbn [res_of] in R. injection R as ->.
  destruct (fill_calls P erA F HT [] t pre lp lv rp post v [] te a T st t' W1 W3 W2 E3 K1) as (b & st' & C' & E' & _); auto.
  - intros I. apply Fr. rewrite map_app, E4, E5 in I. rewrite map_app. apply in_app_or in I. apply in_or_app.
    assert (X : forall l, incl (map kv (sig l)) (map kv l)).
    { intros l z Hz. apply in_map_iff in Hz as (z' & <- & Hz). apply in_map. unfold sig in Hz. apply filter_In in Hz. tauto. }
    destruct I as [I|I]; apply X in I; auto.
  - rewrite E2, map_app, <- E4, <- E5. cbn [map app]. rewrite <- app_assoc. cbn [app]. rewrite Q1, Q3. reflexivity.
  - exists b. rewrite C'. auto.
Qed.


(** * Values *)
Lemma maps_eq {A B C} (h : B -> C) (f g : A -> B) l : Forall (fun x => h (f x) = h (g x)) l -> map h (map f l) = map h (map g l).
Proof. induction 1; cbn; congruence. Qed.
Lemma opts_eq {A B C} (h : B -> C) (f g : A -> B) o : opt_all (fun x => h (f x) = h (g x)) o -> option_map h (option_map f o) = option_map h (option_map g o).
Proof. destruct o; cbn; congruence. Qed.
Lemma all_maps {A B C} (h : B -> C) (f g : A -> B) : (forall x, h (f x) = h (g x)) -> forall l, map h (map f l) = map h (map g l).
Proof. intros H l. apply maps_eq. induction l; auto. Qed.
Lemma all_opts {A B C} (h : B -> C) (f g : A -> B) : (forall x, h (f x) = h (g x)) -> forall o, option_map h (option_map f o) = option_map h (option_map g o).
Proof. intros H [x|]; cbn; congruence. Qed.

Section Same.
  Variables (fp : pos -> pos) (g : rune -> rune) (v : gostring) (a a' : node).
  Hypothesis Ea : er_node fp g a = er_node fp g a'.
  Notation "'same' h F" := (fun x => h fp g (F v a x) = h fp g (F v a' x)) (at level 10, h at level 9, F at level 9).

  Lemma fill_same :
    (forall e, same er_node fill_node e) /\ (forall w, same er_winspec fill_winspec w) /\ (forall o, same er_orderby fill_orderby o) /\
    (forall q, same er_query fill_query q) /\ (forall c, same er_cte fill_cte c) /\ (forall b, same er_setexpr fill_setexpr b) /\
    (forall s, same er_select fill_select s) /\ (forall i, same er_selitem fill_selitem i) /\ (forall t, same er_tableref fill_tableref t) /\
    (forall j, same er_joinspec fill_joinspec j).
  Proof.
    apply ast_ind; intros;
      try solve [reflexivity | cbn [fill_node fill_winspec fill_orderby fill_query fill_cte fill_setexpr fill_select fill_selitem fill_tableref fill_joinspec
        er_node er_winspec er_orderby er_query er_cte er_setexpr er_select er_selitem er_tableref er_joinspec];
        f_equal; first [assumption | apply maps_eq; assumption | apply opts_eq; assumption]].
    - cbn. f_equal; try (apply opts_eq; assumption). rewrite !map_map. apply map_ext_Forall. cbn.
      eapply Forall_impl; [|eassumption]. intros b [X1 X2]. cbn. congruence.
    - cbn. destruct (gs_eqb s v); [exact Ea|reflexivity].
  Qed.

  Lemma same_n : forall e, same er_node fill_node e. Proof. apply fill_same. Qed.
  Lemma same_q : forall q, same er_query fill_query q. Proof. apply fill_same. Qed.
  Lemma same_row : forall r, same er_row fill_row r.
  Proof. intros r. unfold er_row, fill_row. cbn. f_equal. apply all_maps, same_n. Qed.
  Lemma same_assign : forall x, same er_assign fill_assign x.
  Proof. intros r. unfold er_assign, fill_assign. cbn. f_equal. apply same_n. Qed.
  Lemma same_src : forall s, same er_src fill_src s.
  Proof. intros [q|p rows]; cbn; f_equal; [apply same_q|apply all_maps, same_row]. Qed.
  Lemma same_tc : forall c, same er_tc fill_tc c.
  Proof. intros c. unfold er_tc, fill_tc. cbn. f_equal. destruct (tc_spec c); cbn; f_equal. apply same_n. Qed.
  Lemma same_cc : forall c, same er_cc fill_cc c.
  Proof. intros c. unfold er_cc, fill_cc. cbn. f_equal. destruct (cc_spec c); cbn; f_equal. apply same_n. Qed.
  Lemma same_coldef : forall c, same er_coldef fill_coldef c.
  Proof. intros c. unfold er_coldef, fill_coldef. cbn. f_equal; [apply all_opts, same_n|apply all_maps, same_cc]. Qed.
  Lemma same_element : forall e, same er_element fill_element e.
  Proof. intros [c|c]; cbn; f_equal; [apply same_coldef|apply same_tc]. Qed.
  Lemma same_ataction : forall x, same er_ataction fill_ataction x.
  Proof. intros []; cbn; f_equal; try apply same_coldef; try apply same_tc. match goal with |- context [fill_acaction _ _ ?z] => destruct z end; cbn; f_equal. apply same_n. Qed.
  Lemma same_stmt : forall s, same er_stmt fill_stmt s.
  Proof.
    induction s; cbn; f_equal; auto using same_q, same_src, same_ataction, same_n;
      first [apply all_maps; auto using same_assign, same_element | apply all_opts, same_n].
  Qed.
End Same.

Lemma template_same {A} (P : rec -> prog A) erA F : template P erA F ->
  forall v a a' T, er_node no_pos same_rune a = er_node no_pos same_rune a' -> erA no_pos same_rune (F v a T) = erA no_pos same_rune (F v a' T).
Proof. intros H v a a' T E. destruct H; [apply same_n|apply same_stmt|apply all_maps; intros; apply same_stmt]; exact E. Qed.


Lemma fill_values {A} (P : rec -> prog A) erA F : template P erA F ->
  forall d x y tx ty v w T, dialect_ok d ->
    tokenize d true x = TOk tx -> tokenize d true y = TOk ty -> skip_bom y = y -> fresh v (tx ++ ty) ->
    parse_with P d (filled x (literal v) y) = ROk T ->
    exists b, parse_with P d (filled x (literal w) y) = ROk b /\
      erA no_pos same_rune b = erA no_pos same_rune (F v (EString pos0 pos0 w) T).
Proof.
  intros HT d x y tx ty v w T D Tx Ty By Fr R.
  destruct (tok_one d (literal w) SingleQuotedString (VStr w) D eq_refl) as (lit & Tv & Kv & Sv);
    [apply (Lx_string d w []); exact I|reflexivity|].
  apply kv_tok in Kv.
  destruct (fill_texts P erA F HT d x y tx ty v (literal w) [lit] (EString (tfrom lit) (tto lit) w) T D Tx Ty By Fr Tv eq_refl) as (b & Rb & Eb); auto.
  - rewrite Kv. eexists. split; [reflexivity|reflexivity].
  - rewrite Sv, Kv. reflexivity.
  - exists b. split; [exact Rb|]. rewrite Eb. apply (template_same P erA F HT). reflexivity.
Qed.
