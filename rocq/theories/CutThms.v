(** Joining and cutting scripts (C46). *)
From Coq Require Import ZArith List Bool String Lia.
From Verif Require Import Base Dialect Token Lexer LexSpec LexFacts LexPos LexThms AST Num Nodes Prog Parser Sim Term Erase ParserThms ParseSpec
  SqlThms SrcThms ApiThms RoundSpec PosEnd CommentThms Grammar GrammarThms SpanSpec SpanThms ExtentSpec ExtentThms CutSpec.
Import ListNotations.
Open Scope list_scope.
Open Scope Z_scope.

(** * Text *)
Lemma lexeme_end d k v s r : lexeme d k v s r -> lexeme d k v s [].
Proof. intros H. destruct H; econstructor; eauto; try exact I; try (intros; exact I). Qed.

Lemma part_no d r : dialect_ok d -> word_char r = false -> is_part d r = false.
Proof. intros (_ & H & _) E. destruct (is_part d r) eqn:K; [|reflexivity]. apply H in K. congruence. Qed.

Lemma lexeme_lf d k v s r rest : dialect_ok d -> lexeme d k v s r -> s <> [13] -> lexeme d k v s (10 :: rest).
Proof.
  intros D H N. destruct H; try congruence; try (constructor; auto; reflexivity); try (constructor; auto; fail).
  - apply Lx_word; [assumption|assumption|cbn; apply part_no; [exact D|reflexivity]|intros; reflexivity].
  - apply Lx_symbol with f; auto. cbn [symbols In] in H.
    repeat (destruct H as [H|H]; [injection H as <- <- <-; reflexivity|]). contradiction.
Qed.

Lemma lexeme_semi d k v s r rest : dialect_ok d -> lexeme d k v s r -> is_ws_kind k = false -> lexeme d k v s (59 :: rest).
Proof.
  intros D H N. destruct H; try discriminate N; try (constructor; auto; reflexivity); try (constructor; auto; fail).
  - apply Lx_word; [assumption|assumption|cbn; apply part_no; [exact D|reflexivity]|intros; reflexivity].
  - apply Lx_symbol with f; auto. cbn [symbols In] in H.
    repeat (destruct H as [H|H]; [injection H as <- <- <-; reflexivity|]). contradiction.
Qed.

Lemma keeps_end d p text l rem : LexSpec.reads d p text l rem -> keeps d l [].
Proof.
  intros R. unfold keeps. destruct (rev l) as [|[t s] m] eqn:E; [exact I|].
  assert (El : l = rev m ++ [(t, s)]) by (rewrite <- (rev_involutive l), E; reflexivity).
  destruct (reads_lexemes _ _ _ _ _ R (rev m) t s [] El) as [H _]. eapply lexeme_end, H.
Qed.

Lemma reads_split d p text l1 l2 rem : LexSpec.reads d p text (l1 ++ l2) rem ->
  exists mid q, LexSpec.reads d p text l1 mid /\ LexSpec.reads d q mid l2 rem.
Proof.
  revert p text. induction l1 as [|x l1 IH]; intros p text R; [exists text, p; split; [constructor|exact R]|].
  cbn [app] in R. inversion R as [|? ? ? text' ? ? ? ? H1 H2 H3]; subst. destruct (IH _ _ H3) as (mid & q & R1 & R2).
  exists mid, q. split; [|exact R2]. econstructor; eauto.
Qed.

(** A run of tokens alone, or with a semicolon after it. *)
Lemma run_alone d p text l1 l2 l3 : LexSpec.reads d p text (l1 ++ l2 ++ l3) [] -> forall p',
  exists l', LexSpec.reads d p' (text_of l2) l' [] /\ map kv (map fst l') = map kv (map fst l2).
Proof.
  intros R p'. destruct (reads_split _ _ _ _ _ _ R) as (m1 & q & _ & R1). destruct (reads_split _ _ _ _ _ _ R1) as (m2 & q' & R2 & _).
  pose proof (reads_swap _ _ _ _ _ [] R2 (keeps_end _ _ _ _ _ R2)) as R3. rewrite app_nil_r in R3.
  destruct (reads_shift _ _ _ _ _ R3 p') as (l' & R' & _ & E). exists l'. auto.
Qed.

Lemma semi_lexeme d rest : lexeme d Semicolon (VStr (gs ";")) (gs ";") rest.
Proof. apply Lx_symbol with ""%string; [cbn; tauto|destruct rest; reflexivity || exact I]. Qed.

(** * Tokens *)
Lemma sql_kv ts ts' : Forall tok_wf ts -> Forall tok_wf ts' -> map kv (sig ts) = map kv (sig ts') ->
  res_map (map bare_stmt) (sql_of ts) = res_map (map bare_stmt) (sql_of ts').
Proof. intros W W' E. exact (positions_erased _ _ _ (pub_sql false) [] ts [] ts' W W' E). Qed.

Lemma sig_kv ts ts' : map kv ts = map kv ts' -> map kv (sig ts) = map kv (sig ts').
Proof. rewrite !sig_fsig. apply fsig_kv. Qed.

Lemma sig_app a b : sig (a ++ b) = sig a ++ sig b.
Proof. rewrite !sig_fsig. apply fsig_app. Qed.

Lemma source_toks d src l : dialect_ok d -> LexSpec.reads d start_pos (skip_bom src) l [] ->
  tokenize d true src = TOk (map fst l) /\ parse_source d src = sql_of (map fst l) /\ Forall tok_wf (map fst l).
Proof.
  intros D R. assert (T : tokenize d true src = TOk (map fst l)) by (apply tokenize_complete; auto).
  split; [exact T|]. split; [unfold parse_source, parse_with; rewrite T; reflexivity|]. eapply SrcThms.tokenize_wf; eauto.
Qed.

Lemma source_reads d src ss : dialect_ok d -> parse_source d src = ROk ss ->
  exists l, LexSpec.reads d start_pos (skip_bom src) l [] /\ sql_of (map fst l) = ROk ss /\ Forall tok_wf (map fst l).
Proof.
  intros D E. unfold parse_source, parse_with in E. destruct (tokenize d true src) as [ts| | |] eqn:T; try discriminate.
  pose proof (SrcThms.tokenize_wf _ _ _ _ D T) as W. destruct (tokenize_reads d src ts D T) as (l & R & ->). exists l. auto.
Qed.

(** * Joining *)
Lemma skip_app a b : a <> [] -> skip_bom (a ++ b) = skip_bom a ++ b.
Proof. destruct a as [|c a]; [contradiction|]. intros _. cbn. destruct (c =? 65279); reflexivity. Qed.

Lemma reads_one d p k v s b : lexeme d k v s b -> LexSpec.reads d p (s ++ b) [(mkTok k v p (token_end k v s p), s)] b.
Proof. intros H. econstructor; [exact H|reflexivity|constructor]. Qed.

Lemma cr_blank d k v r : dialect_ok d -> lexeme d k v [13] r -> k = Whitespace.
Proof.
  intros (D & _ & _) H. remember [13] as s eqn:E. destruct H; try discriminate E; try reflexivity.
  - injection E as -> ->. destruct H as [H|H]; [|discriminate H]. apply D in H. destruct H. discriminate.
  - destruct s; discriminate E.
  - injection E as -> ->. discriminate.
  - exfalso. cbn [symbols In] in H. repeat (destruct H as [H|H]; [injection H as <- <- <-; discriminate E|]). contradiction.
  - injection E as ->. exfalso. apply H. cbn. tauto.
Qed.

Lemma join_lex d a l b : dialect_ok d -> LexSpec.reads d start_pos (skip_bom a) l [] ->
  exists lx, LexSpec.reads d start_pos (skip_bom (a ++ 10 :: b)) lx b /\ map kv (sig (map fst lx)) = map kv (sig (map fst l)).
Proof.
  intros D R.
  assert (E : skip_bom (a ++ 10 :: b) = skip_bom a ++ 10 :: b) by (destruct a; [reflexivity|apply skip_app; discriminate]).
  rewrite E. clear E. destruct (reads_concat _ _ _ _ _ R) as [Ec _]. rewrite app_nil_r in Ec.
  destruct (rev l) as [|[t s] m] eqn:El.
  - assert (l = []) by (rewrite <- (rev_involutive l), El; reflexivity). subst l. cbn in Ec. rewrite Ec. cbn [app].
    eexists. split; [exact (reads_one d start_pos _ _ _ b (Lx_lf d b))|reflexivity].
  - assert (Es : l = rev m ++ [(t, s)]) by (rewrite <- (rev_involutive l), El; reflexivity).
    destruct (reads_lexemes _ _ _ _ _ R (rev m) t s [] Es) as [H _]. cbn in H.
    destruct (list_eq_dec Z.eq_dec s [13]) as [->|N].
    + (* a carriage return and the new line are one blank *)
      rewrite Es in R. destruct (reads_split _ _ _ _ _ _ R) as (mid & q & R1 & R2).
      assert (K : keeps d (rev m) (13 :: 10 :: b)).
      { inversion R2 as [|? ? ? text' ? ? ? ? H1 H2 H3]; subst. inversion H3; subst. 
        unfold keeps. destruct (rev (rev m)) as [|[t' s'] m'] eqn:Em; [exact I|].
        assert (Em' : rev m = rev m' ++ [(t', s')]) by (rewrite <- (rev_involutive (rev m)), Em; reflexivity).
        destruct (reads_lexemes _ _ _ _ _ R1 (rev m') t' s' [] Em') as [H' _]. cbn in H'.
        eapply lexeme_hd; [|exact H']. reflexivity. }
      pose proof (reads_swap _ _ _ _ _ _ R1 K) as R3.
      assert (Ea : skip_bom a = List.concat (map snd (rev m)) ++ [13]) by (rewrite Ec, Es, map_app, concat_app; reflexivity).
      pose proof (cr_blank _ _ _ _ D H) as Kt.
      eexists. split.
      * rewrite Ea, <- app_assoc. eapply reads_app; [exact R3|].
        exact (reads_one d _ _ _ _ b (Lx_crlf d b)).
      * rewrite Es, !map_app, !sig_app, !map_app. f_equal. cbn [map fst]. unfold sig, blank. cbn [filter]. rewrite Kt. reflexivity.
    + pose proof (reads_swap _ _ _ _ _ (10 :: b) R) as R3. rewrite Ec. 
      eexists. split.
      * eapply reads_app; [apply R3|].
        -- unfold keeps. rewrite El. eapply lexeme_lf; eauto.
        -- exact (reads_one d _ _ _ _ b (Lx_lf d b)).
      * rewrite !map_app, sig_app, map_app. cbn. now rewrite app_nil_r.
Qed.

Lemma bare_semi ts ts' : map kv ts = map kv ts' -> (forall t r, ts' = t :: r -> tkind t <> Semicolon) ->
  forall t r, ts = t :: r -> tkind t <> Semicolon.
Proof.
  intros E H t r ->. destruct ts' as [|t' r']; [discriminate|]. cbn in E. injection E as E _ _. rewrite E. eapply H. reflexivity.
Qed.

Lemma res_map_eq {A B C} (f : A -> B) (g : B -> C) x y : res_map f x = res_map f y -> res_map (fun a => g (f a)) x = res_map (fun a => g (f a)) y.
Proof. destruct x, y; cbn; congruence. Qed.

(** Tokens of a text that parses, followed by others. *)
Lemma sql_join ta tx m la : Forall tok_wf ta -> Forall tok_wf (tx ++ m) -> map kv (sig tx) = map kv (sig ta) -> sql_of ta = ROk la ->
  (forall t r, sig m = t :: r -> tkind t <> Semicolon) ->
  res_map (map bare_stmt) (sql_of (tx ++ m)) = res_map (fun lb => map bare_stmt (la ++ lb)) (sql_of m).
Proof.
  intros Wa W E H N. pose proof W as W'. rewrite Forall_app in W'. destruct W' as [Wx Wm].
  pose proof (sql_kv _ _ Wx Wa E) as B. rewrite H in B.
  destruct (sql_of tx) as [lx| | |] eqn:Ex; try discriminate. cbn [res_map] in B. injection B as B.
  assert (G : res_map (map bare_stmt) (sql_of (tx ++ m)) = res_map (fun lb => map bare_stmt (lx ++ lb)) (sql_of m)).
  { destruct (sql_closed tx lx Wx Ex) as [C|(t' & s & C & K)].
    - rewrite (sql_of_list (tx ++ m)), (sql_of_list m) by assumption. rewrite fsig_app, C. cbn [app].
      rewrite sql_of_list, C in Ex by assumption. cbn in Ex. injection Ex as <-. reflexivity.
    - rewrite (sql_of_list (tx ++ m)), (sql_of_list m) by assumption. rewrite fsig_app, C, <- app_assoc. cbn [app].
      pose proof (fsig_wf _ Wx) as W1. rewrite C, Forall_app in W1. destruct W1 as [W1 W2].
      rewrite (sql_list_split s (fsig m) K ltac:(inversion_clear W2; constructor; [assumption|apply fsig_wf; assumption])) with (n := S (len t')); [| |lia|exact W1].
      + rewrite sql_of_list, C in Ex by assumption. rewrite Ex. rewrite res_map_map. reflexivity.
      + destruct (fsig m) as [|x r] eqn:F; [reflexivity|]. cbn. specialize (N x r). rewrite sig_fsig in N. specialize (N F).
        unfold is_kind. destruct (tkind x); try reflexivity. congruence. }
  rewrite G. apply res_map_ext. intros lb. rewrite !map_app, B. reflexivity.
Qed.

Lemma join d a b la : dialect_ok d -> parse_source d a = ROk la -> skip_bom b = b -> no_lead_semi d b ->
  res_map (map bare_stmt) (parse_source d (a ++ 10 :: b)) = res_map (fun lb => map bare_stmt (la ++ lb)) (parse_source d b).
Proof.
  intros D Ea Eb N. destruct (source_reads d a la D Ea) as (l & R & E & W).
  destruct (join_lex d a l b D R) as (lx & Rx & Ex).
  assert (R0 : LexSpec.reads d start_pos (skip_bom b) [] b) by (rewrite Eb; constructor).
  pose proof (tokenize_tail d _ _ lx [] b D Rx R0) as T.
  unfold parse_source, parse_with.
  destruct (tokenize d true (a ++ 10 :: b)) as [ts| | |] eqn:T1, (tokenize d true b) as [ts'| | |] eqn:T2; try contradiction; try reflexivity.
  destruct T as (m & m' & -> & E2 & E3 & _). cbn in E2. subst ts'.
  pose proof (SrcThms.tokenize_wf _ _ _ _ D T1) as W1. pose proof (SrcThms.tokenize_wf _ _ _ _ D T2) as W2.
  pose proof W1 as W1'. rewrite Forall_app in W1'.
  change (res_map (map bare_stmt) (sql_of (map fst lx ++ m)) = res_map (fun lb => map bare_stmt (la ++ lb)) (sql_of m')).
  rewrite (sql_join (map fst l) (map fst lx) m la W W1 Ex E).
  - pose proof (sql_kv m m' ltac:(tauto) W2 (sig_kv _ _ E3)) as B.
    apply (res_map_eq _ (fun l => map bare_stmt la ++ l)) in B.
    rewrite (res_map_ext _ (fun a => map bare_stmt la ++ map bare_stmt a) (sql_of m)) by (intros; apply map_app).
    rewrite (res_map_ext _ (fun a => map bare_stmt la ++ map bare_stmt a) (sql_of m')) by (intros; apply map_app). exact B.
  - eapply bare_semi; [apply sig_kv, E3|]. intros t r Es. eapply N; eauto.
Qed.

(** * Cutting *)
Lemma sig_pick (l : list (token * list rune)) : forall a x b, sig (map fst l) = a ++ x :: b ->
  exists l1 y l2, l = l1 ++ y :: l2 /\ fst y = x /\ sig (map fst l1) = a /\ sig (map fst l2) = b.
Proof.
  induction l as [|[t s] l IH]; intros a x b; [destruct a; discriminate|]. cbn [map fst]. unfold sig at 1. cbn [filter].
  fold (sig (map fst l)). destruct (negb (blank t)) eqn:K.
  - destruct a as [|y a]; cbn [app]; intros E; injection E as -> E.
    + exists [], (x, s), l. auto.
    + destruct (IH _ _ _ E) as (l1 & z & l2 & -> & E1 & E2 & E3). exists ((y, s) :: l1), z, l2. repeat (split; [auto|]); [|auto].
      unfold sig. cbn [map fst filter]. rewrite K. f_equal. exact E2.
  - intros E. destruct (IH _ _ _ E) as (l1 & z & l2 & -> & E1 & E2 & E3). exists ((t, s) :: l1), z, l2. repeat (split; [auto|]); [|auto].
    unfold sig. cbn [map fst filter]. rewrite K. exact E2.
Qed.

Lemma semi_false x : is_kind Semicolon x = false -> tkind x <> Semicolon.
Proof. unfold is_kind. intros H E. rewrite E in H. discriminate. Qed.

(** A statement starts with a word. *)
Definition starter (x : token) : Prop := exists w c k, tval x = VWord w /\ wkeyword w = c :: k /\ 65 <= c <= 90.

Lemma st_starter x u s st : tok_wf x -> st_base (x :: u) = Ok s st -> starter x.
Proof.
  intros W. unfold base. generalize (knot (S (S (len (x :: u))))). intros r. cbn [run parse_statement].
  destruct (tval x) as [w|] eqn:V; [|intros H; exfalso; revert H; unfold parse_statement, next_err; cbn; rewrite V; discriminate].
  destruct (existsb (gs_eqb (wkeyword w)) (map gs ["SELECT"; "WITH"; "CREATE"; "DELETE"; "INSERT"; "ALTER"; "UPDATE"; "DROP"; "EXPLAIN"]%string)) eqn:K.
  - intros _. apply existsb_exists in K. destruct K as (k & I & K). apply gs_eqb_eq in K. cbn in I.
    repeat (destruct I as [<-|I]; [unfold starter; do 3 eexists; split; [exact V|]; split; [exact K|]; lia|]). contradiction.
  - intros H. exfalso. revert H. cbn [existsb map] in K. rewrite !orb_false_iff in K. decompose [and] K.
    unfold parse_statement, next_err. cbn [bind run]. cbn. rewrite V. unfold kw.
    repeat match goal with Q : gs_eqb _ _ = false |- _ => rewrite Q; clear Q end. cbn. discriminate.
Qed.

Lemma starter_text d k v s r : dialect_ok d -> lexeme d k v s r -> starter (mkTok k v pos0 pos0) -> exists c t, s = c :: t /\ c <> 65279.
Proof.
  intros (D1 & D2 & D3) H (w & c & m & V & K & L). cbn [tval] in V. destruct H; try discriminate V.
  - injection V as <-. cbn [wkeyword] in K. do 2 eexists. split; [reflexivity|]. intros ->. cbn in K. injection K as K _. cbn in K. lia.
  - do 2 eexists. split; [reflexivity|]. destruct (D3 q H); lia.
Qed.

(** The first statement of a list. *)
Lemma list_first n t s ss : Forall tok_wf t -> (len t < n)%nat -> sql_list n false t = ROk (s :: ss) ->
  exists ld x used sc u st, t = ld ++ x :: used ++ sc :: u /\ (ld = [] \/ exists z, ld = [z] /\ tkind z = Semicolon) /\
    tkind sc = Semicolon /\ starter x /\ starts_semi u = false /\ st_base (x :: used ++ sc :: u) = Ok s st /\ snd st = sc :: u /\
    sql_list (S (len (x :: used ++ [sc]))) false (x :: used ++ [sc]) = ROk [s] /\
    sql_list (S (len u)) false u = ROk ss.
Proof.
  intros W L H. destruct n as [|n]; [lia|]. cbn [sql_list] in H. rewrite andb_false_r in H.
  set (t1 := if starts_semi t then tl t else t) in *.
  assert (Et : exists ld, t = ld ++ t1 /\ (ld = [] \/ exists z, ld = [z] /\ tkind z = Semicolon)).
  { unfold t1. destruct t as [|z t]; cbn [starts_semi tl]; [exists []; auto|].
    destruct (is_kind Semicolon z) eqn:K; [|exists []; auto]. exists [z]. split; [reflexivity|]. right. exists z. split; [auto|].
    apply is_kind_eq, K. }
  destruct Et as (ld & Et & Hld).
  assert (W1 : Forall tok_wf t1) by (rewrite Et, Forall_app in W; apply W).
  assert (L1 : (len t1 <= len t)%nat) by (rewrite Et, app_length; lia).
  clearbody t1. destruct t1 as [|x t1]; [discriminate|].
  destruct (st_base (x :: t1)) as [s' st| | |] eqn:B; try discriminate.
  destruct (st_len _ _ _ W1 B) as [L2 W2]. pose proof (st_spec _ W1) as SP. rewrite B in SP. destruct SP as [SP NE].
  destruct (sql_list n true (snd st)) as [ss'| | |] eqn:S1; try discriminate. cbn [res_map] in H. injection H as -> ->.
  destruct (snd st) as [|sc u] eqn:Es; [destruct n; discriminate|].
  assert (S1' : sql_list (S (S (len (sc :: u)))) true (sc :: u) = ROk ss).
  { rewrite <- S1. apply sql_list_fuel; auto; lia. }
  cbn [sql_list starts_semi] in S1'. destruct (is_kind Semicolon sc) eqn:K; cbn [negb andb tl] in S1'; [|discriminate].
  inversion_clear W2 as [|? ? Wsc Wu].
  assert (U : starts_semi u = false /\ sql_list (S (len u)) false u = ROk ss).
  { destruct u as [|y u]; [split; [reflexivity|exact S1']|]. cbn [starts_semi]. destruct (is_kind Semicolon y) eqn:Ky.
    - exfalso. inversion_clear Wu. rewrite st_semi in S1' by (auto; apply is_kind_eq, Ky). discriminate.
    - split; [reflexivity|]. cbn [sql_list starts_semi]. rewrite Ky. cbn [negb andb].
      destruct (st_base (y :: u)) as [a st2| | |] eqn:B2; try discriminate. destruct (st_len _ _ _ Wu B2) as [L3 W3].
      rewrite (sql_list_fuel _ (S (len (sc :: y :: u)))); auto; cbn [List.length] in *; lia. }
  destruct U as [U1 U2].
  destruct (rev (fst st)) as [|x' used] eqn:Er; [rewrite <- (rev_length (fst st)), Er in NE; cbn in NE; lia|].
  cbn [app] in SP. injection SP as <- ->.
  exists ld, x, used, sc, u, st. split; [exact Et|]. split; [exact Hld|]. split; [apply is_kind_eq, K|].
  split; [inversion_clear W1; eapply st_starter; eauto|]. split; [exact U1|].
  split; [exact B|]. split; [exact Es|]. split; [|exact U2].
  assert (Kx : starts_semi (x :: used ++ sc :: u) = false).
  { cbn [starts_semi]. destruct (is_kind Semicolon x) eqn:Kx; [|reflexivity]. exfalso. inversion_clear W1.
    rewrite st_semi in B by (auto; apply is_kind_eq, Kx). discriminate. }
  assert (A1 : sql_list (S (len ((x :: used) ++ sc :: u))) false ((x :: used) ++ sc :: u) = ROk (s :: ss)).
  { cbn [app sql_list]. rewrite Kx. cbn [negb andb]. rewrite B, Es.
    rewrite (sql_list_fuel _ n); [rewrite S1; reflexivity|constructor; auto| |].
    - cbn [app List.length] in *. rewrite !app_length in *. cbn [List.length] in *. lia.
    - lia. }
  rewrite (sql_list_split sc u (is_kind_eq _ _ K) ltac:(constructor; auto) U1 (S (len (x :: used)))) in A1.
  2: { lia. }
  2: { change (x :: used ++ sc :: u) with ((x :: used) ++ sc :: u) in W1. rewrite Forall_app in W1. apply W1. }
  rewrite U2 in A1. cbn [app] in A1. destruct (sql_list _ false (x :: used ++ [sc])) as [l| | |]; try discriminate. cbn [res_map] in A1. injection A1 as A1.
  change (s :: ss) with ([s] ++ ss) in A1. apply app_inv_tail in A1. now rewrite A1.
Qed.

Lemma sig_one x : sig [x] = [x] \/ sig [x] = [].
Proof. unfold sig. cbn. destruct (negb (blank x)); auto. Qed.

Lemma sig_in_one l x : In x (sig l) -> sig [x] <> [].
Proof. unfold sig. rewrite filter_In. intros [_ H]. cbn. rewrite H. discriminate. Qed.

Lemma sig_of_one x : sig [x] <> [] -> sig [x] = [x].
Proof. destruct (sig_one x); congruence. Qed.

(** A run of tokens up to its last significant one. *)
Lemma sig_trim (l : list (token * list rune)) : exists l1 l2, l = l1 ++ l2 /\ sig (map fst l2) = [] /\ sig (map fst l1) = sig (map fst l) /\
  (l1 = [] \/ exists m y, l1 = m ++ [y] /\ sig [fst y] <> []).
Proof.
  destruct (sig (map fst l)) as [|t u] eqn:E; [exists [], l; auto|].
  destruct (exists_last (l := t :: u) ltac:(discriminate)) as (u' & z & E2). rewrite E2 in E.
  destruct (sig_pick l u' z [] E) as (l1 & y & l2 & -> & <- & E3 & E4). exists (l1 ++ [y]), l2. split; [now rewrite <- app_assoc|].
  assert (Z : sig [fst y] <> []) by (eapply sig_in_one; rewrite E; apply in_or_app; right; left; reflexivity).
  split; [exact E4|]. split; [|right; exists l1, y; auto]. rewrite map_app, sig_app, E3. cbn [map]. rewrite (sig_of_one _ Z). auto.
Qed.

Lemma cut_first l s ss : Forall tok_wf (map fst l) -> Forall Grammar.placed (map fst l) -> sql_of (map fst l) = ROk (s :: ss) ->
  exists lead body gap semi rest, l = lead ++ body ++ gap ++ semi :: rest /\
    (only_blank lead \/ exists z, sig (map fst lead) = [z] /\ tkind z = Semicolon) /\
    only_blank gap /\ trimmed body /\ tkind (fst semi) = Semicolon /\
    sql_of (map fst (body ++ [semi])) = ROk [s] /\ sql_of (map fst rest) = ROk ss /\
    (forall t r, sig (map fst rest) = t :: r -> tkind t <> Semicolon) /\ reads_stmt anything s (sig (map fst body)) /\
    exists x m, body = x :: m /\ starter (fst x).
Proof.
  intros W P H. rewrite sql_of_list in H by assumption.
  destruct (list_first _ _ _ _ (fsig_wf _ W) (le_n _) H) as (ld & x & used & sc & u & st & E & Hld & K & ST & NU & B & Es & H1 & H2).
  rewrite <- sig_fsig in E.
  destruct (sig_pick l ld x _ E) as (lead & y & l' & -> & <- & E1 & E2).
  destruct (sig_pick l' used sc u E2) as (mid & semi & rest & -> & <- & E3 & E4).
  destruct (sig_trim mid) as (m1 & gap & -> & G1 & G2 & G3).
  assert (Zy : sig [fst y] <> []) by (eapply sig_in_one; rewrite E; apply in_or_app; right; left; reflexivity).
  assert (Zs : sig [fst semi] = [fst semi]).
  { apply sig_of_one. eapply sig_in_one. rewrite E. apply in_or_app. right. right. apply in_or_app. right. left. reflexivity. }
  exists lead, (y :: m1), gap, semi, rest. split; [cbn [app]; now rewrite <- app_assoc|].
  split; [destruct Hld as [->|(z & -> & Kz)]; [left; exact E1|right; exists z; auto]|]. split; [exact G1|].
  split.
  { split; [exists y, m1; auto|]. destruct G3 as [->|(m & z & -> & Z)]; [exists [], y; auto|exists (y :: m), z; auto]. }
  split; [exact K|].
  assert (SB : sig (map fst (y :: m1)) = fst y :: used).
  { change (y :: m1) with ([y] ++ m1). rewrite map_app, sig_app. cbn [map]. rewrite (sig_of_one _ Zy), G2, E3. reflexivity. }
  assert (W1 : Forall tok_wf (map fst (y :: (m1 ++ gap) ++ semi :: rest)) /\ Forall Grammar.placed (map fst (y :: (m1 ++ gap) ++ semi :: rest))).
  { rewrite map_app in W, P. rewrite Forall_app in W, P. tauto. }
  destruct W1 as [W1 P1].
  split.
  { rewrite sql_of_list.
    - rewrite <- sig_fsig, map_app, sig_app, SB. cbn [map]. rewrite Zs. exact H1.
    - cbn [map app] in W1 |- *. inversion_clear W1 as [|? ? Wy Wr]. constructor; [exact Wy|].
      rewrite !map_app in Wr |- *. rewrite !Forall_app in Wr |- *. cbn [map] in *. destruct Wr as [Wr Ws]. rewrite map_app, Forall_app in Wr. split; [tauto|].
      inversion_clear Ws. constructor; auto. }
  split.
  { rewrite sql_of_list; [rewrite <- sig_fsig, E4; exact H2|]. cbn [map] in W1. inversion_clear W1 as [|? ? _ Wr].
    rewrite map_app, Forall_app in Wr. destruct Wr as [_ Wr]. inversion_clear Wr. assumption. }
  split.
  { intros t r Er. rewrite E4 in Er. rewrite Er in NU. apply semi_false, NU. }
  split; [|exists y, m1; auto].
  rewrite SB.
  pose proof (call_agrees _ _ _ entry_stmt [] _ W1) as A. unfold agrees in A.
  assert (SA : sig (map fst (y :: (m1 ++ gap) ++ semi :: rest)) = fst y :: used ++ fst semi :: u).
  { change (y :: (m1 ++ gap) ++ semi :: rest) with ([y] ++ (m1 ++ gap) ++ [semi] ++ rest). rewrite !map_app, !sig_app. cbn [map].
    rewrite (sig_of_one _ Zy), Zs, G1, G2, <- E3, E4. rewrite app_nil_r. rewrite map_app, sig_app, G1, app_nil_r. reflexivity. }
  rewrite <- sig_fsig, SA, B in A.
  destruct (call parse_statement [] _) as [s' cst| | |] eqn:C; try contradiction. destruct A as (-> & _ & A).
  destruct (stmt_reads anything _ _ _ _ (good_anything _ W1 P1) C) as (used' & Eu & R).
  rewrite SA, (sig_fsig (snd cst)), A, Es in Eu. change (fst y :: used ++ fst semi :: u) with ((fst y :: used) ++ fst semi :: u) in Eu.
  apply app_inv_tail in Eu. rewrite Eu. exact R.
Qed.

Lemma sql_empty l : Forall tok_wf l -> sql_of l = ROk [] -> sig l = [] \/ exists z, sig l = [z] /\ tkind z = Semicolon.
Proof.
  intros W H. rewrite sql_of_list in H by assumption. rewrite sig_fsig. pose proof (fsig_wf _ W) as W1.
  destruct (fsig l) as [|x t]; [auto|right]. cbn [sql_list] in H. rewrite andb_false_r in H. cbn [starts_semi] in H.
  destruct (is_kind Semicolon x) eqn:K; cbn [tl] in H.
  - destruct t as [|y t]; [exists x; split; [reflexivity|apply is_kind_eq, K]|].
    destruct (st_base (y :: t)) as [a0 st0| | |]; try discriminate. destruct (sql_list _ true (snd st0)); discriminate.
  - destruct (st_base (x :: t)) as [a0 st0| | |]; try discriminate. destruct (sql_list _ true (snd st0)); discriminate.
Qed.

(** What a chunk is at the level of tokens. *)
Definition chunk_good (c : chunk) : Prop :=
  only_blank (ck_gap c) /\ only_blank (ck_after c) /\ trimmed (ck_body c) /\ tkind (fst (ck_semi c)) = Semicolon /\
  sql_of (map fst (ck_body c ++ [ck_semi c])) = ROk [ck_stmt c] /\ reads_stmt anything (ck_stmt c) (sig (map fst (ck_body c))) /\
  exists x m, ck_body c = x :: m /\ starter (fst x).

Lemma cut_tokens ss : forall l, Forall tok_wf (map fst l) -> Forall Grammar.placed (map fst l) -> sql_of (map fst l) = ROk ss ->
  exists lead cs, l = lead ++ List.concat (map chunk_toks cs) /\ map ck_stmt cs = ss /\
    (only_blank lead \/ exists z, sig (map fst lead) = [z] /\ tkind z = Semicolon) /\
    ((forall t r, sig (map fst l) = t :: r -> tkind t <> Semicolon) -> only_blank lead) /\ Forall chunk_good cs.
Proof.
  induction ss as [|s ss IH]; intros l W P H.
  - exists l, []. cbn [map List.concat]. rewrite app_nil_r. split; [reflexivity|]. split; [reflexivity|].
    pose proof (sql_empty _ W H) as E. split; [exact E|]. split; [|constructor].
    intros N. destruct E as [E|(z & E & K)]; [exact E|]. exfalso. exact (N _ _ E K).
  - destruct (cut_first l s ss W P H) as (lead & body & gap & semi & rest & -> & Hl & Hg & Ht & Hk & H1 & H2 & Hr & R & ST).
    assert (W2 : Forall tok_wf (map fst rest) /\ Forall Grammar.placed (map fst rest)).
    { repeat rewrite map_app in W. repeat rewrite map_app in P. rewrite !Forall_app in W, P. destruct W as (_ & _ & _ & W), P as (_ & _ & _ & P).
      cbn [map] in W, P. inversion_clear W. inversion_clear P. auto. }
    destruct W2 as [W2 P2]. destruct (IH rest W2 P2 H2) as (after & cs & -> & <- & _ & Ha & HF). specialize (Ha Hr).
    exists lead, (mkChunk s body gap semi after :: cs). split.
    { cbn [map List.concat]. unfold chunk_toks at 2. cbn [ck_body ck_gap ck_semi ck_after].
      repeat (rewrite <- app_assoc; cbn [app]). reflexivity. }
    split; [reflexivity|]. split; [exact Hl|]. split.
    { intros N. destruct Hl as [Hl|(z & E & K)]; [exact Hl|]. exfalso.
      rewrite map_app, sig_app, E in N. exact (N _ _ eq_refl K). }
    constructor; [|exact HF]. repeat (split; [assumption|]). assumption.
Qed.

(** The text of a chunk alone. *)
Lemma body_alone d p text l1 body l3 semi : dialect_ok d -> LexSpec.reads d p text (l1 ++ body ++ l3) [] -> trimmed body ->
  tkind semi = Semicolon -> tval semi = VStr (gs ";") -> forall p',
  exists l', LexSpec.reads d p' (text_of body ++ gs ";") l' [] /\ map kv (map fst l') = map kv (map fst body ++ [semi]).
Proof.
  intros D R (_ & m & [t s] & Eb & Z) K V p'. destruct (reads_split _ _ _ _ _ _ R) as (m1 & q & _ & R1). destruct (reads_split _ _ _ _ _ _ R1) as (m2 & q' & R2 & _).
  assert (KP : keeps d body (gs ";")).
  { unfold keeps. rewrite Eb, rev_app_distr. cbn [rev app]. rewrite Eb in R2.
    destruct (reads_lexemes _ _ _ _ _ R2 m t s [] eq_refl) as [H _]. eapply (lexeme_semi d _ _ _ _ [] D H).
    cbn [fst] in Z. unfold sig in Z. cbn [filter] in Z. unfold is_ws_kind. unfold blank in Z. destruct (tkind t); cbn in *; congruence. }
  pose proof (reads_swap _ _ _ _ _ _ R2 KP) as R3.
  destruct (reads_shift _ _ _ _ _ R3 p') as (l' & R' & _ & E).
  eexists. split; [eapply reads_app; [exact R'|]; exact (reads_one d _ _ _ _ [] (semi_lexeme d []))|].
  rewrite !map_app, E. f_equal. cbn. unfold kv. cbn. now rewrite K, V.
Qed.

Lemma semi_val d k v s r : lexeme d k v s r -> k = Semicolon -> v = VStr (gs ";").
Proof.
  intros H E. destruct H; try discriminate E. subst k. cbn [symbols In] in H.
  repeat (destruct H as [H|H]; [first [discriminate H|injection H as <- <-; reflexivity]|]). contradiction.
Qed.

Lemma concat_chunk cs1 c cs2 lead : lead ++ List.concat (map chunk_toks (cs1 ++ c :: cs2)) =
  (lead ++ List.concat (map chunk_toks cs1)) ++ ck_body c ++ (ck_gap c ++ ck_semi c :: ck_after c ++ List.concat (map chunk_toks cs2)).
Proof. rewrite map_app, concat_app. cbn [map List.concat]. unfold chunk_toks at 2. repeat (rewrite <- app_assoc; cbn [app]). reflexivity. Qed.

Lemma cut d src ss : dialect_ok d -> parse_source d src = ROk ss ->
  exists lead cs, LexSpec.reads d start_pos (skip_bom src) (lead ++ List.concat (map chunk_toks cs)) [] /\ map ck_stmt cs = ss /\
    (only_blank lead \/ exists z, sig (map fst lead) = [z] /\ tkind z = Semicolon) /\
    Forall (fun c => only_blank (ck_gap c) /\ only_blank (ck_after c) /\ trimmed (ck_body c) /\ tkind (fst (ck_semi c)) = Semicolon /\
      spans (AStmt (ck_stmt c)) (sig (map fst (ck_body c))) /\
      exists s', parse_source d (text_of (ck_body c) ++ gs ";") = ROk [s'] /\ bare_stmt s' = bare_stmt (ck_stmt c)) cs.
Proof.
  intros D E. destruct (source_reads d src ss D E) as (l & R & Es & W).
  destruct (source_toks d src l D R) as (T & _ & _).
  destruct (cut_tokens ss l W (tokenize_placed d src _ D T) Es) as (lead & cs & -> & Ec & Hl & _ & HF).
  exists lead, cs. split; [exact R|]. split; [exact Ec|]. split; [exact Hl|].
  pose proof (star_widths d src _ D T) as SW.
  apply Forall_forall. intros c I. rewrite Forall_forall in HF. destruct (HF c I) as (G1 & G2 & G3 & G4 & G5 & G6 & G7).
  apply in_split in I. destruct I as (cs1 & cs2 & ->). rewrite concat_chunk in R, SW, W.
  do 4 (split; [assumption|]). split.
  { assert (SB : Forall star_width (sig (map fst (ck_body c)))) by (rewrite !map_app, !Forall_app in SW; apply sig_star; tauto).
    destruct (node_spans anything (AStmt (ck_stmt c)) _ SB G6) as [S|(e & X & _)]; [exact S|discriminate X]. }
  destruct (ck_semi c) as [semi sl] eqn:Esc. cbn [fst] in G4.
  assert (V : tval semi = VStr (gs ";")).
  { assert (X : forall a b e, (a ++ b ++ (ck_gap c ++ (semi, sl) :: e)) = (a ++ b ++ ck_gap c) ++ (semi, sl) :: e).
    { intros. rewrite <- !app_assoc. reflexivity. }
    rewrite X in R. destruct (reads_lexemes _ _ _ _ _ R _ _ _ _ eq_refl) as [H _]. eapply semi_val; eauto. }
  destruct (body_alone d _ _ _ _ _ semi D R G3 G4 V start_pos) as (l' & R' & Ek).
  assert (B : skip_bom (text_of (ck_body c) ++ gs ";") = text_of (ck_body c) ++ gs ";").
  { destruct G7 as (x & m & Eb & St). rewrite Eb in R |- *. destruct x as [t s]. unfold text_of. cbn [map snd List.concat].
    cbn [app] in R. destruct (reads_lexemes _ _ _ _ _ R _ _ _ _ eq_refl) as [H _].
    destruct (starter_text d _ _ _ _ D H St) as (r & s1 & -> & Nr). cbn [app skip_bom]. destruct (r =? 65279) eqn:K; [lia|reflexivity]. }
  rewrite <- B in R'. destruct (source_toks d _ l' D R') as (_ & -> & W').
  assert (W2 : Forall tok_wf (map fst (ck_body c) ++ [semi])).
  { rewrite !map_app, !Forall_app in W. cbn [map] in W. destruct W as (_ & W1 & _ & W2). apply Forall_app. split; [exact W1|].
    inversion_clear W2. constructor; auto. }
  pose proof (sql_kv _ _ W' W2 (sig_kv _ _ Ek)) as Q.
  rewrite map_app in G5. cbn [map fst] in G5. rewrite G5 in Q. destruct (sql_of (map fst l')) as [ls| | |]; try discriminate.
  cbn [res_map map] in Q. injection Q as Q. destruct ls as [|s' [|]]; try discriminate. injection Q as Q. exists s'. auto.
Qed.

(** * Many texts *)
Lemma join_lead d a b la : dialect_ok d -> parse_source d a = ROk la -> skip_bom b = b -> no_lead_semi d a -> no_lead_semi d b ->
  no_lead_semi d (a ++ 10 :: b).
Proof.
  intros D Ea Eb Na Nb ts t r T1 Es. destruct (source_reads d a la D Ea) as (l & R & E & W).
  destruct (source_toks d a l D R) as (Ta & _ & _).
  destruct (join_lex d a l b D R) as (lx & Rx & Ex).
  assert (R0 : LexSpec.reads d start_pos (skip_bom b) [] b) by (rewrite Eb; constructor).
  pose proof (tokenize_tail d _ _ lx [] b D Rx R0) as T. rewrite T1 in T.
  destruct (tokenize d true b) as [ts'| | |] eqn:T2; try contradiction.
  destruct T as (m & m' & -> & E2 & E3 & _). cbn in E2. subst ts'. rewrite sig_app in Es.
  destruct (sig (map fst lx)) as [|x u] eqn:El.
  - cbn [app] in Es. eapply bare_semi; [apply sig_kv, E3| |exact Es]. intros t' r' Et. eapply Nb; eauto.
  - cbn [app] in Es. injection Es as -> Es. eapply bare_semi; [exact Ex| |reflexivity]. intros t' r' Et. eapply Na; eauto.
Qed.

Lemma join_all d bs ls : dialect_ok d -> Forall2 (fun b l => parse_source d b = ROk l /\ skip_bom b = b /\ no_lead_semi d b) bs ls ->
  exists ss, parse_source d (lines bs) = ROk ss /\ map bare_stmt ss = map bare_stmt (List.concat ls).
Proof.
  intros D H. assert (G : skip_bom (lines bs) = lines bs /\ no_lead_semi d (lines bs) /\
    exists ss, parse_source d (lines bs) = ROk ss /\ map bare_stmt ss = map bare_stmt (List.concat ls)).
  { induction H as [|b l bs ls (E & B & N) H (IB & IN & ss & IE & IM)].
    - destruct (source_toks d [] [] D (Rd_nil _ _ _)) as (T0 & P0 & _). split; [reflexivity|].
      split; [intros ts t r T Es; change (lines []) with (@nil rune) in T; rewrite T0 in T; injection T as <-; discriminate Es|].
      exists []. split; [exact P0|reflexivity].
    - unfold lines in *. cbn [map List.concat]. rewrite <- app_assoc. cbn [app]. split.
      { destruct b as [|c b]; [reflexivity|]. cbn in B |- *. destruct (c =? 65279); [|reflexivity]. apply (f_equal (@List.length rune)) in B. cbn in B. lia. }
      split; [eapply join_lead; eauto|].
      pose proof (join d b _ l D E IB IN) as J. rewrite IE in J. cbn [res_map] in J.
      destruct (parse_source d (b ++ 10 :: _)) as [s'| | |] eqn:ES; try discriminate. exists s'. split; [exact ES|]. cbn in J. injection J as J. rewrite J, !map_app, IM. reflexivity. }
  apply G.
Qed.
