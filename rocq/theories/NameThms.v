(** Proofs about names (C74). *)
From Coq Require Import ZArith List Bool String Lia.
From Verif Require Import Base Dialect Token Lexer LexSpec LexFacts LexThms AST Prog Parser ParseSpec Erase Printer RoundSpec Sim SrcThms Grammar GrammarThms NameSpec.
Import ListNotations.
Open Scope list_scope.
Open Scope Z_scope.

Lemma word_lexeme d w s rest : dialect_ok d -> lexeme d SQLKeyword (VWord w) s rest ->
  exists inner, one_word d s inner /\ wkeyword w = upper inner /\ word_string w = s.
Proof.
  intros D L. inversion L; subst.
  - exists (f :: w0). split; [left; split; [reflexivity|]; exists f, w0; auto|]. split; reflexivity.
  - exists s0. split; [right; exists q; auto|]. split; [reflexivity|]. unfold word_string. cbn [wquote wvalue].
    destruct D as (_ & _ & D). destruct (D q H0) as [-> | ->]; reflexivity.
Qed.

Lemma no_bom (s : list rune) : hd_error s <> Some 65279 -> skip_bom s = s.
Proof. destruct s as [|c s]; [reflexivity|]. cbn [hd_error skip_bom]. intros H. destruct (Z.eqb_spec c 65279) as [->|_]; [exfalso; apply H; reflexivity|reflexivity]. Qed.

Lemma one_word_toks d s inner : dialect_ok d -> hd_error s <> Some 65279 -> one_word d s inner ->
  exists w p q, tokenize d true s = TOk [mkTok SQLKeyword (VWord w) p q] /\ wkeyword w = upper inner /\ word_string w = s.
Proof.
  intros D B0 H. pose proof (no_bom s B0) as B. pose proof D as (D1 & D2 & D3).
  assert (X : exists w, lexeme d SQLKeyword (VWord w) s [] /\ wkeyword w = upper inner /\ word_string w = s).
  { destruct H as [[-> (f & w & -> & S & P)]|(q & Q & -> & N)].
    - exists (mkWord (f :: w) 0 (upper (f :: w))). split; [|split; reflexivity]. constructor; try exact I; auto. intros; exact I.
    - exists (mkWord inner q (upper inner)). split; [constructor; assumption|]. split; [reflexivity|].
      unfold word_string. cbn [wquote wvalue]. destruct (D3 q Q) as [-> | ->]; reflexivity. }
  destruct X as (w & L & K & V). exists w, start_pos, (token_end SQLKeyword (VWord w) s start_pos). split; [|auto].
  pose proof (tokenize_complete d s [(mkTok SQLKeyword (VWord w) start_pos (token_end SQLKeyword (VWord w) s start_pos), s)] D) as T. apply T.
  rewrite B. rewrite <- (app_nil_r s) at 1. econstructor; [exact L|reflexivity|constructor].
Qed.

(** The expression parser on one word *)
Lemma run_prefix r val q K p p' : ~ In K (map gs taken) ->
  run raw_machine (parse_prefix r) ([], [mkTok SQLKeyword (VWord (mkWord val q K)) p p']) =
  Ok (EIdent (mkIdent (word_string (mkWord val q K)) p p')) ([mkTok SQLKeyword (VWord (mkWord val q K)) p p'], []).
Proof.
  intros N.
  assert (Z : forall x, In x taken -> gs_eqb K (gs x) = false).
  { intros x I0. destruct (gs_eqb K (gs x)) eqn:E; [|reflexivity]. exfalso. apply N. apply in_map_iff. exists x. split; [|exact I0].
    symmetry. apply gs_eqb_eq. exact E. }
  assert (Z1 := Z "TRUE"%string). assert (Z2 := Z "FALSE"%string). assert (Z3 := Z "NULL"%string). assert (Z4 := Z "CASE"%string).
  assert (Z5 := Z "CAST"%string). assert (Z6 := Z "EXISTS"%string). assert (Z7 := Z "NOT"%string).
  specialize (Z1 ltac:(cbn; tauto)). specialize (Z2 ltac:(cbn; tauto)). specialize (Z3 ltac:(cbn; tauto)). specialize (Z4 ltac:(cbn; tauto)).
  specialize (Z5 ltac:(cbn; tauto)). specialize (Z6 ltac:(cbn; tauto)). specialize (Z7 ltac:(cbn; tauto)).
  set (t := mkTok SQLKeyword (VWord (mkWord val q K)) p p').
  unfold parse_prefix. rewrite run_bind. change (run raw_machine next_err ([], [t])) with (Ok t (([t], []) : rstate)). cbn [obind]. change (tkind t) with SQLKeyword. cbv iota.
  rewrite run_bind. change (run raw_machine (word_of t) ([t], [])) with (Ok (mkWord val q K) (([t], []) : rstate)). cbn [obind].
  unfold kw. cbn [wkeyword]. rewrite Z1, Z2, Z3, Z4, Z5, Z6, Z7. cbn [orb].
  rewrite run_bind. change (run raw_machine peek ([t], [])) with (Ok (None : option token) (([t], []) : rstate)). cbn [obind]. reflexivity.
Qed.

Lemma run_word val q K p p' : ~ In K (map gs taken) ->
  run_raw parse_expr [mkTok SQLKeyword (VWord (mkWord val q K)) p p'] =
  Ok (EIdent (mkIdent (word_string (mkWord val q K)) p p')) ([mkTok SQLKeyword (VWord (mkWord val q K)) p p'], []).
Proof.
  intros N. unfold run_raw, fuel_for. cbn [List.length knot]. unfold parse_expr. cbn [r_subexpr]. unfold parse_subexpr.
  rewrite run_bind, run_prefix by exact N. reflexivity.
Qed.

Lemma run_kwtok s t : tkind t = SQLKeyword ->
  run raw_machine (kw_tok s) ([], [t]) = (if is_kw (gs s) t then Ok (Some t) (([t], []) : rstate) else Ok None (([], [t]) : rstate)).
Proof.
  intros K. destruct t as [k v a b]. cbn [tkind] in K. subst k. unfold kw_tok, parse_keyword. cbn [bind run m_peek raw_machine].
  set (t := mkTok _ _ _ _). change (raw_peek (snd (@nil token, [t]))) with (Some t). cbv iota. destruct (is_kw (gs s) t); reflexivity.
Qed.

Definition not_ident (o : outcome rstate node) : Prop := match o with Ok (EIdent _) _ => False | _ => True end.

Lemma run_taken val q p p' x : In x taken -> not_ident (run_raw parse_expr [mkTok SQLKeyword (VWord (mkWord val q (gs x))) p p']).
Proof.
  intros H. unfold taken in H. cbn [In] in H. unfold run_raw, parse_expr, fuel_for. cbn [List.length knot r_subexpr]. unfold parse_subexpr. rewrite run_bind.
  destruct H as [<-|H]; [vm_compute; exact I|]. destruct H as [<-|H]; [vm_compute; exact I|]. destruct H as [<-|H]; [vm_compute; exact I|].
  match goal with |- context [parse_prefix ?R] => set (r := R) end.
  destruct H as [<-|H].
  { set (t := mkTok _ _ _ _).
    assert (E : run raw_machine (parse_prefix r) ([], [t]) = run raw_machine (parse_case r) ([], [t])) by reflexivity.
    rewrite E. unfold parse_case. rewrite run_bind, run_kwtok by reflexivity. destruct (is_kw (gs "CASE") t); [vm_compute; exact I|exact I]. }
  destruct H as [<-|H].
  { set (t := mkTok _ _ _ _).
    assert (E : run raw_machine (parse_prefix r) ([], [t]) = run raw_machine (parse_cast r) ([], [t])) by reflexivity.
    rewrite E. unfold parse_cast. rewrite run_bind, run_kwtok by reflexivity. destruct (is_kw (gs "CAST") t); [vm_compute; exact I|exact I]. }
  destruct H as [<-|H].
  { set (t := mkTok _ _ _ _).
    assert (E : run raw_machine (parse_prefix r) ([], [t]) = run raw_machine (parse_exists r None) ([], [t])) by reflexivity.
    rewrite E. unfold parse_exists. rewrite run_bind, run_kwtok by reflexivity. destruct (is_kw (gs "EXISTS") t); [vm_compute; exact I|exact I]. }
  destruct H as [<-|[]]. vm_compute. exact I.
Qed.

Lemma name_fwd d s i : dialect_ok d -> parse_expr_source d s = ROk (EIdent i) -> id_value i = s -> usable d s.
Proof.
  intros D E V. unfold parse_expr_source, parse_with in E. destruct (tokenize d true s) as [toks| | |] eqn:T; try discriminate E.
  destruct (run_raw parse_expr toks) as [e st| | |] eqn:R; cbn [res_of] in E; try discriminate E. injection E as ->.
  pose proof (tokenize_wf _ _ _ _ D T) as W. pose proof (tokenize_placed _ _ _ D T) as PL.
  destruct (expr_reads anything [] toks _ _ (good_anything _ W PL) R) as (used & E1 & H & _).
  destruct H as (_ & t & -> & w & VW & EI).
  assert (IT : In t toks). { assert (X : In t (sig toks)) by (rewrite E1; left; reflexivity). unfold sig in X. apply filter_In in X. tauto. }
  apply in_split in IT as (a & b & ->).
  destruct (tokenize_lossless _ _ _ D T) as (sl & LN & CC & NE & LX).
  assert (X : exists sa x sb, sl = sa ++ x :: sb /\ List.length a = List.length sa /\ List.length sb = List.length b).
  { rewrite app_length in LN. cbn [List.length] in LN. exists (firstn (List.length a) sl).
    destruct (skipn (List.length a) sl) as [|x sb] eqn:SK.
    - exfalso. assert (Y := skipn_length (List.length a) sl). rewrite SK in Y. cbn [List.length] in Y. lia.
    - exists x, sb. split; [rewrite <- SK; symmetry; apply firstn_skipn|]. assert (Y := skipn_length (List.length a) sl). rewrite SK in Y. cbn [List.length] in Y.
      rewrite firstn_length. lia. }
  destruct X as (sa & x & sb & -> & LA & LB).
  specialize (LX a t b sa x sb eq_refl eq_refl LA).
  assert (WF : tkind t = SQLKeyword). { rewrite Forall_forall in W. specialize (W t). assert (Q : In t (a ++ t :: b)) by (apply in_or_app; right; left; reflexivity).
    specialize (W Q). unfold tok_wf in W. rewrite VW in W. destruct (tkind t); intuition congruence. }
  rewrite WF, VW in LX. destruct (word_lexeme d w x _ D LX) as (inner & OW & K & WS).
  subst i. cbn [id_value] in V. rewrite WS in V. subst x.
  assert (LE : (List.length (skip_bom s) <= List.length s)%nat). { destruct s as [|c s']; [cbn; lia|]. cbn [skip_bom]. destruct (c =? 65279); cbn [List.length]; lia. }
  rewrite CC, concat_app in LE. cbn [List.concat] in LE. rewrite !app_length in LE.
  assert (sa = []). { destruct sa as [|y sa]; [reflexivity|]. exfalso. inversion NE; subst. destruct y; [congruence|]. cbn [List.concat List.app List.length] in LE. rewrite app_length in LE. cbn [List.length] in LE. lia. }
  subst sa. assert (sb = []). { destruct sb as [|y sb]; [reflexivity|]. exfalso. cbn [List.app] in NE. inversion NE as [|? ? _ NE']; subst. inversion NE'; subst. destruct y; [congruence|].
    cbn [List.concat List.app List.length] in LE. rewrite app_length in LE. lia. }
  subst sb. destruct a; [|discriminate LA]. destruct b; [|discriminate LB]. cbn [List.app] in R.
  split.
  { intros HD. destruct s as [|c s']; [discriminate HD|]. injection HD as ->. cbn [skip_bom List.app List.concat] in CC. cbn in CC.
    apply (f_equal (@List.length rune)) in CC. cbn [List.length] in CC. rewrite app_nil_r in CC. lia. }
  exists inner. split; [exact OW|]. intros N. apply in_map_iff in N as (k & KE & KI). 
  destruct t as [tk tv tp tq]. cbn [tkind tval] in *. subst tk tv. destruct w as [wv wq wk]. cbn [wkeyword] in K. rewrite <- KE in K. subst wk.
  pose proof (run_taken wv wq tp tq k KI) as Z. rewrite R in Z. exact Z.
Qed.

Lemma name_bwd d s : dialect_ok d -> usable d s -> exists p q, parse_expr_source d s = ROk (EIdent (mkIdent s p q)).
Proof.
  intros D (B & inner & OW & N). destruct (one_word_toks d s inner D B OW) as (w & p & q & T & K & V).
  exists p, q. unfold parse_expr_source, parse_with. rewrite T. destruct w as [wv wq wk]. cbn [wkeyword] in K. subst wk.
  rewrite run_word by exact N. cbn [res_of]. rewrite V. reflexivity.
Qed.

Lemma names d s : dialect_ok d ->
  ((exists i, parse_expr_source d (sql_node (EIdent (new_ident s))) = ROk (EIdent i) /\ id_value i = s) <-> usable d s).
Proof.
  intros D. change (sql_node (EIdent (new_ident s))) with (@nil rune ++ s). cbn [List.app]. split.
  - intros (i & E & V). eapply name_fwd; eauto.
  - intros U. destruct (name_bwd d s D U) as (p & q & E). eauto.
Qed.
