(** Proofs for C67. *)
From Coq Require Import ZArith List Bool String Lia.
From Verif Require Import Base Dialect Token Lexer LexSpec LexFacts LexPos LexThms AST Num Prog Parser Erase ParseSpec RoundSpec Wp Term Natural Sim ErId ParserThms SqlThms SrcThms ApiThms
  GrammarThms CutSpec CutThms LookThms WallSpec WallThms MoveSpec.
Import ListNotations.
Open Scope Z_scope.

Lemma down_pos0 k : down k pos0 = pos0.
Proof. reflexivity. Qed.
Lemma down_real k p : 1 <= pline p -> down k p = mkPos (pline p + k) (pcol p).
Proof. intros H. unfold down. destruct (pline p =? 0) eqn:E; [lia|reflexivity]. Qed.

(** * The tokenizer *)
Lemma advance_down k s : forall p, advance s (mkPos (pline p + k) (pcol p)) = mkPos (pline (advance s p) + k) (pcol (advance s p)).
Proof.
  assert (G : forall n s p, (List.length s <= n)%nat -> advance s (mkPos (pline p + k) (pcol p)) = mkPos (pline (advance s p) + k) (pcol (advance s p))).
  { induction n as [|n IH]; intros [|c s'] p L; cbn [List.length] in L; try lia; [destruct p; reflexivity..|].
    cbn [advance]. cbn [pline pcol]. replace (pline p + k + 1) with (pline p + 1 + k) by lia.
    destruct (c =? 10).
    - apply (IH s' (mkPos (pline p + 1) 1)). lia.
    - destruct (c =? 13).
      + destruct s' as [|n0 s']; [reflexivity|]. destruct (n0 =? 10).
        * apply (IH s' (mkPos (pline p + 1) 1)). cbn [List.length] in L. lia.
        * apply (IH (n0 :: s') (mkPos (pline p + 1) 1)). lia.
      + apply (IH s' (mkPos (pline p) (pcol p + 1))). lia. }
  intros p. apply (G (List.length s)). lia.
Qed.
Lemma token_end_down d k v s r j p : lexeme d k v s r ->
  token_end k v s (mkPos (pline p + j) (pcol p)) = mkPos (pline (token_end k v s p) + j) (pcol (token_end k v s p)).
Proof.
  intros _. destruct k, v as [w|u]; cbn [token_end pline pcol]; try reflexivity; try apply advance_down;
    try (destruct s as [|c s]; [reflexivity|]; destruct c as [|q|q]; try reflexivity;
         repeat (destruct q as [q|q|]; try reflexivity; try apply advance_down)).
  destruct u as [|c u]; [apply advance_down|]. destruct u as [|c2 u].
  - destruct c as [|q|q]; try apply advance_down.
    repeat (destruct q as [q|q|]; try reflexivity; try apply advance_down).
  - destruct c as [|q|q]; try apply advance_down.
    repeat (destruct q as [q|q|]; try reflexivity; try apply advance_down).
Qed.
Lemma advance_line s : forall p, pline p <= pline (advance s p).
Proof.
  assert (G : forall n s p, (List.length s <= n)%nat -> pline p <= pline (advance s p)).
  { induction n as [|n IH]; intros [|c s'] p L; cbn [List.length] in L; try lia; [cbn; lia..|].
    cbn [advance]. destruct (c =? 10).
    - pose proof (IH s' (mkPos (pline p + 1) 1) ltac:(lia)). cbn [pline] in *. lia.
    - destruct (c =? 13).
      + destruct s' as [|n0 s']; [cbn; lia|]. cbn [List.length] in L. destruct (n0 =? 10).
        * pose proof (IH s' (mkPos (pline p + 1) 1) ltac:(lia)). cbn [pline] in *. lia.
        * pose proof (IH (n0 :: s') (mkPos (pline p + 1) 1) ltac:(cbn [List.length]; lia)). cbn [pline] in *. lia.
      + pose proof (IH s' (mkPos (pline p) (pcol p + 1)) ltac:(lia)). cbn [pline] in *. lia. }
  intros p. apply (G (List.length s)). lia.
Qed.
Lemma token_end_line k v s p : pline p <= pline (token_end k v s p).
Proof.
  pose proof (advance_line s p) as G.
  destruct k, v as [w|u]; cbn [token_end pline pcol]; try lia;
    try (destruct s as [|c s]; [cbn; lia|]; destruct c as [|q|q]; try (cbn; lia);
         repeat (destruct q as [q|q|]; try (cbn [pline]; lia))).
  destruct u as [|c u]; [exact G|]. destruct u as [|c2 u].
  - destruct c as [|q|q]; try exact G.
    repeat (destruct q as [q|q|]; try exact G; try (cbn [pline]; lia)).
  - destruct c as [|q|q]; try exact G.
    repeat (destruct q as [q|q|]; try exact G).
Qed.

Lemma down_er j t : er_tok (down j) same_rune t = down_token j t.
Proof.
  destruct t as [k v f e]. unfold down_token, er_tok, er_val. cbn. destruct v as [w|u]; [|reflexivity].
  rewrite er_word_id by reflexivity. reflexivity.
Qed.
Definition down_slice (j : Z) (x : token * list rune) : token * list rune := (down_token j (fst x), snd x).
Lemma reads_move d j p text l rem : reads d p text l rem -> 1 <= pline p ->
  reads d (mkPos (pline p + j) (pcol p)) text (map (down_slice j) l) rem.
Proof.
  induction 1 as [p text|p q s text k v l rem H Hq R IH]; intros L; [constructor|].
  cbn [map]. unfold down_slice at 1. cbn [fst snd]. unfold down_token. cbn [tkind tval tfrom tto].
  assert (Lq : 1 <= pline q) by (subst q; pose proof (token_end_line k v s p); lia).
  rewrite !down_real by assumption.
  econstructor; [exact H| |exact (IH Lq)]. subst q. symmetry. eapply token_end_down; exact H.
Qed.

(** A text, a new line and another one. *)
Definition last_end (l : list (token * list rune)) : pos := match rev l with [] => start_pos | (t, _) :: _ => tto t end.
Lemma last_end_app l x : last_end (l ++ [x]) = tto (fst x).
Proof. unfold last_end. rewrite rev_app_distr. destruct x. reflexivity. Qed.
Lemma reads_line d p text l rem : reads d p text l rem -> pline p <= pline (match rev l with [] => p | (t, _) :: _ => tto t end).
Proof.
  induction 1 as [p text|p q s text k v l rem H Hq R IH]; [cbn; lia|]. cbn [rev].
  assert (pline p <= pline q) by (subst q; apply token_end_line).
  destruct (rev l) as [|[t s'] m]; cbn [app tto] in *; lia.
Qed.
Lemma join_at d a l : dialect_ok d -> LexSpec.reads d start_pos (skip_bom a) l [] ->
  exists lx, (forall b, LexSpec.reads d start_pos (skip_bom (a ++ 10 :: b)) lx b) /\ sig (map fst lx) = sig (map fst l) /\
    pcol (last_end lx) = 1 /\ lx <> [].
Proof.
  intros D R.
  assert (E : forall b, skip_bom (a ++ 10 :: b) = skip_bom a ++ 10 :: b) by (intros b; destruct a; [reflexivity|apply skip_app; discriminate]).
  destruct (reads_concat _ _ _ _ _ R) as [Ec _]. rewrite app_nil_r in Ec.
  destruct (rev l) as [|[t s] m] eqn:El.
  - assert (l = []) by (rewrite <- (rev_involutive l), El; reflexivity). subst l. cbn in Ec.
    exists [(mkTok Whitespace (VStr [10]) start_pos (token_end Whitespace (VStr [10]) [10] start_pos), [10])].
    split; [|split; [reflexivity|split; [reflexivity|discriminate]]]. intros b. rewrite E, Ec. exact (reads_one d start_pos _ _ _ b (Lx_lf d b)).
  - assert (Es : l = rev m ++ [(t, s)]) by (rewrite <- (rev_involutive l), El; reflexivity).
    destruct (reads_lexemes _ _ _ _ _ R (rev m) t s [] Es) as [H _]. cbn in H.
    destruct (list_eq_dec Z.eq_dec s [13]) as [->|N].
    + rewrite Es in R. destruct (reads_split _ _ _ _ _ _ R) as (mid & q & R1 & R2).
      assert (K : forall b, keeps d (rev m) (13 :: 10 :: b)).
      { intros b. inversion R2 as [|? ? ? text' ? ? ? ? H1 H2 H3]; subst. inversion H3; subst.
        unfold keeps. destruct (rev (rev m)) as [|[t' s'] m'] eqn:Em; [exact I|].
        assert (Em' : rev m = rev m' ++ [(t', s')]) by (rewrite <- (rev_involutive (rev m)), Em; reflexivity).
        destruct (reads_lexemes _ _ _ _ _ R1 (rev m') t' s' [] Em') as [H' _]. cbn in H'.
        eapply lexeme_hd; [|exact H']. reflexivity. }
      assert (Ea : skip_bom a = List.concat (map snd (rev m)) ++ [13]) by (rewrite Ec, Es, map_app, concat_app; reflexivity).
      pose proof (cr_blank _ _ _ _ D H) as Kt.
      set (p1 := match rev (rev m) with [] => start_pos | (t0, _) :: _ => tto t0 end).
      exists (rev m ++ [(mkTok Whitespace (VStr [10]) p1 (token_end Whitespace (VStr [10]) [13; 10] p1), [13; 10])]).
      split; [|split; [|split]].
      * intros b. rewrite E, Ea, <- app_assoc. eapply reads_app; [exact (reads_swap _ _ _ _ _ _ R1 (K b))|].
        exact (reads_one d _ _ _ _ b (Lx_crlf d b)).
      * rewrite Es, !map_app, !sig_app. f_equal. cbn [map fst]. unfold sig, blank. cbn [filter]. rewrite Kt. reflexivity.
      * rewrite last_end_app. reflexivity.
      * destruct (rev m); discriminate.
    + set (p1 := match rev l with [] => start_pos | (t0, _) :: _ => tto t0 end).
      exists (l ++ [(mkTok Whitespace (VStr [10]) p1 (token_end Whitespace (VStr [10]) [10] p1), [10])]).
      split; [|split; [|split]].
      * intros b. rewrite E, Ec. eapply reads_app; [apply (reads_swap _ _ _ _ _ (10 :: b) R)|].
        -- unfold keeps. rewrite El. eapply lexeme_lf; eauto.
        -- exact (reads_one d _ _ _ _ b (Lx_lf d b)).
      * rewrite !map_app, sig_app. cbn. now rewrite app_nil_r.
      * rewrite last_end_app. reflexivity.
      * destruct l; discriminate.
Qed.

Lemma lines_in_reads d a lx : dialect_ok d -> reads d start_pos (skip_bom (a ++ [10])) lx [] -> lx <> [] -> lines_in d a = pline (last_end lx) - 1.
Proof.
  intros D R N. pose proof (tokenize_complete _ _ _ D R) as T. unfold lines_in, rune in *. rewrite T. rewrite <- map_rev. unfold last_end, rune in *.
  destruct (rev lx) as [|[t s] m] eqn:E; [|reflexivity].
  exfalso. apply N. rewrite <- (rev_involutive lx), E. reflexivity.
Qed.

(** How the tokenizer reads the two texts. *)
Lemma tokens_move d a b ta : dialect_ok d -> tokenize d true a = TOk ta -> skip_bom b = b ->
  exists tx, tokenize d true (a ++ [10]) = TOk tx /\ sig tx = sig ta /\
  tokenize d true (a ++ 10 :: b)
  = match tokenize d true b with
    | TOk tb => TOk (tx ++ map (down_token (lines_in d a)) tb)
    | r => r
    end.
Proof.
  intros D Ta Sb. destruct (tokenize_reads _ _ _ D Ta) as (l & R & ->).
  destruct (join_at d a l D R) as (lx & Rx & Es & Ec & N).
  exists (map fst lx). split; [apply tokenize_complete; auto; apply Rx|]. split; [exact Es|].
  pose proof (lines_in_reads d a lx D (Rx []) N) as Ek.
  assert (R0 : reads d start_pos (skip_bom b) [] b) by (rewrite Sb; constructor).
  pose proof (tokenize_tail d (a ++ 10 :: b) b lx [] b D (Rx b) R0) as T.
  destruct (tokenize d true b) as [tb| | |] eqn:Tb; destruct (tokenize d true (a ++ 10 :: b)) as [tc| | |] eqn:Tc; try contradiction; try reflexivity.
  destruct (tokenize_reads _ _ _ D Tb) as (lb & Rb & ->).
  assert (Rc : reads d start_pos (skip_bom (a ++ 10 :: b)) (lx ++ map (down_slice (lines_in d a)) lb) []).
  { eapply reads_app; [apply Rx|]. rewrite Sb in Rb.
    assert (L : 1 <= pline start_pos) by discriminate.
    pose proof (reads_move d (lines_in d a) _ _ _ _ Rb L) as M. cbn [start_pos pline pcol] in M.
    change (match rev lx with [] => start_pos | (t, _) :: _ => tto t end) with (last_end lx).
    replace (last_end lx) with (mkPos (1 + lines_in d a) 1); [exact M|].
    rewrite Ek. destruct (last_end lx) as [x y]. cbn [pline pcol] in *. subst y. f_equal. lia. }
  apply (tokenize_complete _ _ _ D) in Rc. rewrite Rc in Tc. injection Tc as <-.
  rewrite map_app, !map_map. reflexivity.
Qed.

(** * The parser *)
Lemma call_sig {A} (P : rec -> prog A) erA k : entry P erA k -> forall done done' todo todo', Forall tok_wf todo -> Forall tok_wf todo' ->
  fsig todo = fsig todo' -> res_of (call P done todo) = res_of (call P done' todo').
Proof. intros HP done done' todo todo' W W' E. rewrite !(call_res P erA k HP) by assumption. now rewrite E. Qed.

Lemma moved_tokens {A} (P : rec -> prog A) erA k : public P erA k ->
  forall j todo, Forall tok_wf todo ->
  res_of (call P [] (map (down_token j) todo)) = res_map (erA (down j) same_rune) (res_of (call P [] todo)).
Proof.
  intros HP j todo W. rewrite <- (positions_copied P erA k HP (down j) [] todo eq_refl W).
  rewrite (map_ext _ _ (down_er j)). reflexivity.
Qed.
Lemma down_wf j todo : Forall tok_wf todo -> Forall tok_wf (map (down_token j) todo).
Proof. intros W. rewrite Forall_map. eapply Forall_impl; [|exact W]. intros t H. exact H. Qed.

(** Blanks and comments above a text. *)
Lemma method_moves {A} (P : rec -> prog A) erA k : public P erA k ->
  forall d a b ta, dialect_ok d -> tokenize d true a = TOk ta -> sig ta = [] -> skip_bom b = b ->
  parse_with P d (a ++ 10 :: b) = res_map (erA (down (lines_in d a)) same_rune) (parse_with P d b).
Proof.
  intros HP d a b ta D Ta Sa Sb. destruct (tokens_move d a b ta D Ta Sb) as (tx & Tx & Sx & Tc).
  unfold parse_with. rewrite Tc. destruct (tokenize d true b) as [tb| | |] eqn:Tb; try reflexivity.
  pose proof (SrcThms.tokenize_wf _ _ _ _ D Tb) as Wb. pose proof (SrcThms.tokenize_wf _ _ _ _ D Tx) as Wx.
  rewrite Sa in Sx.
  change (run_raw P tb) with (call P [] tb). rewrite <- (moved_tokens P erA k HP) by exact Wb.
  apply (call_sig P erA k (public_entry P erA k HP) [] []).
  - apply Forall_app. split; [exact Wx|apply down_wf, Wb].
  - apply down_wf, Wb.
  - rewrite fsig_app. change (fsig tx) with (sig tx). rewrite Sx. reflexivity.
Qed.

Lemma sql_sig t t' : Forall tok_wf t -> Forall tok_wf t' -> fsig t = fsig t' -> sql_of t = sql_of t'.
Proof. intros W W' E. rewrite !sql_of_list by assumption. now rewrite E. Qed.

(** Whole statements above a text. *)
Lemma script_moves d a b : dialect_ok d -> ends_with_semi d a -> skip_bom b = b -> no_lead_semi d b ->
  (exists tb, tokenize d true b = TOk tb) ->
  parse_source d (a ++ 10 :: b) = and_then (parse_source d a) (res_map (map (down_stmt (lines_in d a))) (parse_source d b)).
Proof.
  intros D (ta & l & s & Ta & El & Ks) Sb N (tb & Tb).
  destruct (tokens_move d a b ta D Ta Sb) as (tx & Tx & Sx & Tc). rewrite Tb in Tc.
  unfold parse_source at 1, parse_with at 1. rewrite Tc.
  pose proof (SrcThms.tokenize_wf _ _ _ _ D Ta) as Wa. pose proof (SrcThms.tokenize_wf _ _ _ _ D Tb) as Wb.
  pose proof (SrcThms.tokenize_wf _ _ _ _ D Tx) as Wx. pose proof (down_wf (lines_in d a) _ Wb) as Wm.
  set (m := map (down_token (lines_in d a)) tb) in *.
  change (sql_of (tx ++ m) = and_then (parse_source d a) (res_map (map (down_stmt (lines_in d a))) (parse_source d b))).
  assert (Ea : parse_source d a = sql_of ta) by (unfold parse_source, parse_with; rewrite Ta; reflexivity).
  assert (Eb : res_map (map (down_stmt (lines_in d a))) (parse_source d b) = sql_of m).
  { unfold parse_source, parse_with. rewrite Tb. symmetry.
    exact (moved_tokens (parse_sql false) _ _ (pub_sql false) (lines_in d a) tb Wb). }
  rewrite Ea, Eb. rewrite El in Sx. destruct (sig_last tx l s Sx) as (t1 & t2 & -> & F1 & F2).
  apply Forall_app in Wx as [W1 W2]. inversion W2 as [|? ? Ws W3]; subst.
  assert (Fm : forall x r, fsig (t2 ++ m) = x :: r -> tkind x <> Semicolon).
  { intros x r E. rewrite fsig_app in E. change (fsig t2) with (sig t2) in E. rewrite F2 in E. cbn [app] in E.
    unfold m in E. rewrite <- (map_ext _ _ (down_er (lines_in d a))), fsig_er in E.
    pose proof (fun t r => N tb t r Tb) as N'. change (sig tb) with (fsig tb) in N'.
    destruct (fsig tb) as [|y z] eqn:Y; [discriminate E|]. cbn [map] in E. injection E as <- _.
    exact (N' _ _ eq_refl). }
  rewrite <- app_assoc. cbn [app].
  rewrite (sql_split t1 s (t2 ++ m)); [|apply Forall_app; split; [exact W1|constructor; [exact Ws|apply Forall_app; auto]]|exact Ks|exact Fm].
  replace (sql_of (t2 ++ m)) with (sql_of m).
  2:{ apply sql_sig; [exact Wm|apply Forall_app; auto|]. rewrite fsig_app. change (fsig t2) with (sig t2). rewrite F2. reflexivity. }
  replace (sql_of (t1 ++ [s])) with (sql_of ta); [unfold and_then; destruct (sql_of ta); reflexivity|].
  apply sql_sig; [exact Wa|apply Forall_app; auto|]. change (sig ta = fsig (t1 ++ [s])). rewrite El, fsig_app. change (fsig t1) with (sig t1).
  f_equal. symmetry. change (sig [s] = [s]). unfold sig, blank. cbn. rewrite Ks. reflexivity.
Qed.

(** Empty lines. *)
Lemma blank_lines d n : forall p, exists l, reads d p (repeat 10 n) l [] /\ sig (map fst l) = [] /\
  (match rev l with [] => p | (t, _) :: _ => tto t end) = mkPos (pline p + Z.of_nat n) (match n with O => pcol p | _ => 1 end).
Proof.
  induction n as [|n IH]; intros p.
  - exists []. split; [constructor|]. split; [reflexivity|]. cbn. destruct p. cbn. f_equal. lia.
  - destruct (IH (mkPos (pline p + 1) 1)) as (l & R & S & E).
    exists ((mkTok Whitespace (VStr [10]) p (mkPos (pline p + 1) 1), [10]) :: l). split; [|split].
    + cbn [repeat]. change (10 :: repeat 10 n) with ([10] ++ repeat 10 n). econstructor; [apply Lx_lf|reflexivity|exact R].
    + cbn [map fst]. unfold sig, blank in *. cbn [filter]. exact S.
    + cbn [rev]. destruct (rev l) as [|[t s] m]; cbn [app tto pline pcol] in *; (etransitivity; [exact E|]); f_equal; try lia; destruct n; reflexivity.
Qed.
Lemma repeat_snoc {A} (x : A) n : repeat x n ++ [x] = repeat x (S n).
Proof. induction n; cbn; [reflexivity|]. now f_equal. Qed.
Lemma lines_in_blank d n : dialect_ok d -> lines_in d (repeat 10 n) = Z.of_nat (S n).
Proof.
  intros D. destruct (blank_lines d (S n) start_pos) as (l & R & S & E).
  assert (B : skip_bom (repeat 10 (Datatypes.S n)) = repeat 10 (Datatypes.S n)) by reflexivity.
  rewrite (lines_in_reads d (repeat 10 n) l D).
  - change (last_end l) with (match rev l with [] => start_pos | (t, _) :: _ => tto t end). rewrite E. cbn [pline start_pos]. lia.
  - rewrite repeat_snoc, B. exact R.
  - intros ->. apply (f_equal pline) in E. cbn [rev pline start_pos] in E. lia.
Qed.
Lemma empty_lines {A} (P : rec -> prog A) erA k : public P erA k ->
  forall d n b, dialect_ok d -> skip_bom b = b ->
  parse_with P d (repeat 10 (S n) ++ b) = res_map (erA (down (Z.of_nat (S n))) same_rune) (parse_with P d b).
Proof.
  intros HP d n b D Sb. rewrite <- repeat_snoc, <- app_assoc. cbn [app].
  destruct (blank_lines d n start_pos) as (l & R & S & E).
  rewrite <- (lines_in_blank d n D).
  apply (method_moves P erA k HP d (repeat 10 n) b (map fst l) D); [|exact S|exact Sb].
  apply tokenize_complete; [exact D|]. destruct n; exact R.
Qed.
