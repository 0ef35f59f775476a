(** Proofs about tokens delivered while the reader still has more to say (C73). *)
From Coq Require Import ZArith List Bool String Lia.
From Verif Require Import Base Dialect Token Lexer LexSpec Utf8 Utf8Spec Utf8Thms Reader ReaderSpec ReaderThms LexProg LexProgThms Stream.
Import ListNotations.
Open Scope list_scope.
Open Scope Z_scope.

Notation quiet q := (Forall (fun d : delivery => snd d = More) q).

Lemma fill_keep (post q : reader) : quiet q -> forall buf l, utf8_text l (buf ++ bytes q) -> l <> [] ->
  exists buf' (q' : reader), fill buf (q ++ post) = (buf', q' ++ post) /\ quiet q' /\ buf' <> [] /\
    buf' ++ bytes q' = buf ++ bytes q /\ (full_rune buf' = true \/ (4 <= List.length buf')%nat).
Proof.
  induction q as [|[bs x] q IH]; intros Q buf l U N.
  - cbn [bytes flat_map app] in *. rewrite app_nil_r in U. destruct l as [|r l]; [contradiction|].
    inversion U as [|? c ? t C T]; subst.
    exists (c ++ t), []. assert (E : fill (c ++ t) post = (c ++ t, post)).
    { destruct post as [|[? ?] ?]; cbn [fill]; rewrite (char_full r c t C), orb_true_r; reflexivity. }
    split; [exact E|]. split; [constructor|]. split; [intros Z; apply app_eq_nil in Z; destruct Z as [-> ->]; inversion C|].
    split; [reflexivity|]. left. exact (char_full r c t C).
  - inversion Q as [|? ? Q1 Q2]; subst. cbn in Q1. subst x. cbn [app fill].
    destruct ((4 <=? List.length buf)%nat || full_rune buf) eqn:B.
    + exists buf, ((bs, More) :: q). split; [reflexivity|]. split; [exact Q|].
      split; [intros ->; discriminate B|]. split; [reflexivity|].
      apply orb_true_iff in B. destruct B as [B|B]; [right; apply Nat.leb_le; exact B|auto].
    + unfold bytes in U. cbn [flat_map fst] in U. rewrite app_assoc in U. destruct (IH Q2 _ _ U N) as (b' & q' & E & H1 & H2 & H3 & H4).
      exists b', q'. split; [exact E|]. split; [exact H1|]. split; [exact H2|]. split; [|exact H4]. rewrite H3. unfold bytes. cbn [flat_map fst]. rewrite app_assoc. reflexivity.
Qed.

Lemma read_keep (post q : reader) buf r l : quiet q -> utf8_text (r :: l) (buf ++ bytes q) ->
  exists buf' (q' : reader), read_rune buf (q ++ post) = (r, (buf', q' ++ post)) /\ quiet q' /\ utf8_text l (buf' ++ bytes q') /\ r <> EOFr.
Proof.
  intros Q U. destruct (fill_keep post q Q buf (r :: l) U ltac:(discriminate)) as (buf' & q' & E & Q' & NB & EB & FB).
  unfold read_rune. rewrite E. inversion U as [|r0 c l' t C T X1 X2]; subst. rewrite <- X2 in EB.
  destruct (full_char _ _ _ _ _ C EB NB FB) as (t' & ->).
  rewrite (decode_rune_char _ _ t' C). destruct (c ++ t') as [|b bl] eqn:EBL; [contradiction|]. rewrite <- EBL.
  rewrite skipn_app, skipn_all. replace (List.length c - List.length c)%nat with 0%nat by lia. cbn [skipn app].
  exists t', q'. split; [reflexivity|]. split; [exact Q'|]. rewrite <- EBL, <- app_assoc in EB. apply app_inv_head in EB. split; [exact (eq_ind_r (utf8_text l) T EB)|].
  pose proof (utf8_scalar _ _ C). unfold scalar, EOFr in *. lia.
Qed.

(** A scanner that has the first character of [text] and the rest of it within
    reach before [post]. *)
Definition holds (s : scanner) (text : list rune) (post : reader) : Prop :=
  exists c l (q : reader), text = c :: l /\ sc_ch s = Some c /\ sc_src s = q ++ post /\ quiet q /\ utf8_text l (sc_buf s ++ bytes q) /\ c <> EOFr.

Lemma exec_holds {A} (p : sprog A) (post : reader) : forall s text, holds s text post -> snd (fst (on_text p text)) <> [] ->
  exists s', on_reader p s = (fst (fst (on_text p text)), s', snd (on_text p text)) /\ holds s' (snd (fst (on_text p text))) post.
Proof.
  unfold on_reader. induction p as [v|k IH|k IH|]; intros s text H N; cbn [exec]; try (exists s; split; [reflexivity|exact H]).
  - pose proof H as (c & l & q & -> & H1 & _). assert (P : sc_peek s = (c, s)) by (unfold sc_peek; rewrite H1; reflexivity). rewrite P.
    rewrite t_peek in *. cbn [hd] in *. specialize (IH c s (c :: l) H).
    destruct (on_text (k c) (c :: l)) as [[v t] u]. cbn [fst snd] in *. destruct (IH N) as (s' & E & H'). exists s'. rewrite E. split; [reflexivity|exact H'].
  - pose proof H as (c & l & q & -> & H1 & H2 & H3 & H4 & H5). assert (P : sc_peek s = (c, s)) by (unfold sc_peek; rewrite H1; reflexivity).
    rewrite t_next in *. cbn [hd tl] in *.
    destruct l as [|r l].
    + exfalso. apply N. pose proof (exec_len (k c) []) as L. destruct (on_text (k c) []) as [[v t] u]. cbn [fst snd] in *. destruct t; [reflexivity|cbn in L; lia].
    + destruct (read_keep post q (sc_buf s) r l H3 H4) as (buf' & q' & E & Q' & U' & NE).
      assert (NX : sc_next s = (c, mkScanner (Some r) buf' (q' ++ post))).
      { unfold sc_next. rewrite P, H2, E. replace (c =? EOFr) with false by (symmetry; apply Z.eqb_neq; exact H5). reflexivity. }
      rewrite NX.
      specialize (IH c (mkScanner (Some r) buf' (q' ++ post)) (r :: l)).
      destruct (on_text (k c) (r :: l)) as [[v t] u]. cbn [fst snd] in *. destruct IH as (s' & E2 & H'); [|exact N|exists s'; split; [|exact H']].
      * exists r, l, q'. cbn [sc_ch sc_src sc_buf]. auto 10.
      * rewrite E2. reflexivity.
Qed.

Lemma peek_holds (q post : reader) text : quiet q -> utf8_text text (bytes q) -> skip_bom text <> [] ->
  exists c s, sc_peek (init (q ++ post)) = (c, s) /\ sc_ch s = Some c /\ holds s (skip_bom text) post.
Proof.
  intros Q U N. unfold sc_peek, init. cbn [sc_ch sc_buf sc_src]. destruct text as [|r l]; [contradiction|].
  destruct (read_keep post q [] r l Q U) as (buf & q1 & E & Q1 & U1 & NE). rewrite E. cbn [skip_bom] in *. destruct (r =? 65279) eqn:B.
  - destruct l as [|r2 l]; [contradiction|]. destruct (read_keep post q1 buf r2 l Q1 U1) as (buf2 & q2 & E2 & Q2 & U2 & NE2). rewrite E2.
    do 2 eexists. split; [reflexivity|]. split; [reflexivity|]. exists r2, l, q2. cbn [sc_ch sc_src sc_buf]. auto 10.
  - do 2 eexists. split; [reflexivity|]. split; [reflexivity|]. exists r, l, q1. cbn [sc_ch sc_src sc_buf]. auto 10.
Qed.

Lemma stream_text {A} (p : sprog A) (q post : reader) text : quiet q -> utf8_text text (bytes q) -> snd (fst (on_text p (skip_bom text))) <> [] -> p <> SOut -> (forall a, p <> SRet a) ->
  exists s q', on_reader p (init (q ++ post)) = (fst (fst (on_text p (skip_bom text))), s, snd (on_text p (skip_bom text))) /\ sc_src s = q' ++ post.
Proof.
  intros Q U N P1 P2.
  assert (NT : skip_bom text <> []).
  { intros Z. rewrite Z in N. apply N. pose proof (exec_len p []) as L. destruct (on_text p []) as [[v t] u]. cbn [fst snd] in *. destruct t; [reflexivity|cbn in L; lia]. }
  destruct (peek_holds q post text Q U NT) as (c & s & P & H & A0).
  assert (P' : sc_peek s = (c, s)) by (unfold sc_peek; rewrite H; reflexivity).
  destruct (exec_holds p post s _ A0 N) as (s' & E & (c' & l & q' & _ & _ & H2 & _)). exists s', q'. split; [|exact H2].
  rewrite <- E. unfold on_reader. destruct p as [v|k|k|]; [exfalso; eapply P2; reflexivity| | |congruence]; cbn [exec].
  - rewrite P, P'. reflexivity.
  - unfold sc_next. rewrite P, P'. reflexivity.
Qed.

(** The first tokens *)
Lemma first_runs d n : sees_no_eof d -> forall f k s line col acc l, real s -> (List.length s < n)%nat -> (List.length s < f)%nat ->
  tokenize_loop d true f (mkTS s line col) (rev acc) = TOk (acc ++ l) -> (k < List.length l)%nat ->
  exists u rest, on_text (first_prog d n k line col acc) s = (Some (Some (acc ++ firstn k l)), rest, u) /\ rest <> [].
Proof.
  intros D. induction f as [|f IH]; intros k s line col acc l R L F T K; [lia|]. 
  assert (NS : s <> []).
  { intros ->. cbn [tokenize_loop] in T. unfold scan in T. cbn [ts_src next] in T. destruct D as (D1 & _ & D3). rewrite D1, D3 in T. rewrite rev_involutive in T.
    injection T as T. apply (f_equal (@List.length token)) in T. rewrite app_length in T. lia. }
  destruct k as [|k].
  - cbn [first_prog firstn]. rewrite app_nil_r. exists (mkUsage 0 0), s. split; [reflexivity|exact NS].
  - cbn [tokenize_loop] in T. unfold scan in T. cbn [ts_src ts_line ts_col] in T. cbn [first_prog].
    pose proof (next_runs d n s line col D R L) as N. unfold next_ok in N. destruct (next d s line col) as [kd v rest l0 c| |rest l0 c|] eqn:E; try discriminate.
    + cbn [negb andb] in T. destruct N as (p & x & X1 & X2 & X3 & X).
      assert (R2 : real rest).
      { pose proof (f_equal (fun z => snd (fst z)) X) as Y. cbn [fst snd] in Y. rewrite <- Y. apply exec_real. exact R. }
      set (t := mkTok kd v (mkPos line col) (mkPos l0 c)) in *.
      destruct l as [|t' l]; [cbn in K; lia|]. cbn [List.length] in K.
      assert (T' : tokenize_loop d true f (mkTS rest l0 c) (rev (acc ++ [t])) = TOk (acc ++ t' :: l)) by (rewrite rev_app_distr; exact T).
      assert (t' = t).
      { clear - T'. revert T'. generalize (mkTS rest l0 c). intros st T'.
        assert (G : forall f st acc r, tokenize_loop d true f st acc = TOk r -> exists m, r = rev acc ++ m).
        { clear. induction f as [|f IH]; intros st acc r H; [discriminate|]. cbn [tokenize_loop] in H. destruct (scan d true st); try discriminate.
          - destruct (IH _ _ _ H) as (m & ->). exists (t :: m). cbn [rev]. rewrite <- app_assoc. reflexivity.
          - exact (IH _ _ _ H).
          - injection H as <-. exists []. rewrite app_nil_r. reflexivity. }
        destruct (G _ _ _ _ T') as (m & Y). rewrite rev_involutive, <- app_assoc in Y. apply app_inv_head in Y. cbn in Y. injection Y. congruence. }
      subst t'. rewrite (app_assoc acc [t] l : acc ++ t :: l = _) in T'.
      destruct (IH k rest l0 c (acc ++ [t]) l R2 ltac:(lia) ltac:(lia) T' ltac:(lia)) as (u & rest2 & Y & NR).
      rewrite (text_bind _ _ _ _ _ _ X). cbv beta iota. fold t. rewrite Y. do 2 eexists. split; [|exact NR].
      cbn [firstn]. rewrite <- app_assoc. reflexivity.
    + injection T as T. apply (f_equal (@List.length token)) in T. rewrite rev_involutive, app_length in T. lia.
Qed.

Lemma first_tokens d n (q post : reader) text l k : dialect_ok d -> quiet q -> utf8_text text (bytes q) -> (List.length text < n)%nat ->
  tokenize d true text = TOk l -> (0 < k < List.length l)%nat ->
  exists s q' u, on_reader (first_prog d n k 1 1 []) (init (q ++ post)) = (Some (Some (firstn k l)), s, u) /\ sc_src s = q' ++ post.
Proof.
  intros D Q U L T K. pose proof (dialect_ok_eof d D) as D'.
  assert (R : real text). { clear - U. induction U as [|r c l bs C U IH]; constructor; [|exact IH]. pose proof (utf8_scalar _ _ C). unfold scalar, EOFr in *. lia. }
  destruct (bom_real _ R) as [RB LB]. unfold tokenize in T.
  destruct (first_runs d n D' (S (List.length (skip_bom text))) k (skip_bom text) 1 1 [] l RB ltac:(lia) ltac:(lia) T ltac:(lia)) as (u & rest & X & NR).
  cbn [app] in X.
  destruct (stream_text (first_prog d n k 1 1 []) q post text Q U) as (s & q' & E & S).
  - rewrite X. exact NR.
  - destruct k; [lia|]. discriminate.
  - destruct k; [lia|]. discriminate.
  - exists s, q', u. rewrite E, X. split; [reflexivity|exact S].
Qed.
