(** From tokens to source text: blanks, comments, positions and letter case. *)
From Coq Require Import ZArith List Bool String Lia ZifyBool.
From Verif Require Import Base Dialect Token Lexer LexSpec LexFacts LexPos LexThms AST Num Prog Parser ParseSpec
  Erase Wp Term Natural Sim ErId ParserThms SqlThms.
Import ListNotations.
Open Scope Z_scope.

(** Tokens from the tokenizer are well formed. *)
Lemma lexeme_wf d k v s rest p q : lexeme d k v s rest -> tok_wf (mkTok k v p q).
Proof.
  intros H. destruct H; cbn; auto.
  cbn [In symbols] in H. repeat destruct H as [H|H]; try contradiction;
    injection H as <- <- <-; exact I.
Qed.

Lemma reads_wf d p text l rem : reads d p text l rem -> Forall tok_wf (map fst l).
Proof. induction 1; cbn; constructor; auto. eapply lexeme_wf; eauto. Qed.

Lemma tokenize_wf d pc src toks : dialect_ok d -> tokenize d pc src = TOk toks -> Forall tok_wf toks.
Proof.
  intros D E. apply tokenize_ok_iff in E as (l & R & ->); auto. apply reads_wf in R.
  rewrite Forall_forall in *. intros x Hx. apply filter_In in Hx. apply R, Hx.
Qed.

(** A token sees only the next character. *)
Definition hd1 (l : list rune) : list rune := firstn 1 l.

Lemma stops_hd P a b : hd1 a = hd1 b -> stops P a -> stops P b.
Proof. destruct a, b; cbn; try discriminate; auto. intros [= ->]. auto. Qed.

Lemma lexeme_hd d k v s a b : hd1 a = hd1 b -> lexeme d k v s a -> lexeme d k v s b.
Proof.
  intros E H. destruct H; try (econstructor; eauto using stops_hd; fail).
Qed.

(** Replacing what follows a sequence of tokens. *)
Lemma keeps_tail d x l rest : l <> [] -> keeps d (x :: l) rest -> keeps d l rest.
Proof.
  unfold keeps. intros N. cbn [rev]. destruct (rev l) as [|y m] eqn:E; [|auto].
  exfalso. apply N. rewrite <- (rev_involutive l), E. reflexivity.
Qed.

Lemma reads_swap d p text l rem rem' : reads d p text l rem -> keeps d l rem' ->
  reads d p (List.concat (map snd l) ++ rem') l rem'.
Proof.
  induction 1 as [p text|p q s text k v l rem H Hq R IH]; intros K; cbn [map snd List.concat app].
  - constructor.
  - rewrite <- app_assoc.
    destruct l as [|[t2 s2] l].
    + cbn. unfold keeps in K. cbn in K. econstructor; eauto. constructor.
    + econstructor; eauto.
      * eapply lexeme_hd; [|exact H]. destruct (reads_concat _ _ _ _ _ R) as [-> N].
        cbn [map snd List.concat]. inversion_clear N as [|? ? N1 _]. cbn [snd] in N1.
        destruct s2 as [|c s2]; [congruence|]. reflexivity.
      * apply IH. eapply keeps_tail; [|exact K]. discriminate.
Qed.

Lemma reads_app d p text l rem l' rem' : reads d p text l rem -> reads d (match rev l with [] => p | (t, _) :: _ => tto t end) rem l' rem' ->
  reads d p text (l ++ l') rem'.
Proof.
  induction 1 as [p text|p q s text k v l rem H Hq R IH]; intros K; [exact K|].
  cbn [app]. econstructor; eauto. apply IH. cbn [rev] in K.
  destruct (rev l) as [|[t2 s2] m] eqn:E; cbn in K; exact K.
Qed.

(** The same text from another position. *)
Lemma reads_shift d p text l rem : reads d p text l rem -> forall p',
  exists l', reads d p' text l' rem /\ map snd l' = map snd l /\
             map kv (map fst l') = map kv (map fst l).
Proof.
  induction 1 as [p text|p q s text k v l rem H Hq R IH]; intros p'.
  - exists []. repeat split. constructor.
  - destruct (IH (token_end k v s p')) as (l' & R' & E1 & E2).
    exists ((mkTok k v p' (token_end k v s p'), s) :: l'). repeat split.
    + econstructor; eauto.
    + cbn. now rewrite E1.
    + cbn. now rewrite E2.
Qed.

Inductive lexed (d : dialect) (src : list rune) : tokres -> Prop :=
| lexed_ok l : reads d start_pos (skip_bom src) l [] -> lexed d src (TOk (map fst l))
| lexed_err l rem : reads d start_pos (skip_bom src) l rem -> lex_error rem -> lexed d src TErr
| lexed_hang l rem : reads d start_pos (skip_bom src) l rem -> unclosed_delimited d rem -> lexed d src THang.

Lemma lexed_iff d src r : dialect_ok d -> tokenize d true src = r <-> lexed d src r.
Proof.
  intros D. split.
  - intros <-. pose proof (tokenize_spec d true src D) as T. destruct (tokenize d true src) as [ts| | |]; cbn in T.
    + destruct T as (l & R & ->). rewrite keep_true. cbn. constructor. exact R.
    + destruct T as (l & rem & R & F). econstructor; eauto.
    + destruct T as (l & rem & R & F). eapply lexed_hang; eauto.
    + contradiction.
  - intros H. destruct H.
    + apply tokenize_complete; auto.
    + apply tokenize_err_iff; eauto.
    + apply tokenize_hang_iff; eauto.
Qed.

(** Reading is deterministic: a reading that cannot be continued extends every
    other. *)
Lemma lexeme_det d k v s rest k' v' s' rest' : dialect_ok d ->
  lexeme d k v s rest -> lexeme d k' v' s' rest' -> s ++ rest = s' ++ rest' ->
  k = k' /\ v = v' /\ s = s' /\ rest = rest'.
Proof.
  intros D H H' E. pose proof (next_complete d k v s rest 1 1 D H) as N.
  pose proof (next_complete d k' v' s' rest' 1 1 D H') as N'. rewrite E in N. rewrite N in N'.
  unfold tok_res in N'. injection N' as -> -> -> _ _.
  apply app_inv_tail in E. auto.
Qed.

Definition stuck (d : dialect) (rem : list rune) : Prop :=
  rem = [] \/ lex_error rem \/ unclosed_delimited d rem.

Lemma stuck_no_lexeme d k v s rest : dialect_ok d -> stuck d (s ++ rest) -> ~ lexeme d k v s rest.
Proof.
  intros D S H. pose proof (next_complete d k v s rest 1 1 D H) as N.
  destruct S as [S|[S|S]].
  - apply lexeme_nonempty in H. destruct s; [congruence|discriminate].
  - destruct (next_error d _ 1 1 D S) as (? & ? & ? & E). rewrite E in N. discriminate.
  - rewrite (next_hang d _ 1 1 D S) in N. discriminate.
Qed.

Lemma reads_prefix d p text l rem : dialect_ok d -> reads d p text l rem -> forall l2 rem2,
  reads d p text l2 rem2 -> stuck d rem2 ->
  exists m, l2 = l ++ m /\
    reads d (match rev l with [] => p | (t, _) :: _ => tto t end) rem m rem2.
Proof.
  intros D. induction 1 as [p text|p q s text k v l rem H Hq R IH]; intros l2 rem2 R2 S2.
  - exists l2. auto.
  - inversion R2 as [p0 t0|p0 q0 s0 text0 k0 v0 l0 rest0 H0 Hq0 R0]; subst.
    + exfalso. eapply stuck_no_lexeme; eauto.
    + match goal with E : _ ++ _ = _ ++ _ |- _ =>
        destruct (lexeme_det _ _ _ _ _ _ _ _ _ D H0 H E) as (-> & -> & -> & ->) end.
      destruct (IH _ _ R0 S2) as (m & -> & Rm). exists m. split; [reflexivity|].
      cbn [rev]. destruct (rev l) as [|[t2 s2] l']; cbn; exact Rm.
Qed.

(** Two texts that share a tail after tokens [la] and [la']. *)
Lemma tokenize_tail d src src' la la' b :
  dialect_ok d ->
  reads d start_pos (skip_bom src) la b ->
  reads d start_pos (skip_bom src') la' b ->
  match tokenize d true src, tokenize d true src' with
  | TOk ts, TOk ts' => exists m m', ts = map fst la ++ m /\ ts' = map fst la' ++ m' /\ map kv m = map kv m'
                       /\ (map tto (map fst (firstn 1 (rev la))) = map tto (map fst (firstn 1 (rev la'))) -> m = m')
  | TErr, TErr => True
  | THang, THang => True
  | _, _ => False
  end.
Proof.
  intros D R R'.
  assert (T : lexed d src (tokenize d true src)) by (apply lexed_iff; auto).
  remember (tokenize d true src) as r. clear Heqr.
  set (q := match rev la with [] => start_pos | (t, _) :: _ => tto t end) in *.
  set (q' := match rev la' with [] => start_pos | (t, _) :: _ => tto t end) in *.
  assert (HQ : map tto (map fst (firstn 1 (rev la))) = map tto (map fst (firstn 1 (rev la'))) -> q = q').
  { unfold q, q'. destruct (rev la) as [|[t s] m], (rev la') as [|[t' s'] m']; cbn; congruence. }
  destruct T as [l T|l rem T F|l rem T F].
  - destruct (reads_prefix _ _ _ _ _ D R _ _ T (or_introl eq_refl)) as (m & -> & M). fold q in M.
    destruct (reads_shift _ _ _ _ _ M q') as (m' & M' & E1 & E2).
    assert (X : tokenize d true src' = TOk (map fst (la' ++ m'))).
    { apply tokenize_complete; auto. eapply reads_app; eauto. }
    assert (XX : q = q' -> map fst m = map fst m').
    { intros E. rewrite <- E in M'.
      destruct (reads_prefix _ _ _ _ _ D M _ _ M' (or_introl eq_refl)) as (z & -> & Z).
      assert (z = []) as ->; [|now rewrite app_nil_r].
      apply (f_equal (@List.length _)) in E2. rewrite !map_length, app_length in E2. destruct z; [auto|cbn in E2; lia]. }
    rewrite X. rewrite !map_app. exists (map fst m), (map fst m'). repeat split; auto.
  - destruct (reads_prefix _ _ _ _ _ D R _ _ T (or_intror (or_introl F))) as (m & -> & M).
    destruct (reads_shift _ _ _ _ _ M q') as (m' & M' & E1 & E2).
    assert (X : tokenize d true src' = TErr).
    { apply tokenize_err_iff; auto. exists (la' ++ m'), rem. split; auto. eapply reads_app; eauto. }
    now rewrite X.
  - destruct (reads_prefix _ _ _ _ _ D R _ _ T (or_intror (or_intror F))) as (m & -> & M).
    destruct (reads_shift _ _ _ _ _ M q') as (m' & M' & E1 & E2).
    assert (X : tokenize d true src' = THang).
    { apply tokenize_hang_iff; auto. exists (la' ++ m'), rem. split; auto. eapply reads_app; eauto. }
    now rewrite X.
Qed.

(** *** Parsing two texts with corresponding tokens *)
Definition res_rel {A} (R : A -> A -> Prop) (x y : result A) : Prop :=
  match x, y with
  | ROk a, ROk b => R a b
  | RErr, RErr => True
  | RPanic w, RPanic w' => w = w'
  | RHang, RHang => True
  | _, _ => False
  end.

Lemma res_rel_map {A B} (f g : A -> B) x y : res_rel (fun a b => f a = g b) x y -> res_map f x = res_map g y.
Proof. destruct x, y; cbn; try contradiction; congruence. Qed.

Section Two.
  Context {A : Type} (P : rec -> prog A) (erA : (pos -> pos) -> (rune -> rune) -> A -> A) (k : nat).
  Hypothesis HP : entry P erA k.

  Lemma run_raw_er fp g fp' g' ts ts' :
    fp pos0 = pos0 -> gok g -> fp' pos0 = pos0 -> gok g' ->
    Forall tok_wf ts -> Forall tok_wf ts' ->
    map (er_tok fp g) (fsig ts) = map (er_tok fp' g') (fsig ts') ->
    res_map (erA fp g) (res_of (run_raw P ts)) = res_map (erA fp' g') (res_of (run_raw P ts')).
  Proof.
    intros F G F' G' W W' E.
    change (run_raw P ts) with (call P [] ts). change (run_raw P ts') with (call P [] ts').
    rewrite !(call_res _ _ _ HP) by assumption.
    pose proof (base_er P erA k HP fp g fp' g' _ _ F G F' G' (fsig_wf _ W) (fsig_wf _ W') E) as B.
    destruct (base P (fsig ts)), (base P (fsig ts')); cbn [res_of res_map]; try contradiction; auto.
    - destruct B as [-> _]. reflexivity.
    - now rewrite B.
  Qed.

  Lemma kv_er ts ts' : map kv ts = map kv ts' ->
    map (er_tok no_pos same_rune) ts = map (er_tok no_pos same_rune) ts'.
  Proof.
    revert ts'. induction ts as [|t ts IH]; intros [|t' ts'] E; try discriminate; [reflexivity|].
    cbn in *. injection E as E1 E2 E3. rewrite (IH _ E3). unfold er_tok. rewrite E1, E2. reflexivity.
  Qed.

  Lemma fsig_kv ts ts' : map kv ts = map kv ts' -> map kv (fsig ts) = map kv (fsig ts').
  Proof.
    revert ts'. induction ts as [|t ts IH]; intros [|t' ts'] E; try discriminate; [reflexivity|].
    cbn in E. injection E as E1 E2 E3. rewrite !fsig_cons. unfold skipped. rewrite E1.
    destruct (is_ws_kind (tkind t')); auto. cbn. unfold kv at 1 3. rewrite E1, E2. f_equal. auto.
  Qed.

  Lemma gok_same : gok same_rune.
  Proof. exact gok_id. Qed.

  (** Equal texts up to blanks. *)
  Lemma parse_blank d src src' a w b la lw p :
    dialect_ok d ->
    skip_bom src = a ++ b -> skip_bom src' = a ++ w ++ b ->
    reads d start_pos (a ++ b) la b ->
    reads d p (w ++ b) lw b -> Forall (fun x => is_ws_kind (tkind (fst x)) = true) lw ->
    keeps d la (w ++ b) ->
    res_map (erA no_pos same_rune) (parse_with P d src')
    = res_map (erA no_pos same_rune) (parse_with P d src).
  Proof.
    intros D E E' R Rw Fw K.
    assert (Ea : a = List.concat (map snd la)).
    { destruct (reads_concat _ _ _ _ _ R) as [X _]. apply app_inv_tail in X. exact X. }
    pose proof (reads_swap _ _ _ _ _ _ R K) as R1. rewrite <- Ea in R1.
    destruct (reads_shift _ _ _ _ _ Rw (match rev la with [] => start_pos | (t, _) :: _ => tto t end))
      as (lw' & Rw' & _ & Ew).
    pose proof (reads_app _ _ _ _ _ _ _ R1 Rw') as R2.
    rewrite <- E in R. rewrite <- E' in R2.
    pose proof (tokenize_tail d src src' la (la ++ lw') b D R R2) as T.
    unfold parse_with. pose proof (tokenize_wf d true src) as W. pose proof (tokenize_wf d true src') as W'.
    destruct (tokenize d true src) as [ts| | |], (tokenize d true src') as [ts'| | |]; try contradiction; auto.
    destruct T as (m & m' & -> & -> & Em & _).
    symmetry. apply run_raw_er; auto using gok_same.
    apply kv_er.
    assert (X : fsig (map fst lw') = []).
    { apply (fsig_kv) in Ew.
      assert (Y : fsig (map fst lw) = []).
      { clear - Fw. induction Fw as [|x l Hx Fl IH]; [reflexivity|]. cbn [map]. rewrite fsig_cons. unfold skipped. now rewrite Hx. }
      rewrite Y in Ew. destruct (fsig (map fst lw')); [reflexivity|discriminate]. }
    rewrite !map_app, !fsig_app, X, app_nil_r, !map_app. f_equal. apply fsig_kv. auto.
  Qed.
End Two.

(** Significant tokens are not disturbed by a blank after them. *)
Lemma blank_part d r : dialect_ok d -> blank_char r = true -> is_part d r = false.
Proof.
  intros (_ & Hp & _) B. destruct (is_part d r) eqn:E; [|reflexivity]. apply Hp in E. clear Hp.
  unfold blank_char, word_char, is_letter, is_digit in *. lia.
Qed.

Lemma lexeme_blank d k v s rest c rest' : dialect_ok d -> is_ws_kind k = false -> blank_char c = true ->
  lexeme d k v s rest -> lexeme d k v s (c :: rest').
Proof.
  intros D K B H. pose proof (blank_part d c D B) as Hp.
  assert (Hq : c =? 39 = false) by (unfold blank_char in B; lia).
  destruct H; try discriminate K; try (constructor; auto; fail).
  - constructor; auto. cbn. unfold blank_char in B. unfold is_digit. lia.
  - econstructor; eauto. cbn [In symbols] in H.
    repeat destruct H as [H|H]; try contradiction; injection H as <- <- <-; cbn; try reflexivity;
      unfold blank_char in B; lia.
Qed.

Lemma keeps_blank d p text l rem c rest : dialect_ok d -> reads d p text l rem -> blank_char c = true ->
  (forall t s m, rev l = (t, s) :: m -> is_ws_kind (tkind t) = false) ->
  keeps d l (c :: rest).
Proof.
  intros D R B H. unfold keeps. destruct (rev l) as [|[t s] m] eqn:E; [auto|].
  assert (El : l = rev m ++ [(t, s)]) by (rewrite <- (rev_involutive l), E; reflexivity).
  destruct (reads_lexemes _ _ _ _ _ R _ _ _ _ El) as [L _].
  eapply lexeme_blank; eauto.
Qed.

(** *** Hanging *)
Lemma parse_with_hang {A} (P : rec -> prog A) erA k : entry P erA k -> forall d src, dialect_ok d ->
  parse_with P d src = RHang <->
  exists l rem, reads d start_pos (skip_bom src) l rem /\ unclosed_delimited d rem.
Proof.
  intros HP d src D. rewrite <- (tokenize_hang_iff d true src D). unfold parse_with.
  pose proof (tokenize_wf d true src) as W. pose proof (tokenize_no_fuel d true src D) as N.
  destruct (tokenize d true src) as [ts| | |] eqn:E; try (split; congruence).
  specialize (W ts D eq_refl).
  change (run_raw P ts) with (call P [] ts). rewrite (call_res _ _ _ HP) by assumption.
  pose proof (base_spec _ _ _ HP _ (fsig_wf _ W)) as B.
  destruct (base P (fsig ts)); cbn [res_of]; split; try congruence; contradiction.
Qed.

Lemma parse_file_source d src : dialect_ok d ->
  res_map f_stmts (parse_file d src) = parse_source d src.
Proof.
  intros D. unfold parse_file, parse_source, parse_with. pose proof (tokenize_wf d true src) as W.
  destruct (tokenize d true src) as [ts| | |]; try reflexivity.
  specialize (W ts D eq_refl).
  change (run_raw (parse_sql false) ts) with (call (parse_sql false) [] ts).
  rewrite (call_res _ _ _ (entry_sql false)) by assumption.
  pose proof (run_cm_agrees _ _ _ (entry_sql true) ts W) as B.
  assert (X : base (parse_sql true) (fsig ts) = base (parse_sql false) (fsig ts)) by (apply parse_sql_pc).
  rewrite X in B.
  destruct (run_cm (parse_sql true) ts), (base (parse_sql false) (fsig ts)); cbn [res_of res_map]; try contradiction; auto.
  - destruct B as [-> _]. reflexivity.
  - now rewrite B.
Qed.

(** *** Letter case *)
Lemma gok_asc : gok asc_up.
Proof.
  unfold gok, asc_up, fold1. repeat split. intros r.
  destruct ((97 <=? r) && (r <=? 122)) eqn:E; [|now rewrite E].
  replace ((97 <=? r - 32) && (r - 32 <=? 122)) with false by lia.
  replace (r - 32 =? 383) with false by lia. replace (r - 32 =? 8490) with false by lia. reflexivity.
Qed.

Lemma case_blind_shipped : case_blind generic /\ case_blind postgres /\ case_blind mysql.
Proof.
  assert (H : forall r, is_letter (asc_up r) = is_letter r /\ is_digit (asc_up r) = is_digit r /\
    (forall c, In c [64; 95; 36] -> (asc_up r =? c) = (r =? c))).
  { intros r. unfold asc_up, is_letter, is_digit. destruct ((97 <=? r) && (r <=? 122)) eqn:E.
    - repeat split; [lia|lia|]. intros c [<-|[<-|[<-|[]]]]; lia.
    - repeat split; lia. }
  unfold case_blind, mysql, generic, postgres; cbn [is_start is_part].
  repeat split; intros r; destruct (H r) as (H1 & H2 & H3);
    rewrite ?H1, ?H2, ?(H3 64), ?(H3 95), ?(H3 36) by (cbn; auto); try reflexivity.
Qed.

Definition hdu (l : list rune) : list rune := map asc_up (firstn 1 l).

Lemma stops_hdu P a b : (forall r, P (asc_up r) = P r) -> hdu a = hdu b -> stops P a -> stops P b.
Proof.
  intros HP. destruct a as [|x a], b as [|y b]; cbn; try discriminate; auto. intros [= E] H.
  rewrite <- (HP y), <- E, HP. exact H.
Qed.

Lemma asc_up_not c : (forall r, (97 <= r <= 122) -> r <> c /\ r - 32 <> c) -> forall r, (asc_up r =? c) = (r =? c).
Proof. intros H r. unfold asc_up. specialize (H r). destruct ((97 <=? r) && (r <=? 122)) eqn:E; lia. Qed.

Lemma lexeme_hdu d k v s a b : case_blind d -> hdu a = hdu b -> lexeme d k v s a -> lexeme d k v s b.
Proof.
  intros (C1 & C2 & C3) E H.
  assert (Q : forall r, (asc_up r =? 39) = (r =? 39)) by (apply asc_up_not; lia).
  assert (L : forall r, (asc_up r =? 10) = (r =? 10)) by (apply asc_up_not; lia).
  assert (N : forall r, is_digit (asc_up r) || (asc_up r =? 46) = is_digit r || (r =? 46)).
  { intros r. unfold asc_up, is_digit. destruct ((97 <=? r) && (r <=? 122)) eqn:X; lia. }
  destruct H; try (econstructor; eauto; fail);
    try (econstructor; eauto; eapply stops_hdu; [|exact E|eassumption]; assumption).
  - econstructor; eauto; [eapply stops_hdu; [|exact E|eassumption]; assumption|].
    intros F1 F2. eapply stops_hdu; [|exact E|eauto]. assumption.
  - econstructor; eauto. eapply stops_hdu; [|exact E|eassumption]. intros r. cbn. now rewrite L.
  - econstructor; eauto. eapply stops_hdu; [|exact E|eassumption]. intros r.
    cbn [In symbols] in H. repeat destruct H as [H|H]; try contradiction; injection H as <- <- <-; cbn;
      rewrite ?(asc_up_not 42), ?(asc_up_not 45), ?(asc_up_not 58), ?(asc_up_not 61), ?(asc_up_not 62) by lia;
      reflexivity.
Qed.

Lemma asc_upper a b : map asc_up a = map asc_up b -> upper a = upper b /\ glen a = glen b.
Proof.
  revert b. induction a as [|x a IH]; intros [|y b] E; try discriminate; [auto|].
  cbn in E. injection E as E1 E2. destruct (IH _ E2) as [I1 I2]. change (to_upper x :: upper a = to_upper y :: upper b /\ rune_len x + glen a = rune_len y + glen b). rewrite I1, I2. split; f_equal.
  - unfold asc_up, to_upper in *. 
    destruct ((97 <=? x) && (x <=? 122)) eqn:X, ((97 <=? y) && (y <=? 122)) eqn:Y; subst; auto.
    + replace (x - 32 =? 305) with false by lia. replace (x - 32 =? 383) with false by lia. auto.
    + replace (y - 32 =? 305) with false by lia. replace (y - 32 =? 383) with false by lia. auto.
  - unfold asc_up, rune_len in *.
    destruct ((97 <=? x) && (x <=? 122)) eqn:X, ((97 <=? y) && (y <=? 122)) eqn:Y; subst; auto.
    + replace x with y by lia. reflexivity.
    + replace (x <? 128) with true by lia. replace (x - 32 <? 128) with true by lia. reflexivity.
    + replace (y <? 128) with true by lia. replace (y - 32 <? 128) with true by lia. reflexivity.
Qed.

Lemma forallb_asc P a b : (forall r, P (asc_up r) = P r) -> map asc_up a = map asc_up b ->
  forallb P a = forallb P b.
Proof.
  intros H. revert b. induction a as [|x a IH]; intros [|y b] E; try discriminate; [auto|].
  cbn in E. injection E as E1 E2. cbn. rewrite (IH _ E2). f_equal. rewrite <- (H x), E1. apply H.
Qed.

Lemma recased_hdu l l' rem : recased l l' rem -> hdu (List.concat (map snd l) ++ rem) = hdu (List.concat l' ++ rem)
  \/ Exists (fun x => snd x = []) l.
Proof.
  induction 1 as [rem|t s l l' rem R IH|t s s' l l' rem W E N R IH]; cbn [map snd List.concat].
  - auto.
  - destruct s as [|c s]; [right; left; reflexivity|]. left. reflexivity.
  - destruct s as [|c s], s' as [|c' s']; try discriminate; [right; left; reflexivity|].
    left. cbn in E. injection E as E1 E2. unfold hdu. cbn. now rewrite E1.
Qed.

Lemma reads_recase d p text l rem : dialect_ok d -> case_blind d -> reads d p text l rem ->
  forall l', recased l l' rem ->
  exists m, reads d p (List.concat l' ++ rem) m rem /\
    map (er_tok (fun p => p) asc_up) (map fst m) = map (er_tok (fun p => p) asc_up) (map fst l) /\
    map tto (map fst (firstn 1 (rev m))) = map tto (map fst (firstn 1 (rev l))).
Proof.
  intros D C. induction 1 as [p text|p q s text k v l rem H Hq R IH]; intros l' RC.
  - inversion RC; subst. exists []. repeat split. constructor.
  - assert (HD : forall l2, recased l l2 rem -> hdu text = hdu (List.concat l2 ++ rem)).
    { intros l2 R2. destruct (reads_concat _ _ _ _ _ R) as [-> N]. destruct (recased_hdu _ _ _ R2) as [E|E]; [exact E|].
      exfalso. rewrite Exists_exists in E. destruct E as (x & I & E). rewrite Forall_forall in N. exact (N _ I E). }
    assert (LAST : forall t t' (s0 s1 : list rune) (m : list (token * list rune)), tto t = tto t' ->
       map tto (map fst (firstn 1 (rev m))) = map tto (map fst (firstn 1 (rev l))) ->
       map tto (map fst (firstn 1 (rev ((t, s0) :: m)))) = map tto (map fst (firstn 1 (rev ((t', s1) :: l))))).
    { intros t t' s0 s1 m E1 E2. cbn [rev].
      destruct (rev m) as [|a m0], (rev l) as [|b l0]; cbn in *; congruence. }
    inversion RC as [|t s0 l0 l1 rem0 RC'|t s0 s' l0 l1 rem0 W E N RC']; subst.
    + destruct (IH _ RC') as (m & Rm & E1 & E2). cbn [List.concat]. rewrite <- app_assoc.
      eexists ((_, s) :: m). repeat split; [econstructor; [|reflexivity|exact Rm]| |].
      * eapply lexeme_hdu; [exact C|apply HD; exact RC'|exact H].
      * cbn [map fst]. rewrite E1. reflexivity.
      * apply LAST; auto.
    + destruct (IH _ RC') as (m & Rm & E1 & E2). cbn [List.concat]. rewrite <- app_assoc.
      inversion H as [| | | | |f w rest H1 H2 H3 H4|q s1 rest H1 H2| | | | | |sy kk ff rest H1 H2|]; subst; try discriminate W.
      * (* a word *)
        destruct s' as [|f' w']; [discriminate|]. destruct (asc_upper _ _ E) as [U G].
        cbn [map] in E. injection E as Ef Ew. destruct C as (C1 & C2 & C3).
        assert (S1 : is_start d f' = true).
        { rewrite <- C1, Ef, C1. destruct H1 as [H1|H1]; [exact H1|subst; exact C3]. }
        eexists ((mkTok SQLKeyword (VWord (mkWord (f' :: w') 0 (upper (f' :: w')))) p _, f' :: w') :: m).
        repeat split; [econstructor; [|reflexivity|]| |].
        -- constructor; auto.
           ++ rewrite (forallb_asc (is_part d) w' w); auto.
           ++ eapply stops_hdu; [exact C2|apply HD; exact RC'|exact H3].
           ++ intros -> ->. apply N. reflexivity.
        -- replace (token_end _ _ (f' :: w') p) with (token_end SQLKeyword (VWord (mkWord (f :: w) 0 (upper (f :: w)))) (f :: w) p).
           ++ exact Rm.
           ++ unfold token_end. cbn [wquote]. rewrite G. reflexivity.
        -- cbn [map fst]. rewrite E1. f_equal. unfold er_tok. cbn [tkind tval tfrom tto er_val er_word wvalue wquote wkeyword].
           unfold er_word; cbn [wvalue wquote wkeyword map]. rewrite Ef, Ew, U. f_equal. unfold token_end. cbn [wquote]. now rewrite G.
        -- apply LAST; auto. cbn [tto]. unfold token_end. cbn [wquote]. now rewrite G.
      * exfalso. cbn in W. destruct D as (_ & _ & D3). destruct (D3 _ H1); subst; discriminate.
Qed.

Lemma er_fsig fp g ts ts' : map (er_tok fp g) ts = map (er_tok fp g) ts' ->
  map (er_tok fp g) (fsig ts) = map (er_tok fp g) (fsig ts').
Proof.
  revert ts'. induction ts as [|t ts IH]; intros [|t' ts'] E; try discriminate; [reflexivity|].
  cbn [map] in E.
  pose proof (f_equal (fun l => hd (er_tok fp g t) l) E) as E0. cbn [hd] in E0.
  pose proof (f_equal (@List.tl _) E) as E3. cbn [List.tl] in E3. clear E.
  assert (E1 : tkind t = tkind t') by (apply (f_equal tkind) in E0; exact E0).
  rewrite !fsig_cons. unfold skipped. rewrite E1.
  destruct (is_ws_kind (tkind t')); auto. cbn [map]. now rewrite (IH _ E3), E0.
Qed.

Lemma parse_recase {A} (P : rec -> prog A) erA k : entry P erA k -> forall d src src' l l' rem,
  dialect_ok d -> case_blind d ->
  reads d start_pos (skip_bom src) l rem -> recased l l' rem ->
  skip_bom src' = List.concat l' ++ rem ->
  res_map (erA (fun p => p) asc_up) (parse_with P d src')
  = res_map (erA (fun p => p) asc_up) (parse_with P d src).
Proof.
  intros HP d src src' l l' rem D C R RC E.
  destruct (reads_recase _ _ _ _ _ D C R _ RC) as (m & Rm & E1 & E2). rewrite <- E in Rm.
  pose proof (tokenize_tail d src src' l m rem D R Rm) as T.
  unfold parse_with. pose proof (tokenize_wf d true src) as W. pose proof (tokenize_wf d true src') as W'.
  destruct (tokenize d true src) as [ts| | |], (tokenize d true src') as [ts'| | |]; try contradiction; auto.
  destruct T as (x & x' & -> & -> & _ & Ex). rewrite <- (Ex (eq_sym E2)) in *.
  apply (run_raw_er P erA k HP); auto using gok_asc.
  apply er_fsig. rewrite !map_app. now rewrite E1.
Qed.
