(** Facts about positions, comments and dialects used by PropsLexer. *)
From Coq Require Import ZArith List Bool String Lia ZifyBool.
From Verif Require Import Base Dialect Token Lexer LexSpec LexFacts.
Import ListNotations.
Open Scope Z_scope.

Lemma rune_len_pos r : 0 < rune_len r.
Proof. unfold rune_len. destruct (r <? 128), (r <? 2048), (r <? 65536); lia. Qed.

Lemma glen_nonneg s : 0 <= glen s.
Proof. induction s; cbn; [lia|]. pose proof (rune_len_pos a). lia. Qed.

Lemma before_trans p q r : before p q -> before q r -> before p r.
Proof. unfold before. lia. Qed.

Lemma before_irrefl p : ~ before p p.
Proof. unfold before. lia. Qed.

Lemma advance_len n : forall s p, (List.length s <= n)%nat ->
  advance s p = p /\ s = [] \/ before p (advance s p).
Proof.
  induction n as [|n IH]; intros s p L.
  - destruct s; [cbn; auto|cbn in L; lia].
  - destruct s as [|c s]; [auto|]. right. cbn in L. cbn [advance].
    assert (N : forall q t, before p q -> (List.length t <= n)%nat -> before p (advance t q)).
    { intros q t B Lt. destruct (IH t q Lt) as [[-> _]|B']; auto. eapply before_trans; eauto. }
    destruct (c =? 10). { apply N; [unfold before; cbn; lia|lia]. }
    destruct (c =? 13).
    { destruct s as [|m s]; [unfold before; cbn; lia|]. cbn in L.
      destruct (m =? 10); apply N; try (unfold before; cbn; lia); cbn; lia. }
    apply N; [unfold before; cbn; lia|lia].
Qed.

Lemma advance_before s p : s <> [] -> before p (advance s p).
Proof. intros N. destruct (advance_len _ s p (le_n _)) as [[_ ->]|B]; congruence. Qed.

Lemma token_end_before d k v s rest p : lexeme d k v s rest -> before p (token_end k v s p).
Proof.
  intros H. pose proof (lexeme_nonempty _ _ _ _ _ H) as N.
  assert (Z : 0 < zlen s). { destruct s; [congruence|]. unfold zlen; cbn [List.length]; lia. }
  assert (G : 0 < glen s).
  { destruct s as [|c s]; [congruence|]. cbn. pose proof (rune_len_pos c).
    pose proof (glen_nonneg s). lia. }
  destruct H; cbn [token_end wquote Z.eqb];
    try (apply advance_before; discriminate);
    try (unfold before; cbn [pline pcol]; lia).
  - destruct (q =? 0); unfold before; cbn [pline pcol]; lia.
  - pose proof (glen_nonneg s). unfold before; cbn [pline pcol]; lia.
  - pose proof (glen_nonneg s). unfold before; cbn [pline pcol]; lia.
  - cbn [In symbols] in H.
    repeat destruct H as [H|H]; try contradiction; injection H as <- <- <-;
      unfold before; cbn; lia.
Qed.

Lemma reads_starts d p text l rest : reads d p text l rest ->
  match l with [] => True | (t, _) :: _ => tfrom t = p end.
Proof. destruct 1; cbn; auto. Qed.

Lemma reads_concat d p text l rest : reads d p text l rest ->
  text = List.concat (map snd l) ++ rest /\
  Forall (fun x => snd x <> []) l.
Proof.
  induction 1; cbn; auto. destruct IHreads as [-> F].
  rewrite <- app_assoc. split; auto. constructor; auto. cbn. eapply lexeme_nonempty; eauto.
Qed.

(** Every token is a lexeme of its slice, followed by the text of the later
    slices. *)
Lemma reads_lexemes d p text l rest : reads d p text l rest ->
  forall a t s b, l = a ++ (t, s) :: b ->
  lexeme d (tkind t) (tval t) s (List.concat (map snd b) ++ rest) /\
  tto t = token_end (tkind t) (tval t) s (tfrom t).
Proof.
  induction 1; intros a t sl b E.
  - destruct a; discriminate.
  - destruct a as [|x a]; cbn in E.
    + injection E as <- <- <-. cbn. apply reads_concat in H1 as [<- _]. auto.
    + injection E as <- ->. eauto.
Qed.

Lemma reads_tile d p text l rest : reads d p text l rest ->
  forall a t u b, map fst l = a ++ t :: u :: b -> tfrom u = tto t.
Proof.
  induction 1; intros a t u b E.
  - destruct a; discriminate.
  - destruct a as [|x a]; cbn in E.
    + injection E as <- E. cbn. apply reads_starts in H1.
      destruct l as [|[t' s'] l]; cbn in *; [discriminate|]. now injection E as <- _.
    + injection E as <- E. eauto.
Qed.

Lemma reads_before d p text l rest : reads d p text l rest ->
  forall t, In t (map fst l) -> before (tfrom t) (tto t).
Proof.
  induction 1; cbn; [tauto|]. intros t [<-|I]; auto. cbn. subst q.
  eapply token_end_before; eauto.
Qed.

(** All later tokens start after the start of the text. *)
Lemma reads_after d p text l rest : reads d p text l rest ->
  forall a t u b, map fst l = a ++ t :: b -> In u b -> before (tfrom t) (tfrom u).
Proof.
  intros R a t u b E I. revert a t E I. induction b as [|x b IH]; intros a t E I; [destruct I|].
  assert (B : before (tfrom t) (tfrom x)).
  { rewrite (reads_tile _ _ _ _ _ R _ _ _ _ E).
    eapply reads_before; eauto. rewrite E. apply in_or_app. cbn; auto. }
  destruct I as [->|I]; auto.
  eapply before_trans; [exact B|]. apply (IH (a ++ [t]) x); auto.
  now rewrite <- app_assoc.
Qed.

(* ------------------------------------------------------------------ *)
(** True positions. *)

Definition ends_cr (s : list rune) : bool := match rev s with 13 :: _ => true | _ => false end.

Lemma ends_cr_cons c m s : ends_cr (c :: m :: s) = ends_cr (m :: s).
Proof.
  unfold ends_cr. cbn [rev]. destruct (rev s) as [|x r]; cbn; auto.
Qed.

Lemma advance_app_aux n : forall a b p, (List.length a <= n)%nat ->
  (ends_cr a = true -> stops (fun r => r =? 10) b) ->
  advance (a ++ b) p = advance b (advance a p).
Proof.
  induction n as [|n IH]; intros a b p L H.
  - destruct a; [auto|cbn in L; lia].
  - destruct a as [|c a]; [auto|]. cbn in L.
    assert (H' : ends_cr a = true -> stops (fun r => r =? 10) b).
    { destruct a as [|m a]; [discriminate|]. rewrite ends_cr_cons in H. auto. }
    cbn [app advance].
    destruct (c =? 10); [apply IH; auto; lia|].
    destruct (c =? 13) eqn:C.
    + apply Z.eqb_eq in C; subst c. destruct a as [|m a].
      * specialize (H eq_refl). cbn. destruct b as [|x b]; cbn in *; auto. now rewrite H.
      * cbn [app]. destruct (m =? 10) eqn:M.
        -- apply IH; [cbn in L; lia|]. intros E. apply H'.
           destruct a; [discriminate|]. now rewrite ends_cr_cons.
        -- change (m :: a ++ b) with ((m :: a) ++ b). apply IH; auto. lia.
    + apply IH; auto. lia.
Qed.

Lemma advance_app a b p :
  (ends_cr a = true -> stops (fun r => r =? 10) b) ->
  advance (a ++ b) p = advance b (advance a p).
Proof. apply (advance_app_aux (List.length a)); auto. Qed.

Lemma advance_one_line s p : one_line s = true ->
  advance s p = mkPos (pline p) (pcol p + zlen s).
Proof.
  revert p. induction s as [|c s IH]; intros p H.
  - destruct p; cbn. f_equal. unfold zlen; cbn; lia.
  - cbn in H. apply andb_true_iff in H as [C H]. cbn [advance].
    apply negb_true_iff, orb_false_iff in C as [-> ->]. rewrite IH by auto. cbn [pline pcol].
    rewrite zlen_cons. f_equal. lia.
Qed.

Lemma ascii_glen s : ascii s = true -> glen s = zlen s.
Proof.
  induction s as [|c s IH]; [reflexivity|]. cbn [ascii forallb glen]. intros H.
  apply andb_true_iff in H as [C H].
  rewrite zlen_cons, IH by auto. unfold rune_len.
  replace (c <? 128) with true by lia. lia.
Qed.

Lemma escape_no_quote s : ~ In 39 s -> escape s = s.
Proof.
  induction s as [|c s IH]; cbn; auto. intros N.
  replace (c =? 39) with false by (symmetry; apply Z.eqb_neq; intros ->; tauto).
  cbn. fold (escape s). f_equal. tauto.
Qed.

Lemma escape_quote s : ~ In 39 (escape s) -> ~ In 39 s.
Proof.
  induction s as [|c s IH]; cbn; auto. fold (escape s). intros N.
  destruct (c =? 39) eqn:C; cbn in N.
  - apply Z.eqb_eq in C; subst. tauto.
  - intros [->|I]; [discriminate|]. tauto.
Qed.

Lemma one_line_app a b : one_line (a ++ b) = one_line a && one_line b.
Proof. unfold one_line. apply forallb_app. Qed.

Lemma ascii_app a b : ascii (a ++ b) = ascii a && ascii b.
Proof. unfold ascii. apply forallb_app. Qed.

Lemma ascii_mid q s : ascii (39 :: s ++ [q]) = true -> ascii s = true.
Proof.
  unfold ascii. rewrite !forallb_forall. intros A x I. apply A. right. apply in_or_app; auto.
Qed.

Lemma counted_end d k v s rest p : dialect_ok d ->
  lexeme d k v s rest -> counted_truly k s -> token_end k v s p = advance s p.
Proof.
  intros D H C. destruct H; cbn [counted_truly] in C.
  - reflexivity.
  - congruence.
  - reflexivity.
  - reflexivity.
  - reflexivity.
  - destruct C as [O A]. rewrite advance_one_line by auto. cbn [token_end wquote Z.eqb].
    rewrite ascii_glen; auto. destruct A as [A|(q & b & E & Q)]; auto.
    exfalso. injection E as -> E.
    assert (W : word_char q = true).
    { destruct H as [H|H]; [now apply D in H|subst; reflexivity]. }
    destruct Q; subst; discriminate.
  - destruct C as [O A]. rewrite advance_one_line by auto. cbn [token_end wquote].
    assert (Q : q = 34 \/ q = 96) by (apply D; auto).
    replace (q =? 0) with false by (destruct Q; subst; reflexivity). reflexivity.
  - destruct C as (A & O & b & E & N). rewrite advance_one_line by auto. cbn [token_end].
    injection E as E. apply app_inj_tail in E as [E _]. subst b.
    assert (X : escape s = s) by (apply escape_no_quote, escape_quote; auto).
    rewrite X in *. clear X.
    apply ascii_mid in A.
    rewrite ascii_glen, zlen_cons, zlen_app by auto. change (zlen [39]) with 1. f_equal. lia.
  - destruct C as (A & O & b & E & N). rewrite advance_one_line by auto. cbn [token_end].
    injection E as E. apply app_inj_tail in E as [E _]. subst b.
    assert (X : escape s = s) by (apply escape_no_quote, escape_quote; auto).
    rewrite X in *. clear X.
    apply andb_true_iff in A as [_ A]. apply ascii_mid in A.
    rewrite ascii_glen, !zlen_cons, zlen_app by auto. change (zlen [39]) with 1. f_equal. lia.
  - rewrite advance_one_line; [reflexivity|]. cbn.
    apply andb_true_iff. split.
    + unfold is_digit in H. lia.
    + clear H1. unfold one_line. rewrite forallb_forall in *. intros x I.
      specialize (H0 x I). unfold is_digit in H0. lia.
  - rewrite advance_one_line by auto. reflexivity.
  - reflexivity.
  - rewrite advance_one_line; cbn [In symbols] in H;
      repeat destruct H as [H|H]; try contradiction; injection H as <- <- <-; reflexivity.
  - rewrite advance_one_line; [reflexivity|]. cbn in *.
    destruct (r =? 10) eqn:A; [apply Z.eqb_eq in A; subst; tauto|].
    destruct (r =? 13) eqn:B; [apply Z.eqb_eq in B; subst; tauto|]. reflexivity.
Qed.

Lemma one_line_no_cr s : one_line s = true -> ends_cr s = false.
Proof.
  intros O. unfold ends_cr.
  assert (I : forall x, In x (rev s) -> x <> 13).
  { intros x I. apply in_rev in I. unfold one_line in O. rewrite forallb_forall in O.
    apply O in I. intros ->. discriminate. }
  destruct (rev s) as [|x r]; auto. specialize (I x (or_introl eq_refl)).
  destruct x; auto. repeat (destruct p; auto). congruence.
Qed.

Lemma ends_cr_last s c : c <> 13 -> ends_cr (s ++ [c]) = false.
Proof.
  intros N. unfold ends_cr. rewrite rev_app_distr. cbn.
  destruct c; auto. repeat (destruct p; auto). congruence.
Qed.

Lemma counted_cr d k v s rest : dialect_ok d ->
  lexeme d k v s rest -> counted_truly k s -> ends_cr s = true -> stops (fun r => r =? 10) rest.
Proof.
  intros D H C E. destruct H; try discriminate E; auto; cbn [counted_truly] in C.
  - destruct C as [O _]. apply one_line_no_cr in O. congruence.
  - destruct C as [O _]. apply one_line_no_cr in O. congruence.
  - destruct C as (_ & O & _). apply one_line_no_cr in O. congruence.
  - destruct C as (_ & O & _). apply one_line_no_cr in O. congruence.
  - exfalso. assert (O : one_line (c :: w) = true).
    { cbn. apply andb_true_iff. split.
      + unfold is_digit in H. lia.
      + unfold one_line. rewrite forallb_forall in *. intros x I.
        specialize (H0 x I). unfold is_digit in H0. lia. }
    apply one_line_no_cr in O. congruence.
  - apply one_line_no_cr in C. congruence.
  - replace (47 :: 42 :: body ++ [42; 47]) with ((47 :: 42 :: body ++ [42]) ++ [47]) in E
      by (cbn; rewrite <- app_assoc; reflexivity).
    rewrite ends_cr_last in E by lia. discriminate.
  - exfalso. cbn [In symbols] in H.
    repeat destruct H as [H|H]; try contradiction; injection H as <- <- <-; discriminate.
  - exfalso. change [r] with ([] ++ [r]) in E. rewrite ends_cr_last in E; [discriminate|].
    intros ->. apply H. cbn; tauto.
Qed.

Lemma reads_true d p text l rest : dialect_ok d -> reads d p text l rest ->
  forall a t s b, l = a ++ (t, s) :: b ->
  Forall (fun x => counted_truly (tkind (fst x)) (snd x)) a ->
  tfrom t = advance (List.concat (map snd a)) p.
Proof.
  intros D R. induction R; intros a t sl b E F.
  - destruct a; discriminate.
  - destruct a as [|x a]; cbn in E.
    + injection E as <- _ _. reflexivity.
    + injection E as <- E. inversion F as [|? ? C F']; subst. cbn [fst snd tkind] in C.
      rewrite (IHR _ _ _ _ eq_refl F'). cbn [map snd List.concat].
      rewrite (counted_end d k v s text p D H C), advance_app; auto.
      intros X. pose proof (counted_cr d k v s text D H C X) as S.
      apply reads_concat in R as [E _]. rewrite map_app, concat_app in E. subst text.
      destruct (List.concat (map snd a)) as [|y ys]; cbn in *; auto.
Qed.

(* ------------------------------------------------------------------ *)
(** Block comments. *)

Lemma block_text_len n : forall s, (List.length s <= n)%nat ->
  (List.length (block_text s) <= List.length s)%nat.
Proof.
  induction n as [|n IH]; intros s L.
  - destruct s; [auto|cbn in L; lia].
  - destruct s as [|c s]; [auto|]. cbn in L. cbn [block_text].
    destruct (c =? 42).
    + destruct s as [|m s]; [cbn; lia|].
      specialize (IH (m :: s) ltac:(lia)). cbn [List.length] in *. lia.
    + destruct (c =? 13).
      * destruct s as [|m s]; [cbn; lia|]. destruct (m =? 10).
        -- specialize (IH s ltac:(cbn in L; lia)). cbn [List.length]. lia.
        -- specialize (IH (m :: s) ltac:(lia)). cbn [List.length] in *. lia.
      * specialize (IH s ltac:(lia)). cbn [List.length]. lia.
Qed.

Lemma plain_tail c s : plain_body (c :: s) -> plain_body s.
Proof.
  intros [A B]. split.
  - intros a x b E. apply (A (c :: a) x b). cbn. now rewrite E.
  - intros a b E. apply (B (c :: a) b). cbn. now rewrite E.
Qed.

Lemma block_text_iff body : block_text body = body <-> plain_body body.
Proof.
  induction body as [|c s IH].
  - split; auto. intros _. split.
    + intros a c b E. destruct a; discriminate.
    + intros a b E. destruct a; discriminate.
  - cbn [block_text]. destruct (c =? 42) eqn:C.
    + apply Z.eqb_eq in C; subst c. destruct s as [|m s].
      * split; auto. intros _. split.
        -- intros a x b E. destruct a as [|? [|]]; discriminate.
        -- intros a b E. destruct a as [|? [|]]; discriminate.
      * split.
        -- intros E. injection E as -> E. apply IH in E. split.
           ++ intros a x b F. destruct a as [|y a]; cbn in F; [congruence|].
              injection F as _ F. destruct E as [E _]. eauto.
           ++ intros a b F. destruct a as [|y a]; cbn in F; [congruence|].
              injection F as _ F. destruct E as [_ E]. eapply E; eauto.
        -- intros P. assert (m = 42) by (destruct P as [P _]; apply (P [] m s); auto). subst m.
           f_equal. apply IH. eapply plain_tail; eauto.
    + destruct (c =? 13) eqn:C13.
      * apply Z.eqb_eq in C13; subst c. destruct s as [|m s].
        -- split; auto. intros _. split.
           ++ intros a x b E. destruct a as [|? [|]]; discriminate.
           ++ intros a b E. destruct a as [|? [|]]; discriminate.
        -- destruct (m =? 10) eqn:M.
           ++ apply Z.eqb_eq in M; subst m. split.
              ** intros E. injection E as E. exfalso.
                 pose proof (block_text_len _ s (le_n _)) as L. rewrite E in L. cbn in L. lia.
              ** intros [_ P]. exfalso. apply (P [] s). reflexivity.
           ++ split.
              ** intros E. injection E as E. apply IH in E. split.
                 --- intros a x b F. destruct a as [|y a]; cbn in F; [congruence|].
                     injection F as _ F. destruct E as [E _]. eauto.
                 --- intros a b F. destruct a as [|y a]; cbn in F.
                     { injection F as F _. lia. }
                     injection F as _ F. destruct E as [_ E]. eapply E; eauto.
              ** intros P. f_equal. apply IH. eapply plain_tail; eauto.
      * split.
        -- intros E. injection E as E. apply IH in E. split.
           ++ intros a x b F. destruct a as [|y a]; cbn in F.
              { injection F as F _. lia. }
              injection F as _ F. destruct E as [E _]. eauto.
           ++ intros a b F. destruct a as [|y a]; cbn in F.
              { injection F as F _. lia. }
              injection F as _ F. destruct E as [_ E]. eapply E; eauto.
        -- intros P. f_equal. apply IH. eapply plain_tail; eauto.
Qed.

(* ------------------------------------------------------------------ *)
(** Dialects that agree on the characters of a text. *)

Definition agree (d d' : dialect) (s : list rune) : Prop :=
  forall r, r = EOFr \/ In r s ->
    is_start d r = is_start d' r /\ is_part d r = is_part d' r /\ is_delim d r = is_delim d' r.

Lemma agree_tail d d' c s : agree d d' (c :: s) -> agree d d' s.
Proof. intros A r [E|I]; apply A; cbn; auto. Qed.

Lemma agree_suffix d d' a b : agree d d' (a ++ b) -> agree d d' b.
Proof. intros A r [E|I]; apply A; auto. right. apply in_or_app; auto. Qed.

Lemma scan_part_agree d d' s : agree d d' s -> scan_part d s = scan_part d' s.
Proof.
  induction s as [|r s IH]; intros A; cbn.
  - destruct (A EOFr (or_introl eq_refl)) as (_ & -> & _). reflexivity.
  - destruct (A r) as (_ & -> & _); [cbn; auto|]. rewrite IH; auto. eapply agree_tail; eauto.
Qed.

Lemma next_agree d d' src line col : agree d d' src -> next d src line col = next d' src line col.
Proof.
  intros A. destruct src as [|r s]; unfold next.
  - destruct (A EOFr (or_introl eq_refl)) as (-> & _ & ->). reflexivity.
  - unfold tokenize_word. rewrite (scan_part_agree d d' s) by (eapply agree_tail; eauto).
    destruct (A r) as (-> & _ & ->); [cbn; auto|]. reflexivity.
Qed.

Lemma tokenize_agree d d' pc src : dialect_ok d -> agree d d' (skip_bom src) ->
  tokenize d pc src = tokenize d' pc src.
Proof.
  intros D A. unfold tokenize. remember (S _) as fuel. clear Heqfuel.
  generalize 1 at 1 3. generalize 1. generalize (@nil token).
  revert A. generalize (skip_bom src). clear src.
  induction fuel as [|f IH]; intros src A acc line col; [reflexivity|].
  cbn [tokenize_loop]. rewrite !scan_eq. cbn [ts_src ts_line ts_col].
  rewrite <- (next_agree d d' src col line A).
  pose proof (next_spec d src col line D) as N.
  destruct (next d src col line) as [k v rest l c| |r l c|]; auto.
  destruct N as (s & -> & _). apply agree_suffix in A.
  cbv zeta. destruct (negb pc && is_ws_kind k); apply IH; auto.
Qed.

(** Case folding. *)
Lemma to_upper_idem r : to_upper (to_upper r) = to_upper r.
Proof.
  unfold to_upper. repeat match goal with |- context [if ?b then _ else _] => destruct b eqn:? end; lia.
Qed.

Lemma upper_idem s : upper (upper s) = upper s.
Proof. unfold upper. rewrite map_map. apply map_ext. apply to_upper_idem. Qed.

Lemma compare_pos_spec p q :
  (compare_pos p q = -1 /\ before p q) \/ (compare_pos p q = 0 /\ p = q) \/
  (compare_pos p q = 1 /\ before q p).
Proof.
  destruct p as [l c], q as [l' c']. unfold compare_pos, before; cbn [pline pcol].
  destruct ((l =? l') && (c =? c')) eqn:E.
  - right; left. split; auto. apply andb_true_iff in E as [A B].
    apply Z.eqb_eq in A, B. now subst.
  - destruct (l' <? l) eqn:A; [right; right; split; auto; lia|].
    destruct (l <? l') eqn:B; [left; split; auto; lia|].
    destruct (c' <? c) eqn:C; [right; right; split; auto; lia|left; split; auto; lia].
Qed.
