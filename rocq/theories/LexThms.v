(** Proofs of the theorems stated in PropsLexer.v. *)
From Coq Require Import ZArith List Bool String Lia ZifyBool.
From Verif Require Import Base Dialect Token Lexer LexSpec LexFacts LexPos LexHang.
Import ListNotations.
Open Scope Z_scope.

Lemma tokenizer_answers_iff d pc src : dialect_ok d ->
  ((exists toks, tokenize d pc src = TOk toks) \/ tokenize d pc src = TErr) <->
  ~ (exists l rem, reads d start_pos (skip_bom src) l rem /\ unclosed_delimited d rem).
Proof.
  intros D. rewrite <- (tokenize_hang_iff d pc src D).
  pose proof (tokenize_no_fuel d pc src D).
  destruct (tokenize d pc src) eqn:E; split; intros; try congruence.
  - left; eauto.
  - auto.
  - destruct H0 as [[? ?]|]; congruence.
Qed.

Lemma unclosed_never_leaves q s : q <> EOFr -> ~ In q s ->
  forall n, exists st, delim_steps q n ([], s) = inl st.
Proof. intros Q N n. now apply delim_steps_none. Qed.

Lemma keep_true l : filter (keep true) l = l.
Proof. induction l; cbn; congruence. Qed.

Lemma tokenize_reads d src toks : dialect_ok d -> tokenize d true src = TOk toks ->
  exists l, reads d start_pos (skip_bom src) l [] /\ toks = map fst l.
Proof.
  intros D E. apply tokenize_ok_iff in E as (l & R & E); auto. rewrite keep_true in E. eauto.
Qed.

Lemma map_split {A B C} (f : A -> B) (g : A -> C) l a t b sa s sb :
  map f l = a ++ t :: b -> map g l = sa ++ s :: sb -> List.length a = List.length sa ->
  exists la x lb, l = la ++ x :: lb /\ map f la = a /\ f x = t /\ map f lb = b /\
                  map g la = sa /\ g x = s /\ map g lb = sb.
Proof.
  revert a sa. induction l as [|x l IH]; intros a sa E F L.
  - destruct a; discriminate.
  - destruct a as [|y a], sa as [|z sa]; try discriminate; cbn in *.
    + injection E as E1 E2. injection F as F1 F2. exists [], x, l. cbn. repeat split; auto.
    + injection E as E1 E2. injection F as F1 F2. injection L as L.
      destruct (IH _ _ E2 F2 L) as (la & x' & lb & -> & ? & ? & ? & ? & ? & ?).
      exists (x :: la), x', lb. cbn. repeat split; congruence.
Qed.

Lemma tokenize_lossless d src toks : dialect_ok d -> tokenize d true src = TOk toks ->
  exists slices, List.length slices = List.length toks /\
    skip_bom src = List.concat slices /\
    Forall (fun s => s <> []) slices /\
    forall a t b sa s sb, toks = a ++ t :: b -> slices = sa ++ s :: sb ->
      List.length a = List.length sa ->
      lexeme d (tkind t) (tval t) s (List.concat sb).
Proof.
  intros D E. apply tokenize_reads in E as (l & R & ->); auto.
  exists (map snd l). pose proof (reads_concat _ _ _ _ _ R) as [C N].
  rewrite !map_length. rewrite app_nil_r in C. repeat split; auto.
  - rewrite Forall_map. exact N.
  - intros a t b sa s sb E F L.
    destruct (map_split _ _ _ _ _ _ _ _ _ E F L) as (la & [t' s'] & lb & -> & _ & <- & _ & _ & <- & <-).
    destruct (reads_lexemes _ _ _ _ _ R _ _ _ _ eq_refl) as [X _].
    rewrite app_nil_r in X. exact X.
Qed.

Lemma tokenize_complete d src l : dialect_ok d ->
  reads d start_pos (skip_bom src) l [] -> tokenize d true src = TOk (map fst l).
Proof.
  intros D R. apply tokenize_ok_iff; auto. exists l. now rewrite keep_true.
Qed.

Lemma positions_tile d src toks : dialect_ok d -> tokenize d true src = TOk toks ->
  (forall t b, toks = t :: b -> tfrom t = mkPos 1 1) /\
  (forall a t u b, toks = a ++ t :: u :: b -> tfrom u = tto t) /\
  (forall t, In t toks -> before (tfrom t) (tto t)) /\
  (forall a t b u, toks = a ++ t :: b -> In u b -> before (tfrom t) (tfrom u)).
Proof.
  intros D E. apply tokenize_reads in E as (l & R & ->); auto. repeat split.
  - intros t b E. apply reads_starts in R. destruct l as [|[t' s] l]; [discriminate|].
    cbn in E. injection E as -> _. exact R.
  - eapply reads_tile; eauto.
  - eapply reads_before; eauto.
  - intros. eapply reads_after; eauto.
Qed.

Lemma true_positions d src toks : dialect_ok d -> tokenize d true src = TOk toks ->
  exists slices, List.length slices = List.length toks /\ skip_bom src = List.concat slices /\
    forall a t b sa s sb, toks = a ++ t :: b -> slices = sa ++ s :: sb ->
      List.length a = List.length sa ->
      Forall2 (fun u su => counted_truly (tkind u) su) a sa ->
      tfrom t = advance (List.concat sa) (mkPos 1 1).
Proof.
  intros D E. apply tokenize_reads in E as (l & R & ->); auto.
  exists (map snd l). pose proof (reads_concat _ _ _ _ _ R) as [C N].
  rewrite !map_length. rewrite app_nil_r in C. repeat split; auto.
  intros a t b sa s sb E F L X.
  destruct (map_split _ _ _ _ _ _ _ _ _ E F L) as (la & [t' s'] & lb & -> & <- & <- & _ & <- & <- & <-).
  eapply reads_true; eauto.
  clear - X. induction la as [|x la IH]; constructor; inversion X; subst; auto.
Qed.

Lemma true_positions_fail :
  Forall (fun pre => exists toks t,
            tokenize generic true (pre ++ [97]) = TOk (toks ++ [t]) /\
            tval t = VWord (mkWord [97] 0 [65]) /\ tfrom t <> advance pre (mkPos 1 1))
    [ [9]; [39; 10; 39]; [39; 39; 39; 39]; [39; 233; 39]; [45; 45; 13; 98; 10]; [34; 10; 34] ].
Proof.
  assert (H : forall pre a t,
    match tokenize generic true (pre ++ [97]) with TOk l => l = a ++ [t] | _ => False end ->
    tval t = VWord (mkWord [97] 0 [65]) -> tfrom t <> advance pre (mkPos 1 1) ->
    exists toks t, tokenize generic true (pre ++ [97]) = TOk (toks ++ [t]) /\
            tval t = VWord (mkWord [97] 0 [65]) /\ tfrom t <> advance pre (mkPos 1 1)).
  { intros pre a t H. destruct (tokenize generic true (pre ++ [97])); [subst; eauto|contradiction..]. }
  repeat constructor;
    match goal with
    | |- exists _ _, tokenize _ _ (?pre ++ _) = _ /\ _ =>
        let r := eval vm_compute in (match tokenize generic true (pre ++ [97]) with
                                     | TOk l => Some (removelast l, last l (mkTok Whitespace (VStr []) pos0 pos0))
                                     | _ => None end) in
        match r with Some (?a, ?t) => apply (H pre a t) end
    end; try (vm_compute; reflexivity); vm_compute; discriminate.
Qed.

Lemma counted_example : exists l, reads generic start_pos (gs "a 'x' b") l [] /\
  Forall (fun x => counted_truly (tkind (fst x)) (snd x)) l /\ List.length l = 5%nat.
Proof.
  eexists. split; [|split].
  - change (gs "a 'x' b") with ((97 :: []) ++ [32] ++ (39 :: escape [120] ++ [39]) ++ [32] ++ [98] ++ []).
    econstructor; [apply Lx_word; cbn; auto; discriminate|reflexivity|].
    econstructor; [apply Lx_space|reflexivity|].
    econstructor; [apply Lx_string; reflexivity|reflexivity|].
    econstructor; [apply Lx_space|reflexivity|].
    econstructor; [apply Lx_word; cbn; auto; discriminate|reflexivity|].
    constructor.
  - repeat constructor; cbn; auto; try discriminate.
    exists [120]. split; auto. cbn. lia.
  - reflexivity.
Qed.

Lemma scan_lexeme d pc k v s rest line col : dialect_ok d -> lexeme d k v s rest ->
  pc = true \/ is_ws_kind k = false ->
  let p := token_end k v s (mkPos line col) in
  scan d pc (mkTS (s ++ rest) line col) =
  STok (mkTok k v (mkPos line col) p) (mkTS rest (pline p) (pcol p)).
Proof.
  intros D X P p. rewrite scan_eq. cbn [ts_src ts_line ts_col].
  rewrite (next_complete d k v s rest line col D X). fold p. unfold tok_res.
  replace (negb pc && is_ws_kind k) with false
    by (destruct P as [-> | ->]; [auto|now rewrite andb_false_r]).
  now destruct p.
Qed.

Lemma string_decoding d pc s rest line col : dialect_ok d ->
  stops (fun r => r =? 39) rest ->
  scan d pc (mkTS (39 :: escape s ++ 39 :: rest) line col) =
  STok (mkTok SingleQuotedString (VStr s) (mkPos line col) (mkPos line (col + 2 + glen s)))
       (mkTS rest line (col + 2 + glen s)).
Proof.
  intros D S. pose proof (scan_lexeme d pc _ _ _ _ line col D (Lx_string d s rest S) (or_intror eq_refl)) as H.
  cbn [app] in H. rewrite <- app_assoc in H. exact H.
Qed.

Lemma nstring_decoding d pc s rest line col : dialect_ok d ->
  stops (fun r => r =? 39) rest ->
  scan d pc (mkTS (78 :: 39 :: escape s ++ 39 :: rest) line col) =
  STok (mkTok NationalStringLiteral (VStr s) (mkPos line col) (mkPos line (col + 3 + glen s)))
       (mkTS rest line (col + 3 + glen s)).
Proof.
  intros D S. pose proof (scan_lexeme d pc _ _ _ _ line col D (Lx_nstring d s rest S) (or_intror eq_refl)) as H.
  cbn [app] in H. rewrite <- app_assoc in H. exact H.
Qed.

Lemma scan_error d pc src line col : dialect_ok d -> lex_error src ->
  exists t st, scan d pc (mkTS src line col) = SErr t st.
Proof.
  intros D X. rewrite scan_eq. cbn [ts_src ts_line ts_col].
  destruct (next_error d src line col D X) as (r & l & c & ->). eauto.
Qed.

Lemma string_unclosed d pc s line col : dialect_ok d ->
  (forall str rest, s = escape str ++ 39 :: rest -> exists rest', rest = 39 :: rest') ->
  (exists t st, scan d pc (mkTS (39 :: s) line col) = SErr t st) /\
  (exists t st, scan d pc (mkTS (78 :: 39 :: s) line col) = SErr t st).
Proof.
  intros D U. split; apply scan_error; auto; [now apply Le_string|now apply Le_nstring].
Qed.

Lemma words d pc f w rest line col : dialect_ok d ->
  is_start d f = true \/ f = 78 ->
  forallb (is_part d) w = true ->
  stops (is_part d) rest ->
  (f = 78 -> w = [] -> stops (fun r => r =? 39) rest) ->
  scan d pc (mkTS (f :: w ++ rest) line col) =
  STok (mkTok SQLKeyword (VWord (mkWord (f :: w) 0 (upper (f :: w)))) (mkPos line col)
              (mkPos line (col + glen (f :: w))))
       (mkTS rest line (col + glen (f :: w))).
Proof.
  intros D F W S N.
  exact (scan_lexeme d pc _ _ _ _ line col D (Lx_word d f w rest F W S N) (or_intror eq_refl)).
Qed.

Lemma keyword_folding w w' q q' :
  upper w = upper w' -> wkeyword (make_keyword w q) = wkeyword (make_keyword w' q').
Proof. rewrite !make_keyword_spec. auto. Qed.

Lemma line_comment d (w : list rune) rest line col : dialect_ok d ->
  ~ In 10 w -> stops (fun r => negb (r =? 10)) rest ->
  scan d true (mkTS (45 :: 45 :: w ++ rest) line col) =
  STok (mkTok Comment (VStr w) (mkPos line col) (mkPos line (col + 2 + zlen w)))
       (mkTS rest line (col + 2 + zlen w)).
Proof.
  intros D N S.
  pose proof (scan_lexeme d true _ _ _ _ line col D (Lx_line d w rest N S) (or_introl eq_refl)) as H.
  cbn [token_end pline pcol] in H. rewrite !zlen_cons in H.
  replace (col + 2 + zlen w) with (col + (zlen w + 1 + 1)) by lia. exact H.
Qed.

Lemma block_comment d body rest line col : dialect_ok d ->
  (forall a b, body ++ [42; 47] = a ++ 42 :: 47 :: b -> b = []) ->
  exists text p,
    scan d true (mkTS (47 :: 42 :: body ++ 42 :: 47 :: rest) line col) =
    STok (mkTok Comment (VStr text) (mkPos line col) p) (mkTS rest (pline p) (pcol p)) /\
    p = advance (47 :: 42 :: body ++ [42; 47]) (mkPos line col) /\
    (text = body <-> plain_body body).
Proof.
  intros D F. exists (block_text body). eexists. split; [|split].
  - pose proof (scan_lexeme d true _ _ _ _ line col D (Lx_block d body rest F) (or_introl eq_refl)) as H.
    cbn [app] in H. rewrite <- app_assoc in H. exact H.
  - reflexivity.
  - apply block_text_iff.
Qed.

Lemma block_comment_fails : exists body t st,
  scan generic true (mkTS (47 :: 42 :: body ++ [42; 47]) 1 1) = STok t st /\ ts_src st = [] /\
  tval t <> VStr body.
Proof.
  exists (gs "a*b"). do 2 eexists. split; [vm_compute; reflexivity|]. cbn. split; auto. discriminate.
Qed.

Lemma disable_comments d src : dialect_ok d ->
  tokenize d false src =
  match tokenize d true src with
  | TOk toks => TOk (filter (fun t => match tkind t with Whitespace | Comment => false | _ => true end) toks)
  | r => r
  end.
Proof.
  intros D. destruct (tokenize d true src) eqn:E.
  - apply tokenize_reads in E as (m & R & ->); auto.
    apply tokenize_ok_iff; auto. exists m. split; auto.
    apply filter_ext. intros t. unfold keep. now destruct (tkind t).
  - apply tokenize_err_iff in E; auto. now apply tokenize_err_iff.
  - apply tokenize_hang_iff in E; auto. now apply tokenize_hang_iff.
  - exfalso. eapply tokenize_no_fuel; eauto.
Qed.

Lemma mysql_generic pc src : ~ In 96 src -> tokenize mysql pc src = tokenize generic pc src.
Proof.
  intros N. apply tokenize_agree; [apply shipped_ok|].
  intros r H. repeat split; auto. cbn.
  assert (r <> 96).
  { intros ->. destruct H as [H|H]; [discriminate|]. apply N.
    destruct src as [|c src]; auto. cbn in *. destruct (c =? 65279); auto. }
  lia.
Qed.

Lemma postgres_generic pc src :
  (forall r, In r src -> ~ In r (gs "@_$`")) ->
  tokenize postgres pc src = tokenize generic pc src.
Proof.
  intros N. apply tokenize_agree; [apply shipped_ok|].
  intros r H.
  assert (X : r <> 64 /\ r <> 95 /\ r <> 36 /\ r <> 96).
  { destruct H as [->|H]; [repeat split; discriminate|].
    assert (I : In r src).
    { destruct src as [|c src]; auto. cbn in *. destruct (c =? 65279); auto. }
    apply N in I. cbn in I. repeat split; intros ->; tauto. }
  cbn. repeat split; lia.
Qed.

Lemma dialect_exclusions :
  tokenize mysql true (gs "`a`") <> tokenize generic true (gs "`a`") /\
  Forall (fun s => tokenize postgres true (gs s) <> tokenize generic true (gs s)) ["@a"; "_a"; "a$"; "`a`"]%string.
Proof. split; [|repeat constructor]; vm_compute; discriminate. Qed.

Lemma compare_pos_order p q :
  (compare_pos p q = 0 <-> p = q) /\
  (compare_pos p q = -1 <-> before p q) /\
  (compare_pos p q = 1 <-> before q p) /\
  compare_pos q p = - compare_pos p q.
Proof.
  pose proof (compare_pos_spec p q) as A. pose proof (compare_pos_spec q p) as B.
  pose proof (before_irrefl p). pose proof (before_irrefl q).
  pose proof (before_trans p q p). pose proof (before_trans q p q).
  destruct A as [[A A']|[[A A']|[A A']]], B as [[B B']|[[B B']|[B B']]];
    rewrite ?A, ?B in *; subst; intuition (try lia; try congruence).
Qed.

Lemma compare_pos_trans p q r :
  compare_pos p q <= 0 -> compare_pos q r <= 0 -> compare_pos p r <= 0 /\
  (compare_pos p r = 0 -> p = q /\ q = r).
Proof.
  intros A B.
  destruct (compare_pos_spec p q) as [[A1 A2]|[[A1 A2]|[A1 A2]]],
    (compare_pos_spec q r) as [[B1 B2]|[[B1 B2]|[B1 B2]]],
    (compare_pos_spec p r) as [[C1 C2]|[[C1 C2]|[C1 C2]]]; subst; try lia;
    try (split; [lia|intros; lia]); try (split; [lia|auto]).
  all: exfalso; unfold before in *; lia.
Qed.

Lemma compare_reading_order d src toks : dialect_ok d -> tokenize d true src = TOk toks ->
  forall a t b u, toks = a ++ t :: b -> In u b -> compare_pos (tfrom t) (tfrom u) = -1.
Proof.
  intros D E a t b u F I. apply compare_pos_order.
  destruct (positions_tile d src toks D E) as (_ & _ & _ & H). eauto.
Qed.
