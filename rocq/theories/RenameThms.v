(** Proofs for C53. *)
From Coq Require Import ZArith List Bool String Lia.
From Verif Require Import Base Dialect Token Lexer LexSpec LexFacts AST Num Prog Parser Erase ParseSpec Sim ParserThms SrcThms ApiThms
  RenameSpec RenameNat.
Import ListNotations.
Open Scope Z_scope.

(** Spelling and word. *)
Lemma respell_string v : word_string (respell v) = v.
Proof.
  destruct v as [|q s]; [reflexivity|]. unfold respell, closing.
  assert (N : word_string (mkWord (q :: s) 0 (upper (q :: s))) = q :: s) by reflexivity.
  destruct (q =? 34) eqn:E1; [|destruct (q =? 96) eqn:E2; [|destruct (q =? 91) eqn:E3; [|exact N]]];
    (destruct (gs_eqb s _) eqn:E; [|exact N]); apply gs_eqb_eq in E;
    rewrite Z.eqb_eq in *; subst q; unfold word_string, matching_end_quote; cbn [wquote wvalue Z.eqb Pos.eqb orb];
    f_equal; symmetry; exact E.
Qed.
Lemma respell_upper v : wkeyword (respell v) = upper (wvalue (respell v)).
Proof.
  destruct v as [|q s]; [reflexivity|]. unfold respell. destruct (closing q); [|reflexivity].
  destruct (gs_eqb s _); reflexivity.
Qed.

Lemma special_word_of w : special (word_string w) = false -> special_word (wvalue w) = false.
Proof.
  unfold special. intros H. apply orb_false_iff in H as [H H3]. apply orb_false_iff in H as [H1 H2].
  destruct w as [v q k]. unfold word_string in *. cbn [wquote wvalue] in *.
  destruct ((q =? 34) || (q =? 91) || (q =? 96)) eqn:Q.
  - assert (X : wvalue (respell (q :: v ++ [matching_end_quote q])) = v); [|rewrite X in H3; exact H3].
    assert (C : closing q = Some (matching_end_quote q)).
    { apply orb_true_iff in Q as [Q|Q]; [apply orb_true_iff in Q as [Q|Q]|]; apply Z.eqb_eq in Q; subst; reflexivity. }
    unfold respell. rewrite C, removelast_last, gs_eqb_refl. reflexivity.
  - destruct (q =? 0); [exact H2|discriminate H1].
Qed.

(** The renaming of words, for every word. *)
Definition hword (f : gostring -> gostring) (w : sqlword) : sqlword :=
  if special (word_string w) then w
  else let u := respell (f (word_string w)) in
       mkWord (wvalue u) (wquote u) (if gs_eqb (wkeyword w) (upper (wvalue w)) then wkeyword u else wkeyword w).

Lemma hword_string f w : renaming f -> word_string (hword f w) = f (word_string w).
Proof.
  intros R. unfold hword. specialize (R (word_string w)). destruct (special (word_string w)); [symmetry; exact R|].
  transitivity (word_string (respell (f (word_string w)))); [|apply respell_string].
  destruct (respell (f (word_string w))); reflexivity.
Qed.

Lemma special_word_none v k : special_word v = false -> voc k = true ->
  gs_eqb (upper v) (gs k) = false /\ equal_fold v (gs k) = false.
Proof.
  unfold special_word, voc. intros H V. apply existsb_exists in V as (x & I & E). apply String.eqb_eq in E. subst x.
  destruct (gs_eqb (upper v) (gs k)) eqn:E1; [|destruct (equal_fold v (gs k)) eqn:E2; [|auto]];
    (assert (existsb (fun k => gs_eqb (upper v) (gs k) || equal_fold v (gs k)) vocabulary = true)
       by (apply existsb_exists; exists k; split; [exact I|rewrite ?E1, ?E2; reflexivity]); congruence).
Qed.

Lemma respell_plain v : special v = false -> special_word (wvalue (respell v)) = false.
Proof. unfold special. intros H. apply orb_false_iff in H as [_ H]. exact H. Qed.

Lemma hword_keyword f w k : renaming f -> voc k = true ->
  gs_eqb (wkeyword (hword f w)) (gs k) = gs_eqb (wkeyword w) (gs k).
Proof.
  intros R V. unfold hword. specialize (R (word_string w)). destruct (special (word_string w)) eqn:E; [reflexivity|].
  cbn [wkeyword]. destruct (gs_eqb (wkeyword w) (upper (wvalue w))) eqn:K; [|reflexivity].
  apply gs_eqb_eq in K. rewrite K, respell_upper.
  rewrite (proj1 (special_word_none _ k (respell_plain _ R) V)), (proj1 (special_word_none _ k (special_word_of _ E) V)).
  reflexivity.
Qed.

Lemma hword_fold f w k : renaming f -> voc k = true ->
  equal_fold (wvalue (hword f w)) (gs k) = equal_fold (wvalue w) (gs k).
Proof.
  intros R V. unfold hword. specialize (R (word_string w)). destruct (special (word_string w)) eqn:E; [reflexivity|].
  cbn [wvalue].
  rewrite (proj2 (special_word_none _ k (respell_plain _ R) V)), (proj2 (special_word_none _ k (special_word_of _ E) V)).
  reflexivity.
Qed.

Lemma hword_wf f w : wkeyword w = upper (wvalue w) -> VWord (hword f w) = rename_value f (VWord w).
Proof.
  intros K. unfold hword, rename_value. destruct (special (word_string w)); [reflexivity|]. rewrite K, gs_eqb_refl.
  destruct (respell (f (word_string w))); reflexivity.
Qed.

Notation rtok f := (rn_tok (hword f)).

Lemma rtok_kv f t : tok_wf t -> kv (rtok f t) = rename_kv f (kv t).
Proof.
  unfold tok_wf, kv, rename_kv, rn_tok. cbn [tkind tval fst snd]. intros W. f_equal.
  destruct (tval t) as [w|s]; [|reflexivity]. cbn [rn_val]. apply hword_wf. destruct (tkind t); try contradiction. exact W.
Qed.
Lemma rtok_wf f t : tok_wf t -> tok_wf (rtok f t).
Proof.
  unfold tok_wf, rn_tok. cbn [tkind tval]. destruct (tval t) as [w|s]; [|destruct (tkind t); auto].
  destruct (tkind t); auto. intros K. cbn [rn_val]. unfold hword. destruct (special (word_string w)); [exact K|].
  cbn [wkeyword wvalue]. rewrite K, gs_eqb_refl. apply respell_upper.
Qed.

Lemma named_nat {A} (P : rec -> prog A) rnA erA : named P rnA erA -> forall f, renaming f -> forall n s,
  run fm_machine (P (knot n)) s <> OFuel ->
  run fm_machine (P (knot n)) (er_st (hword f) s)
  = match run fm_machine (P (knot n)) s with
    | Ok a s' => Ok (rnA f a) (er_st (hword f) s')
    | OErr => OErr
    | OPanic w => OPanic w
    | OFuel => OFuel
    end.
Proof.
  intros H f R n s N. pose proof (fun w => hword_string f w R) as HS.
  pose proof (fun w k => hword_keyword f w k R) as HK. pose proof (fun w k => hword_fold f w k R) as HF.
  destruct H.
  - apply (nat_sql f (hword f) HS HK HF pc n n s (le_n _) N).
  - apply (nat_stmt f (hword f) HS HK HF n n s (le_n _) N).
  - apply (nat_pexpr f (hword f) HS HK HF n n s (le_n _) N).
  - apply (nat_dtype f (hword f) HS HK HF n n s (le_n _) N).
Qed.

Lemma named_entry {A} (P : rec -> prog A) rnA erA : named P rnA erA -> exists k, entry P erA k.
Proof. intros H. destruct H; eexists; [apply entry_sql|apply entry_stmt|apply entry_expr|apply entry_dtype]. Qed.

Lemma map_kv_rtok f l : Forall tok_wf l -> map kv (map (rtok f) l) = map (rename_kv f) (map kv l).
Proof. induction 1; cbn [map]; [reflexivity|]. rewrite rtok_kv by assumption. congruence. Qed.

Lemma er_kv l l' : map (er_tok no_pos same_rune) l = map (er_tok no_pos same_rune) l' -> map kv l = map kv l'.
Proof.
  revert l'. induction l as [|[k v p q] l IH]; intros [|[k' v' p' q'] l'] E; try discriminate; [reflexivity|].
  cbn [map] in *. pose proof (f_equal (fun l => hd (er_tok no_pos same_rune (mkTok k v p q)) l) E) as E0.
  pose proof (f_equal (@List.tl _) E) as E3. cbn [hd List.tl] in *. rewrite (IH _ E3). f_equal.
  unfold kv. cbn [tkind tval]. unfold er_tok in E0. cbn [tkind tval] in E0. injection E0 as -> E0. f_equal.
  destruct v as [[a b c]|s], v' as [[a' b' c']|s']; cbn in E0; try discriminate; [|congruence].
  unfold er_word in E0. cbn [wvalue wquote wkeyword] in E0. injection E0 as E0 -> ->. unfold same_rune in E0.
  rewrite !map_id in E0. congruence.
Qed.

Theorem rename_calls {A} (P : rec -> prog A) rnA erA : named P rnA erA -> forall f, renaming f ->
  forall done todo done' todo', Forall tok_wf todo -> Forall tok_wf todo' -> renamed_tokens f todo todo' ->
  match call P done todo, call P done' todo' with
  | Ok a s, Ok b s' => erA no_pos same_rune b = erA no_pos same_rune (rnA f a) /\ renamed_tokens f (snd s) (snd s')
  | OErr, OErr => True
  | OPanic w, OPanic w' => w = w'
  | _, _ => False
  end.
Proof.
  intros N f R done todo done' todo' W W' E. destruct (named_entry _ _ _ N) as (k & HP).
  pose proof (call_agrees _ _ _ HP done todo W) as A1.
  pose proof (call_agrees _ _ _ HP done' todo' W') as A2. unfold agrees in *.
  unfold renamed_tokens in E. rewrite (sig_fsig todo), (sig_fsig todo') in E.
  pose proof (fsig_wf _ W) as V. pose proof (fsig_wf _ W') as V'.
  pose proof (base_spec P erA k HP _ V) as B. pose proof (base_spec P erA k HP _ V') as B'.
  set (t := fsig todo) in *. set (t' := fsig todo') in *.
  assert (VT : Forall tok_wf (map (rtok f) t)).
  { apply Forall_map. eapply Forall_impl; [|exact V]. intros; apply rtok_wf; assumption. }
  assert (NF : base P t <> OFuel) by (intros X; rewrite X in B; exact B).
  assert (B1 : base P (map (rtok f) t)
     = match base P t with
       | Ok a s' => Ok (rnA f a) (er_st (hword f) s') | OErr => OErr | OPanic w => OPanic w | OFuel => OFuel end).
  { unfold base in NF |- *. rewrite map_length. apply (named_nat P rnA erA N f R _ ([], t)). exact NF. }
  rewrite <- (map_kv_rtok f) in E by exact V. apply kv_er in E.
  pose proof (base_er P erA k HP no_pos same_rune no_pos same_rune t' _ eq_refl gok_same eq_refl gok_same V' VT E) as B2.
  rewrite B1 in B2. clear B1.
  destruct (base P t) as [a s| | |]; try contradiction;
    destruct (base P t') as [b s'| | |]; try contradiction;
    destruct (call P done todo) as [a1 s1| | |]; try contradiction;
    destruct (call P done' todo') as [b1 s1'| | |]; try contradiction; auto; [|congruence].
  destruct A1 as (-> & _ & E1), A2 as (-> & _ & E2), B2 as (B2 & B3). split; [exact B2|].
  unfold renamed_tokens. rewrite (sig_fsig (snd s1)), (sig_fsig (snd s1')), E1, E2.
  rewrite <- (map_kv_rtok f).
  - apply er_kv. destruct s', s. unfold Natural.er_st, er_st in B3. cbn [fst snd] in B3 |- *. injection B3 as _ B3. exact B3.
  - destruct B as [B _]. rewrite B in V. apply Forall_app in V. apply V.
Qed.

(** On texts. *)
Theorem rename_sources {A} (P : rec -> prog A) rnA erA : named P rnA erA -> forall f, renaming f ->
  forall d d' src src' ts ts', dialect_ok d -> dialect_ok d' ->
  tokenize d true src = TOk ts -> tokenize d' true src' = TOk ts' -> renamed_tokens f ts ts' ->
  res_map (erA no_pos same_rune) (parse_with P d' src')
  = res_map (erA no_pos same_rune) (res_map (rnA f) (parse_with P d src)).
Proof.
  intros N f R d d' src src' ts ts' D D' T T' E. unfold parse_with. rewrite T, T'.
  pose proof (rename_calls P rnA erA N f R [] ts [] ts' (tokenize_wf _ _ _ _ D T) (tokenize_wf _ _ _ _ D' T') E) as H.
  change (run_raw P ts) with (call P [] ts). change (run_raw P ts') with (call P [] ts').
  destruct (call P [] ts), (call P [] ts'); try contradiction; cbn [res_of res_map]; try reflexivity.
  - destruct H as [-> _]. reflexivity.
  - now rewrite H.
Qed.
