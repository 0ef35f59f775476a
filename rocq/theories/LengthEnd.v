(** Proofs about the length of printed text: calls and whole texts. *)
From Coq Require Import ZArith List Bool String Lia.
From Verif Require Import RoundSpec Base Dialect Token Lexer LexSpec LexFacts LexThms AST AstInd Num Nodes Prog Parser ParseSpec
  Walk NumThms IntLen ValueSpec Grammar Sound Slices GrammarThms SizeSpec SizeThms Printer RtEq WriteThms CostThms SrcThms ExtentThms FloatShort
  LengthSpec LengthThms.
Import ListNotations.
Open Scope list_scope.
Open Scope nat_scope.

Lemma used_wf todo rest used : Forall tok_wf todo -> sig todo = used ++ sig rest -> Forall tok_wf used.
Proof. intros W E. assert (H : Forall tok_wf (sig todo)) by exact (fsig_wf todo W). rewrite E in H. now apply Forall_app in H. Qed.
Lemma stmt_length done todo s st : Forall tok_wf todo -> Forall placed todo -> Parser.call parse_statement done todo = Ok s st ->
  exists used, sig todo = used ++ sig (snd st) /\ List.length (sql_stmt s) <= allowance used.
Proof.
  intros W P E. destruct (stmt_reads anything _ _ _ _ (good_anything _ W P) E) as (used & E1 & R). exists used. split; [exact E1|].
  unfold sql_stmt. rewrite builder_string_text. exact (pd_stmt anything s used (used_wf _ _ _ W E1) R).
Qed.
Lemma expr_length done todo e st : Forall tok_wf todo -> Forall placed todo -> Parser.call parse_expr done todo = Ok e st ->
  exists used, sig todo = used ++ sig (snd st) /\ List.length (sql_node e) <= allowance used.
Proof.
  intros W P E. destruct (expr_reads anything _ _ _ _ (good_anything _ W P) E) as (used & E1 & R & _). exists used. split; [exact E1|].
  unfold sql_node. rewrite builder_string_text. exact (pd_node anything e used (used_wf _ _ _ W E1) R).
Qed.
Lemma pd_file L f : paid (reads_file L (f_stmts f)) (tl (wt_file f)).
Proof.
  unfold reads_file, wt_file. rewrite tl_sw, ol_join. eapply pd_less.
  - apply pd_cat; [apply pd_zero|]. apply (pd_many _ (fun s => tl (wt_stmt s) + 20)), pd_forall. intros s.
    apply pd_cat; [apply pd_stmt|apply pd_tok].
  - cbn [List.length]. induction (f_stmts f) as [|s l IH]; [cbn; lia|]. rewrite !lsum_cons. cbn [List.length]. lia.
Qed.

(** ** From tokens to characters *)

Lemma escape_len s : List.length s <= List.length (escape s).
Proof. unfold escape. induction s as [|c s IH]; cbn [flat_map]; [apply le_n|]. rewrite app_length. destruct (Z.eqb c 39); cbn [List.length]; unfold rune in *; lia. Qed.
Lemma written_len d k v s rest p q : lexeme d k v s rest -> List.length (written_for (mkTok k v p q)) <= List.length s.
Proof.
  intros H. destruct H; unfold written_for; cbn [tkind tval]; try (cbn [List.length]; lia).
  - unfold word_string. cbn [wquote wvalue]. cbn [Z.eqb orb]. apply le_n.
  - unfold word_string. cbn [wquote wvalue]. destruct (_ || _).
    + cbn [List.length]. rewrite !app_length. cbn [List.length]. lia.
    + destruct (Z.eqb q0 0); cbn [List.length]; rewrite ?app_length; lia.
  - cbn [List.length]. rewrite app_length. pose proof (escape_len s). lia.
  - cbn [List.length]. rewrite app_length. pose proof (escape_len s). lia.
  - destruct (existsb (fun c => Z.eqb c 46) (c :: w)) eqn:X; [|cbn; lia]. destruct (parse_float (c :: w)) as [f|] eqn:F; [|cbn; lia].
    apply (shorter w c f F H). cbn [existsb] in X. apply orb_prop in X as [X|X].
    + apply Z.eqb_eq in X. subst c. discriminate H.
    + apply existsb_exists in X as (y & I & Y). apply Z.eqb_eq in Y. now subst y.
  - assert (K : forall a b e, In (a, b, e) symbols -> match b with SQLKeyword | SingleQuotedString | NationalStringLiteral | Number => False | _ => True end).
    { intros a b e I. cbn in I. repeat (destruct I as [I|I]; [injection I as _ <- _; exact Logic.I|]). destruct I. }
    specialize (K _ _ _ H). destruct k; try contradiction; cbn; lia.
Qed.
Lemma allowance_len toks : forall sl : list (list rune), List.length sl = List.length toks ->
  (forall a t b sa s sb, toks = a ++ t :: b -> sl = sa ++ s :: sb -> List.length a = List.length sa -> List.length (written_for t) <= List.length s) ->
  allowance toks <= 20 * List.length toks + List.length (List.concat sl).
Proof.
  induction toks as [|t toks IH]; intros [|s sl] E H; try discriminate E; [cbn; lia|].
  rewrite allow_cons. cbn [List.concat]. rewrite app_length. change (List.length (t :: toks)) with (S (List.length toks)).
  pose proof (H [] t toks [] s sl eq_refl eq_refl eq_refl). injection E as E.
  specialize (IH sl E (fun a x b sa y sb Ea Eb El => H (t :: a) x b (s :: sa) y sb (f_equal (cons t) Ea) (f_equal (cons s) Eb) (f_equal S El))). lia.
Qed.
Lemma allow_sig toks : allowance (sig toks) + 20 * List.length toks <= allowance toks + 20 * List.length (sig toks).
Proof.
  unfold sig. induction toks as [|t l IH]; [apply le_n|]. cbn [filter]. destruct (negb (blank t)); rewrite ?allow_cons; cbn [List.length]; lia.
Qed.
Lemma sig_len toks : List.length (sig toks) <= List.length toks.
Proof. unfold sig. induction toks as [|t l IH]; [apply le_n|]. cbn [filter]. destruct (negb (blank t)); cbn [List.length]; lia. Qed.

Lemma file_length d src f toks : dialect_ok d -> parse_file d src = ROk f -> tokenize d true src = TOk toks ->
  List.length (sql_file f) <= List.length src + 20 * List.length (sig toks).
Proof.
  intros D E T. destruct (file_reads anything d src f D E) as (toks' & T' & R). rewrite T in T'. injection T' as <-.
  specialize (R (allows_anything _)). unfold sql_file. rewrite builder_string_text.
  pose proof (pd_file anything f (sig toks) (fsig_wf _ (tokenize_wf _ _ _ _ D T)) R) as P. unfold tl in P.
  destruct (tokenize_lossless d src toks D T) as (sl & L & C & _ & X).
  assert (A : allowance toks <= 20 * List.length toks + List.length (List.concat sl)).
  { apply allowance_len; [exact L|]. intros a t b sa s sb Ea Es El. specialize (X a t b sa s sb Ea Es El).
    destruct t as [k v p q]. exact (written_len d k v s _ p q X). }
  rewrite <- C in A. pose proof (allow_sig toks). pose proof (sig_len toks).
  assert (List.length (skip_bom src) <= List.length src).
  { unfold skip_bom. destruct src as [|r s]; [apply le_n|]. destruct (Z.eqb r _); cbn; lia. }
  lia.
Qed.
Lemma text_length d src f : dialect_ok d -> parse_file d src = ROk f -> List.length (sql_file f) <= 21 * List.length src.
Proof.
  intros D E. destruct (file_reads anything d src f D E) as (toks & T & _). pose proof (file_length d src f toks D E T).
  pose proof (tokens_length d src toks D T). pose proof (sig_len toks). lia.
Qed.
