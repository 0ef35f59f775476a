(** Proofs about the text behind tokens (C75). *)
From Coq Require Import ZArith List Bool String Lia.
From Verif Require Import Base Dialect Token Lexer LexSpec LexFacts LexPos LexThms TextSpec.
Import ListNotations.
Open Scope list_scope.
Open Scope Z_scope.

Lemma advance_col n : forall (s : list rune) p, (List.length s <= n)%nat ->
  pline p < pline (advance s p) \/ (pline (advance s p) = pline p /\ pcol (advance s p) = pcol p + Z.of_nat (List.length s)).
Proof.
  induction n as [|n IH]; intros s p L.
  - destruct s; [right; cbn; lia|cbn in L; lia].
  - destruct s as [|c s]; [right; cbn; lia|]. cbn [List.length] in L. cbn [advance].
    destruct (c =? 10). { left. destruct (IH s (mkPos (pline p + 1) 1) ltac:(cbn [List.length] in *; lia)) as [H|[H _]]; cbn [pline] in H; lia. }
    destruct (c =? 13).
    { left. destruct s as [|m s]; [cbn; lia|]. destruct (m =? 10).
      - cbn [List.length] in L. destruct (IH s (mkPos (pline p + 1) 1) ltac:(cbn [List.length] in *; lia)) as [H|[H _]]; cbn [pline] in H; lia.
      - destruct (IH (m :: s) (mkPos (pline p + 1) 1) ltac:(cbn [List.length] in *; lia)) as [H|[H _]]; cbn [pline] in H; lia. }
    destruct (IH s (mkPos (pline p) (pcol p + 1)) ltac:(lia)) as [H|[H1 H2]]; cbn [pline pcol] in *; [left; lia|right].
    split; [lia|]. rewrite H2. cbn [List.length]. lia.
Qed.

Lemma sym_kind s k f : In (s, k, f) symbols ->
  match k with Whitespace | SQLKeyword | SingleQuotedString | NationalStringLiteral | Number | Comment | Char => False | _ => True end.
Proof. intros H. unfold symbols in H. cbn [In] in H. repeat (destruct H as [H|H]; [injection H as <- <- <-; exact I|]). contradiction. Qed.

Lemma line_block w body p : block_text body = w -> mkPos (pline p) (pcol p + zlen (45 :: 45 :: w)) <> advance (block body) p.
Proof.
  intros <- E. destruct (advance_col _ (block body) p (le_n _)) as [H|[_ H]].
  - rewrite <- E in H. cbn [pline] in H. lia.
  - rewrite <- E in H. cbn [pcol] in H. pose proof (block_text_len _ body (le_n _)) as L. unfold zlen, block in H.
    rewrite !app_length in H. cbn [List.length] in H. change (@List.length rune) with (@List.length Z) in *. lia.
Qed.

Lemma same_lexeme d k v s rest s' rest' p : dialect_ok d -> lexeme d k v s rest -> lexeme d k v s' rest' -> token_end k v s p = token_end k v s' p ->
  same_spelling (mkTok k v p (token_end k v s p)) s s'.
Proof.
  intros D L L' E. unfold same_spelling. cbn [tkind].
  destruct L; inversion L'; subst;
    try (match goal with H : In (_, _, _) symbols |- _ => pose proof (sym_kind _ _ _ H) as X; contradiction X end);
    try (left; reflexivity); try (left; congruence);
    try (right; left; split; [reflexivity|]; unfold newline; auto; fail).
  - exfalso. destruct D as (_ & _ & D). destruct (D 0) as [X|X]; [assumption|discriminate X|discriminate X].
  - exfalso. destruct D as (_ & _ & D). destruct (D 0) as [X|X]; [assumption|discriminate X|discriminate X].
  - exfalso. exact (line_block _ body p eq_refl E).
  - exfalso. match goal with X : ?a = block_text body |- _ => exact (line_block _ body p (eq_sym X) (eq_sym E)) | _ => exact (line_block _ body p eq_refl (eq_sym E)) end.
  - rename body0 into body'. assert (BT : block_text body' = block_text body) by congruence.
    destruct (list_eq_dec Z.eq_dec (block_text body) body) as [P|P].
    + destruct (list_eq_dec Z.eq_dec (block_text body') body') as [P'|P']; [left; congruence|].
      right. right. split; [reflexivity|]. exists body, body'. split; [reflexivity|]. split; [reflexivity|]. right. intros Q. apply P', block_text_iff, Q.
    + right. right. split; [reflexivity|]. exists body, body'. split; [reflexivity|]. split; [reflexivity|]. left. intros Q. apply P, block_text_iff, Q.
Qed.

Lemma same_reads d p s l : dialect_ok d -> reads d p s l [] -> forall s' l', reads d p s' l' [] -> map fst l = map fst l' ->
  s = List.concat (map snd l) /\ s' = List.concat (map snd l') /\ each3 same_spelling (map fst l) (map snd l) (map snd l').
Proof.
  intros D R. remember [] as r eqn:RE. induction R as [p text|p q s text k v l rest L EQ R IH]; intros s' l' R' M.
  - destruct l'; [|discriminate M]. inversion R'; subst. repeat split; constructor.
  - destruct l' as [|[t' z] l']; [discriminate M|]. cbn [map fst] in M. injection M as M1 M2. revert M1. 
    inversion R' as [|p' q' z' text' k' v' l'' r'' L' EQ' R'']. subst. intros M1. injection M1 as <- <- E.
    rewrite <- E in R''. destruct (IH eq_refl _ _ R'' M2) as (-> & -> & F). cbn [map fst snd List.concat]. split; [reflexivity|]. split; [reflexivity|].
    constructor; [|exact F]. eapply same_lexeme; eauto.
Qed.

Lemma same_tokens d s s' l : dialect_ok d -> tokenize d true s = TOk l -> tokenize d true s' = TOk l ->
  exists a b, skip_bom s = List.concat a /\ skip_bom s' = List.concat b /\ each3 same_spelling l a b.
Proof.
  intros D T T'. destruct (tokenize_reads _ _ _ D T) as (m & R & E). destruct (tokenize_reads _ _ _ D T') as (m' & R' & E').
  destruct (same_reads d start_pos _ m D R _ m' R' ltac:(congruence)) as (A & B & F). exists (map snd m), (map snd m'). rewrite E. auto.
Qed.

Lemma same_plain d s s' l : dialect_ok d -> tokenize d true s = TOk l -> tokenize d true s' = TOk l ->
  ~ In 13 s -> ~ In 13 s' -> (forall a b, s <> a ++ 47 :: 42 :: b) -> hd_error s <> Some 65279 -> hd_error s' <> Some 65279 -> s = s'.
Proof.
  intros D T T' N N' NB H H'. destruct (same_tokens d s s' l D T T') as (a & b & A & B & F).
  assert (G : forall z : list rune, hd_error z <> Some 65279 -> skip_bom z = z).
  { intros [|c z] X; [reflexivity|]. cbn [hd_error skip_bom] in *. destruct (Z.eqb_spec c 65279) as [->|_]; [exfalso; apply X; reflexivity|reflexivity]. }
  rewrite G in A by exact H. rewrite G in B by exact H'. subst s s'. clear - F N N' NB.
  induction F as [|t x y l m n P F IH]; [reflexivity|]. cbn [List.concat] in *. rewrite in_app_iff in N, N'.
  f_equal; [|apply IH; [tauto|tauto|]]. 
  - destruct P as [P|[(_ & P & Q)|(_ & u & v & -> & _)]]; [exact P| |].
    + destruct P as [->|[->| ->]]; [|exfalso; apply N; left; left; reflexivity|exfalso; apply N; left; left; reflexivity].
      destruct Q as [->|[->| ->]]; [reflexivity|exfalso; apply N'; left; left; reflexivity|exfalso; apply N'; left; left; reflexivity].
    + exfalso. apply (NB [] ((u ++ [42; 47]) ++ List.concat m)). reflexivity.
  - intros u v E. apply (NB (x ++ u) v). rewrite E, <- app_assoc. reflexivity.
Qed.
