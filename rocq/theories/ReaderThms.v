(** Proofs about Reader.v (C59). *)
From Coq Require Import ZArith List Bool Lia.
From Verif Require Import Base Dialect Token Lexer AST Prog Parser Utf8 Utf8Spec Utf8Thms Reader ReaderSpec.
Import ListNotations.
Open Scope list_scope.
Open Scope Z_scope.

Definition byteP (b : byte) : Prop := 0 <= b <= 255.

(** One rune *)
Lemma decode_rune_width b l : (1 <= snd (decode_rune (b :: l)) <= List.length (b :: l))%nat.
Proof.
  unfold decode_rune. destruct (b <? 128); [cbn; lia|].
  destruct (asks b) as [|[|[|[|[|]]]]]; try (cbn; lia); destruct l as [|b1 [|b2 [|b3 l]]]; try (cbn; lia);
  repeat match goal with |- context [if ?c then _ else _] => destruct c end; cbn; lia.
Qed.

Lemma asks_range b : (asks b = 1 \/ asks b = 2 \/ asks b = 3 \/ asks b = 4)%nat.
Proof. unfold asks. repeat match goal with |- context [if ?c then _ else _] => destruct c end; auto. Qed.

Lemma decode_rune_eof b l : Forall byteP (b :: l) -> fst (decode_rune (b :: l)) <> EOFr.
Proof.
  intros F. inversion F as [|? ? Hb Hl]; subst. unfold byteP in *. unfold decode_rune, EOFr, rune_error.
  destruct (b <? 128) eqn:E; [cbn; lia|].
  unfold asks. rewrite E.
  unfold accepts, second3, second4, cont.
  destruct ((194 <=? b) && (b <=? 223)) eqn:E2, ((224 <=? b) && (b <=? 239)) eqn:E3, ((240 <=? b) && (b <=? 244)) eqn:E4; try lia;
  destruct l as [|b1 [|b2 [|b3 l]]]; try (cbn [fst]; lia);
  destruct (b =? 224) eqn:?, (b =? 237) eqn:?, (b =? 240) eqn:?, (b =? 244) eqn:?;
  match goal with |- fst (if ?c then _ else _) <> _ => destruct c eqn:? | _ => idtac end; cbn [fst]; try lia.
Qed.

Lemma decode_step buf rest : buf <> [] -> (full_rune buf = true \/ (4 <= List.length buf)%nat \/ rest = []) ->
  decode (buf ++ rest) = fst (decode_rune buf) :: decode (skipn (snd (decode_rune buf)) buf ++ rest).
Proof.
  intros N H. destruct buf as [|b l]; [contradiction|]. clear N.
  cbn [app decode]. unfold decode_rune.
  destruct (b <? 128) eqn:E; [reflexivity|].
  unfold full_rune, asks, accepts in *. rewrite E in *.
  destruct ((194 <=? b) && (b <=? 223)) eqn:E2.
  - assert (X3 : (224 <=? b) && (b <=? 239) = false) by lia. assert (X4 : (240 <=? b) && (b <=? 244) = false) by lia. rewrite X3, X4 in *.
    destruct l as [|b1 l].
    + destruct H as [H|[H|H]]; [discriminate H|cbn in H; lia|subst; reflexivity].
    + cbn [app]. destruct (cont b1); reflexivity.
  - destruct ((224 <=? b) && (b <=? 239)) eqn:E3.
    + destruct l as [|b1 [|b2 l]].
      * destruct H as [H|[H|H]]; [discriminate H|cbn in H; lia|subst; reflexivity].
      * destruct H as [H|[H|H]]; [|cbn in H; lia|subst; reflexivity].
        cbn [List.length Nat.leb orb] in H. rewrite orb_false_r in H. apply negb_true_iff in H.
        cbn [app fst snd skipn]. destruct rest as [|b2 rest]; [reflexivity|]. rewrite H. reflexivity.
      * cbn [app]. destruct (second3 b b1 && cont b2); reflexivity.
    + destruct ((240 <=? b) && (b <=? 244)) eqn:E4; [|destruct l as [|b1 [|b2 [|b3 l]]]; reflexivity].
      destruct l as [|b1 [|b2 [|b3 l]]].
      * destruct H as [H|[H|H]]; [discriminate H|cbn in H; lia|subst; reflexivity].
      * destruct H as [H|[H|H]]; [|cbn in H; lia|subst; reflexivity].
        cbn [List.length Nat.leb orb] in H. rewrite orb_false_r in H. apply negb_true_iff in H.
        cbn [app fst snd skipn]. destruct rest as [|b2 [|b3 rest]]; try reflexivity. rewrite H. reflexivity.
      * destruct H as [H|[H|H]]; [|cbn in H; lia|subst; reflexivity].
        cbn [List.length Nat.leb orb] in H. cbn [app fst snd skipn].
        destruct rest as [|b3 rest]; [reflexivity|].
        destruct (second4 b b1); [|reflexivity]. destruct (cont b2); [|reflexivity]. discriminate H.
      * cbn [app]. destruct (second4 b b1 && cont b2 && cont b3); reflexivity.
Qed.

(** The buffer *)
Lemma fill_bytes src : forall buf, buf ++ bytes src = fst (fill buf src) ++ bytes (snd (fill buf src)).
Proof.
  induction src as [|[bs e] src IH]; intros buf; cbn [fill].
  - destruct (_ || _); reflexivity.
  - destruct (_ || _); [reflexivity|]. unfold bytes in *. cbn [flat_map fst].
    destruct e; [rewrite app_assoc; apply IH| |]; cbn [fst snd]; rewrite app_assoc; reflexivity.
Qed.

Lemma fill_plain src : forall buf, plain src ->
  plain (snd (fill buf src)) /\
  (full_rune (fst (fill buf src)) = true \/ (4 <= List.length (fst (fill buf src)))%nat \/ bytes (snd (fill buf src)) = []).
Proof.
  induction src as [|[bs e] src IH]; intros buf P; cbn [fill].
  - destruct (_ || _); cbn; auto.
  - destruct ((4 <=? List.length buf)%nat || full_rune buf) eqn:B.
    + split; [exact P|]. cbn [fst]. apply orb_true_iff in B. destruct B as [B|B]; [right; left; apply Nat.leb_le; exact B|auto].
    + destruct P as [P|(p & l & EQ & P)].
      * inversion P; subst. cbn in H1. subst e. apply IH. left; assumption.
      * destruct p as [|x p].
        -- cbn in EQ. injection EQ as <- ->. destruct e; cbn; [apply (IH (buf ++ bs)); left; constructor|split; [left; constructor|auto]|split; [left; constructor|auto]].
        -- cbn in EQ. injection EQ as <- ->. inversion P; subst. cbn in H1. subst e. apply IH. right. exists p, l. auto.
Qed.

Lemma bytes_app a b : bytes (a ++ b) = bytes a ++ bytes b.
Proof. unfold bytes. apply flat_map_app. Qed.

Definition room (buf : list byte) (src : reader) : nat := List.length (buf ++ bytes src).

Lemma read_rune_cases buf src :
  read_rune buf src = (EOFr, ([], snd (fill buf src))) /\ fst (fill buf src) = [] \/
  exists b l, fst (fill buf src) = b :: l /\
    read_rune buf src = (fst (decode_rune (b :: l)), (skipn (snd (decode_rune (b :: l))) (b :: l), snd (fill buf src))).
Proof.
  unfold read_rune. destruct (fill buf src) as [buf' src'] eqn:E. cbn [fst snd]. destruct buf' as [|b l]; [left; auto|right].
  exists b, l. split; [reflexivity|]. destruct (decode_rune (b :: l)); reflexivity.
Qed.

Lemma read_rune_bytes buf src r buf' src' : Forall byteP (buf ++ bytes src) -> read_rune buf src = (r, (buf', src')) ->
  Forall byteP (buf' ++ bytes src') /\ (r <> EOFr -> (room buf' src' < room buf src)%nat) /\ (room buf' src' <= room buf src)%nat.
Proof.
  intros F H. unfold room. rewrite (fill_bytes src buf) in *. destruct (read_rune_cases buf src) as [[E N]|(b & l & N & E)]; rewrite E in H; apply pair_equal_spec in H; destruct H as [<- H]; apply pair_equal_spec in H; destruct H as [<- <-]; rewrite N in *.
  - split; [exact F|]. split; [congruence|cbn [app]; apply le_n].
  - pose proof (decode_rune_width b l) as W. rewrite Forall_app in F. destruct F as [F1 F2].
    rewrite <- (firstn_skipn (snd (decode_rune (b :: l))) (b :: l)) in F1. rewrite Forall_app in F1.
    split; [apply Forall_app; tauto|]. rewrite !app_length, skipn_length. lia.
Qed.

Lemma all_runes_fuel n : forall m buf src, Forall byteP (buf ++ bytes src) -> (room buf src < n)%nat -> (room buf src < m)%nat ->
  all_runes n buf src = all_runes m buf src.
Proof.
  induction n as [|n IH]; intros m buf src F H1 H2; [lia|]. destruct m as [|m]; [lia|]. cbn [all_runes].
  destruct (read_rune buf src) as [c [buf' src']] eqn:E. destruct (read_rune_bytes _ _ _ _ _ F E) as (F' & L & _).
  destruct (c =? EOFr) eqn:Q; [reflexivity|]. f_equal. apply IH; [exact F'| |]; assert (c <> EOFr) by lia; specialize (L H); lia.
Qed.

Lemma all_runes_plain n : forall buf src, Forall byteP (buf ++ bytes src) -> plain src -> (room buf src < n)%nat ->
  all_runes n buf src = decode (buf ++ bytes src).
Proof.
  induction n as [|n IH]; intros buf src F P H; [lia|]. cbn [all_runes].
  destruct (fill_plain src buf P) as [P' D]. pose proof (fill_bytes src buf) as B.
  destruct (read_rune buf src) as [c [buf' src']] eqn:E. destruct (read_rune_bytes _ _ _ _ _ F E) as (F' & L & _).
  destruct (read_rune_cases buf src) as [[X N]|(b & l & N & X)]; rewrite X in E; apply pair_equal_spec in E; destruct E as [<- E]; apply pair_equal_spec in E; destruct E as [<- <-]; rewrite N in *.
  - cbn [Z.eqb]. rewrite B. destruct D as [D|[D|D]]; [discriminate D|cbn in D; lia|]. rewrite D. reflexivity.
  - assert (FB : Forall byteP (b :: l)) by (rewrite B, Forall_app in F; tauto).
    pose proof (decode_rune_eof b l FB) as NE. destruct (fst (decode_rune (b :: l)) =? EOFr) eqn:Q; [apply Z.eqb_eq in Q; contradiction|].
    rewrite B. rewrite (decode_step (b :: l)); [|discriminate|exact D]. f_equal. apply IH; [exact F'|exact P'|]. specialize (L NE). lia.
Qed.

Lemma runes_plain src : Forall byteP (bytes src) -> plain src -> runes_of src = decode (bytes src).
Proof. intros F P. unfold runes_of. apply (all_runes_plain _ [] src); auto. Qed.

(** A report with no bytes at the end of a character *)
Lemma char_full r c l : utf8_char r c -> full_rune (c ++ l) = true.
Proof.
  intros H. inversion H; subst; unfold full_rune, asks; cbn [app].
  - replace (r <? 128) with true by lia. reflexivity.
  - replace (192 + a <? 128) with false by lia. replace ((194 <=? 192 + a) && (192 + a <=? 223)) with true by lia. reflexivity.
  - replace (224 + a <? 128) with false by lia. replace ((194 <=? 224 + a) && (224 + a <=? 223)) with false by lia.
    replace ((224 <=? 224 + a) && (224 + a <=? 239)) with true by lia. reflexivity.
  - unfold scalar in *. replace (240 + a <? 128) with false by lia. replace ((194 <=? 240 + a) && (240 + a <=? 223)) with false by lia.
    replace ((224 <=? 240 + a) && (240 + a <=? 239)) with false by lia.
    replace ((240 <=? 240 + a) && (240 + a <=? 244)) with true by lia. reflexivity.
Qed.

Lemma decode_rune_char r c l : utf8_char r c -> decode_rune (c ++ l) = (r, List.length c).
Proof.
  intros H. inversion H; subst; unfold decode_rune, asks, accepts, second3, second4, cont; cbn [app].
  - replace (r <? 128) with true by lia. reflexivity.
  - replace (192 + a <? 128) with false by lia. replace ((194 <=? 192 + a) && (192 + a <=? 223)) with true by lia.
    replace ((224 <=? 192 + a) && (192 + a <=? 239)) with false by lia. replace ((240 <=? 192 + a) && (192 + a <=? 244)) with false by lia.
    replace ((128 <=? 128 + b) && (128 + b <=? 191)) with true by lia. cbn [List.length]. f_equal. lia.
  - unfold scalar in *. replace (224 + a <? 128) with false by lia. replace ((194 <=? 224 + a) && (224 + a <=? 223)) with false by lia.
    replace ((224 <=? 224 + a) && (224 + a <=? 239)) with true by lia.
    match goal with |- (if ?c then _ else _) = _ => replace c with true end.
    + cbn [List.length]. f_equal. lia.
    + symmetry. destruct (224 + a =? 224) eqn:?, (224 + a =? 237) eqn:?; lia.
  - unfold scalar in *. replace (240 + a <? 128) with false by lia. replace ((194 <=? 240 + a) && (240 + a <=? 223)) with false by lia.
    replace ((224 <=? 240 + a) && (240 + a <=? 239)) with false by lia.
    replace ((240 <=? 240 + a) && (240 + a <=? 244)) with true by lia.
    match goal with |- (if ?c then _ else _) = _ => replace c with true end.
    + cbn [List.length]. f_equal. lia.
    + symmetry. destruct (240 + a =? 240) eqn:?, (240 + a =? 244) eqn:?; lia.
Qed.

Lemma char_asks r c : utf8_char r c -> List.length c = asks (hd 0 c).
Proof.
  intros H. inversion H; subst; cbn [hd]; unfold asks, scalar in *.
  - replace (r <? 128) with true by lia. reflexivity.
  - replace (192 + a <? 128) with false by lia. replace ((194 <=? 192 + a) && (192 + a <=? 223)) with true by lia. reflexivity.
  - replace (224 + a <? 128) with false by lia. replace ((194 <=? 224 + a) && (224 + a <=? 223)) with false by lia.
    replace ((224 <=? 224 + a) && (224 + a <=? 239)) with true by lia. reflexivity.
  - replace (240 + a <? 128) with false by lia. replace ((194 <=? 240 + a) && (240 + a <=? 223)) with false by lia.
    replace ((224 <=? 240 + a) && (240 + a <=? 239)) with false by lia.
    replace ((240 <=? 240 + a) && (240 + a <=? 244)) with true by lia. reflexivity.
Qed.

(** The buffer holds the whole of the first character. *)
Lemma full_char r c buf rest t : utf8_char r c -> buf ++ rest = c ++ t -> buf <> [] ->
  full_rune buf = true \/ (4 <= List.length buf)%nat -> exists t', buf = c ++ t'.
Proof.
  intros H E N F.
  assert (L : (List.length c <= List.length buf)%nat).
  { destruct F as [F|F]; [|inversion H; subst; cbn; lia].
    pose proof (decode_rune_char r c [] H) as D. rewrite app_nil_r in D.
    destruct c as [|b0 c]; [inversion H|]. destruct buf as [|b0' buf]; [contradiction|]. cbn [app] in E. apply cons_inj in E. destruct E as [-> E].
    unfold full_rune in F. apply orb_true_iff in F.
    pose proof (char_asks r (b0 :: c) H) as A. cbn [hd] in A.
    destruct F as [F|F]; [apply Nat.leb_le in F; rewrite A; exact F|].
    destruct buf as [|b1 buf]; [discriminate F|].
    destruct c as [|b1' c]; [cbn; lia|]. cbn [app] in E. apply cons_inj in E. destruct E as [-> E].
    destruct c as [|b2' c]; [cbn; lia|].
    apply orb_true_iff in F. destruct F as [F|F].
    - exfalso. apply negb_true_iff in F. unfold decode_rune in D. rewrite <- A in D.
      destruct (b0 <? 128) eqn:?; [discriminate D|].
      destruct c as [|b3 [|]]; cbn [List.length] in D; [| |discriminate D]; rewrite F in D; discriminate D.
    - destruct buf as [|b2 buf]; [discriminate F|]. cbn [app] in E. apply cons_inj in E. destruct E as [-> E].
      exfalso. apply negb_true_iff in F. unfold decode_rune in D. rewrite <- A in D.
      destruct (b0 <? 128) eqn:?; [discriminate D|].
      destruct c as [|b3 [|]]; cbn [List.length] in D; [| |discriminate D]; rewrite F, ?andb_false_r in D; discriminate D. }
  exists (skipn (List.length c) buf). rewrite <- (firstn_skipn (List.length c) buf) at 1. f_equal.
  apply (f_equal (firstn (List.length c))) in E. rewrite !firstn_app in E.
  replace (List.length c - List.length c)%nat with 0%nat in E by lia. replace (List.length c - List.length buf)%nat with 0%nat in E by lia.
  cbn [firstn] in E. rewrite !app_nil_r, firstn_all in E. exact E.
Qed.

Lemma fill_stop q rest e : e <> More -> Forall (fun d => snd d = More) q -> forall buf l, utf8_text l (buf ++ bytes q) ->
  exists buf' tl, fill buf (q ++ ([], e) :: rest) = (buf', tl) /\
    (l = [] /\ buf' = [] \/
     l <> [] /\ exists q', tl = q' ++ ([], e) :: rest /\ Forall (fun d => snd d = More) q' /\ buf' <> [] /\
       buf' ++ bytes q' = buf ++ bytes q /\ (full_rune buf' = true \/ (4 <= List.length buf')%nat)).
Proof.
  intros NE. induction q as [|[bs x] q IH]; intros Q buf l U; cbn [app fill].
  - rewrite app_nil_r in U. destruct l as [|r l].
    + inversion U; subst. cbn. destruct e; [congruence| |]; do 2 eexists; (split; [reflexivity|]); left; split; reflexivity.
    + inversion U as [|? c ? t C T]; subst. rewrite (char_full r c t C), orb_true_r. do 2 eexists. split; [reflexivity|]. right. split; [discriminate|].
      exists []. cbn [app bytes flat_map]. rewrite app_nil_r. split; [reflexivity|]. split; [constructor|]. split; [intros Z; apply app_eq_nil in Z; destruct Z as [-> ->]; inversion C|].
      split; [reflexivity|]. left. exact (char_full r c t C).
  - inversion Q as [|? ? Q1 Q2]; subst. cbn in Q1. subst x.
    destruct ((4 <=? List.length buf)%nat || full_rune buf) eqn:B.
    + exists buf, (((bs, More) :: q) ++ ([], e) :: rest). split; [reflexivity|]. right.
      assert (NB : buf <> []) by (intros ->; discriminate B).
      split; [intros ->; inversion U as [X Y|]; destruct buf; [congruence|discriminate]|].
      exists ((bs, More) :: q). split; [reflexivity|]. split; [exact Q|]. split; [exact NB|]. split; [reflexivity|].
      apply orb_true_iff in B. destruct B as [B|B]; [right; apply Nat.leb_le; exact B|auto].
    + unfold bytes in U. cbn [flat_map fst] in U. rewrite app_assoc in U. destruct (IH Q2 _ _ U) as (b' & tl & E & H).
      exists b', tl. split; [exact E|]. destruct H as [H|(N & q' & H1 & H2 & H3 & H4 & H5)]; [left; exact H|right].
      split; [exact N|]. exists q'. repeat (split; [assumption|]). split; [|exact H5]. rewrite H4. unfold bytes. cbn [flat_map fst]. rewrite app_assoc. reflexivity.
Qed.

Lemma utf8_bytes l bs : utf8_text l bs -> Forall byteP bs.
Proof.
  induction 1 as [|r c l bs C T IH]; [constructor|]. apply Forall_app. split; [|exact IH]. unfold byteP.
  inversion C; subst; unfold scalar in *; repeat (constructor; [lia|]); constructor.
Qed.

Lemma all_runes_stop n : forall buf q rest e l, e <> More -> Forall (fun d => snd d = More) q -> utf8_text l (buf ++ bytes q) ->
  (room buf q < n)%nat -> all_runes n buf (q ++ ([], e) :: rest) = l.
Proof.
  induction n as [|n IH]; intros buf q rest e l NE Q U H; [lia|]. cbn [all_runes].
  destruct (fill_stop q rest e NE Q buf l U) as (buf' & tl & E & D). unfold read_rune. rewrite E.
  destruct D as [[-> ->]|(NL & q' & -> & Q' & NB & EB & FB)]; [reflexivity|].
  pose proof (utf8_bytes _ _ U) as BP. rewrite <- EB in BP.
  inversion U as [|r c l' t C T X1 X2]; subst; [contradiction|].
  rewrite <- X2 in EB. destruct (full_char _ _ _ _ _ C EB NB FB) as (t' & ->).
  rewrite (decode_rune_char _ _ t' C). destruct (c ++ t') as [|b bl] eqn:EBL; [contradiction|]. clear NB.
  pose proof (utf8_scalar _ _ C) as SC. assert (NEOF : r <> EOFr) by (unfold scalar, EOFr in *; lia).
  replace (r =? EOFr) with false by lia. f_equal. rewrite <- EBL in *.
  rewrite skipn_app, skipn_all. replace (List.length c - List.length c)%nat with 0%nat by lia. cbn [skipn app].
  rewrite <- app_assoc in EB. apply app_inv_head in EB.
  assert (L1 : (1 <= List.length c)%nat) by (inversion C; cbn; lia).
  assert (L2 : (List.length (c ++ t) < S n)%nat) by (rewrite X2; exact H). rewrite app_length in L2.
  apply IH; [assumption|assumption|exact (eq_ind_r (utf8_text l') T EB)|].
  refine (eq_ind_r (fun x => (List.length x < n)%nat) _ EB). lia.
Qed.

Lemma runes_stop q rest e l : e <> More -> Forall (fun d => snd d = More) q -> utf8_text l (bytes q) -> runes_of (q ++ ([], e) :: rest) = l.
Proof.
  intros NE Q U. unfold runes_of. change (flat_map fst (q ++ ([], e) :: rest)) with (bytes (q ++ ([], e) :: rest)).
  apply all_runes_stop; auto. rewrite bytes_app. unfold room. cbn [app]. rewrite app_length. lia.
Qed.

(** Peek and Next *)
Definition rest_runes (buf : list byte) (src : reader) : list rune := all_runes (S (room buf src)) buf src.

Lemma rest_step buf src c buf' src' : Forall byteP (buf ++ bytes src) -> read_rune buf src = (c, (buf', src')) ->
  rest_runes buf src = (if c =? EOFr then [] else c :: rest_runes buf' src').
Proof.
  intros F E. unfold rest_runes. remember (S (room buf' src')) as m. cbn [all_runes]. rewrite E. destruct (c =? EOFr) eqn:Q; [reflexivity|].
  destruct (read_rune_bytes _ _ _ _ _ F E) as (F' & L & _). assert (NE : c <> EOFr) by lia. specialize (L NE).
  f_equal. apply all_runes_fuel; [exact F'|lia|lia].
Qed.

(** The text still ahead of a scanner that has begun. *)
Definition ahead (s : scanner) (text : list rune) : Prop :=
  exists c, sc_ch s = Some c /\ Forall byteP (sc_buf s ++ bytes (sc_src s)) /\
    text = (if c =? EOFr then [] else c :: rest_runes (sc_buf s) (sc_src s)).

Lemma ahead_hd s text c : sc_ch s = Some c -> ahead s text -> c = hd EOFr text.
Proof. intros H (c' & H' & _ & ->). rewrite H in H'. injection H' as <-. destruct (c =? EOFr) eqn:Q; cbn; lia. Qed.

Lemma answers_ahead calls : forall s text, ahead s text -> answers calls s = looks calls text.
Proof.
  induction calls as [|b calls IH]; intros s text A; [reflexivity|]. cbn [answers looks].
  pose proof A as (c & H & F & E).
  assert (P : sc_peek s = (c, s)) by (unfold sc_peek; rewrite H; reflexivity).
  destruct b.
  - unfold sc_next. rewrite P. destruct (c =? EOFr) eqn:Q.
    + subst text. cbn [hd tl]. assert (c = EOFr) by lia. subst c. f_equal. apply IH. exact A.
    + subst text. cbn [hd tl]. destruct (read_rune (sc_buf s) (sc_src s)) as [c' [buf src]] eqn:R. f_equal. apply IH.
      exists c'. cbn [sc_ch sc_buf sc_src]. destruct (read_rune_bytes _ _ _ _ _ F R) as (F' & _). split; [reflexivity|]. split; [exact F'|]. apply rest_step; assumption.
  - rewrite P. f_equal; [eapply ahead_hd; eauto|]. apply IH. exact A.
Qed.

Lemma peek_ahead src : Forall byteP (bytes src) -> exists c s, sc_peek (init src) = (c, s) /\ sc_ch s = Some c /\ ahead s (skip_bom (runes_of src)).
Proof.
  intros F. unfold sc_peek, init. cbn [sc_ch sc_buf sc_src].
  destruct (read_rune [] src) as [c [buf' src']] eqn:E.
  destruct (read_rune_bytes [] src _ _ _ F E) as (F' & _).
  change (runes_of src) with (rest_runes [] src). rewrite (rest_step [] src _ _ _ F E).
  destruct (c =? 65279) eqn:B.
  - destruct (read_rune buf' src') as [c2 [buf2 src2]] eqn:E2. exists c2. eexists. split; [reflexivity|]. split; [reflexivity|].
    destruct (read_rune_bytes _ _ _ _ _ F' E2) as (F2 & _).
    exists c2. cbn [sc_ch sc_buf sc_src]. split; [reflexivity|]. split; [exact F2|].
    replace (c =? EOFr) with false by (unfold EOFr; lia). cbn [skip_bom]. rewrite B. apply rest_step; assumption.
  - exists c. eexists. split; [reflexivity|]. split; [reflexivity|]. exists c. cbn [sc_ch sc_buf sc_src]. split; [reflexivity|]. split; [exact F'|].
    destruct (c =? EOFr); [reflexivity|]. cbn [skip_bom]. rewrite B. reflexivity.
Qed.

Lemma answers_init calls src : Forall byteP (bytes src) -> answers calls (init src) = looks calls (skip_bom (runes_of src)).
Proof.
  intros F. destruct (peek_ahead src F) as (c & s & P & H & A). destruct calls as [|b calls]; [reflexivity|].
  rewrite <- (answers_ahead (b :: calls) s _ A). cbn [answers].
  assert (P' : sc_peek s = (c, s)) by (unfold sc_peek; rewrite H; reflexivity).
  destruct b; [unfold sc_next|]; rewrite P, P'; reflexivity.
Qed.
