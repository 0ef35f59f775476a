(** Proofs for C68. *)
From Coq Require Import ZArith List Bool String Lia ZifyBool.
From Coq Require DecimalN DecimalFacts.
From Verif Require Import Base Dialect Token Lexer Num LexSpec LexFacts LexThms ValueSpec ShowSpec ShowThms ScanSpec Scan ScanThms LexMsg LexMsgSpec.
Import ListNotations.
Open Scope list_scope.
Open Scope Z_scope.

Lemma to_uint_zero n u : N.to_uint n = Decimal.D0 u -> u = Decimal.Nil.
Proof.
  intros E. pose proof (DecimalN.Unsigned.to_of (N.to_uint n)) as F. rewrite DecimalN.Unsigned.of_to in F. rewrite E in F.
  unfold Decimal.unorm in F. destruct (Decimal.nzhead (Decimal.D0 u)) eqn:Z; try discriminate F; [congruence|].
  exfalso. exact (DecimalFacts.nzhead_nonzero _ _ Z).
Qed.
Lemma format_int_plain z : plain_int (format_int z).
Proof.
  unfold plain_int, format_int. destruct (z <? 0).
  - discriminate.
  - intros t. destruct (N.to_uint (Z.to_N z)) eqn:E; cbn; try discriminate. intros F. injection F as <-.
    apply to_uint_zero in E. subst. reflexivity.
Qed.
Lemma fields_show p : shows_pos p (pos_fields p).
Proof. exists (format_int (pline p)), (format_int (pcol p)). split; [apply format_int_text|]. split; [apply format_int_text|]. split; [apply format_int_plain|]. split; [apply format_int_plain|reflexivity]. Qed.

Lemma unclosed_string n : forall s, (List.length s <= n)%nat -> scan_string s = None -> s = escape (string_so_far s).
Proof.
  induction n as [|n IH]; intros [|c s] L E; cbn [List.length] in L; try lia; try reflexivity.
  cbn [scan_string] in E. cbn [string_so_far]. destruct (c =? 39) eqn:C.
  - apply Z.eqb_eq in C. subst c. destruct s as [|m s]; [discriminate|]. destruct (m =? 39) eqn:M; [|discriminate].
    apply Z.eqb_eq in M. subst m. destruct (scan_string s) as [[? ?]|] eqn:E'; [discriminate|].
    cbn [escape flat_map]. change (39 =? 39) with true. cbn [app]. do 2 f_equal. apply IH; [cbn in L; lia|exact E'].
  - destruct (scan_string s) as [[? ?]|] eqn:E'; [discriminate|].
    cbn [escape flat_map]. rewrite C. cbn [app]. f_equal. apply IH; [lia|exact E'].
Qed.

Lemma block_open n : forall s may acc, (List.length s <= n)%nat ->
  block_so_far s may acc = rev acc ++ (if may then match s with [] => [] | c :: _ => [c] end else []) ++ open_text s.
Proof.
  induction n as [|n IH]; intros [|c s] may acc L; cbn [List.length] in L; try lia; [destruct may; cbn; now rewrite app_nil_r..|].
  cbn [block_so_far open_text]. destruct (c =? 13) eqn:C13.
  - apply Z.eqb_eq in C13. subst c. change (13 =? 42) with false. cbv iota. destruct s as [|m s].
    + destruct may; cbn; rewrite <- ?app_assoc; reflexivity.
    + cbn [List.length] in L. destruct (m =? 10).
      * rewrite IH by lia. destruct may; cbn [rev app]; rewrite <- ?app_assoc; reflexivity.
      * rewrite IH by (cbn [List.length]; lia). destruct may; cbn [rev app]; rewrite <- ?app_assoc; reflexivity.
  - rewrite IH by lia. destruct (c =? 42) eqn:C42.
    + destruct may; destruct s; cbn [rev app]; rewrite <- ?app_assoc; cbn [app]; reflexivity.
    + destruct may; cbn [rev app]; rewrite <- ?app_assoc; reflexivity.
Qed.

Lemma next_says d src line col r l c : dialect_ok d -> next d src line col = LErr r l c ->
  exists m, next_message d src line col = Some m /\ complaint (mkPos line col) src m.
Proof.
  intros D E. unfold next_message. rewrite E. pose proof (next_spec d src line col D) as N. rewrite E in N. cbn in N.
  destruct N; unfold next in E; cbn [tl].
  - destruct rest as [|n rest]; change (33 =? 33) with true; cbv iota; eexists; (split; [reflexivity|]).
    + exact (Co_bang_end _).
    + apply Co_bang. cbn in H. lia.
  - rewrite (not_start d 39 D eq_refl) in E. cbn in E. unfold tokenize_string in E.
    pose proof (scan_string_none s H) as Sn. rewrite Sn in E. injection E as <- <- <-.
    change (39 =? 33) with false. change (39 =? 39) with true. cbv iota. eexists. split; [reflexivity|].
    rewrite (unclosed_string _ s (le_n _) Sn) at 1. apply Co_string, fields_show.
  - cbn in E. unfold tokenize_string in E. pose proof (scan_string_none s H) as Sn. rewrite Sn in E. injection E as <- <- <-.
    change (78 =? 33) with false. change (78 =? 39) with false. change (78 =? 78) with true. cbv iota. eexists. split; [reflexivity|].
    rewrite (unclosed_string _ s (le_n _) Sn) at 1. apply Co_nstring, fields_show.
  - rewrite (not_start d 47 D eq_refl), (not_delim d 47 D) in E by lia. cbn in E.
    destruct (scan_block_none (List.length s) s false [] line (col + 2)) as (l' & c' & B); auto. rewrite B in E. injection E as <- <- <-.
    change (47 =? 33) with false. change (47 =? 39) with false. change (47 =? 78) with false. cbv iota. eexists. split; [reflexivity|].
    rewrite (block_open _ s false [] (le_n _)). cbn [rev app]. apply Co_comment; [exact H|].
    cbn [pline pcol]. rewrite <- (block_eof _ s (le_n _) _ _ _ _ _ _ B). apply fields_show.
Qed.

Lemma reached_app l x : reached (l ++ [x]) = tto (fst x).
Proof. unfold reached. rewrite rev_app_distr. destruct x. reflexivity. Qed.

Definition end_from (p : pos) (l : list (token * list rune)) : pos := match rev l with [] => p | (t, _) :: _ => tto t end.
Lemma end_cons p x l : end_from p (x :: l) = end_from (tto (fst x)) l.
Proof. unfold end_from. cbn [rev]. destruct (rev l) as [|[t s] m]; [destruct x|]; reflexivity. Qed.

Lemma loop_says d pc : dialect_ok d -> forall fuel src p m, message_loop d pc fuel (mkTS src (pline p) (pcol p)) = Some m ->
  exists l rem c, reads d p src l rem /\ complaint (end_from p l) rem c /\ m = gs "tokenize failed: " ++ c.
Proof.
  intros D. induction fuel as [|f IH]; intros src p m E; [discriminate|].
  cbn [message_loop] in E. unfold scan in E. cbn [ts_src ts_line ts_col] in E.
  destruct (next d src (pline p) (pcol p)) as [k v rest ln cl| |r ln cl|] eqn:N; try discriminate E.
  - pose proof (next_spec d src (pline p) (pcol p) D) as S. rewrite N in S. cbn in S.
    destruct S as (s & -> & Sn & L & Q).
    assert (E' : message_loop d pc f (mkTS rest ln cl) = Some m) by (destruct (negb pc && is_ws_kind k); exact E).
    change (mkTS rest ln cl) with (mkTS rest (pline (mkPos ln cl)) (pcol (mkPos ln cl))) in E'.
    destruct (IH _ _ _ E') as (l & rem & c & R & C & ->).
    exists ((mkTok k v p (mkPos ln cl), s) :: l), rem, c. split; [|split; [|reflexivity]].
    + econstructor; [exact L| |exact R]. rewrite Q. destruct p. reflexivity.
    + rewrite end_cons. exact C.
  - destruct (next_says d src _ _ _ _ _ D N) as (c & M & C). rewrite M in E. cbn [option_map] in E. injection E as <-.
    exists [], src, c. split; [constructor|]. split; [destruct p; exact C|reflexivity].
Qed.

Lemma loop_total d pc : dialect_ok d -> forall fuel st acc,
  tokenize_loop d pc fuel st acc = TErr <-> exists m, message_loop d pc fuel st = Some m.
Proof.
  intros D. induction fuel as [|f IH]; intros st acc; cbn [tokenize_loop message_loop].
  - split; [discriminate|intros [m E]; discriminate].
  - unfold scan. destruct (next d (ts_src st) (ts_line st) (ts_col st)) as [k v rest ln cl| |r ln cl|] eqn:N.
    + destruct (negb pc && is_ws_kind k); apply IH.
    + split; [discriminate|intros [m E]; discriminate].
    + destruct (next_says d _ _ _ _ _ _ D N) as (c & M & _). rewrite M. split; [intros _; eexists; reflexivity|reflexivity].
    + split; [discriminate|intros [m E]; discriminate].
Qed.

Lemma error_iff d pc src : dialect_ok d -> tokenize d pc src = TErr <-> exists m, tokenize_message d pc src = Some m.
Proof. intros D. apply loop_total. exact D. Qed.

Lemma error_says d pc src m : dialect_ok d -> tokenize_message d pc src = Some m ->
  exists l rem c, reads d start_pos (skip_bom src) l rem /\ complaint (reached l) rem c /\ m = gs "tokenize failed: " ++ c.
Proof. intros D E. exact (loop_says d pc D _ _ start_pos _ E). Qed.

Lemma parser_says d src m : dialect_ok d -> new_parser_message d src = Some m ->
  exists l rem c, reads d start_pos (skip_bom src) l rem /\ complaint (reached l) rem c /\ m = gs "tokenize err failed: tokenize failed: " ++ c.
Proof.
  intros D E. unfold new_parser_message in E. destruct (tokenize_message d true src) as [m0|] eqn:T; [|discriminate]. injection E as <-.
  destruct (error_says _ _ _ _ D T) as (l & rem & c & R & C & ->). exists l, rem, c. auto.
Qed.
