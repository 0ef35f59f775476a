(** Proofs about calls of NextToken. *)
From Coq Require Import ZArith List Bool String Lia ZifyBool.
From Verif Require Import Base Dialect Token Lexer LexSpec LexFacts LexThms ScanSpec Scan.
Import ListNotations.
Open Scope list_scope.
Open Scope Z_scope.

Lemma block_eof n s : (List.length s <= n)%nat -> forall may acc line col l c, scan_block s may acc line col = inr (l, c) ->
  mkPos l c = advance s (mkPos line col).
Proof.
  revert s. induction n as [|n IH]; intros [|r s] L may acc line col l c E; cbn [List.length] in L; try lia.
  - cbn in *. congruence.
  - cbn in *. congruence.
  - cbn [scan_block advance] in *. destruct (Z.eqb_spec r 13) as [->|N13].
    + change (13 =? 10) with false. cbv iota. destruct s as [|m s].
      * cbn in *. congruence.
      * cbn [List.length] in L. destruct (m =? 10) eqn:M.
        -- apply IH in E; [exact E|lia].
        -- apply IH in E; [exact E|cbn; lia].
    + destruct (Z.eqb_spec r 10) as [->|N10].
      * apply IH in E; [exact E|lia].
      * destruct (may && (r =? 47)); [discriminate|]. apply IH in E; [exact E|lia].
Qed.

Lemma next_bad d src line col r l c : dialect_ok d -> next d src line col = LErr r l c ->
  exists s, src = s ++ r /\ s <> [] /\ bad_slice s r /\ lex_error src /\ mkPos l c = bad_end s (mkPos line col).
Proof.
  intros D E. pose proof (next_spec d src line col D) as N. rewrite E in N. cbn in N.
  assert (X : lex_error src) by exact N. destruct N; unfold next in E.
  - rewrite (not_start d 33 D eq_refl), (not_delim d 33 D) in E by lia. cbn in E.
    assert (Q : LErr rest line col = LErr r l c) by (destruct rest as [|n rest]; cbn in *; [exact E|rewrite H in E; exact E]).
    injection Q as <- <- <-. exists [33]. split; [reflexivity|]. split; [discriminate|]. split; [left; reflexivity|]. split; [exact X|reflexivity].
  - rewrite (not_start d 39 D eq_refl) in E. cbn in E. unfold tokenize_string in E.
    rewrite scan_string_none in E by auto. injection E as <- <- <-. exists (39 :: s). rewrite app_nil_r.
    split; [reflexivity|]. split; [discriminate|]. split; [right; reflexivity|]. split; [exact X|reflexivity].
  - cbn in E. unfold tokenize_string in E. rewrite scan_string_none in E by auto. injection E as <- <- <-. exists (78 :: 39 :: s). rewrite app_nil_r.
    split; [reflexivity|]. split; [discriminate|]. split; [right; reflexivity|]. split; [exact X|reflexivity].
  - rewrite (not_start d 47 D eq_refl), (not_delim d 47 D) in E by lia. cbn in E.
    destruct (scan_block_none (List.length s) s false [] line (col + 2)) as (l' & c' & B); auto. rewrite B in E. injection E as <- <- <-.
    exists (47 :: 42 :: s). rewrite app_nil_r. split; [reflexivity|]. split; [discriminate|]. split; [right; reflexivity|]. split; [exact X|].
    rewrite (block_eof _ _ (le_n _) _ _ _ _ _ _ B). cbn. do 2 f_equal. lia.
Qed.

Lemma kind_lexeme d k v s rest : lexeme d k v s rest -> k <> ILLEGAL.
Proof.
  intros L. destruct L; try discriminate. intros ->. cbn in H.
  repeat (destruct H as [H|H]; [discriminate H|]). exact H.
Qed.

Lemma scan_eof d pc line col : dialect_ok d -> scan d pc (mkTS [] line col) = SEof.
Proof.
  intros D. rewrite scan_eq. cbn [ts_src ts_line ts_col]. pose proof (next_spec d [] line col D) as N.
  destruct (next d [] line col) as [k v rest l c| |r l c|] eqn:E; cbn in N; [| reflexivity| |].
  - destruct N as ([|? ?] & X & S0 & _); [congruence|discriminate].
  - inversion N.
  - destruct N as (q & s & X & _). discriminate.
Qed.
Lemma eof_calls d pc n line col : dialect_ok d -> calls d pc n (mkTS [] line col) = (repeat AnEof n, Some (mkTS [] line col)).
Proof. intros D. induction n as [|n IH]; [reflexivity|]. cbn [calls]. rewrite scan_eof by exact D. cbn [after seen]. rewrite IH. reflexivity. Qed.

Lemma firstn_repeat_le {A} (a : A) n m : (n <= m)%nat -> firstn n (repeat a m) = repeat a n.
Proof. revert m. induction n as [|n IH]; intros [|m] L; cbn; try reflexivity; try lia. f_equal. apply IH. lia. Qed.

Lemma answers_cons pc n t l rest : answers pc (S n) (t :: l) rest = answer_of pc t :: answers pc n l rest.
Proof.
  unfold answers. cbn [map app firstn]. f_equal. destruct rest; [|reflexivity].
  rewrite !firstn_app. f_equal. rewrite !firstn_repeat_le by lia. reflexivity.
Qed.

(** All answers, for any number of calls. *)
Lemma calls_spec d pc : dialect_ok d -> forall m src line col, (List.length src <= m)%nat ->
  exists l rest, scans d (mkPos line col) src l rest /\ (rest = [] \/ unclosed_delimited d rest) /\
    forall n, fst (calls d pc n (mkTS src line col)) = answers pc n (map fst l) rest.
Proof.
  intros D. induction m as [|m IH]; intros src line col L.
  { destruct src; [|cbn in L; lia]. exists [], []. split; [constructor|]. split; [auto|]. intros n. rewrite eof_calls by exact D. cbn [fst].
    unfold answers. cbn [map app]. rewrite firstn_repeat_le by lia. reflexivity. }
  pose proof (next_spec d src line col D) as N.
  destruct (next d src line col) as [k v rest l c| |r l c|] eqn:E; cbn in N.
  - destruct N as (s & -> & S0 & X & P).
    destruct (IH rest l c) as (l' & rem & Sc & R & H). { rewrite app_length in L. destruct s; [congruence|cbn in L; lia]. }
    exists ((mkTok k v (mkPos line col) (token_end k v s (mkPos line col)), s) :: l'), rem.
    rewrite P in Sc. split; [constructor; auto|]. split; [exact R|].
    intros [|n]; [reflexivity|]. cbn [map fst]. rewrite answers_cons. cbn [calls]. rewrite scan_eq. cbn [ts_src ts_line ts_col]. rewrite E. cbv zeta.
    rewrite P. pose proof (kind_lexeme _ _ _ _ _ X) as K.
    destruct (negb pc && is_ws_kind k) eqn:B; cbn [after seen]; specialize (H n);
      destruct (calls d pc n (mkTS rest l c)) as [a o]; cbn [fst] in *; rewrite H; f_equal.
    + unfold answer_of. cbn [tkind]. destruct pc; [discriminate B|]. destruct k; try discriminate B; reflexivity.
    + unfold answer_of. cbn [tkind]. destruct pc, k; try discriminate B; try congruence; reflexivity.
  - subst src. exists [], []. split; [constructor|]. split; [auto|]. intros n. rewrite eof_calls by exact D. cbn [fst].
    unfold answers. cbn [map app]. rewrite firstn_repeat_le by lia. reflexivity.
  - destruct (next_bad _ _ _ _ _ _ _ D E) as (s & -> & S0 & B & X & P).
    destruct (IH r l c) as (l' & rem & Sc & R & H). { rewrite app_length in L. destruct s; [congruence|cbn in L; lia]. }
    exists ((mkTok ILLEGAL (VStr []) (mkPos line col) (bad_end s (mkPos line col)), s) :: l'), rem.
    rewrite P in Sc. split; [constructor; auto|]. split; [exact R|].
    intros [|n]; [reflexivity|]. cbn [map fst]. rewrite answers_cons. cbn [calls]. rewrite scan_eq. cbn [ts_src ts_line ts_col]. rewrite E. cbv zeta.
    rewrite P. cbn [after seen]. specialize (H n). destruct (calls d pc n (mkTS r l c)) as [a o]; cbn [fst] in *; rewrite H; reflexivity.
  - exists [], src. split; [constructor|]. split; [auto|]. destruct N as (q & s & -> & Q).
    intros [|n]; [reflexivity|]. cbn [calls]. rewrite scan_eq. cbn [ts_src ts_line ts_col]. rewrite E. cbn. destruct n; reflexivity.
Qed.

Lemma next_tokens d pc src : dialect_ok d ->
  exists l rest, scans d start_pos (skip_bom src) l rest /\ (rest = [] \/ unclosed_delimited d rest) /\
    forall n, fst (calls d pc n (start src)) = answers pc n (map fst l) rest.
Proof. intros D. apply (calls_spec d pc D _ _ 1 1 (le_n _)). Qed.

(** *** Tokenize in the middle *)
Lemma loop_acc d pc fuel : forall st acc, tokenize_loop d pc fuel st acc =
  match tokenize_loop d pc fuel st [] with TOk l => TOk (rev acc ++ l) | r => r end.
Proof.
  induction fuel as [|f IH]; intros st acc; [reflexivity|]. cbn [tokenize_loop].
  destruct (scan d pc st); try reflexivity.
  - rewrite (IH st0 (t :: acc)), (IH st0 [t]). destruct (tokenize_loop d pc f st0 []); try reflexivity. cbn [rev]. now rewrite <- app_assoc.
  - apply IH.
  - now rewrite app_nil_r.
Qed.

Lemma scan_shorter d pc st st' : dialect_ok d -> after st (scan d pc st) = Some st' -> scan d pc st <> SEof ->
  (List.length (ts_src st') < List.length (ts_src st))%nat.
Proof.
  intros D A N. rewrite scan_eq in *. cbv zeta in *. pose proof (next_spec d (ts_src st) (ts_line st) (ts_col st) D) as X.
  destruct (next d (ts_src st) (ts_line st) (ts_col st)) as [k v rest l c| |r l c|] eqn:E; cbn in X; try congruence; try discriminate A.
  - destruct X as (s & -> & S0 & _). destruct (negb pc && is_ws_kind k); injection A as <-; cbn; rewrite app_length; destruct s; cbn; try congruence; lia.
  - destruct (next_bad _ _ _ _ _ _ _ D E) as (s & -> & S0 & _). injection A as <-. cbn. rewrite app_length. destruct s; cbn; try congruence; lia.
Qed.

Lemma loop_fuel d pc : dialect_ok d -> forall f g st acc, (List.length (ts_src st) < f)%nat -> (List.length (ts_src st) < g)%nat ->
  tokenize_loop d pc f st acc = tokenize_loop d pc g st acc.
Proof.
  intros D. induction f as [|f IH]; intros [|g] st acc F G; try lia. cbn [tokenize_loop].
  pose proof (scan_shorter d pc st) as S0. destruct (scan d pc st) as [t st'|st'| | |]; try reflexivity; specialize (S0 st' D eq_refl ltac:(discriminate)); apply IH; lia.
Qed.

Lemma tokenize_on_step d pc st : dialect_ok d -> tokenize_on d pc st =
  match scan d pc st with
  | STok t st' => match tokenize_on d pc st' with TOk l => TOk (t :: l) | r => r end
  | SSkip st' => tokenize_on d pc st'
  | SEof => TOk []
  | SErr _ _ => TErr
  | SHang => THang
  end.
Proof.
  intros D. unfold tokenize_on at 1. cbn [tokenize_loop]. pose proof (scan_shorter d pc st) as S0.
  destruct (scan d pc st) as [t st'|st'| | |]; try reflexivity; specialize (S0 st' D eq_refl ltac:(discriminate)).
  - rewrite loop_acc. unfold tokenize_on. rewrite (loop_fuel d pc D _ (S (List.length (ts_src st')))) by lia. reflexivity.
  - apply loop_fuel; auto; lia.
Qed.

Lemma resume d pc : dialect_ok d -> forall n st l st', calls d pc n st = (l, Some st') -> (forall t, ~ In (AnErr t) l) ->
  tokenize_on d pc st = match tokenize_on d pc st' with TOk m => TOk (toks_of l ++ m) | r => r end.
Proof.
  intros D. induction n as [|n IH]; intros st l st' E N; cbn [calls] in E.
  - injection E as <- <-. destruct (tokenize_on d pc st); reflexivity.
  - rewrite (tokenize_on_step d pc st D). destruct (scan d pc st) as [t st1|st1| |t st1|] eqn:Sc; cbn [after seen] in E; try discriminate E.
    + destruct (calls d pc n st1) as [l1 o] eqn:C. injection E as <- ->. rewrite (IH _ _ _ C) by (intros u I; apply (N u); right; exact I).
      destruct (tokenize_on d pc st'); reflexivity.
    + destruct (calls d pc n st1) as [l1 o] eqn:C. injection E as <- ->. rewrite (IH _ _ _ C) by (intros u I; apply (N u); right; exact I).
      destruct (tokenize_on d pc st'); reflexivity.
    + destruct (calls d pc n st) as [l1 o] eqn:C. injection E as <- ->.
      pose proof (IH _ _ _ C ltac:(intros u I; apply (N u); right; exact I)) as H. rewrite (tokenize_on_step d pc st D), Sc in H. exact H.
    + destruct (calls d pc n st1) as [l1 o] eqn:C. injection E as <- ->. exfalso. apply (N t). left. reflexivity.
Qed.

Lemma resume_start d pc src n l st : dialect_ok d -> calls d pc n (start src) = (l, Some st) -> (forall t, ~ In (AnErr t) l) ->
  tokenize d pc src = match tokenize_on d pc st with TOk m => TOk (toks_of l ++ m) | r => r end.
Proof. intros D C N. exact (resume d pc D n _ _ _ C N). Qed.

(** *** Without errors [scans] is [reads] *)
Lemma scans_reads d p text l rest : scans d p text l rest -> (forall x, In x l -> tkind (fst x) <> ILLEGAL) -> reads d p text l rest.
Proof.
  induction 1 as [p text|p s text k v l rest L S0 H IH|p s text l rest L B S0 H IH]; intros K.
  - constructor.
  - econstructor; [exact L|reflexivity|]. apply IH. intros x I. apply K. right. exact I.
  - exfalso. apply (K (mkTok ILLEGAL (VStr []) p (bad_end s p), s)); [left; reflexivity|reflexivity].
Qed.

(** The slices are the whole text. *)
Lemma scans_slices d p text l rest : scans d p text l rest ->
  text = List.concat (map snd l) ++ rest /\ Forall (fun x => snd x <> []) l.
Proof.
  induction 1 as [p text|p s text k v l rest L S0 H [IH1 IH2]|p s text l rest L B S0 H [IH1 IH2]]; cbn [map List.concat snd];
    [auto|rewrite IH1 at 1; rewrite app_assoc; split; [reflexivity|constructor; auto]..].
Qed.

Lemma slices_count l : Forall (fun x : token * list rune => snd x <> []) l -> (List.length l <= List.length (List.concat (map snd l)))%nat.
Proof.
  induction 1 as [|[t s] l N H IH]; [reflexivity|]. cbn [map List.concat snd List.length] in *. rewrite app_length.
  destruct s; [congruence|]. cbn [List.length]. lia.
Qed.

Lemma scans_whole d p text l rest : scans d p text l rest ->
  text = List.concat (map snd l) ++ rest /\ (List.length l <= List.length text)%nat /\
  ((forall x, In x l -> tkind (fst x) <> ILLEGAL) -> reads d p text l rest).
Proof.
  intros H. destruct (scans_slices _ _ _ _ _ H) as [E N]. split; [exact E|]. split.
  - apply slices_count in N. rewrite E, app_length. lia.
  - now apply scans_reads.
Qed.
