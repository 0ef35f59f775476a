(** Proofs about shown kinds and positions. *)
From Coq Require Import ZArith List Bool String Lia Zify ZifyBool.
From Verif Require Import Base Dialect Token Lexer Num ValueSpec LexSpec LexFacts LexThms NumThms Show ShowSpec.
Import ListNotations.
Open Scope Z_scope.
Open Scope list_scope.

Lemma format_int_text z : int_text (format_int z) z.
Proof.
  destruct (Z_lt_le_dec z 0) as [H|H].
  - right. split; [exact H|]. exists (format_int (- z)).
    destruct (format_int_ok (- z) ltac:(lia)) as [D V]. repeat split; try apply D; [|exact V].
    unfold format_int. destruct (Z.ltb_spec z 0); [|lia]. destruct (Z.ltb_spec (- z) 0); [lia|]. reflexivity.
  - left. destruct (format_int_ok z H) as [D V]. repeat split; [exact H|apply D|apply D|exact V].
Qed.

Lemma digits_head t : digits (45 :: t) -> False.
Proof. intros [_ H]. cbn in H. discriminate. Qed.

Lemma int_text_unique s a b : int_text s a -> int_text s b -> a = b.
Proof.
  intros [(Ha & D & V)|(Ha & t & E & D & V)] [(Hb & D' & V')|(Hb & t' & E' & D' & V')].
  - congruence.
  - subst s. destruct (digits_head t' D).
  - subst s. destruct (digits_head t D').
  - subst s. injection E' as <-. lia.
Qed.

Lemma format_int_inj a b : format_int a = format_int b -> a = b.
Proof. intros H. apply (int_text_unique (format_int a)); [apply format_int_text|rewrite H; apply format_int_text]. Qed.

Lemma digits_not c t : digits t -> is_digit c = false -> ~ In c t.
Proof. intros [_ D] H I. rewrite forallb_forall in D. rewrite (D c I) in H. discriminate. Qed.

Lemma format_int_not c z : is_digit c = false -> c <> 45 -> ~ In c (format_int z).
Proof.
  intros H N I. destruct (format_int_text z) as [(_ & D & _)|(_ & t & E & D & _)]; [exact (digits_not c _ D H I)|].
  rewrite E in I. destruct I as [I|I]; [congruence|exact (digits_not c _ D H I)].
Qed.

Lemma split_first (c : Z) (a b x y : list Z) : ~ In c a -> ~ In c b -> a ++ c :: x = b ++ c :: y -> a = b /\ x = y.
Proof.
  revert b. induction a as [|h a IH]; intros [|k b] Na Nb E; cbn in E.
  - injection E as E. auto.
  - injection E as -> _. destruct Nb. left; reflexivity.
  - injection E as <- _. destruct Na. left; reflexivity.
  - injection E as -> E. destruct (IH b) as [-> ->]; [intros I; apply Na; right; exact I|intros I; apply Nb; right; exact I|exact E|auto].
Qed.

Lemma pos_string_inj p q : pos_string p = pos_string q -> p = q.
Proof.
  destruct p as [l c], q as [l' c']. unfold pos_string. cbn [pline pcol]. intros E. apply app_inv_head in E.
  change (gs " Col: ") with (32 :: gs "Col: ") in E. rewrite <- !app_comm_cons in E.
  apply split_first in E as [A B]; [|apply format_int_not; [reflexivity|lia]|apply format_int_not; [reflexivity|lia]].
  apply app_inv_head in B. apply app_inv_tail in B. apply format_int_inj in A, B. subst. reflexivity.
Qed.

Lemma kind_cases i : (i < 0 \/ 32 <= i) \/ In i (map Z.of_nat (seq 0 32)).
Proof.
  destruct (Z_lt_le_dec i 0); [left; left; assumption|]. destruct (Z_lt_le_dec i 32) as [H|H]; [|left; right; exact H].
  right. apply in_map_iff. exists (Z.to_nat i). split; [lia|]. apply in_seq. lia.
Qed.

Lemma kind_other i : i < 0 \/ 32 <= i -> kind_string i = Some (gs "Kind(" ++ format_int i ++ gs ")").
Proof.
  intros H. unfold kind_string. change (zlen kind_index - 1) with 32.
  replace ((i <? 0) || (32 <=? i)) with true by lia. reflexivity.
Qed.

Lemma kind_known i : In i (map Z.of_nat (seq 0 32)) ->
  exists s, kind_string i = Some s /\ ~ In 40 s /\ forall j, In j (map Z.of_nat (seq 0 32)) -> kind_string j = Some s -> i = j.
Proof.
  assert (T : forallb (fun i => match kind_string i with
                                | Some s => negb (existsb (Z.eqb 40) s) &&
                                    forallb (fun j => match kind_string j with Some t => negb (gs_eqb s t) || (i =? j) | None => true end)
                                      (map Z.of_nat (seq 0 32))
                                | None => false
                                end) (map Z.of_nat (seq 0 32)) = true) by (vm_compute; reflexivity).
  rewrite forallb_forall in T. intros I. specialize (T i I). destruct (kind_string i) as [s|] eqn:E; [|discriminate].
  apply andb_prop in T as [A B]. exists s. split; [reflexivity|]. split.
  - intros J. apply negb_true_iff in A. rewrite <- not_true_iff_false in A. apply A. apply existsb_exists. exists 40. split; [exact J|reflexivity].
  - intros j J K. rewrite forallb_forall in B. specialize (B j J). rewrite K in B.
    apply orb_prop in B as [B|B]; [|lia]. apply negb_true_iff in B.
    assert (R : gs_eqb s s = true) by (apply gs_eqb_eq; reflexivity). congruence.
Qed.

Lemma kind_string_inj i j : kind_string i = kind_string j -> i = j.
Proof.
  intros E. destruct (kind_cases i) as [Hi|Hi], (kind_cases j) as [Hj|Hj].
  - rewrite !kind_other in E by assumption. injection E as E. apply app_inv_tail in E. apply format_int_inj, E.
  - destruct (kind_known j Hj) as (s & K & N & _). rewrite kind_other, K in E by assumption. injection E as E.
    destruct N. rewrite <- E. cbn. auto 6.
  - destruct (kind_known i Hi) as (s & K & N & _). rewrite (kind_other j), K in E by assumption. injection E as E.
    destruct N. rewrite E. cbn. auto 6.
  - destruct (kind_known i Hi) as (s & K & _ & U). apply U; [exact Hj|]. rewrite <- E. exact K.
Qed.

Lemma kind_string_total i : kind_string i <> None.
Proof.
  destruct (kind_cases i) as [H|H]; [rewrite kind_other by assumption; discriminate|].
  destruct (kind_known i H) as (s & K & _). rewrite K. discriminate.
Qed.

Lemma kind_string_name k s : In (k, s) named_kinds -> kind_string (kind_number k) = Some (gs s).
Proof.
  intros I. cbn in I. repeat (destruct I as [I|I]; [injection I as <- <-; vm_compute; reflexivity|]). destruct I.
Qed.

Lemma named_kinds_all k : exists s, In (k, s) named_kinds.
Proof. destruct k; eexists; cbn; tauto. Qed.

Lemma kind_number_range i : 0 <= i <= 31 -> exists k, kind_number k = i.
Proof.
  intros H. assert (T : forallb (fun i => existsb (fun p => kind_number (fst p) =? i) named_kinds) (map Z.of_nat (seq 0 32)) = true)
    by (vm_compute; reflexivity).
  rewrite forallb_forall in T. destruct (kind_cases i) as [C|C]; [lia|]. specialize (T i C).
  apply existsb_exists in T as ([k' s] & _ & E). exists k'. cbn [fst] in E. lia.
Qed.

Lemma kind_string_shape i : kind_string i <> None /\
  ((exists k, kind_number k = i) \/ exists t, int_text t i /\ kind_string i = Some (gs "Kind(" ++ t ++ gs ")")).
Proof.
  split; [apply kind_string_total|]. destruct (kind_cases i) as [H|H].
  - right. exists (format_int i). split; [apply format_int_text|apply kind_other, H].
  - left. apply kind_number_range. apply in_map_iff in H as (n & <- & I). apply in_seq in I. lia.
Qed.

Lemma pos_string_shape p : exists l c, int_text l (pline p) /\ int_text c (pcol p) /\
  pos_string p = gs "{Line: " ++ l ++ gs " Col: " ++ c ++ gs "}".
Proof. eexists _, _. split; [|split]; [apply format_int_text|apply format_int_text|reflexivity]. Qed.

Lemma word_text d k w s rest : (forall q, is_delim d q = true -> q = 34 \/ q = 96) -> lexeme d k (VWord w) s rest -> word_string w = s.
Proof.
  intros Q H. inversion H; subst; [reflexivity|]. unfold word_string. cbn [wquote wvalue].
  match goal with D : is_delim d _ = true |- _ => destruct (Q _ D) as [->| ->] end; reflexivity.
Qed.

Lemma words_shown d src toks : dialect_ok d -> tokenize d true src = TOk toks ->
  exists slices, List.length slices = List.length toks /\ skip_bom src = List.concat slices /\
    forall a t b sa s sb w, toks = a ++ t :: b -> slices = sa ++ s :: sb -> List.length a = List.length sa -> tval t = VWord w -> word_string w = s.
Proof.
  intros D H. destruct (tokenize_lossless d src toks D H) as (slices & L & E & _ & X). exists slices. split; [exact L|]. split; [exact E|].
  intros a t b sa s sb w Ht Hs Hl V. pose proof (X a t b sa s sb Ht Hs Hl) as Y. rewrite V in Y. exact (word_text _ _ _ _ _ (proj2 (proj2 D)) Y).
Qed.
