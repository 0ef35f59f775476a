(** UTF-8 (C47). *)
From Coq Require Import ZArith List Bool Lia.
From Verif Require Import Base Utf8 Utf8Spec.
Import ListNotations.
Open Scope list_scope.
Open Scope Z_scope.

Ltac dec :=
  repeat match goal with
  | |- context [if ?b then _ else _] =>
      let K := fresh "K" in
      first [assert (K : b = true) by (unfold cont, second3, second4, scalar in *; lia)|assert (K : b = false) by (unfold cont, second3, second4, scalar in *; lia)]; rewrite K; clear K
  end.

Lemma utf8_scalar r bs : utf8_char r bs -> scalar r.
Proof. intros H. destruct H; auto; unfold scalar; lia. Qed.

(** Right on every valid text. *)
Lemma decode_char r bs rest : utf8_char r bs -> decode (bs ++ rest) = r :: decode rest.
Proof.
  intros H. destruct H; cbn [app decode].
  - dec. reflexivity.
  - dec. f_equal. lia.
  - assert (S2 : second3 (224 + a) (128 + b) = true).
    { unfold second3, scalar in *. destruct (224 + a =? 224) eqn:E1, (224 + a =? 237) eqn:E2; lia. }
    rewrite S2. dec. f_equal. lia.
  - assert (S2 : second4 (240 + a) (128 + b) = true).
    { unfold second4, scalar in *. destruct (240 + a =? 240) eqn:E1, (240 + a =? 244) eqn:E2; lia. }
    rewrite S2. dec. f_equal. lia.
Qed.
Lemma decode_text l bs : utf8_text l bs -> decode bs = l.
Proof. induction 1 as [|r bs l rest H _ IH]; [reflexivity|]. rewrite (decode_char _ _ _ H), IH. reflexivity. Qed.

(** Encoding. *)
Lemma encode_char r : scalar r -> utf8_char r (encode_rune r).
Proof.
  intros [H1 H2]. unfold encode_rune.
  destruct ((0 <=? r) && (r <? 128)) eqn:E1; [constructor; lia|].
  destruct ((0 <=? r) && (r <? 2048)) eqn:E2.
  { apply Utf2; try lia. all: Z.div_mod_to_equations; lia. }
  destruct ((r <? 0) || (1114111 <? r) || ((55296 <=? r) && (r <=? 57343))) eqn:E3; [lia|].
  destruct (r <? 65536) eqn:E4.
  - apply Utf3; try (split; [lia|exact H2]); try lia. all: Z.div_mod_to_equations; lia.
  - apply Utf4; try (split; [lia|exact H2]); try lia. all: Z.div_mod_to_equations; lia.
Qed.
Lemma encode_text l : Forall scalar l -> utf8_text l (encode l).
Proof. induction 1 as [|r l H _ IH]; [constructor|]. cbn [encode flat_map]. constructor; [apply encode_char, H|exact IH]. Qed.
Lemma decode_encode l : Forall scalar l -> decode (encode l) = l.
Proof. intros H. apply decode_text, encode_text, H. Qed.

Lemma text_scalar l bs : utf8_text l bs -> Forall scalar l.
Proof. induction 1; constructor; eauto using utf8_scalar. Qed.

(** Decoding gives scalar values only, whatever the bytes. *)
Lemma error_scalar : scalar rune_error.
Proof. unfold scalar, rune_error. lia. Qed.
Lemma decode_scalar bs : Forall (fun b => 0 <= b <= 255) bs -> Forall scalar (decode bs).
Proof.
  remember (List.length bs) as n eqn:En. revert bs En. induction n as [n IH] using (well_founded_induction lt_wf). intros bs -> H.
  assert (G : forall l, (List.length l < List.length bs)%nat -> Forall (fun b => 0 <= b <= 255) l -> Forall scalar (decode l)) by (intros; eapply IH; eauto).
  clear IH. destruct H as [|b0 l1 B0 H]; [constructor|]. cbn [decode List.length] in *.
  assert (G1 : Forall scalar (rune_error :: decode l1)) by (constructor; [apply error_scalar|apply G; [lia|exact H]]).
  assert (G0 : Forall scalar [rune_error]) by (constructor; [apply error_scalar|constructor]).
  destruct (b0 <? 128) eqn:E0; [constructor; [unfold scalar; lia|apply G; [lia|exact H]]|].
  destruct ((194 <=? b0) && (b0 <=? 223)) eqn:E1.
  { destruct H as [|b1 l2 B1 H]; [exact G0|]. destruct (cont b1) eqn:C1; [|exact G1].
    constructor; [unfold cont, scalar in *; lia|apply G; [cbn; lia|exact H]]. }
  destruct ((224 <=? b0) && (b0 <=? 239)) eqn:E2.
  { destruct H as [|b1 l2 B1 H]; [exact G0|]. destruct H as [|b2 l3 B2 H]; [exact G1|].
    destruct (second3 b0 b1 && cont b2) eqn:C1; [|exact G1].
    constructor; [|apply G; [cbn; lia|exact H]]. unfold second3, cont, scalar in *. destruct (b0 =? 224) eqn:F1, (b0 =? 237) eqn:F2; lia. }
  destruct ((240 <=? b0) && (b0 <=? 244)) eqn:E3; [|exact G1].
  destruct H as [|b1 l2 B1 H]; [exact G0|]. destruct H as [|b2 l3 B2 H]; [exact G1|]. destruct H as [|b3 l4 B3 H]; [exact G1|].
  destruct (second4 b0 b1 && cont b2 && cont b3) eqn:C1; [|exact G1].
  constructor; [|apply G; [cbn; lia|exact H]]. unfold second4, cont, scalar in *. destruct (b0 =? 240) eqn:F1, (b0 =? 244) eqn:F2; lia.
Qed.

Lemma utf8_unique r b1 b2 : utf8_char r b1 -> utf8_char r b2 -> b1 = b2.
Proof.
  intros H H'. destruct H; inversion H'; subst; try lia; repeat f_equal; lia.
Qed.

(** Bytes are kept exactly if they are UTF-8. *)
Lemma kept_iff bs : Forall (fun b => 0 <= b <= 255) bs -> encode (decode bs) = bs <-> exists l, utf8_text l bs.
Proof.
  intros H. split.
  - intros E. exists (decode bs). rewrite <- E at 2. apply encode_text, decode_scalar, H.
  - intros (l & T). rewrite (decode_text _ _ T). pose proof (text_scalar _ _ T) as S. clear H.
    induction T as [|r bs l rest C T IH]; [reflexivity|]. cbn [encode flat_map]. inversion_clear S. rewrite <- IH at 1 by assumption. fold (encode l).
    pose proof (encode_char r ltac:(assumption)) as C'. f_equal. eapply utf8_unique; eauto.
Qed.

(** How long the bytes are (Go's len). *)
Lemma encode_length l : Forall scalar l -> Z.of_nat (List.length (encode l)) = glen l.
Proof.
  induction 1 as [|r l [H1 H2] _ IH]; [reflexivity|]. cbn [encode flat_map glen]. fold (encode l). rewrite app_length, Nat2Z.inj_add, IH. f_equal.
  unfold encode_rune, rune_len.
  destruct ((0 <=? r) && (r <? 128)) eqn:E1; [replace (r <? 128) with true by lia; reflexivity|]. replace (r <? 128) with false by lia.
  destruct ((0 <=? r) && (r <? 2048)) eqn:E2; [replace (r <? 2048) with true by lia; reflexivity|]. replace (r <? 2048) with false by lia.
  destruct ((r <? 0) || (1114111 <? r) || ((55296 <=? r) && (r <=? 57343))) eqn:E3; [lia|].
  destruct (r <? 65536); reflexivity.
Qed.

(** Bytes that are not UTF-8 show. *)
Lemma garbled bs : Forall (fun b => 0 <= b <= 255) bs -> (forall l, ~ utf8_text l bs) -> In rune_error (decode bs).
Proof.
  remember (List.length bs) as n eqn:En. revert bs En. induction n as [n IH] using (well_founded_induction lt_wf). intros bs -> H N.
  assert (G : forall c r l, bs = c ++ l -> utf8_char r c -> decode bs = r :: decode l -> In rune_error (decode bs)).
  { intros c r l -> C E. rewrite E. right. eapply IH; [|reflexivity|rewrite Forall_app in H; apply H|].
    - rewrite app_length. destruct C; cbn; lia.
    - intros l' T. apply (N (r :: l')). constructor; auto. }
  destruct H as [|b0 l1 B0 H]; [exfalso; exact (N [] Utf_nil)|].
  cbn [decode].
  destruct (b0 <? 128) eqn:E0.
  { specialize (G [b0] b0 l1 eq_refl ltac:(constructor; lia)). cbn [decode] in G. rewrite E0 in G. apply G. reflexivity. }
  destruct ((194 <=? b0) && (b0 <=? 223)) eqn:E1.
  { destruct H as [|b1 l2 B1 H]; [left; reflexivity|]. destruct (cont b1) eqn:C1; [|left; reflexivity].
    specialize (G [b0; b1] ((b0 - 192) * 64 + (b1 - 128)) l2 eq_refl).
    cbn [decode] in G. rewrite E0, E1, C1 in G. apply G; [|reflexivity]. unfold cont in C1.
    replace b0 with (192 + (b0 - 192)) at 2 by lia. replace b1 with (128 + (b1 - 128)) at 2 by lia. apply Utf2; lia. }
  destruct ((224 <=? b0) && (b0 <=? 239)) eqn:E2.
  { destruct H as [|b1 l2 B1 H]; [left; reflexivity|]. destruct H as [|b2 l3 B2 H]; [left; reflexivity|].
    destruct (second3 b0 b1 && cont b2) eqn:C1; [|left; reflexivity].
    specialize (G [b0; b1; b2] ((b0 - 224) * 4096 + (b1 - 128) * 64 + (b2 - 128)) l3 eq_refl).
    cbn [decode] in G. rewrite E0, E1, E2, C1 in G. apply G; [|reflexivity].
    replace b0 with (224 + (b0 - 224)) at 2 by lia. replace b1 with (128 + (b1 - 128)) at 2 by lia. replace b2 with (128 + (b2 - 128)) at 2 by lia.
    unfold second3, cont in C1. apply Utf3; unfold scalar; destruct (b0 =? 224) eqn:F1, (b0 =? 237) eqn:F2; lia. }
  destruct ((240 <=? b0) && (b0 <=? 244)) eqn:E3; [|left; reflexivity].
  destruct H as [|b1 l2 B1 H]; [left; reflexivity|]. destruct H as [|b2 l3 B2 H]; [left; reflexivity|]. destruct H as [|b3 l4 B3 H]; [left; reflexivity|].
  destruct (second4 b0 b1 && cont b2 && cont b3) eqn:C1; [|left; reflexivity].
  specialize (G [b0; b1; b2; b3] ((b0 - 240) * 262144 + (b1 - 128) * 4096 + (b2 - 128) * 64 + (b3 - 128)) l4 eq_refl).
  cbn [decode] in G. rewrite E0, E1, E2, E3, C1 in G. apply G; [|reflexivity].
  replace b0 with (240 + (b0 - 240)) at 2 by lia. replace b1 with (128 + (b1 - 128)) at 2 by lia. replace b2 with (128 + (b2 - 128)) at 2 by lia. replace b3 with (128 + (b3 - 128)) at 2 by lia.
  unfold second4, cont in C1. apply Utf4; unfold scalar; destruct (b0 =? 240) eqn:F1, (b0 =? 244) eqn:F2; lia.
Qed.

(** Exactly the lossy decoding. *)
Lemma cons_inj (x y : Z) l m : x :: l = y :: m -> x = y /\ l = m.
Proof. intros E. injection E. auto. Qed.
Ltac nochar := right; split; [intros ? ? ? ?C ?Q; destruct C; cbn [app] in Q;
  repeat (let E := fresh "E" in apply cons_inj in Q; destruct Q as [E Q]); try discriminate Q;
  unfold cont, second3, second4, scalar in *;
  repeat match goal with H : context [if ?b then _ else _] |- _ => destruct b eqn:? end; lia|reflexivity].
Lemma decode_head b0 l1 : 0 <= b0 <= 255 -> Forall (fun b => 0 <= b <= 255) l1 ->
  (exists r c l, b0 :: l1 = c ++ l /\ utf8_char r c) \/
  (forall r c l, utf8_char r c -> b0 :: l1 <> c ++ l) /\ decode (b0 :: l1) = rune_error :: decode l1.
Proof.
  intros B0 H. cbn [decode].
  destruct (b0 <? 128) eqn:E0.
  { left. exists b0, [b0], l1. split; [reflexivity|constructor; lia]. }
  destruct ((194 <=? b0) && (b0 <=? 223)) eqn:E1.
  { destruct H as [|b1 l2 B1 H]; [nochar|]. destruct (cont b1) eqn:C1; [|nochar].
    left. exists ((b0 - 192) * 64 + (b1 - 128)), [b0; b1], l2. split; [reflexivity|]. unfold cont in C1.
    replace b0 with (192 + (b0 - 192)) at 2 by lia. replace b1 with (128 + (b1 - 128)) at 2 by lia. apply Utf2; lia. }
  destruct ((224 <=? b0) && (b0 <=? 239)) eqn:E2.
  { destruct H as [|b1 l2 B1 H]; [nochar|]. destruct H as [|b2 l3 B2 H]; [nochar|].
    destruct (second3 b0 b1 && cont b2) eqn:C1; [|nochar].
    left. exists ((b0 - 224) * 4096 + (b1 - 128) * 64 + (b2 - 128)), [b0; b1; b2], l3. split; [reflexivity|].
    replace b0 with (224 + (b0 - 224)) at 2 by lia. replace b1 with (128 + (b1 - 128)) at 2 by lia. replace b2 with (128 + (b2 - 128)) at 2 by lia.
    unfold second3, cont in C1. apply Utf3; unfold scalar; destruct (b0 =? 224) eqn:F1, (b0 =? 237) eqn:F2; lia. }
  destruct ((240 <=? b0) && (b0 <=? 244)) eqn:E3; [|nochar].
  destruct H as [|b1 l2 B1 H]; [nochar|]. destruct H as [|b2 l3 B2 H]; [nochar|]. destruct H as [|b3 l4 B3 H]; [nochar|].
  destruct (second4 b0 b1 && cont b2 && cont b3) eqn:C1; [|nochar].
  left. exists ((b0 - 240) * 262144 + (b1 - 128) * 4096 + (b2 - 128) * 64 + (b3 - 128)), [b0; b1; b2; b3], l4. split; [reflexivity|].
  replace b0 with (240 + (b0 - 240)) at 2 by lia. replace b1 with (128 + (b1 - 128)) at 2 by lia. replace b2 with (128 + (b2 - 128)) at 2 by lia. replace b3 with (128 + (b3 - 128)) at 2 by lia.
  unfold second4, cont in C1. apply Utf4; unfold scalar; destruct (b0 =? 240) eqn:F1, (b0 =? 244) eqn:F2; lia.
Qed.

Lemma decoded_unique bs rs : Forall (fun b => 0 <= b <= 255) bs -> decoded bs rs -> rs = decode bs.
Proof.
  intros H D. induction D as [|r c bs rs C D IH|b bs rs N D IH]; [reflexivity| |].
  - rewrite Forall_app in H. rewrite (decode_char _ _ _ C), <- IH by apply H. reflexivity.
  - inversion_clear H. destruct (decode_head b bs) as [(r & c & l & E & C)|[_ E]]; auto; [destruct (N r c l C E)|].
    rewrite E, <- IH by assumption. reflexivity.
Qed.

Lemma decoded_exists bs : Forall (fun b => 0 <= b <= 255) bs -> decoded bs (decode bs).
Proof.
  remember (List.length bs) as n eqn:En. revert bs En. induction n as [n IH] using (well_founded_induction lt_wf). intros bs -> H.
  destruct bs as [|b bs]; [constructor|]. inversion_clear H as [|? ? Hb Hbs].
  destruct (decode_head b bs Hb Hbs) as [(r & c & l & E & C)|[N E]].
  - assert (L : (List.length l < List.length (b :: bs))%nat) by (rewrite E, app_length; destruct C; cbn; lia).
    assert (Hl : Forall (fun b => 0 <= b <= 255) l).
    { assert (X : Forall (fun b => 0 <= b <= 255) (c ++ l)) by (rewrite <- E; constructor; assumption). rewrite Forall_app in X. apply X. }
    rewrite E, (decode_char _ _ _ C). constructor; [exact C|]. eapply IH; eauto.
  - rewrite E. apply Dec_bad; [exact N|]. eapply IH; [|reflexivity|assumption]. cbn. lia.
Qed.

Lemma decoded_iff bs rs : Forall (fun b => 0 <= b <= 255) bs -> decoded bs rs <-> decode bs = rs.
Proof. intros H. split; [intros D; symmetry; now apply decoded_unique|intros <-; now apply decoded_exists]. Qed.
