(** Facts about Num.v: decimal digits, binary64 rounding, printing. *)
From Coq Require Import ZArith QArith Qabs List Bool String Decimal DecimalN Lia ZifyBool.
From Verif Require Import Base Dialect AST Num ValueSpec LexFacts.
Import ListNotations.
Open Scope Z_scope.

(* ------------------------------------------------------------------ *)
(** ** Decimal digits *)

Definition dec_from (a : Z) (s : list rune) : Z := fold_left (fun a c => 10 * a + (c - 48)) s a.

Lemma dec_from_acc u : forall p, dec_from (Zpos p) (uint_gs u) = Zpos (Pos.of_uint_acc u p).
Proof.
  induction u; intros p; cbn [uint_gs Pos.of_uint_acc dec_from fold_left]; [reflexivity|..];
    (etransitivity; [|apply IHu]; unfold dec_from; f_equal; lia).
Qed.

Lemma dec_uint u : dec_val (uint_gs u) = Z.of_N (N.of_uint u).
Proof.
  unfold N.of_uint. change (dec_val (uint_gs u)) with (dec_from 0 (uint_gs u)).
  induction u; cbn [uint_gs Pos.of_uint dec_from fold_left]; [reflexivity|exact IHu|..];
    (etransitivity; [|apply dec_from_acc]; reflexivity).
Qed.

Lemma uint_digits u : forallb is_digit (uint_gs u) = true.
Proof. induction u; cbn; auto. Qed.

Lemma gs_uint_ok s : forallb is_digit s = true -> exists u, gs_uint s = Some u /\ uint_gs u = s.
Proof.
  induction s as [|c s IH]; intros H; [exists Nil; auto|].
  cbn [forallb] in H. apply andb_true_iff in H. destruct H as [Hc H].
  destruct (IH H) as (u & E & F). cbn [gs_uint]. rewrite E. unfold is_digit in Hc.
  repeat match goal with |- context [?a =? ?b] => destruct (Z.eqb_spec a b); [subst c; eexists; split; [reflexivity|cbn; rewrite F; reflexivity]|] end.
  lia.
Qed.

Lemma gs_uint_some s u : gs_uint s = Some u -> forallb is_digit s = true.
Proof.
  revert u. induction s as [|c s IH]; intros u H; [reflexivity|]. cbn [gs_uint] in H.
  destruct (gs_uint s) as [v|]; [|discriminate]. cbn [forallb]. rewrite (IH v eq_refl), andb_true_r.
  unfold is_digit.
  repeat match type of H with context [?a =? ?b] => destruct (Z.eqb_spec a b); [subst; reflexivity|] end.
  discriminate.
Qed.

Lemma digits_val_ok s : forallb is_digit s = true -> digits_val s = Some (dec_val s).
Proof.
  intros H. destruct (gs_uint_ok s H) as (u & E & F). unfold digits_val. rewrite E, <- F, dec_uint. reflexivity.
Qed.

Lemma digits_val_some s v : digits_val s = Some v -> forallb is_digit s = true /\ v = dec_val s.
Proof.
  intros H. unfold digits_val in H. destruct (gs_uint s) as [u|] eqn:E; [|discriminate].
  pose proof (gs_uint_some _ _ E) as D. split; [exact D|].
  apply digits_val_ok in D. unfold digits_val in D. rewrite E in D. congruence.
Qed.

Lemma dec_from_nonneg s : forallb is_digit s = true -> forall a, 0 <= a -> 0 <= dec_from a s.
Proof.
  induction s as [|c s IH]; intros H a Ha; cbn [dec_from fold_left]; [exact Ha|].
  cbn [forallb] in H. apply andb_true_iff in H. destruct H as [Hc H].
  apply IH; [exact H|]. unfold is_digit in Hc. lia.
Qed.

Lemma dec_val_nonneg s : forallb is_digit s = true -> 0 <= dec_val s.
Proof. intros H. apply (dec_from_nonneg s H 0). lia. Qed.

Lemma format_int_ok z : 0 <= z -> digits (format_int z) /\ dec_val (format_int z) = z.
Proof.
  intros H. unfold format_int. destruct (Z.ltb_spec z 0); [lia|].
  split; [split|].
  - intros E. assert (F : N.of_uint (N.to_uint (Z.to_N z)) = Z.to_N z) by apply Unsigned.of_to.
    destruct (N.to_uint (Z.to_N z)) eqn:G; try discriminate E. cbn in F.
    rewrite <- F in G. discriminate G.
  - apply uint_digits.
  - rewrite dec_uint, Unsigned.of_to. lia.
Qed.

Lemma atoi_ok s : digits s -> dec_val s <= max_int -> atoi s = AOk (dec_val s).
Proof.
  intros [H1 H2] L. unfold atoi. destruct s; [congruence|]. rewrite (digits_val_ok _ H2).
  destruct (Z.leb_spec (dec_val (r :: s)) max_int); [reflexivity|lia].
Qed.

Lemma atoi_range s : digits s -> max_int < dec_val s -> atoi s = ARange max_int.
Proof.
  intros [H1 H2] L. unfold atoi. destruct s; [congruence|]. rewrite (digits_val_ok _ H2).
  destruct (Z.leb_spec (dec_val (r :: s)) max_int); [lia|reflexivity].
Qed.
