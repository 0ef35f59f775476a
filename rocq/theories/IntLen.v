(** How long printed integers are. *)
From Coq Require Import ZArith List Bool Lia Decimal DecimalFacts DecimalN.
From Verif Require Import Base Dialect AST Num ValueSpec LexFacts NumThms.
Import ListNotations.
Open Scope list_scope.
Open Scope nat_scope.

Lemma dec_from_low s : forallb is_digit s = true -> forall a, (1 <= a)%Z -> (10 ^ Z.of_nat (List.length s) <= dec_from a s)%Z.
Proof.
  induction s as [|c s IH]; intros H a Ha; [cbn; lia|]. cbn [forallb] in H. apply andb_prop in H as [Hc H].
  unfold is_digit in Hc. change (dec_from a (c :: s)) with (dec_from (10 * a + (c - 48)) s).
  assert (G : forall s b k, forallb is_digit s = true -> (1 <= k)%Z -> (k <= b)%Z -> (k * 10 ^ Z.of_nat (List.length s) <= dec_from b s)%Z).
  { clear. induction s as [|c s IH]; intros b k H Hk L; [cbn; lia|]. cbn [forallb] in H. apply andb_prop in H as [Hc H].
    unfold is_digit in Hc. change (dec_from b (c :: s)) with (dec_from (10 * b + (c - 48)) s).
    specialize (IH (10 * b + (c - 48))%Z (10 * k)%Z H ltac:(lia) ltac:(lia)).
    cbn [List.length]. rewrite Nat2Z.inj_succ, Z.pow_succ_r by lia. lia. }
  specialize (G s (10 * a + (c - 48))%Z 10%Z H ltac:(lia) ltac:(lia)).
  cbn [List.length]. rewrite Nat2Z.inj_succ, Z.pow_succ_r by lia. lia.
Qed.
Lemma unorm_head u : unorm u = u -> u = D0 Nil \/ (forall v, u <> D0 v).
Proof.
  intros E. destruct u; try (right; congruence). left. rewrite unorm_D0 in E.
  destruct (nzhead u) eqn:K.
  - unfold unorm in E. rewrite K in E. congruence.
  - exfalso. pose proof (nzhead_nonzero u) as N. specialize (N u0). congruence.
  - unfold unorm in E. rewrite K in E. congruence.
  - unfold unorm in E. rewrite K in E. congruence.
  - unfold unorm in E. rewrite K in E. congruence.
  - unfold unorm in E. rewrite K in E. congruence.
  - unfold unorm in E. rewrite K in E. congruence.
  - unfold unorm in E. rewrite K in E. congruence.
  - unfold unorm in E. rewrite K in E. congruence.
  - unfold unorm in E. rewrite K in E. congruence.
  - unfold unorm in E. rewrite K in E. congruence.
Qed.
Lemma format_int_len z n : (0 <= z < 10 ^ Z.of_nat n)%Z -> 1 <= n -> List.length (format_int z) <= n.
Proof.
  intros [Hz Hn] N. destruct (format_int_ok z Hz) as [[_ D] V].
  unfold format_int in *. destruct (Z.ltb_spec z 0); [lia|].
  set (u := N.to_uint (Z.to_N z)) in *.
  assert (U : unorm u = u). { unfold u. rewrite <- DecimalN.Unsigned.to_of, DecimalN.Unsigned.of_to. reflexivity. }
  destruct (unorm_head u U) as [-> | H0]; [cbn; exact N|].
  assert (L : u = Nil \/ exists c s, uint_gs u = c :: s /\ (49 <= c)%Z).
  { destruct u; cbn [uint_gs]; [now left|exfalso; eapply H0; reflexivity|..]; right; eexists _, _; (split; [reflexivity|lia]). }
  destruct L as [-> |(c & s & E & Hc)]; [cbn; lia|]. rewrite E in *. cbn [forallb] in D. apply andb_prop in D as [_ D].
  change (dec_val (c :: s)) with (dec_from (10 * 0 + (c - 48)) s) in V.
  pose proof (dec_from_low s D (10 * 0 + (c - 48))%Z ltac:(lia)) as W. rewrite V in W. cbn [List.length].
  destruct (Nat.le_gt_cases (S (List.length s)) n) as [|G]; [assumption|].
  assert (10 ^ Z.of_nat n <= 10 ^ Z.of_nat (List.length s))%Z by (apply Z.pow_le_mono_r; lia). lia.
Qed.
