(** The printed form of a decimal is the shortest one. *)
From Coq Require Import ZArith QArith Qabs Qpower List Bool Lia ZifyBool Lqa.
From Verif Require Import Base Dialect AST Num ValueSpec NumThms FloatThms.
Import ListNotations.
Open Scope Z_scope.

(* ------------------------------------------------------------------ *)
(** ** Rounding is a function and monotone *)

(** The number x reads as the float f. *)
Definition rounds (x : Q) (f : f64) : Prop := nearest x f /\ (x < f_overflow)%Q.

Lemma val_units f g : canonical f -> canonical g -> ((f_val f <= f_val g)%Q <-> units f <= units g).
Proof.
  intros Hf Hg. rewrite (units_val f), (units_val g) by now apply canonical_fe.
  assert (S : 0 < 2 ^ 1074) by (apply Z.pow_pos_nonneg; lia). generalize dependent (2 ^ 1074). intros S HS.
  assert (Q : (0 < / inject_Z S)%Q).
  { apply Qinv_lt_0_compat. change 0%Q with (inject_Z 0). rewrite <- Zlt_Qlt. exact HS. }
  unfold Qdiv. rewrite Qmult_le_r by exact Q. now rewrite <- Zle_Qle.
Qed.
Lemma val_inj f g : canonical f -> canonical g -> (f_val f == f_val g)%Q -> f = g.
Proof. intros Hf Hg E. apply canonical_inj; auto. apply Qle_eq in E as [A B]. apply val_units in A, B; auto. lia. Qed.
Lemma val_lt f g : canonical f -> canonical g -> units f < units g -> (f_val f < f_val g)%Q.
Proof. intros Hf Hg H. apply Qnot_le_lt. rewrite val_units by auto. lia. Qed.

Lemma nearest_compat x y f : (x == y)%Q -> nearest x f -> nearest y f.
Proof.
  intros E [C H]. split; [exact C|]. intros g Hg. destruct (H g Hg) as [H1 H2]. split.
  - rewrite <- E. exact H1.
  - rewrite <- E. exact H2.
Qed.
Lemma rounds_compat x y f : (x == y)%Q -> rounds x f -> rounds y f.
Proof. intros E [A B]. split; [eapply nearest_compat; eauto|]. now rewrite <- E. Qed.

Ltac qabs :=
  repeat match goal with
  | H : context [Qabs ?t] |- _ => revert H
  end; repeat match goal with |- context [Qabs ?t] => pattern (Qabs t); apply Qabs_case; intro end.

Lemma nearest_convex x1 x x2 f : (x1 <= x)%Q -> (x <= x2)%Q -> nearest x1 f -> nearest x2 f -> nearest x f.
Proof.
  intros L1 L2 [C H1] [_ H2]. split; [exact C|]. intros g Hg.
  destruct (H1 g Hg) as [A1 B1]. destruct (H2 g Hg) as [A2 B2].
  assert (I : (f_val f == f_val g)%Q -> g = f) by (intros E; symmetry; now apply val_inj).
  destruct (Qlt_le_dec (f_val f) (f_val g)) as [G|G].
  - split.
    + clear B1 B2. revert A1 A2. qabs; lra.
    + intros E N. apply B2; [|exact N]. clear B1 B2. revert A1 A2 E. qabs; lra.
  - destruct (Qle_lt_or_eq _ _ G) as [G'|G'].
    + split.
      * clear B1 B2. revert A1 A2. qabs; lra.
      * intros E N. apply B1; [|exact N]. clear B1 B2. revert A1 A2 E. qabs; lra.
    + rewrite (I (Qeq_sym _ _ G')). split; [apply Qle_refl|congruence].
Qed.
Lemma rounds_convex x1 x x2 f : (x1 <= x)%Q -> (x <= x2)%Q -> rounds x1 f -> rounds x2 f -> rounds x f.
Proof. intros L1 L2 [A1 B1] [A2 B2]. split; [eapply nearest_convex; eauto|]. eapply Qle_lt_trans; eauto. Qed.

(** The next float after an even one has an odd significand. *)
Lemma next_odd f : canonical f -> Z.even (fm f) = true ->
  exists g, canonical g /\ Z.even (fm g) = false /\ units f < units g /\ forall h, canonical h -> units f < units h -> units g <= units h.
Proof.
  intros Hf E. destruct Hf as [->|(M & X & N)].
  - exists (mkF 1 (-1074)). split; [right; cbn; lia|]. split; [reflexivity|]. split; [reflexivity|].
    intros h Hh. change (units (mkF 0 0)) with 0. change (units (mkF 1 (-1074))) with 1. lia.
  - exists (mkF (fm f + 1) (fe f)).
    assert (M' : fm f + 1 < 2 ^ 53).
    { destruct (Z.eq_dec (fm f) (2 ^ 53 - 1)) as [Y|Y]; [rewrite Y in E; discriminate E|lia]. }
    assert (P : 0 < 2 ^ (fe f + 1074)) by (apply Z.pow_pos_nonneg; lia).
    split; [right; cbn [fm fe]; lia|]. split.
    { cbn [fm]. rewrite Z.even_add, E. reflexivity. }
    unfold units. cbn [fm fe]. split; [nia|]. intros h Hh L.
    destruct Hh as [->|(Mh & Xh & Nh)]; [cbn [fm] in L; nia|].
    destruct (Z.le_gt_cases (fe f) (fe h)) as [G|G].
    + assert (Y : 2 ^ (fe h + 1074) = 2 ^ (fe h - fe f) * 2 ^ (fe f + 1074)) by (rewrite <- Z.pow_add_r by lia; f_equal; lia).
      rewrite Y in *. rewrite Z.mul_assoc in *. apply Z.mul_lt_mono_pos_r in L; [|exact P]. apply Z.mul_le_mono_nonneg_r; lia.
    + exfalso. replace (fe f + 1074) with ((fe f - fe h - 1) + 1 + (fe h + 1074)) in L by lia.
      rewrite (Z.pow_add_r 2 (fe f - fe h - 1 + 1)), (Z.pow_add_r 2 (fe f - fe h - 1) 1) in L by lia.
      assert (A : 0 < 2 ^ (fe h + 1074)) by (apply Z.pow_pos_nonneg; lia).
      assert (B : 0 < 2 ^ (fe f - fe h - 1)) by (apply Z.pow_pos_nonneg; lia).
      rewrite !Z.mul_assoc in L. apply Z.mul_lt_mono_pos_r in L; [|exact A].
      change (2 ^ 53) with (2 * 2 ^ 52) in Mh. change (2 ^ 1) with 2 in L.
      assert (2 ^ 52 <= fm f) by lia. nia.
Qed.

Lemma nearest_unique x f g : nearest x f -> nearest x g -> f = g.
Proof.
  assert (K : forall f g, nearest x f -> nearest x g -> units f < units g -> False).
  { clear. intros f g [Cf Hf] [Cg Hg] U. pose proof (val_lt f g Cf Cg U) as V.
    assert (N : g <> f) by (intros ->; lia).
    destruct (Hf g Cg) as [A1 B1]. destruct (Hg f Cf) as [A2 B2].
    assert (E : (Qabs (f_val f - x) == Qabs (f_val g - x))%Q) by (apply Qle_eq; auto).
    pose proof (B1 E N) as Ef. pose proof (B2 (Qeq_sym _ _ E) (not_eq_sym N)) as Eg.
    destruct (next_odd f Cf Ef) as (h & Ch & Oh & Uh & Lh). specialize (Lh g Cg U).
    destruct (Z.eq_dec (units h) (units g)) as [Y|Y].
    - assert (h = g) by (now apply canonical_inj). congruence.
    - pose proof (val_lt f h Cf Ch Uh) as V1. pose proof (val_lt h g Ch Cg ltac:(lia)) as V2.
      destruct (Hf h Ch) as [A3 _]. clear - E V V1 V2 A3. revert E A3. qabs; lra. }
  intros Hf Hg. destruct (Z.lt_trichotomy (units f) (units g)) as [T|[T|T]].
  - destruct (K f g Hf Hg T).
  - apply canonical_inj; [apply Hf|apply Hg|exact T].
  - destruct (K g f Hg Hf T).
Qed.
Lemma rounds_unique x f g : rounds x f -> rounds x g -> f = g.
Proof. intros [A _] [B _]. eapply nearest_unique; eauto. Qed.

Lemma round_rat_rounds n d f : 0 <= n -> (round_rat n (Zpos d) = Some f <-> rounds (Qmake n d) f).
Proof.
  intros Hn. pose proof (round_rat_nearest n d Hn) as H. destruct (round_rat n (Zpos d)) as [g|].
  - split; [intros E; injection E as <-; exact H|]. intros R. f_equal. eapply rounds_unique; eauto.
  - split; [discriminate|]. intros [_ R]. exfalso. apply Qle_not_lt in H. contradiction.
Qed.
Lemma rounds_self f : canonical f -> rounds (f_val f) f.
Proof.
  intros Hf. destruct (f_val f) as [n d] eqn:E. assert (0 <= n).
  { assert (Q : (0 <= f_val f)%Q).
    { unfold f_val. destruct (0 <=? fe f) eqn:K.
      - change 0%Q with (inject_Z 0). rewrite <- Zle_Qle. destruct Hf as [->|Hf]; [cbn; lia|]. apply Z.mul_nonneg_nonneg; [lia|apply Z.pow_nonneg; lia].
      - unfold Qle. cbn [Qnum Qden]. destruct Hf as [->|Hf]; cbn [fm]; lia. }
    rewrite E in Q. unfold Qle in Q. cbn in Q. lia. }
  apply (round_rat_rounds n d f H). apply round_rat_exact; auto. rewrite E. apply Qeq_refl.
Qed.

(* ------------------------------------------------------------------ *)
(** ** Decimals with k digits after the dot *)

Definition dec (n k : Z) : Q := if 0 <=? k then Qmake n (Z.to_pos (10 ^ k)) else inject_Z (n * 10 ^ (- k)).
Definition show (n k : Z) : gostring := if 0 <=? k then put_dot n k else format_int (n * 10 ^ (- k)).

Lemma ten_pos k : 0 <= k -> 0 < 10 ^ k.
Proof. intros. apply Z.pow_pos_nonneg; lia. Qed.
Lemma show_text n k : 0 <= n -> exists m j, 0 <= m /\ 0 <= j /\ dec_text (show n k) m j /\ (Qmake m (Z.to_pos (10 ^ j)) == dec n k)%Q.
Proof.
  intros Hn. unfold show, dec. destruct (Z.leb_spec 0 k) as [K|K].
  - exists n, k. repeat split; auto using put_dot_text. 
  - pose proof (ten_pos (- k) ltac:(lia)). exists (n * 10 ^ (- k)), 0.
    assert (0 <= n * 10 ^ (- k)) by nia. repeat split; auto using int_text; try lia. 
Qed.
Lemma text_rounds s n k f : 0 <= n -> 0 <= k -> dec_text s n k -> (parse_float s = Some f <-> rounds (Qmake n (Z.to_pos (10 ^ k))) f).
Proof.
  intros Hn Hk T. rewrite (parse_float_text _ _ _ T), <- (pow_pos 10 k) by lia. rewrite round_rat_rounds by exact Hn. reflexivity.
Qed.
Lemma show_rounds n k f : 0 <= n -> (parse_float (show n k) = Some f <-> rounds (dec n k) f).
Proof.
  intros Hn. destruct (show_text n k Hn) as (m & j & Hm & Hj & T & E). rewrite (text_rounds _ _ _ f Hm Hj T).
  split; apply rounds_compat; [exact E|now apply Qeq_sym].
Qed.
Lemma parses_to_iff s f : parses_to s f = true <-> parse_float s = Some f.
Proof.
  split; [apply parses_to_eq|]. unfold parses_to. intros ->. unfold f64_eqb. rewrite !Z.eqb_refl. reflexivity.
Qed.

Lemma f64_den_pos f : 0 < f64_den f.
Proof. unfold f64_den. destruct (Z.leb_spec 0 (fe f)); [lia|apply Z.pow_pos_nonneg; lia]. Qed.
Lemma f_val_frac f : (f_val f == Qmake (f64_num f) (Z.to_pos (f64_den f)))%Q.
Proof. unfold f_val, f64_num, f64_den. destruct (0 <=? fe f); reflexivity. Qed.
Definition num_k f k := if 0 <=? k then f64_num f * 10 ^ k else f64_num f.
Definition den_k f k := if 0 <=? k then f64_den f else f64_den f * 10 ^ (- k).
Lemma den_k_pos f k : 0 < den_k f k.
Proof. pose proof (f64_den_pos f). unfold den_k. destruct (Z.leb_spec 0 k); [assumption|]. pose proof (ten_pos (- k) ltac:(lia)). nia. Qed.
Lemma dec_le f n k : (dec n k <= f_val f)%Q <-> n * den_k f k <= num_k f k.
Proof.
  rewrite f_val_frac. unfold dec, num_k, den_k. pose proof (f64_den_pos f). destruct (Z.leb_spec 0 k); unfold Qle, inject_Z; cbn [Qnum Qden].
  - rewrite !Z2Pos.id by (auto using ten_pos). reflexivity.
  - rewrite !Z2Pos.id by auto. rewrite Z.mul_1_r. replace (n * 10 ^ (- k) * f64_den f) with (n * (f64_den f * 10 ^ (- k))) by ring. reflexivity.
Qed.
Lemma dec_mono n m k : n <= m -> (dec n k <= dec m k)%Q.
Proof.
  intros H. unfold dec. destruct (Z.leb_spec 0 k).
  - unfold Qle. cbn [Qnum Qden]. nia.
  - rewrite <- Zle_Qle. pose proof (ten_pos (- k) ltac:(lia)). nia.
Qed.
Lemma num_k_nonneg f k : 0 <= fm f -> 0 <= num_k f k.
Proof.
  intros H. assert (0 <= f64_num f) by (unfold f64_num; destruct (Z.leb_spec 0 (fe f)); [|exact H]; pose proof (Z.pow_nonneg 2 (fe f)); nia).
  unfold num_k. destruct (Z.leb_spec 0 k); [|assumption]. pose proof (ten_pos k ltac:(lia)). nia.
Qed.

Lemma candidate_eq f k : candidate f k =
  let q := num_k f k / den_k f k in
  if 2 * (num_k f k mod den_k f k) <=? den_k f k then
    if parses_to (show q k) f then Some (show q k) else if parses_to (show (q + 1) k) f then Some (show (q + 1) k) else None
  else
    if parses_to (show (q + 1) k) f then Some (show (q + 1) k) else if parses_to (show q k) f then Some (show q k) else None.
Proof. reflexivity. Qed.

(** Of the two neighbours the nearer one. *)
Definition closest (f : f64) (n k : Z) : Prop :=
  forall m, 0 <= m -> rounds (dec m k) f -> (Qabs (dec n k - f_val f) <= Qabs (dec m k - f_val f))%Q.
Lemma near_lo f k q : 2 * num_k f k <= (2 * q + 1) * den_k f k <-> (f_val f + f_val f <= dec q k + dec (q + 1) k)%Q.
Proof.
  rewrite f_val_frac. unfold dec, num_k, den_k. pose proof (f64_den_pos f) as D.
  destruct (Z.leb_spec 0 k) as [K|K].
  - pose proof (ten_pos k K) as T. unfold Qle, Qplus. cbn [Qnum Qden]. rewrite !Pos2Z.inj_mul, !Z2Pos.id by assumption.
    generalize dependent (10 ^ k). generalize dependent (f64_den f). generalize (f64_num f). intros n d D t T. split; intros H.
    + assert (2 * (n * t) * (d * t) <= (2 * q + 1) * d * (d * t)) by (apply Z.mul_le_mono_nonneg_r; nia). lia.
    + apply Z.mul_le_mono_pos_r with (p := d * t); [nia|]. lia.
  - pose proof (ten_pos (- k) ltac:(lia)) as T. unfold Qle, Qplus, inject_Z. cbn [Qnum Qden]. rewrite !Pos2Z.inj_mul, !Z2Pos.id by assumption.
    generalize dependent (10 ^ (- k)). generalize dependent (f64_den f). generalize (f64_num f). intros n d D t T. split; intros H.
    + assert (2 * n * d <= (2 * q + 1) * (d * t) * d) by (apply Z.mul_le_mono_nonneg_r; nia). lia.
    + apply Z.mul_le_mono_pos_r with (p := d); [exact D|]. lia.
Qed.

Lemma candidate_spec f k : canonical f ->
  match candidate f k with
  | Some s => exists n, 0 <= n /\ s = show n k /\ rounds (dec n k) f /\ closest f n k
  | None => forall n, 0 <= n -> ~ rounds (dec n k) f
  end.
Proof.
  intros Hf. assert (F : 0 <= fm f) by (destruct Hf as [->|?]; cbn; lia). rewrite candidate_eq. cbv zeta.
  pose proof (den_k_pos f k) as D. pose proof (num_k_nonneg f k F) as N.
  set (q := num_k f k / den_k f k).
  assert (Q : 0 <= q) by (now apply Z.div_pos).
  assert (A : (dec q k <= f_val f)%Q). { apply dec_le. unfold q. rewrite Z.mul_comm. now apply Z.mul_div_le. }
  assert (B : (f_val f <= dec (q + 1) k)%Q).
  { apply Qlt_le_weak, Qnot_le_lt. rewrite dec_le. unfold q. pose proof (Z.mul_succ_div_gt (num_k f k) (den_k f k) D). nia. }
  assert (L : parses_to (show q k) f = true <-> rounds (dec q k) f) by (rewrite parses_to_iff; now apply show_rounds).
  assert (H : parses_to (show (q + 1) k) f = true <-> rounds (dec (q + 1) k) f) by (rewrite parses_to_iff; apply show_rounds; lia).
  assert (G : (exists n, 0 <= n /\ rounds (dec n k) f) -> parses_to (show q k) f = true \/ parses_to (show (q + 1) k) f = true).
  { intros (n & Hn & R). pose proof (rounds_self f Hf) as S. destruct (Z.le_gt_cases n q) as [C|C].
    - left. apply L. apply (rounds_convex (dec n k) _ (f_val f)); auto using dec_mono.
    - right. apply H. apply (rounds_convex (f_val f) _ (dec n k)); auto. apply dec_mono. lia. }
  assert (Near : 2 * (num_k f k mod den_k f k) <= den_k f k <-> 2 * num_k f k <= (2 * q + 1) * den_k f k).
  { unfold q. pose proof (Z.div_mod (num_k f k) (den_k f k) ltac:(lia)). nia. }
  rewrite near_lo in Near.
  assert (Low : forall m, m <= q -> (dec m k <= dec q k)%Q) by (intros; now apply dec_mono).
  assert (High : forall m, q < m -> (dec (q + 1) k <= dec m k)%Q) by (intros; apply dec_mono; lia).
  assert (Nlo : ~ rounds (dec q k) f -> forall m, rounds (dec m k) f -> q < m).
  { intros X m R. apply Z.lt_nge. intros C. apply X. apply (rounds_convex (dec m k) _ (f_val f)); auto using rounds_self. }
  assert (Nhi : ~ rounds (dec (q + 1) k) f -> forall m, rounds (dec m k) f -> m <= q).
  { intros X m R. apply Z.le_ngt. intros C. apply X. apply (rounds_convex (f_val f) _ (dec m k)); auto using rounds_self. }
  assert (Clo : (f_val f + f_val f <= dec q k + dec (q + 1) k)%Q \/ ~ rounds (dec (q + 1) k) f -> closest f q k).
  { intros X m Hm R. destruct (Z.le_gt_cases m q) as [C|C].
    - specialize (Low m C). clear - A Low. qabs; lra.
    - destruct X as [X|X]; [|specialize (Nhi X m R); lia]. specialize (High m C). clear - A B X High. qabs; lra. }
  assert (Chi : (dec q k + dec (q + 1) k <= f_val f + f_val f)%Q \/ ~ rounds (dec q k) f -> closest f (q + 1) k).
  { intros X m Hm R. destruct (Z.le_gt_cases m q) as [C|C].
    - destruct X as [X|X]; [|specialize (Nlo X m R); lia]. specialize (Low m C). clear - A B X Low. qabs; lra.
    - specialize (High m C). clear - B High. qabs; lra. }
  destruct (Z.leb_spec (2 * (num_k f k mod den_k f k)) (den_k f k)) as [X|X].
  - apply Near in X. destruct (parses_to (show q k) f) eqn:E1; [|destruct (parses_to (show (q + 1) k) f) eqn:E2].
    + exists q. split; [lia|]. split; [reflexivity|]. split; [now apply L|]. now apply Clo; left.
    + exists (q + 1). split; [lia|]. split; [reflexivity|]. split; [now apply H|]. apply Chi. right. rewrite <- L. discriminate.
    + intros n Hn R; destruct G as [G|G]; try discriminate G; eauto.
  - assert (Y : (dec q k + dec (q + 1) k <= f_val f + f_val f)%Q) by (apply Qlt_le_weak, Qnot_le_lt; rewrite <- Near; lia).
    destruct (parses_to (show (q + 1) k) f) eqn:E2; [|destruct (parses_to (show q k) f) eqn:E1].
    + exists (q + 1). split; [lia|]. split; [reflexivity|]. split; [now apply H|]. now apply Chi; left.
    + exists q. split; [lia|]. split; [reflexivity|]. split; [now apply L|]. apply Clo. right. rewrite <- H. discriminate.
    + intros n Hn R; destruct G as [G|G]; try discriminate G; eauto.
Qed.

Lemma shortest_spec f : canonical f -> forall j k,
  match shortest f k j with
  | Some s => exists n k', k <= k' < k + Z.of_nat j /\ 0 <= n /\ s = show n k' /\ rounds (dec n k') f /\ closest f n k' /\
                forall m i, k <= i < k' -> 0 <= m -> ~ rounds (dec m i) f
  | None => forall m i, k <= i < k + Z.of_nat j -> 0 <= m -> ~ rounds (dec m i) f
  end.
Proof.
  intros Hf. induction j as [|j IH]; intros k; cbn [shortest]; [intros; lia|].
  pose proof (candidate_spec f k Hf) as C. destruct (candidate f k) as [s|].
  - destruct C as (n & Hn & E & R & C). exists n, k. split; [lia|]. split; [exact Hn|]. split; [exact E|]. split; [exact R|]. split; [exact C|]. intros; lia.
  - specialize (IH (k + 1)). destruct (shortest f (k + 1) j) as [s|].
    + destruct IH as (n & k' & B & Hn & E & R & C' & M). exists n, k'. split; [lia|]. split; [exact Hn|]. split; [exact E|]. split; [exact R|]. split; [exact C'|].
      intros m i I Hm. destruct (Z.eq_dec i k) as [->|]; [auto|apply M; lia].
    + intros m i I Hm. destruct (Z.eq_dec i k) as [->|]; [auto|apply IH; lia].
Qed.

(* ------------------------------------------------------------------ *)
(** ** Where the search starts and ends *)

Lemma two0 : ~ (2 # 1 == 0)%Q. Proof. discriminate. Qed.
Lemma ten0 : ~ (10 # 1 == 0)%Q. Proof. discriminate. Qed.
Lemma inv_pow a k : 0 < a -> 0 <= k -> (1 # Z.to_pos (a ^ k) == inject_Z a ^ (- k))%Q.
Proof.
  intros Ha Hk. rewrite Qpower_opp, <- Zpower_Qpower by exact Hk. pose proof (Z.pow_pos_nonneg a k Ha Hk) as P.
  destruct (a ^ k) as [|p|p]; try lia. reflexivity.
Qed.
Lemma make_pow n a k : 0 < a -> 0 <= k -> (Qmake n (Z.to_pos (a ^ k)) == inject_Z n * inject_Z a ^ (- k))%Q.
Proof. intros Ha Hk. rewrite <- inv_pow by assumption. unfold Qeq, Qmult, inject_Z. cbn [Qnum Qden]. lia. Qed.
Lemma val_pow f : (f_val f == inject_Z (fm f) * (2 # 1) ^ fe f)%Q.
Proof.
  unfold f_val. destruct (Z.leb_spec 0 (fe f)).
  - rewrite inject_Z_mult, Zpower_Qpower by assumption. reflexivity.
  - rewrite make_pow by lia. rewrite Z.opp_involutive. reflexivity.
Qed.
Lemma dec_pow n k : (dec n k == inject_Z n * (10 # 1) ^ (- k))%Q.
Proof.
  unfold dec. destruct (Z.leb_spec 0 k).
  - rewrite make_pow by lia. reflexivity.
  - rewrite inject_Z_mult, Zpower_Qpower by lia. reflexivity.
Qed.
Lemma two_plus a b : ((2 # 1) ^ (a + b) == (2 # 1) ^ a * (2 # 1) ^ b)%Q. Proof. apply Qpower_plus, two0. Qed.
Lemma two_lt a : (0 < (2 # 1) ^ a)%Q. Proof. now apply Qpower_0_lt. Qed.
Lemma ten_lt a : (0 < (10 # 1) ^ a)%Q. Proof. now apply Qpower_0_lt. Qed.

Lemma power_canonical p : -1074 <= p <= 1023 -> exists y, canonical y /\ (f_val y == (2 # 1) ^ p)%Q.
Proof.
  intros H. destruct (Z.le_gt_cases (-1022) p) as [G|G].
  - exists (mkF (2 ^ 52) (p - 52)). split; [right; cbn [fm fe]; lia|]. rewrite val_pow. cbn [fm fe].
    rewrite Zpower_Qpower by lia. change (inject_Z 2) with (2 # 1). rewrite <- two_plus. replace (52 + (p - 52)) with p by lia. reflexivity.
  - exists (mkF (2 ^ (p + 1074)) (-1074)). split.
    + right. cbn [fm fe]. split; [|lia]. split; [apply Z.pow_pos_nonneg; lia|]. apply Z.pow_lt_mono_r; lia.
    + rewrite val_pow. cbn [fm fe]. rewrite Zpower_Qpower by lia. change (inject_Z 2) with (2 # 1). rewrite <- two_plus.
      replace (p + 1074 + -1074) with p by lia. reflexivity.
Qed.
Lemma rounds_below x f y : rounds x f -> canonical y -> (f_val y <= x)%Q -> (f_val y <= f_val f)%Q.
Proof.
  intros [[_ H] _] Hy L. destruct (H y Hy) as [A _]. apply Qnot_lt_le. intros C. revert A. qabs; lra.
Qed.
Lemma rounds_above x f y : rounds x f -> canonical y -> (x <= f_val y)%Q -> (f_val f <= f_val y)%Q.
Proof.
  intros [[_ H] _] Hy L. destruct (H y Hy) as [A _]. apply Qnot_lt_le. intros C. revert A. qabs; lra.
Qed.
Lemma overflow_pow : (f_overflow <= (2 # 1) ^ 1024)%Q.
Proof. apply Qle_bool_iff. vm_compute. reflexivity. Qed.
Lemma rounds_small x f : rounds x f -> (x < (2 # 1) ^ 1024)%Q.
Proof. intros [_ H]. eapply Qlt_le_trans; [exact H|apply overflow_pow]. Qed.

Definition mag (f : f64) : Z := Z.log2 (fm f) + fe f.
Definition first_k (l : Z) : Z := - l * 30103 / 100000 - 2.

Lemma mag_spec f : 0 < fm f -> ((2 # 1) ^ mag f <= f_val f)%Q /\ (f_val f < (2 # 1) ^ (mag f + 1))%Q.
Proof.
  intros H. destruct (Z.log2_spec (fm f) H) as [A B]. rewrite val_pow. unfold mag.
  replace (Z.log2 (fm f) + fe f + 1) with (Z.succ (Z.log2 (fm f)) + fe f) by lia. rewrite !two_plus.
  assert (E : forall n, 0 <= n -> ((2 # 1) ^ n == inject_Z (2 ^ n))%Q) by (intros; symmetry; now apply Zpower_Qpower).
  pose proof (Z.log2_nonneg (fm f)). rewrite (E (Z.log2 (fm f))), (E (Z.succ (Z.log2 (fm f)))) by lia. split.
  - apply Qmult_le_compat_r; [rewrite <- Zle_Qle; exact A|]. apply Qlt_le_weak, two_lt.
  - rewrite Qmult_lt_r by apply two_lt. rewrite <- Zlt_Qlt. exact B.
Qed.
Lemma mag_range f : canonical f -> 0 < fm f -> -1074 <= mag f <= 1023 /\ (fe f = mag f - 52 \/ (fe f = -1074 /\ mag f <= -1022)).
Proof.
  intros [->|(M & X & N)] H; [cbn in H; lia|]. unfold mag.
  assert (Z.log2 (fm f) < 53) by (apply Z.log2_lt_pow2; lia). pose proof (Z.log2_nonneg (fm f)).
  destruct N as [N|N]; [|lia]. assert (52 <= Z.log2 (fm f)) by (apply Z.log2_le_pow2; lia). lia.
Qed.

(** Powers of ten between powers of two. *)
Fixpoint tens (p b : Z) (n : nat) : bool :=
  match n with
  | O => true
  | S n => (b * 33219 / 10000 <=? Z.log2 p) && (Z.log2_up p <=? b * 33220 / 10000 + 1) && tens (10 * p) (b + 1) n
  end.
Lemma tens_spec n : forall b, 0 <= b -> tens (10 ^ b) b n = true -> forall c, b <= c < b + Z.of_nat n ->
  c * 33219 / 10000 <= Z.log2 (10 ^ c) /\ Z.log2_up (10 ^ c) <= c * 33220 / 10000 + 1.
Proof.
  induction n as [|n IH]; intros b Hb H c Hc; [lia|]. cbn [tens] in H. apply andb_prop in H as [H1 H2].
  destruct (Z.eq_dec b c) as [->|N]; [lia|]. apply (IH (b + 1)); try lia.
  rewrite Z.pow_add_r by lia. rewrite Z.mul_comm. exact H2.
Qed.
Lemma tens_ok : tens (10 ^ 0) 0 400 = true.
Proof. vm_compute. reflexivity. Qed.
Lemma ten_two c a : 0 <= c < 400 -> 0 <= a -> a <= c * 33219 / 10000 -> 2 ^ a <= 10 ^ c.
Proof.
  intros Hc Ha H. destruct (tens_spec 400 0 ltac:(lia) tens_ok c ltac:(lia)) as [T _].
  apply Z.log2_le_pow2; [now apply ten_pos|lia].
Qed.
Lemma two_ten c a : 0 <= c < 400 -> 0 <= a -> c * 33220 / 10000 + 1 <= a -> 10 ^ c <= 2 ^ a.
Proof.
  intros Hc Ha H. destruct (tens_spec 400 0 ltac:(lia) tens_ok c ltac:(lia)) as [_ T].
  destruct (Z.le_gt_cases (10 ^ c) (2 ^ a)) as [|G]; [assumption|exfalso].
  apply Z.log2_up_lt_pow2 in G; [|now apply ten_pos]. lia.
Qed.
Lemma Qpow_le a c b d : 0 < a -> 0 < b -> 0 <= c -> 0 <= d -> a ^ c <= b ^ d -> (inject_Z a ^ c <= inject_Z b ^ d)%Q.
Proof. intros. rewrite <- !Zpower_Qpower by lia. now rewrite <- Zle_Qle. Qed.
Lemma Qpow_le_inv a c b d : 0 < a -> 0 < b -> 0 <= c -> 0 <= d -> b ^ d <= a ^ c -> (inject_Z a ^ (- c) <= inject_Z b ^ (- d))%Q.
Proof.
  intros A B C D H. rewrite <- !inv_pow by lia. unfold Qle. cbn [Qnum Qden]. rewrite !Z2Pos.id by (apply Z.pow_pos_nonneg; lia). lia.
Qed.
(** 2^a <= 10^c and 10^c <= 2^a for exponents of either sign. *)
Lemma pow_le_ten a c : -400 < c < 400 -> a * 10000 <= c * 33219 - 20000 - Z.abs c -> ((2 # 1) ^ a <= (10 # 1) ^ c)%Q.
Proof.
  intros Hc H. destruct (Z.le_gt_cases 0 c) as [C|C].
  - destruct (Z.le_gt_cases 0 a) as [A|A].
    + apply (Qpow_le 2 a 10 c); try lia. apply ten_two; try lia. apply Z.div_le_lower_bound; lia.
    + apply Qle_trans with 1%Q.
      * change 1%Q with ((2 # 1) ^ 0)%Q. apply Qpower_le_compat_l; [lia|discriminate].
      * apply Qpower_1_le; [discriminate|lia].
  - replace a with (- - a) by lia. replace c with (- - c) by lia. apply (Qpow_le_inv 2 (- a) 10 (- c)); try lia.
    apply two_ten; try lia. assert (- c * 33220 / 10000 < - a); [|lia]. apply Z.div_lt_upper_bound; lia.
Qed.
Lemma ten_le_pow a c : -400 < c < 400 -> c * 33219 + 20000 + Z.abs c <= a * 10000 -> ((10 # 1) ^ c <= (2 # 1) ^ a)%Q.
Proof.
  intros Hc H. destruct (Z.le_gt_cases 0 c) as [C|C].
  - apply (Qpow_le 10 c 2 a); try lia. apply two_ten; try lia. assert (c * 33220 / 10000 < a); [|lia]. apply Z.div_lt_upper_bound; lia.
  - destruct (Z.le_gt_cases 0 a) as [A|A].
    + apply Qle_trans with 1%Q.
      * change 1%Q with ((10 # 1) ^ 0)%Q. apply Qpower_le_compat_l; [lia|discriminate].
      * apply Qpower_1_le; [discriminate|lia].
    + replace a with (- - a) by lia. replace c with (- - c) by lia. apply (Qpow_le_inv 10 (- c) 2 (- a)); try lia.
      apply ten_two; try lia. apply Z.div_le_lower_bound; lia.
Qed.

Lemma coarse l : -1074 <= l <= 1023 -> ((2 # 1) ^ (l + 1) <= (10 # 1) ^ (1 - first_k l))%Q.
Proof. intros H. unfold first_k. pose proof (Z.div_mod (- l * 30103) 100000 ltac:(lia)). pose proof (Z.mod_pos_bound (- l * 30103) 100000 ltac:(lia)). apply pow_le_ten; lia. Qed.
Lemma fine l e : -1074 <= l <= 1023 -> e = l - 52 \/ (e = -1074 /\ l <= -1022) ->
  ((10 # 1) ^ (- (first_k l + 21)) <= (2 # 1) ^ (Z.max (e - 1) (-1074) - 1))%Q.
Proof.
  intros H E. unfold first_k. pose proof (Z.div_mod (- l * 30103) 100000 ltac:(lia)). pose proof (Z.mod_pos_bound (- l * 30103) 100000 ltac:(lia)). apply ten_le_pow; lia.
Qed.

Lemma zero_rounds : rounds 0 (mkF 0 0).
Proof. exact (rounds_self (mkF 0 0) canonical_zero). Qed.
Lemma rounds_nonzero n k f : 0 < fm f -> 0 <= n -> rounds (dec n k) f -> 0 < n.
Proof.
  intros H Hn R. destruct (Z.eq_dec n 0) as [->|]; [|lia]. exfalso.
  assert (E : (dec 0 k == 0)%Q) by (rewrite dec_pow; apply Qmult_0_l).
  pose proof (rounds_unique _ _ _ (rounds_compat _ _ _ E R) zero_rounds) as F. rewrite F in H. cbn in H. lia.
Qed.
Lemma dec_ge n k : 1 <= n -> ((10 # 1) ^ (- k) <= dec n k)%Q.
Proof.
  intros H. rewrite dec_pow. pose proof (ten_lt (- k)). assert (1 <= inject_Z n)%Q by (change 1%Q with (inject_Z 1); now rewrite <- Zle_Qle). 
  setoid_replace ((10 # 1) ^ (- k))%Q with (1 * (10 # 1) ^ (- k))%Q at 1 by ring. apply Qmult_le_compat_r; lra.
Qed.

(** No decimal with less digits after the dot than where the search starts. *)
Lemma too_few f n k : canonical f -> 0 < fm f -> 0 <= n -> k < first_k (mag f) -> ~ rounds (dec n k) f.
Proof.
  intros Hf H Hn K R. pose proof (rounds_nonzero n k f H Hn R) as N.
  destruct (mag_range f Hf H) as [M _]. destruct (mag_spec f H) as [_ B].
  assert (L : ((2 # 1) ^ (mag f + 1) <= dec n k)%Q).
  { eapply Qle_trans; [apply (coarse _ M)|]. eapply Qle_trans; [|apply (dec_ge n k); lia]. apply Qpower_le_compat_l; [lia|discriminate]. }
  destruct (Z.eq_dec (mag f) 1023) as [E|E].
  - rewrite E in L. apply rounds_small in R. change (1023 + 1) with 1024 in L. exact (Qlt_not_le _ _ R L).
  - destruct (power_canonical (mag f + 1) ltac:(lia)) as (y & Cy & Vy). rewrite <- Vy in L, B.
    exact (Qlt_not_le _ _ B (rounds_below _ _ _ R Cy L)).
Qed.

(** Some decimal where the search ends. *)
Lemma gap f g : canonical f -> canonical g -> 0 < fm f -> units g < units f -> units g + 2 ^ (Z.max (fe f - 1) (-1074) + 1074) <= units f.
Proof.
  intros Hf Hg H L. destruct Hf as [->|(M & X & N)]; [cbn in H; lia|].
  destruct (Z.eq_dec (fe f) (-1074)) as [E|E].
  - rewrite E. change (2 ^ (Z.max (-1074 - 1) (-1074) + 1074)) with 1. lia.
  - rewrite Z.max_l by lia. unfold units in *. assert (F : 2 ^ 52 <= fm f) by lia.
    assert (P : 0 < 2 ^ (fe f - 1 + 1074)) by (apply Z.pow_pos_nonneg; lia).
    assert (T : 2 ^ (fe f + 1074) = 2 * 2 ^ (fe f - 1 + 1074)) by (rewrite <- Z.pow_succ_r by lia; f_equal; lia).
    destruct Hg as [->|(Mg & Xg & Ng)].
    + cbn [fm]. nia.
    + destruct (Z.le_gt_cases (fe f) (fe g)) as [G|G].
      * assert (Y : 2 ^ (fe g + 1074) = 2 ^ (fe g - fe f) * 2 ^ (fe f + 1074)) by (rewrite <- Z.pow_add_r by lia; f_equal; lia).
        assert (P' : 0 < 2 ^ (fe f + 1074)) by lia.
        rewrite Y, Z.mul_assoc in *. apply Z.mul_lt_mono_pos_r in L; [|exact P']. nia.
      * assert (Y : 2 ^ (fe f - 1 + 1074) = 2 ^ (fe f - 1 - fe g) * 2 ^ (fe g + 1074)) by (rewrite <- Z.pow_add_r by lia; f_equal; lia).
        assert (P1 : 0 < 2 ^ (fe g + 1074)) by (apply Z.pow_pos_nonneg; lia).
        assert (P2 : 0 < 2 ^ (fe f - 1 - fe g)) by (apply Z.pow_pos_nonneg; lia).
        apply Z.le_trans with ((fm g + 1) * 2 ^ (fe f - 1 + 1074)); [nia|].
        rewrite T. change (2 ^ 53) with (2 * 2 ^ 52) in Mg. nia.
Qed.
Lemma val_units_pow f : canonical f -> (f_val f == inject_Z (units f) * (2 # 1) ^ (-1074))%Q.
Proof.
  intros Hf. pose proof (canonical_fe f Hf). unfold units. rewrite val_pow, inject_Z_mult, Zpower_Qpower by lia.
  change (inject_Z 2) with (2 # 1). rewrite <- Qmult_assoc, <- two_plus. replace (fe f + 1074 + -1074) with (fe f) by lia. reflexivity.
Qed.
Lemma gap_val f g : canonical f -> canonical g -> 0 < fm f -> units g < units f ->
  (f_val g + (2 # 1) ^ Z.max (fe f - 1) (-1074) <= f_val f)%Q.
Proof.
  intros Hf Hg H L. pose proof (gap f g Hf Hg H L) as G. rewrite (val_units_pow f Hf), (val_units_pow g Hg).
  replace (Z.max (fe f - 1) (-1074)) with (Z.max (fe f - 1) (-1074) + 1074 + -1074) by lia. rewrite two_plus.
  rewrite Zle_Qle, inject_Z_plus, Zpower_Qpower in G by lia. change (inject_Z 2) with (2 # 1) in G.
  pose proof (two_lt (-1074)) as T. generalize dependent ((2 # 1) ^ (-1074))%Q. intros t T.
  rewrite <- Qmult_plus_distr_l. apply Qmult_le_compat_r; [exact G|]. now apply Qlt_le_weak.
Qed.
Lemma enough f k : canonical f -> 0 < fm f -> k = first_k (mag f) + 21 -> exists n, 0 <= n /\ rounds (dec n k) f.
Proof.
  intros Hf H ->. set (k := first_k (mag f) + 21). destruct (mag_range f Hf H) as [M E].
  pose proof (fine _ _ M E) as F. change (first_k (mag f) + 21) with k in F.
  pose proof (den_k_pos f k) as D. pose proof (num_k_nonneg f k ltac:(lia)) as N.
  set (q := num_k f k / den_k f k). exists q. split; [now apply Z.div_pos|].
  assert (A : (dec q k <= f_val f)%Q). { apply dec_le. unfold q. rewrite Z.mul_comm. now apply Z.mul_div_le. }
  assert (B : (f_val f < dec (q + 1) k)%Q).
  { apply Qnot_le_lt. rewrite dec_le. unfold q. pose proof (Z.mul_succ_div_gt (num_k f k) (den_k f k) D). nia. }
  assert (C : (dec (q + 1) k == dec q k + (10 # 1) ^ (- k))%Q) by (rewrite !dec_pow, inject_Z_plus; ring).
  assert (W : ((2 # 1) ^ Z.max (fe f - 1) (-1074) == (2 # 1) * (2 # 1) ^ (Z.max (fe f - 1) (-1074) - 1))%Q).
  { change (2 # 1)%Q with ((2 # 1) ^ 1)%Q at 2. rewrite <- two_plus. replace (1 + (Z.max (fe f - 1) (-1074) - 1)) with (Z.max (fe f - 1) (-1074)) by lia. reflexivity. }
  split.
  - split; [exact Hf|]. intros g Hg. destruct (Z.lt_trichotomy (units f) (units g)) as [T|[T|T]].
    + pose proof (val_lt f g Hf Hg T) as V. clear F W. split; [qabs; lra|]. intros X. exfalso. clear C B. revert X. qabs; lra.
    + assert (f = g) as <- by now apply canonical_inj. split; [apply Qle_refl|congruence].
    + pose proof (gap_val f g Hf Hg H T) as V. rewrite W in V. clear W. rewrite C in B.
      set (w := ((2 # 1) ^ (Z.max (fe f - 1) (-1074) - 1))%Q) in *. set (t := ((10 # 1) ^ (- k))%Q) in *. clearbody w t. clear C.
      split; [qabs; lra|]. intros X. exfalso. revert X. qabs; lra.
  - eapply Qle_lt_trans; [exact A|]. apply (rounds_self f Hf).
Qed.

(** The printed form: the decimal with the fewest digits after the dot (the
    most zeros at the end) that reads as f. *)
Theorem format_float_spec f : canonical f -> 0 < fm f ->
  exists n k, 0 <= n /\ format_float f = show n k /\ rounds (dec n k) f /\ closest f n k /\ forall m i, i < k -> 0 <= m -> ~ rounds (dec m i) f.
Proof.
  intros Hf H. unfold format_float. destruct (Z.eqb_spec (fm f) 0) as [Z0|Z0]; [lia|]. cbv zeta.
  change (- (Z.log2 (fm f) + fe f) * 30103 / 100000 - 2) with (first_k (mag f)).
  pose proof (shortest_spec f Hf 22 (first_k (mag f))) as S. destruct (shortest f (first_k (mag f)) 22) as [s|].
  - destruct S as (n & k & B & Hn & E & R & C & M). exists n, k. split; [exact Hn|]. split; [exact E|]. split; [exact R|]. split; [exact C|].
    intros m i I Hm. destruct (Z.lt_ge_cases i (first_k (mag f))); [now apply too_few|apply M; lia].
  - exfalso. destruct (enough f _ Hf H eq_refl) as (n & Hn & R). refine (S n (first_k (mag f) + 21) _ Hn R). lia.
Qed.

(* ------------------------------------------------------------------ *)
(** ** Never longer than what was written *)
From Verif Require Import IntLen.
Open Scope Z_scope.

Lemma cut_len (l : list Z) i : List.length (firstn i l ++ [46] ++ skipn i l) = S (List.length l).
Proof. rewrite !app_length. cbn [List.length]. rewrite <- (firstn_skipn i l) at 3. rewrite app_length. lia. Qed.
Lemma pad_len (ds : list Z) k c : (List.length ds <= c)%nat -> (Z.to_nat k < c)%nat -> 0 < k ->
  (List.length (repeat 48%Z (Z.to_nat (k + 1 - Z.of_nat (List.length ds))) ++ ds) <= c)%nat.
Proof. intros. rewrite app_length, repeat_length. lia. Qed.
Lemma put_dot_len n k c : 0 <= n < 10 ^ Z.of_nat c -> 0 < k -> (Z.to_nat k < c)%nat -> (List.length (put_dot n k) <= c + 1)%nat.
Proof.
  intros Hn Hk Hc. pose proof (format_int_len n c Hn ltac:(lia)) as F. unfold put_dot. destruct (Z.eqb_spec k 0); [lia|]. cbv zeta.
  eapply Nat.le_trans; [apply Nat.eq_le_incl, cut_len|]. rewrite Nat.add_1_r. apply le_n_S. now apply pad_len.
Qed.

(** Numbers below 10^a and from 10^(a+1) on read as different floats. *)
Lemma apart x v f a : rounds x f -> rounds v f -> 0 <= a -> (x < (10 # 1) ^ a)%Q -> (v < (10 # 1) ^ (a + 1))%Q.
Proof.
  intros Rx Rv Ha Lx. apply Qnot_le_lt. intros Lv. set (p := Z.log2_up (10 ^ a)).
  pose proof (ten_pos a Ha) as T. assert (P : 0 <= p) by apply Z.log2_up_nonneg.
  assert (E : forall b n, 0 <= n -> (inject_Z b ^ n == inject_Z (b ^ n))%Q) by (intros; symmetry; now apply Zpower_Qpower).
  assert (A : 10 ^ a <= 2 ^ p). { apply Z.log2_log2_up_spec. exact T. }
  assert (B : 2 ^ (p + 1) <= 10 ^ (a + 1)).
  { rewrite !Z.pow_add_r by lia. change (2 ^ 1) with 2. change (10 ^ 1) with 10.
    assert (2 ^ p <= 2 * 10 ^ a); [|lia]. pose proof (Z.le_log2_up_succ_log2 (10 ^ a)) as U. fold p in U.
    destruct (Z.log2_spec (10 ^ a) T) as [V _]. apply Z.le_trans with (2 ^ Z.succ (Z.log2 (10 ^ a))); [apply Z.pow_le_mono_r; lia|].
    rewrite Z.pow_succ_r by apply Z.log2_nonneg. lia. }
  assert (A' : ((10 # 1) ^ a <= (2 # 1) ^ p)%Q) by (apply (Qpow_le 10 a 2 p); lia).
  assert (B' : ((2 # 1) ^ (p + 1) <= (10 # 1) ^ (a + 1))%Q) by (apply (Qpow_le 2 (p + 1) 10 (a + 1)); lia).
  assert (C : ((2 # 1) ^ p < (2 # 1) ^ (p + 1))%Q) by (apply Qpower_lt_compat_l; [lia|reflexivity]).
  assert (R1 : rounds ((2 # 1) ^ p) f) by (apply (rounds_convex x _ v); auto; lra).
  assert (R2 : rounds ((2 # 1) ^ (p + 1)) f) by (apply (rounds_convex x _ v); auto; lra).
  assert (p + 1 < 1024) by (apply (Qpower_lt_compat_l_inv (2 # 1)); [apply (rounds_small _ _ R2)|reflexivity]).
  destruct (power_canonical p ltac:(lia)) as (y & Cy & Vy). destruct (power_canonical (p + 1) ltac:(lia)) as (z & Cz & Vz).
  pose proof (rounds_unique _ _ _ (rounds_compat _ _ _ (Qeq_sym _ _ Vy) R1) (rounds_self y Cy)) as F1.
  pose proof (rounds_unique _ _ _ (rounds_compat _ _ _ (Qeq_sym _ _ Vz) R2) (rounds_self z Cz)) as F2.
  rewrite <- F1 in Vy. rewrite <- F2, Vy in Vz. rewrite Vz in C. exact (Qlt_irrefl _ C).
Qed.

Lemma dec_lt n k m : (dec n k < (10 # 1) ^ m)%Q -> 0 <= m + k -> n < 10 ^ (m + k).
Proof.
  intros H K. rewrite dec_pow in H. pose proof (ten_lt k) as T. apply (Qmult_lt_r _ _ _ T) in H.
  rewrite <- Qmult_assoc, <- !Qpower_plus in H by apply ten0. replace (- k + k) with 0 in H by lia.
  setoid_replace (inject_Z n * (10 # 1) ^ 0)%Q with (inject_Z n) in H by (cbn; ring).
  rewrite Zlt_Qlt, Zpower_Qpower by exact K. exact H.
Qed.
Lemma lt_dec n k m : n < 10 ^ (m + k) -> 0 <= m + k -> (dec n k < (10 # 1) ^ m)%Q.
Proof.
  intros H K. rewrite dec_pow. pose proof (ten_lt k) as T. apply (Qmult_lt_r _ _ _ T).
  rewrite <- Qmult_assoc, <- !Qpower_plus by apply ten0. replace (- k + k) with 0 by lia.
  setoid_replace (inject_Z n * (10 # 1) ^ 0)%Q with (inject_Z n) by (cbn; ring).
  rewrite Zlt_Qlt, Zpower_Qpower in H by exact K. exact H.
Qed.

(** Any decimal with a digits before and j after the dot. *)
Theorem format_float_len f n a j : canonical f -> (1 <= a)%nat -> 0 <= n < 10 ^ Z.of_nat (a + j) -> rounds (dec n (Z.of_nat j)) f ->
  (List.length (format_float f) <= a + 1 + j)%nat.
Proof.
  intros Hf Ha Hn R. destruct (Z.eq_dec (fm f) 0) as [Z0|Z0].
  { unfold format_float. rewrite Z0. cbn [Z.eqb List.length]. lia. }
  assert (H : 0 < fm f) by (destruct Hf as [->|?]; cbn in *; lia).
  destruct (format_float_spec f Hf H) as (m & k & Hm & -> & Rk & _ & Min).
  assert (Kj : k <= Z.of_nat j). { destruct (Z.le_gt_cases k (Z.of_nat j)) as [|G]; [assumption|]. destruct (Min n _ G (proj1 Hn) R). }
  assert (X : (dec n (Z.of_nat j) < (10 # 1) ^ Z.of_nat a)%Q) by (apply lt_dec; [rewrite <- Nat2Z.inj_add|]; lia).
  pose proof (apart _ _ _ (Z.of_nat a) R Rk ltac:(lia) X) as V. unfold show. destruct (Z.leb_spec 0 k) as [K|K].
  - destruct (Z.eq_dec k 0) as [->|K0].
    + unfold put_dot. cbn [Z.eqb]. apply dec_lt in V; [|lia].
      pose proof (format_int_len m (a + 1) ltac:(split; [lia|]; replace (Z.of_nat (a + 1)) with (Z.of_nat a + 1 + 0) by lia; exact V) ltac:(lia)). lia.
    + assert (B : m < 10 ^ (Z.of_nat a + Z.of_nat j)).
      { destruct (Z.eq_dec k (Z.of_nat j)) as [E|E].
        - apply Z.lt_nge. intros G.
          assert (P : rounds (dec 1 (- Z.of_nat a)) f).
          { assert (D : (dec 1 (- Z.of_nat a) == (10 # 1) ^ Z.of_nat a)%Q) by (rewrite dec_pow, Z.opp_involutive; ring).
            apply (rounds_convex (dec n (Z.of_nat j)) _ (dec m k)); auto; rewrite D; [now apply Qlt_le_weak|].
            apply Qnot_lt_le. intros C. apply dec_lt in C; [|lia]. rewrite E in C. lia. }
          revert P. apply Min; lia.
        - apply dec_lt in V; [|lia]. eapply Z.lt_le_trans; [exact V|]. apply Z.pow_le_mono_r; lia. }
      pose proof (put_dot_len m k (a + j) ltac:(rewrite Nat2Z.inj_add; lia) ltac:(lia) ltac:(lia)). lia.
  - assert (M : 0 <= m * 10 ^ (- k)) by (pose proof (ten_pos (- k) ltac:(lia)); nia).
    assert (B : m * 10 ^ (- k) < 10 ^ (Z.of_nat a + 1)).
    { unfold dec in V. destruct (Z.leb_spec 0 k); [lia|]. rewrite Zlt_Qlt, (Zpower_Qpower 10 (Z.of_nat a + 1)) by lia. exact V. }
    pose proof (format_int_len (m * 10 ^ (- k)) (a + 1) ltac:(split; [lia|]; replace (Z.of_nat (a + 1)) with (Z.of_nat a + 1) by lia; exact B) ltac:(lia)). lia.
Qed.

(** Any decimal text: digits, a dot, digits. *)
Lemma digits_bound s : forallb is_digit s = true -> 0 <= dec_val s < 10 ^ Z.of_nat (List.length s).
Proof.
  intros H. split; [apply (dec_from_nonneg s H 0); lia|]. revert H. unfold dec_val.
  assert (G : forall s b k, forallb is_digit s = true -> b < k -> fold_left (fun a c => 10 * a + (c - 48)) s b < k * 10 ^ Z.of_nat (List.length s)).
  { clear. induction s as [|c s IH]; intros b k H L; [cbn; lia|]. cbn [forallb] in H. apply andb_prop in H as [Hc H].
    unfold is_digit in Hc. cbn [fold_left List.length]. specialize (IH (10 * b + (c - 48)) (10 * k) H ltac:(lia)).
    rewrite Nat2Z.inj_succ, Z.pow_succ_r by lia. lia. }
  intros H. specialize (G s 0 1 H ltac:(lia)). lia.
Qed.
Lemma split_dot_spec s : let '(a, b) := split_dot s in match b with Some b => s = a ++ 46 :: b | None => s = a end /\ ~ In 46 a.
Proof.
  induction s as [|c s IH]; cbn [split_dot]; [auto|]. destruct (Z.eqb_spec c 46) as [->|N]; [auto|].
  destruct (split_dot s) as [a [b|]]; destruct IH as [-> H]; (split; [reflexivity|]); intros [E|E]; auto.
Qed.
Theorem shorter s c f : parse_float (c :: s) = Some f -> is_digit c = true -> In 46 s -> (List.length (format_float f) <= List.length (c :: s))%nat.
Proof.
  intros P Hc D. unfold parse_float in P. pose proof (split_dot_spec (c :: s)) as S. destruct (split_dot (c :: s)) as [a [b|]].
  2:{ destruct S as [<- N]. destruct N. now right. }
  destruct S as [E N]. destruct a as [|c' a]; [injection E as -> _; discriminate Hc|]. 
  destruct (digits_val ((c' :: a) ++ b)) as [n|] eqn:V; [|discriminate]. cbn [app] in P. apply digits_val_some in V as [V ->].
  rewrite E. rewrite app_length. cbn [List.length].
  pose proof (digits_bound _ V) as B. rewrite <- (pow_pos 10 (zlen b)) in P by (unfold zlen; lia).
  pose proof (proj1 (round_rat_rounds _ _ f (proj1 B)) P) as R.
  assert (C : canonical f) by apply R. rewrite app_length in B.
  pose proof (format_float_len f _ (List.length (c' :: a)) (List.length b) C ltac:(cbn; lia) B) as G.
  assert (R' : rounds (dec (dec_val ((c' :: a) ++ b)) (Z.of_nat (List.length b))) f).
  { unfold dec. destruct (Z.leb_spec 0 (Z.of_nat (List.length b))); [|lia]. exact R. }
  specialize (G R'). cbn [List.length] in G. lia.
Qed.
