(** Binary64 rounding: [round_rat] is round-to-nearest-even. *)
From Coq Require Import ZArith QArith Qabs List Bool Lia ZifyBool.
From Verif Require Import Base AST Num ValueSpec.
Import ListNotations.
Open Scope Z_scope.

(** Rounding of num/den to an integer, ties to even. *)
Definition rne (num den : Z) : Z :=
  let q := num / den in
  let r := num mod den in
  if 2 * r <? den then q else if den <? 2 * r then q + 1
  else if Z.even q then q else q + 1.

Lemma rne_spec num den : 0 < den ->
  (forall k, Z.abs (rne num den * den - num) <= Z.abs (k * den - num)) /\
  (forall k, Z.abs (rne num den * den - num) = Z.abs (k * den - num) -> k <> rne num den ->
             Z.even (rne num den) = true) /\
  2 * Z.abs (rne num den * den - num) <= den /\
  (2 * Z.abs (rne num den * den - num) = den -> Z.even (rne num den) = true).
Proof.
  intros Hd. unfold rne.
  pose proof (Z.div_mod num den ltac:(lia)) as E. pose proof (Z.mod_pos_bound num den Hd) as B.
  set (q := num / den) in *. set (r := num mod den) in *. clearbody q r.
  assert (K : forall k, k <= q /\ k * den <= q * den \/ q + 1 <= k /\ (q + 1) * den <= k * den).
  { intros k. destruct (Z.le_gt_cases k q); [left|right]; split; try lia;
      apply Z.mul_le_mono_nonneg_r; lia. }
  assert (K' : forall k, k < q -> k * den <= q * den - den) by (intros k H; nia).
  assert (K'' : forall k, q + 1 < k -> (q + 1) * den + den <= k * den) by (intros k H; nia).
  assert (Ev : Z.even (q + 1) = negb (Z.even q)) by (rewrite Z.even_add; destruct (Z.even q); reflexivity).
  destruct (Z.ltb_spec (2 * r) den); [|destruct (Z.ltb_spec den (2 * r)); [|destruct (Z.even q) eqn:Q]].
  - repeat split.
    + intros k. specialize (K k). nia.
    + intros k H1 H2. specialize (K k). specialize (K' k). specialize (K'' k). nia.
    + nia.
    + nia.
  - repeat split.
    + intros k. specialize (K k). nia.
    + intros k H1 H2. specialize (K k). specialize (K' k). specialize (K'' k). nia.
    + nia.
    + nia.
  - repeat split; auto.
    + intros k. specialize (K k). nia.
    + nia.
  - repeat split; try (intros; rewrite Ev; reflexivity).
    + intros k. specialize (K k). nia.
    + nia.
Qed.

Definition num_at (n e : Z) : Z := if 0 <=? e then n else n * 2 ^ (- e).
Definition den_at (d e : Z) : Z := if 0 <=? e then d * 2 ^ e else d.

Lemma den_at_pos d e : 0 < d -> 0 < den_at d e.
Proof. intros H. unfold den_at. destruct (Z.leb_spec 0 e); [|lia]. apply Z.mul_pos_pos; [lia|]. apply Z.pow_pos_nonneg; lia. Qed.

(** Common scale: multiply by 2^T. *)
Lemma scale n d e T : 0 < d -> 0 <= T -> 0 <= e + T ->
  exists c, 0 < c /\ c * num_at n e = n * 2 ^ T /\ c * den_at d e = 2 ^ (e + T) * d.
Proof.
  intros Hd HT He. unfold num_at, den_at. destruct (Z.leb_spec 0 e).
  - exists (2 ^ T). repeat split; [apply Z.pow_pos_nonneg; lia|ring|].
    rewrite Z.pow_add_r by lia. ring.
  - exists (2 ^ (e + T)). repeat split; [apply Z.pow_pos_nonneg; lia|].
    replace T with ((e + T) + (- e)) at 2 by lia. rewrite (Z.pow_add_r 2 (e + T) (- e)) by lia. ring.
Qed.

Lemma round_rat_eq n d : n <> 0 ->
  round_rat n d =
  (let e0 := Z.log2 n - Z.log2 d - 53 in
   let e1 := if 2 ^ 52 * den_at d (e0 + 1) <=? num_at n (e0 + 1) then e0 + 1 else e0 in
   let e := Z.max e1 (-1074) in
   let m := rne (num_at n e) (den_at d e) in
   let '(m, e) := if m =? 2 ^ 53 then (2 ^ 52, e + 1) else (m, e) in
   if 971 <? e then None else if m =? 0 then Some (mkF 0 0) else Some (mkF m e)).
Proof.
  intros H. unfold round_rat. destruct (Z.eqb_spec n 0); [lia|]. clear n0.
  cbv zeta. unfold rne, num_at, den_at.
  replace (if 0 <=? Z.log2 n - Z.log2 d - 53 + 1
    then 2 ^ 52 * d * 2 ^ (Z.log2 n - Z.log2 d - 53 + 1) <=? n
    else 2 ^ 52 * d <=? n * 2 ^ (- (Z.log2 n - Z.log2 d - 53 + 1)))
  with (2 ^ 52 *
      (if 0 <=? Z.log2 n - Z.log2 d - 53 + 1 then d * 2 ^ (Z.log2 n - Z.log2 d - 53 + 1) else d) <=?
      (if 0 <=? Z.log2 n - Z.log2 d - 53 + 1 then n else n * 2 ^ (- (Z.log2 n - Z.log2 d - 53 + 1)))).
  - reflexivity.
  - destruct (0 <=? _); [rewrite Z.mul_assoc|]; reflexivity.
Qed.

(** The exponent: 2^52 <= n/(d*2^e1) < 2^53. *)
Lemma exponent n d : 0 < n -> 0 < d ->
  let e0 := Z.log2 n - Z.log2 d - 53 in
  let e1 := if 2 ^ 52 * den_at d (e0 + 1) <=? num_at n (e0 + 1) then e0 + 1 else e0 in
  2 ^ 52 * den_at d e1 <= num_at n e1 < 2 ^ 53 * den_at d e1.
Proof.
  intros Hn Hd e0. set (T := Z.max 0 (- e0)).
  pose proof (Z.log2_spec n Hn) as [N1 N2]. pose proof (Z.log2_spec d Hd) as [D1 D2].
  pose proof (Z.log2_nonneg n) as N0. pose proof (Z.log2_nonneg d) as D0.
  destruct (scale n d e0 T Hd ltac:(lia) ltac:(lia)) as (c & Hc & C1 & C2).
  destruct (scale n d (e0 + 1) T Hd ltac:(lia) ltac:(lia)) as (c' & Hc' & C1' & C2').
  set (P := 2 ^ (e0 + T)) in *.
  assert (HP : 2 ^ (e0 + 1 + T) = 2 * P).
  { unfold P. replace (e0 + 1 + T) with (Z.succ (e0 + T)) by lia. apply Z.pow_succ_r. lia. }
  rewrite HP in C2'. clear HP.
  assert (P0 : 0 < P) by (apply Z.pow_pos_nonneg; lia).
  (* n * 2^T lies between 2^52 * P * d and 2^54 * P * d *)
  assert (L : 2 ^ 52 * (P * d) < n * 2 ^ T).
  { apply Z.lt_le_trans with (2 ^ 52 * (P * 2 ^ Z.succ (Z.log2 d))).
    - apply Z.mul_lt_mono_pos_l; [lia|]. apply Z.mul_lt_mono_pos_l; lia.
    - replace (2 ^ 52 * (P * 2 ^ Z.succ (Z.log2 d))) with (2 ^ Z.log2 n * 2 ^ T).
      + apply Z.mul_le_mono_nonneg_r; [|lia]. apply Z.pow_nonneg; lia.
      + unfold P. rewrite <- !Z.pow_add_r by lia. f_equal. unfold e0. lia. }
  assert (U : n * 2 ^ T < 2 ^ 54 * (P * d)).
  { apply Z.lt_le_trans with (2 ^ Z.succ (Z.log2 n) * 2 ^ T).
    - apply Z.mul_lt_mono_pos_r; [|lia]. apply Z.pow_pos_nonneg; lia.
    - replace (2 ^ Z.succ (Z.log2 n) * 2 ^ T) with (2 ^ 54 * (P * 2 ^ Z.log2 d)).
      + apply Z.mul_le_mono_nonneg_l; [lia|]. apply Z.mul_le_mono_nonneg_l; lia.
      + unfold P. rewrite <- !Z.pow_add_r by lia. f_equal. unfold e0. lia. }
  clear N1 N2 D1 D2. generalize dependent (n * 2 ^ T). intros X L U C1 C1'.
  change (2 ^ 54) with (4 * 2 ^ 52) in U. change (2 ^ 53) with (2 * 2 ^ 52).
  destruct (Z.leb_spec (2 ^ 52 * den_at d (e0 + 1)) (num_at n (e0 + 1))) as [F|F]; cbv zeta.
  - split; [exact F|]. apply Z.mul_lt_mono_pos_l with (p := c'); [exact Hc'|]. nia.
  - split.
    + apply Z.mul_le_mono_pos_l with (p := c); [exact Hc|]. nia.
    + apply Z.mul_lt_mono_pos_l with (p := c); [exact Hc|].
      assert (G : c' * num_at n (e0 + 1) < c' * (2 ^ 52 * den_at d (e0 + 1)))
        by (apply Z.mul_lt_mono_pos_l; assumption). nia.
Qed.

(** Floats as integers in units of 2^-1074. *)
Definition units (f : f64) : Z := fm f * 2 ^ (fe f + 1074).

Lemma units_val f : -1074 <= fe f -> (f_val f == inject_Z (units f) / inject_Z (2 ^ 1074))%Q.
Proof.
  intros H. unfold f_val, units.
  assert (S : 0 < 2 ^ 1074) by (apply Z.pow_pos_nonneg; lia).
  destruct (Z.leb_spec 0 (fe f)).
  - rewrite Z.pow_add_r by lia. generalize dependent (2 ^ 1074). intros S HS.
    rewrite Z.mul_assoc, (inject_Z_mult (fm f * 2 ^ fe f) S).
    field. intros E. apply (inject_Z_injective S 0) in E. lia.
  - assert (E : 2 ^ 1074 = 2 ^ (fe f + 1074) * 2 ^ (- fe f)) by (rewrite <- Z.pow_add_r by lia; f_equal; lia).
    rewrite E. clear E S. assert (A : 0 < 2 ^ (fe f + 1074)) by (apply Z.pow_pos_nonneg; lia).
    assert (B : 0 < 2 ^ (- fe f)) by (apply Z.pow_pos_nonneg; lia).
    generalize dependent (2 ^ (fe f + 1074)). generalize dependent (2 ^ (- fe f)). intros b Hb a Ha.
    unfold Qeq, Qdiv, Qmult, Qinv, inject_Z. cbn [Qnum Qden].
    destruct a as [|a|]; try lia. destruct b as [|b|]; try lia. cbn. lia.
Qed.

Lemma canonical_fe f : canonical f -> -1074 <= fe f.
Proof. intros [->|H]; cbn; lia. Qed.

Lemma canonical_units f : canonical f -> 0 <= units f.
Proof. intros [->|H]; [unfold units; cbn [fm]; lia|]. unfold units. apply Z.mul_nonneg_nonneg; [lia|]. apply Z.pow_nonneg; lia. Qed.

Lemma canonical_inj f g : canonical f -> canonical g -> units f = units g -> f = g.
Proof.
  assert (Z0 : forall x, canonical x -> units x = 0 -> x = mkF 0 0).
  { intros x [->|H] E; [reflexivity|]. unfold units in E.
    assert (0 < 2 ^ (fe x + 1074)) by (apply Z.pow_pos_nonneg; lia). nia. }
  assert (L : forall x y, canonical x -> canonical y -> 0 < fm x -> 0 < fm y -> fe x < fe y -> units x < units y).
  { intros x y [->|Hx] [->|Hy] P1 P2 E; cbn [fm] in *; try lia. unfold units.
    replace (fe y + 1074) with ((fe y - fe x - 1) + 1 + (fe x + 1074)) by lia.
    rewrite (Z.pow_add_r 2 (fe y - fe x - 1 + 1)), (Z.pow_add_r 2 (fe y - fe x - 1) 1) by lia. assert (A : 0 < 2 ^ (fe x + 1074)) by (apply Z.pow_pos_nonneg; lia).
    assert (B : 0 < 2 ^ (fe y - fe x - 1)) by (apply Z.pow_pos_nonneg; lia). 
    assert (C : 2 ^ 52 <= fm y) by lia. assert (D : fm x < 2 ^ 53) by lia.
    rewrite !Z.mul_assoc. apply Z.mul_lt_mono_pos_r; [exact A|].
    change (2 ^ 53) with (2 * 2 ^ 52) in D. change (2 ^ 1) with 2. nia. }
  intros Hf Hg E.
  destruct (Z.eq_dec (units f) 0) as [U|U]; [rewrite (Z0 f Hf U); symmetry; apply (Z0 g Hg); lia|].
  assert (P : forall x, canonical x -> units x <> 0 -> 0 < fm x).
  { intros x [->|H] V; [unfold units in V; cbn [fm] in V; lia|lia]. }
  pose proof (P f Hf U) as Pf. pose proof (P g Hg ltac:(lia)) as Pg.
  destruct (Z.lt_trichotomy (fe f) (fe g)) as [T|[T|T]].
  - pose proof (L f g Hf Hg Pf Pg T). lia.
  - destruct f as [a b], g as [a' b']. cbn [fm fe] in *. subst b'. f_equal. unfold units in E. cbn [fm fe] in E.
    apply Z.mul_reg_r in E; [exact E|]. apply canonical_fe in Hf. cbn in Hf.
    pose proof (Z.pow_pos_nonneg 2 (b + 1074)). lia.
  - pose proof (L g f Hg Hf Pg Pf T). lia.
Qed.

(** Distances, in units of 1/(d*2^1074). *)
Lemma dist f n d : -1074 <= fe f ->
  (Qabs (f_val f - Qmake n d) == Qabs (inject_Z (units f * Zpos d - n * 2 ^ 1074)) / inject_Z (Zpos d * 2 ^ 1074))%Q.
Proof.
  intros H. rewrite (units_val f H). assert (S : 0 < 2 ^ 1074) by (apply Z.pow_pos_nonneg; lia).
  generalize dependent (2 ^ 1074). intros S HS. rewrite (Qmake_Qdiv n d).
  assert (Q1 : ~ (inject_Z S == 0)%Q) by (intros E; apply (inject_Z_injective S 0) in E; lia).
  assert (Q2 : ~ (inject_Z (Zpos d) == 0)%Q) by (intros E; apply (inject_Z_injective (Zpos d) 0) in E; lia).
  setoid_replace (inject_Z (units f) / inject_Z S - inject_Z n / inject_Z (Zpos d))%Q
    with (inject_Z (units f * Zpos d - n * S) / inject_Z (Zpos d * S))%Q.
  - unfold Qdiv. rewrite Qabs_Qmult. apply Qmult_comp; [reflexivity|].
    apply Qabs_pos. apply Qinv_le_0_compat. change 0%Q with (inject_Z 0). rewrite <- Zle_Qle. lia.
  - unfold Z.sub. rewrite inject_Z_plus, inject_Z_opp, !inject_Z_mult. field. split; assumption.
Qed.

Lemma dist_le f g n d : -1074 <= fe f -> -1074 <= fe g ->
  ((Qabs (f_val f - Qmake n d) <= Qabs (f_val g - Qmake n d))%Q <->
   Z.abs (units f * Zpos d - n * 2 ^ 1074) <= Z.abs (units g * Zpos d - n * 2 ^ 1074)).
Proof.
  intros Hf Hg. rewrite (dist f n d Hf), (dist g n d Hg).
  assert (S : 0 < Zpos d * 2 ^ 1074) by (apply Z.mul_pos_pos; [lia|apply Z.pow_pos_nonneg; lia]).
  generalize dependent (Zpos d * 2 ^ 1074). intros S HS.
  assert (Q : (0 < / inject_Z S)%Q).
  { apply Qinv_lt_0_compat. change 0%Q with (inject_Z 0). rewrite <- Zlt_Qlt. exact HS. }
  unfold Qdiv. rewrite Qmult_le_r by exact Q.
  assert (A : forall z, (Qabs (inject_Z z) == inject_Z (Z.abs z))%Q) by (intros z; reflexivity).
  rewrite !A, <- Zle_Qle. reflexivity.
Qed.

Lemma Qle_eq a b : (a == b)%Q <-> (a <= b /\ b <= a)%Q.
Proof. split; [intros ->; split; apply Qle_refl|intros [? ?]; apply Qle_antisym; assumption]. Qed.

(** Nearest, on integers. *)
Lemma nearest_units n d f : canonical f ->
  (forall g, canonical g ->
     Z.abs (units f * Zpos d - n * 2 ^ 1074) <= Z.abs (units g * Zpos d - n * 2 ^ 1074) /\
     (Z.abs (units f * Zpos d - n * 2 ^ 1074) = Z.abs (units g * Zpos d - n * 2 ^ 1074) ->
      units g <> units f -> Z.even (fm f) = true)) ->
  nearest (Qmake n d) f.
Proof.
  intros Hf H. split; [exact Hf|]. intros g Hg. destruct (H g Hg) as [H1 H2].
  pose proof (canonical_fe f Hf) as Ef. pose proof (canonical_fe g Hg) as Eg. split.
  - apply dist_le; assumption.
  - intros E N. apply H2.
    + apply Qle_eq in E. destruct E as [E1 E2]. apply dist_le in E1, E2; try assumption. lia.
    + intros U. apply N. apply canonical_inj; assumption.
Qed.

Lemma canonical_zero : canonical (mkF 0 0).
Proof. left. reflexivity. Qed.

Lemma overflow_iff n d : (f_overflow <= Qmake n d)%Q <-> (2 ^ 1024 - 2 ^ 970) * Zpos d <= n.
Proof. unfold f_overflow, Qle, inject_Z. cbn [Qnum Qden]. rewrite Z.mul_1_r. reflexivity. Qed.

Lemma round_rat_nearest n d : 0 <= n ->
  match round_rat n (Zpos d) with
  | Some f => nearest (Qmake n d) f /\ (Qmake n d < f_overflow)%Q
  | None => (f_overflow <= Qmake n d)%Q
  end.
Proof.
  intros Hn. destruct (Z.eq_dec n 0) as [->|N0].
  { cbn [round_rat Z.eqb]. split.
    - apply nearest_units; [apply canonical_zero|]. intros g Hg. pose proof (canonical_units g Hg) as U.
      split; [|reflexivity]. change (units (mkF 0 0)) with 0. lia.
    - apply Qnot_le_lt. rewrite overflow_iff.
      assert (0 < 2 ^ 1024 - 2 ^ 970) by (vm_compute; reflexivity). nia. }
  rewrite (round_rat_eq n (Zpos d) N0).
  pose proof (exponent n (Zpos d) ltac:(lia) ltac:(lia)) as EX.
  set (e0 := Z.log2 n - Z.log2 (Zpos d) - 53) in *. cbv zeta in EX |- *.
  set (e1 := if 2 ^ 52 * den_at (Zpos d) (e0 + 1) <=? num_at n (e0 + 1) then e0 + 1 else e0) in *.
  clearbody e1. clear e0.
  set (e := Z.max e1 (-1074)).
  destruct (scale n (Zpos d) e1 (Z.max 1074 (- e1)) ltac:(lia) ltac:(lia) ltac:(lia)) as (c1 & Hc1 & A1 & B1).
  destruct (scale n (Zpos d) e (Z.max 1074 (- e1)) ltac:(lia) ltac:(lia) ltac:(lia)) as (c2 & Hc2 & A2 & B2).
  destruct (scale n (Zpos d) e 1074 ltac:(lia) ltac:(lia) ltac:(lia)) as (c & Hc & A & B).
  (* bounds on the scaled quotient *)
  assert (Up : num_at n e < 2 ^ 53 * den_at (Zpos d) e).
  { apply Z.mul_lt_mono_pos_l with (p := c2); [exact Hc2|].
    rewrite A2, <- A1. replace (c2 * (2 ^ 53 * den_at (Zpos d) e)) with (2 ^ 53 * (c2 * den_at (Zpos d) e)) by ring.
    rewrite B2. apply Z.lt_le_trans with (2 ^ 53 * (c1 * den_at (Zpos d) e1)).
    - replace (2 ^ 53 * (c1 * den_at (Zpos d) e1)) with (c1 * (2 ^ 53 * den_at (Zpos d) e1)) by ring.
      apply Z.mul_lt_mono_pos_l; [exact Hc1|]. apply EX.
    - rewrite B1. apply Z.mul_le_mono_nonneg_l; [lia|]. apply Z.mul_le_mono_nonneg_r; [lia|].
      apply Z.pow_le_mono_r; lia. }
  assert (Lo : -1074 < e -> 2 ^ 52 * den_at (Zpos d) e <= num_at n e).
  { intros H. assert (e = e1) as -> by lia. apply EX. }
  clear EX A1 B1 A2 B2 c1 Hc1 c2 Hc2.
  assert (He : -1074 <= e) by lia. clearbody e. clear e1.
  pose proof (den_at_pos (Zpos d) e ltac:(lia)) as Dp.
  set (num := num_at n e) in *. set (den := den_at (Zpos d) e) in *.
  assert (Np : 0 <= num).
  { unfold num, num_at. destruct (0 <=? e); [exact Hn|]. apply Z.mul_nonneg_nonneg; [lia|]. apply Z.pow_nonneg; lia. }
  clearbody num den.
  destruct (rne_spec num den Dp) as (R1 & R2 & R3 & R4).
  set (m := rne num den) in *. clearbody m.
  assert (Mu : m <= 2 ^ 53) by nia. assert (Ml : 0 <= m) by nia.
  assert (Ml' : -1074 < e -> 2 ^ 52 <= m).
  { intros H. specialize (Lo H). destruct (Z.le_gt_cases (2 ^ 52) m); [assumption|exfalso]. nia. }
  (* every integer multiple of 2^e *)
  assert (K : forall k, k * 2 ^ (e + 1074) * Zpos d - n * 2 ^ 1074 = c * (k * den - num)).
  { intros k. rewrite Z.mul_sub_distr_l, A. f_equal. replace (c * (k * den)) with (k * (c * den)) by ring.
    rewrite B. ring. }
  assert (Pe : 0 < 2 ^ (e + 1074)) by (apply Z.pow_pos_nonneg; lia).
  assert (Near : forall f, canonical f -> units f = m * 2 ^ (e + 1074) ->
                           (Z.even m = true -> Z.even (fm f) = true) -> nearest (Qmake n d) f).
  { intros f Hf Uf Ef. apply nearest_units; [exact Hf|]. intros g Hg. rewrite Uf, K, Z.abs_mul, (Z.abs_eq c) by lia.
    destruct (Z.le_gt_cases e (fe g)) as [G|G].
    - assert (Ug : units g = (fm g * 2 ^ (fe g - e)) * 2 ^ (e + 1074)).
      { unfold units. rewrite <- Z.mul_assoc, <- Z.pow_add_r by lia. f_equal. f_equal. lia. }
      rewrite Ug, K, Z.abs_mul, (Z.abs_eq c) by lia. split.
      + apply Z.mul_le_mono_nonneg_l; [lia|]. apply R1.
      + intros E N. apply Ef. apply R2 with (k := fm g * 2 ^ (fe g - e)).
        * apply Z.mul_reg_l in E; [exact E|lia].
        * intros E'. apply N. rewrite E'. reflexivity.
    - assert (He' : -1074 < e) by (pose proof (canonical_fe g Hg); lia).
      specialize (Lo He').
      assert (Ug : units g < 2 ^ 52 * 2 ^ (e + 1074)).
      { destruct Hg as [->|Hg]; [change (units (mkF 0 0)) with 0; apply Z.mul_pos_pos; [lia|assumption]|].
        unfold units. replace (e + 1074) with ((e - fe g - 1) + 1 + (fe g + 1074)) by lia.
        rewrite (Z.pow_add_r 2 (e - fe g - 1 + 1)), (Z.pow_add_r 2 (e - fe g - 1) 1) by lia.
        assert (P1 : 0 < 2 ^ (e - fe g - 1)) by (apply Z.pow_pos_nonneg; lia).
        assert (P2 : 0 < 2 ^ (fe g + 1074)) by (apply Z.pow_pos_nonneg; lia).
        rewrite !Z.mul_assoc. apply Z.mul_lt_mono_pos_r; [exact P2|].
        assert (Hm : fm g < 2 ^ 53) by lia. change (2 ^ 53) with (2 * 2 ^ 52) in Hm. change (2 ^ 1) with 2. nia. }
      assert (S : c * Z.abs (m * den - num) < Z.abs (units g * Zpos d - n * 2 ^ 1074)).
      { apply Z.le_lt_trans with (c * Z.abs (2 ^ 52 * den - num)).
        - apply Z.mul_le_mono_nonneg_l; [lia|]. apply R1.
        - rewrite (Z.abs_neq (2 ^ 52 * den - num)) by lia.
          pose proof (K (2 ^ 52)) as K52.
          assert (units g * Zpos d < 2 ^ 52 * 2 ^ (e + 1074) * Zpos d) by (apply Z.mul_lt_mono_pos_r; lia).
          lia. }
      split; [lia|]. intros E. lia. }
  assert (Tail : forall m' e', (m' = m /\ e' = e /\ m <> 2 ^ 53) \/ (m' = 2 ^ 52 /\ e' = e + 1 /\ m = 2 ^ 53) ->
    match (if 971 <? e' then None else if m' =? 0 then Some (mkF 0 0) else Some (mkF m' e')) with
    | Some f => nearest (Qmake n d) f /\ (Qmake n d < f_overflow)%Q
    | None => (f_overflow <= Qmake n d)%Q
    end).
  { intros m' e' H.
    (* overflow in terms of num and den *)
    assert (Ov : forall k, 971 <= e -> k * den <= num -> k * 2 ^ (e - 971) * 2 ^ 971 * Zpos d <= n).
    { intros k H1 H2. assert (P : 0 < 2 ^ 1074) by (apply Z.pow_pos_nonneg; lia).
      apply Z.mul_le_mono_pos_r with (p := 2 ^ 1074); [exact P|].
      pose proof (K k) as Kk. assert (c * (k * den - num) <= 0) by nia.
      replace (2 ^ (e + 1074)) with (2 ^ (e - 971) * 2 ^ 971 * 2 ^ 1074) in Kk
        by (rewrite <- !Z.pow_add_r by lia; f_equal; lia).
      lia. }
    destruct (Z.ltb_spec 971 e') as [O|O].
    - apply overflow_iff. destruct H as [(-> & -> & H)|(-> & -> & H)].
      + pose proof (Ov (2 ^ 52) ltac:(lia) (Lo ltac:(lia))) as V.
        assert (2 * 2 ^ 0 <= 2 ^ (e - 971)).
        { rewrite <- Z.pow_succ_r by lia. apply Z.pow_le_mono_r; lia. }
        assert (2 ^ 52 * 2 * 2 ^ 971 * Zpos d <= 2 ^ 52 * 2 ^ (e - 971) * 2 ^ 971 * Zpos d).
        { apply Z.mul_le_mono_nonneg_r; [lia|]. apply Z.mul_le_mono_nonneg_r; [apply Z.pow_nonneg; lia|].
          apply Z.mul_le_mono_nonneg_l; [lia|]. change (2 ^ 0) with 1 in *. lia. }
        change (2 ^ 52 * 2 * 2 ^ 971) with (2 ^ 1024) in *.
        assert (0 < 2 ^ 970) by (vm_compute; reflexivity). nia.
      + (* num >= (2^53 - 1/2) den *)
        assert (V : (2 * 2 ^ 53 - 1) * den <= 2 * num) by nia.
        assert (P : 0 < 2 ^ 1074) by (apply Z.pow_pos_nonneg; lia).
        apply Z.mul_le_mono_pos_r with (p := 2 * 2 ^ 1074); [lia|].
        assert (C : c * ((2 * 2 ^ 53 - 1) * den) <= 2 * (c * num)) by nia.
        replace (c * ((2 * 2 ^ 53 - 1) * den)) with ((2 * 2 ^ 53 - 1) * (c * den)) in C by ring.
        rewrite A, B in C.
        assert (E971 : 2 ^ 971 * 2 ^ 1074 <= 2 ^ (e + 1074)).
        { rewrite <- Z.pow_add_r by lia. apply Z.pow_le_mono_r; lia. }
        assert (Q : (2 * 2 ^ 53 - 1) * (2 ^ 971 * 2 ^ 1074 * Zpos d) <= (2 * 2 ^ 53 - 1) * (2 ^ (e + 1074) * Zpos d)).
        { apply Z.mul_le_mono_nonneg_l; [lia|]. apply Z.mul_le_mono_nonneg_r; lia. }
        replace ((2 ^ 1024 - 2 ^ 970) * Zpos d * (2 * 2 ^ 1074))
          with ((2 * 2 ^ 53 - 1) * (2 ^ 971 * 2 ^ 1074 * Zpos d)).
        * lia.
        * change ((2 ^ 1024 - 2 ^ 970)) with ((2 * 2 ^ 53 - 1) * 2 ^ 970).
          change (2 ^ 971) with (2 * 2 ^ 970). ring.
    - assert (Lt : (Qmake n d < f_overflow)%Q).
      { apply Qnot_le_lt. rewrite overflow_iff. intros V.
        assert (P : 0 < 2 ^ 1074) by (apply Z.pow_pos_nonneg; lia).
        assert (V' : (2 * 2 ^ 53 - 1) * (2 ^ 971 * 2 ^ 1074 * Zpos d) <= 2 * (n * 2 ^ 1074)).
        { replace ((2 * 2 ^ 53 - 1) * (2 ^ 971 * 2 ^ 1074 * Zpos d))
            with ((2 ^ 1024 - 2 ^ 970) * Zpos d * (2 * 2 ^ 1074)).
          - replace (2 * (n * 2 ^ 1074)) with (n * (2 * 2 ^ 1074)) by ring.
            apply Z.mul_le_mono_nonneg_r; lia.
          - change ((2 ^ 1024 - 2 ^ 970)) with ((2 * 2 ^ 53 - 1) * 2 ^ 970).
            change (2 ^ 971) with (2 * 2 ^ 970). ring. }
        assert (E971 : 2 ^ (e + 1074) <= 2 ^ 971 * 2 ^ 1074).
        { rewrite <- Z.pow_add_r by lia. apply Z.pow_le_mono_r; lia. }
        rewrite <- A in V'.
        assert (W : (2 * 2 ^ 53 - 1) * (c * den) <= 2 * (c * num)).
        { apply Z.le_trans with ((2 * 2 ^ 53 - 1) * (2 ^ 971 * 2 ^ 1074 * Zpos d)); [|exact V'].
          apply Z.mul_le_mono_nonneg_l; [lia|]. rewrite B. apply Z.mul_le_mono_nonneg_r; lia. }
        assert (W' : (2 * 2 ^ 53 - 1) * den <= 2 * num).
        { apply Z.mul_le_mono_pos_l with (p := c); [exact Hc|]. lia. }
        assert (m <> 2 ^ 53 -> False).
        { intros N. assert (m <= 2 ^ 53 - 1) by lia.
          assert (Dq : 2 * Z.abs (m * den - num) = den /\ m = 2 ^ 53 - 1) by nia. destruct Dq as [Dq1 ->].
          specialize (R4 Dq1). discriminate R4. }
        destruct H as [(-> & -> & H)|(-> & -> & H)]; [auto|].
        (* e < 971 *)
        assert (E970 : 2 * 2 ^ (e + 1074) <= 2 ^ 971 * 2 ^ 1074).
        { rewrite <- Z.pow_succ_r, <- Z.pow_add_r by lia. apply Z.pow_le_mono_r; lia. }
        assert (W2 : (2 * 2 ^ 53 - 1) * (2 * (c * den)) <= 2 * (c * num)).
        { apply Z.le_trans with ((2 * 2 ^ 53 - 1) * (2 ^ 971 * 2 ^ 1074 * Zpos d)); [|exact V'].
          apply Z.mul_le_mono_nonneg_l; [lia|]. rewrite B, Z.mul_assoc. apply Z.mul_le_mono_nonneg_r; lia. }
        assert (c * num < c * (2 ^ 53 * den)) by (apply Z.mul_lt_mono_pos_l; assumption). nia. }
      destruct H as [(-> & -> & H)|(-> & -> & H)].
      + destruct (Z.eqb_spec m 0) as [M|M]; (split; [|exact Lt]).
        * apply Near; [apply canonical_zero|subst m; reflexivity|reflexivity].
        * apply Near; [right; cbn; lia|reflexivity|auto].
      + change (2 ^ 52 =? 0) with false. split; [|exact Lt]. apply Near.
        * right. cbn. lia.
        * unfold units. cbn [fm fe]. rewrite H. replace (e + 1 + 1074) with (Z.succ (e + 1074)) by lia.
          rewrite Z.pow_succ_r by lia. change (2 ^ 53) with (2 ^ 52 * 2). ring.
        * reflexivity. }
  destruct (Z.eqb_spec m (2 ^ 53)) as [M|M]; apply Tail; [right|left]; auto.
Qed.

(** An exactly representable number rounds to itself. *)
Lemma round_rat_exact n d f : canonical f -> (Qmake n d == f_val f)%Q -> 0 <= n -> round_rat n (Zpos d) = Some f.
Proof.
  intros Hf E Hn. pose proof (round_rat_nearest n d Hn) as H.
  pose proof (canonical_fe f Hf) as Ef.
  assert (U : units f * Zpos d - n * 2 ^ 1074 = 0).
  { assert (D : (Qabs (f_val f - Qmake n d) == 0)%Q).
    { rewrite E. setoid_replace (f_val f - f_val f)%Q with 0%Q by ring. reflexivity. }
    rewrite (dist f n d Ef) in D.
    assert (S : 0 < Zpos d * 2 ^ 1074) by (apply Z.mul_pos_pos; [lia|apply Z.pow_pos_nonneg; lia]).
    generalize dependent (Zpos d * 2 ^ 1074). intros S D HS.
    assert (Q : ~ (/ inject_Z S == 0)%Q).
    { assert (Q : (0 < / inject_Z S)%Q).
      { apply Qinv_lt_0_compat. change 0%Q with (inject_Z 0). rewrite <- Zlt_Qlt. exact HS. }
      intros F. rewrite F in Q. discriminate Q. }
    unfold Qdiv in D. apply Qmult_integral in D. destruct D as [D|D]; [|contradiction].
    change (Qabs (inject_Z (units f * Zpos d - n * 2 ^ 1074))) with (inject_Z (Z.abs (units f * Zpos d - n * 2 ^ 1074))) in D.
    apply Z.abs_0_iff. exact (proj1 (inject_Z_injective _ 0) D). }
  destruct (round_rat n (Zpos d)) as [g|].
  - destruct H as [[Hg H] _]. f_equal. destruct (H f Hf) as [L _].
    apply dist_le in L; [|apply canonical_fe; assumption..]. apply canonical_inj; try assumption.
    assert (G : units g * Zpos d = units f * Zpos d) by lia. apply Z.mul_reg_r in G; [exact G|lia].
  - exfalso. apply (proj1 (overflow_iff n d)) in H. destruct Hf as [->|Hf].
    + change (units (mkF 0 0)) with 0 in U. assert (0 < 2 ^ 1074) by (vm_compute; reflexivity).
      assert (n = 0) by (generalize dependent (2 ^ 1074); intros; nia). subst n. clear U.
      assert (P : 0 < 2 ^ 1024 - 2 ^ 970) by (vm_compute; reflexivity).
      apply (Z.lt_irrefl 0). apply Z.lt_le_trans with ((2 ^ 1024 - 2 ^ 970) * Zpos d); [|exact H].
      apply Z.mul_pos_pos; [exact P|reflexivity].
    + assert (B : units f <= (2 ^ 53 - 1) * (2 ^ 971 * 2 ^ 1074)).
      { unfold units. apply Z.le_trans with ((2 ^ 53 - 1) * 2 ^ (fe f + 1074)).
        - apply Z.mul_le_mono_nonneg_r; [apply Z.pow_nonneg; lia|lia].
        - apply Z.mul_le_mono_nonneg_l; [lia|]. rewrite <- Z.pow_add_r by lia. apply Z.pow_le_mono_r; lia. }
      assert (V : (2 ^ 1024 - 2 ^ 970) * Zpos d * 2 ^ 1074 <= n * 2 ^ 1074).
      { apply Z.mul_le_mono_nonneg_r; [apply Z.pow_nonneg; lia|exact H]. }
      assert (W : units f * Zpos d <= (2 ^ 53 - 1) * (2 ^ 971 * 2 ^ 1074) * Zpos d) by (apply Z.mul_le_mono_nonneg_r; lia).
      assert (X : (2 ^ 53 - 1) * (2 ^ 971 * 2 ^ 1074) * Zpos d < (2 ^ 1024 - 2 ^ 970) * Zpos d * 2 ^ 1074).
      { replace ((2 ^ 1024 - 2 ^ 970) * Zpos d * 2 ^ 1074) with ((2 ^ 1024 - 2 ^ 970) * 2 ^ 1074 * Zpos d) by ring.
        apply Z.mul_lt_mono_pos_r; [lia|]. vm_compute. reflexivity. }
      lia.
Qed.

(* ------------------------------------------------------------------ *)
(** ** Decimal texts *)
From Verif Require Import Dialect LexFacts NumThms.

(** Texts of digits with at most one dot inside. *)
Definition dec_text (s : list rune) (n k : Z) : Prop :=
  (digits s /\ dec_val s = n /\ k = 0) \/
  (exists a b : list rune, s = a ++ 46 :: b /\ digits a /\ digits b /\ dec_val (a ++ b) = n /\ k = zlen b).

Lemma split_none s : forallb is_digit s = true -> split_dot s = (s, None).
Proof.
  induction s as [|c s IH]; intros H; [reflexivity|]. cbn [forallb] in H. apply andb_true_iff in H.
  destruct H as [Hc H]. cbn [split_dot]. destruct (Z.eqb_spec c 46); [subst; discriminate Hc|].
  rewrite (IH H). reflexivity.
Qed.

Lemma split_some (a b : list rune) : forallb is_digit a = true -> split_dot (a ++ 46 :: b) = (a, Some b).
Proof.
  induction a as [|c a IH]; intros H; [reflexivity|]. cbn [forallb] in H. apply andb_true_iff in H.
  destruct H as [Hc H]. cbn [split_dot app]. destruct (Z.eqb_spec c 46); [subst; discriminate Hc|].
  rewrite (IH H). reflexivity.
Qed.

Lemma parse_float_text s n k : dec_text s n k -> parse_float s = round_rat n (10 ^ k).
Proof.
  intros [([H1 H2] & <- & ->)|(a & b & -> & [A1 A2] & [B1 B2] & <- & ->)]; unfold parse_float.
  - rewrite (split_none s H2), app_nil_r, (digits_val_ok _ H2). destruct s; [congruence|]. reflexivity.
  - rewrite (split_some a b A2), (digits_val_ok (a ++ b)) by (rewrite forallb_app, A2, B2; reflexivity).
    destruct a; [congruence|]. reflexivity.
Qed.

Lemma dec_from_repeat n s : dec_val (repeat 48 n ++ s) = dec_val s.
Proof. induction n as [|n IH]; [reflexivity|]. cbn [repeat app]. exact IH. Qed.

Lemma put_dot_text n k : 0 <= n -> 0 <= k -> dec_text (put_dot n k) n k.
Proof.
  intros Hn Hk. destruct (format_int_ok n Hn) as [[D1 D2] V]. unfold put_dot.
  destruct (Z.eqb_spec k 0) as [->|K]; [left; repeat split; assumption|right].
  set (ds := format_int n) in *. clearbody ds. unfold gostring, rune in *.
  set (ds' := repeat 48 (Z.to_nat (k + 1 - zlen ds)) ++ ds).
  assert (L : (Z.to_nat k < List.length ds')%nat).
  { unfold ds', zlen, rune in *. rewrite app_length, repeat_length. lia. }
  assert (D : forallb is_digit ds' = true).
  { unfold ds'. rewrite forallb_app, D2, andb_true_r. generalize (Z.to_nat (k + 1 - zlen ds)). intros j. clear. induction j; cbn; auto. }
  set (i := (List.length ds' - Z.to_nat k)%nat).
  assert (DD : forallb is_digit (firstn i ds') && forallb is_digit (skipn i ds') = true).
  { rewrite <- forallb_app, firstn_skipn. exact D. }
  apply andb_true_iff in DD. destruct DD as [DA DB].
  exists (firstn i ds'), (skipn i ds'). repeat split; auto.
  - intros E. apply (f_equal (@List.length _)) in E. rewrite firstn_length in E. cbn in E. lia.
  - intros E. apply (f_equal (@List.length _)) in E. rewrite skipn_length in E. cbn in E. lia.
  - rewrite firstn_skipn. unfold ds'. rewrite dec_from_repeat. exact V.
  - unfold zlen. rewrite skipn_length. lia.
Qed.

Lemma int_text n : 0 <= n -> dec_text (format_int n) n 0.
Proof. intros H. apply (put_dot_text n 0 H). lia. Qed.

Lemma pow_pos b k : 0 < b -> 0 <= k -> Zpos (Z.to_pos (b ^ k)) = b ^ k.
Proof. intros H K. apply Z2Pos.id. apply Z.pow_pos_nonneg; lia. Qed.

Lemma exact_dec_text f : canonical f ->
  exists n k, 0 <= n /\ 0 <= k /\ dec_text (exact_dec f) n k /\ (Qmake n (Z.to_pos (10 ^ k)) == f_val f)%Q.
Proof.
  intros Hf. assert (0 <= fm f) by (destruct Hf as [->|?]; cbn; lia).
  unfold exact_dec, f_val. destruct (Z.leb_spec 0 (fe f)).
  - exists (fm f * 2 ^ fe f), 0. assert (0 <= fm f * 2 ^ fe f) by (apply Z.mul_nonneg_nonneg; [|apply Z.pow_nonneg]; lia).
    repeat split; [lia|lia|apply int_text; lia].
  - assert (P5 : 0 < 5 ^ (- fe f)) by (apply Z.pow_pos_nonneg; lia).
    exists (fm f * 5 ^ (- fe f)), (- fe f). repeat split; [nia|lia|apply put_dot_text; nia|].
    unfold Qeq. cbn [Qnum Qden]. rewrite !pow_pos by lia.
    replace 10 with (5 * 2) by lia. rewrite Z.pow_mul_l. ring.
Qed.

Lemma parses_to_eq s f : parses_to s f = true -> parse_float s = Some f.
Proof.
  unfold parses_to. destruct (parse_float s) as [g|]; [|discriminate]. unfold f64_eqb. intros H.
  destruct f, g. cbn in H. f_equal. f_equal; lia.
Qed.

Lemma candidate_text f k s : 0 <= fm f -> candidate f k = Some s ->
  (exists n j, 0 <= n /\ 0 <= j /\ dec_text s n j) /\ parse_float s = Some f.
Proof.
  intros Hf. unfold candidate. cbv zeta.
  set (num := if 0 <=? k then f64_num f * 10 ^ k else f64_num f).
  set (den := if 0 <=? k then f64_den f else f64_den f * 10 ^ (- k)).
  assert (Q : 0 <= num / den).
  { assert (0 <= f64_num f) by (unfold f64_num; destruct (0 <=? fe f); [apply Z.mul_nonneg_nonneg; [lia|apply Z.pow_nonneg; lia]|lia]).
    assert (0 < f64_den f) by (unfold f64_den; destruct (Z.leb_spec 0 (fe f)); [lia|apply Z.pow_pos_nonneg; lia]).
    apply Z.div_pos; unfold num, den; destruct (Z.leb_spec 0 k).
    - apply Z.mul_nonneg_nonneg; [lia|apply Z.pow_nonneg; lia].
    - lia.
    - lia.
    - apply Z.mul_pos_pos; [lia|apply Z.pow_pos_nonneg; lia]. }
  assert (S : forall n, 0 <= n -> exists n' j, 0 <= n' /\ 0 <= j /\
     dec_text (if 0 <=? k then put_dot n k else format_int (n * 10 ^ (- k))) n' j).
  { intros n Hn. destruct (Z.leb_spec 0 k).
    - exists n, k. repeat split; [lia|lia|apply put_dot_text; lia].
    - assert (0 <= n * 10 ^ (- k)) by (apply Z.mul_nonneg_nonneg; [lia|apply Z.pow_nonneg; lia]).
      exists (n * 10 ^ (- k)), 0. repeat split; [lia|lia|apply int_text; lia]. }
  pose proof (S (num / den) Q) as S0. pose proof (S (num / den + 1) ltac:(lia)) as S1.
  set (lo := if 0 <=? k then put_dot (num / den) k else _) in *.
  set (hi := if 0 <=? k then put_dot (num / den + 1) k else _) in *.
  destruct (2 * (num mod den) <=? den);
    (destruct (parses_to lo f) eqn:E1; destruct (parses_to hi f) eqn:E2); intros H; try discriminate H;
    injection H as <-; split; auto; apply parses_to_eq; assumption.
Qed.

Lemma shortest_text f n : 0 <= fm f -> forall k s, shortest f k n = Some s ->
  (exists n j, 0 <= n /\ 0 <= j /\ dec_text s n j) /\ parse_float s = Some f.
Proof.
  intros Hf. induction n as [|n IH]; intros k s H; [discriminate|]. cbn [shortest] in H.
  destruct (candidate f k) eqn:E; [injection H as <-; apply (candidate_text f k); assumption|eauto].
Qed.

(** The printed form of a float reads back as that float. *)
Lemma format_float_text f : canonical f ->
  (exists n j, 0 <= n /\ 0 <= j /\ dec_text (format_float f) n j) /\ parse_float (format_float f) = Some f.
Proof.
  intros Hf. assert (0 <= fm f) by (destruct Hf as [->|?]; cbn; lia). unfold format_float.
  destruct (Z.eqb_spec (fm f) 0) as [Z0|Z0].
  - assert (f = mkF 0 0) as -> by (destruct Hf as [->|?]; [reflexivity|lia]).
    split; [|reflexivity]. exists 0, 0. split; [lia|]. split; [lia|]. left. repeat split. discriminate.
  - cbv zeta. destruct (shortest f _ 22) as [s|] eqn:E.
    + apply (shortest_text f 22 H _ _ E).
    + destruct (exact_dec_text f Hf) as (n & k & Hn & Hk & T & V). split; [exists n, k; auto|].
      rewrite (parse_float_text _ _ _ T), <- (pow_pos 10 k) by lia. apply round_rat_exact; assumption.
Qed.
