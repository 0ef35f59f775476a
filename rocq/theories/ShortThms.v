(** Proofs about the printed form of decimals. *)
From Coq Require Import ZArith QArith Qabs Qpower List Bool Lia ZifyBool.
From Verif Require Import Base Dialect AST Num Token Prog Parser RoundSpec ValueSpec ValueThms NumThms FloatThms LexSpec LexFacts ParseSpec LiteralThms Printer WriteThms ShortSpec FloatShort.
Import ListNotations.
Open Scope Z_scope.

Lemma print_double p q f : sql_node (EDouble p q f) = format_float f.
Proof. unfold sql_node. rewrite builder_string_text. reflexivity. Qed.
Lemma dec_scaled n k : (dec n k == scaled n k)%Q. Proof. apply dec_pow. Qed.
Lemma show_written n k : 0 <= n -> written (show n k) (Z.max k 0) (scaled n k).
Proof.
  intros Hn. unfold show. destruct (Z.leb_spec 0 k) as [K|K].
  - rewrite Z.max_l by lia. destruct (put_dot_text n k Hn K) as [(D & V & ->)|(a & b & -> & Da & Db & V & ->)].
    + apply W_whole; [exact D|]. rewrite V. unfold scaled. cbn. ring.
    + unfold zlen. apply W_dotted; [exact Da|exact Db|]. rewrite <- dec_scaled. unfold dec, dec_frac, zlen. rewrite V.
      destruct (Z.leb_spec 0 (Z.of_nat (List.length b))); [reflexivity|lia].
  - rewrite Z.max_r by lia. pose proof (ten_pos (- k) ltac:(lia)). assert (M : 0 <= n * 10 ^ (- k)) by nia.
    destruct (format_int_ok _ M) as [D V]. apply W_whole; [exact D|]. rewrite V, <- dec_scaled. unfold dec.
    destruct (Z.leb_spec 0 k); [lia|reflexivity].
Qed.
Lemma print_shortest p q f : canonical f -> f <> mkF 0 0 -> exists n k, 0 <= n /\
  written (sql_node (EDouble p q f)) (Z.max k 0) (scaled n k) /\ reads_as (scaled n k) f /\
  (forall m, 0 <= m -> reads_as (scaled m k) f -> (Qabs (scaled n k - f_val f) <= Qabs (scaled m k - f_val f))%Q) /\
  (forall m i, 0 <= m -> i < k -> ~ reads_as (scaled m i) f).
Proof.
  intros Hf N. assert (H : 0 < fm f) by (destruct Hf as [->|?]; [congruence|lia]).
  destruct (format_float_spec f Hf H) as (n & k & Hn & E & R & C & M). exists n, k. split; [exact Hn|].
  rewrite print_double, E. split; [now apply show_written|]. split; [exact (rounds_compat _ _ _ (dec_scaled n k) R)|]. split.
  - intros m Hm Rm. rewrite <- !dec_scaled. apply (C m Hm). exact (rounds_compat _ _ _ (Qeq_sym _ _ (dec_scaled m k)) Rm).
  - intros m i Hm I Rm. apply (M m i I Hm). exact (rounds_compat _ _ _ (Qeq_sym _ _ (dec_scaled m i)) Rm).
Qed.
Lemma print_distinct p q p' q' f g : canonical f -> canonical g -> sql_node (EDouble p q f) = sql_node (EDouble p' q' g) -> f = g.
Proof.
  rewrite !print_double. intros Hf Hg E. pose proof (proj2 (format_float_text f Hf)) as A. rewrite E, (proj2 (format_float_text g Hg)) in A. congruence.
Qed.
Lemma print_short p q f a b : digits a -> forallb is_digit b = true -> reads_as (dec_frac a b) f ->
  (List.length (sql_node (EDouble p q f)) <= List.length (a ++ 46%Z :: b))%nat.
Proof.
  intros [Na Da] Db R. rewrite print_double, app_length. cbn [List.length].
  assert (V : forallb is_digit (a ++ b) = true) by (rewrite forallb_app, Da, Db; reflexivity).
  pose proof (digits_bound _ V) as B. rewrite app_length in B.
  assert (A : (1 <= List.length a)%nat) by (destruct a; [congruence|cbn; lia]).
  pose proof (format_float_len f _ (List.length a) (List.length b) (proj1 (proj1 R)) A B) as G.
  assert (R' : rounds (dec (dec_val (a ++ b)) (Z.of_nat (List.length b))) f).
  { unfold dec. destruct (Z.leb_spec 0 (Z.of_nat (List.length b))); [|lia]. exact R. }
  specialize (G R'). lia.
Qed.
Lemma literal_short d a b p q f : dialect_ok d -> digits a -> digits b -> parse_expr_source d (a ++ 46 :: b) = ROk (EDouble p q f) ->
  (List.length (sql_node (EDouble p q f)) <= List.length (a ++ 46%Z :: b))%nat.
Proof.
  intros D Da Db E. apply print_short; [exact Da|apply Db|].
  destruct (decimal_literal d a b D Da Db) as [(p' & q' & f' & E' & R & O)|[E' _]]; rewrite E in E'; [|discriminate].
  injection E' as <- <- <-. split; assumption.
Qed.
Lemma without_dot : exists a f p q, digits a /\ reads_as (inject_Z (dec_val a)) f /\ (List.length (sql_node (EDouble p q f)) > List.length a)%nat.
Proof.
  exists (repeat 57 20), (mkF 6103515625000000 14), pos0, pos0. split; [split; [discriminate|reflexivity]|]. split.
  - apply (round_rat_rounds (dec_val (repeat 57 20)) 1); [vm_compute; discriminate|]. vm_compute. reflexivity.
  - vm_compute. Lia.lia.
Qed.
