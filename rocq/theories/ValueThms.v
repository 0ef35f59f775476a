(** Literals and identifiers through the public entry points. *)
From Coq Require Import ZArith QArith Qabs List Bool String Lia ZifyBool.
From Verif Require Import Base Dialect Token Lexer LexSpec LexFacts LexThms AST Num Printer Prog Parser
  ParseSpec SrcThms ValueSpec NumThms FloatThms WriteThms.
Import ListNotations.
Open Scope Z_scope.

(** A source that is one token. *)
Lemma one_token {A} (P : rec -> prog A) d k v s : dialect_ok d -> lexeme d k v s [] -> skip_bom s = s ->
  parse_with P d s = res_of (run_raw P [mkTok k v start_pos (token_end k v s start_pos)]).
Proof.
  intros D L B. unfold parse_with.
  assert (R : reads d start_pos (skip_bom s) [(mkTok k v start_pos (token_end k v s start_pos), s)] []).
  { rewrite B. rewrite <- (app_nil_r s) at 1. econstructor; [exact L|reflexivity|constructor]. }
  rewrite (tokenize_complete d s _ D R). reflexivity.
Qed.

Lemma bom_digit c s : is_digit c = true -> skip_bom (c :: s) = c :: s.
Proof. intros H. unfold skip_bom. destruct (Z.eqb_spec c 65279); [subst; discriminate H|reflexivity]. Qed.

(** The value of a number token. *)
Definition number_node (s : gostring) (p q : pos) : result node :=
  if existsb (fun c => c =? 46) s then
    match parse_float s with Some f => ROk (EDouble p q f) | None => RErr end
  else ROk (ELong (mkLong p q (match atoi s with AOk v => v | ARange v => v | ASyntax => 0 end))).

Lemma expr_number s p q :
  res_of (run_raw parse_expr [mkTok Number (VStr s) p q]) = number_node s p q.
Proof.
  unfold run_raw, number_node. change (fuel_for [mkTok Number (VStr s) p q]) with 3%nat.
  unfold parse_expr. change (knot 3) with
    (mkRec 4 (parse_statement (knot 2)) (parse_query (knot 2)) (parse_query_body (knot 2))
       (parse_subexpr (knot 2)) (parse_table_reference (knot 2))).
  cbn [r_subexpr]. assert (F : exists n, r_fuel (knot 2) = S n) by (eexists; reflexivity).
  generalize dependent (knot 2). intros r [n F]. unfold parse_subexpr, infix_loop. rewrite F.
  cbn. destruct (existsb (fun c => c =? 46) s); [|reflexivity].
  destruct (parse_float s); reflexivity.
Qed.

Lemma source_number d s : dialect_ok d -> digits s \/ (exists a b : list rune, s = a ++ 46 :: b /\ digits a /\ digits b) ->
  exists p q, parse_expr_source d s = number_node s p q.
Proof.
  intros D H.
  assert (N : exists c w, s = c :: w /\ is_digit c = true /\ forallb (fun r => is_digit r || (r =? 46)) w = true).
  { assert (W : forall w, forallb is_digit w = true -> forallb (fun r => is_digit r || (r =? 46)) w = true).
    { intros w. rewrite !forallb_forall. intros X r I. rewrite (X r I). reflexivity. }
    destruct H as [[H1 H2]|(a & b & -> & [A1 A2] & [B1 B2])].
    - destruct s as [|c w]; [congruence|]. cbn in H2. apply andb_true_iff in H2. destruct H2. eauto 6.
    - destruct a as [|c w]; [congruence|]. cbn in A2. apply andb_true_iff in A2. destruct A2.
      exists c, (w ++ 46 :: b). split; [reflexivity|]. split; [assumption|].
      rewrite forallb_app. cbn. rewrite !W by assumption. reflexivity. }
  destruct N as (c & w & -> & Hc & Hw). do 2 eexists. unfold parse_expr_source.
  rewrite (one_token parse_expr d Number (VStr (c :: w)) (c :: w) D).
  - apply expr_number.
  - constructor; [assumption|assumption|exact I].
  - apply bom_digit. exact Hc.
Qed.

Lemma digits_nodot s : forallb is_digit s = true -> existsb (fun c => c =? 46) s = false.
Proof.
  induction s as [|c s IH]; intros H; [reflexivity|]. cbn in *. apply andb_true_iff in H. destruct H as [Hc H].
  rewrite (IH H), orb_false_r. destruct (Z.eqb_spec c 46); [subst; discriminate Hc|reflexivity].
Qed.

(** C25. *)
Lemma integer_literal d s : dialect_ok d -> digits s ->
  exists p q, parse_expr_source d s = ROk (ELong (mkLong p q (Z.min (dec_val s) (2 ^ 63 - 1)))).
Proof.
  intros D H. destruct (source_number d s D (or_introl H)) as (p & q & E). exists p, q. rewrite E.
  unfold number_node. rewrite (digits_nodot s (proj2 H)).
  change (2 ^ 63 - 1) with max_int.
  destruct (Z.le_gt_cases (dec_val s) max_int) as [L|L].
  - rewrite (atoi_ok s H L), Z.min_l by assumption. reflexivity.
  - rewrite (atoi_range s H L), Z.min_r by lia. reflexivity.
Qed.

Lemma integer_exact d s : dialect_ok d -> digits s -> dec_val s < 2 ^ 63 ->
  exists p q, parse_expr_source d s = ROk (ELong (mkLong p q (dec_val s))).
Proof.
  intros D H L. destruct (integer_literal d s D H) as (p & q & E). exists p, q. rewrite E, Z.min_l by lia. reflexivity.
Qed.

Lemma integer_saturates d s : dialect_ok d -> digits s -> 2 ^ 63 <= dec_val s ->
  exists p q, parse_expr_source d s = ROk (ELong (mkLong p q (2 ^ 63 - 1))).
Proof.
  intros D H L. destruct (integer_literal d s D H) as (p & q & E). exists p, q. rewrite E, Z.min_r by lia. reflexivity.
Qed.

Lemma sql_long p q v : sql_node (ELong (mkLong p q v)) = format_int v.
Proof. unfold sql_node. rewrite builder_string_text. reflexivity. Qed.

Lemma long_negative p q v : v < 0 ->
  exists s, sql_node (ELong (mkLong p q v)) = 45 :: s /\ digits s /\ dec_val s = - v.
Proof.
  intros H. rewrite sql_long. exists (format_int (- v)). destruct (format_int_ok (- v) ltac:(lia)) as [D E].
  split; [|auto]. unfold format_int. destruct (Z.ltb_spec v 0); [|lia]. destruct (Z.ltb_spec (- v) 0); [lia|]. reflexivity.
Qed.

Lemma integer_reread d p q v : dialect_ok d -> 0 <= v < 2 ^ 63 ->
  exists p' q', parse_expr_source d (sql_node (ELong (mkLong p q v))) = ROk (ELong (mkLong p' q' v)).
Proof.
  intros D H. rewrite sql_long. destruct (format_int_ok v ltac:(lia)) as [F1 F2].
  destruct (integer_exact d _ D F1 ltac:(lia)) as (p' & q' & E). rewrite F2 in E. eauto.
Qed.

(** C26. *)
Lemma dot_in (a b : list rune) : existsb (fun c => c =? 46) (a ++ 46 :: b) = true.
Proof. rewrite existsb_app. cbn. rewrite orb_true_r. reflexivity. Qed.

Lemma decimal_literal d (a b : list rune) : dialect_ok d -> digits a -> digits b ->
  (exists p q f, parse_expr_source d (a ++ 46 :: b) = ROk (EDouble p q f) /\
     nearest (dec_frac a b) f /\ (dec_frac a b < f_overflow)%Q) \/
  (parse_expr_source d (a ++ 46 :: b) = RErr /\ (f_overflow <= dec_frac a b)%Q).
Proof.
  intros D A B.
  destruct (source_number d (a ++ 46 :: b) D (or_intror (ex_intro _ a (ex_intro _ b (conj eq_refl (conj A B)))))) as (p & q & E).
  rewrite E. unfold number_node. rewrite dot_in.
  rewrite (parse_float_text _ (dec_val (a ++ b)) (zlen b)) by (right; exists a, b; repeat split; auto; apply A || apply B).
  assert (N : 0 <= dec_val (a ++ b)).
  { apply dec_val_nonneg. rewrite forallb_app, (proj2 A), (proj2 B). reflexivity. }
  pose proof (round_rat_nearest _ (Z.to_pos (10 ^ zlen b)) N) as R. rewrite pow_pos in R by (unfold zlen; lia).
  destruct (round_rat _ _) as [f|].
  - left. exists p, q, f. split; [reflexivity|exact R].
  - right. split; [reflexivity|exact R].
Qed.

Lemma sql_double p q f : sql_node (EDouble p q f) = format_float f.
Proof. unfold sql_node. rewrite builder_string_text. reflexivity. Qed.

(** Integers in binary64. *)
Lemma int_val f : canonical f -> (exists n, 0 <= n /\ (n # 1 == f_val f)%Q) \/ ~ (exists n, (n # 1 == f_val f)%Q).
Proof.
  intros Hf. assert (Hm : 0 <= fm f) by (destruct Hf as [->|?]; cbn; lia).
  unfold f_val. destruct (Z.leb_spec 0 (fe f)) as [E|E].
  - left. exists (fm f * 2 ^ fe f). split; [apply Z.mul_nonneg_nonneg; [lia|apply Z.pow_nonneg; lia]|reflexivity].
  - destruct (Z.eq_dec (fm f mod 2 ^ (- fe f)) 0) as [M|M].
    + left. exists (fm f / 2 ^ (- fe f)).
      assert (P : 0 < 2 ^ (- fe f)) by (apply Z.pow_pos_nonneg; lia).
      split; [apply Z.div_pos; lia|]. unfold Qeq. cbn [Qnum Qden]. rewrite pow_pos by lia.
      pose proof (Z.div_mod (fm f) (2 ^ (- fe f)) ltac:(lia)). lia.
    + right. intros [n V]. apply M. unfold Qeq in V. cbn [Qnum Qden] in V. rewrite pow_pos in V by lia.
      rewrite Z.mul_1_r in V. rewrite <- V. apply Z.mod_mul.
      pose proof (Z.pow_pos_nonneg 2 (- fe f)). lia.
Qed.

(** Every integer below 2^53 is representable. *)
Lemma small_int n : 0 <= n < 2 ^ 53 -> exists f, canonical f /\ (n # 1 == f_val f)%Q.
Proof.
  intros H. destruct (Z.eq_dec n 0) as [->|N]; [exists (mkF 0 0); split; [left; reflexivity|reflexivity]|].
  pose proof (Z.log2_spec n ltac:(lia)) as [L1 L2]. pose proof (Z.log2_nonneg n) as L0.
  assert (L3 : Z.log2 n < 53).
  { apply Z.log2_lt_pow2; lia. }
  set (k := 52 - Z.log2 n). assert (0 <= k <= 52) by lia.
  assert (P : 0 < 2 ^ k) by (apply Z.pow_pos_nonneg; lia).
  exists (mkF (n * 2 ^ k) (- k)). split.
  - right. cbn [fm fe].
    assert (2 ^ 52 = 2 ^ Z.log2 n * 2 ^ k) by (rewrite <- Z.pow_add_r by lia; f_equal; lia).
    assert (2 ^ 53 = 2 ^ Z.succ (Z.log2 n) * 2 ^ k) by (rewrite <- Z.pow_add_r by lia; f_equal; lia).
    split; [split; nia|]. split; [lia|left; nia].
  - unfold f_val. cbn [fm fe]. destruct (Z.leb_spec 0 (- k)) as [E|E].
    + assert (k = 0) by lia. subst k. rewrite H1. cbn. unfold Qeq, inject_Z. cbn. lia.
    + unfold Qeq. cbn [Qnum Qden]. rewrite pow_pos by lia. rewrite Z.opp_involutive. lia.
Qed.

Lemma qint_inj a b : (a # 1 == b # 1)%Q -> a = b.
Proof. unfold Qeq. cbn. lia. Qed.

(** A float not below 2^53 is an integer. *)
Lemma big_int f : canonical f -> (inject_Z (2 ^ 53) <= f_val f)%Q -> exists n, (n # 1 == f_val f)%Q.
Proof.
  intros Hf L. unfold f_val in *. destruct (Z.leb_spec 0 (fe f)) as [E|E].
  - exists (fm f * 2 ^ fe f). reflexivity.
  - exfalso. unfold Qle, inject_Z in L. cbn [Qnum Qden] in L. rewrite pow_pos in L by lia.
    assert (2 ^ 1 <= 2 ^ (- fe f)) by (apply Z.pow_le_mono_r; lia). change (2 ^ 1) with 2 in *.
    destruct Hf as [->|Hf]; [cbn in E; lia|]. nia.
Qed.

(** Rounding is monotone enough: an integer from 2^53 on does not round below. *)
Lemma round_big n f : 2 ^ 53 <= n -> nearest (n # 1) f -> (inject_Z (2 ^ 53) <= f_val f)%Q.
Proof.
  intros Hn [Hf H]. destruct (Qlt_le_dec (f_val f) (inject_Z (2 ^ 53))) as [L|L]; [exfalso|exact L].
  assert (C : canonical (mkF (2 ^ 52) 1)) by (right; cbn; lia).
  destruct (H _ C) as [H1 _]. assert (V : (f_val (mkF (2 ^ 52) 1) == inject_Z (2 ^ 53))%Q) by reflexivity.
  rewrite V in H1.
  assert (N : (inject_Z (2 ^ 53) <= n # 1)%Q) by (unfold Qle, inject_Z; cbn [Qnum Qden]; lia).
  rewrite (Qabs_neg (f_val f - (n # 1))) in H1.
  - rewrite Qabs_neg in H1.
    + assert (X : (inject_Z (2 ^ 53) <= f_val f)%Q).
      { apply Qopp_le_compat in H1. rewrite !Qopp_involutive in H1.
        apply (Qplus_le_l _ _ (n # 1)) in H1.
        setoid_replace (inject_Z (2 ^ 53) - (n # 1) + (n # 1))%Q with (inject_Z (2 ^ 53)) in H1 by ring.
        setoid_replace (f_val f - (n # 1) + (n # 1))%Q with (f_val f) in H1 by ring. exact H1. }
      apply (Qlt_irrefl (f_val f)). eapply Qlt_le_trans; eassumption.
    + apply (Qplus_le_l _ _ (n # 1)).
      setoid_replace (inject_Z (2 ^ 53) - (n # 1) + (n # 1))%Q with (inject_Z (2 ^ 53)) by ring.
      setoid_replace (0 + (n # 1))%Q with (n # 1)%Q by ring. exact N.
  - apply (Qplus_le_l _ _ (n # 1)).
    setoid_replace (f_val f - (n # 1) + (n # 1))%Q with (f_val f) by ring.
    setoid_replace (0 + (n # 1))%Q with (n # 1)%Q by ring. apply Qlt_le_weak. eapply Qlt_le_trans; eassumption.
Qed.

(** Reading an integer text as a float: the value is exact below 2^53. *)
Lemma round_int n f : 0 <= n -> round_rat n 1 = Some f ->
  canonical f /\ ((n # 1 == f_val f)%Q \/ (inject_Z (2 ^ 53) <= f_val f)%Q).
Proof.
  intros Hn E. pose proof (round_rat_nearest n 1 Hn) as R. rewrite E in R. destruct R as [R _].
  split; [apply R|]. destruct (Z.lt_ge_cases n (2 ^ 53)) as [L|L].
  - left. destruct (small_int n ltac:(lia)) as (g & Hg & V). rewrite (round_rat_exact n 1 g Hg V Hn) in E.
    injection E as <-. exact V.
  - right. apply (round_big n f L R).
Qed.

Lemma decimal_reread d p q f : dialect_ok d -> canonical f ->
  (exists p' q', parse_expr_source d (sql_node (EDouble p q f)) = ROk (EDouble p' q' f)) \/
  (exists n, (n # 1 == f_val f)%Q /\ exists p' q' v,
     parse_expr_source d (sql_node (EDouble p q f)) = ROk (ELong (mkLong p' q' v)) /\
     ((f_val f < inject_Z (2 ^ 53))%Q -> v = n)).
Proof.
  intros D Hf. rewrite sql_double. destruct (format_float_text f Hf) as [(n & j & Hn & Hj & T) PF].
  destruct T as [(T1 & T2 & ->)|(a & b & E & A & B & T2 & T3)].
  - right. pose proof (parse_float_text (format_float f) n 0 (or_introl (conj T1 (conj T2 eq_refl)))) as PT.
    rewrite PF in PT. change (10 ^ 0) with 1 in PT. destruct (round_int n f Hn (eq_sym PT)) as [_ R].
    destruct (integer_literal d _ D T1) as (p' & q' & E).
    assert (I : exists m, (m # 1 == f_val f)%Q).
    { destruct R as [R|R]; [exists n; exact R|apply big_int; assumption]. }
    destruct I as [m M]. exists m. split; [exact M|]. exists p', q', (Z.min (dec_val (format_float f)) (2 ^ 63 - 1)).
    split; [exact E|]. intros L. destruct R as [R|R].
    + assert (n = m) by (apply qint_inj; rewrite R, M; reflexivity). subst m. rewrite T2, Z.min_l; [reflexivity|].
      rewrite <- R in L. unfold Qlt, inject_Z in L. cbn [Qnum Qden] in L. lia.
    + exfalso. apply (Qlt_irrefl (f_val f)). eapply Qlt_le_trans; eassumption.
  - left. destruct (source_number d (format_float f) D (or_intror (ex_intro _ a (ex_intro _ b (conj E (conj A B)))))) as (p' & q' & E').
    exists p', q'. rewrite E'. unfold number_node. rewrite PF. rewrite E, dot_in. reflexivity.
Qed.

Lemma decimal_reread_fraction d p q f : dialect_ok d -> canonical f -> ~ (exists n, (n # 1 == f_val f)%Q) ->
  exists p' q', parse_expr_source d (sql_node (EDouble p q f)) = ROk (EDouble p' q' f).
Proof.
  intros D Hf N. destruct (decimal_reread d p q f D Hf) as [H|(n & V & _)]; [exact H|]. exfalso. eauto.
Qed.

(** C27. *)
Lemma expr_string s p q : res_of (run_raw parse_expr [mkTok SingleQuotedString (VStr s) p q]) = ROk (EString p q s).
Proof. reflexivity. Qed.
Lemma expr_nstring s p q : res_of (run_raw parse_expr [mkTok NationalStringLiteral (VStr s) p q]) = ROk (ENString p q s).
Proof. reflexivity. Qed.

Lemma escape_id s : ~ In 39 s -> escape s = s.
Proof.
  induction s as [|c s IH]; intros H; [reflexivity|]. cbn [escape flat_map]. fold (escape s).
  rewrite IH by (intros I; apply H; right; exact I).
  destruct (Z.eqb_spec c 39); [exfalso; apply H; left; assumption|reflexivity].
Qed.

Lemma escape_len s : (List.length s <= List.length (escape s))%nat /\
  (In 39 s -> (List.length s < List.length (escape s))%nat).
Proof.
  induction s as [|c s [IH1 IH2]]; [split; [auto|intros []]|]. cbn [escape flat_map]. fold (escape s).
  destruct (Z.eqb_spec c 39); cbn [app List.length]; split; try lia.
  intros [I|I]; [congruence|]. specialize (IH2 I). lia.
Qed.

Lemma sql_string p q s : sql_node (EString p q s) = 39 :: s ++ [39].
Proof. unfold sql_node. rewrite builder_string_text. cbn. reflexivity. Qed.
Lemma sql_nstring p q s : sql_node (ENString p q s) = 78 :: 39 :: s ++ [39].
Proof. unfold sql_node. rewrite builder_string_text. cbn. reflexivity. Qed.

(** The printed literal is one string token of the right value, whatever
    (other than a quote) follows, exactly when the value has no quote. *)
Lemma string_safe d p q s rest : dialect_ok d -> stops (fun r => r =? 39) rest ->
  lexeme d SingleQuotedString (VStr s) (sql_node (EString p q s)) rest <-> ~ In 39 s.
Proof.
  intros D St. rewrite sql_string. split.
  - intros L I. pose proof (proj2 (escape_len s) I) as Hl. inversion L.
    + match goal with H : escape _ ++ _ = _ |- _ => apply app_inv_tail in H; rewrite H in Hl end. lia.
    + match goal with H : In _ symbols |- _ => cbn in H; repeat (destruct H as [H|H]; [discriminate H|]); exact H end.
  - intros N. rewrite <- (escape_id s N) at 2. constructor. exact St.
Qed.

Lemma string_reread d p q s : dialect_ok d -> ~ In 39 s ->
  exists p' q', parse_expr_source d (sql_node (EString p q s)) = ROk (EString p' q' s).
Proof.
  intros D N. do 2 eexists. unfold parse_expr_source.
  rewrite (one_token parse_expr d SingleQuotedString (VStr s)); [apply expr_string|exact D| |].
  - apply string_safe; [exact D|exact I|exact N].
  - rewrite sql_string. reflexivity.
Qed.

Lemma nstring_reread d p q s : dialect_ok d -> ~ In 39 s ->
  exists p' q', parse_expr_source d (sql_node (ENString p q s)) = ROk (ENString p' q' s).
Proof.
  intros D N. do 2 eexists. unfold parse_expr_source. rewrite sql_nstring.
  rewrite (one_token parse_expr d NationalStringLiteral (VStr s)); [apply expr_nstring|exact D| |reflexivity].
  rewrite <- (escape_id s N) at 2. constructor. exact I.
Qed.

(** With a quote inside, the printed text is never that one string. *)
Lemma string_unsafe d p q s t : dialect_ok d -> In 39 s ->
  tokenize d true (sql_node (EString p q s)) = TOk [t] -> tkind t = SingleQuotedString -> tval t <> VStr s.
Proof.
  intros D I T K V. destruct (tokenize_reads d _ _ D T) as (l & R & E).
  rewrite sql_string in R. change (skip_bom (39 :: s ++ [39])) with (39 :: s ++ [39]) in R.
  destruct l as [|[t' sl] [|? ?]]; cbn in E; try discriminate E. injection E as E. subst t'.
  inversion R as [|p0 q0 s0 text k v l rest L Q R']; subst. inversion R'; subst. rewrite app_nil_r in *.
  cbn [tkind tval] in *. subst k v. apply (string_safe d p q s [] D); [exact Logic.I| |exact I].
  rewrite sql_string.
  match goal with H : sl = _ |- _ => exact (eq_ind sl (fun x => lexeme d _ _ x []) L _ H) end.
Qed.

(** C24. *)
Lemma quoted_identifier d q s : dialect_ok d -> is_delim d q = true -> ~ In q s -> ~ In (upper s) expr_keywords ->
  exists p p', parse_expr_source d (q :: s ++ [q]) = ROk (EIdent (mkIdent (q :: s ++ [q]) p p')).
Proof.
  intros D Q N K. assert (Hq : q = 34 \/ q = 96) by (apply D; exact Q).
  exists start_pos, (token_end SQLKeyword (VWord (mkWord s q (upper s))) (q :: s ++ [q]) start_pos). unfold parse_expr_source.
  rewrite (one_token parse_expr d SQLKeyword (VWord (mkWord s q (upper s)))); [|exact D|constructor; assumption|destruct Hq as [-> | ->]; reflexivity].
  generalize (token_end SQLKeyword (VWord (mkWord s q (upper s))) (q :: s ++ [q]) start_pos). intros e.
  unfold run_raw. change (fuel_for _) with 3%nat. unfold parse_expr. change (knot 3) with
    (mkRec 4 (parse_statement (knot 2)) (parse_query (knot 2)) (parse_query_body (knot 2))
       (parse_subexpr (knot 2)) (parse_table_reference (knot 2))).
  cbn [r_subexpr]. assert (F : exists n, r_fuel (knot 2) = S n) by (eexists; reflexivity).
  generalize dependent (knot 2). intros r [n F]. unfold parse_subexpr, infix_loop. rewrite F.
  assert (KW : forall x, In x ["TRUE"; "FALSE"; "NULL"; "CASE"; "CAST"; "EXISTS"; "NOT"]%string ->
                         kw (mkWord s q (upper s)) x = false).
  { intros x I. unfold kw. cbn [wkeyword]. destruct (gs_eqb (upper s) (gs x)) eqn:E; [|reflexivity].
    apply gs_eqb_eq in E. exfalso. apply K. rewrite E. apply in_map. exact I. }
  unfold parse_prefix, next_err. cbn [bind run m_next raw_machine raw_next skipped is_ws_kind tkind fst snd word_of tval].
  rewrite !KW by (cbn; tauto).
  destruct Hq as [-> | ->]; reflexivity.
Qed.
